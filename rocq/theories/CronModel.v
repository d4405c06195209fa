(** Model of the cron field parser, /repo/lib/timer/timer_express.go.

    A Go string is its list of code points (valid UTF-8 only); strings.Index counts
    bytes and subString counts runes, and both are modelled so.  The map of times is
    a list of its keys; int is 64 bits wide and i + frequency wraps around.  Loops run
    on fuel: [None] means that the loop is still running after that many rounds. *)
From Coq Require Import List ZArith Bool.
Import ListNotations.
Open Scope Z_scope.

Definition gostring := list Z.
(** Bytes of a code point in UTF-8. *)
Definition width (c : Z) : Z := if c <? 128 then 1 else if c <? 2048 then 2 else if c <? 65536 then 3 else 4.
Definition slash : Z := 47.   Definition star : Z := 42.
Definition comma : Z := 44.   Definition dash : Z := 45.   Definition plus : Z := 43.

(** strings.Contains and strings.Index for a one-byte needle. *)
Definition contains (s : gostring) (c : Z) : bool := existsb (Z.eqb c) s.
Fixpoint index (s : gostring) (c : Z) : Z :=
  match s with
  | [] => -1
  | x :: r => if x =? c then 0 else let i := index r c in if i <? 0 then i else width x + i
  end.
(** subString, lines 191-204. *)
Definition subString (s : gostring) (begin end_ : Z) : gostring :=
  let length := Z.of_nat (List.length s) in
  let b := if begin <? 0 then 0 else begin in
  if length <=? b then []
  else if (end_ =? -1) || (length <? end_) then skipn (Z.to_nat b) s
  else skipn (Z.to_nat b) (firstn (Z.to_nat end_) s).
(** strings.Split. *)
Fixpoint split (s : gostring) (c : Z) : list gostring :=
  match s with
  | [] => [[]]
  | x :: r =>
    if x =? c then [] :: split r c
    else match split r c with
         | [] => [[x]]
         | p :: q => (x :: p) :: q
         end
  end.

(** strconv.Atoi: an optional sign and decimal digits, within int64. *)
Definition is_digit (c : Z) : bool := (48 <=? c) && (c <=? 57).
Definition digits (s : gostring) : option Z :=
  if forallb is_digit s && negb (Nat.eqb (List.length s) 0)
  then Some (fold_left (fun a c => 10 * a + (c - 48)) s 0) else None.
Definition int64 (x : Z) : option Z := if (- 2 ^ 63 <=? x) && (x <? 2 ^ 63) then Some x else None.
Definition atoi (s : gostring) : option Z :=
  match s with
  | [] => None
  | c :: r =>
    match (if c =? dash then option_map Z.opp (digits r) else if c =? plus then digits r else digits s) with
    | Some x => int64 x
    | None => None
    end
  end.
(** Addition of ints. *)
Definition wrap (x : Z) : Z := (x + 2 ^ 63) mod 2 ^ 64 - 2 ^ 63.

Inductive ftype := Weekday | Month | Day | Hour | Minute | Second.
(** Lines 10-22. *)
Definition vmax (t : ftype) : Z := match t with Weekday => 7 | Month => 12 | Day => 31 | Hour => 23 | Minute => 59 | Second => 59 end.
Definition vmin (t : ftype) : Z := match t with Weekday => 0 | Month => 1 | Day => 1 | Hour => 0 | Minute => 0 | Second => 0 end.

(** for i := i; i <= last; i = i + frequency { timeMap[i] = i } *)
Fixpoint loop (fuel : nat) (i last f : Z) (acc : list Z) : option (list Z) :=
  if i <=? last
  then match fuel with
       | O => None
       | S n => loop n (wrap (i + f)) last f (i :: acc)
       end
  else Some acc.

(** One element of the list, lines 117-171. *)
Definition parse_item (fuel : nat) (t : ftype) (f : Z) (val : gostring) (acc : list Z) : option (list Z) :=
  match val with
  | [] => Some acc
  | _ =>
    if negb (contains val dash)
    then match atoi val with Some x => Some (x :: acc) | None => Some acc end
    else
      match atoi (subString val 0 (index val dash)), atoi (subString val (index val dash + 1) (-1)) with
      | Some first, Some last =>
        if (vmax t <? last) || (last <? vmin t) || (first <? vmin t) || (vmax t <? first) then Some acc
        else if first <=? last then loop fuel first last f acc
        else match loop fuel first (vmax t) f acc with
             | Some acc' => loop fuel (vmin t) last f acc'
             | None => None
             end
      | _, _ => Some acc
      end
  end.
Fixpoint parse_items (fuel : nat) (t : ftype) (f : Z) (vals : list gostring) (acc : list Z) : option (list Z) :=
  match vals with
  | [] => Some acc
  | v :: r => match parse_item fuel t f v acc with Some acc' => parse_items fuel t f r acc' | None => None end
  end.
(** Lines 176-185. *)
Definition sunday (t : ftype) (l : list Z) : list Z :=
  match t with
  | Weekday => if existsb (Z.eqb 7) l then 0 :: filter (fun x => negb (x =? 7)) l else l
  | _ => l
  end.
(** parseExpress, lines 69-189: the result of a finished run is a set or nil. *)
Definition parse_with (fuel : nat) (express : gostring) (t : ftype) (f : Z) : option (list Z) :=
  match (match express with
         | [c] => if c =? star then loop fuel (vmin t) (vmax t) f [] else parse_items fuel t f (split express comma) []
         | _ => parse_items fuel t f (split express comma) []
         end) with
  | Some l => Some (sunday t l)
  | None => None
  end.
Definition parseExpress (fuel : nat) (express : gostring) (t : ftype) : option (option (list Z)) :=
  if contains express slash
  then match atoi (subString express (index express slash + 1) (-1)) with
       | None => Some None
       | Some f => option_map Some (parse_with fuel (subString express 0 (index express slash)) t f)
       end
  else option_map Some (parse_with fuel express t 1).

(** A time.Time, by the components IsMatch reads (lines 39-62). *)
Record time := mkTime { weekday : Z; month : Z; day : Z; hour : Z; minute : Z; second : Z }.
Definition component (t : ftype) (x : time) : Z :=
  match t with Weekday => weekday x | Month => month x | Day => day x | Hour => hour x | Minute => minute x | Second => second x end.
Definition IsMatch (set : list Z) (t : ftype) (x : time) : bool := existsb (Z.eqb (component t x)) set.
