(** What a cron field means. *)
From Coq Require Import List ZArith Bool.
From Verif Require Import CronModel.
Import ListNotations.
Open Scope Z_scope.

(** The smallest and the greatest value of a field; 7 is Sunday, like 0. *)
Definition least (t : ftype) : Z := match t with Weekday => 0 | Month => 1 | Day => 1 | Hour => 0 | Minute => 0 | Second => 0 end.
Definition greatest (t : ftype) : Z := match t with Weekday => 7 | Month => 12 | Day => 31 | Hour => 23 | Minute => 59 | Second => 59 end.
(** The part of a time that a field speaks of. *)
Definition part (t : ftype) (x : time) : Z :=
  match t with Weekday => weekday x | Month => month x | Day => day x | Hour => hour x | Minute => minute x | Second => second x end.

(** Decimal numerals. *)
Definition numeral (s : gostring) : Prop := s <> [] /\ forall c, In c s -> 48 <= c <= 57.
Fixpoint value_rev (s : gostring) : Z := match s with [] => 0 | c :: r => (c - 48) + 10 * value_rev r end.
Definition value (s : gostring) : Z := value_rev (rev s).

Inductive item := Val (s : gostring) | Range (a b : gostring).
Inductive body := Star | Items (l : list item).
Record expr := mkExpr { e_body : body; e_step : option gostring }.

(** How they are written. *)
Definition write_item (i : item) : gostring := match i with Val s => s | Range a b => a ++ [45] ++ b end. (* - *)
Fixpoint write_items (l : list item) : gostring :=
  match l with
  | [] => []
  | [i] => write_item i
  | i :: r => write_item i ++ [44] ++ write_items r (* , *)
  end.
Definition write (e : expr) : gostring :=
  match e_body e with Star => [42] (* an asterisk *) | Items l => write_items l end ++
  match e_step e with None => [] | Some s => [47] ++ s (* / *) end.

(** The step; without one it is 1. *)
Definition step_of (e : expr) : Z := match e_step e with None => 1 | Some s => value s end.

(** Legal: numerals within the bounds of the field, a positive step, not absurdly large. *)
Definition in_bounds (t : ftype) (s : gostring) : Prop := numeral s /\ least t <= value s <= greatest t.
Definition legal_item (t : ftype) (i : item) : Prop :=
  match i with Val s => in_bounds t s | Range a b => in_bounds t a /\ in_bounds t b end.
Definition legal (t : ftype) (e : expr) : Prop :=
  match e_body e with Star => True | Items l => l <> [] /\ forall i, In i l -> legal_item t i end /\
  match e_step e with None => True | Some s => numeral s /\ 0 < value s /\ value s + greatest t < 2 ^ 63 end.

(** From [a] to [b] in steps of [f]. *)
Definition stepped (a b f v : Z) : Prop := exists k, 0 <= k /\ v = a + k * f /\ v <= b.
(** The step is counted from the start of the range, across the wrap-around too. *)
Definition item_means (t : ftype) (f : Z) (i : item) (v : Z) : Prop :=
  match i with
  | Val s => v = value s
  | Range a b =>
    if value a <=? value b then stepped (value a) (value b) f v
    else stepped (value a) (greatest t) f v \/
         least t <= v /\ stepped (value a) (value b + (greatest t - least t + 1)) f (v + (greatest t - least t + 1))
  end.
Definition body_means (t : ftype) (e : expr) (v : Z) : Prop :=
  match e_body e with
  | Star => stepped (least t) (greatest t) (step_of e) v
  | Items l => exists i, In i l /\ item_means t (step_of e) i v
  end.
(** Weekday 7 is Sunday, which time.Weekday calls 0. *)
Definition means (t : ftype) (e : expr) (v : Z) : Prop :=
  match t with
  | Weekday => (v <> 7 /\ body_means t e v) \/ (v = 0 /\ body_means t e 7)
  | _ => body_means t e v
  end.
(** No range that wraps around has a step other than 1. *)
Definition no_stepped_wrap (e : expr) : Prop :=
  step_of e = 1 \/ match e_body e with Star => True | Items l => forall a b, In (Range a b) l -> value a <= value b end.
(** What the code computes, also for stepped ranges that wrap around. *)
Definition item_does (t : ftype) (f : Z) (i : item) (v : Z) : Prop :=
  match i with
  | Val s => v = value s
  | Range a b =>
    if value a <=? value b then stepped (value a) (value b) f v
    else stepped (value a) (greatest t) f v \/ stepped (least t) (value b) f v
  end.
Definition body_does (t : ftype) (e : expr) (v : Z) : Prop :=
  match e_body e with
  | Star => stepped (least t) (greatest t) (step_of e) v
  | Items l => exists i, In i l /\ item_does t (step_of e) i v
  end.
Definition does (t : ftype) (e : expr) (v : Z) : Prop :=
  match t with
  | Weekday => (v <> 7 /\ body_does t e v) \/ (v = 0 /\ body_does t e 7)
  | _ => body_does t e v
  end.
