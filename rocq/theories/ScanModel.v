(** Model of the map of actors of a node and the calls that use it,
    /repo/core/node/system_impl.go: Register 99-152, Unregister 154-187, Actors 189-195 and the
    look-ups of Call, Send and FindActor (230-232, 247-249, 455-465).

    The map is written under the lock; look-ups take the lock too; the loop over it in Register
    (115-119, only for a type that is unique on the node and limited) and the one in Actors
    (191-193) take no lock.  A write has a beginning and an end; a look-up, a
    step of a loop or another write in between stops the process, as the Go runtime may do (taken as certain here).  A loop over a map, by the language:
    every entry that is there from the beginning and is not deleted before its turn is taken once,
    one that is added meanwhile may or may not be taken.
    A critical section that only reads is one step.  Ids are numbers.
    Simplified: a loop of Register may stop at any entry (one of the type in question), types are
    not modelled; what happens between the loop and line 146 (the address book,
    Init) and in Exit of an actor is one step that may fail.
    Not modelled: the loop of the shutdown (477, ShutModel); findLocalOrWildcardActor (277-286), which
    loops under the lock. *)
From Coq Require Import List Arith Bool.
From Verif Require Import Machine.
Import ListNotations.

(** A loop over the map: entries from the beginning that are neither taken nor deleted, entries
    added since, entries taken (the last first). *)
Record walk := mkW { todo : list nat; late : list nat; taken : list nat }.
Inductive pc :=
| RCheck (id : nat) (limited : bool) (* 105-110 *)
| RRange (id : nat)                  (* 115, before the loop *)
| RWalk (id : nat) (w : walk)        (* 115 *)
| RBuild (id : nat)                  (* 122-144 *)
| UFind (id : nat)                   (* 158-160 *)
| UExit (id : nat)                   (* 164 *)
| Lock (put : bool) (id : nat)       (* 146, 167 *)
| Write (put : bool) (id : nat)      (* 147, 168, before the write *)
| Writing (put : bool) (id : nat)    (* 147, 168, in the write *)
| Unlock                             (* 148, 169 *)
| ARange                             (* 191, before the loop *)
| AWalk (w : walk)                   (* 191 *)
| Done.
Record state := mkS { present : list nat; locked : bool; writing : bool; calls : list pc; dead : bool }.
Definition init : state := mkS [] false false [] false.

Inductive label :=
| LRegister (id : nat) (limited : bool) | LUnregister (id : nat) | LActors
| LFind (id : nat)                   (* a look-up under the lock *)
| LStep (j : nat) (ok : bool)        (* the next step of call j; not [ok]: the address book or Init fails, the loop finds the type *)
| LTake (j : nat) (id : nat).        (* the loop of call j takes an entry *)
Inductive event :=
| VCall (j : nat) (l : label)
| VPut (j id : nat) | VDel (j id : nat)  (* the map was changed *)
| VFound (id : nat) (yes : bool)
| VRefused (j : nat) | VDone (j : nat)
| VActors (j : nat) (ids : list nat)     (* Actors returns *)
| VCrash.

Definition has (x : nat) (l : list nat) : bool := existsb (Nat.eqb x) l.
Definition drop (x : nat) (l : list nat) : list nat := filter (fun y => negb (Nat.eqb x y)) l.
(** What a write means for a loop that is under way. *)
Definition note_walk (put : bool) (id : nat) (w : walk) : walk :=
  if put then mkW (todo w) (id :: late w) (taken w) else mkW (drop id (todo w)) (drop id (late w)) (taken w).
Definition note (put : bool) (id : nat) (c : pc) : pc :=
  match c with RWalk i w => RWalk i (note_walk put id w) | AWalk w => AWalk (note_walk put id w) | c => c end.
Definition goto (s : state) (j : nat) (c : pc) : state := mkS (present s) (locked s) (writing s) (upd (calls s) j c) (dead s).
Definition begin_walk (s : state) : walk := mkW (present s) [] [].
Definition crash (s : state) : option (state * list event) :=
  Some (mkS (present s) (locked s) (writing s) (calls s) true, [VCrash]).
Definition take (w : walk) (id : nat) : option walk :=
  if has id (todo w) || has id (late w) then Some (mkW (drop id (todo w)) (drop id (late w)) (id :: taken w)) else None.
Definition add_call (s : state) (c : pc) : state := mkS (present s) (locked s) (writing s) (calls s ++ [c]) (dead s).

Definition step_call (s : state) (j : nat) (c : pc) (ok : bool) : option (state * list event) :=
  match c with
  | RCheck id limited =>
    if locked s then None
    else if writing s then crash s
    else if has id (present s) then Some (goto s j Done, [VRefused j])
    else Some (goto s j (if limited then RRange id else RBuild id), [])
  | RRange id => Some (goto s j (RWalk id (begin_walk s)), [])
  | RWalk id w =>
    if writing s then crash s
    else if ok then match todo w with [] => Some (goto s j (RBuild id), []) | _ => None end
    else match taken w with [] => None | _ => Some (goto s j Done, [VRefused j]) end
  | RBuild id => if ok then Some (goto s j (Lock true id), []) else Some (goto s j Done, [VRefused j])
  | UFind id =>
    if locked s then None
    else if writing s then crash s
    else if has id (present s) then Some (goto s j (UExit id), []) else Some (goto s j Done, [VDone j])
  | UExit id => Some (goto s j (Lock false id), [])
  | Lock put id => if locked s then None else Some (mkS (present s) true (writing s) (upd (calls s) j (Write put id)) (dead s), [])
  | Write put id =>
    if writing s then crash s
    else Some (mkS (present s) (locked s) true (upd (calls s) j (Writing put id)) (dead s), [])
  | Writing put id =>
    let there := has id (present s) in
    let p := if put then (if there then present s else id :: present s) else drop id (present s) in
    let cs := if put && there then calls s else map (note put id) (calls s) in
    Some (mkS p (locked s) false (upd cs j Unlock) (dead s), [if put then VPut j id else VDel j id])
  | Unlock => Some (mkS (present s) false (writing s) (upd (calls s) j Done) (dead s), [VDone j])
  | ARange => Some (goto s j (AWalk (begin_walk s)), [])
  | AWalk w =>
    if writing s then crash s
    else match todo w with [] => Some (goto s j Done, [VActors j (rev (taken w))]) | _ => None end
  | Done => None
  end.

Definition step (s : state) (l : label) : option (state * list event) :=
  if dead s then None else
  match l with
  | LRegister id limited => Some (add_call s (RCheck id limited), [VCall (length (calls s)) l])
  | LUnregister id => Some (add_call s (UFind id), [VCall (length (calls s)) l])
  | LActors => Some (add_call s ARange, [VCall (length (calls s)) l])
  | LFind id =>
    if locked s then None
    else if writing s then crash s
    else Some (s, [VFound id (has id (present s))])
  | LStep j ok => match nth_error (calls s) j with Some c => step_call s j c ok | None => None end
  | LTake j id =>
    match nth_error (calls s) j with
    | Some (RWalk i w) =>
      if writing s then crash s
      else match take w id with Some w' => Some (goto s j (RWalk i w'), []) | None => None end
    | Some (AWalk w) =>
      if writing s then crash s
      else match take w id with Some w' => Some (goto s j (AWalk w'), []) | None => None end
    | _ => None
    end
  end.
