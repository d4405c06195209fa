(** Vocabulary for C181 and C182. *)
From Coq Require Import List Arith Bool.
From Verif Require Import Machine MutualModel.
Import ListNotations.

(** The execution performed [sched] with [n] actors and reached [s]. *)
Definition reached (n : nat) (sched : list label) (s : state) (evs : list event) : Prop :=
  run step (init n) sched = Some (s, evs).

(** A handler of [a] is inside Unregister of [t]. *)
Definition waits_for (s : state) (a t : nat) : Prop :=
  exists x todo, nth_error (actors s) a = Some x /\ at_ x = Waits t todo.
(** Someone outside the actors is inside Unregister of [t]. *)
Definition awaited_outside (s : state) (t : nat) : Prop := In (Some t) (outside s).

(** Waiting, directly or through others. *)
Inductive hangs_on (s : state) : nat -> nat -> Prop :=
| hangs_one a t : waits_for s a t -> hangs_on s a t
| hangs_more a t u : waits_for s a t -> hangs_on s t u -> hangs_on s a u.

(** Steps by which what has begun goes on: no new message, no new call from
    outside, and no use of the limit of ten seconds. *)
Definition goes_on (l : label) : bool :=
  match l with
  | LSend _ _ | LExt _ | LClose _ true => false
  | _ => true
  end.

(** The discipline: there is a ranking by which each handler unregisters only
    actors ranked below its own. *)
Definition downward (rank : nat -> nat) (sched : list label) : Prop :=
  forall a todo t, In (LSend a todo) sched -> In t todo -> rank t < rank a.

(** What the messages and calls of a schedule ask for: two steps for a message and
    two for each Unregister of its handler, and one for each call from outside. *)
Definition asked (l : label) : nat :=
  match l with
  | LSend _ todo => 2 * length todo + 2
  | LExt _ => 1
  | _ => 0
  end.
Definition asked_all (sched : list label) : nat := fold_right Nat.add 0 (map asked sched).

Definition event_eq_dec (x y : event) : {x = y} + {x <> y}.
Proof. decide equality; apply Nat.eq_dec. Defined.
Definition times (e : event) (evs : list event) : nat := count_occ event_eq_dec evs e.

(** Each of [n] actors gets one message, whose handler unregisters the next actor,
    the last one the first; the loops take the messages and the handlers run. *)
Definition next (n i : nat) : nat := if S i =? n then 0 else S i.
Definition round (n : nat) : list label :=
  flat_map (fun i => [LSend i [next n i]; LPop i; LUnreg i]) (seq 0 n).

(** The calls of Unregister for [t], from handlers or from outside. *)
Definition is_call (t : nat) (e : event) : bool :=
  match e with VCall _ u | VExtCall u => u =? t | _ => false end.
Definition calls (t : nat) (evs : list event) : nat := length (filter (is_call t) evs).
