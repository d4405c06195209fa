(** Vocabulary for futures, in terms of observable events. *)
From Coq Require Import List Arith.
From Verif Require Import FutureModel.
Import ListNotations.

(** The result given by the first call of Complete on future [f]. *)
Fixpoint winner {W} (f : nat) (evs : list (event W)) : option W :=
  match evs with
  | [] => None
  | EComplete g w :: r => if f =? g then Some w else winner f r
  | _ :: r => winner f r
  end.

(** How often callback [k] has been called. *)
Fixpoint starts {W} (k : nat) (evs : list (event W)) : nat :=
  match evs with
  | [] => 0
  | EStart j _ :: r => (if k =? j then 1 else 0) + starts k r
  | _ :: r => starts k r
  end.

(** Then on [f] gave callback [k] and future [c], and at that moment [f] was
    pending, respectively already completed. *)
Definition then_while_pending {W} (evs : list (event W)) (f k c : nat) : Prop :=
  exists a b, evs = a ++ EThen f k c :: b /\ winner f a = None.
Definition then_after_completion {W} (evs : list (event W)) (f k c : nat) : Prop :=
  exists a b, evs = a ++ EThen f k c :: b /\ winner f a <> None.
