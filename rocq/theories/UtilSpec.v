(** Vocabulary for C59-C61. *)
From Coq Require Import List ZArith Bool.
From Verif Require Import UtilModel.
Import ListNotations.
Open Scope Z_scope.

Definition registered (l : list VerStrategy) (v : Z) : Prop := exists s, In s l /\ Version s = v.
(** Registering in a given order. *)
Definition register_all (ss : list VerStrategy) : list VerStrategy := fold_left RegisterVersionStrategy ss [].
(** The version after [n] steps of an upgrade. *)
Fixpoint upgrade (l : list VerStrategy) (n : nat) (v : Z) : Z := match n with O => v | S m => upgrade l m (GetNextVersion l v) end.
(** Registered in the order of their versions. *)
Fixpoint ascending (l : list VerStrategy) : Prop :=
  match l with [] => True | s :: r => (forall s', In s' r -> Version s <= Version s') /\ ascending r end.

(** Wrapped by pkg/errors any number of times. *)
Inductive wraps : error -> error -> Prop :=
| wraps_refl e : wraps e e
| wraps_stack e e' : wraps e e' -> wraps (EWithStack e) e'
| wraps_msg m e e' : wraps e e' -> wraps (EWithMessage m e) e'.
