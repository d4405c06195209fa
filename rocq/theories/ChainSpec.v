(** What executing a sequence of handlers means. *)
From Coq Require Import List.
From Verif Require Import ChainModel.
Import ListNotations.

Section Spec.
Context {S E P : Type}.

(** The handlers of a chain in execution order. *)
Definition in_order (c : chain S E P) : list (handler S E P) :=
  Before c ++ [Handler c] ++ After c.

(** [all_nil hs s s']: calling [hs] in order from state [s], each on the state
    the previous one left, all return nil and leave [s']. *)
Inductive all_nil : list (handler S E P) -> S -> S -> Prop :=
| all_nil_none s : all_nil [] s s
| all_nil_one h hs s s1 s2 : h s = (s1, Nil) -> all_nil hs s1 s2 -> all_nil (h :: hs) s s2.
End Spec.
