(** Vocabulary for C170 to C172. *)
From Coq Require Import List.
From Verif Require Import TccModel.
Import ListNotations.

(** What the participants show before any transaction, and what a try sets. *)
Definition old (p : part) : nat := match p with B => 11 | C => 22 end.
Definition new (p : part) : nat := match p with B => 111 | C => 222 end.
(** Event [e] sets the value of participant [p] to [v]. *)
Inductive sets : event -> part -> nat -> Prop :=
| sets_try p t o : sets (VTry p t o) p (new p)
| sets_cancel p t o : sets (VCancel p t (Some o)) p o.
(** [v] is what was last set; nothing was: the first value. *)
Definition shows (x : list event) (p : part) (v : nat) : Prop :=
  (exists a e b, x = a ++ e :: b /\ sets e p v /\ forall e' v', In e' b -> ~ sets e' p v') \/
  (v = old p /\ forall e' v', In e' x -> ~ sets e' p v').
(** The try of [t] at [p], which found the value [o], is neither confirmed nor cancelled. *)
Definition live (x : list event) (p : part) (t o : nat) : Prop :=
  exists a b, x = a ++ VTry p t o :: b /\ ~ In (VConfirm p t true) b /\ forall r, ~ In (VCancel p t (Some r)) b.
(** A try of [t] at [p] was handled. *)
Definition tried (x : list event) (p : part) (t : nat) : Prop := exists o, In (VTry p t o) x.
(** A cancel of [t] at [p] was handled and found the try. *)
Definition cancelled (x : list event) (p : part) (t : nat) : Prop := exists r, In (VCancel p t (Some r)) x.
(** All calls have returned and every message is handled. *)
Definition quiet (s : state) : Prop :=
  inbox s = [] /\ running s = None /\ box (partB s) = [] /\ box (partC s) = [] /\ forall t, t < calls s -> In t (returned s).
