(** Vocabulary for C119-C121. *)
From Coq Require Import List Arith Bool.
From Verif Require Import Machine ContextModel.
Import ListNotations.

(** The last of the values that the user set for key [k], or else what Init's context has. *)
Definition latest (base : ctx) (evs : list event) (k : nat) (x : option nat) : Prop :=
  (exists a i v b, evs = a ++ VSet i :: b /\ In (VWith i k v) a /\ x = Some v /\ forall j u, In (VSet j) b -> ~ In (VWith j k u) evs) \/
  (x = value base (KUser k) /\ forall j u, In (VSet j) evs -> ~ In (VWith j k u) evs).
(** No call of WithValue returns between the begin and the return of another. *)
Definition serial (evs : list event) : Prop := forall a i k v b j c, evs = a ++ VWith i k v :: b ++ VSet j :: c -> j <> i -> In (VSet i) b.
