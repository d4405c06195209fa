(** Vocabulary for C163 and C164. *)
From Coq Require Import List.
From Verif Require Import ScanModel.
Import ListNotations.

(** Call [j] has not returned. *)
Definition unfinished (x : list event) (j : nat) : Prop :=
  ~ In (VDone j) x /\ ~ In (VRefused j) x /\ forall ids, ~ In (VActors j ids) x.
(** [j] is a call of Actors, or a Register of a type that is unique and limited, and has not returned. *)
Definition walker (x : list event) (j : nat) : Prop :=
  unfinished x j /\ (In (VCall j LActors) x \/ exists id, In (VCall j (LRegister id true)) x).
(** [k] is a Register or an Unregister that has not returned. *)
Definition writer (x : list event) (k : nat) : Prop :=
  unfinished x k /\ ((exists id limited, In (VCall k (LRegister id limited)) x) \/ exists id, In (VCall k (LUnregister id)) x).
(** [id] was put into the map and not deleted since. *)
Definition there (x : list event) (id : nat) : Prop :=
  exists a b j, x = a ++ VPut j id :: b /\ forall k, ~ In (VDel k id) b.
