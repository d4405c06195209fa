(** Vocabulary for C143-C146. *)
From Coq Require Import List Arith Bool.
From Verif Require Import NodeModel.
Import ListNotations.

(** [v] is what the last of the options that say something of a setting says, or [d]. *)
Definition last_of {A} (says : opt -> option A) (os : list opt) (d v : A) : Prop :=
  (exists a x b, os = a ++ x :: b /\ says x = Some v /\ forall y, In y b -> says y = None) \/ ((forall y, In y os -> says y = None) /\ v = d).
Definition says_id o := match o with WithID n => Some n | _ => None end.
Definition says_ip o := match o with WithIP i => Some i | WithServiceInfo i _ => Some i | _ => None end.
Definition says_port o := match o with WithPort p => Some p | WithServiceInfo _ p => Some p | _ => None end.
Definition says_trac o := match o with WithTracer t => Some t | _ => None end.
Definition says_loader o := match o with WithLoader l => Some l | _ => None end.
Definition says_factory o := match o with WithFactory f => Some f | _ => None end.
(** What can be seen of a node: its system. *)
Definition seen (s : state) (k : nat) : option system := option_map sys (nth_error (nodes s) k).
Definition reachable (s : state) : Prop := exists cs, fst (calls init cs) = s.
(** The node [k] listens at [p]. *)
Definition listens (s : state) (k p : nat) : Prop := exists n, nth_error (nodes s) k = Some n /\ open n = true /\ port (np n) = p.
Definition compares_nil (i : iface) : bool := match i with INil => true | IPtr _ => false end.
