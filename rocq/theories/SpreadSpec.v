(** Vocabulary for C179 and C180. *)
From Coq Require Import List String ZArith.
From Verif Require Import AddrModel SpreadModel.
Import ListNotations.

(** The field total_weight of node [n] is [z]. *)
Definition weighs (s : store) (n : string) (z : Z) : Prop := node_weight s n = Some z.
(** Listed nodes differ by at most [d]. *)
Definition even (s : store) (d : Z) : Prop :=
  forall n m e f a b, In (n, e) (nodes s) -> In (m, f) (nodes s) -> weighs s n a -> weighs s m b -> (a <= b + d)%Z.
(** The loops over the nodes have the same order. *)
Definition same_order (l : label) : Prop := match l with LPick _ _ a b => a = b | _ => True end.
Definition picked (x : list event) (j : nat) : Prop := exists ty id n, In (VPick j ty id n) x.
Definition finished (x : list event) (j : nat) : Prop := In (VRefused j) x \/ exists ty id n, In (VPlaced j ty id n) x.
(** A node is chosen only when no registration is under way. *)
Definition one_at_a_time (evs : list event) : Prop :=
  forall x j ty id n y, evs = x ++ VPick j ty id n :: y -> forall i, picked x i -> finished x i.
(** The weights of the actors placed on [n], one by one. *)
Fixpoint placed_on (weight : string -> Z) (n : string) (x : list event) : Z :=
  match x with
  | [] => 0
  | VPlaced _ ty _ m :: r => ((if String.eqb m n then weight ty else 0) + placed_on weight n r)%Z
  | _ :: r => placed_on weight n r
  end.
