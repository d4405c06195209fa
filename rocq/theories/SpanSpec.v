(** Vocabulary for C116-C118: what is seen of spans. *)
From Coq Require Import List Arith Bool.
From Verif Require Import Machine SpanModel.
Import ListNotations.

(** After [evs] the context of wrapper [w] holds [x]: none or a span. *)
Inductive holds : list event -> nat -> option nat -> Prop :=
| h_new evs w : holds (evs ++ [VWrap w None]) w None
| h_copy evs w w' x : holds evs w' x -> holds (evs ++ [VWrap w (Some w')]) w x
| h_set evs c k w : In (VCall c w) evs -> holds (evs ++ [VSet c k]) w (Some k)
| h_serve evs v c w k p : In (VStart k p (SServer v)) evs -> holds (evs ++ [VServe v c w]) w (Some k)
| h_keep evs w x e : holds evs w x -> (forall c k, e = VSet c k -> ~ In (VCall c w) evs) -> holds (evs ++ [e]) w x.
(** Span k is span q or one of its descendants. *)
Inductive descends (evs : list event) : nat -> nat -> Prop :=
| d_self k : descends evs k k
| d_child k p q what : In (VStart k (Some p) what) evs -> descends evs p q -> descends evs k q.
(** No call writes the context of a wrapper while another is between reading and writing it. *)
Definition apart (evs : list event) : Prop := forall a k par c b c' k' d w,
  evs = a ++ VStart k par (SCall c) :: b ++ VSet c' k' :: d -> In (VCall c w) evs -> In (VCall c' w) evs -> c' <> c -> In (VSet c k) b.
(** The context of wrapper [w], or one that it was copied from, has held span [k]. *)
Inductive carried : list event -> nat -> nat -> Prop :=
| ca_set evs c k w : In (VCall c w) evs -> carried (evs ++ [VSet c k]) w k
| ca_serve evs v c w k p : In (VStart k p (SServer v)) evs -> carried (evs ++ [VServe v c w]) w k
| ca_copy evs w w' k : carried evs w' k -> carried (evs ++ [VWrap w (Some w')]) w k
| ca_keep evs e w k : carried evs w k -> carried (evs ++ [e]) w k.
