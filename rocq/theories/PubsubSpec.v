(** Vocabulary of the publish/subscribe properties. *)
From Coq Require Import List String Arith Bool.
From Verif Require Import AddrModel PubsubModel.
Import ListNotations.

(** [e1] comes before [e2] in an execution. *)
Definition before {A} (e1 e2 : A) (evs : list A) : Prop := exists a b c, evs = a ++ e1 :: b ++ e2 :: c.
(** A label that does not subscribe to the channel from the beginning of the stream.
    System.Sub (system_impl.go 451-453) never does. *)
Definition latest (t ch : string) (l : label) : Prop := match l with LSub t' ch' Begin _ => ~ (t' = t /\ ch' = ch) | _ => True end.
(** How often Arrived is called on consumer c. *)
Definition arrivals (c : nat) (sched : list label) : nat := List.length (filter (fun l => match l with LArrive d _ => Nat.eqb d c | _ => false end) sched).
(** How often the message with this id was pushed by consumers of the channel. *)
Definition deliveries (t ch : string) (id : nat) (evs : list event) : nat :=
  List.length (filter (fun x => match x with EPush _ t' ch' _ e => String.eqb t' t && String.eqb ch' ch && Nat.eqb (e_id e) id | _ => false end) evs).
(** Neither the stream nor the channel's group is removed. *)
Definition stays (t ch : string) (evs : list event) : Prop := ~ In (EGone t) evs /\ ~ In (EDestroy t ch) evs.
(** The message waits in the stream, not yet handed out to the channel. *)
Definition waiting (t ch : string) (e : entry) (s : state) : Prop :=
  exists x g, aget t (strs s) = Some x /\ aget ch (s_grps x) = Some g /\ In e (s_ents x) /\ g_last g < e_id e.
(** Steps of the goroutines of consumer c, with a store that answers. *)
Definition own (c : nat) (l : label) : Prop := match l with LRead d Ok | LPut d | LHand d _ Ok => d = c | _ => False end.
(** Consumer c runs, with at least one handler. *)
Definition serving (c : nat) (t ch : string) (s : state) : Prop :=
  exists x, nth_error (cons s) c = Some x /\ c_top x = t /\ c_ch x = ch /\ c_up x = true /\ c_hs x <> [].
(** The channel's group knows consumer c: it has read and has not been removed by Close. *)
Definition known (c : nat) (t ch : string) (s : state) : Prop :=
  exists x g, aget t (strs s) = Some x /\ aget ch (s_grps x) = Some g /\ In c (g_cons g).
(** Nobody has called Sub for the channel. *)
Definition unsubscribed (t ch : string) (evs : list event) : Prop := (forall c, ~ In (ESub c t ch) evs) /\ ~ In (ESubErr t ch) evs.
