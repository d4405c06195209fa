(** C12, C13: the unbounded channel. *)
From Coq Require Import List Lia.
From Verif Require Import Machine UnboundedModel UnboundedSpec UnboundedProofs.
Import ListNotations.

(** Four Puts; the second finds the channel full and a receive slips in before
    it appends. *)
Definition ex_sched : list (label nat) :=
  [LPut 1; LPut 2; LRecv 0; LAppend; LPut 3; LLoad 0; LPut 4; LRecv 1; LLoad 1].

(** C12: what has been received, followed by what is still buffered, is exactly
    the sequence of values Put. *)
Theorem C12_order_and_no_loss : forall V (sched : list (label V)) s evs,
  run step init sched = Some (s, evs) -> puts sched = received evs ++ buffered s.
Proof. intros V sched s evs H. exact (proj1 (conserve sched s evs H)). Qed.
Print Assumptions C12_order_and_no_loss.
Example C12_case : exists s,
  run step init ex_sched = Some (s, [ERecv 0 1; ERecv 1 2]) /\
  puts ex_sched = [1; 2; 3; 4] /\ buffered s = [3; 4].
Proof. vm_compute. eexists. auto. Qed.

(** While no Put is in its middle, Len is the number of values Put and not received, without the one
    that is ready in the channel. *)
Theorem C12_len : forall V (sched : list (label V)) s evs,
  run step init sched = Some (s, evs) -> holder s = None ->
  length (puts sched) = length (received evs) + Len s + match chan s with Some _ => 1 | None => 0 end.
Proof.
  intros V sched s evs H N. rewrite (C12_order_and_no_loss V sched s evs H), app_length. unfold buffered, Len. rewrite N, !app_length.
  destruct (chan s); cbn; lia.
Qed.
Print Assumptions C12_len.
Example C12_len_case : exists s e, run step init (ex_sched ++ [LPut 5; LPut 6]) = Some (s, e) /\ holder s = None /\ Len s = 3.
Proof. eexists _, _. split; [vm_compute; reflexivity|]. split; reflexivity. Qed.

(** C13: with every receive followed by its Load, buffered values imply a value
    on the channel ... *)
Theorem C13_value_available : forall V (sched : list (label V)) s evs,
  run step init sched = Some (s, evs) -> all_loaded sched -> buffered s <> [] ->
  chan s <> None.
Proof. exact @no_stall. Qed.
Print Assumptions C13_value_available.
(** ... and the next receive, by any consumer, is enabled and yields the oldest
    value Put and not received. *)
Theorem C13_next_receive : forall V (sched : list (label V)) s evs c,
  run step init sched = Some (s, evs) -> all_loaded sched ->
  forall v rest, puts sched = received evs ++ v :: rest ->
  exists s', step s (LRecv c) = Some (s', [ERecv c v]).
Proof. exact @recv_enabled. Qed.
Print Assumptions C13_next_receive.
Example C13_case : all_loaded ex_sched.
Proof.
  intros a c b H. unfold ex_sched in H.
  repeat (destruct a as [|? a]; cbn in H; [injection H; intros; subst; try discriminate; cbn; auto 10|
    injection H; clear H; intros H _]); destruct a; discriminate.
Qed.
(** The protocol matters: without Load the values stay in the backlog. *)
Example C13_without_load : exists s,
  run step init [LPut 1; LPut 2; LAppend; LRecv 0] = Some (s, [ERecv 0 1]) /\
  buffered s = [2] /\ chan s = None.
Proof. vm_compute. eexists. auto. Qed.
