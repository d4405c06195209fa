(** C181, C182: actors whose handlers unregister other actors. *)
From Coq Require Import List Arith Bool Lia.
From Verif Require Import Machine MutualModel MutualSpec MutualProofs.
Import ListNotations.

(** ** C181: Unregister called from a handler returns *)

(** False: whenever the handlers of any number of actors, at once, each unregister
    the next actor in a ring (one actor: itself), all these calls have been made and,
    whatever happens afterwards, none of them ever returns, or fails. *)
Theorem C181_ring_refuted : forall n, 1 <= n -> exists s,
  reached n (round n) s (map (fun i => VCall i (if S i =? n then 0 else S i)) (seq 0 n)) /\
  forall sched s' evs, run step s sched = Some (s', evs) ->
    forall i t, i < n -> ~ In (VReturn i t) evs /\ ~ In (VPanic i t) evs.
Proof.
  intros n Hn. destruct (round_ring n Hn) as (s & R & G). exists s. split; [exact R|].
  intros sched s' evs H i t Hi. apply (ring_run _ _ _ _ _ G H). apply in_seq. lia.
Qed.
Print Assumptions C181_ring_refuted.

(** What holds: rings are the only reason.  In every execution, when nothing more
    goes on (no new messages or calls being made; the limit of ten seconds is not
    even needed) and a handler of [a] is still inside Unregister, then [a], or one
    for which it waits directly or through others, waits for itself. *)
Theorem C181_cause_partial : forall n sched s evs a t,
  reached n sched s evs -> (forall l, goes_on l = true -> step s l = None) ->
  waits_for s a t -> exists c, (c = a \/ hangs_on s a c) /\ hangs_on s c c.
Proof. intros n sched s evs a t H R W. eapply cause; eauto. eapply reached_inv; eauto. Qed.
Print Assumptions C181_cause_partial.

(** The same for calls from outside of all handlers. *)
Theorem C181_outside_partial : forall n sched s evs t,
  reached n sched s evs -> (forall l, goes_on l = true -> step s l = None) ->
  awaited_outside s t -> exists c, (c = t \/ hangs_on s t c) /\ hangs_on s c c.
Proof.
  intros n sched s evs t H R W. pose proof (reached_inv _ _ _ _ H) as I.
  destruct (rests_outside _ _ I R W) as (u & Wu). eapply cause; eauto.
Qed.
Print Assumptions C181_outside_partial.

(** And the limit of ten seconds is no way out: a handler that is inside Unregister
    when nothing goes on, not even by that limit, stays there for ever, whatever
    messages are sent and calls are made later. *)
Theorem C181_forever_partial : forall n sched s evs a t,
  reached n sched s evs ->
  (forall l, goes_on l = true -> step s l = None) -> (forall b, step s (LClose b true) = None) ->
  waits_for s a t -> forall later s' evs', run step s later = Some (s', evs') ->
  waits_for s' a t /\ forall u, ~ In (VReturn a u) evs' /\ ~ In (VPanic a u) evs'.
Proof.
  intros n sched s evs a t H R F W later s' evs' H'.
  eapply kept_run; [apply (limit_ring s)|exact W|apply targets_in; eauto|exact H']; auto.
  eapply reached_inv; eauto.
Qed.
Print Assumptions C181_forever_partial.

(** Two actors that unregister one another, and two others that do the same: nothing
    goes on. *)
Definition ring_sched : list label :=
  [LSend 0 [1]; LSend 1 [0]; LSend 2 [3]; LSend 3 [2]; LPop 0; LPop 1; LPop 2; LUnreg 0; LUnreg 1;
   LPop 3; LUnreg 3; LUnreg 2].
Example C181_case : exists s evs, reached 4 ring_sched s evs /\
  (forall l, goes_on l = true -> step s l = None) /\ (forall b, step s (LClose b true) = None) /\
  waits_for s 0 1 /\ waits_for s 1 0 /\ waits_for s 2 3.
Proof.
  destruct (run step (init 4) ring_sched) as [[s evs]|] eqn:E; [|exfalso; revert E; vm_compute; discriminate].
  exists s, evs. split; [exact E|]. revert E. vm_compute. intros E. injection E as <- <-. split.
  - intros l Hl. destruct l as [a todo|a|a|a|a|a|a forced|a|a|i]; try discriminate Hl;
    try (destruct a as [|[|[|[|a]]]]; cbn; try (destruct a; reflexivity); reflexivity).
    destruct i; reflexivity.
  - split; [intros b; destruct b as [|[|[|[|b]]]]; cbn; try (destruct b; reflexivity); reflexivity|].
    repeat split; do 2 eexists; split; reflexivity.
Qed.

(** ** C182: with a ranking, every Unregister returns *)

(** If each handler unregisters only actors ranked below its own, then in every
    execution, once nothing more goes on, each call has returned, or has panicked
    because the same actor was being unregistered already. *)
Theorem C182_returns : forall rank n sched s evs,
  downward rank sched -> reached n sched s evs ->
  (forall l, goes_on l = true -> step s l = None) ->
  (forall a t, times (VCall a t) evs = times (VReturn a t) evs + times (VPanic a t) evs) /\
  (forall t, times (VExtCall t) evs = times (VExtReturn t) evs).
Proof.
  intros rank n sched s evs D H R. pose proof (reached_inv _ _ _ _ H) as I.
  pose proof (reached_below _ _ _ _ _ H D) as B. destruct (count_reached _ _ _ _ H) as (K1 & K2). split.
  - intros a t. specialize (K1 a t). destruct (Nat.eq_dec (waitn s a t) 0) as [Z|Z]; [lia|].
    exfalso. destruct (cause _ _ _ I R (waitn_waits _ _ _ Z)) as (c & _ & C).
    pose proof (below_hangs _ _ _ _ B C). lia.
  - intros t. specialize (K2 t). destruct (Nat.eq_dec (outn s t) 0) as [Z|Z]; [lia|].
    exfalso. destruct (rests_outside _ _ I R (outn_awaited _ _ Z)) as (u & Wu).
    destruct (cause _ _ _ I R Wu) as (c & _ & C). pose proof (below_hangs _ _ _ _ B C). lia.
Qed.
Print Assumptions C182_returns.

(** And that moment comes: with or without a ranking, what goes on is limited by
    the number of actors and what has been asked for. *)
Theorem C182_bounded : forall n sched s evs, reached n sched s evs ->
  length (filter goes_on sched) <= 3 * n + asked_all sched.
Proof. intros n sched s evs H. pose proof (bound _ _ _ _ H). lia. Qed.
Print Assumptions C182_bounded.

(** When Unregister has returned, to whomever, the actor is out of the node's map
    and every further message to it is refused, without effect. *)
Theorem C182_gone : forall n sched s evs t, reached n sched s evs ->
  (exists a, In (VReturn a t) evs) \/ In (VExtReturn t) evs -> t < n ->
  (forall y, nth_error (actors s) t = Some y -> inmap y = false) /\
  forall todo, step s (LSend t todo) = Some (s, [VRefused t]).
Proof.
  intros n sched s evs t H R Ht. pose proof (fun y => gone _ _ _ _ t y H R) as G. split; [intros y Hy; apply G; auto|].
  intros todo. cbn [step]. destruct (nth_error (actors s) t) as [y|] eqn:Hy.
  - destruct (G y eq_refl) as (_ & ->). reflexivity.
  - exfalso. apply nth_error_None in Hy. rewrite (reached_length _ _ _ _ H) in Hy. lia.
Qed.
Print Assumptions C182_gone.

(** A call that panics is never the first one for its actor. *)
Theorem C182_panic : forall n sched s e1 a t e2,
  reached n sched s (e1 ++ VPanic a t :: e2) -> 2 <= calls t e1.
Proof. intros n sched s e1 a t e2 H. eapply panic_before; eauto. Qed.
Print Assumptions C182_panic.

(** Three levels; a panic (actor 2 meets the unregistering of actor 0 under way),
    and a call from outside. *)
Definition levels_sched : list label :=
  [LSend 3 [2; 1]; LSend 2 [0]; LSend 1 [0]; LPop 3; LPop 2; LPop 1; LUnreg 3; LUnreg 1; LUnreg 2; LShut 2;
   LClose 2 false; LShut 0; LClose 0 false; LWake 3; LUnreg 3; LWake 1; LDone 1; LShut 1; LClose 1 false;
   LExt 3; LWake 3; LDone 3; LShut 3; LClose 3 false; LExtWake 0; LLeave 0; LLeave 1; LLeave 2; LLeave 3].
Example C182_case : downward (fun a => a) levels_sched /\ exists s evs, reached 4 levels_sched s evs /\
  (forall l, goes_on l = true -> step s l = None) /\
  In (VReturn 3 2) evs /\ In (VReturn 3 1) evs /\ In (VReturn 1 0) evs /\ In (VPanic 2 0) evs /\ In (VExtReturn 3) evs.
Proof.
  split.
  - intros a todo t H Ht. cbn in H. repeat (destruct H as [H|H]; [try discriminate H; injection H as <- <-; cbn in Ht; intuition lia|]). contradiction.
  - destruct (run step (init 4) levels_sched) as [[s evs]|] eqn:E; [|exfalso; revert E; vm_compute; discriminate].
    exists s, evs. split; [exact E|]. revert E. vm_compute. intros E. injection E as <- <-. split.
    + intros l Hl. destruct l as [a todo|a|a|a|a|a|a forced|a|a|i]; try discriminate Hl;
      try (destruct a as [|[|[|[|a]]]]; cbn; try (destruct a; reflexivity); reflexivity).
      destruct i as [|i]; [reflexivity|]. destruct i; reflexivity.
    + tauto.
Qed.
