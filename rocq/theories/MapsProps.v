(** C161 and C162: who may use the maps of an actor. *)
From Coq Require Import List Arith.
From Verif Require Import Machine MapsModel MapsSpec MapsProofs.
Import ListNotations.

(** C161.  The process goes down over the map of handlers only when a goroutine other than
    Init and the loop has called the actor, or while Init, having subscribed or made a timer,
    has not returned. *)
Theorem C161_cause_partial : forall sched s evs x z, run step init sched = Some (s, evs) -> evs = x ++ VCrash Chains :: z ->
  outside x \/ starting x.
Proof. exact chains_cause. Qed.
Print Assumptions C161_cause_partial.
(** An Init that registers handlers and makes no subscription or timer, handlers that register
    more handlers, and an end: nothing happens. *)
Example C161_cause_case : exists sched s evs, run step init sched = Some (s, evs) /\ dead s = false /\
  In (VCall ByInit (OnEvent 1)) evs /\ In (VCall ByLoop (OnEvent 2)) evs /\ In (VCall ByLoop (Sub 3)) evs /\ In VExited evs /\
  ~ outside evs /\ chains s = [3; 2; 1].
Proof.
  exists [LCall ByInit (OnEvent 1); LStep ByInit; LStep ByInit; LStep ByInit; LReturn ByInit; LMessage 1; LPop; LStep ByLoop;
     LCall ByLoop (OnEvent 2); LStep ByLoop; LStep ByLoop; LStep ByLoop; LCall ByLoop (Sub 3); LStep ByLoop; LStep ByLoop; LStep ByLoop; LStep ByLoop;
     LReturn ByLoop; LExit; LShut; LClose false; LNext None; LNext None; LLeave].
  eexists _, _. split; [vm_compute; reflexivity|]. split; [reflexivity|]. cbn. repeat (split; [tauto|]). split; [|reflexivity].
  intros (n & o & H). cbn in H. intuition discriminate.
Qed.
(** The loop runs one handler or callback at a time, whatever else happens. *)
Theorem C161_turns : forall sched s evs a b c, run step init sched = Some (s, evs) -> evs = a ++ VBegin :: b ++ VBegin :: c -> In VEnd b.
Proof. exact turns. Qed.
Print Assumptions C161_turns.
(** Each of the three happens.  A subscription made by Init, and nothing else: a message of
    the topic arrives before Sub has registered its handler. *)
Theorem C161_subscription_refuted : exists sched s evs, run step init sched = Some (s, evs) /\ In (VCrash Chains) evs /\
  forall w o, In (VCall w o) evs -> w = ByInit /\ o = Sub 0.
Proof.
  exists [LCall ByInit (Sub 0); LStep ByInit; LMessage 7; LPop; LStep ByInit; LStep ByInit; LStep ByLoop].
  eexists _, _. split; [vm_compute; reflexivity|]. split; [cbn; tauto|]. intros w o H. cbn in H. intuition congruence.
Qed.
Print Assumptions C161_subscription_refuted.
(** A timer made by Init, whose callback registers a handler while Init registers another. *)
Theorem C161_timer_refuted : exists sched s evs, run step init sched = Some (s, evs) /\ In (VCrash Chains) evs /\
  ~ outside evs /\ forall w c, ~ In (VCall w (Sub c)) evs.
Proof.
  exists [LCall ByInit OnTimer; LStep ByInit; LStep ByInit; LTick 0; LCall ByLoop (OnEvent 1); LStep ByLoop; LStep ByLoop; LCall ByInit (OnEvent 2); LStep ByInit].
  eexists _, _. split; [vm_compute; reflexivity|]. split; [cbn; tauto|]. split; [intros (n & o & H)|intros w c H]; cbn in H; intuition discriminate.
Qed.
Print Assumptions C161_timer_refuted.
(** A continuation that registers a handler while the loop looks one up, long after Init. *)
Theorem C161_outside_refuted : exists sched s evs, run step init sched = Some (s, evs) /\ In (VCrash Chains) evs /\
  In VReady evs /\ forall w o, In (VCall w o) evs -> w = ByOther 0 /\ o = OnEvent 1.
Proof.
  exists [LReturn ByInit; LCall (ByOther 0) (OnEvent 1); LStep (ByOther 0); LStep (ByOther 0); LMessage 0; LPop; LStep ByLoop].
  eexists _, _. split; [vm_compute; reflexivity|]. split; [cbn; tauto|]. split; [cbn; tauto|]. intros w o H. cbn in H. intuition congruence.
Qed.
Print Assumptions C161_outside_refuted.

(** C162.  The process goes down over the map of timers only when a goroutine other than Init
    and the loop has called the actor, or while the loop runs a handler or callback and either
    Init, having subscribed or made a timer, has not returned, or Exit is under way. *)
Theorem C162_cause_partial : forall sched s evs x z, run step init sched = Some (s, evs) -> evs = x ++ VCrash Timers :: z ->
  outside x \/ (starting x /\ running x) \/ (leaving x /\ running x).
Proof. exact timers_cause. Qed.
Print Assumptions C162_cause_partial.
(** A handler makes two timers, a callback cancels one, and Exit cancels the other. *)
Example C162_cause_case : exists sched s evs, run step init sched = Some (s, evs) /\ dead s = false /\
  In (VCall ByLoop OnTimer) evs /\ In (VCall ByLoop (CancelTimer 0)) evs /\ In VExited evs /\ ~ outside evs /\ made s = 2 /\ timers s = [].
Proof.
  exists [LCall ByInit (OnEvent 1); LStep ByInit; LStep ByInit; LStep ByInit; LReturn ByInit; LMessage 1; LPop; LStep ByLoop;
     LCall ByLoop OnTimer; LStep ByLoop; LStep ByLoop; LCall ByLoop OnTimer; LStep ByLoop; LStep ByLoop; LReturn ByLoop;
     LTick 1; LCall ByLoop (CancelTimer 0); LStep ByLoop; LStep ByLoop; LReturn ByLoop;
     LExit; LShut; LClose false; LNext None; LNext (Some 1); LStep ByExit; LStep ByExit; LNext None; LLeave].
  eexists _, _. split; [vm_compute; reflexivity|]. split; [reflexivity|]. cbn. repeat (split; [tauto|]). split; [|split; reflexivity].
  intros (n & o & H). cbn in H. intuition discriminate.
Qed.
(** A timer made by Init fires and cancels itself while Init makes a second one. *)
Theorem C162_init_refuted : exists sched s evs, run step init sched = Some (s, evs) /\ In (VCrash Timers) evs /\
  forall w o, In (VCall w o) evs -> (w = ByInit /\ o = OnTimer) \/ (w = ByLoop /\ o = CancelTimer 0).
Proof.
  exists [LCall ByInit OnTimer; LStep ByInit; LStep ByInit; LTick 0; LCall ByLoop (CancelTimer 0); LCall ByInit OnTimer; LStep ByInit; LStep ByLoop].
  eexists _, _. split; [vm_compute; reflexivity|]. split; [cbn; tauto|]. intros w o H. cbn in H. intuition congruence.
Qed.
Print Assumptions C162_init_refuted.
(** The last message has been taken from the mailbox, which Exit takes for the end, and its
    handler makes a timer while Exit walks over the timers; nobody has lost patience. *)
Theorem C162_exit_refuted : exists sched s evs, run step init sched = Some (s, evs) /\ In (VCrash Timers) evs /\
  ~ In (LClose true) sched /\ In VReady evs /\ forall w o, In (VCall w o) evs -> (w = ByInit /\ o = OnEvent 1) \/ (w = ByLoop /\ o = OnTimer).
Proof.
  exists [LCall ByInit (OnEvent 1); LStep ByInit; LStep ByInit; LStep ByInit; LReturn ByInit; LMessage 1; LExit; LShut; LPop; LStep ByLoop;
     LClose false; LNext None; LCall ByLoop OnTimer; LStep ByLoop; LNext None].
  eexists _, _. split; [vm_compute; reflexivity|]. split; [cbn; tauto|]. split; [cbn; intuition discriminate|]. split; [cbn; tauto|].
  intros w o H. cbn in H. intuition congruence.
Qed.
Print Assumptions C162_exit_refuted.
