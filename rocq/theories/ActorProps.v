(** C17-C23: one actor.  [registered] says which events have a handler chain. *)
From Coq Require Import List ZArith Bool Lia.
From Verif Require Import Machine MpscModel ActorModel ActorSpec ActorProofs.
Import ListNotations.

(** Event 7 has a handler, nothing else. *)
Definition ex_reg (e : nat) : bool := Nat.eqb e 7.
Definition deliver i := [LAddWg i; LPush i; LLinkD i; LCountD i; LSignalD i].
Definition take_one := [LQ LRecv; LQ LPop; LQ LDec; LQ LCSend].
Definition ex_m (e g : nat) := mkMsg e g false.
(** Two messages sharing wait group 1 (the first's handler panics, the second's
    event is unknown), a timer tick, a self-call, a third message; then Exit
    while the third is in the mailbox. *)
Definition ex_sched : list label :=
  [LReceived (ex_m 7 1); LReceived (ex_m 9 1); LReceived (mkMsg 7 1 true)] ++
  deliver 0 ++ deliver 1 ++ take_one ++ [LTick 5; LHandled Panicked; LDone; LTimerRecv; LTimerCheck; LTimerEnd]
  ++ take_one ++ [LDone] ++ [LReceived (ex_m 7 2)] ++ deliver 2 ++ [LExit; LShutdown; LReceived (ex_m 7 3); LChkQ]
  ++ take_one.
Definition ex_end : state :=
  match run (step ex_reg) init ex_sched with Some (s, _) => s | None => init end.
Definition ex_evs : list event :=
  match run (step ex_reg) init ex_sched with Some (_, e) => e | None => [] end.
Example ex_run : run (step ex_reg) init ex_sched = Some (ex_end, ex_evs).
Proof. vm_compute. reflexivity. Qed.

(** ** C17 *)
Theorem C17_one_at_a_time : forall registered sched s evs,
  run (step registered) init sched = Some (s, evs) -> alternates None evs.
Proof. exact one_at_a_time. Qed.
Print Assumptions C17_one_at_a_time.
Example C17_case :
  run (step ex_reg) init ex_sched = Some (ex_end, ex_evs) /\
  ex_evs = [ERejected (mkMsg 7 1 true); EAdd 1; EEnter (0, ex_m 7 1); EAccepted 0; EAdd 1; EEnter (1, ex_m 9 1);
    EAccepted 1; EStart (0, ex_m 7 1); EEnd (0, ex_m 7 1) Panicked; EDone (0, ex_m 7 1); ETimerStart 5; ETimerEnd 5;
    ENoHandler (1, ex_m 9 1); EDone (1, ex_m 9 1); EAdd 2; EEnter (2, ex_m 7 2); EAccepted 2;
    ERejected (ex_m 7 3); EStart (2, ex_m 7 2)].
Proof. vm_compute. auto. Qed.
(** The predicate is not trivially true. *)
Example C17_overlap_is_excluded : forall m t, ~ alternates None [EStart m; ETimerStart t].
Proof. intros m t [_ [H _]]. discriminate. Qed.

(** ** C18 *)
(** Handling follows mailbox order without gap or repetition: the messages
    taken are the first ones that entered, and no message enters twice. *)
Theorem C18_handled_in_mailbox_order : forall registered sched s evs,
  run (step registered) init sched = Some (s, evs) ->
  (exists waiting, entered evs = taken evs ++ waiting) /\ NoDup (map fst (entered evs)).
Proof. exact handled_in_order. Qed.
Print Assumptions C18_handled_in_mailbox_order.
Theorem C18_accepted_is_in_mailbox : forall registered sched s evs i,
  run (step registered) init sched = Some (s, evs) -> In (EAccepted i) evs ->
  exists m, In (i, m) (entered evs).
Proof. exact accepted_entered. Qed.
Print Assumptions C18_accepted_is_in_mailbox.
Example C18_case : map fst (entered ex_evs) = [0; 1; 2] /\ map fst (taken ex_evs) = [0; 1; 2] /\
  In (EAccepted 2) ex_evs.
Proof. vm_compute. intuition. Qed.

(** A waiting message does get its turn: with no delivery under way and a
    message waiting, the loop's select sees the mailbox ready... *)
Theorem C18_waiting_message_is_ready : forall registered sched s evs,
  run (step registered) init sched = Some (s, evs) ->
  crashed s = false -> at_ s = Select -> no_delivery_in_progress s ->
  length (taken evs) < length (entered evs) ->
  exists s', step registered s (LQ LRecv) = Some (s', []).
Proof. exact mailbox_ready. Qed.
Print Assumptions C18_waiting_message_is_ready.
(** ... and loop steps alone finish everything that entered. *)
Theorem C18_loop_drains : forall registered sched s evs,
  run (step registered) init sched = Some (s, evs) ->
  crashed s = false -> at_ s = Select -> no_delivery_in_progress s ->
  exists ls s' e, forallb mailbox_step ls = true /\ run (step registered) s ls = Some (s', e) /\
    released (evs ++ e) = entered evs.
Proof. exact drain. Qed.
Print Assumptions C18_loop_drains.
Example C18_loop_drains_case : exists s evs,
  run (step ex_reg) init (firstn 13 ex_sched) = Some (s, evs) /\ crashed s = false /\ at_ s = Select /\
  no_delivery_in_progress s /\ length (taken evs) = 0 /\ length (entered evs) = 2.
Proof.
  vm_compute. do 2 eexists. split; [reflexivity|]. repeat split; auto.
  intros d [<-|[<-|[]]]; reflexivity.
Qed.

(** ** C19 *)
(** Releases follow the order of handling: everything taken has been released,
    once, except the message in hand. *)
Theorem C19_finished_released_once : forall registered sched s evs,
  run (step registered) init sched = Some (s, evs) ->
  taken evs = released evs ++ current s /\ NoDup (map fst (released evs)).
Proof. exact finished_released. Qed.
Print Assumptions C19_finished_released_once.
(** The counter of every wait group is the number of messages added minus the
    number released, and it is never negative. *)
Theorem C19_wait_group_balance : forall registered sched s evs g,
  run (step registered) init sched = Some (s, evs) ->
  (wg s g = adds g evs - releases g (released evs) /\ 0 <= wg s g)%Z.
Proof. exact wait_group_balance. Qed.
Print Assumptions C19_wait_group_balance.
Example C19_case : map fst (released ex_evs) = [0; 1] /\ map fst (current ex_end) = [2] /\
  adds 1 ex_evs = 2%Z /\ wg ex_end 1 = 0%Z /\ wg ex_end 2 = 1%Z.
Proof. vm_compute. auto. Qed.

(** ** C20 *)
(** Whatever a run does, there is a run with the same steps of everything else
    in which every event has a handler and every handler returns nil, and it
    ends in the same state, with the same events up to the outcomes. *)
Theorem C20_failures_are_noops : forall registered sched s evs,
  run (step registered) init sched = Some (s, evs) ->
  exists sched', run (step (fun _ => true)) init sched' = Some (s, flat_map noop_event evs) /\
    without_handlers sched' = without_handlers sched /\ (forall o, In (LHandled o) sched' -> o = OK).
Proof. exact failures_are_noops. Qed.
Print Assumptions C20_failures_are_noops.
Example C20_case : In (EEnd (0, ex_m 7 1) Panicked) ex_evs /\ In (ENoHandler (1, ex_m 9 1)) ex_evs /\
  In (EStart (2, ex_m 7 2)) (flat_map noop_event ex_evs) /\
  In (EEnd (0, ex_m 7 1) OK) (flat_map noop_event ex_evs).
Proof. vm_compute. intuition. Qed.

(** ** C21 *)
Theorem C21_closed_rejects : forall registered a b s1 e1 s2 e2 m,
  run (step registered) init a = Some (s1, e1) -> run (step registered) s1 b = Some (s2, e2) ->
  closed s1 <> 0 -> crashed s2 = false ->
  step registered s2 (LReceived m) = Some (s2, [ERejected m]).
Proof. exact closed_rejects. Qed.
Print Assumptions C21_closed_rejects.
Theorem C21_closed_moves_up : forall registered sched l s evs s' e,
  run (step registered) init sched = Some (s, evs) -> step registered s l = Some (s', e) ->
  (closed s' = closed s \/ closed s' = S (closed s)) /\ closed s' <= 2.
Proof. exact closed_moves. Qed.
Print Assumptions C21_closed_moves_up.
Theorem C21_verdict : forall registered s m s' e, step registered s (LReceived m) = Some (s', e) ->
  (e = [ERejected m] /\ s' = s /\ (mself m = true \/ closed s <> 0)) \/
  (e = [] /\ mself m = false /\ closed s = 0).
Proof. exact received_verdict. Qed.
Print Assumptions C21_verdict.
Example C21_case : exists s1 e1 s2 e2,
  run (step ex_reg) init ([LReceived (ex_m 7 1)] ++ deliver 0 ++ [LExit; LShutdown]) = Some (s1, e1) /\
  closed s1 = 1 /\ run (step ex_reg) s1 (take_one ++ [LHandled OK; LDone; LChkQ; LChkR; LChkClose]) = Some (s2, e2) /\
  crashed s2 = false /\ closed s2 = 2.
Proof. do 4 eexists. split; [vm_compute; reflexivity|]. split; [reflexivity|]. split; vm_compute; auto. Qed.

(** ** C22 *)
(** False.  Delivery 1 was accepted before Exit was called; delivery 0 had
    swapped the mailbox head but not stored its link, so the mailbox looked
    empty.  The loop has stopped, Exit has returned, message 1 was never taken
    and (a stopped loop does nothing, [stopped_forever]) never will be. *)
Theorem C22_exit_drains_refuted : exists registered a b s1 e1 s e,
  run (step registered) init a = Some (s1, e1) /\ ~ In LExit a /\ In (EAccepted 1) e1 /\
  run (step registered) s1 b = Some (s, e) /\ In EExitReturned e /\
  taken (e1 ++ e) = [] /\
  (forall c s' e', run (step registered) s c = Some (s', e') -> taken e' = []).
Proof.
  exists ex_reg, ([LReceived (ex_m 7 1); LReceived (ex_m 7 1); LAddWg 0; LPush 0] ++ deliver 1),
    [LExit; LShutdown; LChkQ; LChkR; LChkClose; LCloseRecv; LExitReturn].
  do 4 eexists. split; [vm_compute; reflexivity|]. split; [cbn; intuition discriminate|].
  split; [cbn; tauto|]. split; [vm_compute; reflexivity|]. split; [cbn; tauto|]. split; [reflexivity|].
  intros c s' e' H. eapply stopped_forever; [|exact H]. reflexivity.
Qed.
Print Assumptions C22_exit_drains_refuted.
(** Also false without that gap: a sender that passed the closed check before
    the actor closed is accepted by a stopped actor, and its waiter waits
    forever. *)
Theorem C22_late_sender_refuted : exists registered sched s evs,
  run (step registered) init sched = Some (s, evs) /\ In EExitReturned evs /\ In (EAccepted 0) evs /\
  wg s 1 = 1%Z /\ taken evs = [] /\
  (forall c s' e', run (step registered) s c = Some (s', e') -> taken e' = [] /\ released e' = []).
Proof.
  exists ex_reg, ([LReceived (ex_m 7 1); LExit; LShutdown; LChkQ; LChkR; LChkClose; LCloseRecv; LExitReturn]
    ++ deliver 0).
  do 2 eexists. split; [vm_compute; reflexivity|]. split; [cbn; tauto|]. split; [cbn; tauto|].
  split; [reflexivity|]. split; [reflexivity|].
  intros c s' e' H. eapply stopped_forever; [|exact H]. reflexivity.
Qed.
Print Assumptions C22_late_sender_refuted.
(** And even with one message and no overlap at all, Exit returns while the
    handler is still running: the mailbox is empty as soon as the message is
    popped. *)
Theorem C22_exit_returns_during_handler_refuted : exists registered sched s evs m,
  run (step registered) init sched = Some (s, evs) /\ In EExitReturned evs /\
  at_ s = Handle m /\ In (EAccepted (fst m)) evs /\ released evs = [].
Proof.
  exists ex_reg, ([LReceived (ex_m 7 1)] ++ deliver 0 ++ [LExit; LShutdown] ++ take_one ++
    [LChkQ; LChkR; LChkClose; LExitReturn]).
  do 3 eexists. split; [vm_compute; reflexivity|]. split; [cbn; tauto|]. split; [reflexivity|].
  split; [cbn; tauto|]. reflexivity.
Qed.
Print Assumptions C22_exit_returns_during_handler_refuted.
(** What holds.  Suppose no delivery is under way when the actor starts to
    close, none is started by a forwarder afterwards, and the 10 s limit does not
    strike.  Then when Exit can return every message that entered has been
    finished except at most one, the last, and when the loop has stopped all
    have been finished. *)
Theorem C22_exit_drains_partial : forall registered a b s1 e1 s2 e2 s e,
  run (step registered) init a = Some (s1, e1) -> closed s1 = 0 -> no_delivery_in_progress s1 ->
  step registered s1 LShutdown = Some (s2, e2) ->
  forallb quiet_label b = true -> run (step registered) s2 b = Some (s, e) ->
  let evs := e1 ++ e2 ++ e in
  (closeCh s = true -> exists last, entered evs = released evs ++ last /\ length last <= 1) /\
  (at_ s = Stopped -> released evs = entered evs).
Proof. exact exit_drains. Qed.
Print Assumptions C22_exit_drains_partial.
Example C22_partial_case : exists s1 e1 s2 s e,
  run (step ex_reg) init ([LReceived (ex_m 7 1); LReceived (ex_m 9 1)] ++ deliver 0 ++ deliver 1 ++ [LExit]) = Some (s1, e1) /\
  closed s1 = 0 /\ no_delivery_in_progress s1 /\ step ex_reg s1 LShutdown = Some (s2, []) /\
  run (step ex_reg) s2 ([LChkQ; LChkTick] ++ take_one ++ [LHandled OK; LDone] ++ take_one ++
    [LChkQ; LChkR; LDone; LChkClose; LExitReturn; LCloseRecv]) = Some (s, e) /\
  closeCh s = true /\ at_ s = Stopped /\ length (entered (e1 ++ e)) = 2.
Proof.
  do 5 eexists. split; [vm_compute; reflexivity|]. split; [reflexivity|].
  split; [intros d [<-|[<-|[]]]; reflexivity|]. split; [vm_compute; reflexivity|].
  split; [vm_compute; reflexivity|]. vm_compute. auto.
Qed.

(** ** C23 *)
(** False: the second Exit closes a closed channel and panics, in every state. *)
Theorem C23_second_exit_panics : forall registered sched s evs,
  run (step registered) init sched = Some (s, evs) -> exits sched = 1 ->
  step registered s LExit = Some (crash s, [EPanic]).
Proof. exact second_exit_panics. Qed.
Print Assumptions C23_second_exit_panics.
Theorem C23_exit_idempotent_refuted : exists registered sched s evs,
  run (step registered) init sched = Some (s, evs) /\ exits sched = 2 /\ In EPanic evs /\ crashed s = true.
Proof.
  exists ex_reg, [LExit; LShutdown; LChkQ; LChkR; LChkClose; LExitReturn; LCloseRecv; LExit].
  do 2 eexists. split; [vm_compute; reflexivity|]. cbn. tauto.
Qed.
Print Assumptions C23_exit_idempotent_refuted.
(** With at most one Exit nothing here ever crashes: neither the close of a
    closed channel nor a negative wait group. *)
Theorem C23_single_exit_partial : forall registered sched s evs,
  run (step registered) init sched = Some (s, evs) -> exits sched <= 1 -> crashed s = false.
Proof. exact single_exit_no_crash. Qed.
Print Assumptions C23_single_exit_partial.
Example C23_partial_case : run (step ex_reg) init ex_sched = Some (ex_end, ex_evs) /\ exits ex_sched = 1.
Proof. split; vm_compute; reflexivity. Qed.

(** ** C29, first part: closing silences timers *)
Theorem C29_no_timer_after_close : forall registered a b s1 e1 s2 e2,
  run (step registered) init a = Some (s1, e1) -> run (step registered) s1 b = Some (s2, e2) ->
  closed s1 <> 0 -> forall t, ~ In (ETimerStart t) e2.
Proof. exact closed_no_timer. Qed.
Print Assumptions C29_no_timer_after_close.
Example C29_no_timer_after_close_case : exists s1 e1 s2 e2,
  run (step ex_reg) init [LTick 1; LExit; LShutdown] = Some (s1, e1) /\ closed s1 = 1 /\
  run (step ex_reg) s1 [LTimerRecv; LTimerCheck] = Some (s2, e2) /\ at_ s2 = Select.
Proof. do 4 eexists. split; [vm_compute; reflexivity|]. split; [reflexivity|]. split; vm_compute; reflexivity. Qed.
