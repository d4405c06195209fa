(** Theorems about periodic tasks: C65, C82 and C97. *)
From Coq Require Import List Arith Bool Lia.
From Verif Require Import Machine ClientProofs TaskModel TaskSpec TaskProofs TaskLive.
Import ListNotations.

(** ** C65: one loop, and stopped means stopped *)
(** If the handler never panics and the task is started and stopped only while it is idle,
    then at most one goroutine is in the handler, *)
Theorem C65_one_handler_partial : forall isrun svc sched s evs i j, run step (task isrun svc) sched = Some (s, evs) ->
  no_panic sched -> gentle (task isrun svc) sched -> in_handler s i -> in_handler s j -> i = j.
Proof. intros b1 b2 sched s evs i j H Hp Hg. apply inv_one. eapply inv_reach; eauto. Qed.
Print Assumptions C65_one_handler_partial.
(** and after a stop the handler does not run until the next start. *)
Theorem C65_stays_stopped_partial : forall isrun svc sched s evs, run step (task isrun svc) sched = Some (s, evs) ->
  no_panic sched -> gentle (task isrun svc) sched -> stopped evs ->
  (forall i, ~ in_handler s i) /\ forall l s' e i, step s l = Some (s', e) -> ~ In (EBegin i) e.
Proof. intros b1 b2 sched s evs H Hp Hg Hs. apply inv_stop; [eapply inv_reach; eauto|eapply stopped_st; eauto]. Qed.
Print Assumptions C65_stays_stopped_partial.
(** In general every start and every panic adds a loop and no loop ever ends: *)
Theorem C65_loops : forall isrun svc sched s evs, run step (task isrun svc) sched = Some (s, evs) -> crashed s = false ->
  length (loops s) = count_ev started evs + count_ev paniced evs.
Proof. exact loops_count. Qed.
Print Assumptions C65_loops.
(** so a task started once whose handler never panicked has one loop. *)
Theorem C65_single_partial : forall isrun svc sched s evs i j, run step (task isrun svc) sched = Some (s, evs) -> crashed s = false ->
  count_ev started evs <= 1 -> count_ev paniced evs = 0 -> in_handler s i -> in_handler s j -> i = j.
Proof.
  intros b1 b2 sched s evs i j H Hc H1 H2 Hi Hj. pose proof (loops_count _ _ _ _ _ H Hc) as L. unfold in_handler in *.
  assert (i < length (loops s)) by (apply nth_error_Some; congruence). assert (j < length (loops s)) by (apply nth_error_Some; congruence). lia.
Qed.
Print Assumptions C65_single_partial.
(** After a panic there are two loops, and both may be in the handler. *)
Theorem C65_panic_refuted : exists sched s evs, run step (task true true) sched = Some (s, evs) /\ count_ev started evs = 1 /\ in_handler s 0 /\ in_handler s 1.
Proof.
  exists [LStart; LFire 0; LEnd 0 true; LFire 1; LEval 0; LTick 1; LRecv 0]. eexists _, _. split; [reflexivity|]. repeat split.
Qed.
Print Assumptions C65_panic_refuted.
(** Stopped and started again while its handler runs: the old loop is still there, goes on
    with the new ticker, and both are in the handler. *)
Theorem C65_restart_refuted : exists sched s evs, run step (task true true) sched = Some (s, evs) /\ no_panic sched /\ in_handler s 0 /\ in_handler s 1 /\
  exists more s' evs', run step s more = Some (s', evs') /\ (forall i, In (LEnd i false) more -> i = 0) /\ In (EEnd 0) evs' /\ In (EBegin 0) evs' /\ in_handler s' 1.
Proof.
  exists [LStart; LFire 0; LStop; LStart; LFire 1]. eexists _, _. split; [reflexivity|]. split; [intros i H; cbn in H; repeat destruct H as [H|H]; try discriminate; contradiction|].
  split; [reflexivity|]. split; [reflexivity|]. exists [LEnd 0 false; LEval 0; LTick 1; LRecv 0]. eexists _, _. split; [reflexivity|].
  split; [intros i H; cbn in H; repeat destruct H as [H|H]; try discriminate; try contradiction; congruence|]. split; [now left|]. split; [right; now left|reflexivity].
Qed.
Print Assumptions C65_restart_refuted.
(** Stopped before its loop has begun (it waits for the due time): the loop begins all the
    same, and ticks for ever. *)
Theorem C65_due_refuted : exists sched s evs, run step (task true true) sched = Some (s, evs) /\ no_panic sched /\ stopped evs /\
  exists s1 e1, run step s [LFire 1; LEnd 1 false; LEval 1] = Some (s1, e1) /\ In (EBegin 1) e1 /\ stopped (evs ++ e1) /\
  exists s2, run step s1 [LTick 1; LRecv 1; LEnd 1 false; LEval 1] = Some (s2, [EBegin 1; EEnd 1]) /\ s2 = s1.
Proof.
  exists [LStart; LFire 0; LEnd 0 false; LEval 0; LStop; LStart; LStop]. eexists _, _. split; [reflexivity|].
  split; [intros i H; cbn in H; repeat destruct H as [H|H]; try discriminate; contradiction|].
  split; [exists [EStarted; EBegin 0; EEnd 0; EStopped; EStarted], []; split; [reflexivity|intros []]|].
  eexists _, _. split; [reflexivity|]. split; [now left|]. split.
  - exists [EStarted; EBegin 0; EEnd 0; EStopped; EStarted], [EBegin 1; EEnd 1]. split; [reflexivity|]. intros [X|[X|[]]]; discriminate.
  - eexists. split; reflexivity.
Qed.
Print Assumptions C65_due_refuted.
(** A task that is started, ticks, is stopped while idle and started again: one handler at
    a time. *)
Example C65_case : exists s evs, run step (task true true)
    [LStart; LFire 0; LEnd 0 false; LEval 0; LTick 0; LRecv 0; LEnd 0 false; LEval 0; LStop; LStart; LFire 1] = Some (s, evs) /\
  evs = [EStarted; EBegin 0; EEnd 0; EBegin 0; EEnd 0; EStopped; EStarted; EBegin 1] /\ in_handler s 1 /\ ~ in_handler s 0.
Proof. eexists _, _. split; [reflexivity|]. split; [reflexivity|]. split; [reflexivity|discriminate]. Qed.
Example C65_case_gentle : gentle (task true true) [LStart; LFire 0; LEnd 0 false; LEval 0; LTick 0; LRecv 0; LEnd 0 false; LEval 0; LStop; LStart; LFire 1].
Proof.
  intros pre l suf s evs H Hl R.
  do 11 (destruct pre as [|? pre]; [injection H as <- <-; first [destruct Hl; discriminate|vm_compute in R; injection R as <- <-; split; cbn; intros x Hx; repeat destruct Hx as [<-|Hx]; try contradiction; eauto]|injection H as <- H]).
  destruct pre; discriminate.
Qed.

(** ** C82: no task operation brings the process down *)
(** In a service, once the first loop has begun, nothing does. *)
Theorem C82_safe_partial : forall isrun sched s evs l s' e, run step (task isrun true) sched = Some (s, evs) -> crashed s = false ->
  (exists i, In (EBegin i) evs) -> step s l = Some (s', e) -> crashed s' = false.
Proof.
  intros b1 sched s evs l s' e H Hc Hb Hst. destruct (begun _ _ _ _ H) as [A B].
  destruct l; inv_step Hst; cbn [crashed set spawn with_st with_ticks crash]; try assumption; try reflexivity; try congruence.
  destruct Hb as (i & Hi). destruct (proj2 (B eq_refl) i Hi).
Qed.
Print Assumptions C82_safe_partial.
(** A stop before that reads the ticker that is not there yet. *)
Theorem C82_stop_refuted : exists sched s evs, run step (task true true) sched = Some (s, evs) /\ no_panic sched /\ In ECrash evs.
Proof.
  exists [LStart; LStop]. eexists _, _. split; [reflexivity|]. split; [intros i H; cbn in H; repeat destruct H as [H|H]; try discriminate; contradiction|right; now left].
Qed.
Print Assumptions C82_stop_refuted.
(** And the recovery of a handler's panic reads the service of a task that has none. *)
Theorem C82_no_service_refuted : exists sched s evs, run step (task true false) sched = Some (s, evs) /\ ~ In LStop sched /\ In ECrash evs.
Proof.
  exists [LStart; LFire 0; LEnd 0 true]. eexists _, _. split; [reflexivity|]. split; [intros H; cbn in H; repeat destruct H as [H|H]; try discriminate; contradiction|]. cbn. auto.
Qed.
Print Assumptions C82_no_service_refuted.
Example C82_case : exists s evs, run step (task true true) [LStart; LFire 0; LEnd 0 true; LStop] = Some (s, evs) /\ crashed s = false /\ In (EPanic 0) evs.
Proof. eexists _, _. split; [reflexivity|]. split; [reflexivity|]. cbn. auto. Qed.

(** ** C97: a started task goes on running *)
(** Whatever happened before — stops and starts at any moment, panics, several loops —, a
    task whose last start or stop was a start, in a process that is alive, can run its
    handler any number of times more, by the work of its loops and tickers alone. *)
Theorem C97_runs : forall isrun svc sched s evs m, run step (task isrun svc) sched = Some (s, evs) -> running_task evs -> ~ In ECrash evs ->
  exists sched' s' evs', run step s sched' = Some (s', evs') /\ Forall loop_work sched' /\ m <= count_ev began evs'.
Proof. exact runs_again. Qed.
Print Assumptions C97_runs.
Example C97_case : exists s evs, run step (task true true) [LStart; LFire 0; LEnd 0 true; LEval 0; LStop; LStart; LFire 2; LEnd 2 false] = Some (s, evs) /\
  running_task evs /\ ~ In ECrash evs /\ exists s', run step s [LEval 2; LTick 1; LRecv 2] = Some (s', [EBegin 2]).
Proof.
  eexists _, _. split; [vm_compute; reflexivity|]. split; [exists [EStarted; EBegin 0; EPanic 0; EStopped], [EBegin 2; EEnd 2]; split; [reflexivity|intros H; cbn in H; intuition discriminate]|].
  split; [intros H; cbn in H; intuition discriminate|]. eexists. vm_compute. reflexivity.
Qed.
