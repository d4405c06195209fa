(** Theorems about the timer service: C105-C109. *)
From Coq Require Import List Arith Bool Lia.
From Verif Require Import Machine ServiceModel ServiceSpec ServiceProofs ServiceMore.
From Verif Require TaskModel TaskSpec TaskProps.
Import ListNotations.

(** Schedules used below: a task for id, registered by call j; a call for one id; its loop
    begins and blocks. *)
Definition new (j id : nat) (p : bool) : list label := [LCall (KNew id true p true); LStep j; LStep j].
Definition one (j id : nat) (b : bool) : list label := [LCall (KOne b id); LStep j; LStep j; LStep j].
Definition fired (k : nat) : list label := [LTask k (TaskModel.LFire 0); LTask k (TaskModel.LEnd 0 false); LTask k (TaskModel.LEval 0)].
Definition ticked (k : nat) : list label := [LTask k (TaskModel.LTick 0); LTask k (TaskModel.LRecv 0); LTask k (TaskModel.LEnd 0 false); LTask k (TaskModel.LEval 0)].

(** ** C105: operations reach the task registered for the id *)
(** A task is started or stopped only by a call that names its id (or all), that looked the
    id up and found this task registered, and that wants this; the task was made for the id. *)
Theorem C105_reach : forall sched s evs a j k b z, run step init sched = Some (s, evs) -> evs = a ++ VAct j k b :: z ->
  exists c id a1 a2, In (VCall j c) a /\ asks c b id /\ a = a1 ++ VLook j id (Some k) :: a2 /\ registered a1 id = Some k /\ exists isrun pos svc, made a1 k id isrun pos svc.
Proof.
  intros sched s evs a j k b z H E. destruct (act_asked _ _ _ _ _ _ _ _ H E) as (c & id & C1 & C2 & a1 & a2 & E1 & R). exists c, id, a1, a2. repeat (split; [assumption|]).
  assert (E2 : evs = a1 ++ VLook j id (Some k) :: a2 ++ VAct j k b :: z) by (rewrite E, E1, <- app_assoc; reflexivity). destruct (look_found _ _ _ _ _ _ _ _ H E2) as (_ & _ & M). auto.
Qed.
Print Assumptions C105_reach.
(** What a task does is what the model of one task allows, with exactly these starts and
    stops: C65, C82 and C97 hold of every task of a service. *)
Theorem C105_task : forall sched s evs k id isrun pos svc, run step init sched = Some (s, evs) -> made evs k id isrun pos svc ->
  exists t tsched, run TaskModel.step (TaskModel.task isrun svc) tsched = Some (t, task_events k evs) /\ controls tsched = acts k evs.
Proof. intros sched s evs k id i p sv H M. destruct (project _ _ _ _ _ _ _ _ H M) as (t & ts & _ & _ & _ & R & C & _). eauto. Qed.
Print Assumptions C105_task.
(** The handler of a task that no call has started never runs. *)
Theorem C105_unstarted : forall sched s evs k id isrun pos svc i, run step init sched = Some (s, evs) -> made evs k id isrun pos svc ->
  In (TaskModel.EBegin i) (task_events k evs) -> In true (acts k evs).
Proof. intros. eapply never_started; eauto. Qed.
Print Assumptions C105_unstarted.
(** Stop reports an error exactly when nothing is registered for the name, and otherwise has
    stopped what is. *)
Theorem C105_stop : forall sched s evs a j id ok z, run step init sched = Some (s, evs) -> evs = a ++ VRet j ok :: z -> In (VCall j (KStop id)) evs ->
  if ok then exists k a1 a2, a = a1 ++ VLook j id (Some k) :: a2 /\ registered a1 id = Some k /\ In (VAct j k false) a2
  else exists a1, a = a1 ++ [VLook j id None] /\ registered a1 id = None.
Proof. exact stop_result. Qed.
Print Assumptions C105_stop.
(** Two tasks, the second is started and stopped by name; the first is left alone. *)
Example C105_case : exists s evs, run step init (new 0 7 true ++ new 1 8 true ++ one 2 8 true ++ fired 1 ++ [LCall (KStop 8); LStep 3; LStep 3; LCall (KStop 9); LStep 4]) = Some (s, evs) /\
  acts 0 evs = [] /\ task_events 0 evs = [] /\ acts 1 evs = [true; false] /\
  task_events 1 evs = [TaskModel.EStarted; TaskModel.EBegin 0; TaskModel.EEnd 0; TaskModel.EStopped] /\ In (VRet 3 true) evs /\ In (VRet 4 false) evs /\ made evs 1 8 true true true.
Proof.
  eexists _, _. split; [vm_compute; reflexivity|]. split; [reflexivity|]. split; [reflexivity|]. split; [reflexivity|]. split; [reflexivity|]. split; [cbn; tauto|]. split; [cbn; tauto|]. exists 1. cbn. tauto.
Qed.

(** ** C106: StartAllTask and StopAllTask reach every registered task *)
(** When such a call has returned, every id that was registered when it began, and was not
    removed meanwhile, was looked up and the task found was started or stopped; if the id was
    not given to another task meanwhile this is the task that was registered at the beginning. *)
Theorem C106_all : forall sched s evs a j b m ok z id k, run step init sched = Some (s, evs) -> evs = a ++ VCall j (KAll b) :: m ++ VRet j ok :: z ->
  registered a id = Some k -> ~ In (VDel id) m ->
  exists k', In (VLook j id (Some k')) m /\ In (VAct j k' b) m /\ ((forall x, ~ In (VPut id x) m) -> k' = k).
Proof. exact all_visited. Qed.
Print Assumptions C106_all.
(** Two tasks; one more is registered and one removed while StartAllTask runs. *)
Example C106_case : exists s evs a m z, run step init (new 0 7 true ++ new 1 8 true ++ new 2 9 true ++ [LCall (KAll true); LNext 3 8; LStep 3] ++ new 4 6 true ++ [LCall (KRemove 9); LStep 5; LStep 5; LNext 3 7; LStep 3; LStep 3]) = Some (s, evs) /\
  evs = a ++ VCall 3 (KAll true) :: m ++ VRet 3 true :: z /\ registered a 7 = Some 0 /\ registered a 8 = Some 1 /\ registered a 9 = Some 2 /\ ~ In (VDel 7) m /\ In (VDel 9) m /\
  acts 0 m = [true] /\ acts 1 m = [true] /\ acts 2 m = [].
Proof.
  eexists _, _. exists [VCall 0 (KNew 7 true true true); VMade 0 0; VPut 7 0; VRet 0 true; VCall 1 (KNew 8 true true true); VMade 1 1; VPut 8 1; VRet 1 true; VCall 2 (KNew 9 true true true); VMade 2 2; VPut 9 2; VRet 2 true].
  exists [VLook 3 8 (Some 1); VAct 3 1 true; VTask 1 TaskModel.EStarted; VCall 4 (KNew 6 true true true); VMade 4 3; VPut 6 3; VRet 4 true; VCall 5 (KRemove 9); VDel 9; VRet 5 true; VLook 3 7 (Some 0); VAct 3 0 true; VTask 0 TaskModel.EStarted], [].
  split; [vm_compute; reflexivity|]. split; [reflexivity|]. split; [reflexivity|]. split; [reflexivity|]. split; [reflexivity|]. split; [intros H; cbn in H; intuition discriminate|]. split; [cbn; tauto|]. auto.
Qed.

(** ** C107: a task can be stopped through its service *)
(** False: a task that was removed, or replaced by another with its id, while it ran, is
    started and stopped by no later call, whatever is done with the service short of
    registering the same task again, and its handler runs as often as one likes. *)
Theorem C107_lost : forall sched s evs k id isrun svc more s' evs', run step init sched = Some (s, evs) -> dead s = false -> quiet evs ->
  made evs k id isrun true svc -> registered evs id <> Some k -> TaskSpec.running_task (task_events k evs) ->
  run step s more = Some (s', evs') -> (forall j, ~ In (VCall j (KAdd k)) evs') ->
  (forall j b, ~ In (VAct j k b) evs') /\
  (dead s' = false -> forall n, exists more2 s2 evs2, run step s' more2 = Some (s2, evs2) /\ Forall (task_work k) more2 /\ n <= TaskSpec.count_ev TaskSpec.began (task_events k evs2)).
Proof. exact lost. Qed.
Print Assumptions C107_lost.
(** After RemoveTask, StopAllTask and Stop by name: the handler still runs. *)
Theorem C107_removed_refuted : exists sched s evs, run step init (sched ++ [LCall (KAll false); LStep 3; LCall (KStop 7); LStep 4] ++ ticked 0) = Some (s, evs) /\
  dead s = false /\ quiet evs /\ In (VRet 3 true) evs /\ In (VRet 4 false) evs /\ acts 0 evs = [true] /\ exists z, evs = z ++ [VTask 0 (TaskModel.EBegin 0); VTask 0 (TaskModel.EEnd 0)].
Proof.
  exists (new 0 7 true ++ one 1 7 true ++ fired 0 ++ [LCall (KRemove 7); LStep 2; LStep 2]). eexists _, _. split; [vm_compute; reflexivity|]. split; [reflexivity|]. split.
  - intros j c [H1 H2]. cbn in H1. repeat destruct H1 as [H1|H1]; try discriminate; try contradiction; injection H1 as <- <-; (eapply H2; cbn; tauto).
  - split; [cbn; tauto|]. split; [cbn; tauto|]. split; [reflexivity|]. eexists ([_; _; _; _; _; _; _; _; _; _; _; _; _; _; _; _; _; _; _; _]). reflexivity.
Qed.
Print Assumptions C107_removed_refuted.
(** NewTickTask with an id in use: StopAllTask reaches the new task only. *)
Theorem C107_replaced_refuted : exists sched s evs, run step init (sched ++ [LCall (KAll false); LNext 3 7; LStep 3; LStep 3] ++ ticked 0) = Some (s, evs) /\
  dead s = false /\ quiet evs /\ In (VRet 3 true) evs /\ acts 0 evs = [true] /\ acts 1 evs = [false] /\ exists z, evs = z ++ [VTask 0 (TaskModel.EBegin 0); VTask 0 (TaskModel.EEnd 0)].
Proof.
  exists (new 0 7 true ++ one 1 7 true ++ fired 0 ++ new 2 7 true). eexists _, _. split; [vm_compute; reflexivity|]. split; [reflexivity|]. split.
  - intros j c [H1 H2]. cbn in H1. repeat destruct H1 as [H1|H1]; try discriminate; try contradiction; injection H1 as <- <-; (eapply H2; cbn; tauto).
  - split; [cbn; tauto|]. split; [reflexivity|]. split; [reflexivity|]. eexists ([_; _; _; _; _; _; _; _; _; _; _; _; _; _; _; _; _; _; _; _]). reflexivity.
Qed.
Print Assumptions C107_replaced_refuted.
(** A task that is registered, in a process that is quiet and alive: Stop by name stops it
    (the process survives if the handler has begun before, C82). *)
Theorem C107_registered_partial : forall sched s evs k id isrun pos, run step init sched = Some (s, evs) -> dead s = false -> quiet evs -> made evs k id isrun pos true -> registered evs id = Some k ->
  (exists i, In (TaskModel.EBegin i) (task_events k evs)) ->
  let j := length (calls s) in exists s' evs', run step s [LCall (KStop id); LStep j; LStep j] = Some (s', evs') /\ In (VAct j k false) evs' /\ In (VRet j true) evs' /\ dead s' = false.
Proof.
  intros sched s evs k id isrun pos H D Q M R (i & B) j. pose proof (inv_reach _ _ _ H D) as HI. destruct (project _ _ _ _ _ _ _ _ H M) as (t & ts & Hk & _ & _ & Ht & _).
  assert (W : writing s = false).
  { destruct (writing s) eqn:W; [|reflexivity]. apply is_writing in W as (j0 & w & Hw). destruct (i_call _ _ HI _ _ Hw) as (c & C1 & _ & C3). destruct (Q j0 c). split; [exact C1|]. intros ok X. discriminate (proj2 C3 (ex_intro _ ok X)). }
  set (s1 := with_calls s (calls s ++ [PStop id])). assert (S1 : step s (LCall (KStop id)) = Some (s1, [VCall j (KStop id)])) by (unfold step; rewrite D; reflexivity).
  assert (Hj : nth_error (calls s1) j = Some (PStop id)) by (cbn; rewrite nth_error_app2, Nat.sub_diag by (unfold j; lia); reflexivity).
  assert (W1 : writing s1 = false) by (unfold writing, s1 in *; cbn [calls with_calls]; rewrite existsb_app, W; reflexivity).
  assert (G : get id (tmap s1) = Some k) by (change (tmap s1) with (tmap s); now rewrite (i_map _ _ HI)).
  assert (S2 : step s1 (LStep j) = Some (goto s1 j (PHave false k), [VLook j id (Some k)])) by (unfold step; change (dead s1) with (dead s); rewrite D, Hj; unfold read; rewrite W1, G; reflexivity).
  set (s2 := goto s1 j (PHave false k)) in *. assert (Hj2 : nth_error (calls s2) j = Some (PHave false k)) by (cbn; apply nth_upd_eq; rewrite app_length; cbn; unfold j; lia).
  assert (K2 : ok_state s2) by (eapply ok_next; [eapply ok_next; [exists sched, evs; exact H|exact S1]|exact S2]).
  destruct (act_enabled s2 j false k PDone [VRet j true] K2 D) as (s3 & e3 & A & _ & _ & _ & X); [eapply some_lt; exact Hk|].
  assert (S3 : step s2 (LStep j) = Some (s3, e3)) by (unfold step; change (dead s2) with (dead s); rewrite D, Hj2; exact A).
  assert (D3 : dead s3 = false).
  { unfold act, tstep in A. cbn [heap goto with_calls] in A. change (heap s2) with (heap s) in A. rewrite Hk in A. destruct (TaskModel.step (body t) TaskModel.LStop) as [[b' f]|] eqn:E; [|discriminate]. injection A as <- <-. cbn [dead].
    apply (TaskProps.C82_safe_partial _ _ _ _ _ _ _ Ht) in E; [exact E| |eauto].
    destruct (TaskModel.crashed (body t)) eqn:Hc; [|reflexivity]. pose proof (crashed_dead _ _ _ H _ _ Hk Hc). congruence. }
  exists s3, ([VCall j (KStop id)] ++ [VLook j id (Some k)] ++ e3 ++ []). split; [cbn [run]; rewrite S1; cbn [run]; rewrite S2; cbn [run]; rewrite S3; reflexivity|]. rewrite app_nil_r. split; [|split; [|exact D3]].
  - apply in_or_app. right. apply in_or_app. right. unfold act in A. destruct (tstep _ _ _) as [[u f]|]; [|discriminate]. injection A as <- <-. now left.
  - apply in_or_app. right. apply in_or_app. right. apply X; [exact D3|now left].
Qed.
Print Assumptions C107_registered_partial.
Example C107_case : exists s evs, run step init (new 0 7 true ++ one 1 7 true ++ fired 0) = Some (s, evs) /\ dead s = false /\ quiet evs /\ made evs 0 7 true true true /\ registered evs 7 = Some 0 /\
  TaskSpec.running_task (task_events 0 evs) /\ In (TaskModel.EBegin 0) (task_events 0 evs).
Proof.
  eexists _, _. split; [vm_compute; reflexivity|]. split; [reflexivity|]. split.
  - intros j c [H1 H2]. cbn in H1. repeat destruct H1 as [H1|H1]; try discriminate; try contradiction; injection H1 as <- <-; (eapply H2; cbn; tauto).
  - split; [exists 0; cbn; tauto|]. split; [reflexivity|]. split; [exists [], [TaskModel.EBegin 0; TaskModel.EEnd 0]; split; [reflexivity|intros H; cbn in H; intuition discriminate]|now right; left].
Qed.
(** The hypotheses of C107_lost are met by the same task once it is removed. *)
Example C107_lost_case : exists s evs, run step init (new 0 7 true ++ one 1 7 true ++ fired 0 ++ [LCall (KRemove 7); LStep 2; LStep 2]) = Some (s, evs) /\ dead s = false /\ quiet evs /\ made evs 0 7 true true true /\ registered evs 7 <> Some 0 /\
  TaskSpec.running_task (task_events 0 evs).
Proof.
  eexists _, _. split; [vm_compute; reflexivity|]. split; [reflexivity|]. split.
  - intros j c [H1 H2]. cbn in H1. repeat destruct H1 as [H1|H1]; try discriminate; try contradiction; injection H1 as <- <-; (eapply H2; cbn; tauto).
  - split; [exists 0; cbn; tauto|]. split; [discriminate|]. exists [], [TaskModel.EBegin 0; TaskModel.EEnd 0]. split; [reflexivity|intros H; cbn in H; intuition discriminate].
Qed.

(** ** C108: calls on the service do not bring the process down *)
(** If calls that change the map overlap no other call, what remains is: a task with an
    interval that is not positive was started; a task was stopped before its handler first
    began; or the handler of a task without a service panicked. *)
Theorem C108_causes_partial : forall sched s evs a c z, run step init sched = Some (s, evs) -> evs = a ++ VCrash c :: z -> alone evs ->
  (exists k id isrun svc, made a k id isrun false svc /\ In true (acts k a)) \/
  (exists k j, In (VAct j k false) a /\ forall i, ~ In (TaskModel.EBegin i) (task_events k a)) \/
  (exists k id isrun pos i, made a k id isrun pos false /\ In (TaskModel.EPanic i) (task_events k a)).
Proof. exact crash_cause. Qed.
Print Assumptions C108_causes_partial.
(** Calls that change the map exclude each other: an overlap takes a call that changes it and
    one that does not. *)
Theorem C108_writers : forall sched s evs a z, run step init sched = Some (s, evs) -> evs = a ++ VCrash COverlap :: z ->
  exists j c j' c', pending a j c /\ changes c /\ pending a j' c' /\ ~ changes c'.
Proof. exact overlap_reader. Qed.
Print Assumptions C108_writers.
(** The process ends exactly with such an event. *)
Theorem C108_dead : forall sched s evs, run step init sched = Some (s, evs) -> (dead s = true <-> exists c, In (VCrash c) evs).
Proof.
  intros sched s evs H. split; [eapply dead_crash; eauto|]. intros (c & X). apply in_split in X as (a & z & X). eapply crash_last; eauto.
Qed.
Print Assumptions C108_dead.
(** StopTask of a task that is removed between its two lookups. *)
Theorem C108_removed_refuted : exists sched s evs, run step init (sched ++ [LCall (KOne false 7); LStep 2; LCall (KRemove 7); LStep 3; LStep 3; LStep 2]) = Some (s, evs) /\ In (VCrash CNil) evs /\
  exists s0 evs0, run step init sched = Some (s0, evs0) /\ quiet evs0 /\ dead s0 = false.
Proof.
  exists (new 0 7 true ++ one 1 7 true ++ fired 0). eexists _, _. split; [vm_compute; reflexivity|]. split; [cbn; tauto|]. destruct C107_case as (s & evs & H & D & Q & _). eauto.
Qed.
Print Assumptions C108_removed_refuted.
(** StartAllTask while NewTickTask registers another task. *)
Theorem C108_overlap_refuted : exists s evs, run step init (new 0 7 true ++ [LCall (KNew 8 true true true); LStep 1; LCall (KAll true); LNext 2 7]) = Some (s, evs) /\ In (VCrash COverlap) evs.
Proof. eexists _, _. split; [vm_compute; reflexivity|]. cbn. tauto. Qed.
Print Assumptions C108_overlap_refuted.
(** An interval of zero is accepted, and the process ends when the task is started. *)
Theorem C108_interval_refuted : exists s evs, run step init (new 0 7 false ++ one 1 7 true ++ [LTask 0 (TaskModel.LFire 0)]) = Some (s, evs) /\ In (VRet 0 true) evs /\ In (VCrash CInterval) evs.
Proof. eexists _, _. split; [vm_compute; reflexivity|]. cbn. tauto. Qed.
Print Assumptions C108_interval_refuted.
(** StopAllTask right after StartAllTask. *)
Theorem C108_early_refuted : exists s evs, run step init (new 0 7 true ++ [LCall (KAll true); LNext 1 7; LStep 1; LStep 1; LCall (KAll false); LNext 2 7; LStep 2]) = Some (s, evs) /\ In (VRet 1 true) evs /\ In (VCrash CTask) evs.
Proof. eexists _, _. split; [vm_compute; reflexivity|]. cbn. tauto. Qed.
Print Assumptions C108_early_refuted.
(** The hypotheses of C108_causes_partial are met by the run with the interval of zero. *)
Example C108_alone_case : exists s evs, run step init (new 0 7 false ++ one 1 7 true ++ [LTask 0 (TaskModel.LFire 0)]) = Some (s, evs) /\ alone evs /\ exists a, evs = a ++ [VCrash CInterval].
Proof.
  eexists _, _. split; [vm_compute; reflexivity|]. split; [|eexists ([_; _; _; _; _; _; _; _; _; _]); reflexivity].
  intros a b j c E [P1 P2] C j' c' [P3 P4].
  do 12 (destruct a as [|? a]; [cbn in P1, P3; repeat destruct P1 as [P1|P1]; repeat destruct P3 as [P3|P3]; try discriminate; try contradiction; injection P1 as <- <-; injection P3 as <- <-; first [reflexivity|solve [destruct C]|exfalso; apply (P2 true); cbn; tauto|exfalso; apply (P4 true); cbn; tauto]|try discriminate E; injection E as <- E]).
Qed.
(** One after the other, the same calls do no harm. *)
Example C108_case : exists s evs, run step init (new 0 7 true ++ one 1 7 true ++ fired 0 ++ one 2 7 false ++ [LCall (KRemove 7); LStep 3; LStep 3; LCall (KOne true 7); LStep 4]) = Some (s, evs) /\
  dead s = false /\ In (TaskModel.EStopped) (task_events 0 evs) /\ In (VRet 4 true) evs.
Proof. eexists _, _. split; [vm_compute; reflexivity|]. split; [reflexivity|]. cbn. tauto. Qed.

(** ** C109: every call on the service can end *)
(** by steps of the calls that have begun, unless the process ends. *)
Theorem C109_ends : forall sched s evs j c, run step init sched = Some (s, evs) -> dead s = false -> pending evs j c ->
  exists more s' evs', run step s more = Some (s', evs') /\ Forall own_work more /\ ((exists ok, In (VRet j ok) evs') \/ dead s' = true).
Proof. exact ends. Qed.
Print Assumptions C109_ends.
Example C109_case : exists s evs, run step init (new 0 7 true ++ [LCall (KAll true); LCall (KRemove 7); LCall (KNew 8 true true true); LStep 2]) = Some (s, evs) /\ dead s = false /\
  pending evs 1 (KAll true) /\ pending evs 2 (KRemove 7) /\ pending evs 3 (KNew 8 true true true) /\ exists s' evs', run step s [LStep 2; LStep 1; LStep 3; LStep 3] = Some (s', evs') /\ In (VRet 1 true) evs' /\ In (VRet 3 true) evs'.
Proof.
  eexists _, _. split; [vm_compute; reflexivity|]. split; [reflexivity|].
  split; [split; [cbn; tauto|intros ok H; cbn in H; intuition discriminate]|]. split; [split; [cbn; tauto|intros ok H; cbn in H; intuition discriminate]|]. split; [split; [cbn; tauto|intros ok H; cbn in H; intuition discriminate]|].
  eexists _, _. split; [vm_compute; reflexivity|]. cbn. tauto.
Qed.
