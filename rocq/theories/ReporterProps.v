(** Theorems about the span reporter: C58, C80 and C81. *)
From Coq Require Import List Arith ZArith Bool Lia.
From Verif Require Import Machine ClientProofs ReporterModel ReporterSpec ReporterProofs.
Import ListNotations.

(** ** C58: every span is accounted for *)
(** In whatever order Report, Close and the worker move: every span passed to Report was
    queued or counted as dropped, in the order of the calls; those queued are, in order and
    once each, those the sampler was asked about followed by those still waiting; and those
    sent are those the sampler chose. *)
Theorem C58_accounted_partial : forall sampled n sched s evs, run (step sampled) (reporter n) sched = Some (s, evs) ->
  handled evs = reports sched /\ dropped s = length (refused evs) /\ accepted evs = decided evs ++ waiting s /\ sent evs = filter sampled (decided evs).
Proof. intros f n sched s evs H. destruct (acc_reach _ _ _ _ _ H) as (A & B & C & D & _). auto. Qed.
Print Assumptions C58_accounted_partial.
(** When the Close that does the closing has returned, every span queued before it was
    called has been through the sampler, and what was chosen has been flushed. *)
Theorem C58_close_drains_partial : forall sampled n sched1 s1 evs1 sched2 s2 evs2 i, run (step sampled) (reporter n) sched1 = Some (s1, evs1) ->
  i = length (thr s1) -> run (step sampled) s1 (LClose :: sched2) = Some (s2, evs2) -> In (EPushed i) evs2 -> In (EClosed i) evs2 ->
  (exists later, decided (evs1 ++ evs2) = accepted evs1 ++ later) /\
  exists a b, evs1 ++ evs2 = a ++ EFlush :: b /\ forall sp, ~ In (EAppend sp) b.
Proof.
  intros f n sched1 s1 evs1 sched2 s2 evs2 i R1 Hi R2 Hp Hc. pose proof (run_app _ _ _ _ _ _ _ _ R1 R2) as R.
  apply in_split in Hp as (a & b & ->). destruct (close_all _ _ _ _ _ (evs1 ++ a) i b R) as (A & _ & x & y & B & C).
  - now rewrite <- app_assoc.
  - apply in_or_app. now right.
  - split; [exists (accepted a); rewrite A; apply accepted_app|]. exists x, y. split; [exact B|]. intros sp. apply C.
Qed.
Print Assumptions C58_close_drains_partial.
(** The transport is closed at most once, and not used after that. *)
Theorem C58_sender_closed_once : forall sampled n sched s evs a b, run (step sampled) (reporter n) sched = Some (s, evs) -> evs = a ++ ESenderClose :: b ->
  ~ In ESenderClose b /\ ~ In EFlush b /\ forall sp, ~ In (EAppend sp) b.
Proof.
  intros f n sched s evs a b H E. pose proof (ends_reach _ _ _ _ _ H) as K. split; [|split]; [intros X|intros X|intros sp X]; exact (K a b _ E X).
Qed.
Print Assumptions C58_sender_closed_once.
(** Close always returns: by steps of its own and of the worker, whatever else happens. *)
Theorem C58_close_returns : forall sampled n sched s evs i p, 0 < n -> run (step sampled) (reporter n) sched = Some (s, evs) -> nth_error (thr s) i = Some p ->
  match p with CSwap | CPush | CBump | CWait | CSender => True | _ => False end ->
  exists more s' evs', run (step sampled) s more = Some (s', evs') /\ (forall l, In l more -> l = LWork \/ l = LStep i) /\ In (EClosed i) evs'.
Proof. intros f n sched s evs i p Hn H Hp Hk. apply (close_returns f n sched s evs i p Hn H Hp). destruct p; try contradiction; auto. Qed.
Print Assumptions C58_close_returns.
(** ** C80: references *)
(** For each queued span the reporter holds one reference until the sampler and the
    transport are done with it, and then gives it back. *)
Theorem C80_released_partial : forall sampled n sched s evs, run (step sampled) (reporter n) sched = Some (s, evs) ->
  accepted evs = released evs ++ match work s with WRelease sp => [sp] | _ => [] end ++ waiting s /\ retained evs = reports sched.
Proof. intros f n sched s evs H. destruct (acc_reach _ _ _ _ _ H) as (A & B & _ & _ & C & D). split; [now rewrite A, D, <- app_assoc|congruence]. Qed.
Print Assumptions C80_released_partial.
(** ** C81: the queue length that is reported *)
Theorem C81_gauge : forall sampled n sched s evs, run (step sampled) (reporter n) sched = Some (s, evs) -> at_rest s -> gauge s = Z.of_nat (length (queue s)).
Proof.
  intros f n sched s evs H [H1 H2]. pose proof (gauge_reach _ _ _ _ _ H) as G. unfold gauge_ok in G.
  assert (E : length (filter owed (thr s)) = 0).
  { clear -H1. induction (thr s) as [|p l IH]; [reflexivity|]. cbn [filter]. destruct (H1 p (or_introl eq_refl)) as [->| ->]; apply IH; intros q Hq; apply H1; now right. }
  rewrite E in G. destruct H2 as [->| ->] in G; lia.
Qed.
Print Assumptions C81_gauge.
(** In general it is off by the Reports and Closes that have not raised it yet, and by the
    item the worker has taken and not yet counted. *)
Theorem C81_gauge_error : forall sampled n sched s evs, run (step sampled) (reporter n) sched = Some (s, evs) ->
  (gauge s = Z.of_nat (length (queue s)) + (match work s with WGot _ => 1 | _ => 0 end) - Z.of_nat (length (filter (fun p => match p with RBump | CBump => true | _ => false end) (thr s))))%Z.
Proof. intros f n sched s evs H. pose proof (gauge_reach _ _ _ _ _ H) as G. unfold gauge_ok, owed in G. lia. Qed.
Print Assumptions C81_gauge_error.

(** Spans reported after Close are queued but nobody takes them: they are neither sampled
    nor counted as dropped, ever. *)
Theorem C58_after_close_refuted : forall sampled, exists sched s evs sp, run (step sampled) (reporter 100) sched = Some (s, evs) /\
  In sp (accepted evs) /\ ~ In sp (refused evs) /\ forall more s' evs', run (step sampled) s more = Some (s', evs') -> ~ In sp (decided (evs ++ evs')).
Proof.
  intros f. exists [LClose; LStep 0; LStep 0; LStep 0; LWork; LWork; LWork; LWork; LStep 0; LStep 0; LReport 7; LStep 1].
  match goal with |- context [run ?st ?i ?sc] => destruct (run st i sc) as [[s e]|] eqn:E; vm_compute in E; [|discriminate] end.
  injection E as <- <-. eexists _, _, 7. split; [reflexivity|]. split; [now left|]. split; [intros []|].
  intros more s' evs' R. rewrite decided_app. eapply stuck_run in R; [|reflexivity]. rewrite R. intros [].
Qed.
Print Assumptions C58_after_close_refuted.
(** A second Close returns at once, also while the first is waiting and spans are queued. *)
Theorem C58_second_close_refuted : forall sampled, exists sched s evs, run (step sampled) (reporter 100) sched = Some (s, evs) /\
  In (EClosed 2) evs /\ In 7 (accepted evs) /\ ~ In 7 (decided evs).
Proof.
  intros f. exists [LReport 7; LClose; LClose; LStep 1; LStep 2].
  match goal with |- context [run ?st ?i ?sc] => destruct (run st i sc) as [[s e]|] eqn:E; vm_compute in E; [|discriminate] end.
  injection E as <- <-. eexists _, _. split; [reflexivity|]. split; [cbn; auto|]. split; [now left|intros []].
Qed.
Print Assumptions C58_second_close_refuted.
(** Three spans, a queue of two: the third is dropped; Close waits for the first two. *)
Example C58_case : exists s, run (step (fun sp => sp =? 8)) (reporter 2)
    [LReport 7; LReport 8; LReport 9; LStep 0; LStep 1; LClose; LStep 3; LWork; LStep 3; LWork; LWork; LWork; LWork; LWork; LWork; LWork; LStep 3; LWork; LWork; LWork; LWork; LStep 3; LStep 3] =
  Some (s, [ERetain 7; EQueued 7; ERetain 8; EQueued 8; ERetain 9; EDropped 9; EPushed 3; ESampled 7; ERelease 7; ESampled 8; EAppend 8; ERelease 8; EFlush; ESenderClose; EClosed 3]) /\
  dropped s = 1 /\ at_rest s /\ gauge s = 0%Z.
Proof.
  eexists. split; [vm_compute; reflexivity|]. split; [reflexivity|]. split; [|reflexivity]. split; [|right; reflexivity].
  cbn. intros p [<-|[<-|[<-|[<-|[]]]]]; auto.
Qed.

(** A span that is dropped has been retained - the value to send is computed before the
    select finds the queue full - and is never released. *)
Theorem C80_dropped_refuted : forall sampled, exists sched s evs sp, run (step sampled) (reporter 1) sched = Some (s, evs) /\
  In sp (retained evs) /\ forall more s' evs', run (step sampled) s more = Some (s', evs') -> ~ In (LReport sp) more -> ~ In sp (released (evs ++ evs')).
Proof.
  intros f. assert (R : exists s, run (step f) (reporter 1) [LReport 7; LReport 8] = Some (s, [ERetain 7; EQueued 7; ERetain 8; EDropped 8])) by (eexists; vm_compute; reflexivity).
  destruct R as (s & R). exists [LReport 7; LReport 8], s, [ERetain 7; EQueued 7; ERetain 8; EDropped 8], 8. split; [exact R|]. split; [cbn; auto|].
  intros more s' evs' R' Hn Hin. pose proof (run_app _ _ _ _ _ _ _ _ R R') as RR.
  assert (In 8 (accepted ([ERetain 7; EQueued 7; ERetain 8; EDropped 8] ++ evs'))).
  { rewrite (proj1 (C80_released_partial f _ _ _ _ RR)). apply in_or_app. now left. }
  rewrite accepted_app in H. cbn in H. destruct H as [H|H]; [discriminate|].
  apply Hn. clear -R' H. revert s s' evs' R' H. induction more as [|l more IH]; intros s s' evs' R H; cbn [run] in R; [injection R as <- <-; destruct H|].
  destruct (step f s l) as [[s1 e1]|] eqn:E; [|discriminate]. destruct (run (step f) s1 more) as [[s2 e2]|] eqn:R2; [|discriminate]. injection R as <- <-.
  rewrite accepted_app in H. apply in_app_or in H as [H|H]; [|right; eapply IH; eauto]. left. eapply step_accepted; eauto.
Qed.
Print Assumptions C80_dropped_refuted.
