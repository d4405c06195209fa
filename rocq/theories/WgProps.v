(** C147-C151: the wait group of a message. *)
From Coq Require Import List ZArith Bool Arith Lia.
From Verif Require Import Machine MachineMore WgModel WgSpec WgProofs.
Import ListNotations.
Open Scope Z_scope.

(** Two tasks are added, somebody waits, one task ends and the second is ending: its Done has
    changed the copy only. *)
Definition ex_sched : list label :=
  [LBegin 1; LApply 0; LBegin 1; LApply 1; LWait; LBegin (-1); LApply 2; LBegin (-1)].

(** ** C147 *)
(** Count returns the sum of the deltas of all calls made so far, as an int32, also while some of
    them are under way. *)
Theorem C147_count : forall sched s evs s' c,
  run step init sched = Some (s, evs) -> step s LCount = Some (s', [ECount c]) -> c = int32 (begun sched).
Proof. intros sched s evs s' c H E. cbn in E. injection E as <- <-. apply (i_copy _ _ _ (inv_reach _ _ _ H)). Qed.
Print Assumptions C147_count.
Example C147_count_case :
  exists s evs, run step init (firstn 7 ex_sched) = Some (s, evs) /\ step s LCount = Some (s, [ECount 1]) /\ begun (firstn 7 ex_sched) = 1.
Proof. do 2 eexists. split; [vm_compute; reflexivity|]. split; reflexivity. Qed.

(** In particular Count is the exact number as long as fewer than 2^31 tasks are open. *)
Theorem C147_exact : forall sched s evs s' c,
  run step init sched = Some (s, evs) -> step s LCount = Some (s', [ECount c]) ->
  - 2 ^ 31 <= begun sched < 2 ^ 31 -> c = begun sched.
Proof. intros sched s evs s' c H E R. rewrite (C147_count _ _ _ _ _ H E). apply int32_id. exact R. Qed.
Print Assumptions C147_exact.
Example C147_exact_case :
  exists s evs, run step init ex_sched = Some (s, evs) /\ step s LCount = Some (s, [ECount 0]) /\ begun ex_sched = 0.
Proof. do 2 eexists. split; [vm_compute; reflexivity|]. split; reflexivity. Qed.

(** ** C148 *)
(** Wait returns only at a moment at which the calls of Add and Done that have reached the wait
    group cancel out. *)
Theorem C148_moment : forall sched s evs l s' e j,
  run step init sched = Some (s, evs) -> step s l = Some (s', e) -> In (EWaited j) e -> int32 (applied evs) = 0.
Proof.
  intros sched s evs l s' e j H E I. apply inv_reach in H. rewrite <- (i_cnt _ _ _ H). apply step_move in E.
  destruct E; cbn in I; repeat (destruct I as [I|I]; try discriminate I); try contradiction; assumption.
Qed.
Print Assumptions C148_moment.
Definition ex_wait : list label := ex_sched ++ [LApply 3; LZero 3; LAcquire 0].
Example C148_moment_case :
  exists s evs s', run step init ex_wait = Some (s, evs) /\ step s (LCheck 0) = Some (s', [EWaited 0]) /\
    applied evs = 0 /\ In (EApplied 1) evs.
Proof. do 3 eexists. split; [vm_compute; reflexivity|]. repeat split; cbn; auto. Qed.

(** A Wait that begins while tasks are open does not return before that. *)
Theorem C148_blocks : forall sched s evs s' e,
  run step init sched = Some (s, evs) -> int32 (applied evs) <> 0 -> step s LWait = Some (s', e) ->
  e = [] /\ waiting s' (length (waiters s)).
Proof.
  intros sched s evs s' e H N E. apply inv_reach in H. rewrite <- (i_cnt _ _ _ H) in N. cbn in E.
  destruct (Z.eqb_spec (cnt s) 0); [contradiction|]. injection E as <- <-. split; [reflexivity|]. left. cbn.
  rewrite nth_error_app2, Nat.sub_diag by lia. reflexivity.
Qed.
Print Assumptions C148_blocks.
Example C148_blocks_case :
  exists s evs s', run step init (firstn 4 ex_sched) = Some (s, evs) /\ applied evs = 2 /\ step s LWait = Some (s', []).
Proof. do 3 eexists. split; [vm_compute; reflexivity|]. split; reflexivity. Qed.

(** ** C149 *)
(** No wake-up is lost: when the calls of Add and Done cancel out and none of them is under way,
    every Wait that is under way can return by its own steps, whatever happened before. *)
Theorem C149_wakes : forall sched s evs j,
  run step init sched = Some (s, evs) -> int32 (applied evs) = 0 ->
  (forall i o, nth_error (ops s) i = Some o -> o = Over \/ o = Broken) ->
  waiting s j ->
  exists sched' s' e, (forall l, In l sched' -> l = LAcquire j \/ l = LCheck j) /\
    run step s sched' = Some (s', e) /\ In (EWaited j) e.
Proof.
  intros sched s evs j H A O W. apply inv_reach in H. destruct H as [HC HN HP HB HZ].
  assert (W0 : wait s = 0%nat).
  { destruct (wait s) as [|n] eqn:E; [reflexivity|]. destruct (HZ (eq_trans HN A)) as (i & I); [lia|].
    destruct (O _ _ I); discriminate. }
  assert (C0 : cnt s = 0) by congruence.
  destruct W as [W|W].
  - pose proof (nblk_ge _ _ W). destruct (sema s) as [|n] eqn:E; [lia|].
    exists [LAcquire j; LCheck j]. do 2 eexists. split; [intros l [<-|[<-|[]]]; auto|].
    cbn. rewrite W, E. cbn. rewrite nth_upd_eq by (apply nth_error_Some; congruence). rewrite C0, W0. cbn. split; [reflexivity|left; reflexivity].
  - exists [LCheck j]. do 2 eexists. split; [intros l [<-|[]]; auto|].
    cbn. rewrite W, C0, W0. cbn. split; [reflexivity|left; reflexivity].
Qed.
Print Assumptions C149_wakes.
(** Two waiters, and an Add that panicked because of them. *)
Example C149_wakes_case :
  exists s evs, run step init [LBegin 1; LApply 0; LWait; LWait; LBegin (-1); LApply 1; LBegin 1; LApply 2; LZero 1; LBegin (-1); LApply 3; LZero 3]
    = Some (s, evs) /\ applied evs = 0 /\ In EPanic evs /\ ops s = [Over; Broken; Broken; Over] /\ waiting s 0 /\ waiting s 1.
Proof. do 2 eexists. split; [vm_compute; reflexivity|]. unfold waiting. cbn. auto 10. Qed.

(** ** C150 *)
(** Claimed: as long as the calls of Done do not outnumber those of Add, none of the four methods
    panics.  False: an Add after the last Done and before the released waiter has looked again
    makes Wait panic. *)
Theorem C150_refuted : exists sched s evs,
  run step init sched = Some (s, evs) /\
  (forall n, 0 <= begun (firstn n sched)) /\ (forall d, In (LBegin d) sched -> d = 1 \/ d = -1) /\ In EPanic evs.
Proof.
  exists [LBegin 1; LApply 0; LWait; LBegin (-1); LApply 1; LZero 1; LAcquire 0; LBegin 1; LApply 2; LCheck 0].
  do 2 eexists. split; [vm_compute; reflexivity|]. split; [|split].
  - intros n. do 11 (destruct n as [|n]; [cbn; lia|]). rewrite firstn_all2 by (cbn; lia). cbn. lia.
  - intros d H. cbn in H. repeat (destruct H as [H|H]; [try discriminate H; injection H as <-; auto|]). contradiction.
  - cbn. auto 10.
Qed.
Print Assumptions C150_refuted.

(** Proved: nothing panics while the rules of sync.WaitGroup are kept: the counter stays between 0
    and 2^31 and leaves 0 only while no Wait is under way.  Missing: the callers in braid do not
    see to the second rule. *)
Theorem C150_rules_partial : forall sched s evs,
  rules_kept sched -> run step init sched = Some (s, evs) -> ~ In EPanic evs.
Proof. intros sched s evs R H. exact (proj2 (good_run _ _ _ R H)). Qed.
Print Assumptions C150_rules_partial.

(** The rules as a test, for the example. *)
Definition obeysb (s : state) (l : label) : bool :=
  match l with
  | LApply i =>
    match nth_error (ops s) i with
    | Some (Counted d) => negb (d =? 0) && (0 <=? cnt s + d) && (cnt s + d <? 2 ^ 31) &&
        (negb (cnt s =? 0) || forallb (fun w => match w with Blocked | Woken => false | _ => true end) (waiters s))
    | _ => true
    end
  | _ => true
  end.
Lemma obeysb_sound s l : obeysb s l = true -> obeys s l.
Proof.
  destruct l as [d0|i|i| |j|j|]; cbn; auto. intros H d E. rewrite E in H.
  apply andb_true_iff in H as (H & H4). apply andb_true_iff in H as (H & H3). apply andb_true_iff in H as (H1 & H2).
  apply negb_true_iff, Z.eqb_neq in H1. apply Z.leb_le in H2. apply Z.ltb_lt in H3.
  split; [exact H1|]. split; [split; assumption|]. intros C j W. rewrite C in H4. cbn in H4. rewrite forallb_forall in H4.
  destruct W as [W|W]; apply nth_error_In, H4 in W; discriminate.
Qed.
Fixpoint keeps (s : state) (sched : list label) : bool :=
  match sched with
  | [] => true
  | l :: r => obeysb s l && match step s l with Some (s', _) => keeps s' r | None => true end
  end.
Lemma keeps_rules sched : keeps init sched = true -> rules_kept sched.
Proof.
  unfold rules_kept. generalize init. induction sched as [|l0 sched IH]; intros s0 K before l after s evs E H.
  - destruct before; discriminate.
  - cbn in K. apply andb_true_iff in K as (K1 & K2). destruct before as [|b before]; cbn in E; injection E as <- E.
    + cbn in H. injection H as <- <-. apply obeysb_sound. exact K1.
    + cbn in H. destruct (step s0 l0) as [[s1 e1]|]; [|discriminate]. destruct (run step s1 before) as [[s2 e2]|] eqn:R; [|discriminate].
      injection H as <- <-. eapply IH; eauto.
Qed.
(** The waiter of the example returns, and the group is used a second time. *)
Example C150_rules_case :
  rules_kept (ex_wait ++ [LCheck 0; LBegin 1; LApply 4; LWait]) /\
  exists s evs, run step init (ex_wait ++ [LCheck 0; LBegin 1; LApply 4; LWait]) = Some (s, evs) /\ In (EWaited 0) evs /\ waiting s 1.
Proof.
  split.
  - apply keeps_rules. vm_compute. reflexivity.
  - do 2 eexists. split; [vm_compute; reflexivity|]. split; [cbn; auto 20|left; reflexivity].
Qed.

(** With tasks added before they end and within those rules every Wait that began returns once the
    tasks are over: no panic stands in its way. *)
Theorem C150_wait_returns_partial : forall sched s evs j,
  rules_kept sched -> run step init sched = Some (s, evs) -> applied evs = 0 ->
  (forall i o, nth_error (ops s) i = Some o -> o = Over) -> (j < length (waiters s))%nat ->
  nth_error (waiters s) j = Some Returned \/
  exists sched' s' e, (forall l, In l sched' -> l = LAcquire j \/ l = LCheck j) /\
    run step s sched' = Some (s', e) /\ In (EWaited j) e.
Proof.
  intros sched s evs j R H A O L. destruct (nth_error (waiters s) j) as [w|] eqn:E; [|apply nth_error_None in E; lia].
  destruct w; auto.
  1,2: right; eapply C149_wakes; eauto; [rewrite A; reflexivity|unfold waiting; auto].
  exfalso. revert E. clear A O L.
  assert (G : forall sched s evs, run step init sched = Some (s, evs) -> nth_error (waiters s) j = Some WBroken -> In EPanic evs).
  { clear. intros sched. induction sched as [|l sched IH] using rev_ind; intros s evs H E.
    - cbn in H. injection H as <- <-. destruct j; discriminate.
    - apply run_app_inv in H as (s1 & e1 & e2 & H1 & H2 & ->). apply run_one_inv in H2. apply step_move in H2.
      apply in_or_app. destruct H2; cbn [waiters] in E; try (left; eapply IH; eauto; fail); cbn [In]; auto.
      + apply snoc_inv in E. destruct E as [E|E]; [left; eauto|discriminate].
      + apply snoc_inv in E. destruct E as [E|E]; [left; eauto|discriminate].
      + rewrite nth_upd in E by (apply nth_error_Some; congruence). destruct (Nat.eqb_spec j0 j); [discriminate|left; eauto].
      + rewrite nth_upd in E by (apply nth_error_Some; congruence). destruct (Nat.eqb_spec j0 j); [discriminate|left; eauto]. }
  intros E. apply (C150_rules_partial _ _ _ R H). eapply G; eauto.
Qed.
Print Assumptions C150_wait_returns_partial.
Example C150_wait_returns_case :
  exists s evs, run step init (ex_sched ++ [LApply 3; LZero 3]) = Some (s, evs) /\ applied evs = 0 /\
    ops s = [Over; Over; Over; Over] /\ waiters s = [Blocked].
Proof. do 2 eexists. split; [vm_compute; reflexivity|]. auto. Qed.

(** ** C151 *)
(** Claimed: a Count of 0 means that Wait does not block, and after Wait has returned Count is 0
    unless Add was called in the meantime.  Both are false while a call is between its two halves. *)
Theorem C151_blocks_refuted : exists sched s evs s1,
  run step init sched = Some (s, evs) /\ step s LCount = Some (s, [ECount 0]) /\ step s LWait = Some (s1, []).
Proof. exists ex_sched. do 3 eexists. split; [vm_compute; reflexivity|]. split; reflexivity. Qed.
Print Assumptions C151_blocks_refuted.
Theorem C151_returns_refuted : exists sched s evs s1,
  run step init sched = Some (s, evs) /\ step s LWait = Some (s1, [EWaited 0]) /\ step s1 LCount = Some (s1, [ECount 1]).
Proof. exists [LBegin 1]. do 3 eexists. split; [vm_compute; reflexivity|]. split; reflexivity. Qed.
Print Assumptions C151_returns_refuted.

(** Proved: when no call of Add or Done is between its two halves, Wait returns at once exactly if
    Count is 0. *)
Theorem C151_rest_partial : forall sched s evs s1 c s2 e,
  run step init sched = Some (s, evs) -> at_rest s ->
  step s LCount = Some (s1, [ECount c]) -> step s LWait = Some (s2, e) ->
  (c = 0 <-> e = [EWaited (length (waiters s))]) /\ (c <> 0 <-> e = []).
Proof.
  intros sched s evs s1 c s2 e H R E1 E2. apply inv_reach in H. destruct H as [HC HN HP _ _].
  rewrite pend_rest, Z.add_0_r in HP by exact R. cbn in E1. injection E1 as _ <-. rewrite HC, HP, <- HN. cbn in E2.
  destruct (Z.eqb_spec (cnt s) 0); injection E2 as _ <-; split; split; intros; congruence.
Qed.
Print Assumptions C151_rest_partial.
Example C151_rest_case :
  exists s evs s2, run step init (firstn 7 ex_sched) = Some (s, evs) /\ at_rest s /\
    step s LCount = Some (s, [ECount 1]) /\ step s LWait = Some (s2, []).
Proof.
  do 3 eexists. split; [vm_compute; reflexivity|]. split; [|split; reflexivity].
  intros d H. cbn in H. repeat (destruct H as [H|H]; [discriminate H|]). contradiction.
Qed.
