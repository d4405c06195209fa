(** Properties C46, C47, C73 and C74: the distributed lock. *)
From Coq Require Import List String ZArith Bool Lia.
From Verif Require Import Machine AddrModel LockModel LockSpec LockProofs.
Import ListNotations.
Open Scope string_scope.
Open Scope list_scope.
Open Scope Z_scope.
Ltac in_list := first [left; reflexivity | right; in_list].
Ltac run_to s e :=
  match goal with |- exists _ _, run step init ?x = Some _ /\ _ =>
    let E := fresh "E" in destruct (run step init x) as [[s e]|] eqn:E; [|vm_compute in E; discriminate];
    vm_compute in E; injection E as <- <-; eexists _, _; split; [reflexivity|] end.

(** ** C46: in every execution, whatever requests are late, lost or repeated and
    whoever crashes, at most one Lock call holds a key, provided the random values
    drawn differ. *)
Theorem C46_mutual_exclusion : forall sched s evs t t' tok v v',
  run step init sched = Some (s, evs) -> NoDup (drawn sched) ->
  holds evs s t tok v -> holds evs s t' tok v' -> t = t'.
Proof. exact exclusion. Qed.
Print Assumptions C46_mutual_exclusion.
(** Unlock with another key or value, or an empty value, does not take the lock from
    its holder; for that key it returns false and changes nothing. *)
Theorem C46_foreign_unlock : forall sched s evs t tok v tok' v' l s' e,
  run step init sched = Some (s, evs) -> holds evs s t tok v ->
  l = LUnlock tok' v' \/ (exists b, l = LUnlockErr tok' v' b) -> (tok', v') <> (tok, v) -> step s l = Some (s', e) ->
  holds (evs ++ e) s' t tok v /\ (tok' = tok -> In (ERet tok' v' false) e /\ db s' = db s).
Proof. exact holds_unlock. Qed.
Print Assumptions C46_foreign_unlock.
(** And the holder's own Unlock frees the key. *)
Theorem C46_unlock_releases : forall sched s evs t tok v s' e,
  run step init sched = Some (s, evs) -> holds evs s t tok v -> v <> "" ->
  step s (LUnlock tok v) = Some (s', e) -> In (ERet tok v true) e /\ live s' tok = None.
Proof. exact unlock_releases. Qed.
Print Assumptions C46_unlock_releases.
(** Two clients: the first gets the lock at the second attempt, the second's repeated
    request is executed late, after it gave up. *)
Definition ex46 : list label :=
  [LLock "n1" "v1"; LLock "n1" "v2"; LSend 0; LLose 0; LGiveUp 0; LTick 700; LWake 0; LSend 0; LExec 0 true; LRecv 0;
   LSend 1; LGiveUp 1; LTick 700; LWake 1; LExec 0 true; LSend 1; LExec 0 true; LRecv 1].
Example C46_case : exists s evs, run step init ex46 = Some (s, evs) /\ holds evs s 0 "n1" "v1" /\ NoDup (drawn ex46) /\ now s = 1400.
Proof.
  run_to s e. split.
  - exists 700. split; [reflexivity|]. split; [vm_compute; discriminate|]. cbn. intuition discriminate.
  - split; [|reflexivity]. repeat constructor; cbn; intuition discriminate.
Qed.

(** ** C47 *)
(** In every reachable state: once every grant of a key is older than the lease, the
    next request for it that the server executes is granted. *)
Theorem C47_free_after_lease : forall sched s evs k d t i c,
  run step init sched = Some (s, evs) ->
  nth_error (flight s) k = Some (t, i) -> nth_error (calls s) t = Some c ->
  (forall v x, In (EGrant (c_tok c) v x) evs -> x + Expiry < now s) ->
  exists s', step s (LExec k d) = Some (s', [EGrant (c_tok c) (c_val c) (now s)]) /\ live s' (c_tok c) = Some (c_val c).
Proof. exact free_after_lease. Qed.
Print Assumptions C47_free_after_lease.
(** A Lock call sends at most four attempts and takes at most twelve steps, and until
    it has returned (or its client crashed) it can take its next step, at once or
    after some time, whatever the others do. *)
Theorem C47_bounded_attempts : forall sched s evs t c,
  run step init sched = Some (s, evs) -> nth_error (calls s) t = Some c ->
  (sends t evs <= 4)%nat /\ (count (own t) sched <= 12)%nat.
Proof. exact attempts_bounded. Qed.
Print Assumptions C47_bounded_attempts.
Theorem C47_never_stuck : forall s t c,
  nth_error (calls s) t = Some c -> finished (c_pc c) = false ->
  exists pre l s' e, own t l = true /\ (pre = [] \/ exists d, pre = [LTick d]) /\ run step s (pre ++ [l]) = Some (s', e).
Proof. exact can_go_on. Qed.
Print Assumptions C47_never_stuck.
(** A finished call whose client did not crash returned the value or the error. *)
Lemma C47_res sched s evs t c : run step init sched = Some (s, evs) -> nth_error (calls s) t = Some c ->
  finished (c_pc c) = true -> c_pc c <> Dead -> In (EGot t) evs \/ In (EFailed t) evs.
Proof.
  intros H Hc Hf Hd. apply res_run in H. destruct (c_pc c) eqn:Hp; try discriminate; [left; eapply q_got; eauto|right; eapply q_fail; eauto|contradiction].
Qed.
Theorem C47_result : forall sched s evs t c,
  run step init sched = Some (s, evs) -> nth_error (calls s) t = Some c ->
  finished (c_pc c) = true -> c_pc c <> Dead -> In (EGot t) evs \/ In (EFailed t) evs.
Proof. exact C47_res. Qed.
Print Assumptions C47_result.
Definition ex47 : list label :=
  [LLock "n1" "v1"; LSend 0; LExec 0 true; LRecv 0; LCrash 0; LTick 10001; LLock "n1" "v2"; LSend 1].
Example C47_case : exists s evs, run step init ex47 = Some (s, evs) /\ nth_error (flight s) 0 = Some (1%nat, 0%nat) /\
  nth_error (calls s) 1 = Some (mkCall "n1" "v2" (Wait 0 10001)) /\
  (forall v x, In (EGrant "n1" v x) evs -> x + Expiry < now s) /\ In (EGrant "n1" "v1" 0) evs.
Proof.
  run_to s e. split; [reflexivity|]. split; [reflexivity|]. split; [|in_list].
  intros v x Hin. repeat destruct Hin as [Hin|Hin]; try discriminate; try contradiction. injection Hin as _ <-. reflexivity.
Qed.

(** ** C73: the lock does not last until Unlock *)
(** The lease runs out while the holder is still at work (Clear holds it for as long
    as its own store commands take): a second Lock returns before the first holder
    calls Unlock. *)
Definition ex73 : list label :=
  [LLock "n1" "v1"; LSend 0; LExec 0 true; LRecv 0; LTick 10001; LLock "n1" "v2"; LSend 1; LExec 0 true; LRecv 1].
Theorem C73_exclusive_until_unlock_refuted : exists sched s evs t t' tok v v' x x',
  run step init sched = Some (s, evs) /\ NoDup (drawn sched) /\ t <> t' /\
  returned s t tok v x /\ returned s t' tok v' x' /\ (forall w, ~ In (EUnlock tok w) evs).
Proof.
  exists ex73. destruct (run step init ex73) as [[s e]|] eqn:E; [|vm_compute in E; discriminate]. vm_compute in E. injection E as <- <-.
  eexists _, _, 0%nat, 1%nat, "n1", "v1", "v2", 0, 10001. split; [reflexivity|].
  split; [repeat constructor; cbn; intuition discriminate|]. split; [discriminate|]. split; [reflexivity|]. split; [reflexivity|].
  intros w Hin. repeat destruct Hin as [Hin|Hin]; try discriminate; contradiction.
Qed.
Print Assumptions C73_exclusive_until_unlock_refuted.
(** A holder that counts its ten seconds from when Lock returned is wrong as well:
    the answer may have been under way for some time. *)
Definition ex73b : list label :=
  [LLock "n1" "v1"; LSend 0; LExec 0 true; LTick 5000; LRecv 0; LTick 5001; LLock "n1" "v2"; LSend 1; LExec 0 true; LRecv 1].
Theorem C73_lease_from_return_refuted : exists pre post s1 e1 s2 e2 t t' tok v v' x x',
  run step init pre = Some (s1, e1) /\ (exists e0, e1 = e0 ++ [EGot t]) /\
  run step s1 post = Some (s2, e2) /\ now s2 < now s1 + Expiry /\ (forall w, ~ In (EUnlock tok w) (e1 ++ e2)) /\
  t <> t' /\ returned s2 t tok v x /\ returned s2 t' tok v' x'.
Proof.
  exists (firstn 5 ex73b), (skipn 5 ex73b).
  destruct (run step init (firstn 5 ex73b)) as [[s1 e1]|] eqn:E1; [|vm_compute in E1; discriminate]. vm_compute in E1. injection E1 as <- <-.
  match goal with |- exists s1 e1, _ => eexists _, _ end.
  eexists _, _, 0%nat, 1%nat, "n1", "v1", "v2", 0, 10001. split; [reflexivity|]. split; [eexists [_; _; _]; reflexivity|].
  split; [vm_compute; reflexivity|]. split; [reflexivity|].
  split; [intros w Hin; repeat destruct Hin as [Hin|Hin]; try discriminate; contradiction|].
  split; [discriminate|]. split; reflexivity.
Qed.
Print Assumptions C73_lease_from_return_refuted.

(** ** C74: a restarted node cannot clear at once *)
(** The holder crashed; a Lock started right after it makes its four attempts within
    2.1 seconds, all refused, and returns the error. *)
Definition attempt (t : nat) : list label := [LSend t; LExec 0 true; LRecv t; LTick 700; LWake t].
Definition ex74 : list label :=
  [LLock "n1" "v1"; LSend 0; LExec 0 true; LRecv 0; LCrash 0; LLock "n1" "v2"] ++ attempt 1 ++ attempt 1 ++ attempt 1 ++ attempt 1.
Theorem C74_lock_after_crash_refuted : exists sched s evs,
  run step init sched = Some (s, evs) /\ In (EFailed 1) evs /\ now s = 2800 /\
  (forall l, In l sched -> match l with LLose _ | LGiveUp _ | LUnlock _ _ | LUnlockErr _ _ _ | LExec _ false => False | _ => True end).
Proof.
  exists ex74. destruct (run step init ex74) as [[s e]|] eqn:E; [|vm_compute in E; discriminate]. vm_compute in E. injection E as <- <-.
  eexists _, _. split; [reflexivity|]. split; [in_list|]. split; [reflexivity|].
  intros l Hin. repeat destruct Hin as [<-|Hin]; try exact I; contradiction.
Qed.
Print Assumptions C74_lock_after_crash_refuted.
(** In general: while a key is live, by whatever history, every request for it is
    refused and leaves it as it is. *)
Theorem C74_live_key_refuses : forall s k d t i c s' e w,
  nth_error (flight s) k = Some (t, i) -> nth_error (calls s) t = Some c ->
  live s (c_tok c) = Some w -> step s (LExec k d) = Some (s', e) -> e = [] /\ db s' = db s.
Proof. exact live_refuses. Qed.
Print Assumptions C74_live_key_refuses.
