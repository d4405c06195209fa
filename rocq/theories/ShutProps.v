(** C110-C115: the shutdown of a node. *)
From Coq Require Import List Arith Bool Lia.
From Verif Require Import Machine MachineMore ShutModel ShutSpec ShutProofs ShutMore ShutLive.
Import ListNotations.

(** An actor is registered, the signal comes, the actor ends. *)
Definition gentle : list label :=
  [LRegister; LCall 0; LCall 0; LRequest; LSignal; LMain; LMain; LAnswer 0; LMain; LMain; LMain; LNext 0; LGo 0; LMain; LMain; LMain; LLoop 0; LTick; LGo 0; LGo 0; LWaiter; LReady].

(** ** C110 *)
(** When WaitClose returns and says that all actors have ended, every actor that was in the map
    when the shutdown began has had its Exit called (by the shutdown or by an Unregister)
    and its loop has ended.  Missing: actors registered later, see [C110_late_refuted]. *)
Theorem C110_graceful_partial : forall p sched s evs x t z b t0 c a,
  run step (init p) sched = Some (s, evs) -> evs = x ++ VReturn t true :: z -> x = b ++ VBegin t0 :: c ->
  registered b a -> (exists w, In (VExit w a) x) /\ In (VEnded a) x.
Proof. exact graceful_all. Qed.
Print Assumptions C110_graceful_partial.
Example C110_case : exists s x z b c, run step (init true) gentle = Some (s, x ++ VReturn 1 true :: z) /\ x = b ++ VBegin 0 :: c /\ registered b 0 /\ In (VExit true 0) x.
Proof.
  eexists _, [VMade 0 0; VPut 0 0; VRequest 0; VSignal; VBegin 0; VAnswer 0; VExit true 0; VClear; VEnded 0], [], [VMade 0 0; VPut 0 0; VRequest 0; VSignal], [VAnswer 0; VExit true 0; VClear; VEnded 0].
  split; [vm_compute; reflexivity|]. split; [reflexivity|]. split; [split; [exists 0; cbn; auto|intros j H; cbn in H; intuition discriminate]|]. cbn; intuition.
Qed.
(** An Unregister returns only when the loop of its actor has ended. *)
Theorem C110_removed : forall p sched s evs x j a z, run step (init p) sched = Some (s, evs) -> evs = x ++ VDel j a :: z -> (exists w, In (VExit w a) x) /\ In (VEnded a) x.
Proof.
  intros p sched s evs x j a z H E. destruct (run_split _ _ _ _ _ _ _ _ H E) as (k & l & y & u & u' & e1 & q & w & e2 & -> & H1 & H2 & H3 & -> & ->).
  apply step_move in H2 as [_ M]. remember (q ++ VDel j a :: w) as e eqn:Ee. assert (N : In (VDel j a) e) by (rewrite Ee; apply in_or_app; right; now left).
  destruct M; try (exfalso; cbn in N; repeat destruct N as [N|N]; try discriminate; contradiction). destruct ins; [destruct N as [N|[]]; discriminate|].
  apply in_single in Ee as (-> & -> & Ee). injection Ee as -> ->. rewrite app_nil_r. eapply (proj1 (removed_gone _ _ _ _ H1)); eauto.
Qed.
Print Assumptions C110_removed.
Example C110_removed_case : exists s x, run step (init false) [LRegister; LCall 0; LCall 0; LSignal; LMain; LUnregister 0; LCall 1; LLoop 0; LCall 1; LCall 1; LCall 1] = Some (s, x ++ [VDel 1 0]).
Proof. eexists _, [VMade 0 0; VPut 0 0; VSignal; VBegin 0; VUnregister 1 0; VExit false 0; VEnded 0]. vm_compute. reflexivity. Qed.

(** It says that they have not all ended only when 30 seconds have passed. *)
Theorem C110_timeout : forall p sched s evs x t z, run step (init p) sched = Some (s, evs) -> evs = x ++ VReturn t false :: z -> exists t0, In (VBegin t0) x /\ t0 + 30 <= t.
Proof. exact timeout. Qed.
Print Assumptions C110_timeout.
(** An actor that never ends. *)
Definition stuck : list label := [LRegister; LCall 0; LCall 0; LSignal; LTick; LMain; LMain; LNext 0; LMain; LMain; LMain; LGo 0] ++ repeat LTick 30 ++ [LTimeout].
Example C110_timeout_case : exists s x, run step (init false) stuck = Some (s, x ++ [VReturn 31 false]) /\ In (VBegin 1) x.
Proof. eexists _, [VMade 0 0; VPut 0 0; VSignal; VBegin 1; VClear; VExit true 0]. split; [vm_compute; reflexivity|]. cbn. intuition. Qed.

(** The registry of the node has been cleared by then. *)
Theorem C110_cleared : forall p sched s evs x t ok z, run step (init p) sched = Some (s, evs) -> evs = x ++ VReturn t ok :: z -> In VClear x.
Proof. exact cleared. Qed.
Print Assumptions C110_cleared.
Example C110_cleared_case : exists s x, run step (init true) gentle = Some (s, x ++ [VReturn 1 true]) /\ In VClear x.
Proof. eexists _, [VMade 0 0; VPut 0 0; VRequest 0; VSignal; VBegin 0; VAnswer 0; VExit true 0; VClear; VEnded 0]. split; [vm_compute; reflexivity|]. cbn. intuition. Qed.

(** When no Register or Unregister overlaps the shutdown and all requests are answered, it can
    always return so, without waiting for the clock, provided that the loops of the actors end. *)
Theorem C110_can_finish : forall p sched s evs, run step (init p) sched = Some (s, evs) -> dead s = false -> begun evs -> calm evs -> answered evs -> (forall t ok, ~ In (VReturn t ok) evs) ->
  exists more s' ev, run step s more = Some (s', ev) /\ Forall (fun l => own l \/ exists a, l = LLoop a) more /\ ticks more = 0 /\ exists t, In (VReturn t true) ev.
Proof. exact calm_returns. Qed.
Print Assumptions C110_can_finish.
Example C110_can_finish_case : exists s evs, run step (init true) (firstn 12 gentle) = Some (s, evs) /\ dead s = false /\ begun evs /\ answered evs /\ calm evs /\ forall t ok, ~ In (VReturn t ok) evs.
Proof.
  eexists _, [VMade 0 0; VPut 0 0; VRequest 0; VSignal; VBegin 0; VAnswer 0]. split; [vm_compute; reflexivity|]. split; [reflexivity|]. split; [exists 0; cbn; auto 10|]. split; [|split].
  - intros r H. cbn in H. repeat destruct H as [H|H]; try discriminate; [|contradiction]. injection H as <-. cbn. auto 10.
  - intros a b j E (t & Bg) [(k & K) N]. assert (P : In (VPut 0 0) a) by (destruct a as [|e0 [|e1 a]]; cbn in E; try (injection E as <- <-); try (injection E as <-); cbn in Bg |- *; intuition discriminate).
    assert (j = 0) as ->; [|apply N; exists 0; now left]. assert (I : forall e, In e a -> In e [VMade 0 0; VPut 0 0; VRequest 0; VSignal; VBegin 0; VAnswer 0]) by (intros e He; rewrite E; apply in_or_app; now left).
    destruct K as [K|K]; apply I in K; cbn in K; intuition congruence.
  - intros t ok H. cbn in H. intuition discriminate.
Qed.

(** An actor that is registered while the shutdown runs is neither exited nor waited for, though
    WaitClose says that all actors have ended. *)
Definition late_run : list label := [LSignal; LMain; LMain; LMain; LRegister; LCall 0; LCall 0; LMain; LMain; LWaiter; LReady].
Theorem C110_late_refuted : exists sched s x t, run step (init false) sched = Some (s, x ++ [VReturn t true]) /\ registered x 0 /\ (forall w, ~ In (VExit w 0) x) /\ ~ In (VEnded 0) x.
Proof.
  exists late_run. eexists _, [VSignal; VBegin 0; VMade 0 0; VPut 0 0; VClear], 0. split; [vm_compute; reflexivity|]. split; [split; [exists 0; cbn; intuition|]|split]; unfold not; intros; match goal with X : In _ _ |- _ => cbn in X; intuition discriminate end.
Qed.
Print Assumptions C110_late_refuted.

(** ** C111 *)
(** Before the shutdown calls Exit of any actor, every request that ever comes in is answered. *)
Theorem C111_requests_first : forall p sched s evs x a z r, run step (init p) sched = Some (s, evs) -> evs = x ++ VExit true a :: z -> In (VRequest r) evs -> In (VAnswer r) x.
Proof. exact requests_first. Qed.
Print Assumptions C111_requests_first.
Example C111_case : exists s x z, run step (init true) gentle = Some (s, x ++ VExit true 0 :: z) /\ In (VRequest 0) x.
Proof. eexists _, [VMade 0 0; VPut 0 0; VRequest 0; VSignal; VBegin 0; VAnswer 0], [VClear; VEnded 0; VReturn 1 true]. split; [vm_compute; reflexivity|]. cbn. intuition. Qed.

(** ** C112 *)
(** Once all requests are answered, WaitClose can always return within 30 seconds more, by steps
    of the node alone: no actor has to end.  Missing: a request that is not answered, see
    [C112_limit_refuted]. *)
Theorem C112_returns_partial : forall p sched s evs, run step (init p) sched = Some (s, evs) -> dead s = false -> begun evs -> answered evs -> (forall t ok, ~ In (VReturn t ok) evs) ->
  exists more s' ev, run step s more = Some (s', ev) /\ Forall own more /\ ticks more <= 30 /\ exists t ok, In (VReturn t ok) ev.
Proof. exact returns. Qed.
Print Assumptions C112_returns_partial.
Example C112_case : exists s evs, run step (init true) [LRegister; LRegister; LCall 0; LCall 0; LCall 1; LRequest; LSignal; LMain; LMain; LAnswer 0] = Some (s, evs) /\ dead s = false /\ begun evs /\ answered evs /\ (forall t ok, ~ In (VReturn t ok) evs) /\ writing s = true.
Proof.
  eexists _, [VMade 0 0; VMade 1 1; VPut 0 0; VRequest 0; VSignal; VBegin 0; VAnswer 0]. split; [vm_compute; reflexivity|]. split; [reflexivity|]. split; [exists 0; cbn; auto 10|]. split; [|split; [intros t ok H; cbn in H; intuition discriminate|reflexivity]].
  intros r H. cbn in H. repeat destruct H as [H|H]; try discriminate; [|contradiction]. injection H as <-. cbn. auto 10.
Qed.

(** One request that is not answered holds the shutdown up for any time: the limit of 30 seconds
    is looked at only after GracefulStop. *)
Theorem C112_limit_refuted : forall n, exists sched s evs t0, run step (init true) sched = Some (s, evs) /\ In (VBegin t0) evs /\ t0 + n <= now s /\ (forall t ok, ~ In (VReturn t ok) evs) /\
  (forall l, own l -> l <> LTick -> step s l = None).
Proof.
  intros n. set (pre := [LRequest; LSignal; LMain; LMain]).
  assert (E : exists u, run step (init true) pre = Some (u, [VRequest 0; VSignal; VBegin 0]) /\ dead u = false /\ main u = MStop /\ requests u = [true] /\ exits u = [] /\ calls u = [] /\ waiter u = WNone) by (eexists; split; [vm_compute; reflexivity|]; repeat split; reflexivity).
  destruct E as (u & E & D & M & R & X & C & W). exists (pre ++ repeat LTick n), (with_now u (n + now u)), ([VRequest 0; VSignal; VBegin 0] ++ []), 0.
  split; [eapply run_app; [exact E|now apply run_ticks]|]. split; [cbn; auto|]. split; [cbn; lia|]. split; [intros t ok H; cbn in H; intuition discriminate|].
  intros l O N. unfold step. change (dead (with_now u (n + now u))) with (dead u). rewrite D. destruct l as [| |a|y| | | | |a|j| |r|a|]; try destruct O; try congruence; cbn [main requests exits calls waiter with_now]; rewrite ?M, ?R, ?X, ?C, ?W; try reflexivity.
  - destruct y; reflexivity.
  - destruct j; reflexivity.
Qed.
Print Assumptions C112_limit_refuted.

(** ** C113 *)
(** Signals that come after the shutdown has begun change nothing: without them the same happens. *)
Theorem C113_signals_ignored : forall p s1 s2 u v e1 e2, run step (init p) s1 = Some (u, e1) -> begun e1 -> run step u s2 = Some (v, e2) -> exists v', run step (init p) (s1 ++ no_signal s2) = Some (v', e1 ++ unsignalled e2).
Proof.
  intros p s1 s2 u v e1 e2 H Bg R. pose proof (start_pre _ _ (start_reach _ _ _ _ H) Bg) as N. destruct (signals_ignored _ _ _ _ (signal u) N R) as (b & X). exists (with_signal v b). eapply run_app; [exact H|].
  replace (with_signal u (signal u)) with u in X by (destruct u; reflexivity). exact X.
Qed.
Print Assumptions C113_signals_ignored.
Example C113_case : exists u v e1 e2, run step (init true) (firstn 6 gentle) = Some (u, e1) /\ begun e1 /\ run step u (LSignal :: LMain :: LSignal :: skipn 7 gentle) = Some (v, e2) /\ In VSignal e2 /\ In (VReturn 1 true) e2.
Proof. eexists _, _, [VMade 0 0; VPut 0 0; VRequest 0; VSignal; VBegin 0], [VSignal; VSignal; VAnswer 0; VExit true 0; VClear; VEnded 0; VReturn 1 true]. split; [vm_compute; reflexivity|]. split; [exists 0; cbn; auto 10|]. split; [vm_compute; reflexivity|]. cbn. auto 10. Qed.

(** And they are always possible: wherever signals are put into a run, the rest goes on. *)
Theorem C113_signals_possible : forall p s1 s2 u v e1 e2, run step (init p) s1 = Some (u, e1) -> begun e1 -> run step u (no_signal s2) = Some (v, e2) -> dead v = false -> exists v' e2', run step (init p) (s1 ++ s2) = Some (v', e1 ++ e2') /\ unsignalled e2' = e2.
Proof.
  intros p s1 s2 u v e1 e2 H Bg R D. pose proof (start_pre _ _ (start_reach _ _ _ _ H) Bg) as N. replace u with (with_signal u (signal u)) in R by (destruct u; reflexivity).
  destruct (signals_possible _ _ _ _ _ N R D) as (v' & e' & X & U). exists v', e'. split; [eapply run_app; eauto|exact U].
Qed.
Print Assumptions C113_signals_possible.
Example C113_possible_case : exists u v e1 e2, run step (init true) (firstn 6 gentle) = Some (u, e1) /\ begun e1 /\ run step u (no_signal (LSignal :: LMain :: LSignal :: skipn 7 gentle)) = Some (v, e2) /\ dead v = false.
Proof. eexists _, _, [VMade 0 0; VPut 0 0; VRequest 0; VSignal; VBegin 0], [VAnswer 0; VExit true 0; VClear; VEnded 0; VReturn 1 true]. split; [vm_compute; reflexivity|]. split; [exists 0; cbn; auto 10|]. split; vm_compute; reflexivity. Qed.

(** The shutdown begins once, after a signal. *)
Theorem C113_once : forall p sched s evs a t b, run step (init p) sched = Some (s, evs) -> evs = a ++ VBegin t :: b -> In VSignal a /\ ~ begun a /\ ~ begun b.
Proof.
  intros p sched s evs a t b H E. destruct (run_split _ _ _ _ _ _ _ _ H E) as (x & l & y & u & u' & e1 & q & w & e2 & -> & H1 & H2 & H3 & E3 & E4).
  assert (Sg : forall sched s evs, run step (init p) sched = Some (s, evs) -> signal s = true -> In VSignal evs).
  { clear. apply (run_inv step (init p) (fun _ evs s => signal s = true -> In VSignal evs)); [discriminate|]. intros sched evs s l s' e _ IH H. apply step_move in H as [_ M]. destruct M; cbn; intros X; try discriminate; try (apply in_or_app; left; apply IH; assumption). apply in_or_app. right. now left. }
  assert (B := start_reach _ _ _ _ H). pose proof H2 as H2'. apply step_move in H2 as [D M]. remember (q ++ VBegin t :: w) as e eqn:Ee. assert (N : In (VBegin t) e) by (rewrite Ee; apply in_or_app; right; now left).
  assert (X : main u = MWait /\ signal u = true /\ q = [] /\ w = []).
  { destruct M; try (exfalso; cbn in N; repeat destruct N as [N|N]; try discriminate; contradiction); try (destruct ins; destruct N as [N|[]]; discriminate). apply in_single in Ee as (-> & -> & _). repeat split; assumption. }
  destruct X as (X1 & X2 & -> & ->). rewrite app_nil_r in E3. subst a. split; [eapply Sg; eauto|].
  assert (Nb : ~ begun e1) by (intros Y; exact (start_pre _ _ (start_reach _ _ _ _ H1) Y X1)). split; [exact Nb|].
  destruct (start_get _ _ B) as (b' & c' & E' & G); [apply (start_pre _ _ B); exists t; rewrite E; apply in_or_app; right; now left|].
  destruct G as [G1 G2 _ _ _]. rewrite E' in E. clear - E G2 Nb G1. revert e1 E Nb. induction b' as [|z b' IH]; intros [|z' e1] E Nb; cbn in E.
  - injection E as _ <-. exact G2.
  - injection E as <- Y. exfalso. apply Nb. exists (began s). now left.
  - injection E as -> Y. exfalso. apply G1. exists t. now left.
  - injection E as <- Y. eapply (IH ltac:(intros (k & K); apply G1; exists k; now right) _ Y). intros (k & K). apply Nb. exists k. now right.
Qed.
Print Assumptions C113_once.
Example C113_once_case : exists s a b, run step (init false) (LSignal :: LSignal :: [LMain; LMain; LMain]) = Some (s, a ++ VBegin 0 :: b).
Proof. eexists _, [VSignal; VSignal], []. vm_compute. reflexivity. Qed.

(** ** C114 *)
(** The counter of the WaitGroup is never taken below zero. *)
Theorem C114_counter : forall p sched s evs, run step (init p) sched = Some (s, evs) -> ~ In (VCrash CNegative) evs.
Proof. exact not_negative. Qed.
Print Assumptions C114_counter.
(** And "all actors have ended" is said only when every goroutine of the loop has called Done. *)
Theorem C114_zero : forall p sched s evs x t z, run step (init p) sched = Some (s, evs) -> evs = x ++ VReturn t true :: z -> exists sched' u, run step (init p) sched' = Some (u, x) /\ wg u = 0 /\ forall i q, nth_error (exits u) i = Some q -> snd q = XEnd.
Proof.
  intros p sched s evs x t z H E. destruct (return_state _ _ _ _ _ _ _ _ H E) as (sched' & u & Hu & Mu & _ & W & _). specialize (W eq_refl). exists sched', u. split; [exact Hu|]. pose proof (ex_reach _ _ _ _ Hu) as X. pose proof (x_closed _ _ X W) as Z. split; [exact Z|].
  pose proof (x_wg _ _ X) as G. rewrite Z, Mu in G. cbn in G. intros i [a q] Hq. assert (L : live (exits u) = 0) by lia. pose proof (live_zero _ _ _ L Hq) as A. destruct q; try discriminate A. reflexivity.
Qed.
Print Assumptions C114_zero.
Example C114_case : exists s x z, run step (init true) gentle = Some (s, x ++ VReturn 1 true :: z) /\ nth_error (exits s) 0 = Some (0, XEnd).
Proof. eexists _, [VMade 0 0; VPut 0 0; VRequest 0; VSignal; VBegin 0; VAnswer 0; VExit true 0; VClear; VEnded 0], []. split; vm_compute; reflexivity. Qed.

(** ** C115 *)
(** When no Register or Unregister overlaps the shutdown, it does not crash the process. *)
Theorem C115_calm_partial : forall p sched s evs x k z, run step (init p) sched = Some (s, evs) -> evs = x ++ VCrash k :: z -> begun x -> ~ calm evs.
Proof. intros p sched s evs x k z H E B C. eapply calm_safe; eauto. Qed.
Print Assumptions C115_calm_partial.
(** The map is walked and written at the same time only when a Register or Unregister overlaps
    the shutdown. *)
Theorem C115_overlap_cause : forall p sched s evs x z, run step (init p) sched = Some (s, evs) -> evs = x ++ VCrash COverlap :: z -> begun x /\ exists j, pending x j.
Proof. exact overlap_cause. Qed.
Print Assumptions C115_overlap_cause.
(** An actor is shut down twice only when two Unregisters met, or one met the shutdown. *)
Theorem C115_twice_cause : forall p sched s evs x a z, run step (init p) sched = Some (s, evs) -> evs = x ++ VCrash (CTwice a) :: z ->
  exists j, In (VUnregister j a) x /\ ((exists j', j' <> j /\ In (VUnregister j' a) x) \/ (exists b t c, x = b ++ VBegin t :: c /\ ~ In (VDel j a) b)).
Proof. exact twice_cause. Qed.
Print Assumptions C115_twice_cause.
(** Both happen: a Register that returns while the loop walks the map, *)
Theorem C115_overlap_refuted : exists sched s evs, run step (init false) sched = Some (s, evs) /\ In (VCrash COverlap) evs /\ forall j a, ~ In (VUnregister j a) evs.
Proof.
  exists [LRegister; LCall 0; LCall 0; LRegister; LSignal; LMain; LMain; LCall 1; LNext 0]. eexists _, _. split; [vm_compute; reflexivity|]. split; [cbn; intuition|]. intros j a H. cbn in H. intuition discriminate.
Qed.
Print Assumptions C115_overlap_refuted.
(** and an Unregister of an actor that the shutdown is already ending. *)
Theorem C115_twice_refuted : exists sched s evs, run step (init false) sched = Some (s, evs) /\ In (VCrash (CTwice 0)) evs /\ forall j j' a, In (VUnregister j a) evs -> In (VUnregister j' a) evs -> j = j'.
Proof.
  exists [LRegister; LCall 0; LCall 0; LSignal; LMain; LMain; LNext 0; LUnregister 0; LGo 0; LCall 1]. eexists _, [VMade 0 0; VPut 0 0; VSignal; VBegin 0; VUnregister 1 0; VExit true 0; VCrash (CTwice 0)]. split; [vm_compute; reflexivity|]. split; [cbn; intuition|].
  intros j j' a H H'. cbn in H, H'. intuition congruence.
Qed.
Print Assumptions C115_twice_refuted.
