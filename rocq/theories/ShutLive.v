(** Proofs about the shutdown of a node: signals, calm shutdowns, and that it ends. *)
From Coq Require Import List Arith Bool Lia.
From Verif Require Import Machine MachineMore ShutModel ShutSpec ShutProofs ShutMore.
Import ListNotations.

(** ** Signals *)
Lemma signal_step s l t e : main s <> MWait -> l <> LSignal -> step s l = Some (t, e) -> forall b, step (with_signal s b) l = Some (with_signal t b, e).
Proof.
  intros N Nl H b. destruct s as [po ac pr rq st ca si ma be w ex wa no de]. unfold step, done, shut, gone, crash, writing, with_main, with_wg, with_calls, with_exits, with_actors, with_present, with_requests, with_waiter, with_signal, with_began, with_now, with_stopped, kill in *.
  cbn [dead main exits waiter calls requests port stopped actors present wg now began signal] in *.
  destruct l; try congruence;
  repeat match type of H with
    | context [match ?x with _ => _ end] => destruct x eqn:?; try discriminate H; try congruence
    | context [if ?x then _ else _] => destruct x eqn:?; try discriminate H end; injection H as <- <-; cbn [dead main exits waiter calls requests port stopped actors present wg now began signal]; reflexivity.
Qed.
Lemma move_unsignalled s l s' e : l <> LSignal -> step s l = Some (s', e) -> unsignalled e = e.
Proof.
  intros N H. unfold step in H. destruct (dead s); [discriminate|]. destruct l; try congruence; unfold done, shut, gone, crash in H;
  repeat match type of H with
    | context [match ?x with _ => _ end] => destruct x eqn:?; try discriminate H
    | context [if ?x then _ else _] => destruct x eqn:?; try discriminate H end; injection H as <- <-; reflexivity.
Qed.
Lemma signals_ignored sched : forall s s2 ev b, main s <> MWait -> run step s sched = Some (s2, ev) -> exists b', run step (with_signal s b) (no_signal sched) = Some (with_signal s2 b', unsignalled ev).
Proof.
  induction sched as [|l sched IH]; intros s s2 ev b N H; cbn [run] in H; [injection H as <- <-; exists b; reflexivity|].
  destruct (step s l) as [[t e]|] eqn:E; [|discriminate]. destruct (run step t sched) as [[u f]|] eqn:R; [|discriminate]. injection H as <- <-.
  assert (N' : main t <> MWait) by (apply step_move in E as [_ M]; destruct (move_begun _ _ _ M N) as (_ & _ & X & _); exact X). destruct (IH _ _ _ b N' R) as (b' & IH').
  assert (X : l = LSignal \/ (l <> LSignal /\ no_signal (l :: sched) = l :: no_signal sched)) by (destruct l; auto; right; split; auto; discriminate).
  destruct X as [->|[Nl ->]].
  - unfold step in E. destruct (dead s); [discriminate|]. injection E as <- <-. exists b'. exact IH'.
  - exists b'. cbn [run]. rewrite (signal_step _ _ _ _ N Nl E b), IH'. pose proof (move_unsignalled _ _ _ _ Nl E) as Eu. unfold unsignalled in *. rewrite filter_app, Eu. reflexivity.
Qed.

Lemma signals_possible sched : forall s v e b, main s <> MWait -> run step (with_signal s b) (no_signal sched) = Some (v, e) -> dead v = false -> exists v' e', run step s sched = Some (v', e') /\ unsignalled e' = e.
Proof.
  induction sched as [|l sched IH]; intros s v e b N H D; [cbn in H; injection H as <- <-; exists s, []; auto|].
  assert (Ds : dead s = false).
  { destruct (dead s) eqn:X; [|reflexivity]. destruct (no_signal (l :: sched)) as [|l' r]; cbn [run] in H; [injection H as <- <-; cbn in D; congruence|]. unfold step in H at 1. change (dead (with_signal s b)) with (dead s) in H. rewrite X in H. discriminate. }
  assert (X : l = LSignal \/ (l <> LSignal /\ no_signal (l :: sched) = l :: no_signal sched)) by (destruct l; auto; right; split; auto; discriminate).
  destruct X as [->|[Nl E]].
  - destruct (IH (with_signal s true) v e b N H D) as (v' & e' & R & U). exists v', (VSignal :: e'). split; [|exact U]. cbn [run]. unfold step at 1. rewrite Ds, R. reflexivity.
  - rewrite E in H. cbn [run] in H. destruct (step (with_signal s b) l) as [[t f]|] eqn:S; [|discriminate]. destruct (run step t (no_signal sched)) as [[w g]|] eqn:R; [|discriminate]. injection H as <- <-.
    pose proof (signal_step _ _ _ _ (N : main (with_signal s b) <> MWait) Nl S (signal s)) as S'. replace (with_signal (with_signal s b) (signal s)) with s in S' by (destruct s; reflexivity).
    assert (N' : main (with_signal t (signal s)) <> MWait) by (apply step_move in S' as [_ M]; destruct (move_begun _ _ _ M N) as (_ & _ & X & _); exact X).
    assert (R' : run step (with_signal (with_signal t (signal s)) (signal t)) (no_signal sched) = Some (w, g)) by (replace (with_signal (with_signal t (signal s)) (signal t)) with t by (destruct t; reflexivity); exact R).
    destruct (IH _ _ _ _ N' R' D) as (v' & e' & R2 & U). exists v', (f ++ e'). split; [cbn [run]; rewrite S', R2; reflexivity|]. pose proof (move_unsignalled _ _ _ _ Nl S) as Eu. unfold unsignalled in *. rewrite filter_app, Eu, U. reflexivity.
Qed.

(** ** Shutdowns that no call overlaps *)
Lemma calm_app a b : calm (a ++ b) -> calm a.
Proof. intros H x y j ->. rewrite <- app_assoc in H. eapply H. reflexivity. Qed.
Lemma calls_pending evs s j q : Map evs s -> nth_error (calls s) j = Some q -> q <> CDone -> pending evs j.
Proof.
  intros M H N. destruct q as [a|a|i a|i a|]; try congruence.
  - destruct (m_unreg _ _ M _ _ a H) as (X & Y & _); [now left|]. split; [exists a; auto|exact Y].
  - destruct (m_unreg _ _ M _ _ a H) as (X & Y & _); [right; now left|]. split; [exists a; auto|exact Y].
  - destruct i; [destruct (m_reg _ _ M _ _ a H) as (X & Y & _); [now left|]|destruct (m_unreg _ _ M _ _ a H) as (X & Y & _); [right; right; now left|]]; (split; [exists a; auto|exact Y]).
  - destruct i; [destruct (m_reg _ _ M _ _ a H) as (X & Y & _); [now right|]|destruct (m_unreg _ _ M _ _ a H) as (X & Y & _); [right; right; now right|]]; (split; [exists a; auto|exact Y]).
Qed.
Lemma calm_nodel p sched s evs b t c j a : run step (init p) sched = Some (s, evs) -> calm evs -> evs = b ++ VBegin t :: c -> ~ In (VDel j a) c.
Proof.
  intros H C E N. apply in_split in N as (c1 & c2 & ->). assert (E2 : evs = (b ++ VBegin t :: c1) ++ VDel j a :: c2) by (rewrite E, <- app_assoc; reflexivity).
  destruct (run_split _ _ _ _ _ _ _ _ H E2) as (x & l & y & u & u' & e1 & q & w & e2 & -> & H1 & H2 & H3 & E3 & ->).
  apply step_move in H2 as [D M]. remember (q ++ VDel j a :: w) as e eqn:Ee. assert (N : In (VDel j a) e) by (rewrite Ee; apply in_or_app; right; now left).
  destruct M; try (exfalso; cbn in N; repeat destruct N as [N|N]; try discriminate; contradiction). destruct ins; [destruct N as [N|[]]; discriminate|].
  apply in_single in Ee as (-> & -> & Ee). injection Ee as -> ->. rewrite app_nil_r in E3. eapply (C _ _ j E2); [exists t; apply in_or_app; right; now left|]. rewrite E3. eapply calls_pending; [eapply map_reach; eauto|exact H0|discriminate].
Qed.
Lemma calm_free p sched s evs x a y : run step (init p) sched = Some (s, evs) -> calm evs -> nth_error (exits s) x = Some (a, XExit) -> nth_error (actors s) a = Some y -> closing y = false.
Proof.
  intros H C Hx Hy. destruct (closing y) eqn:K; [exfalso|reflexivity]. pose proof (map_reach _ _ _ _ H) as M. pose proof (ex_reach _ _ _ _ H) as X.
  destruct (start_get _ _ (start_reach _ _ _ _ H)) as (b & c & E & B); [intros Y; rewrite (x_pre _ _ X) in Hx by (rewrite Y; exact I); destruct x; discriminate|].
  assert (Bg : begun evs) by (exists (began s); rewrite E; apply in_or_app; right; now left).
  destruct (x_clos _ _ X _ _ Hy K) as [(x' & q & A1 & A2)|(j & [R|(q & R1 & R2 & R3)])].
  - assert (x = x') by (eapply (proj1 (NoDup_nth_error (map fst (exits s))) (x_nodup _ _ X)); [rewrite map_length; eapply some_lt; eauto|rewrite !nth_error_map, Hx, A1; reflexivity]). subst x'. congruence.
  - rewrite E in R. apply in_app_or in R as [R|[R|R]]; [|discriminate|eapply calm_nodel; eauto]. eapply (b_del _ _ _ B); [eapply nth_fst; eauto|exact R].
  - eapply (C evs [] j); [now rewrite app_nil_r|exact Bg|]. eapply calls_pending; eauto. intros ->. destruct R2 as [?|[?|[?|?]]]; discriminate.
Qed.
Lemma calm_safe p sched s evs x k z : run step (init p) sched = Some (s, evs) -> evs = x ++ VCrash k :: z -> begun x -> calm evs -> False.
Proof.
  intros H E Bg C. destruct (crash_state _ _ _ _ _ _ _ H E) as (sched' & u & Hu & K). assert (Cx : calm x) by (rewrite E in C; eapply calm_app; eauto). pose proof (map_reach _ _ _ _ Hu) as M.
  assert (P : forall j q, nth_error (calls u) j = Some q -> q = CDone).
  { intros j q Hj. assert (dec : q = CDone \/ q <> CDone) by (destruct q; auto; right; discriminate). destruct dec as [?|N]; [assumption|]. exfalso. eapply (Cx x [] j); [now rewrite app_nil_r|exact Bg|]. eapply calls_pending; eauto. }
  inversion K as [td sn K1 K2|j0 i0 a0 K1 K2|K1 K2|x0 a0 K1 K2|x0 a0 y0 K1 K2 K3 Ea|j a0 y0 K1 K2 K3 Ea].
  - apply is_writing in K2 as (j & i & a & Hj). discriminate (P _ _ Hj).
  - discriminate (P _ _ K1).
  - eapply not_negative; [exact H|]. rewrite E. subst k. apply in_or_app. right. now left.
  - eapply not_negative; [exact H|]. rewrite E. subst k. apply in_or_app. right. now left.
  - rewrite (calm_free _ _ _ _ _ _ _ Hu Cx K1 K2) in K3. discriminate.
  - discriminate (P _ _ K1).
Qed.

(** ** The end comes *)
Definition reach (s : state) : Prop := exists p sched evs, run step (init p) sched = Some (s, evs).
Lemma reach_next s l s' e : reach s -> step s l = Some (s', e) -> reach s'.
Proof. intros (p & sched & evs & H) E. exists p, (sched ++ [l]), (evs ++ e). eapply run_app; [exact H|]. now apply run_one. Qed.
Lemma todo_ok s : reach s -> forall todo seen, main s = MLoop todo seen -> forall a, In a todo -> In a (present s) /\ ~ In a seen.
Proof.
  intros (p & sched & evs & H). revert sched s evs H. apply (run_inv step (init p) (fun _ _ s => forall todo seen, main s = MLoop todo seen -> forall a, In a todo -> In a (present s) /\ ~ In a seen)); [discriminate|].
  intros sched evs s l s' e _ IH H. apply step_move in H as [_ M]. destruct M; cbn; try exact IH; try discriminate.
  - destruct (port s); discriminate.
  - intros todo seen E a Ha. injection E as <- <-. split; [exact Ha|intros []].
  - intros todo0 seen0 E b Hb. injection E as <- <-. apply in_rm in Hb as [Hb N]. destruct (IH _ _ H _ Hb) as [A B]. split; [exact A|]. intros [?|?]; [congruence|contradiction].
  - intros todo seen E b Hb. destruct (seen_drop _ _ _ _ _ E) as (todo' & E' & T). destruct (proj1 (T b) Hb) as [Hb' Nb]. destruct (IH _ _ E' _ Hb') as [A B]. split; [|exact B]. destruct ins; [now right|]. apply in_rm. auto.
Qed.
Lemma ret_seen p sched s evs : run step (init p) sched = Some (s, evs) -> main s = MRet -> exists t ok, In (VReturn t ok) evs.
Proof.
  revert sched s evs. apply (run_inv step (init p) (fun _ evs s => main s = MRet -> exists t ok, In (VReturn t ok) evs)); [discriminate|].
  intros sched evs s l s' e _ IH H E. apply step_move in H as [_ M].
  assert (G : main s = MRet -> exists t ok, In (VReturn t ok) (evs ++ e)) by (intros X; destruct (IH X) as (t & ok & Y); exists t, ok; now evl).
  destruct M; cbn in E; try discriminate; try (now apply G).
  - destruct (port s); discriminate.
  - exists (now s), true. evr.
  - exists (now s), false. evr.
  - apply G. eapply drop_simple; [|exact E]. exact I.
Qed.
Definition can_ret (s : state) : Prop := exists more s' ev, run step s more = Some (s', ev) /\ Forall own more /\ ticks more <= 30 /\ exists t ok, In (VReturn t ok) ev.
Lemma ret_step s l s1 e : step s l = Some (s1, e) -> own l -> l <> LTick -> can_ret s1 -> can_ret s.
Proof.
  intros E O N (more & s' & ev & R & F & T & t & ok & I). exists (l :: more), s', (e ++ ev). split; [cbn [run]; rewrite E, R; reflexivity|]. split; [now constructor|]. split; [|exists t, ok; apply in_or_app; now right].
  unfold ticks in *. destruct l; try congruence; exact T.
Qed.
Lemma run_ticks n : forall s, dead s = false -> run step s (repeat LTick n) = Some (with_now s (n + now s), []).
Proof.
  induction n as [|n IH]; intros s D; cbn [repeat run]; [destruct s; reflexivity|]. unfold step at 1. rewrite D. rewrite IH by exact D. cbn [now with_now app]. rewrite Nat.add_succ_r. reflexivity.
Qed.
Lemma ticks_repeat n : ticks (repeat LTick n) = n.
Proof. induction n as [|n IH]; [reflexivity|]. unfold ticks in *. cbn. now rewrite IH. Qed.
Lemma ticks_app a b : ticks (a ++ b) = ticks a + ticks b.
Proof. unfold ticks. now rewrite filter_app, app_length. Qed.
Lemma ret_select s : reach s -> dead s = false -> main s = MSelect -> can_ret s.
Proof.
  intros (p & sched & evs & H) D M. destruct (start_get _ _ (start_reach _ _ _ _ H)) as (b & c & E & B); [congruence|]. pose proof (b_time _ _ _ B) as T.
  pose (s1 := with_now s (limit + now s)). assert (S1 : step s1 LTimeout = Some (with_main s1 MRet, [VReturn (now s1) false])).
  { unfold step. change (dead s1) with (dead s). change (main s1) with (main s). rewrite D, M. destruct (Nat.leb_spec (began s1 + limit) (now s1)) as [|L]; [reflexivity|]. change (began s + limit > limit + now s) in L. lia. }
  exists (repeat LTick limit ++ [LTimeout]), (with_main s1 MRet), [VReturn (now s1) false]. split; [|split; [|split]].
  - eapply (run_app _ _ _ _ _ []); [apply run_ticks; exact D|]. now apply run_one.
  - apply Forall_app. split; [|constructor; [exact I|constructor]]. apply Forall_forall. intros l Hl. apply repeat_spec in Hl as ->. exact I.
  - rewrite ticks_app, ticks_repeat. cbn. unfold limit. lia.
  - exists (now s1), false. now left.
Qed.
Lemma ret_clear s : reach s -> dead s = false -> main s = MClear \/ main s = MFork -> can_ret s.
Proof.
  assert (F : forall s, reach s -> dead s = false -> main s = MFork -> can_ret s).
  { intros u R D M. assert (E : step u LMain = Some (with_main (with_waiter u WWait) MSelect, [])) by (unfold step; rewrite D, M; reflexivity). eapply ret_step; [exact E|exact I|discriminate|]. apply ret_select; [eapply reach_next; eauto|exact D|reflexivity]. }
  intros R D [M|M]; [|now apply F]. assert (E : step s LMain = Some (with_main s MFork, [VClear])) by (unfold step; rewrite D, M; reflexivity). eapply ret_step; [exact E|exact I|discriminate|]. apply F; [eapply reach_next; eauto|exact D|reflexivity].
Qed.
Lemma ret_loop n : forall s todo seen, reach s -> dead s = false -> writing s = false -> main s = MLoop todo seen -> length todo <= n -> can_ret s.
Proof.
  induction n as [|n IH]; intros s todo seen R D W M L.
  - destruct todo; [|cbn in L; lia]. assert (E : step s LMain = Some (with_main s MClear, [])) by (unfold step; rewrite D, M, W; reflexivity). eapply ret_step; [exact E|exact I|discriminate|]. apply ret_clear; [eapply reach_next; eauto|exact D|now left].
  - destruct todo as [|a todo]; [apply (IH s [] seen); auto; cbn; lia|]. destruct (todo_ok _ R _ _ M a) as [P N]; [now left|].
    assert (E : step s (LNext a) = Some (with_main (with_exits (with_wg s (S (wg s))) (exits s ++ [(a, XExit)])) (MLoop (remove Nat.eq_dec a (a :: todo)) (a :: seen)), [])).
    { unfold step. rewrite D, M. destruct (in_dec Nat.eq_dec a seen); [contradiction|]. destruct (in_dec Nat.eq_dec a (present s)); [|contradiction]. rewrite W. reflexivity. }
    eapply ret_step; [exact E|exact I|discriminate|]. eapply (IH _ (remove Nat.eq_dec a (a :: todo)) (a :: seen)); [eapply reach_next; eauto|exact D|exact W|reflexivity|].
    pose proof (remove_length_lt Nat.eq_dec (a :: todo) a ltac:(now left)) as Y. cbn [length] in L, Y. lia.
Qed.
Lemma ret_quiet s : reach s -> dead s = false -> writing s = false -> main s <> MWait -> main s <> MRet -> existsb (fun b => b) (requests s) = false -> can_ret s.
Proof.
  assert (P4 : forall s, reach s -> dead s = false -> writing s = false -> main s = MRange -> can_ret s).
  { intros u R D W M. assert (E : step u LMain = Some (with_main u (MLoop (present u) []), [])) by (unfold step; rewrite D, M; reflexivity). eapply ret_step; [exact E|exact I|discriminate|]. eapply ret_loop; [eapply reach_next; eauto|exact D|exact W|reflexivity|reflexivity]. }
  assert (P3 : forall s, reach s -> dead s = false -> writing s = false -> main s = MDone -> can_ret s).
  { intros u R D W M. pose proof R as (p & sched & evs & H). pose proof (x_wg _ _ (ex_reach _ _ _ _ H)) as G. rewrite M in G. cbn in G. assert (E : step u LMain = Some (with_main (with_wg u (live (exits u))) MRange, [])) by (unfold step, done; rewrite D, M, G; reflexivity).
    eapply ret_step; [exact E|exact I|discriminate|]. apply P4; [eapply reach_next; eauto|exact D|exact W|reflexivity]. }
  assert (P2 : forall s, reach s -> dead s = false -> writing s = false -> existsb (fun b => b) (requests s) = false -> main s = MStop -> can_ret s).
  { intros u R D W Q M. assert (E : step u LMain = Some (with_main (with_stopped u) MDone, [])) by (unfold step; rewrite D, M, Q; reflexivity). eapply ret_step; [exact E|exact I|discriminate|]. apply P3; [eapply reach_next; eauto|exact D|exact W|reflexivity]. }
  intros R D W N1 N2 Q. destruct (main s) as [| | | | |todo seen| | | |] eqn:M; try congruence.
  - assert (E : step s LMain = Some (with_main (with_wg s (S (wg s))) MStop, [])) by (unfold step; rewrite D, M; reflexivity). eapply ret_step; [exact E|exact I|discriminate|]. apply P2; [eapply reach_next; eauto|exact D|exact W|exact Q|reflexivity].
  - now apply P2.
  - now apply P3.
  - now apply P4.
  - eapply ret_loop; eauto.
  - apply ret_clear; auto.
  - apply ret_clear; auto.
  - now apply ret_select.
Qed.
Lemma none_served p sched s evs : run step (init p) sched = Some (s, evs) -> (forall r, In (VRequest r) evs -> In (VAnswer r) evs) -> existsb (fun b => b) (requests s) = false.
Proof.
  intros H A. assert (G : forall r, nth_error (requests s) r = Some true -> In (VRequest r) evs /\ ~ In (VAnswer r) evs).
  { clear A. revert sched s evs H. apply (run_inv step (init p) (fun _ evs s => forall r, nth_error (requests s) r = Some true -> In (VRequest r) evs /\ ~ In (VAnswer r) evs)); [intros [|r]; discriminate|].
    intros sched evs s l s' e R IH H r. pose proof (req_reach _ _ _ _ R) as Q. apply step_move in H as [_ M].
    assert (F : (forall k, ~ In (VAnswer k) e) -> nth_error (requests s) r = Some true -> In (VRequest r) (evs ++ e) /\ ~ In (VAnswer r) (evs ++ e)).
    { intros Ne X. destruct (IH _ X) as [Y Z]. split; [now evl|]. intros Y'. apply in_app_or in Y' as [Y'|Y']; [contradiction|exact (Ne _ Y')]. }
    destruct M; cbn; try (apply F; intros k0 X; cbn in X; repeat destruct X as [X|X]; try discriminate; try contradiction; destruct ins; discriminate).
    - intros X. apply snoc_case in X as [[-> _]|[_ X]]; [|apply F; [intros k0 [Y|[]]; discriminate|exact X]]. split; [evr|]. intros Y. ev Y.
      assert (L : length (requests s) < length (requests s)); [|lia]. clear -Y R. revert Y. enough (G : forall r, In (VAnswer r) evs -> r < length (requests s)) by (apply G).
      revert sched s evs R. apply (run_inv step (init p) (fun _ evs s => forall r, In (VAnswer r) evs -> r < length (requests s))); [intros r []|].
      intros sched evs s l s' e _ IH H r. apply step_move in H as [_ M]. destruct M; cbn; intros X; ev X; try (now apply IH); rewrite ?app_length, ?upd_length; cbn.
      + apply IH in X. lia.
      + now apply IH.
      + injection X as <-. eapply some_lt; eauto.
    - intros X. destruct (upd_case _ _ _ _ _ _ H X) as [[_ Y]|[N X']]; [discriminate|]. destruct (IH _ X') as [Y Z]. split; [now evl|]. intros Y'. ev Y'; [contradiction|]. congruence. }
  destruct (existsb _ _) eqn:E; [|reflexivity]. apply existsb_exists in E as (b & Hb & ->). apply In_nth_error in Hb as (r & Hr). destruct (G _ Hr) as [X Y]. destruct (Y (A _ X)).
Qed.
Lemma returns p sched s evs : run step (init p) sched = Some (s, evs) -> dead s = false -> begun evs -> answered evs -> (forall t ok, ~ In (VReturn t ok) evs) -> can_ret s.
Proof.
  intros H D Bg A Nr. assert (R : reach s) by (now exists p, sched, evs). pose proof (start_pre _ _ (start_reach _ _ _ _ H) Bg) as N1. pose proof (none_served _ _ _ _ H A) as Q.
  assert (N2 : main s <> MRet) by (intros X; destruct (ret_seen _ _ _ _ H X) as (t & ok & Y); exact (Nr _ _ Y)).
  destruct (writing s) eqn:W; [|now apply ret_quiet]. apply is_writing in W as (j & i & a & Hj).
  set (s1 := with_main (with_present (with_calls s (upd (calls s) j CDone)) (if i then a :: present s else remove Nat.eq_dec a (present s))) (drop i a (main s))).
  assert (E : step s (LCall j) = Some (s1, [if i then VPut j a else VDel j a])) by (unfold step; rewrite D, Hj, (one_writer _ _ _ _ _ (map_reach _ _ _ _ H) Hj); reflexivity).
  eapply ret_step; [exact E|exact I|discriminate|]. apply ret_quiet; [eapply reach_next; eauto|exact D| | | |exact Q].
  - unfold writing, s1. cbn [calls with_main with_present with_calls]. match goal with |- ?b = _ => destruct b eqn:X; [|reflexivity] end. apply existsb_exists in X as (q & Hq & Pq). destruct q as [| |q1 q2|q1 q2|]; try discriminate. apply In_nth_error in Hq as (k & Hk).
    destruct (upd_case _ _ _ _ _ _ Hj Hk) as [[_ Y]|[Nk Hk']]; [discriminate|]. destruct (Nk (m_lock _ _ (map_reach _ _ _ _ H) _ _ _ _ _ _ Hk' Hj)).
  - cbn. intros X. apply N1. eapply drop_simple; [|exact X]. exact I.
  - cbn. intros X. apply N2. eapply drop_simple; [|exact X]. exact I.
Qed.

(** ** Without help from the clock *)
Definition calm_ret (s : state) : Prop := exists more s' ev, run step s more = Some (s', ev) /\ Forall (fun l => own l \/ exists a, l = LLoop a) more /\ ticks more = 0 /\ exists t, In (VReturn t true) ev.
Lemma calm_step s l s1 e : step s l = Some (s1, e) -> (own l \/ exists a, l = LLoop a) -> l <> LTick -> calm_ret s1 -> calm_ret s.
Proof.
  intros E O N (more & s' & ev & R & F & T & t & I). exists (l :: more), s', (e ++ ev). split; [cbn [run]; rewrite E, R; reflexivity|]. split; [now constructor|]. split; [|exists t; apply in_or_app; now right].
  unfold ticks in *. destruct l; try congruence; exact T.
Qed.
(** What the rest of a calm shutdown goes through. *)
Record Quiet (s : state) : Prop := mkQuiet {
  q_dead : dead s = false;
  q_done : forall j q, nth_error (calls s) j = Some q -> q = CDone;
  q_free : forall x a, nth_error (exits s) x = Some (a, XExit) -> exists y, nth_error (actors s) a = Some y /\ closing y = false;
  q_pres : forall a, In a (present s) -> ~ In a (map fst (exits s)) -> exists y, nth_error (actors s) a = Some y /\ closing y = false;
  q_reach : exists evs, Ex evs s /\ Map evs s }.
Lemma quiet_not_writing s : Quiet s -> writing s = false.
Proof. intros Q. destruct (writing s) eqn:W; [|reflexivity]. apply is_writing in W as (j & i & a & H). discriminate (q_done _ Q _ _ H). Qed.
Lemma quiet_same s s' e l : Quiet s -> step s l = Some (s', e) -> dead s' = false -> calls s' = calls s -> exits s' = exits s -> actors s' = actors s -> present s' = present s -> Quiet s'.
Proof.
  intros [A B C D (evs & X & M)] E H1 H2 H3 H4 H5. constructor; rewrite ?H2, ?H3, ?H4, ?H5; auto. exists (evs ++ e). split; [eapply ex_step; eauto|eapply map_step; eauto].
Qed.
(** The goroutines of the loop, one after the other. *)
Lemma calm_select n : forall s, Quiet s -> main s = MSelect -> waiter s <> WNone -> live (exits s) <= n -> calm_ret s.
Proof.
  induction n as [|n IH]; intros s Q M W L; pose proof (q_dead _ Q) as D; destruct (q_reach _ Q) as (evs & X & Mp); pose proof (x_wg _ _ X) as G; rewrite M in G; cbn [hold] in G.
  - assert (Fin : forall s, dead s = false -> main s = MSelect -> waiter s = WClosed -> calm_ret s).
    { intros u Du Mu Wu. exists [LReady], (with_main u MRet), [VReturn (now u) true]. split; [apply run_one; unfold step; rewrite Du, Mu, Wu; reflexivity|]. split; [repeat constructor|]. split; [reflexivity|exists (now u); now left]. }
    destruct (waiter s) eqn:Ww; [congruence| |now apply Fin].
    assert (E : step s LWaiter = Some (with_waiter s WClosed, [])). { unfold step. rewrite D, Ww. replace (wg s) with 0 by lia. reflexivity. }
    eapply calm_step; [exact E|left; exact I|discriminate|]. now apply Fin.
  - destruct (Nat.eq_dec (live (exits s)) 0) as [Z|Z]; [apply IH; auto; lia|].
    assert (Hx : exists x a q, nth_error (exits s) x = Some (a, q) /\ q <> XEnd).
    { unfold live in Z. destruct (filter alive (exits s)) as [|[a q] r] eqn:Ef; [cbn in Z; lia|]. assert (I : In (a, q) (filter alive (exits s))) by (rewrite Ef; now left). apply filter_In in I as [I Y]. apply In_nth_error in I as (x & Hx). exists x, a, q. split; [exact Hx|]. intros ->. discriminate. }
    destruct Hx as (x & a & q & Hx & Nq).
    (** last: Done *)
    assert (P3 : forall s, Quiet s -> main s = MSelect -> waiter s <> WNone -> live (exits s) <= S n -> nth_error (exits s) x = Some (a, XDone) -> calm_ret s).
    { clear s Q M W L D evs X Mp G Z Hx. intros s Q M W L Hx. pose proof (q_dead _ Q) as D. destruct (q_reach _ Q) as (evs & X & Mp). pose proof (x_wg _ _ X) as G. rewrite M in G. cbn [hold] in G.
      pose proof (live_upd _ _ _ (a, XEnd) Hx) as U. cbn in U. assert (Ew : exists w, wg s = S w) by (destruct (wg s); [lia|eauto]). destruct Ew as (w & Ew).
      set (s1 := with_exits (with_wg s w) (upd (exits s) x (a, XEnd))). assert (E : step s (LGo x) = Some (s1, [])) by (unfold step, done; rewrite D, Hx, Ew; reflexivity).
      eapply calm_step; [exact E|left; exact I|discriminate|]. apply IH; [|exact M|exact W|change (exits s1) with (upd (exits s) x (a, XEnd)); lia].
      constructor; [exact D|exact (q_done _ Q)| | |exists (evs ++ []); split; [eapply ex_step; eauto|eapply map_step; eauto]].
      - intros x' b H. change (nth_error (upd (exits s) x (a, XEnd)) x' = Some (b, XExit)) in H. destruct (upd_case _ _ _ _ _ _ Hx H) as [[_ Y]|[_ H']]; [discriminate|]. exact (q_free _ Q _ _ H').
      - intros b Hb Nb. apply (q_pres _ Q); [exact Hb|]. change (~ In b (map fst (upd (exits s) x (a, XEnd)))) in Nb. now rewrite (upd_fst _ _ _ _ _ Hx) in Nb. }
    (** then: the loop of the actor has ended *)
    assert (P2 : forall s y, Quiet s -> main s = MSelect -> waiter s <> WNone -> live (exits s) <= S n -> nth_error (exits s) x = Some (a, XWait) -> nth_error (actors s) a = Some y -> ended y = true -> calm_ret s).
    { clear s Q M W L D evs X Mp G Z Hx. intros s y Q M W L Hx Hy Ey. pose proof (q_dead _ Q) as D. destruct (q_reach _ Q) as (evs & X & Mp). pose proof (live_upd _ _ _ (a, XDone) Hx) as U. cbn in U.
      set (s1 := with_exits s (upd (exits s) x (a, XDone))). assert (E : step s (LGo x) = Some (s1, [])) by (unfold step, gone; rewrite D, Hx, Hy, Ey; reflexivity).
      eapply calm_step; [exact E|left; exact I|discriminate|]. apply P3; [|exact M|exact W|change (exits s1) with (upd (exits s) x (a, XDone)); lia|change (exits s1) with (upd (exits s) x (a, XDone)); rewrite nth_upd_eq; [reflexivity|eapply some_lt; eauto]].
      constructor; [exact D|exact (q_done _ Q)| | |exists (evs ++ []); split; [eapply ex_step; eauto|eapply map_step; eauto]].
      - intros x' b H. change (nth_error (upd (exits s) x (a, XDone)) x' = Some (b, XExit)) in H. destruct (upd_case _ _ _ _ _ _ Hx H) as [[_ Y]|[_ H']]; [discriminate|]. exact (q_free _ Q _ _ H').
      - intros b Hb Nb. apply (q_pres _ Q); [exact Hb|]. change (~ In b (map fst (upd (exits s) x (a, XDone)))) in Nb. now rewrite (upd_fst _ _ _ _ _ Hx) in Nb. }
    (** then: the loop of the actor ends *)
    assert (P1 : forall s y, Quiet s -> main s = MSelect -> waiter s <> WNone -> live (exits s) <= S n -> nth_error (exits s) x = Some (a, XWait) -> nth_error (actors s) a = Some y -> closing y = true -> calm_ret s).
    { clear s Q M W L D evs X Mp G Z Hx. intros s [k z] Q M W L Hx Hy Ky. cbn in Ky. subst k. destruct z; [eapply P2; eauto|]. pose proof (q_dead _ Q) as D. destruct (q_reach _ Q) as (evs & X & Mp).
      set (s1 := with_actors s (upd (actors s) a (mkA true true))). assert (E : step s (LLoop a) = Some (s1, [VEnded a])) by (unfold step; rewrite D, Hy; reflexivity).
      eapply calm_step; [exact E|right; now exists a|discriminate|]. eapply (P2 s1 (mkA true true)); [|exact M|exact W|exact L|exact Hx|change (actors s1) with (upd (actors s) a (mkA true true)); rewrite nth_upd_eq; [reflexivity|eapply some_lt; eauto]|reflexivity].
      assert (Nx : forall b, b <> a -> nth_error (actors s1) b = nth_error (actors s) b) by (intros b Nb; change (actors s1) with (upd (actors s) a (mkA true true)); rewrite nth_upd_neq; congruence).
      constructor; [exact D|exact (q_done _ Q)| | |exists (evs ++ [VEnded a]); split; [eapply ex_step; eauto|eapply map_step; eauto]].
      - intros x' b H. change (nth_error (exits s) x' = Some (b, XExit)) in H. destruct (q_free _ Q _ _ H) as (y & A & B). exists y. split; [|exact B]. rewrite Nx; [exact A|]. intros ->. rewrite Hy in A. injection A as <-. discriminate.
      - intros b Hb Nb. change (~ In b (map fst (exits s))) in Nb. destruct (q_pres _ Q _ Hb Nb) as (y & A & B). exists y. split; [|exact B]. rewrite Nx; [exact A|]. intros ->. rewrite Hy in A. injection A as <-. discriminate. }
    destruct q; [|destruct (x_act _ _ X x a XWait Hx) as (y & Hy & Ky & _); specialize (Ky ltac:(discriminate))| |congruence].
    + destruct (q_free _ Q _ _ Hx) as (y & Hy & Ky). pose proof (live_upd _ _ _ (a, XWait) Hx) as U. cbn in U.
      set (s1 := with_exits (with_actors s (upd (actors s) a (mkA true (ended y)))) (upd (exits s) x (a, XWait))). assert (E : step s (LGo x) = Some (s1, [VExit true a])) by (unfold step, shut; rewrite D, Hx, Hy, Ky; reflexivity).
      eapply calm_step; [exact E|left; exact I|discriminate|].
      eapply (P1 s1 (mkA true (ended y))); [|exact M|exact W|change (exits s1) with (upd (exits s) x (a, XWait)); lia|change (exits s1) with (upd (exits s) x (a, XWait)); rewrite nth_upd_eq; [reflexivity|eapply some_lt; eauto]|change (actors s1) with (upd (actors s) a (mkA true (ended y))); rewrite nth_upd_eq; [reflexivity|eapply some_lt; eauto]|reflexivity].
      assert (Nx : forall b, b <> a -> nth_error (actors s1) b = nth_error (actors s) b) by (intros b Nb; change (actors s1) with (upd (actors s) a (mkA true (ended y))); rewrite nth_upd_neq; congruence).
      constructor; [exact D|exact (q_done _ Q)| | |exists (evs ++ [VExit true a]); split; [eapply ex_step; eauto|eapply map_step; eauto]].
      * intros x' b H. change (nth_error (upd (exits s) x (a, XWait)) x' = Some (b, XExit)) in H. destruct (upd_case _ _ _ _ _ _ Hx H) as [[_ Y]|[Nx' H']]; [discriminate|]. destruct (q_free _ Q _ _ H') as (y' & A & B). exists y'. split; [|exact B]. rewrite Nx; [exact A|]. intros ->.
        apply Nx'. eapply (proj1 (NoDup_nth_error (map fst (exits s))) (x_nodup _ _ X)); [rewrite map_length; eapply some_lt; eauto|rewrite !nth_error_map, Hx, H'; reflexivity].
      * intros b Hb Nb. change (~ In b (map fst (upd (exits s) x (a, XWait)))) in Nb. rewrite (upd_fst _ _ _ _ _ Hx) in Nb. destruct (q_pres _ Q _ Hb Nb) as (y' & A & B). exists y'. split; [|exact B]. rewrite Nx; [exact A|]. intros ->. apply Nb. eapply nth_fst; eauto.
    + eapply P1; eauto.
    + apply P3; auto.
Qed.
Lemma calm_clear s : Quiet s -> main s = MClear \/ main s = MFork -> calm_ret s.
Proof.
  assert (F : forall s, Quiet s -> main s = MFork -> calm_ret s).
  { intros u Q M. pose proof (q_dead _ Q) as D. assert (E : step u LMain = Some (with_main (with_waiter u WWait) MSelect, [])) by (unfold step; rewrite D, M; reflexivity). eapply calm_step; [exact E|left; exact I|discriminate|].
    eapply calm_select; [eapply quiet_same; eauto|reflexivity|discriminate|reflexivity]. }
  intros Q [M|M]; [|now apply F]. pose proof (q_dead _ Q) as D. assert (E : step s LMain = Some (with_main s MFork, [VClear])) by (unfold step; rewrite D, M; reflexivity). eapply calm_step; [exact E|left; exact I|discriminate|]. apply F; [eapply quiet_same; eauto|reflexivity].
Qed.
Lemma calm_loop n : forall s todo seen, Quiet s -> (forall a, In a todo -> In a (present s) /\ ~ In a seen) -> main s = MLoop todo seen -> length todo <= n -> calm_ret s.
Proof.
  induction n as [|n IH]; intros s todo seen Q T M L; pose proof (q_dead _ Q) as D; pose proof (quiet_not_writing _ Q) as W.
  - destruct todo; [|cbn in L; lia]. assert (E : step s LMain = Some (with_main s MClear, [])) by (unfold step; rewrite D, M, W; reflexivity). eapply calm_step; [exact E|left; exact I|discriminate|]. apply calm_clear; [eapply quiet_same; eauto|now left].
  - destruct todo as [|a todo]; [apply (IH s [] seen); auto; cbn; lia|]. destruct (T a) as [P N]; [now left|].
    set (s1 := with_main (with_exits (with_wg s (S (wg s))) (exits s ++ [(a, XExit)])) (MLoop (remove Nat.eq_dec a (a :: todo)) (a :: seen))).
    assert (E : step s (LNext a) = Some (s1, [])).
    { unfold step. rewrite D, M. destruct (in_dec Nat.eq_dec a seen); [contradiction|]. destruct (in_dec Nat.eq_dec a (present s)); [|contradiction]. rewrite W. reflexivity. }
    eapply calm_step; [exact E|left; exact I|discriminate|]. destruct (q_reach _ Q) as (evs & X & Mp).
    eapply (IH s1 (remove Nat.eq_dec a (a :: todo)) (a :: seen)); [| |reflexivity|].
    + constructor; [exact D|exact (q_done _ Q)| | |exists (evs ++ []); split; [eapply ex_step; eauto|eapply map_step; eauto]].
      * intros x b H. change (nth_error (exits s ++ [(a, XExit)]) x = Some (b, XExit)) in H. apply snoc_case in H as [[_ Y]|[_ H]]; [|exact (q_free _ Q _ _ H)]. injection Y as ->. apply (q_pres _ Q); [exact P|]. intros Y. apply N. now apply (x_seen _ _ X _ _ M).
      * intros b Hb Nb. apply (q_pres _ Q); [exact Hb|]. intros Y. apply Nb. change (In b (map fst (exits s ++ [(a, XExit)]))). rewrite map_app. apply in_or_app. now left.
    + intros b Hb. apply in_rm in Hb as [Hb Nb]. destruct (T b Hb) as [A B]. split; [exact A|]. intros [?|?]; [congruence|contradiction].
    + pose proof (remove_length_lt Nat.eq_dec (a :: todo) a ltac:(now left)) as Y. cbn [length] in L, Y. lia.
Qed.
Lemma calm_main s : Quiet s -> reach s -> main s <> MWait -> main s <> MRet -> existsb (fun b => b) (requests s) = false -> calm_ret s.
Proof.
  assert (P4 : forall s, Quiet s -> main s = MRange -> calm_ret s).
  { intros u Q M. pose proof (q_dead _ Q) as D. assert (E : step u LMain = Some (with_main u (MLoop (present u) []), [])) by (unfold step; rewrite D, M; reflexivity). eapply calm_step; [exact E|left; exact I|discriminate|]. eapply calm_loop; [eapply quiet_same; eauto| |reflexivity|reflexivity]. intros a Ha. split; [exact Ha|intros []]. }
  assert (P3 : forall s, Quiet s -> main s = MDone -> calm_ret s).
  { intros u Q M. pose proof (q_dead _ Q) as D. destruct (q_reach _ Q) as (evs & X & Mp). pose proof (x_wg _ _ X) as G. rewrite M in G. cbn in G. assert (E : step u LMain = Some (with_main (with_wg u (live (exits u))) MRange, [])) by (unfold step, done; rewrite D, M, G; reflexivity).
    eapply calm_step; [exact E|left; exact I|discriminate|]. apply P4; [eapply quiet_same; eauto|reflexivity]. }
  assert (P2 : forall s, Quiet s -> existsb (fun b => b) (requests s) = false -> main s = MStop -> calm_ret s).
  { intros u Q R M. pose proof (q_dead _ Q) as D. assert (E : step u LMain = Some (with_main (with_stopped u) MDone, [])) by (unfold step; rewrite D, M, R; reflexivity). eapply calm_step; [exact E|left; exact I|discriminate|]. apply P3; [eapply quiet_same; eauto|reflexivity]. }
  intros Q R N1 N2 Rq. pose proof (q_dead _ Q) as D. destruct (main s) as [| | | | |todo seen| | | |] eqn:M; try congruence.
  - assert (E : step s LMain = Some (with_main (with_wg s (S (wg s))) MStop, [])) by (unfold step; rewrite D, M; reflexivity). eapply calm_step; [exact E|left; exact I|discriminate|]. apply P2; [eapply quiet_same; eauto|exact Rq|reflexivity].
  - now apply P2.
  - now apply P3.
  - now apply P4.
  - eapply calm_loop; eauto. eapply todo_ok; eauto.
  - apply calm_clear; auto.
  - apply calm_clear; auto.
  - destruct (q_reach _ Q) as (evs & X & Mp). eapply calm_select; [exact Q|exact M| |reflexivity]. apply (x_wait _ _ X). rewrite M. exact I.
Qed.
Lemma calm_returns p sched s evs : run step (init p) sched = Some (s, evs) -> dead s = false -> begun evs -> calm evs -> answered evs -> (forall t ok, ~ In (VReturn t ok) evs) -> calm_ret s.
Proof.
  intros H D Bg C A Nr. pose proof (map_reach _ _ _ _ H) as Mp. pose proof (ex_reach _ _ _ _ H) as X.
  assert (Dn : forall j q, nth_error (calls s) j = Some q -> q = CDone).
  { intros j q Hj. assert (dec : q = CDone \/ q <> CDone) by (destruct q; auto; right; discriminate). destruct dec as [?|N]; [assumption|]. exfalso. eapply (C evs [] j); [now rewrite app_nil_r|exact Bg|]. eapply calls_pending; eauto. }
  apply calm_main; [|now exists p, sched, evs|exact (start_pre _ _ (start_reach _ _ _ _ H) Bg)|intros Y; destruct (ret_seen _ _ _ _ H Y) as (t & ok & Z); exact (Nr _ _ Z)|eapply none_served; eauto].
  constructor; [exact D|exact Dn| | |exists evs; now split].
  - intros x a Hx. destruct (x_act _ _ X _ _ _ Hx) as (y & Hy & _). exists y. split; [exact Hy|]. eapply calm_free; eauto.
  - intros a Ha Na. pose proof (pres_actor _ _ _ Mp Ha) as La. apply nth_error_Some in La. destruct (nth_error (actors s) a) as [y|] eqn:Hy; [|congruence]. exists y. split; [reflexivity|]. destruct (closing y) eqn:K; [exfalso|reflexivity].
    destruct (x_clos _ _ X _ _ Hy K) as [(x & q & A1 & _)|(j & [R|(q & R1 & R2 & _)])].
    + apply Na. eapply nth_fst; eauto.
    + apply (m_pres _ _ Mp) in Ha as [_ Ha]. exact (Ha _ R).
    + rewrite (Dn _ _ R1) in R2. destruct R2 as [?|[?|[?|?]]]; discriminate.
Qed.
