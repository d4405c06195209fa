(** More about shutdown: Exit called from within the actor, and Exit called from
    outside always being able to return. *)
From Coq Require Import List ZArith Bool Lia.
From Verif Require Import Machine MpscModel MpscSpec MpscProofs ActorModel ActorSpec ActorProofs.
Import ListNotations.

(** Re-entry actions started, in order. *)
Fixpoint actions (evs : list event) : list nat :=
  match evs with [] => [] | EActStart r :: t => r :: actions t | _ :: t => actions t end.
Lemma actions_app a b : actions (a ++ b) = actions a ++ actions b.
Proof. induction a as [|[] a IH]; cbn; auto. now rewrite IH. Qed.
(** What goroutines pushed on the re-entry queue. *)
Fixpoint repushed (ls : list label) : list nat :=
  match ls with
  | [] => []
  | LReenter (LSwap _ v) :: t => v :: repushed t
  | _ :: t => repushed t
  end.
Lemma repushed_app a b : repushed (a ++ b) = repushed a ++ repushed b.
Proof. induction a as [|x a IH]; [reflexivity|]. cbn [app repushed]. destruct x as [| | | | | | | |[]| | | | | | | | | | | | | | | | |]; auto. cbn. now rewrite IH. Qed.

Section P.
Variable registered : nat -> bool.
Notation step := (step registered).

Definition RInv (sched : list label) (evs : list event) (s : state) : Prop :=
  (exists qs qe, run MpscModel.step MpscModel.init qs = Some (rq s, qe) /\
     map snd (pushed qs) = repushed sched /\ popped qe = actions evs) /\
  ((at_ s = InRPop /\ cons (rq s) <> CIdle) \/ (at_ s <> InRPop /\ cons (rq s) = CIdle)) /\
  (at_ s = Stopped -> closeCh s = true).

Lemma rinv_frame sched evs s l s' e : RInv sched evs s -> rq s' = rq s -> repushed [l] = [] -> actions e = [] ->
  (at_ s' = InRPop <-> at_ s = InRPop) -> (at_ s' = Stopped -> closeCh s' = true) -> RInv (sched ++ [l]) (evs ++ e) s'.
Proof.
  intros ((qs & qe & A & B & C) & D & E) Hr Hp Ha Hi Hs. rewrite <- Hr in *. split; [|split; [|exact Hs]].
  - exists qs, qe. rewrite repushed_app, actions_app, Hp, Ha, !app_nil_r. auto.
  - destruct D as [[D1 D2]|[D1 D2]]; [left|right]; (split; [tauto|auto]).
Qed.

Lemma push_label_cons (s s' : MpscModel.state nat) l e : push_label l = true ->
  MpscModel.step s l = Some (s', e) -> cons s' = cons s /\ popped e = [].
Proof.
  intros Hl H. destruct l; try discriminate; try (apply push_step_cons in H; [tauto|reflexivity]).
  destruct (qstep_swap _ _ _ _ _ H) as (A & B & C); subst; cbn; auto.
Qed.

Lemma rinv_step sched evs s l s' e : RInv sched evs s -> step s l = Some (s', e) ->
  RInv (sched ++ [l]) (evs ++ e) s'.
Proof.
  intros HR H. pose proof H as H0. unfold ActorModel.step in H. destruct (crashed s) eqn:Ecr; [discriminate|].
  assert (Hcc : at_ s = Stopped -> closeCh s = true) by apply HR.
  destruct l;
  try solve [
    unfold push_step in H;
    repeat match type of H with
    | (if ?b then _ else _) = _ => destruct b eqn:?
    | match ?x with _ => _ end = _ => destruct x eqn:?
    end; try discriminate; injection H as <- <-;
    eapply rinv_frame; eauto; cbn; try (intuition congruence); try tauto ].
  - (* LReenter *)
    destruct (push_label l) eqn:El; [|discriminate].
    destruct (MpscModel.step (rq s) l) as [[rq' f]|] eqn:Eq; [|discriminate]. injection H as <- <-.
    destruct (push_label_cons _ _ _ _ El Eq) as [C1 C2].
    destruct HR as ((qs & qe & A & B & C) & D & E). split; [|split].
    + exists (qs ++ [l]), (qe ++ f). split; [eapply run_app; eauto; now apply run_one|].
      rewrite pushed_app, map_app, repushed_app, popped_app, actions_app, B, C, C2.
      split; [|reflexivity]. f_equal. destruct l; try discriminate; reflexivity.
    + cbn. rewrite C1. exact D.
    + cbn. exact E.
  - (* LR *)
    destruct (at_ s) eqn:Ea; try discriminate.
    + destruct (is_recv l) eqn:El; [|discriminate].
      destruct (MpscModel.step (rq s) l) as [[rq' f]|] eqn:Eq; [|discriminate]. injection H as <- <-.
      destruct l; try discriminate. destruct (qstep_recv _ _ _ Eq) as (_ & C1 & C2 & ->).
      destruct HR as ((qs & qe & A & B & C) & D & E). split; [|split].
      * exists (qs ++ [LRecv]), (qe ++ []). split; [eapply run_app; eauto; now apply run_one|].
        rewrite pushed_app, map_app, repushed_app. cbn. rewrite !app_nil_r. auto.
      * left. cbn. rewrite C2. split; [reflexivity|discriminate].
      * discriminate.
    + destruct (is_pop l) eqn:El; [|discriminate].
      destruct HR as ((qs & qe & A & B & C) & D & E).
      assert (Hc : cons (rq s) <> CIdle) by (destruct D as [[_ ?]|[? _]]; congruence).
      destruct (MpscModel.step (rq s) l) as [[rq' f]|] eqn:Eq; [|discriminate].
      destruct (qstep_pop _ _ _ _ El Hc Eq) as (_ & HX).
      assert (Hrun : run MpscModel.step MpscModel.init (qs ++ [l]) = Some (rq', qe ++ f)) by (eapply run_app; eauto; now apply run_one).
      assert (Hp : pushed [l] = []) by (destruct l; auto; discriminate).
      destruct HX as [[-> HX]|[(v & -> & HX)|[-> HX]]]; injection H as <- <-.
      all: split; [exists (qs ++ [l]); eexists; split; [exact Hrun|];
        rewrite pushed_app, map_app, repushed_app, popped_app, actions_app, Hp; cbn; rewrite !app_nil_r; split; congruence|].
      all: cbn; split; [|try rewrite Ea; discriminate].
      * right. split; [discriminate|auto].
      * right. split; [discriminate|auto].
      * left. auto.
Qed.

Lemma rinv_run sched s evs : run step init sched = Some (s, evs) -> RInv sched evs s.
Proof.
  revert sched s evs. apply (run_inv step init (fun sched evs s => RInv sched evs s)).
  - split; [exists [], []; auto|]. split; [right; split; [discriminate|reflexivity]|discriminate].
  - intros. eapply rinv_step; eauto.
Qed.

(** Re-entry actions run on the loop in the order in which they were pushed, each
    at most once. *)
Lemma actions_in_order sched s evs : run step init sched = Some (s, evs) ->
  exists rest, repushed sched = actions evs ++ rest.
Proof.
  intros H. destruct (rinv_run _ _ _ H) as ((qs & qe & A & B & C) & _).
  destruct (fifo _ _ _ A) as [r Hr]. exists r. congruence.
Qed.

(** ** Exit from within *)
(** The loop is running user code: a handler, a timer callback or a re-entry
    action. *)
Definition in_user_code (s : state) : Prop :=
  (exists m, at_ s = Handle m) \/ (exists t, at_ s = TimerRun t) \/ (exists r, at_ s = Action r).
(** Steps that end the user code. *)
Definition ends_user_code (l : label) : bool :=
  match l with LHandled _ | LTimerEnd | LActionEnd => true | _ => false end.

Lemma stuck_step s l s' e : in_user_code s -> closed s = 0 -> chk s = NoChk -> closeCh s = false ->
  ends_user_code l = false -> step s l = Some (s', e) ->
  in_user_code s' /\ closed s' = 0 /\ chk s' = NoChk /\ closeCh s' = false /\ ~ In EExitReturned e.
Proof.
  intros Hu Hc Hk Hh Hl H. unfold ActorModel.step in H. destruct (crashed s); [discriminate|].
  rewrite ?Hc, ?Hk, ?Hh in H. unfold push_step in H.
  destruct Hu as [[m Hu]|[[t Hu]|[r Hu]]]; rewrite ?Hu in H;
  destruct l; try discriminate;
  repeat match type of H with
  | (if ?b then _ else _) = _ => destruct b eqn:?
  | match ?x with _ => _ end = _ => destruct x eqn:?
  end; try discriminate; injection H as <- <-;
  (split; [unfold in_user_code; cbn; rewrite Hu; eauto 6|]); cbn; repeat split; auto;
  intros []; try discriminate; tauto.
Qed.

Lemma stuck_run b : forall s s' e, in_user_code s -> closed s = 0 -> chk s = NoChk -> closeCh s = false ->
  forallb (fun l => negb (ends_user_code l)) b = true -> run step s b = Some (s', e) ->
  in_user_code s' /\ ~ In EExitReturned e.
Proof.
  induction b as [|l b IH]; intros s s' e Hu Hc Hk Hh Hb H.
  - injection H as <- <-. split; [exact Hu|]. intros [].
  - cbn in Hb. apply andb_true_iff in Hb as [Hl Hb]. apply negb_true_iff in Hl. cbn in H.
    destruct (step s l) as [[u f]|] eqn:Es; [|discriminate].
    destruct (run step u b) as [[u2 f2]|] eqn:Er; [|discriminate]. injection H as <- <-.
    destruct (stuck_step _ _ _ _ Hu Hc Hk Hh Hl Es) as (A & B & C & D & E).
    destruct (IH _ _ _ A B C D Hb Er) as [F G]. split; [exact F|].
    intros Hin. apply in_app_or in Hin. tauto.
Qed.

Lemma self_exit_hangs a s1 e1 b s2 e2 : run step init a = Some (s1, e1) -> exits a = 0 -> in_user_code s1 ->
  run step s1 (LExit :: b) = Some (s2, e2) -> forallb (fun l => negb (ends_user_code l)) b = true ->
  in_user_code s2 /\ ~ In EExitReturned e2.
Proof.
  intros Ha He Hu Hr Hb. destruct (k_run _ _ _ _ Ha) as (HP & HS & HC).
  assert (Hcr : crashed s1 = false) by (destruct (crashed s1); auto; specialize (HC eq_refl); lia).
  specialize (HS Hcr). rewrite He in HS. cbn in HS.
  assert (closed s1 = 0 /\ chk s1 = NoChk /\ closeCh s1 = false) as (P1 & P2 & P3).
  { destruct HP as [?|[(_ & _ & _ & _ & ?)|(_ & _ & _ & ?)]]; [auto|congruence|congruence]. }
  eapply stuck_run with (b := LExit :: b); eauto.
Qed.

(** ** Exit from outside can always return *)
Definition far (s : state) : nat :=
  match at_ s with
  | Select | Stopped => 0
  | TimerGot _ => 2 | TimerRun _ => 1
  | Handle _ => 2 | HandleDone _ => 1 | Action _ => 1
  | InPop => match cons (q s) with CPopped _ => 4 | CAdded _ _ => 3 | _ => 5 end
  | InRPop => match cons (rq s) with CPopped _ => 3 | CAdded _ _ => 2 | _ => 4 end
  end.
(** Steps of the loop itself, including the return of user code. *)
Definition loop_label (l : label) : bool :=
  match l with
  | LTimerRecv | LTimerCheck | LTimerEnd | LQ _ | LHandled _ | LDone | LR _ | LActionEnd
  | LShutdown | LCloseRecv => true
  | _ => false
  end.
Definition same_phase (s s' : state) : Prop :=
  closed s' = closed s /\ chk s' = chk s /\ closeCh s' = closeCh s /\ shutdownCh s' = shutdownCh s /\
  exiting s' = exiting s /\ crashed s' = false.

Lemma pop_progress {V} (qs : list (MpscModel.label V)) s e : run MpscModel.step MpscModel.init qs = Some (s, e) ->
  cons s <> CIdle ->
  exists l s' f, is_pop l = true /\ MpscModel.step s l = Some (s', f) /\
    ((cons s = CGot /\ f = [EPop None]) \/ (cons s = CGot /\ f = [] /\ exists v, cons s' = CPopped v) \/
     (exists v, cons s = CPopped v /\ f = [] /\ exists c w, cons s' = CAdded c w) \/
     (exists c v, cons s = CAdded c v /\ f = [EPop (Some v)])).
Proof.
  intros H Hc. destruct (cons s) as [| |v|c v] eqn:Ec; [congruence| | |].
  - destruct (pop_enabled _ _ _ H) as (s' & f & Hs); [unfold no_pop_in_progress; now rewrite Ec|].
    exists LPop, s', f. split; [reflexivity|]. split; [exact Hs|]. cbn in Hs. rewrite Ec in Hs.
    destruct (nth_error (heap s) (tail s)) as [tl|]; [|discriminate]. destruct (next tl) as [n|].
    + destruct (nth_error (heap s) n) as [nd|]; [|discriminate]. destruct (val nd) as [w|]; [|discriminate].
      injection Hs as <- <-. right. left. cbn. eauto.
    + injection Hs as <- <-. auto.
  - exists LDec. do 2 eexists. split; [reflexivity|]. cbn. rewrite Ec. split; [reflexivity|]. right. right. left.
    exists v. cbn. eauto.
  - exists LCSend. do 2 eexists. split; [reflexivity|]. cbn. rewrite Ec. split; [reflexivity|]. right. right. right.
    eauto.
Qed.

Lemma far_step sched s evs : run step init sched = Some (s, evs) -> crashed s = false -> far s <> 0 ->
  exists l s' e, loop_label l = true /\ step s l = Some (s', e) /\ far s' < far s /\ same_phase s s' /\
    (at_ s' = Stopped -> False).
Proof.
  intros H Hcr Hf. pose proof (inv_run _ _ _ _ H) as HI. pose proof (rinv_run _ _ _ H) as HR.
  unfold far in Hf. unfold same_phase. destruct (at_ s) as [|t|t| |m|m| |r|] eqn:Ea; try congruence.
  - exists LTimerCheck. unfold ActorModel.step. rewrite Hcr, Ea.
    destruct (closed s) eqn:Ec; do 2 eexists; (split; [reflexivity|]); (split; [reflexivity|]); unfold far; cbn; rewrite Ea;
      (split; [lia|]); rewrite ?Ec; repeat split; auto; discriminate.
  - exists LTimerEnd. unfold ActorModel.step. rewrite Hcr, Ea.
    do 2 eexists; (split; [reflexivity|]); (split; [reflexivity|]); unfold far; cbn; rewrite Ea;
      (split; [lia|]); repeat split; auto; discriminate.
  - assert (Hc : cons (q s) <> CIdle) by (destruct (a_pc _ _ HI) as [[_ ?]|[? _]]; congruence).
    destruct (a_q _ _ HI) as (qs & qe & Q1 & _).
    destruct (pop_progress _ _ _ Q1 Hc) as (l & q' & f & L1 & L2 & L3).
    exists (LQ l). unfold ActorModel.step. rewrite Hcr, Ea, L1, L2.
    destruct L3 as [[A ->]|[(A & -> & v & B)|[(v & A & -> & c & w & B)|(c & v & A & ->)]]].
    4: destruct (registered (mev (snd v))).
    all: do 2 eexists; (split; [reflexivity|]); (split; [reflexivity|]); unfold far; cbn; rewrite ?Ea, ?A, ?B;
      (split; [lia|]); repeat split; auto; discriminate.
  - exists (LHandled OK). unfold ActorModel.step. rewrite Hcr, Ea.
    do 2 eexists; (split; [reflexivity|]); (split; [reflexivity|]); unfold far; cbn; rewrite Ea;
      (split; [lia|]); repeat split; auto; discriminate.
  - exists LDone. unfold ActorModel.step. rewrite Hcr, Ea.
    assert (El : (wg s (mwg (snd m)) <=? 0)%Z = false) by (apply Z.leb_gt; eapply wg_positive; eauto). rewrite El.
    do 2 eexists; (split; [reflexivity|]); (split; [reflexivity|]); unfold far; cbn; rewrite Ea;
      (split; [lia|]); repeat split; auto; discriminate.
  - destruct HR as ((qs & qe & Q1 & _) & D & _).
    assert (Hc : cons (rq s) <> CIdle) by (destruct D as [[_ ?]|[? _]]; congruence).
    destruct (pop_progress _ _ _ Q1 Hc) as (l & q' & f & L1 & L2 & L3).
    exists (LR l). unfold ActorModel.step. rewrite Hcr, Ea, L1, L2.
    destruct L3 as [[A ->]|[(A & -> & v & B)|[(v & A & -> & c & w & B)|(c & v & A & ->)]]].
    all: do 2 eexists; (split; [reflexivity|]); (split; [reflexivity|]); unfold far; cbn; rewrite ?Ea, ?A, ?B;
      (split; [lia|]); repeat split; auto; discriminate.
  - exists LActionEnd. unfold ActorModel.step. rewrite Hcr, Ea.
    do 2 eexists; (split; [reflexivity|]); (split; [reflexivity|]); unfold far; cbn; rewrite Ea;
      (split; [lia|]); repeat split; auto; discriminate.
Qed.

Lemma to_select n : forall sched s evs, run step init sched = Some (s, evs) -> crashed s = false -> far s <= n ->
  exists ls s' e, forallb loop_label ls = true /\ run step s ls = Some (s', e) /\ same_phase s s' /\
    (at_ s' = Select \/ at_ s' = Stopped).
Proof.
  induction n as [|n IH]; intros sched s evs H Hcr Hn.
  - exists [], s, []. unfold same_phase. repeat split; auto. unfold far in Hn.
    destruct (at_ s); auto; try lia; [destruct (cons (q s))|destruct (cons (rq s))]; lia.
  - destruct (Nat.eq_dec (far s) 0) as [E|E].
    + eapply IH; eauto. lia.
    + destruct (far_step _ _ _ H Hcr E) as (l & s1 & e1 & L & S1 & F & SP & _).
      pose proof (run_app _ _ _ _ _ _ _ _ H (run_one step s l s1 e1 S1)) as H1.
      assert (Hc1 : crashed s1 = false) by apply SP.
      destruct (IH _ _ _ H1 Hc1 ltac:(lia)) as (ls & s2 & e2 & L2 & R2 & SP2 & A2).
      exists (l :: ls), s2, (e1 ++ e2). cbn. rewrite L, L2, S1, R2. split; [reflexivity|]. split; [reflexivity|].
      split; [|exact A2]. unfold same_phase in *. intuition congruence.
Qed.

(** Steps of the loop, of checkClose and of the waiting Exit. *)
Definition closing_label (l : label) : bool :=
  loop_label l ||
  match l with LChkQ | LChkR | LChkTick | LChkTimeout | LChkClose | LExitReturn => true | _ => false end.

Lemma empty_some {V} (qs : list (MpscModel.label V)) s e : run MpscModel.step MpscModel.init qs = Some (s, e) ->
  exists b, Empty s = Some b.
Proof.
  intros H. apply inv_reach in H. destruct H. unfold Empty.
  destruct (nth_error (heap s) (tail s)) eqn:E; [eauto|]. apply nth_error_None in E. lia.
Qed.

Lemma from_close s n : crashed s = false -> exiting s = S n -> chk s = ChkClose -> closed s = 1 -> closeCh s = false ->
  exists s' e, run step s [LChkClose; LExitReturn] = Some (s', e) /\ In EExitReturned e.
Proof.
  intros Hcr He Hk Hc Hh. cbn [run]. unfold ActorModel.step at 1. rewrite Hcr, Hk, Hc, Hh. cbn.
  unfold ActorModel.step. cbn. rewrite Hcr, He. do 2 eexists. split; [reflexivity|]. now left.
Qed.
Lemma from_wait s n : crashed s = false -> exiting s = S n -> chk s = ChkWait -> closed s = 1 -> closeCh s = false ->
  exists s' e, run step s [LChkTimeout; LChkClose; LExitReturn] = Some (s', e) /\ In EExitReturned e.
Proof.
  intros Hcr He Hk Hc Hh. cbn [run]. unfold ActorModel.step at 1. rewrite Hcr, Hk.
  unfold ActorModel.step at 1. cbn. rewrite Hcr, Hc, Hh. cbn.
  unfold ActorModel.step. cbn. rewrite Hcr, He. do 2 eexists. split; [reflexivity|]. now left.
Qed.
Lemma run_cons_intro s l s1 e1 ls s2 e2 : step s l = Some (s1, e1) -> run step s1 ls = Some (s2, e2) ->
  run step s (l :: ls) = Some (s2, e1 ++ e2).
Proof. intros H1 H2. cbn. now rewrite H1, H2. Qed.

Lemma phase1_returns sched s evs n : run step init sched = Some (s, evs) -> crashed s = false ->
  exiting s = S n -> closed s = 1 ->
  exists ls s' e, forallb closing_label ls = true /\ run step s ls = Some (s', e) /\ In EExitReturned e.
Proof.
  intros H Hcr He Hc. destruct (k_run _ _ _ _ H) as (HP & _).
  destruct HP as [(X & _)|[(_ & K1 & K2 & Hh & _)|(X & _)]]; try congruence.
  destruct (a_q _ _ (inv_run _ _ _ _ H)) as (qs & qe & Q1 & _).
  destruct (rinv_run _ _ _ H) as ((rs & re & R1 & _) & _).
  destruct (empty_some _ _ _ Q1) as [bq Hbq]. destruct (empty_some _ _ _ R1) as [br Hbr].
  assert (HchkR : forall u, rq u = rq s -> crashed u = false -> exiting u = S n -> chk u = ChkR -> closed u = 1 -> closeCh u = false ->
    exists ls s' e, forallb closing_label ls = true /\ run step u ls = Some (s', e) /\ In EExitReturned e).
  { intros u U1 U2 U3 U4 U5 U6.
    assert (Hs : step u LChkR = Some (set_chk u (if br then ChkClose else ChkWait), [])).
    { unfold ActorModel.step. rewrite U2, U4, U1, Hbr. reflexivity. }
    destruct br.
    - destruct (from_close (set_chk u ChkClose) n) as (s' & e & A & B); auto.
      eexists (LChkR :: _), s', _. split; [|split; [eapply run_cons_intro; eauto|exact B]]. reflexivity.
    - destruct (from_wait (set_chk u ChkWait) n) as (s' & e & A & B); auto.
      eexists (LChkR :: _), s', _. split; [|split; [eapply run_cons_intro; eauto|exact B]]. reflexivity. }
  destruct (chk s) eqn:Ek; try congruence.
  - assert (Hs : step s LChkQ = Some (set_chk s (if bq then ChkR else ChkWait), [])).
    { unfold ActorModel.step. rewrite Hcr, Ek, Hbq. reflexivity. }
    destruct bq.
    + destruct (HchkR (set_chk s ChkR)) as (ls & s' & e & A & B & C); auto.
      exists (LChkQ :: ls), s', ([] ++ e). split; [cbn; now rewrite A|]. split; [eapply run_cons_intro; eauto|exact C].
    + destruct (from_wait (set_chk s ChkWait) n) as (s' & e & A & B); auto.
      eexists (LChkQ :: _), s', _. split; [|split; [eapply run_cons_intro; eauto|exact B]]. reflexivity.
  - apply HchkR; auto.
  - destruct (from_wait s n) as (s' & e & A & B); auto. eexists _, s', e. split; [|eauto]. reflexivity.
  - destruct (from_close s n) as (s' & e & A & B); auto. eexists _, s', e. split; [|eauto]. reflexivity.
Qed.

Lemma exit_can_return sched s evs : run step init sched = Some (s, evs) -> exits sched = 1 -> exiting s <> 0 ->
  exists ls s' e, forallb closing_label ls = true /\ run step s ls = Some (s', e) /\ In EExitReturned e.
Proof.
  intros H Hx He. destruct (exiting s) as [|n] eqn:En; [congruence|]. clear He.
  pose proof (single_exit_no_crash _ _ _ _ H ltac:(lia)) as Hcr.
  destruct (k_run _ _ _ _ H) as (HP & HS & _). specialize (HS Hcr). rewrite Hx in HS. cbn in HS.
  destruct HP as [(P1 & P2 & P3)|[(P1 & _)|(P1 & P2 & P3 & _)]].
  - destruct (to_select _ _ _ _ H Hcr (Nat.le_refl _)) as (ls & s1 & e1 & L & R & (S1 & S2 & S3 & S4 & S5 & S6) & A).
    pose proof (run_app _ _ _ _ _ _ _ _ H R) as H1.
    assert (A' : at_ s1 = Select).
    { destruct A as [A|A]; [exact A|]. destruct (rinv_run _ _ _ H1) as (_ & _ & Z). specialize (Z A). congruence. }
    assert (Hs : step s1 LShutdown = Some (set_chk (set_closed s1 1) ChkQ, [])).
    { unfold ActorModel.step. rewrite S6, A', S4, HS, S1, P1. reflexivity. }
    pose proof (run_app _ _ _ _ _ _ _ _ H1 (run_one step _ _ _ _ Hs)) as H2.
    destruct (phase1_returns _ _ _ n H2) as (ls2 & s3 & e3 & A2 & B2 & C2); cbn; auto; [congruence|].
    exists (ls ++ LShutdown :: ls2), s3, (e1 ++ ([] ++ e3)). split; [|split].
    + rewrite forallb_app. cbn. rewrite A2, andb_true_r.
      clear -L. induction ls as [|l ls IH]; cbn in *; auto. apply andb_true_iff in L as [L1 L2].
      unfold closing_label. rewrite L1. cbn. auto.
    + eapply run_app; [exact R|]. eapply run_cons_intro; eauto.
    + apply in_or_app. right. exact C2.
  - eapply phase1_returns; eauto.
  - exists [LExitReturn]. do 2 eexists. split; [reflexivity|]. cbn [run]. unfold ActorModel.step.
    rewrite Hcr, En, P3. split; [reflexivity|]. now left.
Qed.
End P.
