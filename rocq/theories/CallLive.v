(** When everything below a root call has been handled, the call can return. *)
From Coq Require Import List String ZArith Bool Lia PeanoNat.
From Verif Require Import Machine CallModel CallSpec CallProofs CallTrace CallMain.
Import ListNotations.
Open Scope string_scope.
Open Scope list_scope.

Section P.
Variable aty : string -> string.
Notation step := (step aty).
Notation run := (Machine.run step).

(** A root call's wrapper has a Done channel; a root call whose goroutine has
    ended has closed one; a call that returned is over. *)
Record Lv (s : state) (evs : list event) : Prop := {
  l_done : forall i t wr, nth_error (threads s) i = Some t -> tgo t <> GNone ->
    nth_error (heap s) (tw t) = Some wr -> wdone wr <> None;
  l_end : forall i t, nth_error (threads s) i = Some t -> tgo t = GEnded ->
    exists ch tc, closedch s ch = true /\ nth_error (threads s) ch = Some tc /\ tw tc = tw t /\ tgo tc <> GNone;
  l_ret : forall i b, In (EReturn i b) evs -> exists t, nth_error (threads s) i = Some t /\ tst t = Ret }.

Lemma lv_init : Lv init [].
Proof. split; cbn; intros; try contradiction; destruct i; discriminate. Qed.

Lemma lv_ret s evs s' e : Lv s evs -> st s s' e ->
  forall i b, In (EReturn i b) (evs ++ e) -> exists t, nth_error (threads s') i = Some t /\ tst t = Ret.
Proof.
  intros HL H i b Hin. apply in_app_or in Hin as [Hin|Hin].
  - destruct (l_ret _ _ HL _ _ Hin) as (t & Ht & Hr).
    destruct (step_threads _ _ _ H _ _ Ht) as (t' & Ht' & _ & _ & _ & Gr & _). eauto.
  - destruct H; cbn in Hin; try contradiction; try (destruct Hin as [E|[]]; discriminate).
    assert (Hi : i0 < List.length (threads s)) by (eapply nth_lt; eauto).
    destruct H1; cbn in Hin; try contradiction; repeat (destruct Hin as [E|Hin]; [try discriminate E|]); try contradiction;
      try (injection E as <- <-; subst s'; cbn; rewrite nth_upd_eq by assumption; eexists; split; reflexivity).
    destruct H2 as [(_ & _ & _ & ->)|(Hg & -> & _ & ->)]; cbn in Hin; repeat (destruct Hin as [E|Hin]; [try discriminate E|]); try contradiction.
    injection E as <- <-; subst s'; cbn; rewrite nth_upd_eq by assumption; eexists; split; reflexivity.
Qed.

Lemma lv_done s evs s' e : Inv s -> Lv s evs -> st s s' e ->
  forall i t wr, nth_error (threads s') i = Some t -> tgo t <> GNone ->
    nth_error (heap s') (tw t) = Some wr -> wdone wr <> None.
Proof.
  intros HI HL H i t' wr' Ht' Hg Hw'. destruct H.
  - cbn in *. apply nth_snoc in Hw' as [Hw'|[E _]]; [eapply l_done; eauto|].
    assert (X := i_th s HI _ _ Ht'). lia.
  - cbn in *. apply nth_snoc in Ht' as [Ht'|[-> ->]]; [|now cbn in Hg].
    rewrite nth_upd in Hw' by (eapply nth_lt; eauto).
    destruct (Nat.eqb_spec w (tw t')) as [E|]; [|eapply l_done; eauto].
    injection Hw' as <-. cbn. rewrite E in H. eapply l_done; eauto.
  - assert (Hi : i0 < List.length (threads s)) by (eapply nth_lt; eauto).
    assert (Hu : forall p g, threads s' = upd (threads s) i0 (set_pc t p g) -> heap s' = heap s ->
      (g <> GNone -> tgo t <> GNone) -> wdone wr' <> None).
    { intros p g E1 E2 E3. rewrite E1, nth_upd in Ht' by assumption. rewrite E2 in Hw'.
      destruct (Nat.eqb_spec i0 i) as [<-|]; [|eapply l_done; eauto].
      injection Ht' as <-. cbn in *. eapply l_done; eauto. }
    destruct H1; subst s'; cbn in *;
      try (eapply Hu; [reflexivity|reflexivity|]; cbn; (tauto || (intros; congruence) || (destruct (tgo t); intros; congruence))).
    + rewrite nth_upd in Hw' by (eapply nth_lt; eauto).
      destruct (Nat.eqb_spec (tw t) (tw t')) as [E|]; [injection Hw' as <-; discriminate|].
      rewrite nth_upd in Ht' by assumption. destruct (Nat.eqb_spec i0 i) as [<-|]; [injection Ht' as <-; cbn in *; congruence|].
      eapply l_done; eauto.
    + destruct H2 as [(E1 & -> & -> & ->)|(E1 & -> & -> & ->)]; eapply Hu; try reflexivity; congruence.
    + eapply l_done; eauto.
  - cbn in *. eapply l_done; eauto.
  - cbn in *. eapply l_done; eauto.
  - cbn in *. eapply l_done; eauto.
Qed.

Lemma lv_end s evs s' e : Ev s evs -> Lv s evs -> st s s' e ->
  forall i t, nth_error (threads s') i = Some t -> tgo t = GEnded ->
    exists ch tc, closedch s' ch = true /\ nth_error (threads s') ch = Some tc /\ tw tc = tw t /\ tgo tc <> GNone.
Proof.
  intros HE HL H i t' Ht' Hg.
  assert (Hcl : forall ch, closedch s ch = true -> closedch s' ch = true).
  { intros ch Hc. destruct H; cbn; auto. destruct H1; subst s'; cbn; auto.
    destruct (Nat.eqb ch ch0); auto. }
  assert (Hold : forall t0, nth_error (threads s) i = Some t0 -> tw t' = tw t0 -> tgo t0 = GEnded ->
    exists ch tc, closedch s' ch = true /\ nth_error (threads s') ch = Some tc /\ tw tc = tw t' /\ tgo tc <> GNone).
  { intros t0 Ht0 Hw Hg0. destruct (l_end _ _ HL _ _ Ht0 Hg0) as (ch & tc & A & B & C & D).
    destruct (step_threads _ _ _ H _ _ B) as (tc' & B' & (_ & C' & _) & _ & D' & _).
    exists ch, tc'. split; [auto|]. split; [assumption|]. split; [congruence|auto]. }
  assert (Hst := H).
  destruct H; try (cbn in Ht'; eapply Hold; eauto; fail).
  - cbn in Ht'. apply nth_snoc in Ht' as [Ht'|[-> ->]]; [eapply Hold; eauto|discriminate].
  - assert (Hi : i0 < List.length (threads s)) by (eapply nth_lt; eauto).
    assert (Hu : forall p g, threads s' = upd (threads s) i0 (set_pc t p g) ->
      (g = GEnded -> tgo t = GEnded) ->
      exists ch tc, closedch s' ch = true /\ nth_error (threads s') ch = Some tc /\ tw tc = tw t' /\ tgo tc <> GNone).
    { intros p g E1 E3. rewrite E1, nth_upd in Ht' by assumption.
      destruct (Nat.eqb_spec i0 i) as [<-|]; [|eapply Hold; eauto].
      injection Ht' as <-. cbn in *. eapply Hold; eauto. }
    destruct H1;
      try (eapply Hu; [subst s'; reflexivity|]; (tauto || (intros; congruence) || (destruct (tgo t); intros; congruence))).
    + destruct H2 as [(E1 & -> & -> & ->)|(E1 & -> & -> & ->)]; eapply Hu; try (subst s'; reflexivity); congruence.
    + assert (E : threads s' = upd (threads s) i0 (set_pc t (tst t) GEnded)) by (subst s'; reflexivity).
      destruct (Nat.eq_dec i i0) as [->|Hne].
      * destruct (e_done s evs HE _ _ _ H0 H2) as (tr & Htr & Hwr & Hgr).
        destruct (step_threads _ _ _ Hst _ _ Htr) as (tc' & B' & (_ & C' & _) & _ & D' & _).
        exists ch, tc'. split; [subst s'; cbn; now rewrite Nat.eqb_refl|]. split; [assumption|].
        rewrite E, nth_upd_eq in Ht' by assumption. injection Ht' as <-. cbn. split; [congruence|auto].
      * rewrite E, nth_upd_neq in Ht' by auto. eapply Hold; eauto.
    + subst s'. cbn in Ht'. eapply Hold; eauto.
Qed.

Lemma lv_run sched s evs : run init sched = Some (s, evs) -> Inv s /\ Ev s evs /\ Lv s evs.
Proof.
  intros H. apply (run_inv step init (fun _ evs s => Inv s /\ Ev s evs /\ Lv s evs)) with (sched := sched) (evs := evs); auto.
  - split; [apply inv_init|]. split; [apply ev_init|apply lv_init].
  - clear. intros sched0 evs0 s0 l s1 e _ (HI & HE & HL) Hs. apply step_st in Hs.
    split; [eapply inv_step; eauto|]. split; [eapply ev_step; eauto|].
    split; [eapply lv_done; eauto|eapply lv_end; eauto|eapply lv_ret; eauto].
Qed.

(** The only root call of a context. *)
Lemma one_root s evs i g : Ev s evs -> sole_root evs g i -> uses evs i g ->
  forall q tq ti, nth_error (threads s) q = Some tq -> nth_error (threads s) i = Some ti -> tw tq = tw ti -> tgo tq <> GNone -> q = i.
Proof.
  intros HE Hsole Hui q tq ti Hq Hi Hw Hg. destruct (Nat.eq_dec q i) as [|Hne]; [assumption|]. exfalso.
  assert (Huq : uses evs q g).
  { apply (ing_uses s); auto. assert (X := uses_ing _ _ _ _ HE Hui). unfold ing in *. rewrite Hi in X. rewrite Hq, Hw. exact X. }
  destruct (Hsole q Huq Hne) as (k & Hm & Huk). apply Hg. exact (e_nest s evs HE q k g tq Hm Huk Huq Hq).
Qed.

Lemma run_cons' s l s1 e1 ls s2 e2 : step s l = Some (s1, e1) -> run s1 ls = Some (s2, e2) -> run s (l :: ls) = Some (s2, e1 ++ e2).
Proof. intros H1 H2. cbn [Machine.run]. rewrite H1, H2. reflexivity. Qed.

(** From any place of the goroutine on, the root call can return nil. *)
Section Finish.
Variables (i : nat) (g : nat).
Definition can (s : state) : Prop := exists ls s' e, forallb (root_label i) ls = true /\ run s ls = Some (s', e) /\ In (EReturn i true) e.
Lemma can_step s l s1 e1 : root_label i l = true -> step s l = Some (s1, e1) -> can s1 -> can s.
Proof.
  intros Hl Hs (ls & s2 & e2 & A & B & C). exists (l :: ls), s2, (e1 ++ e2). split; [cbn; now rewrite Hl, A|].
  split; [eapply run_cons'; eauto|]. apply in_or_app. auto.
Qed.
Lemma can_return s t wr : crashed s = false -> nth_error (threads s) i = Some t -> nth_error (heap s) (tw t) = Some wr ->
  tst t = Waiting i -> closedch s i = true -> can s.
Proof.
  intros Hc Ht Hw Hp Hcl. exists [LReturn i]. do 2 eexists. split; [cbn; now rewrite Nat.eqb_refl|].
  split; [cbn [Machine.run]; unfold CallModel.step; rewrite Hc, (on_call_do _ _ _ _ _ Ht Hw); cbn; rewrite Hp, Hcl; reflexivity|].
  left. reflexivity.
Qed.
Lemma can_close s t wr : crashed s = false -> nth_error (threads s) i = Some t -> nth_error (heap s) (tw t) = Some wr ->
  tst t = Waiting i -> wdone wr = Some i -> (tgo t = GEnded -> closedch s i = true) ->
  (closedch s i = true -> tgo t = GEnded) -> (tgo t = GSelect -> wgs s (wgroup wr) = 0%Z) ->
  tgo t = GSelect \/ tgo t = GClosing \/ tgo t = GEnded -> can s.
Proof.
  intros Hc Ht Hw Hp Hd Hce Hcl Hz Hg. assert (Hi := nth_lt _ _ _ Ht).
  destruct (closedch s i) eqn:Hci; [eapply can_return; eauto|].
  assert (Hclo : forall s t, crashed s = false -> nth_error (threads s) i = Some t -> nth_error (heap s) (tw t) = Some wr ->
     tst t = Waiting i -> closedch s i = false -> tgo t = GClosing -> can s).
  { clear - Hd. intros s t Hc Ht Hw Hp Hci Hg. assert (Hi := nth_lt _ _ _ Ht).
    eapply can_step with (l := LCloseDone i); [cbn; apply Nat.eqb_refl| |].
    - unfold CallModel.step; rewrite Hc, (on_call_do _ _ _ _ _ Ht Hw); cbn. rewrite Hg, Hd, Hci. reflexivity.
    - eapply (can_return _ (set_pc t (tst t) GEnded) wr); cbn; auto; [now apply nth_upd_eq|now rewrite Nat.eqb_refl]. }
  destruct Hg as [Hg|[Hg|Hg]].
  - eapply can_step with (l := LWake i false); [cbn; apply Nat.eqb_refl| |].
    + unfold CallModel.step; rewrite Hc, (on_call_do _ _ _ _ _ Ht Hw); cbn. rewrite Hg, (Hz Hg). cbn. reflexivity.
    + eapply (Hclo _ (set_pc t (tst t) GClosing)); cbn; auto. now apply nth_upd_eq.
  - eapply Hclo; eauto.
  - specialize (Hce Hg). congruence.
Qed.
End Finish.

(** What is in a mailbox or being handled has been sent. *)
Lemma held_sent sched s evs : run init sched = Some (s, evs) ->
  (forall a n w, In (n, w) (box s a) -> In (ESent n) evs) /\ (forall a n w, cur s a = Some (n, w) -> In (ESent n) evs).
Proof.
  intros H. apply (run_inv step init (fun _ evs s => (forall a n w, In (n, w) (box s a) -> In (ESent n) evs) /\
    (forall a n w, cur s a = Some (n, w) -> In (ESent n) evs))) with (sched := sched) (evs := evs); auto.
  - cbn. split; intros; [contradiction|discriminate].
  - clear. intros sched0 evs0 s0 l s1 e _ [I1 I2] Hs. apply step_st in Hs.
    assert (J1 : forall a n w, In (n, w) (box s0 a) -> In (ESent n) (evs0 ++ e)) by (intros; apply in_or_app; eauto).
    assert (J2 : forall a n w, cur s0 a = Some (n, w) -> In (ESent n) (evs0 ++ e)) by (intros; apply in_or_app; eauto).
    destruct Hs; cbn; auto.
    + destruct H1; subst s'; cbn; auto. split; [|auto]. intros a n w Hin. unfold upd_f in Hin.
      destruct (a =? tto t); [|eauto]. apply in_app_or in Hin as [Hin|[E|[]]]; [eauto|]. injection E as <- <-.
      apply in_or_app. right. destruct H2 as [(_ & _ & _ & ->)|(_ & _ & _ & ->)]; left; reflexivity.
    + split; intros a0 n0 w0; unfold upd_f; destruct (String.eqb_spec a0 a) as [->|]; eauto.
      * intros Hin. apply (J1 a n0 w0). rewrite H0. right. exact Hin.
      * intros E. injection E as <- <-. apply (J1 a n w). rewrite H0. left. reflexivity.
    + split; [auto|]. intros a0 n0 w0; unfold upd_f; destruct (String.eqb_spec a0 a) as [->|]; [discriminate|eauto].
Qed.
Lemma box_sent sched s evs : run init sched = Some (s, evs) -> forall j t, nth_error (threads s) j = Some t ->
  (In j (map fst (box s (tto t))) \/ exists w, cur s (tto t) = Some (j, w)) -> In (ESent j) evs.
Proof.
  intros H j t Ht [Hm|[w Hc]]; destruct (held_sent _ _ _ H) as [A B]; [|eauto].
  apply in_map_iff in Hm as ([n w] & E & Hin). cbn in E. subst n. eauto.
Qed.

Lemma root_returns sched s evs i g par w to_ ev org : run init sched = Some (s, evs) -> crashed s = false ->
  In (ECall i None par w g to_ ev org) evs -> In (ESent i) evs -> (forall ok, ~ In (EReturn i ok) evs) -> sole_root evs g i ->
  (forall j, uses evs j g -> j <> i -> exists ok, In (EReturn j ok) evs) ->
  (forall j, uses evs j g -> In (ESent j) evs -> handled evs j) ->
  exists ls s' e, forallb (root_label i) ls = true /\ run s ls = Some (s', e) /\ In (EReturn i true) e.
Proof.
  intros H Hc Hcall Hsent Hnr Hsole Hret Hhand. destruct (lv_run _ _ _ H) as (HI & HE & HL).
  assert (Hui : uses evs i g) by (do 6 eexists; eauto).
  destruct (e_call s evs HE _ _ _ _ _ _ _ _ Hcall) as (t & wr & Ht & Hby & Htw & _ & _ & Hw & Hwg & _).
  assert (Hw' : nth_error (heap s) (tw t) = Some wr) by (rewrite Htw; exact Hw).
  destruct (e_sent s evs HE _ Hsent) as (_ & t2 & Ht2 & Hlate). assert (t2 = t) by congruence. subst t2. clear Ht2.
  assert (Hpst : tst t = Pushed \/ exists ch, tst t = Waiting ch).
  { unfold late in Hlate. destruct (tst t) eqn:E; try contradiction; eauto.
    destruct (ret_event aty _ _ _ H _ _ Ht E) as [b Hb]. exfalso. eapply Hnr; eauto. }
  assert (Hgn : tgo t <> GNone) by (eapply pw_run; eauto).
  assert (Hgo := i_go s HI _ _ Ht).
  assert (Hg3 : tgo t = GSelect \/ tgo t = GClosing \/ tgo t = GEnded).
  { unfold late in Hlate. destruct (tgo t); auto; [congruence|]. destruct Hgo as [E|E]; rewrite E in Hlate; contradiction. }
  assert (Hz : wgs s (wgroup wr) = 0%Z).
  { destruct (Z.eq_dec (wgs s (wgroup wr)) 0) as [|Hne]; [assumption|]. exfalso. rewrite Hwg in Hne.
    destruct (wg_some _ _ _ HI HE Hne) as (j & Ho & Huj).
    destruct (out_inv _ _ Ho) as (tj & Htj & _).
    assert (Hnh : ~ handled evs j) by (intros Hh; destruct (e_hand s evs HE _ Hh) as (X & _); congruence).
    destruct (Nat.eq_dec j i) as [->|Hji]; [apply Hnh, Hhand; assumption|].
    destruct (Hret _ Huj Hji) as [b Hb]. destruct (l_ret _ _ HL _ _ Hb) as (tj' & Htj' & Hr).
    assert (tj' = tj) by congruence. subst tj'.
    destruct (out_inv _ _ Ho) as (tj2 & Htj2 & [Ha|Hm]); [congruence|]. assert (tj2 = tj) by congruence. subst tj2.
    apply Hnh, Hhand; [assumption|].
    exact (box_sent _ _ _ H j tj Htj Hm). }
  destruct (wdone wr) as [r|] eqn:Hd; [|exfalso; eapply (l_done _ _ HL); eauto].
  assert (Hroot := one_root s evs i g HE Hsole Hui).
  assert (r = i).
  { destruct (e_done s evs HE _ _ _ Hw Hd) as (tr & Htr & Hwr & Hgr). eapply Hroot; eauto. congruence. }
  subst r.
  assert (Hce : tgo t = GEnded -> closedch s i = true).
  { intros E. destruct (l_end _ _ HL _ _ Ht E) as (ch & tc & A & B & C & D). rewrite <- (Hroot _ _ _ B Ht C D). exact A. }
  assert (Hec : closedch s i = true -> tgo t = GEnded).
  { intros E. destruct (e_clos s evs HE _ E) as (tr & q & tq & b & Htr & Hgr & Htq & Hwq & Hgq & _).
    assert (tr = t) by congruence. subst tr.
    assert (q = i) by (eapply Hroot; eauto; congruence). subst q. congruence. }
  destruct Hpst as [Hp|[ch Hp]].
  - apply can_step with (l := LSelect i) (s1 := with_threads s (upd (threads s) i (set_pc t (Waiting i) (tgo t)))) (e1 := []).
    + cbn. apply Nat.eqb_refl.
    + unfold CallModel.step. rewrite Hc, (on_call_do _ _ _ _ _ Ht Hw'). cbn. rewrite Hp, Hd. reflexivity.
    + eapply (can_close i _ (set_pc t (Waiting i) (tgo t)) wr); cbn; auto. apply nth_upd_eq. eapply nth_lt; eauto.
  - assert (ch = i) as ->.
    { destruct (e_wait s evs HE _ _ _ Ht Hp) as (tr & Htr & Hwr & Hgr). eapply Hroot; eauto. }
    eapply (can_close i s t wr); eauto.
Qed.
End P.
