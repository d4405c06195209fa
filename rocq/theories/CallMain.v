(** The theorems about calls, from the invariants. *)
From Coq Require Import List String ZArith Bool Lia PeanoNat.
From Verif Require Import Machine CallModel CallSpec CallProofs CallTrace.
Import ListNotations.
Open Scope string_scope.
Open Scope list_scope.

Section P.
Variable aty : string -> string.
Notation step := (step aty).
Notation run := (Machine.run step).

(** Once the goroutine of call [i] has seen the wait group at zero, everything
    below [i] is over. *)
Definition Wk (s : state) (evs : list event) : Prop :=
  forall i g, In (EWake i false) evs -> uses evs i g -> forall j, in_tree evs g i j ->
    out s j = false /\ exists t, nth_error (threads s) j = Some t /\ late t /\ (j = i \/ tst t = Ret).

Lemma tree_uses evs g i j : in_tree evs g i j -> uses evs j g.
Proof. intros H; destruct H; assumption. Qed.

Lemma tree_app evs e g i j : in_tree evs g i j -> in_tree (evs ++ e) g i j.
Proof.
  intros H; induction H; [apply tree_root; now apply uses_app|].
  eapply tree_call; eauto using made_app, uses_app.
Qed.

Lemma tree_back s evs s' e g i : Inv s -> Ev s evs -> Wk s evs -> st s s' e -> In (EWake i false) evs ->
  forall j, in_tree (evs ++ e) g i j -> in_tree evs g i j.
Proof.
  intros HI HE HW H Hw j Hj. destruct (e_wake s evs HE _ _ Hw) as (t & Ht & _).
  assert (Hi : i < List.length (threads s)) by (eapply nth_lt; eauto).
  induction Hj as [Hu|j k Hk IH Hm Hu].
  - apply tree_root. eapply uses_old; eauto.
  - assert (Hx : j < List.length (threads s)).
    { destruct Hm as (a & b & c & d & f & h & Hin). apply in_app_or in Hin as [Hin|Hin]; [eapply fresh_unused; eauto|].
      exfalso. apply (st_call_ev _ _ _ _ H) in Hin as (_ & _ & _ & _ & _ & Hb). destruct a as [a|]; [|discriminate].
      destruct Hb as (_ & n & w' & Hc & E). injection E as <-.
      assert (Hui : uses evs i g) by (clear - IH; induction IH; auto).
      destruct (HW i g Hw Hui _ IH) as [Ho _].
      rewrite (out_cur s a k w' HI Hc) in Ho. discriminate. }
    eapply tree_call; eauto using uses_old, made_old.
Qed.

Lemma wk_step s evs s' e : Inv s -> Ev s evs -> Wk s evs -> st s s' e -> Wk s' (evs ++ e).
Proof.
  intros HI HE HW H i g Hin Hu j Hj. apply in_app_or in Hin as [Hin|Hin].
  - assert (Hj0 := tree_back _ _ _ _ _ _ HI HE HW H Hin j Hj).
    assert (Hui : uses evs i g) by (clear - Hj0; induction Hj0; auto).
    destruct (HW i g Hin Hui j Hj0) as (Ho & t & Ht & Hl & Hr).
    destruct (step_threads _ _ _ H _ _ Ht) as (t' & Ht' & _ & Gl & _ & Gr & _).
    split; [exact (late_out s s' e j t HI H Ht Hl Ho)|]. exists t'. intuition.
  - destruct (st_wake _ _ _ _ _ H Hin) as (t & wr & Ht & Hg & Hw & Hz & Es & Ee). subst s' e.
    assert (Hold : forall j, in_tree (evs ++ [EWake i false]) g i j -> in_tree evs g i j).
    { assert (X : forall a b, uses (evs ++ [EWake i false]) a b -> uses evs a b).
      { intros a b (x1 & x2 & x3 & x4 & x5 & x6 & Hx). apply in_app_or in Hx as [Hx|[Hx|[]]]; [do 6 eexists; eauto|discriminate]. }
      assert (Y : forall a b, made_by (evs ++ [EWake i false]) a b -> made_by evs a b).
      { intros a b (x1 & x2 & x3 & x4 & x5 & x6 & Hx). apply in_app_or in Hx as [Hx|[Hx|[]]]; [do 6 eexists; eauto|discriminate]. }
      intros x Hx; induction Hx; [apply tree_root; auto|eapply tree_call; eauto]. }
    apply Hold in Hj. assert (Hui : uses evs i g) by (clear - Hj; induction Hj; auto).
    assert (Eg : wgroup wr = g).
    { assert (E := uses_ing _ _ _ _ HE Hui). unfold ing in E. rewrite Ht, Hw in E. now apply Nat.eqb_eq in E. }
    specialize (Hz eq_refl). rewrite Eg in Hz.
    assert (Hno : forall x, uses evs x g -> out s x = false).
    { intros x Hx. apply not_true_iff_false. intros Ho. exact (wg_pos s evs x g HI HE Ho Hx Hz). }
    assert (Hll : late t) by (assert (X := i_go s HI _ _ Ht); rewrite Hg in X; exact X).
    assert (Hi : i < List.length (threads s)) by (eapply nth_lt; eauto).
    assert (Hju := tree_uses _ _ _ _ Hj).
    assert (Htj : exists tj, nth_error (threads s) j = Some tj /\ late tj /\ (j = i \/ tst tj = Ret)).
    { destruct Hj as [|j k Hk Hm Hjg]; [exists t; auto|].
      destruct Hm as (x1 & x2 & x3 & x4 & x5 & x6 & Hx). destruct (e_call s evs HE _ _ _ _ _ _ _ _ Hx) as (tj & _ & Htj & _).
      exists tj. split; [assumption|].
      assert (Hr : tst tj = Ret).
      { assert (Hm : made_by evs j k) by (do 6 eexists; eauto).
        destruct (tst tj) eqn:E; try reflexivity; exfalso;
          (assert (Z := active_parent s evs j k tj HI HE Hm Htj ltac:(congruence));
           rewrite (Hno k (tree_uses _ _ _ _ Hk)) in Z; discriminate). }
      split; [unfold late; rewrite Hr; exact I|auto]. }
    destruct Htj as (tj & Htj & Hlj & Hrj). cbn.
    destruct (step_threads _ _ _ H _ _ Htj) as (tj' & Htj' & _ & Gl & _ & Gr & _).
    split; [|exists tj'; intuition].
    exact (late_out s _ _ j tj HI H Htj Hlj (Hno j Hju)).
Qed.

Lemma all_run sched s evs : run init sched = Some (s, evs) -> Inv s /\ Ev s evs /\ Wk s evs.
Proof.
  intros H. apply (run_inv step init (fun _ evs s => Inv s /\ Ev s evs /\ Wk s evs)) with (sched := sched) (evs := evs); auto.
  - split; [apply inv_init|]. split; [apply ev_init|]. intros i g [].
  - intros sched0 evs0 s0 l s1 e _ (HI & HE & HW) Hs. apply step_st in Hs.
    split; [eapply inv_step; eauto|]. split; [eapply ev_step; eauto|eapply wk_step; eauto].
Qed.

(** After that nothing is added below [i]. *)
Lemma quiet_run i g : forall sched2 s1 evs1 s e2, Inv s1 -> Ev s1 evs1 -> Wk s1 evs1 -> run s1 sched2 = Some (s, e2) ->
  In (EWake i false) evs1 -> forall j, in_tree (evs1 ++ e2) g i j ->
  in_tree evs1 g i j /\ (In (ESent j) (evs1 ++ e2) -> In (ESent j) evs1).
Proof.
  induction sched2 as [|l r IH]; intros s1 evs1 s e2 HI HE HW H Hw j Hj; cbn in H.
  - injection H as <- <-. rewrite app_nil_r in *. auto.
  - destruct (CallModel.step aty s1 l) as [[s2 e]|] eqn:Hs; [|discriminate].
    destruct (run s2 r) as [[s3 e3]|] eqn:Hr; [|discriminate]. injection H as <- <-.
    apply step_st in Hs. rewrite app_assoc in *.
    destruct (IH s2 (evs1 ++ e) s3 e3) with (j := j) as (Hj1 & Hs1); auto.
    + eapply inv_step; eauto.
    + eapply ev_step; eauto.
    + eapply wk_step; eauto.
    + apply in_or_app. auto.
    + assert (Hj0 := tree_back _ _ _ _ _ _ HI HE HW Hs Hw j Hj1). split; [assumption|].
      intros Hx. apply Hs1 in Hx. apply in_app_or in Hx as [Hx|Hx]; [assumption|]. exfalso.
      assert (Hui : uses evs1 i g) by (clear - Hj0; induction Hj0; auto).
      destruct (HW i g Hw Hui j Hj0) as (_ & t & Ht & Hl & _).
      destruct (st_sent _ _ _ _ Hs Hx) as (t2 & Ht2 & Ha & _). assert (t2 = t) by congruence. subst t2.
      unfold late in Hl. rewrite Ha in Hl. exact Hl.
Qed.

Lemma restrict_uses s1 evs1 s evs i g t : Ev s1 evs1 -> Ev s evs -> (forall x, In x evs1 -> In x evs) ->
  uses evs i g -> nth_error (threads s1) i = Some t -> uses evs1 i g.
Proof.
  intros H1 H2 Hs (a & b & c & d & f & h & H) Ht. destruct (e_called s1 evs1 H1 _ _ Ht) as (p & g' & o & Hin).
  assert (E := e_uniq s evs H2 _ _ _ _ _ _ _ _ _ _ _ _ _ _ _ H (Hs _ Hin)). injection E as -> -> -> -> -> -> ->.
  do 6 eexists; eauto.
Qed.
Lemma restrict_made s1 evs1 s evs i g t : Ev s1 evs1 -> Ev s evs -> (forall x, In x evs1 -> In x evs) ->
  made_by evs i g -> nth_error (threads s1) i = Some t -> made_by evs1 i g.
Proof.
  intros H1 H2 Hs (a & b & c & d & f & h & H) Ht. destruct (e_called s1 evs1 H1 _ _ Ht) as (p & g' & o & Hin).
  assert (E := e_uniq s evs H2 _ _ _ _ _ _ _ _ _ _ _ _ _ _ _ H (Hs _ Hin)). injection E as -> <- -> -> -> -> ->.
  do 6 eexists; eauto.
Qed.

Lemma st_return s s' e i : st s s' e -> In (EReturn i true) e ->
  exists t, nth_error (threads s) i = Some t /\
   (tst t = Added /\ tgo t <> GBlocked /\ e = [ESent i; EReturn i true] \/
    e = [EReturn i true] /\ exists ch, tst t = Waiting ch /\ closedch s ch = true).
Proof.
  intros H Hin. destruct H; cbn in Hin; try contradiction; try (destruct Hin as [E|[]]; discriminate).
  destruct H1; cbn in Hin; try contradiction; repeat (destruct Hin as [E|Hin]; [try discriminate E|]); try contradiction.
  - destruct H2 as [(_ & _ & _ & ->)|(Hg & _ & _ & ->)]; cbn in Hin.
    + destruct Hin as [E|[]]; discriminate.
    + destruct Hin as [E|[E|[]]]; [discriminate|]. injection E as <-. exists t. auto.
  - injection E as <-. exists t. split; [assumption|]. right. split; [reflexivity|]. eauto.
Qed.

Lemma run_split_event (x : event) : forall sched s0 s evs pre post, run s0 sched = Some (s, evs) -> evs = pre ++ x :: post ->
  exists sched1 l sched2 s1 evs1 s2 e e2 p q, sched = sched1 ++ l :: sched2 /\
    run s0 sched1 = Some (s1, evs1) /\ step s1 l = Some (s2, e) /\ run s2 sched2 = Some (s, e2) /\
    e = p ++ x :: q /\ pre = evs1 ++ p /\ post = q ++ e2.
Proof.
  induction sched as [|l r IH]; intros s0 s evs pre post H E; cbn in H.
  - injection H as <- <-. destruct pre; discriminate.
  - destruct (step s0 l) as [[s2 e]|] eqn:Hs; [|discriminate].
    destruct (run s2 r) as [[s3 e3]|] eqn:Hr; [|discriminate]. injection H as <- <-.
    assert (Hc : (exists q, e = pre ++ x :: q /\ post = q ++ e3) \/ exists p', pre = e ++ p' /\ e3 = p' ++ x :: post).
    { clear - E. revert pre E. induction e as [|y e IHe]; intros pre E; cbn in E.
      - right. exists pre. auto.
      - destruct pre as [|z pre]; cbn in E; injection E as -> E.
        + left. exists e. auto.
        + destruct (IHe _ E) as [(q & -> & ->)|(p' & -> & ->)]; [left; exists q; auto|right; exists p'; auto]. }
    destruct Hc as [(q & E1 & E2)|(p' & E1 & E2)].
    + exists [], l, r, s0, [], s2, e, e3, pre, q. repeat split; auto.
    + destruct (IH _ _ _ _ _ Hr E2) as (sc1 & l1 & sc2 & s1 & ev1 & s2' & e' & e2 & p & q & -> & R1 & R2 & R3 & R4 & R5 & R6).
      exists (l :: sc1), l1, sc2, s1, (e ++ ev1), s2', e', e2, p, q. repeat split; auto.
      * cbn. rewrite Hs, R1. reflexivity.
      * rewrite E1, R5. now rewrite app_assoc.
Qed.

Lemma go_added s i t : Inv s -> nth_error (threads s) i = Some t -> tst t = Added -> tgo t <> GBlocked -> tgo t = GNone.
Proof.
  intros HI Ht Hp Hg. assert (H := i_go s HI _ _ Ht). unfold late in H. rewrite Hp in H. destruct (tgo t); congruence || contradiction.
Qed.

Lemma root_waits sched s evs i g pre post par w to_ ev org : run init sched = Some (s, evs) ->
  evs = pre ++ EReturn i true :: post -> In (ECall i None par w g to_ ev org) evs ->
  sole_root evs g i -> ~ In (EWake i true) evs ->
  handled pre i /\ forall j, in_tree evs g i j -> In (ESent j) evs -> handled pre j.
Proof.
  intros H E Hc Hsole Hnt.
  destruct (all_run _ _ _ H) as (HI & HE & HW).
  destruct (run_split_event (EReturn i true) _ _ _ _ _ _ H E) as (sc1 & l & sc2 & s1 & ev1 & s2 & e & e2 & p & q & -> & R1 & R2 & R3 & R4 & R5 & R6).
  destruct (all_run _ _ _ R1) as (HI1 & HE1 & HW1). assert (R2' := R2). apply step_st in R2.
  assert (Hsub : forall x, In x ev1 -> In x evs).
  { intros x Hx. rewrite E, R5. apply in_or_app. left. apply in_or_app. auto. }
  assert (Hui : uses evs i g) by (do 6 eexists; eauto).
  destruct (st_return _ _ _ i R2) as (t & Ht & Hcase); [rewrite R4; apply in_or_app; right; left; reflexivity|].
  assert (Hui1 := restrict_uses _ _ _ _ _ _ _ HE1 HE Hsub Hui Ht).
  assert (Hby : tby t = None).
  { destruct (e_called s1 ev1 HE1 _ _ Ht) as (p0 & g0 & o0 & Hin).
    assert (X := e_uniq s evs HE _ _ _ _ _ _ _ _ _ _ _ _ _ _ _ Hc (Hsub _ Hin)). congruence. }
  destruct Hcase as [(Hp & Hg & _)|(Ee & ch & Hp & Hcl)].
  - (* not a root call: impossible *)
    exfalso. assert (Hgn := go_added s1 i t HI1 Ht Hp Hg).
    destruct (e_root s1 ev1 HE1 i t g Ht Hby ltac:(congruence) Hgn Hui1) as (j & b & p0 & w0 & to0 & ev0 & org0 & Hj & Hin & Hq).
    assert (Huj : uses evs j g) by (do 6 eexists; apply Hsub; eauto).
    destruct (Hsole j Huj Hj) as (k & (x1 & x2 & x3 & x4 & x5 & x6 & Hx) & Huk).
    assert (X := e_uniq s evs HE _ _ _ _ _ _ _ _ _ _ _ _ _ _ _ (Hsub _ Hin) Hx). injection X as _ -> _ _ _ _ _.
    destruct Hq as [Hq|(k' & g' & Hq & Hne & Hu')]; [discriminate|]. injection Hq as <-. apply Hne.
    apply (uses_fun s evs k); auto. destruct Hu' as (y1 & y2 & y3 & y4 & y5 & y6 & Hy). do 6 eexists; apply Hsub; eauto.
  - assert (p = [] /\ q = []) as [-> ->].
    { rewrite Ee in R4. destruct p as [|y p]; cbn in R4; injection R4; [auto|]. intros X _. destruct p; discriminate. }
    rewrite app_nil_r in R5. subst pre.
    destruct (e_wait s1 ev1 HE1 _ _ _ Ht Hp) as (tr & Htr & Hwr & Hgr).
    destruct (e_clos s1 ev1 HE1 _ Hcl) as (tr' & qq & tq & b & Htr' & _ & Htq & Hwq & Hgq & Hwk).
    assert (tr' = tr) by congruence. subst tr'.
    assert (Hq : qq = i).
    { destruct (Nat.eq_dec qq i) as [|Hne]; [assumption|]. exfalso.
      assert (Huq1 : uses ev1 qq g).
      { apply (ing_uses s1); auto. assert (X := uses_ing _ _ _ _ HE1 Hui1). unfold ing in *. rewrite Ht in X. rewrite Htq.
        replace (tw tq) with (tw t) by congruence. exact X. }
      assert (Huq : uses evs qq g) by (destruct Huq1 as (y1 & y2 & y3 & y4 & y5 & y6 & Hy); do 6 eexists; apply Hsub; eauto).
      destruct (Hsole qq Huq Hne) as (k & Hm & Huk).
      assert (Hm1 := restrict_made _ _ _ _ _ _ _ HE1 HE Hsub Hm Htq).
      destruct (made_lt _ _ _ _ HE1 Hm1) as (_ & tk & Htk & _).
      assert (Huk1 := restrict_uses _ _ _ _ _ _ _ HE1 HE Hsub Huk Htk).
      assert (X := e_nest s1 ev1 HE1 qq k g tq Hm1 Huk1 Huq1 Htq). congruence. }
    subst qq.
    assert (Hw0 : In (EWake i false) ev1).
    { destruct b; [|assumption]. exfalso. apply Hnt. auto. }
    assert (Hpost : evs = ev1 ++ (e ++ e2)).
    { rewrite E, R6, Ee. reflexivity. }
    assert (Hrun : run s1 (l :: sc2) = Some (s, e ++ e2)).
    { cbn [Machine.run]. rewrite R2', R3. reflexivity. }
    assert (Htree : forall j, in_tree evs g i j -> In (ESent j) evs -> handled ev1 j).
    { intros j Hj Hs. rewrite Hpost in Hj, Hs.
      destruct (quiet_run i g _ _ _ _ _ HI1 HE1 HW1 Hrun Hw0 j Hj) as (Hj1 & Hs1).
      destruct (e_sent s1 ev1 HE1 _ (Hs1 Hs)) as ([?|Ho] & _); [assumption|].
      destruct (HW1 i g Hw0 Hui1 j Hj1) as (Ho' & _). congruence. }
    split; [|exact Htree].
    apply Htree; [now apply tree_root|]. apply Hsub. exact (e_late s1 ev1 HE1 i t Ht (or_intror (ex_intro _ ch Hp))).
Qed.

(** ** Nested calls do not block *)
Lemma pw_run sched s evs : run init sched = Some (s, evs) ->
  forall i t, nth_error (threads s) i = Some t -> (tst t = Pushed \/ exists ch, tst t = Waiting ch) -> tgo t <> GNone.
Proof.
  intros H. apply (run_inv step init (fun _ _ s => forall i t, nth_error (threads s) i = Some t -> (tst t = Pushed \/ exists ch, tst t = Waiting ch) -> tgo t <> GNone))
    with (sched := sched) (evs := evs); auto.
  - cbn. intros []; discriminate.
  - clear. intros sched0 evs0 s0 l s1 e _ IH Hs i t' Ht' Hp. apply step_st in Hs.
    destruct Hs; cbn in Ht'; eauto.
    + apply nth_snoc in Ht' as [?|[-> ->]]; eauto. cbn in Hp. destruct Hp as [Hp|[ch Hp]]; discriminate.
    + assert (Hi : i0 < List.length (threads s0)) by (eapply nth_lt; eauto).
      assert (Hu : forall p g, nth_error (upd (threads s0) i0 (set_pc t p g)) i = Some t' ->
        ((p = Pushed \/ exists ch, p = Waiting ch) -> g <> GNone) -> tgo t' <> GNone).
      { intros p g. rewrite nth_upd by assumption. destruct (Nat.eqb_spec i0 i); [|intros; eapply IH; eauto].
        intros E. injection E as <-. cbn in *. auto. }
      destruct H1; subst s'; cbn in Ht'; try (eapply Hu; [exact Ht'|]); try (intros [?|[ch' ?]]; congruence); eauto.
      * intros Hx. destruct H2 as [(_ & -> & -> & _)|(_ & -> & _)]; [discriminate|]. destruct Hx as [Hx|[ch Hx]]; discriminate.
Qed.

Lemma on_call_do s l i t wr : nth_error (threads s) i = Some t -> nth_error (heap s) (tw t) = Some wr ->
  on_call s l i = call_step s l i t wr.
Proof. intros H1 H2. unfold on_call. rewrite H1, H2. reflexivity. Qed.

(** The rest of a Call up to Added. *)
Lemma finish_added s i t wr : crashed s = false -> nth_error (threads s) i = Some t -> nth_error (heap s) (tw t) = Some wr ->
  tst t = Added -> tgo t = GNone -> exists s' , step s (LPush i) = Some (s', [ESent i; EReturn i true]).
Proof.
  intros Hc Ht Hw Hp Hg. eexists. unfold CallModel.step. rewrite Hc. rewrite (on_call_do _ _ _ _ _ Ht Hw). cbn. rewrite Hp, Hg. reflexivity.
Qed.

Lemma finish_counted s i t wr : crashed s = false -> nth_error (threads s) i = Some t -> nth_error (heap s) (tw t) = Some wr ->
  tst t = Counted -> tgo t = GNone -> exists ls s' e ok, forallb (own i) ls = true /\ run s ls = Some (s', e) /\ In (EReturn i ok) e.
Proof.
  intros Hc Ht Hw Hp Hg.
  destruct (step s (LReceived i)) as [[s1 e1]|] eqn:Hs.
  2:{ exfalso. unfold CallModel.step in Hs. rewrite Hc, (on_call_do _ _ _ _ _ Ht Hw) in Hs. cbn in Hs. rewrite Hp in Hs.
      destruct (_ && _); [discriminate|]. destruct (dead s (tto t)); discriminate. }
  assert (Hs0 := Hs). unfold CallModel.step in Hs0. rewrite Hc, (on_call_do _ _ _ _ _ Ht Hw) in Hs0. cbn in Hs0. rewrite Hp, Hg in Hs0.
  destruct (negb (hOrgID (mHeader (wreq wr)) =? "") && (hOrgID (mHeader (wreq wr)) =? tto t)).
  { injection Hs0 as <- <-. exists [LReceived i]. do 3 eexists. split; [cbn; now rewrite Nat.eqb_refl|].
    split; [cbn [Machine.run]; rewrite Hs; reflexivity|]. right. left. reflexivity. }
  destruct (dead s (tto t)).
  { injection Hs0 as <- <-. exists [LReceived i]. do 3 eexists. split; [cbn; now rewrite Nat.eqb_refl|].
    split; [cbn [Machine.run]; rewrite Hs; reflexivity|]. right. left. reflexivity. }
  injection Hs0 as <- <-.
  match type of Hs with _ = Some (?s1, _) => destruct (finish_added s1 i (set_pc t Added GNone) wr) as [s2 H2] end; auto.
  { cbn. apply nth_upd_eq. eapply nth_lt; eauto. }
  exists [LReceived i; LPush i]. do 3 eexists. split; [cbn; now rewrite Nat.eqb_refl|].
  split; [cbn [Machine.run]; rewrite Hs, H2; reflexivity|]. right. left. reflexivity.
Qed.

Lemma nested_returns sched s evs j k g t : run init sched = Some (s, evs) -> crashed s = false ->
  made_by evs j k -> uses evs k g -> uses evs j g -> nth_error (threads s) j = Some t -> tst t <> Ret ->
  exists ls s' e ok, forallb (own j) ls = true /\ run s ls = Some (s', e) /\ In (EReturn j ok) e.
Proof.
  intros H Hc Hm Huk Huj Ht Hp. destruct (all_run _ _ _ H) as (HI & HE & _).
  assert (Hg := e_nest s evs HE _ _ _ _ Hm Huk Huj Ht).
  destruct (nth_ex _ _ (i_th s HI _ _ Ht)) as [wr Hw].
  destruct (tst t) eqn:Hst; try congruence.
  - assert (Hwg : wgs s (wgroup wr) <> 0%Z).
    { apply (wg_pos s evs k); auto; [eapply active_parent; eauto; congruence|].
      assert (X := uses_ing _ _ _ _ HE Huj). unfold ing in X. rewrite Ht, Hw in X. apply Nat.eqb_eq in X. now rewrite X. }
    assert (Hs : step s (LCount j) = Some (with_threads s (upd (threads s) j (set_pc t Counted (tgo t))), [])).
    { unfold CallModel.step. rewrite Hc, (on_call_do _ _ _ _ _ Ht Hw). cbn. rewrite Hst.
      destruct (Z.eqb_spec (wgs s (wgroup wr)) 0); [contradiction|reflexivity]. }
    match type of Hs with _ = Some (?s1, _) => destruct (finish_counted s1 j (set_pc t Counted (tgo t)) wr) as (ls & s2 & e & ok & H1 & H2 & H3) end; auto.
    { cbn. apply nth_upd_eq. eapply nth_lt; eauto. }
    exists (LCount j :: ls), s2, e, ok. split; [cbn; now rewrite Nat.eqb_refl|]. split; [|assumption].
    cbn [Machine.run]. rewrite Hs, H2. reflexivity.
  - eapply finish_counted; eauto.
  - destruct (finish_added s j t wr) as [s2 H2]; auto.
    exists [LPush j]. do 3 eexists. split; [cbn; now rewrite Nat.eqb_refl|].
    split; [cbn [Machine.run]; rewrite H2; reflexivity|]. right. left. reflexivity.
  - exfalso. eapply (pw_run _ _ _ H _ _ Ht); eauto.
  - exfalso. eapply (pw_run _ _ _ H _ _ Ht); eauto.
Qed.

(** ** Self-calls *)
Definition Sf (s : state) (evs : list event) : Prop :=
  forall i b p w g to_ ev, In (ECall i b p w g to_ ev to_) evs -> to_ <> "" ->
    exists t wr, nth_error (threads s) i = Some t /\ tw t = w /\ tto t = to_ /\ nth_error (heap s) w = Some wr /\
      hOrgID (mHeader (wreq wr)) = to_ /\ (tst t = Stamped \/ tst t = Counted \/ tst t = Ret) /\
      ~ In (ESent i) evs /\ ~ In (EReturn i true) evs.

Lemma in_ret_st s s' e i b : st s s' e -> In (EReturn i b) e -> i < List.length (threads s).
Proof.
  intros H Hin. destruct H; cbn in Hin; try contradiction; try (destruct Hin as [E|[]]; discriminate).
  assert (i = i0); [|subst; eapply nth_lt; eauto].
  destruct H1; cbn in Hin; try contradiction; repeat (destruct Hin as [E|Hin]; [try discriminate E; try (injection E; auto)|]); try contradiction.
  destruct H2 as [(_ & _ & _ & ->)|(Hg & _ & _ & ->)]; cbn in Hin; repeat (destruct Hin as [E|Hin]; [try discriminate E; try (injection E; auto)|]); contradiction.
Qed.
Lemma in_sent_st s s' e i : st s s' e -> In (ESent i) e -> i < List.length (threads s).
Proof. intros H Hin. destruct (st_sent _ _ _ _ H Hin) as (t & Ht & _). eapply nth_lt; eauto. Qed.

Record Fresh (s : state) (evs : list event) : Prop := {
  f_sent : forall i, In (ESent i) evs -> i < List.length (threads s);
  f_ret : forall i b, In (EReturn i b) evs -> i < List.length (threads s) }.

Lemma thr_le s s' e : st s s' e -> List.length (threads s) <= List.length (threads s').
Proof. intros H. destruct (thr_len _ _ _ H); lia. Qed.

Lemma fresh_step s evs s' e : Fresh s evs -> st s s' e -> Fresh s' (evs ++ e).
Proof.
  intros [F1 F2] H. assert (L := thr_le _ _ _ H). split.
  - intros i Hin. apply in_app_or in Hin as [Hin|Hin]; [apply F1 in Hin; lia|]. apply (in_sent_st _ _ _ _ H) in Hin. lia.
  - intros i b Hin. apply in_app_or in Hin as [Hin|Hin]; [apply F2 in Hin; lia|]. apply (in_ret_st _ _ _ _ _ H) in Hin. lia.
Qed.

Lemma sf_step s evs s' e : Ev s evs -> Fresh s evs -> Sf s evs -> st s s' e -> Sf s' (evs ++ e).
Proof.
  intros HE HF HS H i b p w g to_ ev Hin Hne. apply in_app_or in Hin as [Hin|Hin].
  - destruct (HS _ _ _ _ _ _ _ Hin Hne) as (t & wr & Ht & Htw & Hto & Hw & Ho & Hp & Hns & Hnr).
    destruct (step_threads _ _ _ H _ _ Ht) as (t' & Ht' & (_ & G2 & G3 & _) & _ & _ & Gr & _).
    destruct (step_heap _ _ _ H _ _ Hw) as (wr' & Hw' & _ & Hk).
    assert (Ho' : hOrgID (mHeader (wreq wr')) = to_) by (rewrite Hk; congruence).
    assert (Hx : (tst t' = Stamped \/ tst t' = Counted \/ tst t' = Ret) /\ ~ In (ESent i) e /\ ~ In (EReturn i true) e).
    { split; [|split].
      - destruct H; cbn in Ht'; try (replace t' with t by congruence; exact Hp).
        + rewrite (nth_snoc_old _ _ _ _ Ht) in Ht'. injection Ht' as <-. exact Hp.
        + destruct (Nat.eq_dec i i0) as [->|Hni].
          * assert (t0 = t) by congruence. subst t0. assert (Hi : i0 < List.length (threads s)) by (eapply nth_lt; eauto).
            destruct H1; subst s'; cbn in *; rewrite ?nth_upd_eq in Ht' by assumption; try (injection Ht' as <-; cbn in * );
              try (intuition congruence).
          * destruct H1; subst s'; cbn in *; rewrite ?nth_upd_neq in Ht' by auto; replace t' with t by congruence; exact Hp.
      - intros X. destruct (st_sent _ _ _ _ H X) as (t2 & Ht2 & Ha & _). assert (t2 = t) by congruence. subst t2.
        rewrite Ha in Hp. intuition discriminate.
      - intros X. destruct (st_return _ _ _ _ H X) as (t2 & Ht2 & Hcase). assert (t2 = t) by congruence. subst t2.
        destruct Hcase as [(Ha & _)|(_ & ch & Ha & _)]; rewrite Ha in Hp; intuition discriminate. }
    exists t', wr'. repeat split; try congruence; try tauto.
    + rewrite in_app_iff. tauto.
    + rewrite in_app_iff. tauto.
  - destruct H; cbn in Hin; try contradiction; try (destruct Hin as [E|[]]; discriminate).
    + destruct Hin as [E|[]]. injection E as <- <- <- <- <- <- <- Eo. cbn.
      rewrite nth_error_app2, Nat.sub_diag by lia. do 2 eexists. split; [reflexivity|]. cbn.
      rewrite nth_upd_eq by (eapply nth_lt; eauto). split; [reflexivity|]. split; [reflexivity|]. split; [reflexivity|].
      cbn. split; [exact Eo|]. split; [auto|]. split.
      * rewrite in_app_iff. intros [X|[X|[]]]; [|discriminate]. apply (f_sent _ _ HF) in X. lia.
      * rewrite in_app_iff. intros [X|[X|[]]]; [|discriminate]. apply (f_ret _ _ HF) in X. lia.
    + exfalso. apply (st_call_ev s s' e _ (st_cs s i0 t wr s' e H H0 H1)) in Hin as (-> & _ & Hth & _).
      assert (X := f_equal (@List.length _) Hth). rewrite app_length in X. cbn in X.
      destruct H1; subst s'; cbn in X; rewrite ?upd_length in X; lia.
Qed.

Lemma sf_run sched s evs : run init sched = Some (s, evs) -> Ev s evs /\ Inv s /\ Fresh s evs /\ Sf s evs.
Proof.
  intros H. apply (run_inv step init (fun _ evs s => Ev s evs /\ Inv s /\ Fresh s evs /\ Sf s evs)) with (sched := sched) (evs := evs); auto.
  - split; [apply ev_init|]. split; [apply inv_init|]. split; [split; intros; contradiction|]. intros i b p w g to_ ev [].
  - intros sched0 evs0 s0 l s1 e _ (HE & HI & HF & HS) Hs. apply step_st in Hs.
    split; [eapply ev_step; eauto|]. split; [eapply inv_step; eauto|]. split; [eapply fresh_step; eauto|eapply sf_step; eauto].
Qed.

Lemma self_refused sched s evs i b p w g to_ ev : run init sched = Some (s, evs) ->
  In (ECall i b p w g to_ ev to_) evs -> to_ <> "" -> ~ In (ESent i) evs /\ ~ In (EReturn i true) evs.
Proof.
  intros H Hin Hne. destruct (sf_run _ _ _ H) as (_ & _ & _ & HS).
  destruct (HS _ _ _ _ _ _ _ Hin Hne) as (t & wr & _ & _ & _ & _ & _ & _ & ? & ?). auto.
Qed.

Lemma ret_event sched s evs : run init sched = Some (s, evs) -> forall i t, nth_error (threads s) i = Some t -> tst t = Ret ->
  exists b, In (EReturn i b) evs.
Proof.
  intros H. apply (run_inv step init (fun _ evs s => forall i t, nth_error (threads s) i = Some t -> tst t = Ret -> exists b, In (EReturn i b) evs))
    with (sched := sched) (evs := evs); auto.
  - cbn. intros []; discriminate.
  - clear. intros sched0 evs0 s0 l s1 e _ IH Hs i t' Ht' Hp. apply step_st in Hs.
    assert (Hor : (exists b, In (EReturn i b) e) \/ exists t, nth_error (threads s0) i = Some t /\ tst t = Ret).
    { destruct Hs; cbn in Ht'; eauto.
      - apply nth_snoc in Ht' as [?|[-> ->]]; eauto. discriminate.
      - assert (Hi : i0 < List.length (threads s0)) by (eapply nth_lt; eauto).
        assert (Hu : forall p g, nth_error (upd (threads s0) i0 (set_pc t p g)) i = Some t' ->
          (p = Ret -> exists b, In (EReturn i0 b) e \/ tst t = Ret) -> (exists b, In (EReturn i b) e) \/ exists t, nth_error (threads s0) i = Some t /\ tst t = Ret).
        { intros p g. rewrite nth_upd by assumption. destruct (Nat.eqb_spec i0 i); [|intros; right; eauto].
          intros E. injection E as <-. cbn in *. subst i0. intros Hx. destruct (Hx Hp) as [bb [?|?]]; eauto. }
        destruct H1; subst s'; cbn in Ht'; try (eapply Hu; [exact Ht'|]); try (intros; discriminate); eauto.
        + intros _. exists false. left. right. left. reflexivity.
        + intros ->. destruct H2 as [(_ & E & _)|(_ & _ & _ & ->)]; [discriminate|]. exists true. left. right. left. reflexivity.
        + intros _. exists true. left. left. reflexivity.
        + intros _. exists false. left. left. reflexivity.
        }
    destruct Hor as [[bb ?]|(t & Ht & Hr)]; [exists bb; apply in_or_app; auto|].
    destruct (IH _ _ Ht Hr) as [bb ?]. exists bb. apply in_or_app. auto.
  Unshelve. all: exact true.
Qed.

(** The refusal needs only the Call's own steps and leaves mailboxes and wait
    groups alone. *)
Lemma self_finishes sched s evs i b p w g to_ ev : run init sched = Some (s, evs) -> crashed s = false ->
  In (ECall i b p w g to_ ev to_) evs -> to_ <> "" -> (forall ok, ~ In (EReturn i ok) evs) ->
  exists ls s', forallb (own i) ls = true /\ run s ls = Some (s', [ERefused i true; EReturn i false]) /\
    wgs s' = wgs s /\ box s' = box s.
Proof.
  intros H Hc Hin Hne Hnr. destruct (sf_run _ _ _ H) as (HE & HI & _ & HS).
  destruct (HS _ _ _ _ _ _ _ Hin Hne) as (t & wr & Ht & Htw & Hto & Hw & Ho & Hp & _ & _).
  assert (Hcount : forall s t wr, crashed s = false -> nth_error (threads s) i = Some t -> nth_error (heap s) (tw t) = Some wr ->
     tto t = to_ -> hOrgID (mHeader (wreq wr)) = to_ -> tst t = Counted ->
     exists s', step s (LReceived i) = Some (s', [ERefused i true; EReturn i false]) /\ wgs s' = wgs s /\ box s' = box s).
  { clear - Hne. intros s t wr Hc Ht Hw Hto Ho Hp. eexists. unfold CallModel.step. rewrite Hc, (on_call_do _ _ _ _ _ Ht Hw). cbn. rewrite Hp, Ho, Hto.
    rewrite String.eqb_refl. apply String.eqb_neq in Hne. rewrite Hne. cbn. split; [reflexivity|]. split; reflexivity. }
  assert (Hw2 : nth_error (heap s) (tw t) = Some wr) by (rewrite Htw; exact Hw).
  destruct Hp as [Hp|[Hp|Hp]].
  - assert (Hx : exists s1 t1 wr1, step s (LCount i) = Some (s1, []) /\ crashed s1 = false /\ nth_error (threads s1) i = Some t1 /\
      nth_error (heap s1) (tw t1) = Some wr1 /\ tto t1 = to_ /\ hOrgID (mHeader (wreq wr1)) = to_ /\ tst t1 = Counted /\ wgs s1 = wgs s /\ box s1 = box s).
    { unfold CallModel.step. rewrite Hc, (on_call_do _ _ _ _ _ Ht Hw2). cbn. rewrite Hp. assert (Hi := nth_lt _ _ _ Ht). assert (Hj := nth_lt _ _ _ Hw2).
      destruct (wgs s (wgroup wr) =? 0)%Z.
      - do 3 eexists. split; [reflexivity|]. cbn. split; [assumption|]. rewrite nth_upd_eq by assumption. split; [reflexivity|].
        cbn. rewrite nth_upd_eq by assumption. split; [reflexivity|]. cbn. auto.
      - do 3 eexists. split; [reflexivity|]. cbn. split; [assumption|]. rewrite nth_upd_eq by assumption. split; [reflexivity|].
        cbn. split; [exact Hw2|]. auto. }
    destruct Hx as (s1 & t1 & wr1 & X1 & X2 & X3 & X4 & X5 & X6 & X7 & X8 & X9).
    destruct (Hcount s1 t1 wr1 X2 X3 X4 X5 X6 X7) as (s2 & Y1 & Y2 & Y3).
    exists [LCount i; LReceived i], s2. split; [cbn; now rewrite Nat.eqb_refl|]. split; [|split; congruence].
    cbn [Machine.run]. rewrite X1, Y1. reflexivity.
  - destruct (Hcount s t wr Hc Ht Hw2 Hto Ho Hp) as (s2 & Y1 & Y2 & Y3).
    exists [LReceived i], s2. split; [cbn; now rewrite Nat.eqb_refl|]. split; [|split; congruence].
    cbn [Machine.run]. rewrite Y1. reflexivity.
  - destruct (ret_event _ _ _ H _ _ Ht Hp) as [bb Hb]. exfalso. eapply Hnr; eauto.
Qed.

(** ** The event seen by the handler *)
Definition Le (s : state) (evs : list event) : Prop :=
  forall p1 p2 i b p w g to_ ev org, evs = p1 ++ ECall i b p w g to_ ev org :: p2 ->
    (forall i' b' p' g' to' ev' org', ~ In (ECall i' b' p' w g' to' ev' org') p2) ->
    exists wr, nth_error (heap s) w = Some wr /\ hEvent (mHeader (wreq wr)) = ev.

Lemma split_app {A} (x : A) e : forall evs p1 p2, evs ++ e = p1 ++ x :: p2 ->
  (exists q, p2 = q ++ e /\ evs = p1 ++ x :: q) \/ (exists q, p1 = evs ++ q /\ e = q ++ x :: p2).
Proof.
  induction evs as [|y evs IH]; intros p1 p2 E; cbn in E.
  - right. exists p1. auto.
  - destruct p1 as [|z p1]; cbn in E; injection E as -> E.
    + left. exists evs. auto.
    + destruct (IH _ _ E) as [(q & -> & ->)|(q & -> & ->)]; [left; exists q; auto|right; exists q; auto].
Qed.

Lemma le_step s evs s' e : Ev s evs -> Le s evs -> st s s' e -> Le s' (evs ++ e).
Proof.
  intros HE HL H p1 p2 i b p w g to_ ev org E Hno. apply split_app in E as [(q & -> & E)|(q & -> & E)].
  - destruct (HL _ _ _ _ _ _ _ _ _ _ E) as (wr & Hw & Hev).
    { intros i' b' p' g' to' ev' org' Hin. eapply Hno. apply in_or_app. left; eauto. }
    destruct H; cbn; eauto.
    + exists wr. split; [now apply nth_snoc_old|assumption].
    + rewrite nth_upd by (eapply nth_lt; eauto). destruct (Nat.eqb_spec w0 w) as [->|]; [|eauto].
      exfalso. eapply Hno. apply in_or_app. right. left. reflexivity.
    + destruct H1; subst s'; cbn; eauto. rewrite nth_upd by (eapply nth_lt; eauto).
      destruct (Nat.eqb_spec (tw t) w) as [<-|]; [|eauto]. eexists; split; [reflexivity|]. cbn. congruence.
  - assert (Hin : In (ECall i b p w g to_ ev org) e) by (rewrite E; apply in_or_app; right; left; reflexivity).
    destruct H; cbn in Hin; try contradiction; try (destruct Hin as [X|[]]; discriminate).
    + destruct Hin as [X|[]]. injection X as <- <- <- <- <- <- <- <-. cbn. rewrite nth_upd_eq by (eapply nth_lt; eauto).
      eexists; split; [reflexivity|]. exact H1.
    + exfalso. apply (st_call_ev s s' e _ (st_cs s i0 t wr s' e H H0 H1)) in Hin as (_ & _ & Hth & _).
      assert (X := f_equal (@List.length _) Hth). rewrite app_length in X. cbn in X.
      destruct H1; subst s'; cbn in X; rewrite ?upd_length in X; lia.
Qed.

Lemma le_run sched s evs : run init sched = Some (s, evs) -> Inv s /\ Ev s evs /\ Le s evs.
Proof.
  intros H. apply (run_inv step init (fun _ evs s => Inv s /\ Ev s evs /\ Le s evs)) with (sched := sched) (evs := evs); auto.
  - split; [apply inv_init|]. split; [apply ev_init|]. intros p1 p2 i b p w g to_ ev org E. destruct p1; discriminate.
  - intros sched0 evs0 s0 l s1 e _ (HI & HE & HL) Hs. apply step_st in Hs.
    split; [eapply inv_step; eauto|]. split; [eapply ev_step; eauto|eapply le_step; eauto].
Qed.

Lemma dispatched_event sched s evs p1 p2 p3 i b p w g to_ ev org a ev' : run init sched = Some (s, evs) ->
  evs = p1 ++ ECall i b p w g to_ ev org :: p2 ++ EDispatch a i ev' :: p3 ->
  (forall i' b' p' g' to' e' org', ~ In (ECall i' b' p' w g' to' e' org') p2) ->
  a = to_ /\ ev' = ev.
Proof.
  intros H E Hno.
  assert (E' : evs = (p1 ++ ECall i b p w g to_ ev org :: p2) ++ EDispatch a i ev' :: p3) by (rewrite E, <- app_assoc; reflexivity).
  destruct (run_split_event _ _ _ _ _ _ _ H E') as (sc1 & l & sc2 & s1 & ev1 & s2 & e & e2 & q1 & q2 & -> & R1 & R2 & R3 & R4 & R5 & R6).
  destruct (le_run _ _ _ R1) as (HI & HE & HL). apply step_st in R2.
  assert (Hin : In (EDispatch a i ev') e) by (rewrite R4; apply in_or_app; right; left; reflexivity).
  assert (Hq : q1 = [] /\ exists ww r wr, box s1 a = (i, ww) :: r /\ nth_error (heap s1) ww = Some wr /\ ev' = hEvent (mHeader (wreq wr))).
  { destruct R2; cbn in Hin; try contradiction; try (destruct Hin as [X|[]]; discriminate).
    - exfalso. destruct H2; cbn in Hin; try contradiction; repeat (destruct Hin as [X|Hin]; [discriminate X|]); try contradiction.
      destruct H3 as [(_ & _ & _ & ->)|(_ & _ & _ & ->)]; cbn in Hin; repeat (destruct Hin as [X|Hin]; [discriminate X|]); contradiction.
    - destruct Hin as [X|[]]. injection X as <- <- X3. split; [|do 3 eexists; eauto].
      destruct q1 as [|y q1]; [reflexivity|]. destruct q1; discriminate. }
  destruct Hq as (-> & ww & r & wr & Hb & Hw & Hev'). rewrite app_nil_r in R5.
  assert (Hbin : In (i, ww) (box s1 a)) by (rewrite Hb; left; reflexivity).
  destruct (i_box s1 HI _ _ _ Hbin) as (t & Ht & Hta & Htw & _).
  assert (Hc : In (ECall i b p w g to_ ev org) ev1) by (rewrite <- R5; apply in_or_app; right; left; reflexivity).
  destruct (e_call s1 ev1 HE _ _ _ _ _ _ _ _ Hc) as (t2 & _ & Ht2 & _ & Hw2 & Hto2 & _).
  assert (t2 = t) by congruence. subst t2. split; [congruence|].
  destruct (HL _ _ _ _ _ _ _ _ _ _ (eq_sym R5) Hno) as (wr2 & Hwr2 & Hev2).
  congruence.
Qed.

(** ** Without reuse of a wrapper no channel is closed twice *)
Definition on_wrapper (evs : list event) (i w : nat) : Prop :=
  exists b p g to_ ev org, In (ECall i b p w g to_ ev org) evs.
Definition nested (evs : list event) (i : nat) : Prop :=
  exists k g, made_by evs i k /\ uses evs k g /\ uses evs i g.

Lemma no_crash sched s evs : run init sched = Some (s, evs) ->
  (forall i j w, on_wrapper evs i w -> on_wrapper evs j w -> ~ nested evs i -> ~ nested evs j -> i = j) ->
  crashed s = false.
Proof.
  intros H. pattern s, evs. revert H.
  assert (G : forall sched s evs, run init sched = Some (s, evs) -> crashed s = true ->
    exists i j w, on_wrapper evs i w /\ on_wrapper evs j w /\ ~ nested evs i /\ ~ nested evs j /\ i <> j).
  { clear. intros sched. induction sched as [|l sched IH] using rev_ind; intros s evs H Hc.
    - cbn in H. injection H as <- <-. discriminate.
    - apply run_app_inv in H as (s1 & e1 & e2 & H1 & H2 & ->). apply run_one_inv in H2.
      destruct (crashed s1) eqn:Hc1.
      { unfold CallModel.step in H2. rewrite Hc1 in H2. discriminate. }
      destruct (all_run _ _ _ H1) as (HI & HE & _).
      assert (Hst := step_st _ _ _ _ _ H2).
      assert (HE2 := ev_step _ _ _ _ HI HE Hst). assert (HI2 := inv_step _ _ _ HI Hst).
      assert (Hx : exists i t wr ch, nth_error (threads s1) i = Some t /\ nth_error (heap s1) (tw t) = Some wr /\ tgo t = GClosing /\
        wdone wr = Some ch /\ closedch s1 ch = true).
      { destruct Hst as [| |i t wr s' e Ht Hw Hcs| | |]; cbn in Hc; try congruence.
        destruct Hcs; subst; cbn in Hc; try congruence. exists i, t, wr, ch. auto. }
      destruct Hx as (i & t & wr & ch & Ht & Hw & Hg & Hd & Hcl).
      destruct (e_clos s1 e1 HE _ Hcl) as (tr & q & tq & b & Htr & Hgr & Htq & Hwq & Hgq & _).
      destruct (e_done s1 e1 HE _ _ _ Hw Hd) as (tr2 & Htr2 & Hwr2 & _). assert (tr2 = tr) by congruence. subst tr2.
      assert (Hroot : forall x tx, nth_error (threads s1) x = Some tx -> tgo tx <> GNone -> tw tx = tw t ->
        on_wrapper (e1 ++ e2) x (tw t) /\ ~ nested (e1 ++ e2) x).
      { intros x tx Hx Hgx Hwx. split.
        - destruct (e_called s1 e1 HE _ _ Hx) as (p & g & o & Hin). rewrite Hwx in Hin. do 6 eexists. apply in_or_app. eauto.
        - intros (k & g & N1 & N2 & N3). destruct (step_threads _ _ _ Hst _ _ Hx) as (tx' & Hx' & _ & _ & Ggx & _).
          apply (Ggx Hgx). exact (e_nest s (e1 ++ e2) HE2 x k g tx' N1 N2 N3 Hx'). }
      destruct (Hroot i t Ht) as (A1 & A2); [congruence|reflexivity|].
      destruct (Hroot q tq Htq) as (B1 & B2); [congruence|congruence|].
      exists i, q, (tw t). repeat split; auto. intros ->. congruence. }
  intros H Hu. destruct (crashed s) eqn:Hc; [|reflexivity]. exfalso.
  destruct (G _ _ _ H Hc) as (i & j & w & A & B & C & D & E). apply E. eapply Hu; eauto.
Qed.

(** A refusal is reported. *)
Lemma refused_reported sched s evs i b : run init sched = Some (s, evs) -> In (ERefused i b) evs -> ~ In (EReturn i true) evs.
Proof.
  intros H. apply (run_inv step init (fun _ evs s => (forall i b, In (ERefused i b) evs -> ~ In (EReturn i true) evs /\ exists t, nth_error (threads s) i = Some t /\ tst t = Ret)
     /\ (forall i b, In (EReturn i b) evs -> exists t, nth_error (threads s) i = Some t /\ tst t = Ret)))
    with (sched := sched) (evs := evs) in H.
  - intros Hin. destruct H as [H _]. destruct (H _ _ Hin). assumption.
  - cbn. split; intros; contradiction.
  - clear. intros sched0 evs0 s0 l s1 e _ [IH1 IH2] Hs. apply step_st in Hs.
    assert (Hkeep : forall i, (exists t, nth_error (threads s0) i = Some t /\ tst t = Ret) -> exists t, nth_error (threads s1) i = Some t /\ tst t = Ret).
    { intros i (t & Ht & Hr). destruct (step_threads _ _ _ Hs _ _ Ht) as (t' & Ht' & _ & _ & _ & Gr & _). eauto. }
    assert (Hnew : forall i b, In (EReturn i b) e -> (exists t, nth_error (threads s0) i = Some t /\ tst t <> Ret) /\ exists t, nth_error (threads s1) i = Some t /\ tst t = Ret).
    { intros i b Hin. destruct Hs; cbn in Hin; try contradiction; try (destruct Hin as [E|[]]; discriminate).
      assert (Hi : i0 < List.length (threads s0)) by (eapply nth_lt; eauto).
      destruct H1; cbn in Hin; try contradiction; repeat (destruct Hin as [E|Hin]; [try discriminate E|]); try contradiction;
        try (injection E as <- <-; subst s'; cbn; rewrite nth_upd_eq by assumption; split; [exists t; split; congruence|eexists; split; [reflexivity|reflexivity]]).
      destruct H2 as [(_ & _ & _ & ->)|(Hg & -> & _ & ->)]; cbn in Hin; repeat (destruct Hin as [E|Hin]; [try discriminate E|]); try contradiction.
      injection E as <- <-; subst s'; cbn; rewrite nth_upd_eq by assumption; split; [exists t; split; congruence|eexists; split; [reflexivity|reflexivity]]. }
    assert (Hnew2 : forall i b, In (ERefused i b) e -> In (EReturn i false) e /\ ~ In (EReturn i true) e).
    { intros i b Hin. destruct Hs; cbn in Hin; try contradiction; try (destruct Hin as [E|[]]; discriminate).
      destruct H1; cbn in Hin; try contradiction; repeat (destruct Hin as [E|Hin]; [try discriminate E|]); try contradiction.
      - injection E as <- <-. split; [right; left; reflexivity|]. intros [X|[X|[]]]; discriminate.
      - destruct H2 as [(_ & _ & _ & ->)|(Hg & _ & _ & ->)]; cbn in Hin; repeat (destruct Hin as [E|Hin]; [try discriminate E|]); contradiction. }
    split.
    + intros i b Hin. apply in_app_or in Hin as [Hin|Hin].
      * destruct (IH1 _ _ Hin) as (Hn & Hr). split; [|auto]. rewrite in_app_iff. intros [X|X]; [auto|].
        destruct (Hnew _ _ X) as ((t & Ht & Hnr) & _). destruct Hr as (t2 & Ht2 & Hr). apply Hnr. congruence.
      * destruct (Hnew2 _ _ Hin) as (Hf & Hn). destruct (Hnew _ _ Hf) as ((t & Ht & Hnr) & Hr). split; [|assumption].
        rewrite in_app_iff. intros [X|X]; [|auto]. destruct (IH2 _ _ X) as (t2 & Ht2 & Hr2). apply Hnr. congruence.
    + intros i b Hin. apply in_app_or in Hin as [Hin|Hin]; [eauto|]. destruct (Hnew _ _ Hin) as (_ & ?). assumption.
Qed.
End P.
