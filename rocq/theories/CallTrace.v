(** Executions of the call machine: what the events say about the state. *)
From Coq Require Import List String ZArith Bool Lia PeanoNat Wf_nat.
From Verif Require Import Machine CallModel CallSpec CallProofs.
Import ListNotations.
Open Scope string_scope.
Open Scope list_scope.

Lemma in_call_false a s : in_call a s = false ->
  forall i t, nth_error (threads s) i = Some t -> tby t = Some a -> tst t = Ret.
Proof.
  intros H i t Ht Hb. unfold in_call in H.
  destruct (tst t) eqn:E; try reflexivity; exfalso;
    (assert (X : existsb (fun t => by_actor a t && active t) (threads s) = true);
     [apply existsb_exists; exists t; split; [eapply nth_error_In; eauto|];
      unfold by_actor, active; rewrite Hb, E, String.eqb_refl; reflexivity|congruence]).
Qed.

Record Ev (s : state) (evs : list event) : Prop := {
  e_call : forall i by_ par w g to_ ev org, In (ECall i by_ par w g to_ ev org) evs ->
    exists t wr, nth_error (threads s) i = Some t /\ tby t = by_ /\ tw t = w /\ tto t = to_ /\ tev t = ev /\
      nth_error (heap s) w = Some wr /\ wgroup wr = g /\
      match by_ with
      | None => par = None
      | Some a => exists k tk, par = Some k /\ k < i /\ nth_error (threads s) k = Some tk /\ late tk /\
                    (tst t <> Ret -> exists w', cur s a = Some (k, w'))
      end;
  e_called : forall i t, nth_error (threads s) i = Some t ->
    exists par g org, In (ECall i (tby t) par (tw t) g (tto t) (tev t) org) evs;
  e_uniq : forall i b1 p1 w1 g1 t1 e1 o1 b2 p2 w2 g2 t2 e2 o2,
    In (ECall i b1 p1 w1 g1 t1 e1 o1) evs -> In (ECall i b2 p2 w2 g2 t2 e2 o2) evs ->
    ECall i b1 p1 w1 g1 t1 e1 o1 = ECall i b2 p2 w2 g2 t2 e2 o2;
  e_sent : forall i, In (ESent i) evs -> (handled evs i \/ out s i = true) /\
    exists t, nth_error (threads s) i = Some t /\ late t;
  e_late : forall i t, nth_error (threads s) i = Some t -> tst t = Pushed \/ (exists ch, tst t = Waiting ch) -> In (ESent i) evs;
  e_hand : forall i, handled evs i -> out s i = false /\ exists t, nth_error (threads s) i = Some t /\ late t;
  e_wake : forall i b, In (EWake i b) evs ->
    exists t, nth_error (threads s) i = Some t /\ (tgo t = GClosing \/ tgo t = GEnded);
  e_woken : forall i t, nth_error (threads s) i = Some t -> tgo t = GClosing \/ tgo t = GEnded ->
    exists b, In (EWake i b) evs;
  e_done : forall w wr r, nth_error (heap s) w = Some wr -> wdone wr = Some r ->
    exists t, nth_error (threads s) r = Some t /\ tw t = w /\ tgo t <> GNone;
  e_wait : forall i t ch, nth_error (threads s) i = Some t -> tst t = Waiting ch ->
    exists tr, nth_error (threads s) ch = Some tr /\ tw tr = tw t /\ tgo tr <> GNone;
  e_clos : forall ch, closedch s ch = true -> exists tr q tq b,
    nth_error (threads s) ch = Some tr /\ tgo tr <> GNone /\ nth_error (threads s) q = Some tq /\ tw tq = tw tr /\ tgo tq = GEnded /\
    In (EWake q b) evs;
  e_nest : forall i k g t, made_by evs i k -> uses evs k g -> uses evs i g -> nth_error (threads s) i = Some t -> tgo t = GNone;
  e_root : forall i t g, nth_error (threads s) i = Some t -> tby t = None -> tst t <> Stamped -> tgo t = GNone -> uses evs i g ->
    exists j b p w to_ ev org, j <> i /\ In (ECall j b p w g to_ ev org) evs /\
      (p = None \/ exists k g', p = Some k /\ g' <> g /\ uses evs k g') }.

Lemma ev_init : Ev init [].
Proof.
  split; cbn; intros; try contradiction; try discriminate; try (destruct i; discriminate).
  all: try (destruct w; discriminate).
  all: try (destruct H; contradiction).
  all: try (destruct H as (? & ? & ? & ? & ? & ? & []); fail).
Qed.

Lemma uses_app evs e i g : uses evs i g -> uses (evs ++ e) i g.
Proof. intros (a & b & c & d & f & h & H). exists a, b, c, d, f, h. apply in_or_app. auto. Qed.
Lemma made_app evs e i g : made_by evs i g -> made_by (evs ++ e) i g.
Proof. intros (a & b & c & d & f & h & H). exists a, b, c, d, f, h. apply in_or_app. auto. Qed.
Lemma handled_app evs e i : handled evs i -> handled (evs ++ e) i.
Proof. intros (o & H). exists o. apply in_or_app. auto. Qed.

(** The group a Call uses is that of its wrapper. *)
Lemma uses_ing s evs i g : Ev s evs -> uses evs i g -> ing s g i = true.
Proof.
  intros HE (by_ & par & w & to_ & ev & org & H). destruct (e_call s evs HE _ _ _ _ _ _ _ _ H) as (t & wr & Ht & _ & Hw & _ & _ & Hh & Hg & _).
  unfold ing. rewrite Ht, Hw, Hh, Hg. apply Nat.eqb_refl.
Qed.
Lemma ing_uses s evs i g : Ev s evs -> ing s g i = true -> uses evs i g.
Proof.
  intros HE. unfold ing. destruct (nth_error (threads s) i) as [t|] eqn:Ht; [|discriminate].
  destruct (nth_error (heap s) (tw t)) as [wr|] eqn:Hw; [|discriminate]. intros Hg. apply Nat.eqb_eq in Hg.
  destruct (e_called s evs HE _ _ Ht) as (par & g' & org & H).
  destruct (e_call s evs HE _ _ _ _ _ _ _ _ H) as (t2 & wr2 & Ht2 & _ & Hw2 & _ & _ & Hh & Hg2 & _).
  assert (Eg : g' = g) by congruence. rewrite Eg in H. do 6 eexists. exact H.
Qed.
Lemma uses_fun s evs i g g' : Ev s evs -> uses evs i g -> uses evs i g' -> g = g'.
Proof.
  intros HE (a & b & c & d & f & h & H) (a' & b' & c' & d' & f' & h' & H').
  assert (E := e_uniq s evs HE _ _ _ _ _ _ _ _ _ _ _ _ _ _ _ H H'). congruence.
Qed.
Lemma made_fun s evs i k k' : Ev s evs -> made_by evs i k -> made_by evs i k' -> k = k'.
Proof.
  intros HE (a & b & c & d & f & h & H) (a' & b' & c' & d' & f' & h' & H').
  assert (E := e_uniq s evs HE _ _ _ _ _ _ _ _ _ _ _ _ _ _ _ H H'). congruence.
Qed.
(** While a handler is inside a Call its message is outstanding. *)
Lemma active_parent s evs i k t : Inv s -> Ev s evs -> made_by evs i k -> nth_error (threads s) i = Some t -> tst t <> Ret ->
  out s k = true.
Proof.
  intros HI HE (a & b & c & d & f & h & H) Ht Ha.
  destruct (e_call s evs HE _ _ _ _ _ _ _ _ H) as (t2 & wr2 & Ht2 & _ & _ & _ & _ & _ & _ & Hm).
  assert (t2 = t) by congruence. subst t2. destruct a as [a|]; [|discriminate].
  destruct Hm as (k' & tk & Hk & _ & _ & _ & Hc). injection Hk as <-. destruct (Hc Ha) as [w' Hw'].
  eapply out_cur; eauto.
Qed.
Lemma made_lt s evs i k : Ev s evs -> made_by evs i k -> k < i /\ exists tk, nth_error (threads s) k = Some tk /\ late tk.
Proof.
  intros HE (a & b & c & d & f & h & H).
  destruct (e_call s evs HE _ _ _ _ _ _ _ _ H) as (t2 & wr2 & Ht2 & _ & _ & _ & _ & _ & _ & Hm).
  destruct a as [a|]; [|discriminate]. destruct Hm as (k' & tk & Hk & Hl & Htk & Hlate & Hc). injection Hk as <-. eauto.
Qed.
Lemma wg_pos s evs i g : Inv s -> Ev s evs -> out s i = true -> uses evs i g -> wgs s g <> 0%Z.
Proof.
  intros HI HE Ho Hu. rewrite (i_wg s HI).
  assert (1 <= sumz (fun i => out s i && ing s g i) (List.length (threads s)))%Z; [|lia].
  apply sumz_pos with (k := i).
  - unfold out in Ho. destruct (nth_error (threads s) i) eqn:E; [eapply nth_lt; eauto|discriminate].
  - rewrite Ho. eapply uses_ing; eauto.
Qed.
Lemma wg_some s evs g : Inv s -> Ev s evs -> wgs s g <> 0%Z -> exists i, out s i = true /\ uses evs i g.
Proof.
  intros HI HE H. rewrite (i_wg s HI) in H. apply sumz_some in H as (k & _ & H). apply andb_prop in H as [H1 H2].
  exists k. split; [assumption|]. eapply ing_uses; eauto.
Qed.

(** Among the calls that use a context, one is not below [i] if [i] has not been
    delivered. *)
Lemma other_root s evs i t g : Inv s -> Ev s evs -> nth_error (threads s) i = Some t -> ~ late t ->
  forall j, uses evs j g -> j <> i -> exists j0 b p w to_ ev org, j0 <> i /\ In (ECall j0 b p w g to_ ev org) evs /\
      (p = None \/ exists k g', p = Some k /\ g' <> g /\ uses evs k g').
Proof.
  intros HI HE Ht Hl j. induction j as [j IH] using lt_wf_ind. intros Hu Hj.
  destruct Hu as (b & p & w & to_ & ev & org & H).
  destruct p as [k|].
  2:{ exists j, b, None, w, to_, ev, org. auto. }
  assert (Hm : made_by evs j k) by (do 6 eexists; eauto).
  destruct (made_lt _ _ _ _ HE Hm) as (Hlt & tk & Htk & Hlate).
  destruct (nth_ex (heap s) (tw tk) (i_th s HI _ _ Htk)) as [wk Hwk].
  assert (Huk : uses evs k (wgroup wk)).
  { eapply ing_uses; eauto. unfold ing. rewrite Htk, Hwk. apply Nat.eqb_refl. }
  destruct (Nat.eq_dec (wgroup wk) g) as [E|E].
  - rewrite E in Huk. apply (IH k Hlt Huk). intros ->. apply Hl. congruence.
  - exists j, b, (Some k), w, to_, ev, org. split; [assumption|]. split; [assumption|]. right. eauto.
Qed.

(** A step adds a Call event only for a fresh number. *)
Lemma st_call_ev s s' e x : st s s' e -> In x e ->
  match x with
  | ECall i by_ par w g to_ ev org => e = [x] /\ i = List.length (threads s) /\
      threads s' = threads s ++ [mkT by_ w to_ ev Stamped GNone] /\ cur s' = cur s /\
      (exists wr, nth_error (heap s) w = Some wr /\ wgroup wr = g) /\
      match by_ with None => par = None
      | Some a => in_call a s = false /\ exists n w', cur s a = Some (n, w') /\ par = Some n end
  | _ => True
  end.
Proof.
  intros H Hin. destruct H; cbn in Hin; try contradiction; try (destruct Hin as [<-|[]]; exact I).
  - destruct Hin as [<-|[]]. repeat split; eauto.
  - destruct H1; cbn in Hin; try contradiction; repeat (destruct Hin as [<-|Hin]; [exact I|]); try contradiction.
    destruct H2 as [(_ & _ & _ & ->)|(_ & _ & _ & ->)]; cbn in Hin; repeat (destruct Hin as [<-|Hin]; [exact I|]); contradiction.
Qed.

Lemma uses_old s evs s' e i g : st s s' e -> uses (evs ++ e) i g -> i < List.length (threads s) -> uses evs i g.
Proof.
  intros H (a & b & c & d & f & h & Hin) Hl. apply in_app_or in Hin as [Hin|Hin]; [do 6 eexists; eauto|].
  apply (st_call_ev _ _ _ _ H) in Hin as (_ & -> & _). lia.
Qed.
Lemma made_old s evs s' e i g : st s s' e -> made_by (evs ++ e) i g -> i < List.length (threads s) -> made_by evs i g.
Proof.
  intros H (a & b & c & d & f & h & Hin) Hl. apply in_app_or in Hin as [Hin|Hin]; [do 6 eexists; eauto|].
  apply (st_call_ev _ _ _ _ H) in Hin as (_ & -> & _). lia.
Qed.

(** Where a new record comes from. *)
Lemma st_thread s s' e i t' : st s s' e -> nth_error (threads s') i = Some t' ->
  (exists t, nth_error (threads s) i = Some t /\ goes t t') \/
  (i = List.length (threads s) /\ tst t' = Stamped /\ tgo t' = GNone /\
   exists par g org, e = [ECall i (tby t') par (tw t') g (tto t') (tev t') org]).
Proof.
  intros H Ht'. destruct (Nat.lt_ge_cases i (List.length (threads s))) as [Hl|Hl].
  - left. destruct (nth_ex _ _ Hl) as [t Ht]. exists t. split; [assumption|].
    destruct (step_threads _ _ _ H _ _ Ht) as (t2 & Ht2 & Hg). assert (t2 = t') by congruence. now subst.
  - right. destruct H; cbn in Ht'; try (apply nth_lt in Ht'; lia).
    + apply nth_snoc in Ht' as [Ht'|[-> ->]]; [apply nth_lt in Ht'; lia|]. cbn. repeat split; eauto.
    + apply nth_lt in Ht'. exfalso. destruct H1; subst s'; cbn in Ht'; rewrite ?upd_length in Ht'; lia.
Qed.

Ltac grow H := destruct (step_threads _ _ _ H) as [].

Lemma fresh_unused s evs : Ev s evs -> forall i b p w g t e o, In (ECall i b p w g t e o) evs -> i < List.length (threads s).
Proof. intros HE i b p w g t e o H. destruct (e_call s evs HE _ _ _ _ _ _ _ _ H) as (t2 & _ & Ht & _). eapply nth_lt; eauto. Qed.

(** The precise change of one record. *)
Lemma st_sent s s' e i : st s s' e -> In (ESent i) e ->
  exists t, nth_error (threads s) i = Some t /\ tst t = Added /\
    box s' = upd_f (box s) (tto t) (box s (tto t) ++ [(i, tw t)]) /\
    exists p g, threads s' = upd (threads s) i (set_pc t p g) /\ (p = Pushed \/ p = Ret).
Proof.
  intros H Hin. destruct H; cbn in Hin; try contradiction; try (destruct Hin as [E|[]]; discriminate).
  destruct H1; cbn in Hin; try contradiction; repeat (destruct Hin as [E|Hin]; [discriminate E|]); try contradiction.
  assert (i = i0) as ->.
  { destruct H2 as [(_ & _ & _ & ->)|(_ & _ & _ & ->)]; cbn in Hin; destruct Hin as [E|Hin]; try congruence; try contradiction.
    destruct Hin as [E|[]]; discriminate. }
  exists t. subst s'. cbn. repeat split; auto. exists p, g. split; [reflexivity|]. intuition.
Qed.
Lemma st_handled s s' e i o : st s s' e -> In (EHandled i o) e ->
  exists a w, cur s a = Some (i, w) /\ in_call a s = false /\ cur s' = upd_f (cur s) a None /\ box s' = box s /\ threads s' = threads s.
Proof.
  intros H Hin. destruct H; cbn in Hin; try contradiction; try (destruct Hin as [E|[]]; discriminate).
  - destruct H1; cbn in Hin; try contradiction; repeat (destruct Hin as [E|Hin]; [discriminate E|]); try contradiction.
    destruct H2 as [(_ & _ & _ & ->)|(_ & _ & _ & ->)]; cbn in Hin; repeat (destruct Hin as [E|Hin]; [discriminate E|]); contradiction.
  - destruct Hin as [E|[]]. injection E as -> ->. exists a, w. repeat split; auto.
Qed.
Lemma st_wake s s' e i b : st s s' e -> In (EWake i b) e ->
  exists t wr, nth_error (threads s) i = Some t /\ tgo t = GSelect /\ nth_error (heap s) (tw t) = Some wr /\
    (b = false -> wgs s (wgroup wr) = 0%Z) /\ s' = with_threads s (upd (threads s) i (set_pc t (tst t) GClosing)) /\ e = [EWake i b].
Proof.
  intros H Hin. destruct H; cbn in Hin; try contradiction; try (destruct Hin as [E|[]]; discriminate).
  destruct H1; cbn in Hin; try contradiction; repeat (destruct Hin as [E|Hin]; [discriminate E|]); try contradiction.
  - destruct H2 as [(_ & _ & _ & ->)|(_ & _ & _ & ->)]; cbn in Hin; repeat (destruct Hin as [E|Hin]; [discriminate E|]); contradiction.
  - destruct Hin as [E|[]]. injection E as <- <-. exists t, wr. repeat split; auto.
Qed.

(** A message stops being outstanding only when its handler ends. *)
Lemma out_step s s' e i : Inv s -> st s s' e -> out s i = true -> out s' i = true \/ exists o, In (EHandled i o) e.
Proof.
  intros HI H Ho. apply out_inv in Ho as (t & Ht & Hc).
  destruct (step_threads _ _ _ H _ _ Ht) as (t' & Ht' & (_ & _ & Hto & _) & _).
  destruct H; cbn in Ht' |- *.
  - left. eapply out_intro; [exact Ht'|]. cbn. rewrite Hto. assert (t' = t) by congruence. now subst.
  - left. eapply out_intro; [exact Ht'|]. cbn. rewrite nth_snoc_old with (y := t) in Ht' by assumption. injection Ht' as <-. exact Hc.
  - left. destruct (Nat.eq_dec i i0) as [->|Hne].
    + assert (t0 = t) by congruence. subst t0. assert (Hi : i0 < List.length (threads s)) by (eapply nth_lt; eauto).
      eapply out_intro; [exact Ht'|].
      destruct H1; subst s'; cbn in *; rewrite ?nth_upd_eq in Ht' by assumption; try (injection Ht' as <-; cbn);
        try (destruct Hc as [Hc|Hc]; [congruence|right; exact Hc]); auto.
      * right; left. unfold upd_f. rewrite String.eqb_refl, map_app, in_app_iff. cbn. auto.
      * assert (t' = t) by congruence. subst t'. exact Hc.
    + rewrite (out_other_cs _ _ _ _ _ _ _ H H1 Hne). eapply out_intro; eauto.
  - left. eapply out_intro; [exact Ht'|]. cbn. rewrite Hto. unfold upd_f. assert (t' = t) by congruence. subst t'.
    destruct (String.eqb_spec (tto t) a) as [E|]; [|exact Hc]. rewrite E, H0, H in Hc.
    destruct Hc as [?|[[<-|?]|[x ?]]]; eauto. discriminate.
  - destruct (Nat.eq_dec i n) as [->|Hne]; [right; exists o; auto|]. left.
    eapply out_intro; [exact Ht'|]. cbn. rewrite Hto. unfold upd_f. assert (t' = t) by congruence. subst t'.
    destruct (String.eqb_spec (tto t) a) as [E|]; [|exact Hc]. rewrite E in *.
    destruct Hc as [?|[?|[x Hx]]]; auto. rewrite H in Hx. injection Hx as -> _. congruence.
  - left. eapply out_intro; [exact Ht'|]. cbn. rewrite Hto. assert (t' = t) by congruence. now subst.
Qed.

Lemma ended_stays s s' e q tq tq' : Inv s -> st s s' e -> nth_error (threads s) q = Some tq ->
  nth_error (threads s') q = Some tq' -> tgo tq = GEnded -> tgo tq' = GEnded.
Proof.
  intros HI H Ht Ht' Hg. assert (Hgo := i_go s HI _ _ Ht). rewrite Hg in Hgo.
  destruct H; cbn in Ht'; try congruence.
  - rewrite (nth_snoc_old _ _ _ _ Ht) in Ht'. congruence.
  - destruct (Nat.eq_dec q i) as [->|Hne].
    + assert (t = tq) by congruence. subst t. assert (Hi : i < List.length (threads s)) by (eapply nth_lt; eauto).
      unfold late in Hgo.
      destruct H1; subst s'; cbn in *; rewrite ?nth_upd_eq in Ht' by assumption; try (injection Ht' as <-; cbn in * );
        try congruence; try (rewrite H1 in Hgo; contradiction).
    + destruct H1; subst s'; cbn in *; rewrite ?nth_upd_neq in Ht' by auto; congruence.
Qed.

Lemma ev_step s evs s' e : Inv s -> Ev s evs -> st s s' e -> Ev s' (evs ++ e).
Proof.
  intros HI HE H. assert (HI' := inv_step s s' e HI H). split.
  - (* e_call *)
    intros i by_ par w g to_ ev org Hin. apply in_app_or in Hin as [Hin|Hin].
    + destruct (e_call s evs HE _ _ _ _ _ _ _ _ Hin) as (t & wr & Ht & H1 & H2 & H3 & H4 & H5 & H6 & H7).
      destruct (step_threads _ _ _ H _ _ Ht) as (t' & Ht' & (G1 & G2 & G3 & G4) & Gl & _ & Gr & _).
      destruct (step_heap _ _ _ H _ _ H5) as (wr' & Hw' & Hk & _).
      exists t', wr'. repeat split; try congruence.
      destruct by_ as [a|]; [|exact H7]. destruct H7 as (k & tk & P1 & P2 & P3 & P4 & P5).
      destruct (step_threads _ _ _ H _ _ P3) as (tk' & Htk' & _ & Gkl & _).
      exists k, tk'. repeat split; auto. intros Ha.
      assert (Ha0 : tst t <> Ret) by (intros E; apply Ha; auto).
      destruct (P5 Ha0) as [w' Hc]. exists w'.
      destruct H; cbn; auto.
      * match goal with Hcs : cs _ _ _ _ _ _ |- _ => destruct Hcs; subst s'; cbn; auto end.
      * unfold upd_f. destruct (String.eqb_spec a a0) as [->|]; [congruence|assumption].
      * unfold upd_f. destruct (String.eqb_spec a a0) as [->|]; [|assumption].
        exfalso. apply Ha0. eapply in_call_false; eauto.
    + apply (st_call_ev _ _ _ _ H) in Hin as (_ & -> & Hth & Hcur & (wr & Hw & Hg) & Hb).
      destruct (step_heap _ _ _ H _ _ Hw) as (wr' & Hw' & Hk & _).
      eexists; exists wr'. rewrite Hth, nth_error_app2, Nat.sub_diag by lia. split; [reflexivity|]. cbn.
      repeat split; auto; [congruence|]. destruct by_ as [a|]; [|assumption]. destruct Hb as (Hi & n & w' & Hc & ->).
      destruct (i_cur s HI _ _ _ Hc) as (tn & Htn & _ & _ & Hl). exists n, tn. split; [reflexivity|]. split; [eapply nth_lt; eauto|].
      split; [now apply nth_snoc_old|]. split; [assumption|]. intros _. exists w'. congruence.
  - (* e_called *)
    intros i t' Ht'. destruct (st_thread _ _ _ _ _ H Ht') as [(t & Ht & (G1 & G2 & G3 & G4) & _)|(-> & _ & _ & par & g & org & ->)].
    + destruct (e_called s evs HE _ _ Ht) as (par & g & org & Hin). exists par, g, org. rewrite G1, G2, G3, G4. apply in_or_app. auto.
    + exists par, g, org. apply in_or_app. right. left. reflexivity.
  - (* e_uniq *)
    intros i b1 p1 w1 g1 t1 e1 o1 b2 p2 w2 g2 t2 e2 o2 H1 H2.
    apply in_app_or in H1 as [H1|H1]; apply in_app_or in H2 as [H2|H2].
    + eapply (e_uniq s evs HE); eauto.
    + apply (fresh_unused _ _ HE) in H1. apply (st_call_ev _ _ _ _ H) in H2 as (_ & -> & _). lia.
    + apply (fresh_unused _ _ HE) in H2. apply (st_call_ev _ _ _ _ H) in H1 as (_ & -> & _). lia.
    + apply (st_call_ev _ _ _ _ H) in H1 as (E & _). rewrite E in H2. destruct H2 as [H2|[]]. exact H2.
  - (* e_sent *)
    intros i Hin. apply in_app_or in Hin as [Hin|Hin].
    + destruct (e_sent s evs HE _ Hin) as ([Hh|Ho] & t & Ht & Hl);
        destruct (step_threads _ _ _ H _ _ Ht) as (t' & Ht' & _ & Gl & _); (split; [|eauto]).
      * left. now apply handled_app.
      * destruct (out_step _ _ _ _ HI H Ho) as [?|[o Hx]]; [auto|]. left. exists o. apply in_or_app. auto.
    + destruct (st_sent _ _ _ _ H Hin) as (t & Ht & Hp & Hb & p & g & Hth & Hp').
      assert (Hi : i < List.length (threads s)) by (eapply nth_lt; eauto).
      assert (Ht' : nth_error (threads s') i = Some (set_pc t p g)) by (rewrite Hth; now apply nth_upd_eq).
      split; [right|].
      * eapply out_intro; [exact Ht'|]. right; left. cbn. rewrite Hb. unfold upd_f. rewrite String.eqb_refl, map_app, in_app_iff. cbn. auto.
      * exists (set_pc t p g). split; [assumption|]. unfold late. cbn. destruct Hp' as [->| ->]; exact I.
  - (* e_late *)
    intros i t' Ht' Hp. destruct (st_thread _ _ _ _ _ H Ht') as [(t & Ht & Hg)|(-> & Hs & _)].
    2:{ rewrite Hs in Hp. destruct Hp as [Hp|[ch Hp]]; discriminate. }
    assert (Hor : In (ESent i) e \/ (tst t = Pushed \/ exists ch, tst t = Waiting ch)).
    { destruct H; cbn in Ht'; try (right; replace t with t' by congruence; exact Hp).
      - right. rewrite (nth_snoc_old _ _ _ _ Ht) in Ht'. injection Ht' as <-. exact Hp.
      - destruct (Nat.eq_dec i i0) as [->|Hne].
        + assert (t0 = t) by congruence. subst t0. assert (Hi : i0 < List.length (threads s)) by (eapply nth_lt; eauto).
          destruct H1; subst s'; cbn in *; rewrite ?nth_upd_eq in Ht' by assumption; try (injection Ht' as <-; cbn in *);
            try (destruct Hp as [Hp|[ch' Hp]]; discriminate); auto.
          * destruct H2 as [(_ & _ & _ & ->)|(_ & _ & _ & ->)]; cbn; auto.
          * right. replace t with t' by congruence. exact Hp.
        + right. destruct H1; subst s'; cbn in *; rewrite ?nth_upd_neq in Ht' by auto; replace t with t' by congruence; exact Hp. }
    apply in_or_app. destruct Hor as [?|Hor]; [auto|]. left. eapply (e_late s evs HE); eauto.
  - (* e_hand *)
    intros i [o Hin]. apply in_app_or in Hin as [Hin|Hin].
    + destruct (e_hand s evs HE i (ex_intro _ o Hin)) as (Ho & t & Ht & Hl).
      destruct (step_threads _ _ _ H _ _ Ht) as (t' & Ht' & _ & Gl & _).
      split; [exact (late_out s s' e i t HI H Ht Hl Ho)|eauto].
    + destruct (st_handled _ _ _ _ _ H Hin) as (a & w & Hc & _ & Hcur & Hb & Hth).
      destruct (i_cur s HI _ _ _ Hc) as (t & Ht & Hto & _ & Hl). rewrite Hth. split; [|eauto].
      apply not_true_iff_false. intros Ho. apply out_inv in Ho as (t2 & Ht2 & Hx). rewrite Hth in Ht2.
      assert (t2 = t) by congruence. subst t2. rewrite Hto, Hcur, Hb in Hx. unfold upd_f in Hx. rewrite String.eqb_refl in Hx.
      destruct Hx as [Hx|[Hx|[x Hx]]]; [unfold late in Hl; rewrite Hx in Hl; exact Hl|eapply (i_cb s HI); eauto|discriminate].
  - (* e_wake *)
    intros i b Hin. apply in_app_or in Hin as [Hin|Hin].
    + destruct (e_wake s evs HE _ _ Hin) as (t & Ht & Hg).
      destruct H; cbn; eauto.
      * exists t. split; [now apply nth_snoc_old|assumption].
      * destruct (Nat.eq_dec i i0) as [->|Hne].
        -- assert (t0 = t) by congruence. subst t0. assert (Hi : i0 < List.length (threads s)) by (eapply nth_lt; eauto).
           assert (Hgo := i_go s HI _ _ Ht).
           destruct H1; subst s'; cbn; rewrite ?nth_upd_eq by assumption; try (eexists; split; [reflexivity|]; cbn; auto; fail); eauto.
           ++ exfalso. destruct Hg as [Hg|Hg]; rewrite Hg in Hgo; unfold late in Hgo; rewrite H1 in Hgo; exact Hgo.
           ++ eexists; split; [reflexivity|]. cbn. destruct Hg as [-> | ->]; auto.
           ++ eexists; split; [reflexivity|]. cbn. destruct H2 as [(E & _)|(_ & _ & -> & _)]; [|exact Hg].
              rewrite E in Hg. destruct Hg; discriminate.
        -- destruct H1; subst s'; cbn; rewrite ?nth_upd_neq by auto; eauto.
    + destruct (st_wake _ _ _ _ _ H Hin) as (t & wr & Ht & _ & _ & _ & -> & _). cbn. rewrite nth_upd_eq by (eapply nth_lt; eauto).
      eexists; split; [reflexivity|]. cbn. auto.
  - (* e_woken *)
    intros i t' Ht' Hg. destruct (st_thread _ _ _ _ _ H Ht') as [(t & Ht & _)|(-> & _ & Hs & _)].
    2:{ rewrite Hs in Hg. destruct Hg; discriminate. }
    assert (Hor : (exists b, In (EWake i b) e) \/ (tgo t = GClosing \/ tgo t = GEnded)).
    { destruct H; cbn in Ht'; try (right; replace t with t' by congruence; exact Hg).
      - right. rewrite (nth_snoc_old _ _ _ _ Ht) in Ht'. injection Ht' as <-. exact Hg.
      - destruct (Nat.eq_dec i i0) as [->|Hne].
        + assert (t0 = t) by congruence. subst t0. assert (Hi : i0 < List.length (threads s)) by (eapply nth_lt; eauto).
          destruct H1; subst s'; cbn in *; rewrite ?nth_upd_eq in Ht' by assumption; try (injection Ht' as <-; cbn in *); auto.
          * destruct Hg; discriminate.
          * destruct (tgo t); auto; destruct Hg; discriminate.
          * destruct H2 as [(_ & _ & -> & ->)|(_ & _ & -> & ->)]; auto. destruct Hg; discriminate.
          * left. exists b. auto.
        + right. destruct H1; subst s'; cbn in *; rewrite ?nth_upd_neq in Ht' by auto; replace t with t' by congruence; exact Hg. }
    destruct Hor as [[b ?]|Hor]; [exists b; apply in_or_app; auto|].
    destruct (e_woken s evs HE _ _ Ht Hor) as [b Hb]. exists b. apply in_or_app; auto.
  - (* e_done *)
    intros w wr' r Hw' Hd.
    assert (Hor : (exists wr, nth_error (heap s) w = Some wr /\ wdone wr = Some r) \/
       exists t, nth_error (threads s') r = Some t /\ tw t = w /\ tgo t <> GNone).
    { destruct H; cbn in Hw'; eauto.
      - apply nth_snoc in Hw' as [Hw'|[-> ->]]; eauto. discriminate.
      - rewrite nth_upd in Hw' by (eapply nth_lt; eauto). destruct (Nat.eqb_spec w0 w) as [<-|]; eauto.
        injection Hw' as <-. eauto.
      - destruct H1; subst s'; cbn in Hw'; eauto.
        rewrite nth_upd in Hw' by (eapply nth_lt; eauto). destruct (Nat.eqb_spec (tw t) w) as [<-|]; eauto.
        injection Hw' as <-. cbn in Hd. injection Hd as <-. right. cbn. rewrite nth_upd_eq by (eapply nth_lt; eauto).
        eexists; split; [reflexivity|]. split; [reflexivity|discriminate]. }
    destruct Hor as [(wr & Hw & Hd0)|?]; [|assumption].
    destruct (e_done s evs HE _ _ _ Hw Hd0) as (t & Ht & Htw & Hg).
    destruct (step_threads _ _ _ H _ _ Ht) as (t' & Ht' & (_ & G2 & _) & _ & Gg & _). exists t'. repeat split; auto. congruence.
  - (* e_wait *)
    intros i t' ch Ht' Hp.
    destruct (st_thread _ _ _ _ _ H Ht') as [(t & Ht & (_ & G2 & _) & _)|(-> & Hs & _)]; [|congruence].
    assert (Hor : tst t = Waiting ch \/ exists wr, nth_error (heap s) (tw t) = Some wr /\ wdone wr = Some ch).
    { destruct H; cbn in Ht'; try (left; congruence).
      - rewrite (nth_snoc_old _ _ _ _ Ht) in Ht'. injection Ht' as <-. auto.
      - destruct (Nat.eq_dec i i0) as [->|Hne].
        + assert (t0 = t) by congruence. subst t0. assert (Hi : i0 < List.length (threads s)) by (eapply nth_lt; eauto).
          destruct H1; subst s'; cbn in *; rewrite ?nth_upd_eq in Ht' by assumption; try (injection Ht' as <-; cbn in *); auto; try discriminate.
          * destruct H2 as [(_ & -> & _)|(_ & -> & _)]; discriminate.
          * injection Hp as <-. eauto.
          * left. congruence.
        + left. destruct H1; subst s'; cbn in *; rewrite ?nth_upd_neq in Ht' by auto; congruence. }
    assert (Hx : exists tr, nth_error (threads s) ch = Some tr /\ tw tr = tw t /\ tgo tr <> GNone).
    { destruct Hor as [Hw|(wr & Hw & Hd)]; [eapply (e_wait s evs HE); eauto|eapply (e_done s evs HE); eauto]. }
    destruct Hx as (tr & Htr & Hwr & Hgr).
    destruct (step_threads _ _ _ H _ _ Htr) as (tr' & Htr' & (_ & G2' & _) & _ & Gg & _). exists tr'. repeat split; auto. congruence.
  - (* e_clos *)
    intros ch Hc.
    assert (Hor : (closedch s ch = true) \/ exists i t wr, nth_error (threads s) i = Some t /\ tgo t = GClosing /\
       nth_error (heap s) (tw t) = Some wr /\ wdone wr = Some ch /\ threads s' = upd (threads s) i (set_pc t (tst t) GEnded)).
    { destruct H as [| |i t wr s' e Ht Hw Hcs| | |]; cbn in Hc; auto.
      destruct Hcs as [| | | | | | | | |s' c Hg Hd Hcl ->|s' c Hg Hd Hcl ->]; subst; cbn in Hc; auto.
      destruct (Nat.eqb_spec ch c) as [E|]; auto. subst c. right. exists i, t, wr. auto. }
    destruct Hor as [Ho|(i & t & wr & Ht & Hg & Hw & Hd & Hth)].
    + destruct (e_clos s evs HE _ Ho) as (tr & q & tq & b & Htr & Hgr & Htq & Ew & Hg & Hb).
      destruct (step_threads _ _ _ H _ _ Htr) as (tr' & Htr' & (_ & G2 & _) & _ & Ggr & _).
      destruct (step_threads _ _ _ H _ _ Htq) as (tq' & Htq' & (_ & G2' & _) & _).
      exists tr', q, tq', b. repeat split; auto; [congruence| |apply in_or_app; auto].
      apply (ended_stays s s' e q tq tq' HI H Htq Htq' Hg).
    + destruct (e_done s evs HE _ _ _ Hw Hd) as (tr & Htr & Hwr & Hgr).
      destruct (e_woken s evs HE _ _ Ht (or_introl Hg)) as [b Hb].
      destruct (step_threads _ _ _ H _ _ Htr) as (tr' & Htr' & (_ & G2 & _) & _ & Ggr & _).
      exists tr', i, (set_pc t (tst t) GEnded), b. repeat split; auto; [|cbn; congruence|apply in_or_app; auto].
      rewrite Hth. apply nth_upd_eq. eapply nth_lt; eauto.
  - (* e_nest *)
    intros i k g t' Hm Huk Hui Ht'.
    destruct (st_thread _ _ _ _ _ H Ht') as [(t & Ht & _ & _ & _ & _ & Gn)|(-> & _ & Hs & _)]; [|assumption].
    assert (Hi : i < List.length (threads s)) by (eapply nth_lt; eauto).
    assert (Hm0 := made_old _ _ _ _ _ _ H Hm Hi). assert (Hui0 := uses_old _ _ _ _ _ _ H Hui Hi).
    destruct (made_lt _ _ _ _ HE Hm0) as (Hlt & tk & Htk & _).
    assert (Huk0 := uses_old _ _ _ _ _ _ H Huk ltac:(lia)).
    assert (Hg := e_nest s evs HE _ _ _ _ Hm0 Huk0 Hui0 Ht).
    destruct (tst t) eqn:Hp; try (apply Gn; congruence).
    (* Stamped *)
    destruct H; cbn in Ht'; try congruence.
    + rewrite (nth_snoc_old _ _ _ _ Ht) in Ht'. congruence.
    + destruct (Nat.eq_dec i i0) as [->|Hne].
      * assert (t0 = t) by congruence. subst t0.
        destruct H1; subst s'; cbn in *; rewrite ?nth_upd_eq in Ht' by assumption; try (injection Ht' as <-; cbn in * ); try congruence.
        exfalso. apply (wg_pos s evs k (wgroup wr) HI HE); [eapply active_parent; eauto; congruence| |assumption].
        assert (wgroup wr = g); [|congruence]. assert (E := uses_ing _ _ _ _ HE Hui0). unfold ing in E. rewrite Ht, H0 in E.
        now apply Nat.eqb_eq in E.
      * destruct H1; subst s'; cbn in *; rewrite ?nth_upd_neq in Ht' by auto; congruence.
  - (* e_root *)
    intros i t' g Ht' Hb Hp Hg Hu.
    assert (Hi : i < List.length (threads s)).
    { destruct (st_thread _ _ _ _ _ H Ht') as [(t & Ht & _)|(-> & Hs & _)]; [eapply nth_lt; eauto|congruence]. }
    destruct (nth_ex _ _ Hi) as [t Ht]. destruct (step_threads _ _ _ H _ _ Ht) as (t2 & Ht2 & (G1 & G2 & _) & _ & Gg & _ & Gn).
    assert (t2 = t') by congruence. subst t2. assert (Hu0 := uses_old _ _ _ _ _ _ H Hu Hi).
    assert (Hg0 : tgo t = GNone) by (destruct (tgo t); auto; exfalso; apply Gg; congruence).
    assert (Hx : exists j b p w to_ ev org, j <> i /\ In (ECall j b p w g to_ ev org) evs /\
      (p = None \/ exists k g', p = Some k /\ g' <> g /\ uses evs k g')).
    { destruct (tst t) eqn:Hp0; try (eapply (e_root s evs HE i t g); eauto; congruence).
      destruct H; cbn in Ht'; try congruence.
      - rewrite (nth_snoc_old _ _ _ _ Ht) in Ht'. congruence.
      - destruct (Nat.eq_dec i i0) as [->|Hne].
        + assert (t0 = t) by congruence. subst t0.
          assert (Egr : wgroup wr = g).
          { assert (E := uses_ing _ _ _ _ HE Hu0). unfold ing in E. rewrite Ht, H0 in E. now apply Nat.eqb_eq in E. }
          destruct H1; subst s'; cbn in *; rewrite ?nth_upd_eq in Ht' by assumption; try (injection Ht' as <-; cbn in * ); try congruence.
          rewrite Egr in H2. destruct (wg_some s evs g HI HE H2) as (j & Hj & Huj).
          assert (Hnl : ~ late t) by (unfold late; rewrite Hp0; tauto).
          apply (other_root s evs i0 t g HI HE Ht Hnl j Huj). intros ->.
          apply out_inv in Hj as (t3 & Ht3 & Hc). assert (t3 = t) by congruence. subst t3.
          destruct Hc as [?|[Hc|[x Hc]]]; [congruence| |].
          * apply in_map_iff in Hc as ([n x] & E & Hc). cbn in E. subst n. destruct (i_box s HI _ _ _ Hc) as (t3 & Ht3' & _ & _ & Hl).
            assert (t3 = t) by congruence. subst t3. auto.
          * destruct (i_cur s HI _ _ _ Hc) as (t3 & Ht3' & _ & _ & Hl). assert (t3 = t) by congruence. subst t3. auto.
        + exfalso. destruct H1; subst s'; cbn in *; rewrite ?nth_upd_neq in Ht' by auto; congruence. }
    destruct Hx as (j & b & p & w & to_ & ev & org & Hj & Hin & Hq). exists j, b, p, w, to_, ev, org. split; [assumption|]. split; [apply in_or_app; auto|].
    destruct Hq as [?|(k & g' & ? & ? & ?)]; [auto|]. right. exists k, g'. repeat split; auto. now apply uses_app.
Qed.

Lemma ev_run aty sched s evs : run (step aty) init sched = Some (s, evs) -> Inv s /\ Ev s evs.
Proof.
  intros H. apply (run_inv (step aty) init (fun _ evs s => Inv s /\ Ev s evs)) with (sched := sched) (evs := evs); auto using inv_init, ev_init.
  intros sched0 evs0 s0 l s1 e _ [HI HE] Hs. apply step_st in Hs. split; [eapply inv_step; eauto|eapply ev_step; eauto].
Qed.
