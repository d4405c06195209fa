(** Publish/subscribe: what is not lost, and what is delivered in the end. *)
From Coq Require Import List String Arith Bool Lia Sorting.Sorted Permutation.
From Verif Require Import Machine AddrModel AddrProofs PubsubModel PubsubSpec PubsubProofs.
From Verif Require UnboundedModel.
Import ListNotations.
Open Scope list_scope.

(** ** Placeholders *)
Definition okT (evs : list event) (s : state) : Prop := forall i t id ttl, nth_error (thrs s) i = Some (NDel t id ttl) -> exists e, In (EInit t e) evs /\ e_id e = id.
Lemma okT_same evs ev s s' : thrs s' = thrs s -> okT evs s -> okT (evs ++ ev) s'.
Proof. intros H I i t id ttl Hi. rewrite H in Hi. destruct (I _ _ _ _ Hi) as (e & A & B). exists e. split; [apply in_or_app; now left|exact B]. Qed.
Lemma okT_snoc evs ev s s' p : thrs s' = thrs s ++ [p] -> match p with NDel _ _ _ => False | _ => True end -> okT evs s -> okT (evs ++ ev) s'.
Proof.
  intros H Hp I i t id ttl Hi. rewrite H in Hi. destruct (Nat.lt_ge_cases i (List.length (thrs s))) as [Hl|Hl].
  - rewrite nth_error_app1 in Hi by exact Hl. destruct (I _ _ _ _ Hi) as (e & A & B). exists e. split; [apply in_or_app; now left|exact B].
  - rewrite nth_error_app2 in Hi by exact Hl. destruct (i - List.length (thrs s)) as [|[|k]]; try discriminate. injection Hi as ->. destruct Hp.
Qed.
Lemma okT_upd evs ev s s' i p q : nth_error (thrs s) i = Some q -> thrs s' = upd (thrs s) i p -> (forall t id ttl, p = NDel t id ttl -> exists e, In (EInit t e) ev /\ e_id e = id) -> okT evs s -> okT (evs ++ ev) s'.
Proof.
  intros Hq H Hp I j t id ttl Hj. rewrite H, nth_upd in Hj by (now apply lt_of_nth in Hq). destruct (Nat.eqb_spec i j) as [->|Hn].
  - injection Hj as ->. destruct (Hp _ _ _ eq_refl) as (e & A & B). exists e. split; [apply in_or_app; now right|exact B].
  - destruct (I _ _ _ _ Hj) as (e & A & B). exists e. split; [apply in_or_app; now left|exact B].
Qed.
Lemma okT_reach sched s evs : run step init sched = Some (s, evs) -> okT evs s.
Proof.
  intros H. revert sched s evs H. apply (run_inv step init (fun sched evs s => okT evs s)); [intros [|i]; discriminate|].
  intros sched evs s l s' ev _ I H. destruct l as [t ttl r|t w body r|t ch md r|c q|c r|c|c h r|c r|t r|i r|c|t]; cbn [step] in H.
  10: {
    destruct (nth_error (thrs s) i) as [p|] eqn:E; [|discriminate]. destruct p as [t ttl|t id ttl|t|c|c|t|t|]; cbn [thr_step] in H.
    - destruct r; cbn [done fails] in H; injection H as <- <-; (eapply okT_upd; [exact E|reflexivity| |exact I]); intros t0 id0 ttl0 X; try discriminate X. injection X as <- <- <-. eexists. split; [now left|reflexivity].
    - destruct r; cbn [done fails] in H; injection H as <- <-; (eapply okT_upd; [exact E|reflexivity| |exact I]); intros t0 id0 ttl0 X; destruct ttl; discriminate X.
    - destruct r; cbn [done fails] in H; injection H as <- <-; (eapply okT_upd; [exact E|reflexivity| |exact I]); intros t0 id0 ttl0 X; discriminate X.
    - red_step H; injection H as <- <-; (eapply okT_upd; [exact E|reflexivity| |exact I]); intros t0 id0 ttl0 X; discriminate X.
    - red_step H; destruct r; cbn [done fails] in H; injection H as <- <-; (eapply okT_upd; [exact E|reflexivity| |exact I]); intros t0 id0 ttl0 X; discriminate X.
    - red_step H; injection H as <- <-; (eapply okT_upd; [exact E|reflexivity| |exact I]); intros t0 id0 ttl0 X; discriminate X.
    - destruct r; cbn [done fails] in H; injection H as <- <-; (eapply okT_upd; [exact E|reflexivity| |exact I]); intros t0 id0 ttl0 X; discriminate X.
    - discriminate. }
  7: { destruct (nth_error (cons s) c) as [x|]; [|discriminate]. destruct (c_up x); [|discriminate]. cbn [negb] in H. destruct (nth_error (c_hs x) h) as [y|]; [|discriminate]. unfold hand_step in H. destruct (h_pc y); red_step H; injection H as <- <-; (apply okT_same with (s := s); [reflexivity|exact I]). }
  2: { red_step H; [injection H as <- <-; apply okT_same with (s := s); [reflexivity|exact I]|]. destruct r; cbn [done fails app] in H; injection H as <- <-; (apply okT_same with (s := s); [reflexivity|exact I]). }
  all: red_step H; injection H as <- <-; first [apply okT_same with (s := s); [reflexivity|exact I]|eapply okT_snoc with (s := s); [reflexivity|exact Logic.I|exact I]].
Qed.

(** ** What is not lost *)
Definition has_group (t ch : string) (s : state) : Prop := exists x g, aget t (strs s) = Some x /\ aget ch (s_grps x) = Some g.
Definition fate (t ch : string) (e : entry) (evs : list event) (s : state) : Prop :=
  (exists c, In (ERead c t ch e) evs) \/ (exists c, In (ELost c t ch e) evs) \/ waiting t ch e s \/ exists c ch', ch' <> ch /\ In (EDel c t ch' (e_id e)) evs.

Lemma before_app {A} (z1 z2 : A) evs ev : before z1 z2 (evs ++ ev) -> before z1 z2 evs \/ In z2 ev.
Proof.
  intros (a & b & d & H). change (a ++ z1 :: b ++ z2 :: d) with (a ++ (z1 :: b) ++ z2 :: d) in H. rewrite app_assoc in H. remember (a ++ z1 :: b) as p eqn:Ep. clear -H Ep.
  assert (K : forall (q evs : list A), evs ++ ev = q ++ z2 :: d -> In z2 ev \/ exists d', evs = q ++ z2 :: d').
  { clear. induction q as [|y q IH]; intros [|w evs] H; cbn in H.
    - left. rewrite H. now left.
    - injection H as -> H. right. eexists. reflexivity.
    - left. rewrite H. right. apply in_or_app. right. now left.
    - injection H as -> H. destruct (IH _ H) as [X|[d' X]]; [now left|]. right. exists d'. cbn. now f_equal. }
  destruct (K _ _ H) as [X|[d' ->]]; [now right|]. left. exists a, b, d'. rewrite Ep. now rewrite <- app_assoc.
Qed.
Lemma before_in1 {A} (z1 z2 : A) evs : before z1 z2 evs -> In z1 evs.
Proof. intros (a & b & d & ->). apply in_or_app. right. now left. Qed.
Lemma before_in2 {A} (z1 z2 : A) evs : before z1 z2 evs -> In z2 evs.
Proof. intros (a & b & d & ->). apply in_or_app. right. right. apply in_or_app. right. now left. Qed.

Lemma kept_waiting s l s' evs ev t ch e : StronglySorted lt (adds evs) -> okT evs s -> In (EPub t e) evs ->
  kept (fun t id => by_thr s l t id \/ exists c ch, In (EDel c t ch id) ev) (fun t ch => In (EDestroy t ch) ev) (fun t => In (EGone t) ev) (strs s) (strs s') ->
  stays t ch ev -> waiting t ch e s -> waiting t ch e s' \/ exists c ch', In (EDel c t ch' (e_id e)) ev.
Proof.
  intros Hs HT Hp Hk [G D] (x & g & A & B & C & E). destruct (Hk _ _ A) as [X|(x' & X & Y & Z)]; [contradiction|]. destruct (Z _ _ B) as [W|(g' & W & V)]; [contradiction|]. destruct (Y _ C) as [U|[(i & r & ttl & _ & U)|U]].
  - left. exists x', g'. rewrite V. auto.
  - exfalso. destruct (HT _ _ _ _ U) as (e' & P & Q). assert (EPub t e = EInit t e') by (eapply adds_same; [exact Hs|exact Hp|exact P|reflexivity|cbn; congruence]). discriminate.
  - now right.
Qed.
Lemma kept_group' s s' ev t ch dl : kept dl (fun t ch => In (EDestroy t ch) ev) (fun t => In (EGone t) ev) (strs s) (strs s') -> stays t ch ev -> has_group t ch s -> has_group t ch s'.
Proof. intros Hk [G D] (x & g & A & B). destruct (Hk _ _ A) as [X|(x' & X & Y & Z)]; [contradiction|]. destruct (Z _ _ B) as [W|(g' & W & V)]; [contradiction|]. exists x', g'. auto. Qed.
Lemma firstn_rest n (l : list entry) e : StronglySorted lt (map e_id l) -> In e l -> In e (firstn n l) \/ forall e', In e' (firstn n l) -> e_id e' < e_id e.
Proof.
  intros Hs He. rewrite <- (firstn_skipn n l) in He, Hs. apply in_app_or in He as [He|He]; [now left|right]. rewrite map_app in Hs. apply sorted_app_inv in Hs as (_ & _ & Hs). intros e' He'. apply Hs; now apply in_map.
Qed.
Lemma stays_app t ch a b : stays t ch (a ++ b) -> stays t ch a /\ stays t ch b.
Proof. unfold stays. rewrite !in_app_iff. tauto. Qed.

Lemma sub_label s l s' ev c t ch : step s l = Some (s', ev) -> In (ESub c t ch) ev -> has_group t ch s'.
Proof.
  intros H Hin. destruct l as [t0 ttl r|t0 w body r|t0 ch0 md r|c0 q|c0 r|c0|c0 h r|c0 r|t0 r|i r|c0|t0]; cbn [step] in H.
  3: { destruct r, (xgroup_create t0 ch0 md (strs s)) as [m|] eqn:E; injection H as <- <-; destruct Hin as [Hin|[]]; try discriminate. injection Hin as _ -> ->. unfold has_group. cbn [strs set_cons set_strs]. unfold xgroup_create in E.
    destruct (aget t (strs s)) as [x|] eqn:Ex; [|discriminate]. destruct (aget ch (s_grps x)) as [g|] eqn:Eg; injection E as <-; [eauto|]. unfold set_group. rewrite aget_aset, String.eqb_refl. eexists _, _. split; [reflexivity|]. cbn [set_grps s_grps]. now rewrite aget_aset, String.eqb_refl. }
  9: { destruct (nth_error (thrs s) i) as [p|]; [|discriminate]. apply thr_cons in H as [_ H]. rewrite Forall_forall in H. destruct (H _ Hin). }
  6: { destruct (nth_error (cons s) c0) as [x|]; [|discriminate]. destruct (c_up x); [|discriminate]. cbn [negb] in H. destruct (nth_error (c_hs x) h) as [y|]; [|discriminate]. unfold hand_step, done in H. destruct (h_pc y); red_step H; injection H as <- <-; cbn in Hin; destruct r; cbn in Hin; intuition discriminate. }
  2: { red_step H; injection H as <- <-; destruct r; cbn in Hin; intuition discriminate. }
  3: { red_step H; injection H as <- <-; try contradiction; apply in_map_iff in Hin as (e & X & _); discriminate. }
  all: red_step H; injection H as <- <-; cbn in Hin; intuition discriminate.
Qed.
Lemma fate_reach t ch sched s evs : run step init sched = Some (s, evs) -> stays t ch evs ->
  ((exists c, In (ESub c t ch) evs) -> has_group t ch s) /\ forall c e, before (ESub c t ch) (EPub t e) evs -> fate t ch e evs s.
Proof.
  intros H. revert sched s evs H. apply (run_inv step init (fun sched evs s => stays t ch evs -> ((exists c, In (ESub c t ch) evs) -> has_group t ch s) /\ forall c e, before (ESub c t ch) (EPub t e) evs -> fate t ch e evs s)).
  { intros _. split; [intros [c []]|]. intros c e X. now apply before_in1 in X. }
  intros sched evs s l s' ev Hr IH H Hst. apply stays_app in Hst as [St1 St2]. destruct (IH St1) as [I1 I2]. clear IH.
  destruct (okS_reach _ _ _ Hr) as (O1 & O2 & O3 & O4 & O5). pose proof (okT_reach _ _ _ Hr) as HT.
  assert (Hr' : run step init (sched ++ [l]) = Some (s', evs ++ ev)) by (eapply run_app; [exact Hr|]; cbn; rewrite H; now rewrite app_nil_r).
  destruct (okS_reach _ _ _ Hr') as (_ & O2' & _ & _ & O5'). destruct (okC_reach _ _ _ Hr') as (_ & _ & C3).
  assert (Hsub : (has_group t ch s -> has_group t ch s') -> (exists c, In (ESub c t ch) (evs ++ ev)) -> has_group t ch s').
  { intros K [c Hc]. apply in_app_or in Hc as [Hc|Hc]; [apply K, I1; eauto|]. eapply sub_label; eassumption. }
  assert (Hold : (forall c e, In (EPub t e) ev -> In (ESub c t ch) (evs ++ ev) -> fate t ch e (evs ++ ev) s') -> (forall e, In (EPub t e) evs -> waiting t ch e s -> fate t ch e (evs ++ ev) s') ->
    forall c e, before (ESub c t ch) (EPub t e) (evs ++ ev) -> fate t ch e (evs ++ ev) s').
  { intros K1 K2 c e X. pose proof (before_in1 _ _ _ X) as Y. apply before_app in X as [X|X]; [|eapply K1; eassumption]. destruct (I2 _ _ X) as [[d Z]|[[d Z]|[Z|(d & ch' & Z & W)]]].
    - left. exists d. apply in_or_app. now left.
    - right. left. exists d. apply in_or_app. now left.
    - apply K2; [now apply before_in2 in X|exact Z].
    - right. right. right. exists d, ch'. split; [exact Z|]. apply in_or_app. now left. }
  pose proof (step_delta _ _ _ _ H) as [Hw Hn Hp Hk|t' w body tl Hs Hn Hp He|t' ch' md r -> Hc Hn Hp|c x es Hx Hc Hn He].
  - split; [apply Hsub; intros X; eapply kept_group'; eassumption|]. apply Hold.
    + intros c e X _. rewrite Forall_forall in Hp. destruct (Hp _ X).
    + intros e He Hwt. destruct (kept_waiting s l s' evs ev t ch e O2 HT He Hk St2 Hwt) as [X|(c & ch' & X)]; [right; right; now left|]. destruct (string_dec ch' ch) as [->|Hne].
      * left. exists c. assert (Y : In (EDel c t ch (e_id e)) (evs ++ ev)) by (apply in_or_app; now right). destruct (C3 _ Y) as (_ & e' & P & Q). replace e with e'; [exact P|]. eapply added_same; [exact O2'|apply in_or_app; left; exact He|exact (O5' _ _ _ _ P)|exact Q].
      * right. right. right. exists c, ch'. split; [exact Hne|]. apply in_or_app. now right.
  - assert (Hg : has_group t ch s -> has_group t ch s' /\ (t' = t -> waiting t ch (mkE (next s) w body) s')).
    { intros (y & g & A & B). unfold has_group, waiting. rewrite Hs. unfold xadd. destruct (String.eqb_spec t t') as [<-|Hne].
      - rewrite aget_aset, String.eqb_refl. unfold get_or_new. rewrite A. split; [eexists _, _; split; [reflexivity|exact B]|]. intros _. eexists _, _. split; [reflexivity|]. split; [exact B|]. split; [cbn; apply in_or_app; right; now left|]. destruct (O1 _ _ A) as (_ & _ & X & Y). specialize (Y _ _ B). cbn. lia.
      - rewrite aget_aset. apply String.eqb_neq in Hne as Hne'. rewrite Hne'. split; [eauto|congruence]. }
    assert (Hev : forall z, In z ev -> plain z \/ z = EPub t' (mkE (next s) w body) \/ z = EInit t' (mkE (next s) w body)).
    { intros z Hz. rewrite Forall_forall in Hp. destruct He as [->|(-> & _)]; destruct Hz as [<-|Hz]; auto. }
    split; [apply Hsub; intros X; now apply Hg|]. apply Hold.
    + intros c e X Y. apply in_app_or in Y as [Y|Y].
      * destruct (Hev _ X) as [Z|[Z|Z]]; [destruct Z| |discriminate]. injection Z as -> ->. right. right. left. apply Hg; [apply I1; eauto|reflexivity].
      * exfalso. pose proof (step_cdelta _ _ _ _ H) as [_ Q _|t0 ch0 _ Q _|d x x' _ _ _ _ _ _ Q _ _].
        -- rewrite Forall_forall in Q. exact (Q _ Y).
        -- rewrite Q in X. destruct X as [X|[]]; discriminate.
        -- rewrite Forall_forall in Q. exact (Q _ Y).
    + intros e Hin (y & g & A & B & C & D). right. right. left. unfold waiting. rewrite Hs. unfold xadd. destruct (String.eqb_spec t t') as [<-|Hne].
      * rewrite aget_aset, String.eqb_refl. unfold get_or_new. rewrite A. eexists _, _. split; [reflexivity|]. split; [exact B|]. split; [cbn; apply in_or_app; now left|exact D].
      * rewrite aget_aset. apply String.eqb_neq in Hne. rewrite Hne. eauto 6.
  - assert (Hk : forall y g, aget t (strs s) = Some y -> aget ch (s_grps y) = Some g -> exists y', aget t (strs s') = Some y' /\ aget ch (s_grps y') = Some g /\ s_ents y' = s_ents y).
    { intros y g A B. apply create_inv in Hc as [Hc|(st & g' & X & Y & Z & _)]; [rewrite Hc; eauto|]. rewrite Z. unfold set_group. rewrite aget_aset. destruct (String.eqb_spec t t') as [<-|Hne]; [|eauto]. assert (st = y) as -> by congruence. eexists. split; [reflexivity|]. cbn. split; [|reflexivity].
      rewrite aget_aset. destruct (String.eqb_spec ch ch') as [<-|]; [congruence|exact B]. }
    split; [apply Hsub; intros (y & g & A & B); destruct (Hk _ _ A B) as (y' & P & Q & _); exists y', g; auto|]. apply Hold.
    + intros c e X _. rewrite Forall_forall in Hp. destruct (Hp _ X).
    + intros e Hin (y & g & A & B & C & D). destruct (Hk _ _ A B) as (y' & P & Q & R). right. right. left. exists y', g. rewrite R. auto.
  - apply read_inv in Hc as (st & g & g' & A & B & C & D & F).
    assert (Hk : forall y k, aget t (strs s) = Some y -> aget ch (s_grps y) = Some k -> exists y' k', aget t (strs s') = Some y' /\ aget ch (s_grps y') = Some k' /\ s_ents y' = s_ents y /\ (k' = k \/ c_top x = t /\ c_ch x = ch /\ y = st /\ k = g /\ k' = g')).
    { intros y k P Q. rewrite F. unfold set_group. rewrite aget_aset. destruct (String.eqb_spec t (c_top x)) as [Et|Hne]; [|eauto 8]. rewrite <- Et in A. assert (st = y) as -> by congruence. cbn. eexists. destruct (string_dec ch (c_ch x)) as [Ec|Hne].
      - exists g'. split; [reflexivity|]. cbn. rewrite aget_aset. rewrite Ec, String.eqb_refl. split; [reflexivity|]. split; [reflexivity|]. right. rewrite Ec in Q. assert (g = k) as -> by congruence. auto.
      - exists k. split; [reflexivity|]. cbn. rewrite aget_aset. apply String.eqb_neq in Hne. rewrite Hne. auto. }
    split; [apply Hsub; intros (y & k & P & Q); destruct (Hk _ _ P Q) as (y' & k' & P' & Q' & _); exists y', k'; auto|]. apply Hold.
    + intros c' e X _. exfalso. destruct He as [->| ->]; apply in_map_iff in X as (e' & X & _); discriminate.
    + intros e Hin (y & k & P & Q & R & S). destruct (Hk _ _ P Q) as (y' & k' & P' & Q' & R' & [->|(E1 & E2 & -> & -> & ->)]); [right; right; left; exists y', k; rewrite R'; auto|].
      destruct (O1 _ _ P) as (J1 & _ & _ & _). assert (Hf : In e (fresh st g)) by (apply filter_In; split; [exact R|now apply Nat.ltb_lt]). assert (Hso : StronglySorted lt (map e_id (fresh st g))) by (apply sorted_filter, J1).
      destruct (firstn_rest 10 _ _ Hso Hf) as [V|V]; rewrite <- C in V.
      * destruct He as [->| ->]; [left|right; left]; exists c; apply in_or_app; right; rewrite E1, E2; now apply in_map.
      * right. right. left. exists y', g'. rewrite R'. split; [exact P'|]. split; [exact Q'|]. split; [exact R|]. rewrite D. destruct es as [|e0 es0]; [exact S|]. assert (X : In (last_id (g_last g) (e0 :: es0)) (map e_id (e0 :: es0))) by (apply last_id_in; discriminate). apply in_map_iff in X as (e1 & <- & X). auto.
Qed.

(** ** A group that was destroyed hands out nothing *)
Lemma no_group_no_read t ch sched : forall s s' evs, run step s sched = Some (s', evs) -> ~ has_group t ch s -> (forall md r, ~ In (LSub t ch md r) sched) ->
  ~ has_group t ch s' /\ forall c e, ~ In (ERead c t ch e) evs.
Proof.
  induction sched as [|l sched IH]; cbn [run]; intros s s' evs H Hg Hl; [injection H as <- <-; auto|].
  destruct (step s l) as [[s1 e1]|] eqn:E; [|discriminate]. destruct (run step s1 sched) as [[s2 e2]|] eqn:E2; [|discriminate]. injection H as <- <-.
  assert (K : ~ has_group t ch s1 /\ forall c e, ~ In (ERead c t ch e) e1).
  { pose proof (step_delta _ _ _ _ E) as [Hw Hn Hp Hk|t' w body tl Hs Hn Hp He|t' ch' md r -> Hc Hn Hp|c x es Hx Hc Hn He].
    - split; [|intros c e X; rewrite Forall_forall in Hp; destruct (Hp _ X)]. intros (x & g & A & B). destruct (Hw _ _ A) as (y & P & _ & _ & Q). destruct (Q _ _ B) as (k & R & _). apply Hg. exists y, k. auto.
    - split.
      + intros (x & g & A & B). rewrite Hs in A. unfold xadd in A. rewrite aget_aset in A. destruct (String.eqb_spec t t') as [<-|]; [|apply Hg; exists x, g; auto]. injection A as <-. cbn in B. unfold get_or_new in B. destruct (aget t (strs s)) as [y|] eqn:Ey; [|discriminate]. apply Hg. exists y, g. auto.
      + intros c e X. rewrite Forall_forall in Hp. destruct He as [->|(-> & _)]; (destruct X as [X|X]; [discriminate|exact (Hp _ X)]).
    - split; [|intros c e X; rewrite Forall_forall in Hp; destruct (Hp _ X)]. intros (x & g & A & B). apply create_inv in Hc as [Hc|(st & g' & X & Y & Z & _)]; [rewrite Hc in A; apply Hg; exists x, g; auto|].
      rewrite Z in A. unfold set_group in A. rewrite aget_aset in A. destruct (String.eqb_spec t t') as [<-|]; [|apply Hg; exists x, g; auto]. injection A as <-. cbn in B. rewrite aget_aset in B. destruct (String.eqb_spec ch ch') as [<-|]; [|apply Hg; exists st, g; auto].
      apply (Hl md r). now left.
    - apply read_inv in Hc as (st & g & g' & A & B & C & D & F). split.
      + intros (y & k & P & Q). rewrite F in P. unfold set_group in P. rewrite aget_aset in P. destruct (String.eqb_spec t (c_top x)) as [Et|]; [|apply Hg; exists y, k; auto]. injection P as <-. cbn in Q. rewrite aget_aset in Q. apply Hg. destruct (String.eqb_spec ch (c_ch x)) as [Ec|].
        * exists st, g. rewrite Et, Ec. auto.
        * exists st, k. rewrite Et. auto.
      + intros c' e X. destruct He as [->| ->]; apply in_map_iff in X as (e' & X & _); [|discriminate]. injection X as -> <- <- ->. apply Hg. exists st, g. auto. }
  destruct K as [K1 K2]. destruct (IH _ _ _ E2 K1) as [A B]; [intros md r X; apply (Hl md r); now right|]. split; [exact A|]. intros c e X. apply in_app_or in X as [X|X]; [eapply K2|eapply B]; exact X.
Qed.

(** ** A consumer that is left alone delivers everything *)
Definition unread (t ch : string) (m : list (string * stream)) : nat := match find_group t ch m with Some (s, g) => List.length (fresh s g) | None => 0 end.
Definition hw (y : handler) : nat := match h_pc y with HRecv => 1 | HDel _ => 2 | HAck _ => 3 | HPush _ => 4 | HLoad _ => 5 end.
Definition wt (x : consumer) : nat :=
  9 * List.length (c_rd x) + 8 * List.length (opt (UnboundedModel.holder (c_buf x))) + 7 * List.length (UnboundedModel.backlog (c_buf x)) + 6 * List.length (opt (UnboundedModel.chan (c_buf x))) + sumf hw (c_hs x).
Definition mu (s : state) (x : consumer) : nat := 10 * unread (c_top x) (c_ch x) (strs s) + wt x.

Lemma filter_len {A} (p q : A -> bool) l : (forall a, In a l -> p a = true -> q a = true) -> List.length (filter p l) <= List.length (filter q l).
Proof. induction l as [|a l IH]; cbn; intros H; [lia|]. specialize (IH (fun b Hb => H b (or_intror Hb))). destruct (p a) eqn:E; [rewrite (H a (or_introl eq_refl) E); cbn; lia|]. destruct (q a); cbn; lia. Qed.
Lemma filter_filter_len {A} (p q : A -> bool) l : List.length (filter p (filter q l)) <= List.length (filter p l).
Proof. induction l as [|a l IH]; cbn; [lia|]. destruct (q a); cbn; destruct (p a); cbn; lia. Qed.
Lemma unread_weaker t ch m m' : weaker m m' -> unread t ch m' <= unread t ch m.
Proof.
  intros H. unfold unread. destruct (find_group t ch m') as [[s' g']|] eqn:E; [|lia]. apply find_group_inv in E as [A B]. destruct (H _ _ A) as (s & P & _ & [p Q] & R). destruct (R _ _ B) as (g & S & T). unfold find_group. rewrite P, S. unfold fresh. rewrite Q, T. apply filter_filter_len.
Qed.
Lemma unread_read t ch c m es m' : (forall s, aget t m = Some s -> StronglySorted lt (map e_id (s_ents s))) -> xreadgroup t ch c m = Some (es, m') -> unread t ch m' + List.length es <= unread t ch m /\ (unread t ch m <> 0 -> es <> []).
Proof.
  intros Hs H. apply read_inv in H as (s & g & g' & A & B & C & D & ->). specialize (Hs _ A). unfold unread, find_group, set_group. rewrite A, B, aget_aset, String.eqb_refl. cbn [s_grps set_grps]. rewrite aget_aset, String.eqb_refl. split.
  - assert (Hso : StronglySorted lt (map e_id es)) by (rewrite C; apply sorted_firstn, sorted_filter, Hs).
    assert (Hge : g_last g <= g_last g').
    { rewrite D. destruct es as [|e0 es0]; [apply Nat.le_refl|]. assert (X : In (last_id (g_last g) (e0 :: es0)) (map e_id (e0 :: es0))) by (apply last_id_in; discriminate). apply in_map_iff in X as (e & <- & X). rewrite C in X. apply in_fresh in X as [_ X]. lia. }
    assert (F : fresh (set_grps s (aset ch g' (s_grps s))) g' = filter (fun e => Nat.ltb (g_last g') (e_id e)) (fresh s g)).
    { unfold fresh. cbn [s_ents set_grps]. clear -Hge. induction (s_ents s) as [|e l IH]; cbn [filter]; [reflexivity|]. destruct (Nat.ltb_spec (g_last g) (e_id e)); cbn [filter]; destruct (Nat.ltb_spec (g_last g') (e_id e)); try lia; try (now f_equal); exact IH. }
    rewrite F. rewrite <- (firstn_skipn 10 (fresh s g)) at 1. rewrite filter_app, app_length, <- C.
    assert (Z : filter (fun e => Nat.ltb (g_last g') (e_id e)) es = []).
    { assert (Q : forall e, In e es -> e_id e <= g_last g') by (intros e He; rewrite D; apply last_id_max; [exact Hso|now apply in_map]). clear -Q. induction es as [|e l IH]; cbn [filter]; [reflexivity|]. destruct (Nat.ltb_spec (g_last g') (e_id e)); [specialize (Q e (or_introl eq_refl)); lia|]. apply IH. intros e' He'. apply Q. now right. }
    rewrite Z. cbn [List.length Nat.add]. assert (L : List.length es + List.length (skipn 10 (fresh s g)) = List.length (fresh s g)) by (rewrite C; pose proof (f_equal (@List.length entry) (firstn_skipn 10 (fresh s g))) as X; rewrite app_length in X; exact X).
    assert (L2 : List.length (filter (fun e => Nat.ltb (g_last g') (e_id e)) (skipn 10 (fresh s g))) <= List.length (skipn 10 (fresh s g))) by (rewrite <- (filter_true (skipn 10 (fresh s g))) at 2; apply filter_len; auto). lia.
  - intros Hn X. rewrite C in X. destruct (fresh s g); [now elim Hn|discriminate].
Qed.
Lemma buf_put (b : UnboundedModel.state entry) e b' ev : UnboundedModel.holder b = None -> UnboundedModel.step b (UnboundedModel.LPut e) = Some (b', ev) ->
  8 * List.length (opt (UnboundedModel.holder b')) + 7 * List.length (UnboundedModel.backlog b') + 6 * List.length (opt (UnboundedModel.chan b')) <= 8 + (8 * List.length (opt (UnboundedModel.holder b)) + 7 * List.length (UnboundedModel.backlog b) + 6 * List.length (opt (UnboundedModel.chan b))).
Proof. destruct b as [[k|] [|z bl] ho]; cbn [UnboundedModel.holder UnboundedModel.step UnboundedModel.backlog UnboundedModel.chan]; intros -> H; injection H as <- <-; cbn [UnboundedModel.holder UnboundedModel.backlog UnboundedModel.chan opt]; rewrite ?app_length; cbn [List.length]; rewrite ?app_length; cbn [List.length]; lia. Qed.
Lemma buf_append (b : UnboundedModel.state entry) b' ev : UnboundedModel.step b UnboundedModel.LAppend = Some (b', ev) ->
  8 * List.length (opt (UnboundedModel.holder b')) + 7 * List.length (UnboundedModel.backlog b') + 6 * List.length (opt (UnboundedModel.chan b')) < 8 * List.length (opt (UnboundedModel.holder b)) + 7 * List.length (UnboundedModel.backlog b) + 6 * List.length (opt (UnboundedModel.chan b)).
Proof. destruct b as [k bl [v|]]; cbn [UnboundedModel.step UnboundedModel.holder]; intros H; [|discriminate]. injection H as <- <-. cbn [UnboundedModel.holder UnboundedModel.backlog UnboundedModel.chan opt]; rewrite ?app_length; cbn [List.length]; lia. Qed.
Lemma buf_recv (b : UnboundedModel.state entry) h b' ev : UnboundedModel.step b (UnboundedModel.LRecv h) = Some (b', ev) ->
  8 * List.length (opt (UnboundedModel.holder b')) + 7 * List.length (UnboundedModel.backlog b') + 6 * List.length (opt (UnboundedModel.chan b')) + 6 = 8 * List.length (opt (UnboundedModel.holder b)) + 7 * List.length (UnboundedModel.backlog b) + 6 * List.length (opt (UnboundedModel.chan b)).
Proof. destruct b as [[k|] bl ho]; cbn [UnboundedModel.step UnboundedModel.chan]; intros H; [|discriminate]. injection H as <- <-. cbn [UnboundedModel.holder UnboundedModel.backlog UnboundedModel.chan opt List.length]. lia. Qed.
Lemma buf_load (b : UnboundedModel.state entry) h b' ev : UnboundedModel.step b (UnboundedModel.LLoad h) = Some (b', ev) ->
  8 * List.length (opt (UnboundedModel.holder b')) + 7 * List.length (UnboundedModel.backlog b') + 6 * List.length (opt (UnboundedModel.chan b')) <= 8 * List.length (opt (UnboundedModel.holder b)) + 7 * List.length (UnboundedModel.backlog b) + 6 * List.length (opt (UnboundedModel.chan b)).
Proof. destruct b as [[k|] [|v bl] [w|]]; cbn [UnboundedModel.step UnboundedModel.holder UnboundedModel.backlog UnboundedModel.chan]; intros H; try discriminate; injection H as <- <-; cbn [UnboundedModel.holder UnboundedModel.backlog UnboundedModel.chan opt List.length]; lia. Qed.

(** Own steps do not add to the work, and all but an empty read take some off. *)
Lemma own_step c l s s' ev x : (forall t st, aget t (strs s) = Some st -> StronglySorted lt (map e_id (s_ents st))) -> nth_error (cons s) c = Some x -> own c l -> step s l = Some (s', ev) ->
  exists x', nth_error (cons s') c = Some x' /\ c_top x' = c_top x /\ c_ch x' = c_ch x /\ c_up x' = c_up x /\ List.length (c_hs x') = List.length (c_hs x) /\
    mu s' x' <= mu s x /\ (l <> LRead c Ok \/ unread (c_top x) (c_ch x) (strs s) <> 0 -> mu s' x' < mu s x).
Proof.
  intros HS Hx Ho H. pose proof (lt_of_nth _ _ _ Hx) as Hlt. destruct l as [t ttl r|t w body r|t ch md r|d q|d r|d|d h r|d r|t r|i r|d|t]; try destruct Ho.
  - destruct r; [|destruct Ho..]. cbn in Ho. subst d. cbn [step] in H. rewrite Hx in H. destruct (c_up x) eqn:Eu; [|discriminate]. cbn [negb] in H. destruct (c_rd x) eqn:Er; [|discriminate]. destruct (UnboundedModel.holder (c_buf x)) eqn:Eh; [discriminate|].
    destruct (xreadgroup (c_top x) (c_ch x) c (strs s)) as [[es m]|] eqn:E; injection H as <- <-.
    + exists (set_buf x es (c_buf x)). split; [cbn; now apply nth_upd_eq|]. split; [reflexivity|]. split; [reflexivity|]. split; [exact Eu|]. split; [reflexivity|].
      destruct (unread_read _ _ _ _ _ _ (HS (c_top x)) E) as [A B]. unfold mu, wt. cbn [c_top c_ch set_buf strs set_strs set_cons c_rd c_buf c_hs]. rewrite Er. cbn [List.length]. split; [lia|]. intros [X|X]; [congruence|]. specialize (B X). destruct es; [congruence|cbn [List.length] in *; lia].
    + exists x. split; [exact Hx|]. split; [reflexivity|]. split; [reflexivity|]. split; [exact Eu|]. split; [reflexivity|]. split; [lia|]. intros [X|X]; [congruence|]. exfalso. apply X. unfold unread. unfold xreadgroup in E. destruct (find_group (c_top x) (c_ch x) (strs s)) as [[? ?]|]; [discriminate|reflexivity].
  - cbn [step] in H. rewrite Hx in H. destruct (c_up x) eqn:Eu; [|discriminate]. cbn [negb] in H. destruct (UnboundedModel.holder (c_buf x)) as [v|] eqn:Eh.
    + destruct (UnboundedModel.step (c_buf x) UnboundedModel.LAppend) as [[b eb]|] eqn:Eb; [|discriminate]. injection H as <- <-. exists (set_buf x (c_rd x) b). split; [cbn; now apply nth_upd_eq|]. split; [reflexivity|]. split; [reflexivity|]. split; [exact Eu|]. split; [reflexivity|].
      pose proof (buf_append _ _ _ Eb). unfold mu, wt. cbn [c_top c_ch set_buf strs set_strs set_cons c_rd c_buf c_hs]. lia.
    + destruct (c_rd x) as [|e es] eqn:Er; [discriminate|]. destruct (UnboundedModel.step (c_buf x) (UnboundedModel.LPut e)) as [[b eb]|] eqn:Eb; [|discriminate]. injection H as <- <-. exists (set_buf x es b). split; [cbn; now apply nth_upd_eq|]. split; [reflexivity|]. split; [reflexivity|]. split; [exact Eu|]. split; [reflexivity|].
      pose proof (buf_put _ _ _ _ Eh Eb). unfold mu, wt. cbn [c_top c_ch set_buf strs set_strs set_cons c_rd c_buf c_hs]. rewrite Er. cbn [List.length]. lia.
  - destruct r; [|destruct Ho..]. cbn in Ho. subst d. cbn [step] in H. rewrite Hx in H. destruct (c_up x) eqn:Eu; [|discriminate]. cbn [negb] in H. destruct (nth_error (c_hs x) h) as [y|] eqn:Ey; [|discriminate]. unfold hand_step in H.
    assert (Hs : forall q p, sumf hw (upd (c_hs x) h (mkH q p)) + hw y = sumf hw (c_hs x) + hw (mkH q p)) by (intros q p; apply sumf_upd, Ey).
    assert (K : forall b p m ev0, weaker (strs s) m -> 8 * List.length (opt (UnboundedModel.holder b)) + 7 * List.length (UnboundedModel.backlog b) + 6 * List.length (opt (UnboundedModel.chan b)) + hw (mkH (h_q y) p) < 8 * List.length (opt (UnboundedModel.holder (c_buf x))) + 7 * List.length (UnboundedModel.backlog (c_buf x)) + 6 * List.length (opt (UnboundedModel.chan (c_buf x))) + hw y ->
       Some (set_strs (set_cons s (upd (cons s) c (set_hs x b (upd (c_hs x) h (mkH (h_q y) p))))) m, ev0) = Some (s', ev) ->
       exists x', nth_error (cons s') c = Some x' /\ c_top x' = c_top x /\ c_ch x' = c_ch x /\ c_up x' = true /\ List.length (c_hs x') = List.length (c_hs x) /\ mu s' x' <= mu s x /\ (LHand c h Ok <> LRead c Ok \/ unread (c_top x) (c_ch x) (strs s) <> 0 -> mu s' x' < mu s x)).
    { intros b p m ev0 Hw Hb [= <- <-]. eexists. split; [cbn; now apply nth_upd_eq|]. split; [reflexivity|]. split; [reflexivity|]. split; [exact Eu|]. split; [cbn; apply upd_length|].
      pose proof (unread_weaker (c_top x) (c_ch x) _ _ Hw). specialize (Hs (h_q y) p). unfold mu, wt. cbn [c_top c_ch set_hs strs set_strs set_cons c_rd c_buf c_hs]. lia. }
    destruct (h_pc y) as [|e|e|e|e] eqn:Ep.
    + destruct (UnboundedModel.step (c_buf x) (UnboundedModel.LRecv h)) as [[bb eb]|] eqn:Eb; [|discriminate]. destruct (content_recv _ _ _ _ Eb) as (e & -> & _). pose proof (buf_recv _ _ _ _ Eb) as Z. apply (K bb (HLoad e) (strs s) [] (weaker_refl _)); [unfold hw; cbn [h_pc]; rewrite Ep; lia|exact H].
    + destruct (UnboundedModel.step (c_buf x) (UnboundedModel.LLoad h)) as [[bb eb]|] eqn:Eb; [|discriminate]. pose proof (buf_load _ _ _ _ Eb) as Z. apply (K bb (HPush e) (strs s) [] (weaker_refl _)); [unfold hw; cbn [h_pc]; rewrite Ep; lia|exact H].
    + apply (K (c_buf x) (HAck e) (strs s) _ (weaker_refl _)) in H; [exact H|unfold hw; cbn [h_pc]; rewrite Ep; lia].
    + apply (K (c_buf x) (HDel e) _ _ (weaker_ack _ _ _ _)) in H; [exact H|unfold hw; cbn [h_pc]; rewrite Ep; lia].
    + cbn [done] in H. apply (K (c_buf x) HRecv _ _ (weaker_xdel _ _ _)) in H; [exact H|unfold hw; cbn [h_pc]; rewrite Ep; lia].
Qed.

(** As long as there is work, one of the goroutines of the consumer can go on with it. *)
Definition load_or_recv (y : handler) : bool := match h_pc y with HRecv => true | _ => false end.
Lemma work_enabled c s x : nth_error (cons s) c = Some x -> c_up x = true -> c_hs x <> [] -> moving x -> infl x <> [] \/ unread (c_top x) (c_ch x) (strs s) <> 0 ->
  exists l s' ev, own c l /\ step s l = Some (s', ev) /\ (l <> LRead c Ok \/ unread (c_top x) (c_ch x) (strs s) <> 0).
Proof.
  intros Hx Hu Hh Hm Hw.
  assert (KP : forall e es, c_rd x = e :: es -> UnboundedModel.holder (c_buf x) = None -> exists l s' ev, own c l /\ step s l = Some (s', ev) /\ (l <> LRead c Ok \/ unread (c_top x) (c_ch x) (strs s) <> 0)).
  { intros e es Er Eh. exists (LPut c). cbn [step]. rewrite Hx, Hu, Eh, Er. cbn [negb]. destruct (UnboundedModel.step (c_buf x) (UnboundedModel.LPut e)) as [[b eb]|] eqn:Eb.
    - eexists _, _. split; [reflexivity|]. split; [reflexivity|]. left. discriminate.
    - exfalso. cbn in Eb. rewrite Eh in Eb. destruct (UnboundedModel.backlog (c_buf x)), (UnboundedModel.chan (c_buf x)); discriminate. }
  assert (KA : UnboundedModel.holder (c_buf x) <> None -> exists l s' ev, own c l /\ step s l = Some (s', ev) /\ (l <> LRead c Ok \/ unread (c_top x) (c_ch x) (strs s) <> 0)).
  { intros Eh. exists (LPut c). cbn [step]. rewrite Hx, Hu. cbn [negb]. destruct (UnboundedModel.holder (c_buf x)) as [v|] eqn:E; [|congruence]. cbn. rewrite E. eexists _, _. split; [reflexivity|]. split; [reflexivity|]. left. discriminate. }
  destruct (UnboundedModel.holder (c_buf x)) as [v|] eqn:Eh; [apply KA; discriminate|]. clear KA.
  (* a handler that holds something *)
  destruct (existsb (fun y => negb (load_or_recv y)) (c_hs x)) eqn:Ex.
  - apply existsb_exists in Ex as (y & Hin & Hy). apply In_nth_error in Hin as [h Hn]. exists (LHand c h Ok). cbn [step]. rewrite Hx, Hu, Hn. cbn [negb]. unfold hand_step. unfold load_or_recv in Hy. destruct (h_pc y) as [|e|e|e|e] eqn:Ep; [discriminate|..].
    + destruct (UnboundedModel.step (c_buf x) (UnboundedModel.LLoad h)) as [[bb eb]|] eqn:Eb; [|exfalso; cbn in Eb; rewrite Eh in Eb; destruct (UnboundedModel.backlog (c_buf x)), (UnboundedModel.chan (c_buf x)); discriminate].
      eexists _, _. split; [reflexivity|]. split; [reflexivity|]. left. discriminate.
    + eexists _, _. split; [reflexivity|]. split; [reflexivity|]. left. discriminate.
    + eexists _, _. split; [reflexivity|]. split; [reflexivity|]. left. discriminate.
    + eexists _, _. split; [reflexivity|]. split; [reflexivity|]. left. discriminate.
  - assert (Hall : forall y, In y (c_hs x) -> h_pc y = HRecv).
    { intros y Hy. destruct (load_or_recv y) eqn:El; [unfold load_or_recv in El; destruct (h_pc y); congruence|]. exfalso. assert (existsb (fun y => negb (load_or_recv y)) (c_hs x) = true) by (apply existsb_exists; exists y; rewrite El; auto). congruence. }
    destruct (UnboundedModel.chan (c_buf x)) as [k|] eqn:Ek.
    + destruct (c_hs x) as [|y hs] eqn:Ey; [congruence|]. exists (LHand c 0 Ok). cbn [step]. rewrite Hx, Hu, Ey. cbn [negb nth_error]. unfold hand_step. rewrite (Hall y (or_introl eq_refl)). cbn. rewrite Ek. eexists _, _. split; [reflexivity|]. split; [reflexivity|]. left. discriminate.
    + destruct (UnboundedModel.backlog (c_buf x)) as [|e0 bl] eqn:Eb.
      2: { exfalso. destruct Hm as [X|(h & y & e & X & Y)]; [left; rewrite Eb; discriminate|congruence|]. apply nth_error_In in X. rewrite (Hall _ X) in Y. discriminate. }
      destruct (c_rd x) as [|e es] eqn:Er; [|now apply (KP e es)].
      assert (Hi : infl x = []). { unfold infl, content. rewrite Ek, Eb, Eh, Er. cbn. rewrite app_nil_r. clear -Hall. induction (c_hs x) as [|y hs IH]; [reflexivity|]. cbn. unfold inhand at 1. rewrite (Hall y (or_introl eq_refl)). cbn. apply IH. intros z Hz. apply Hall. now right. }
      destruct Hw as [Hw|Hw]; [congruence|]. exists (LRead c Ok). cbn [step]. rewrite Hx, Hu, Er, Eh. cbn [negb]. destruct (xreadgroup (c_top x) (c_ch x) c (strs s)) as [[es m]|]; eexists _, _; (split; [reflexivity|]; split; [reflexivity|now right]).
Qed.

Lemma drain c : forall n pre s evs x, run step init pre = Some (s, evs) -> nth_error (cons s) c = Some x -> c_up x = true -> c_hs x <> [] -> mu s x <= n ->
  exists sched s' evs' x', Forall (own c) sched /\ run step s sched = Some (s', evs') /\ nth_error (cons s') c = Some x' /\ c_top x' = c_top x /\ c_ch x' = c_ch x /\ infl x' = [] /\ unread (c_top x) (c_ch x) (strs s') = 0.
Proof.
  induction n as [n IH] using lt_wf_ind. intros pre s evs x Hr Hx Hu Hh Hn.
  destruct (infl x) as [|e0 l0] eqn:Ei; [destruct (unread (c_top x) (c_ch x) (strs s)) eqn:Eu0|].
  1: { exists [], s, [], x. repeat split; auto. }
  all: assert (Hw : infl x <> [] \/ unread (c_top x) (c_ch x) (strs s) <> 0) by (rewrite ?Ei, ?Eu0; first [left; discriminate|right; discriminate]).
  all: destruct (okC_reach _ _ _ Hr) as (C1 & _ & _); destruct (C1 _ _ Hx) as (_ & _ & _ & Hm & _); destruct (work_enabled c s x Hx Hu Hh Hm Hw) as (l & s1 & ev & Ho & Hs & Hk).
  all: destruct (okS_reach _ _ _ Hr) as (O1 & _); assert (HS : forall t st, aget t (strs s) = Some st -> StronglySorted lt (map e_id (s_ents st))) by (intros t st X; apply (O1 _ _ X)).
  all: destruct (own_step c l s s1 ev x HS Hx Ho Hs) as (x1 & A1 & A2 & A3 & A4 & A5 & _ & A6); specialize (A6 Hk).
  all: assert (Hr1 : run step init (pre ++ [l]) = Some (s1, evs ++ ev)) by (eapply run_app; [exact Hr|]; cbn [run]; rewrite Hs; cbn; now rewrite app_nil_r).
  all: assert (Hh1 : c_hs x1 <> []) by (intros X; rewrite X in A5; destruct (c_hs x); [congruence|discriminate]).
  all: destruct (IH (mu s1 x1) ltac:(lia) (pre ++ [l]) s1 (evs ++ ev) x1 Hr1 A1 ltac:(congruence) Hh1 (Nat.le_refl _)) as (sched & s' & evs' & x' & B1 & B2 & B3 & B4 & B5 & B6 & B7).
  all: exists (l :: sched), s', (ev ++ evs'), x'; split; [now constructor|]; split; [cbn [run]; rewrite Hs, B2; reflexivity|]; split; [exact B3|]; split; [congruence|]; split; [congruence|]; split; [exact B6|]; rewrite <- A2, <- A3; exact B7.
Qed.

Lemma own_events c l s s' ev z : own c l -> step s l = Some (s', ev) -> In z ev -> match z with ERead d _ _ _ | EPush d _ _ _ _ | EDel d _ _ _ => d = c | _ => False end.
Proof.
  intros Ho H Hz. destruct l as [| | | |d r|d|d h r| | | | |]; try destruct Ho; cbn [step] in H; try (destruct r; [|destruct Ho..]; cbn in Ho; subst d).
  - red_step H; injection H as <- <-; try contradiction; apply in_map_iff in Hz as (? & <- & _); reflexivity.
  - red_step H; injection H as <- <-; contradiction.
  - red_step H. unfold hand_step, done in H. red_step H; injection H as <- <-; try contradiction; destruct Hz as [<-|[]]; reflexivity.
Qed.
(** Under own steps what waits is read. *)
Lemma waiting_own c t ch e : forall sched pre s evs s' evs' x, run step init pre = Some (s, evs) -> Forall (latest t ch) pre -> nth_error (cons s) c = Some x -> c_top x = t -> c_ch x = ch -> Forall (own c) sched -> run step s sched = Some (s', evs') ->
  waiting t ch e s -> waiting t ch e s' \/ In (ERead c t ch e) evs'.
Proof.
  induction sched as [|l sched IH]; cbn [run]; intros pre s evs s' evs' x Hr Hl Hx Ht Hch Ho H Hw; [injection H as <- <-; now left|].
  destruct (step s l) as [[s1 ev]|] eqn:Hs; [|discriminate]. destruct (run step s1 sched) as [[s2 e2]|] eqn:E2; [|discriminate]. injection H as <- <-. inversion Ho as [|? ? Hol Ho']; subst.
  assert (Hr1 : run step init (pre ++ [l]) = Some (s1, evs ++ ev)) by (eapply run_app; [exact Hr|]; cbn [run]; rewrite Hs; cbn; now rewrite app_nil_r).
  destruct (okS_reach _ _ _ Hr) as (O1 & O2 & O3 & O4 & O5); assert (HS : forall t st, aget t (strs s) = Some st -> StronglySorted lt (map e_id (s_ents st))) by (intros t st X; apply (O1 _ _ X)).
  destruct (own_step c l s s1 ev x HS Hx Hol Hs) as (x1 & A1 & A2 & A3 & A4 & A5 & _ & _).
  assert (Hl1 : Forall (latest (c_top x) (c_ch x)) (pre ++ [l])) by (apply Forall_app; split; [exact Hl|]; constructor; [destruct l; try destruct Hol; exact I|constructor]).
  pose proof (fun z => own_events c l s s1 ev z Hol Hs) as Hev.
  assert (K : waiting (c_top x) (c_ch x) e s1 \/ In (ERead c (c_top x) (c_ch x) e) ev).
  { pose proof (step_delta _ _ _ _ Hs) as [Hwk Hn Hp Hk|t' w body tl Hs' Hn Hp He|t' ch' md r -> Hc Hn Hp|d y es Hy Hc Hn He].
    - destruct Hw as (st & g & B1 & B2 & B3 & B4). destruct (Hk _ _ B1) as [X|(st' & X & Y & Z)]; [destruct (Hev _ X)|]. destruct (Z _ _ B2) as [W|(g' & W & V)]; [destruct (Hev _ W)|].
      destruct (Y _ B3) as [U|[(i & r & ttl & -> & _)|(d & ch' & U)]].
      + left. exists st', g'. rewrite V. auto.
      + destruct Hol.
      + exfalso. (* own deletions are of entries that were handed out *)
        destruct (okC_reach _ _ _ Hr1) as (_ & _ & C3). assert (U' : In (EDel d (c_top x) ch' (e_id e)) (evs ++ ev)) by (apply in_or_app; now right). destruct (C3 _ U') as ((y & Y1 & Y2 & Y3) & e' & P & Q).
        pose proof (Hev _ U) as Hd. cbn in Hd. subst d.
        assert (y = x1) as -> by congruence. rewrite A3 in Y3. subst ch'. apply in_app_or in P as [P|P].
        * destruct (okH_reach _ _ _ _ _ Hr Hl) as [_ HH]. assert (X0 : In (e_id e') (handed (c_top x) (c_ch x) evs)) by (apply in_flat_map; eexists; split; [exact P|]; cbn; rewrite !String.eqb_refl; now left).
          destruct (HH _ X0) as [_ HH']. destruct (HH' _ B1) as [_ HH'']. specialize (HH'' _ B2). lia.
        * rewrite Forall_forall in Hp. exact (Hp _ P).
    - exfalso. destruct He as [->|(-> & _)]; exact (Hev _ (or_introl eq_refl)).
    - destruct Hol.
    - apply read_inv in Hc as (st & g & g' & A & B & C & D & F). destruct es as [|e0 es0].
      + left. destruct Hw as (st0 & g0 & B1 & B2 & B3 & B4). destruct (kept_group (fun _ _ => False) (fun _ _ => False) (fun _ => False) _ _ _ _ g' _ A B D _ _ B1) as [[]|(st' & X & Y & Z)]. rewrite <- F in X. destruct (Z _ _ B2) as [[]|(k & Z1 & Z2)].
        destruct (Y _ B3) as [Y'|[]]. exists st', k. rewrite Z2. auto.
      + assert (d = c /\ ev = map (ERead c (c_top y) (c_ch y)) (e0 :: es0)) as [-> ->].
        { destruct He as [->| ->]; [|destruct (Hev _ (or_introl eq_refl))]. pose proof (Hev _ (or_introl eq_refl)) as X. cbn in X. subst d. auto. }
        assert (y = x) as -> by congruence. destruct Hw as (st0 & g0 & B1 & B2 & B3 & B4). assert (st0 = st) as -> by congruence. assert (g0 = g) as -> by congruence.
        assert (Hf : In e (fresh st g)) by (apply filter_In; split; [exact B3|now apply Nat.ltb_lt]). assert (Hso : StronglySorted lt (map e_id (fresh st g))) by (apply sorted_filter, (HS _ _ A)).
        destruct (firstn_rest 10 _ _ Hso Hf) as [V|V]; rewrite <- C in V.
        * right. now apply in_map.
        * left. unfold waiting. rewrite F. unfold set_group. rewrite aget_aset, String.eqb_refl. eexists _, g'. split; [reflexivity|]. cbn. rewrite aget_aset, String.eqb_refl. split; [reflexivity|]. split; [exact B3|]. rewrite D.
          assert (X : In (last_id (g_last g) (e0 :: es0)) (map e_id (e0 :: es0))) by (apply last_id_in; discriminate). apply in_map_iff in X as (e1 & <- & X). auto. }
  destruct K as [K|K]; [|right; apply in_or_app; now left]. destruct (IH (pre ++ [l]) s1 (evs ++ ev) s2 e2 x1 Hr1 Hl1 A1 A2 A3 Ho' E2 K) as [X|X]; [now left|right; apply in_or_app; now right].
Qed.
Lemma own_latest c t ch sched : Forall (own c) sched -> Forall (latest t ch) sched.
Proof. apply Forall_impl. intros []; cbn; auto; contradiction. Qed.
Lemma not_unread t ch e s : unread t ch (strs s) = 0 -> ~ waiting t ch e s.
Proof. intros H (x & g & A & B & C & D). unfold unread, find_group in H. rewrite A, B in H. assert (X : In e (fresh x g)) by (apply filter_In; split; [exact C|now apply Nat.ltb_lt]). destruct (fresh x g); [destruct X|discriminate]. Qed.
Lemma push_event c e evs0 evs pre s : run step init pre = Some (s, evs0 ++ evs) -> forall x, nth_error (cons s) c = Some x -> In e (psh c evs) -> exists q, In (EPush c (c_top x) (c_ch x) q e) evs.
Proof.
  intros H x Hx He. apply in_psh in He as (t & ch & q & He). destruct (okC_reach _ _ _ H) as (_ & _ & C3). destruct (C3 (EPush c t ch q e)) as (y & Y1 & Y2 & Y3); [apply in_or_app; now right|]. assert (y = x) as -> by congruence. exists q. rewrite Y2, Y3. exact He.
Qed.
(** Everything that waits for the channel, or that the consumer has read and not pushed, is
    pushed by the consumer's own steps. *)
Lemma all_delivered c t ch pre s evs : run step init pre = Some (s, evs) -> Forall (latest t ch) pre -> serving c t ch s ->
  exists sched s' evs', Forall (own c) sched /\ run step s sched = Some (s', evs') /\
    (forall e, waiting t ch e s -> exists q, In (EPush c t ch q e) evs') /\ (forall e, In (ERead c t ch e) evs -> (forall q, ~ In (EPush c t ch q e) evs) -> exists q, In (EPush c t ch q e) evs').
Proof.
  intros Hr Hl (x & Hx & <- & <- & Hu & Hh). destruct (drain c (mu s x) pre s evs x Hr Hx Hu Hh (Nat.le_refl _)) as (sched & s' & evs' & x' & A & B & C & D & E & F & G). exists sched, s', evs'. split; [exact A|]. split; [exact B|].
  pose proof (run_app _ _ _ _ _ _ _ _ Hr B) as Hr'. destruct (okC_reach _ _ _ Hr') as (C1 & _ & _). destruct (C1 _ _ C) as (P & _). rewrite F, app_nil_r in P.
  assert (K : forall e, In e (rds c (evs ++ evs')) -> (In e (psh c evs)) \/ exists q, In (EPush c (c_top x) (c_ch x) q e) evs').
  { intros e He. apply Permutation_sym in P. apply (Permutation_in _ P) in He. rewrite psh_app in He. apply in_app_or in He as [He|He]; [now left|right]. rewrite <- D, <- E. eapply push_event; eassumption. }
  assert (K2 : forall e, In e (psh c evs) -> exists q, In (EPush c (c_top x) (c_ch x) q e) evs) by (intros e He; apply (push_event c e [] evs pre s Hr x Hx He)).
  split.
  - intros e Hw. destruct (waiting_own c _ _ e _ _ _ _ _ _ _ Hr Hl Hx eq_refl eq_refl A B Hw) as [X|X]; [exfalso; exact (not_unread _ _ _ _ G X)|].
    destruct (K e) as [Y|Y]; [eapply rds_in; apply in_or_app; right; exact X| |exact Y]. exfalso.
    destruct (okC_reach _ _ _ Hr) as (C1' & _ & C3'). destruct (C1' _ _ Hx) as (P' & _). assert (Z : In e (rds c evs)) by (eapply Permutation_in; [exact P'|]; apply in_or_app; now left). apply in_rds in Z as (t & ch & Z). destruct (C3' _ Z) as (y & Y1 & Y2 & Y3). assert (y = x) as -> by congruence. subst t ch.
    destruct (okH_reach _ _ _ _ _ Hr Hl) as [_ HH]. assert (X0 : In (e_id e) (handed (c_top x) (c_ch x) evs)) by (apply in_flat_map; eexists; split; [exact Z|]; cbn; rewrite !String.eqb_refl; now left).
    destruct Hw as (st & g & B1 & B2 & B3 & B4). destruct (HH _ X0) as [_ HH']. destruct (HH' _ B1) as [_ HH'']. specialize (HH'' _ B2). lia.
  - intros e He Hn. destruct (K e) as [Y|Y]; [eapply rds_in; apply in_or_app; left; exact He| |exact Y]. exfalso. destruct (K2 _ Y) as [q Z]. exact (Hn _ Z).
Qed.
(** The work is bounded: a consumer takes only so many steps, empty reads aside. *)
Lemma bounded_work c : forall sched pre s evs x s' evs', run step init pre = Some (s, evs) -> nth_error (cons s) c = Some x -> Forall (own c) sched -> run step s sched = Some (s', evs') ->
  List.length (filter (fun l => match l with LRead _ _ => false | _ => true end) sched) <= mu s x.
Proof.
  induction sched as [|l sched IH]; cbn [run]; intros pre s evs x s' evs' Hr Hx Ho H; [cbn; lia|]. destruct (step s l) as [[s1 ev]|] eqn:Hs; [|discriminate]. destruct (run step s1 sched) as [[s2 e2]|] eqn:E2; [|discriminate]. inversion Ho as [|? ? Hol Ho']; subst.
  assert (Hr1 : run step init (pre ++ [l]) = Some (s1, evs ++ ev)) by (eapply run_app; [exact Hr|]; cbn [run]; rewrite Hs; cbn; now rewrite app_nil_r).
  destruct (okS_reach _ _ _ Hr) as (O1 & _); assert (HS : forall t st, aget t (strs s) = Some st -> StronglySorted lt (map e_id (s_ents st))) by (intros t st X; apply (O1 _ _ X)).
  destruct (own_step c l s s1 ev x HS Hx Hol Hs) as (x1 & A1 & _ & _ & _ & _ & A & B). specialize (IH _ _ _ _ _ _ Hr1 A1 Ho' E2). cbn [filter].
  destruct l as [| | | |d r|d|d h r| | | | |]; try destruct Hol; cbn [List.length]; try lia; (assert (X : mu s1 x1 < mu s x) by (apply B; left; discriminate); lia).
Qed.

(** ** What has been deleted is not handed out any more *)
Definition absent (t : string) (id : nat) (s : state) : Prop := id < next s /\ forall st e, aget t (strs s) = Some st -> In e (s_ents st) -> e_id e <> id.
Lemma absent_step t id s l s' ev : absent t id s -> step s l = Some (s', ev) -> absent t id s' /\ forall c ch e, In (ERead c t ch e) ev -> e_id e <> id.
Proof.
  intros [Hi Ha] E. pose proof (step_delta _ _ _ _ E) as [Hw Hn Hp Hk|t' w body tl Hs Hn Hp He|t' ch' md r -> Hc Hn Hp|c x es Hx Hc Hn He].
  - split; [split; [lia|]|intros c ch e X; rewrite Forall_forall in Hp; destruct (Hp _ X)]. intros st e A B. destruct (Hw _ _ A) as (y & P & _ & (p & Q) & _). rewrite Q in B. apply filter_In in B as [B _]. exact (Ha _ _ P B).
  - split; [split; [lia|]|].
    + intros st e A B. rewrite Hs in A. unfold xadd in A. rewrite aget_aset in A. destruct (String.eqb_spec t t') as [<-|]; [|exact (Ha _ _ A B)]. injection A as <-. cbn [s_ents] in B. apply in_app_or in B as [B|[<-|[]]]; [|cbn; lia].
      unfold get_or_new in B. destruct (aget t (strs s)) as [y|] eqn:Ey; [exact (Ha _ _ eq_refl B)|destruct B].
    + intros c ch e X. rewrite Forall_forall in Hp. destruct He as [->|(-> & _)]; (destruct X as [X|X]; [discriminate|destruct (Hp _ X)]).
  - split; [split; [lia|]|intros c ch e X; rewrite Forall_forall in Hp; destruct (Hp _ X)]. intros st e A B. apply create_inv in Hc as [Hc|(y & g' & X & Y & Z & _)]; [rewrite Hc in A; exact (Ha _ _ A B)|].
    rewrite Z in A. unfold set_group in A. rewrite aget_aset in A. destruct (String.eqb_spec t t') as [<-|]; [|exact (Ha _ _ A B)]. injection A as <-. exact (Ha _ _ X B).
  - apply read_inv in Hc as (st & g & g' & A & B & C & D & F). split; [split; [lia|]|].
    + intros y e P Q. rewrite F in P. unfold set_group in P. rewrite aget_aset in P. destruct (String.eqb_spec t (c_top x)) as [->|]; [|exact (Ha _ _ P Q)]. injection P as <-. exact (Ha _ _ A Q).
    + intros c' ch e X. destruct He as [->| ->]; apply in_map_iff in X as (e' & X & Y); [|discriminate]. injection X as _ <- _ ->. rewrite C in Y. apply in_fresh in Y as [Y _]. exact (Ha _ _ A Y).
Qed.
Lemma absent_run t id sched : forall s s' evs, run step s sched = Some (s', evs) -> absent t id s -> forall c ch e, In (ERead c t ch e) evs -> e_id e <> id.
Proof.
  induction sched as [|l sched IH]; cbn [run]; intros s s' evs H Ha c ch e X; [injection H as <- <-; destruct X|].
  destruct (step s l) as [[s1 e1]|] eqn:E; [|discriminate]. destruct (run step s1 sched) as [[s2 e2]|] eqn:E2; [|discriminate]. injection H as <- <-.
  destruct (absent_step _ _ _ _ _ _ Ha E) as [A B]. apply in_app_or in X as [X|X]; [exact (B _ _ _ X)|exact (IH _ _ _ E2 A _ _ _ X)].
Qed.
Lemma del_absent s l s' ev c t ch id : step s l = Some (s', ev) -> In (EDel c t ch id) ev -> forall st e, aget t (strs s') = Some st -> In e (s_ents st) -> e_id e <> id.
Proof.
  intros H Hin. destruct l as [t0 ttl r|t0 w body r|t0 ch0 md r|d q|d r|d|d h r|d r|t0 r|i r|d|t0]; cbn [step] in H.
  5: { red_step H; injection H as <- <-; try (destruct Hin; fail); apply in_map_iff in Hin as (e' & X & _); discriminate. }
  6: { red_step H. unfold hand_step in H. destruct r; cbn [done] in H; red_step H; injection H as <- <-; try (destruct Hin as [X|[]]; discriminate); try (destruct Hin; fail);
       destruct Hin as [X|[]]; injection X as -> <- <- <-; cbn [strs set_strs set_cons]; intros st e' A B; unfold xdel, on_stream in A;
       (destruct (aget (c_top c0) (strs s)) as [y|] eqn:Ey; [|congruence]); rewrite aget_aset, String.eqb_refl in A; injection A as <-; cbn [s_ents] in B; apply filter_In in B as [_ B]; intros Z; rewrite Z, Nat.eqb_refl in B; discriminate. }
  8: { destruct (nth_error (thrs s) i) as [p|] eqn:Ep; [|discriminate]. destruct (thr_cons _ _ _ _ _ _ H) as [_ X]. rewrite Forall_forall in X. exact (False_ind _ (X _ Hin)). }
  all: try destruct r; cbn [done fails app] in H; red_step H; injection H as <- <-; cbn in Hin; repeat (destruct Hin as [Hin|Hin]; [discriminate|]); destruct Hin.
Qed.
Lemma deleted_absent sched s evs : run step init sched = Some (s, evs) -> forall c t ch id, In (EDel c t ch id) evs -> absent t id s.
Proof.
  apply (run_inv step init (fun _ evs s => forall c t ch id, In (EDel c t ch id) evs -> absent t id s)).
  - intros c t ch id [].
  - intros sch e1 s1 l s2 e2 H1 IH E c t ch id Hin. pose proof (run_app _ _ _ _ _ _ _ _ H1 (run_one _ _ _ _ _ E)) as H2. apply in_app_or in Hin as [Hin|Hin].
    + exact (proj1 (absent_step _ _ _ _ _ _ (IH _ _ _ _ Hin) E)).
    + split; [|exact (del_absent _ _ _ _ _ _ _ _ E Hin)]. destruct (okC_reach _ _ _ H2) as (_ & _ & K). destruct (K _ (in_or_app _ _ _ (or_intror Hin))) as (_ & e & P & <-).
      destruct (okS_reach _ _ _ H2) as (_ & _ & A & _ & B). apply A. unfold adds. apply in_flat_map. destruct (B _ _ _ _ P) as [Q|(Q & _)]; eexists; (split; [exact Q|now left]).
Qed.
Lemma absent_undelivered pre s0 e0 t ch id : run step init pre = Some (s0, e0) -> (forall d e, In (ERead d t ch e) e0 -> e_id e <> id) -> absent t id s0 ->
  forall sched s evs, run step s0 sched = Some (s, evs) -> deliveries t ch id (e0 ++ evs) = 0.
Proof.
  intros Hp Hn Hab sched s evs H. pose proof (run_app _ _ _ _ _ _ _ _ Hp H) as Hr. pose proof (balance t ch id _ _ _ Hr) as B. enough (rcount t ch id (e0 ++ evs) = 0) by lia.
  pose proof (absent_run _ _ _ _ _ _ H Hab) as Ha. unfold rcount. destruct (filter _ (e0 ++ evs)) as [|z l] eqn:Ef; [reflexivity|exfalso].
  assert (X : In z (z :: l)) by now left. rewrite <- Ef in X. apply filter_In in X as [X Y]. destruct z; try discriminate. apply andb_prop in Y as [Y Y3]. apply andb_prop in Y as [Y1 Y2]. apply String.eqb_eq in Y1 as ->. apply String.eqb_eq in Y2 as ->. apply Nat.eqb_eq in Y3.
  apply in_app_or in X as [X|X]; [exact (Hn _ _ X Y3)|exact (Ha _ _ _ X Y3)].
Qed.
(** An entry deleted before the channel was handed it is never delivered to the channel. *)
Lemma deleted_forever t ch ch' c id pre s0 e0 : run step init pre = Some (s0, e0) -> In (EDel c t ch' id) e0 -> (forall d e, In (ERead d t ch e) e0 -> e_id e <> id) ->
  forall sched s evs, run step s0 sched = Some (s, evs) -> deliveries t ch id (e0 ++ evs) = 0.
Proof. intros Hp Hd Hn. exact (absent_undelivered _ _ _ _ _ _ Hp Hn (deleted_absent _ _ _ Hp _ _ _ _ Hd)). Qed.

(** ** Crashes *)
Lemma crash_label s l s' ev c : step s l = Some (s', ev) -> In (ECrash c) ev -> exists x, nth_error (cons s) c = Some x /\ c_up x = true /\ l = LCrash c /\ cons s' = upd (cons s) c (mkC (c_top x) (c_ch x) false (c_rd x) (c_buf x) (c_hs x)).
Proof.
  intros H Hin. destruct l as [t0 ttl r|t0 w body r|t0 ch0 md r|d q|d r|d|d h r|d r|t0 r|i r|d|t0]; cbn [step] in H.
  5: { red_step H; injection H as <- <-; try (destruct Hin; fail); apply in_map_iff in Hin as (e' & X & _); discriminate. }
  6: { red_step H. unfold hand_step in H. destruct r; cbn [done] in H; red_step H; injection H as <- <-; cbn in Hin; repeat (destruct Hin as [Hin|Hin]; [discriminate|]); destruct Hin. }
  8: { destruct (nth_error (thrs s) i) as [p|] eqn:Ep; [|discriminate]. inv_thr H; try destruct r; cbn in Hin; repeat (destruct Hin as [Hin|Hin]; [discriminate|]); destruct Hin. }
  8: { destruct (nth_error (cons s) d) as [x|] eqn:Ex; [|discriminate]. destruct (c_up x) eqn:Eu; [|discriminate]. injection H as <- <-. destruct Hin as [Hin|[]]. injection Hin as <-. exists x. auto. }
  all: try destruct r; cbn [done fails app] in H; red_step H; injection H as <- <-; cbn in Hin; repeat (destruct Hin as [Hin|Hin]; [discriminate|]); destruct Hin.
Qed.
Lemma crash_down sched s evs : run step init sched = Some (s, evs) -> forall c, In (ECrash c) evs -> exists x, nth_error (cons s) c = Some x /\ c_up x = false.
Proof.
  apply (run_inv step init (fun _ evs s => forall c, In (ECrash c) evs -> exists x, nth_error (cons s) c = Some x /\ c_up x = false)).
  - intros c [].
  - intros sch e1 s1 l s2 e2 H1 IH E c Hc. destruct (in_app_or _ _ _ Hc) as [K|K].
    + destruct (IH _ K) as (x & A & B). exists x. split; [|exact B]. exact (frozen c x [l] s1 s2 e2 A B (run_one _ _ _ _ _ E)).
    + destruct (crash_label _ _ _ _ _ E K) as (x & A & _ & _ & D). eexists. rewrite D. split; [apply nth_upd_eq; now apply lt_of_nth in A|reflexivity].
Qed.

(** ** Destroyed groups *)
Lemma destroyed_gone s l s' ev t ch : step s l = Some (s', ev) -> In (EDestroy t ch) ev -> ~ has_group t ch s'.
Proof.
  intros H Hin. destruct l as [t0 ttl r|t0 w body r|t0 ch0 md r|d q|d r|d|d h r|d r|t0 r|i r|d|t0]; cbn [step] in H.
  5: { red_step H; injection H as <- <-; try (destruct Hin; fail); apply in_map_iff in Hin as (e' & X & _); discriminate. }
  6: { red_step H. unfold hand_step in H. destruct r; cbn [done] in H; red_step H; injection H as <- <-; cbn in Hin; repeat (destruct Hin as [Hin|Hin]; [discriminate|]); destruct Hin. }
  8: { destruct (nth_error (thrs s) i) as [p|] eqn:Ep; [|discriminate]. destruct p as [t0 ttl|t0 id ttl|t0|c|c|t0|t0|]; cbn [thr_step] in H; red_step H; try discriminate H;
       try (try destruct r; cbn [done fails app] in H; injection H as <- <-; cbn in Hin; repeat (destruct Hin as [Hin|Hin]; [discriminate|]); destruct Hin; fail).
       destruct r; cbn [done] in H; injection H as <- <-; cbn in Hin; try (destruct Hin as [Hin|[]]; discriminate); (destruct Hin as [Hin|[Hin|[]]]; [|discriminate]); injection Hin as <- <-;
       intros (x & g & A & B); cbn [strs go set_thrs set_strs] in A; unfold xdestroy, on_stream in A; (destruct (aget (c_top c0) (strs s)) as [y|] eqn:Ey; [|congruence]); rewrite aget_aset, String.eqb_refl in A; injection A as <-; cbn [s_grps set_grps] in B; rewrite aget_adel, String.eqb_refl in B; discriminate. }
  all: try destruct r; cbn [done fails app] in H; red_step H; injection H as <- <-; cbn in Hin; repeat (destruct Hin as [Hin|Hin]; [discriminate|]); destruct Hin.
Qed.
