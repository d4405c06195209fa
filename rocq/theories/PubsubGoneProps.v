(** C49: what makes the messages of a topic vanish all at once. *)
From Coq Require Import List String Arith Bool Lia.
From Verif Require Import Machine AddrModel AddrProofs PubsubModel PubsubSpec.
Import ListNotations.
Open Scope string_scope.

Definition ttl_of (t : string) (m : list (string * stream)) : bool := match aget t m with Some s => s_ttl s | None => false end.
(** No stream has gained a time to live. *)
Definition calm (m m' : list (string * stream)) : Prop := forall t, ttl_of t m' = true -> ttl_of t m = true.
Lemma calm_refl m : calm m m. Proof. intros t H. exact H. Qed.
Lemma calm_aset t s m : (s_ttl s = true -> ttl_of t m = true) -> calm m (aset t s m).
Proof. intros H u. unfold ttl_of. rewrite aget_aset. destruct (String.eqb_spec u t) as [->|]; auto. Qed.
Lemma calm_xadd t e m : calm m (xadd t e m).
Proof. apply calm_aset. cbn. unfold get_or_new, ttl_of. destruct (aget t m); auto. Qed.
Lemma calm_on t f m : (forall s, s_ttl (f s) = s_ttl s) -> calm m (on_stream t f m).
Proof. intros H. unfold on_stream. destruct (aget t m) eqn:E; [|apply calm_refl]. apply calm_aset. unfold ttl_of. now rewrite E, H. Qed.
Lemma calm_xdel t i m : calm m (xdel t i m). Proof. now apply calm_on. Qed.
Lemma calm_destroy t ch m : calm m (xdestroy t ch m). Proof. now apply calm_on. Qed.
Lemma calm_adel t m : calm m (adel t m).
Proof. intros u. unfold ttl_of. rewrite aget_adel. destruct (String.eqb u t); [discriminate|auto]. Qed.
Lemma calm_group t ch s g m : aget t m = Some s -> calm m (set_group t ch s g m).
Proof. intros E. apply calm_aset. unfold ttl_of. now rewrite E. Qed.
Lemma find_aget t ch m s g : find_group t ch m = Some (s, g) -> aget t m = Some s.
Proof. unfold find_group. destruct (aget t m); [|discriminate]. destruct (aget ch _); [|discriminate]. now intros [= -> _]. Qed.
Lemma calm_create t ch md m m' : xgroup_create t ch md m = Some m' -> calm m m'.
Proof.
  unfold xgroup_create. destruct (aget t m) eqn:E; [|discriminate]. destruct (aget ch _); intros [= <-]; [apply calm_refl|now apply calm_group].
Qed.
Lemma calm_read t ch c m es m' : xreadgroup t ch c m = Some (es, m') -> calm m m'.
Proof. unfold xreadgroup. destruct (find_group t ch m) as [[s g]|] eqn:E; [|discriminate]. intros [= _ <-]. eapply calm_group, find_aget; eauto. Qed.
Lemma calm_ack t ch i m : calm m (xack t ch i m).
Proof. unfold xack. destruct (find_group t ch m) as [[s g]|] eqn:E; [|apply calm_refl]. eapply calm_group, find_aget; eauto. Qed.
Lemma calm_delc t ch c m m' : xdelconsumer t ch c m = Some m' -> calm m m'.
Proof. unfold xdelconsumer. destruct (find_group t ch m) as [[s g]|] eqn:E; [|discriminate]. intros [= <-]. eapply calm_group, find_aget; eauto. Qed.
Lemma expire_other t u m : ttl_of u (expire t m) = true -> u = t \/ ttl_of u m = true.
Proof.
  unfold expire, on_stream, ttl_of. destruct (aget t m) eqn:E; [|auto]. rewrite aget_aset. destruct (String.eqb_spec u t); auto.
Qed.

(** What a call under way must come from. *)
Definition need (P Q : string -> Prop) (p : pc) : Prop :=
  match p with NAdd t true | NDel t _ true | NTtl t => P t | TLen t | TDel t => Q t | _ => True end.
Lemma in_upd_need P Q l i p : Forall (need P Q) l -> need P Q p -> Forall (need P Q) (upd l i p).
Proof. intros H Hp. revert i. induction H as [|x l Hx H IH]; intros [|i]; cbn; auto. Qed.
Lemma need_app P Q l p : Forall (need P Q) l -> need P Q p -> Forall (need P Q) (l ++ [p]).
Proof. intros H Hp. apply Forall_app. auto. Qed.

Lemma gone_step (P Q : string -> Prop) s l s' e : step s l = Some (s', e) ->
  (forall t, ttl_of t (strs s) = true -> P t) -> Forall (need P Q) (thrs s) ->
  (forall t r, l = LNew t true r -> P t) -> (forall t r, l = LTClose t r -> Q t) ->
  (forall t, ttl_of t (strs s') = true -> P t) /\ Forall (need P Q) (thrs s') /\ forall t, In (EGone t) e -> P t \/ Q t.
Proof.
  intros H Hs Ht Hn Hc.
  assert (R : forall m, calm (strs s) m -> forall t, ttl_of t m = true -> P t) by (intros m Hm t Hx; apply Hs, Hm, Hx).
  destruct l as [t ttl r|t ev body r|t ch md r|c q|c r|c|c h r|c r|t r|i r|c|t]; cbn [step] in H.
  - destruct (_ && _); injection H as <- <-; cbn; (split; [auto|split; [|intros ? []]]); auto.
    apply need_app; auto. destruct ttl; cbn; eauto.
  - destruct (ev =? ""); [injection H as <- <-; cbn; repeat split; auto; intros ? [|[]]; discriminate|].
    injection H as <- <-. destruct r; cbn; (split; [|split; [auto|intros ? Hi; destruct Hi as [|[|[]]] || destruct Hi as [|[]]; discriminate]]); try apply R; auto using calm_xadd, calm_refl.
  - destruct (xgroup_create t ch md (strs s)) eqn:E; destruct r; injection H as <- <-; cbn; (split; [|split; [auto|intros ? [|[]]; discriminate]]); try apply R; eauto using calm_create, calm_refl.
  - destruct (nth_error (cons s) c) as [x|]; [|discriminate]. destruct (c_up x); [|discriminate]. injection H as <- <-. cbn. repeat split; auto.
  - destruct (nth_error (cons s) c) as [x|]; [|discriminate]. destruct (c_up x); [|discriminate]. cbn [negb] in H.
    destruct (c_rd x); [|discriminate]. destruct (UnboundedModel.holder (c_buf x)); [discriminate|].
    assert (Z : forall es, ~ (exists t, In (EGone t) (map (ERead c (c_top x) (c_ch x)) es)) /\ ~ (exists t, In (EGone t) (map (ELost c (c_top x) (c_ch x)) es))).
    { intros es. split; intros (t & Hi); apply in_map_iff in Hi as (? & [=] & _). }
    destruct (xreadgroup (c_top x) (c_ch x) c (strs s)) as [[es m]|] eqn:E; destruct r; injection H as <- <-; cbn; (split; [|split; [auto|]]); try apply R; eauto using calm_read, calm_refl; try (intros ? []; fail);
      intros t Hi; exfalso; first [apply (proj1 (Z es)); eauto; fail|apply (proj2 (Z es)); eauto].
  - destruct (nth_error (cons s) c) as [x|]; [|discriminate]. destruct (c_up x); [|discriminate]. cbn [negb] in H.
    destruct (UnboundedModel.holder (c_buf x)).
    + destruct (UnboundedModel.step _ _) as [[b ?]|]; [|discriminate]. injection H as <- <-. cbn. repeat split; auto.
    + destruct (c_rd x); [discriminate|]. destruct (UnboundedModel.step _ _) as [[b ?]|]; [|discriminate]. injection H as <- <-. cbn. repeat split; auto.
  - destruct (nth_error (cons s) c) as [x|]; [|discriminate]. destruct (c_up x); [|discriminate]. cbn [negb] in H.
    destruct (nth_error (c_hs x) h) as [y|]; [|discriminate]. unfold hand_step in H. destruct (h_pc y) as [|a|a|a|a].
    + destruct (UnboundedModel.step _ _) as [[b [|[] [|]]]|]; try discriminate. injection H as <- <-. cbn. repeat split; auto.
    + destruct (UnboundedModel.step _ _) as [[b ?]|]; [|discriminate]. injection H as <- <-. cbn. repeat split; auto.
    + injection H as <- <-. cbn. repeat split; auto. intros ? [|[]]; discriminate.
    + destruct r; injection H as <- <-; cbn; (split; [|split; [auto|intros ? []]]); try apply R; auto using calm_ack, calm_refl.
    + injection H as <- <-. destruct r; cbn; (split; [|split; [auto|]]); try apply R; auto using calm_xdel, calm_refl; try (intros ? []; fail); intros ? [|[]]; discriminate.
  - destruct (nth_error (cons s) c) as [x|]; [|discriminate]. destruct (c_up x); [|discriminate]. cbn [negb] in H.
    destruct (xdelconsumer _ _ _ _) eqn:E; destruct r; injection H as <- <-; cbn; (split; [|split; [|]]); try apply R; eauto using calm_delc, calm_refl;
      try (apply need_app; cbn; auto); try (intros ? []; fail); intros ? [|[]]; discriminate.
  - destruct r; [destruct (s_grps _)| |]; injection H as <- <-; cbn; (split; [auto|split; [|]]); auto; try (intros ? []; fail); try (intros ? [|[]]; discriminate).
    apply need_app; cbn; eauto.
  - destruct (nth_error (thrs s) i) as [p|] eqn:Ei; [|discriminate]. pose proof (proj1 (Forall_forall _ _) Ht p (nth_error_In _ _ Ei)) as Hp.
    destruct p as [t ttl|t id ttl|t|c|c|t|t|]; cbn [thr_step] in H.
    + injection H as <- <-. destruct r; cbn; (split; [|split; [apply in_upd_need; auto; cbn; destruct ttl; auto|]]); try apply R; auto using calm_xadd, calm_refl; try (intros ? []; fail); intros ? [|[]]; discriminate.
    + injection H as <- <-. split; [|split; [cbn; apply in_upd_need; auto; destruct ttl; cbn in *; auto|intros ? []]]. destruct r; cbn; apply R; auto using calm_xdel, calm_refl.
    + injection H as <- <-. split; [|split; [cbn; apply in_upd_need; cbn; auto|intros ? []]]. cbn in Hp.
      destruct r; cbn; try exact Hs; intros u Hu; apply expire_other in Hu as [->|Hu]; auto.
    + destruct (nth_error (cons s) c) as [x|]; [|discriminate]. destruct (find_group _ _ _) as [[st g]|]; [destruct r; [destruct (g_cons g)| |]|];
        injection H as <- <-; cbn; (split; [auto|split; [apply in_upd_need; cbn; auto|]]); try (intros ? []; fail); intros ? [|[]]; discriminate.
    + destruct (nth_error (cons s) c) as [x|]; [|discriminate]. injection H as <- <-. split; [|split; [cbn; apply in_upd_need; cbn; auto|]].
      * destruct r; cbn; apply R; auto using calm_destroy, calm_refl.
      * destruct r; cbn; intros u Hi; repeat (destruct Hi as [Hi|Hi]; try discriminate); destruct Hi.
    + destruct r; [destruct (s_ents _)| |]; injection H as <- <-; cbn; (split; [auto|split; [apply in_upd_need; cbn; auto|]]); try (intros ? []; fail); intros ? [|[]]; discriminate.
    + injection H as <- <-. split; [|split; [cbn; apply in_upd_need; cbn; auto|]].
      * destruct r; cbn; apply R; auto using calm_adel, calm_refl.
      * destruct r; cbn; intros u Hi; repeat (destruct Hi as [Hi|Hi]; try discriminate); try (injection Hi as <-; auto); destruct Hi.
    + discriminate.
  - destruct (nth_error (cons s) c) as [x|]; [|discriminate]. destruct (c_up x); [|discriminate]. injection H as <- <-. cbn. repeat split; auto. intros ? [|[]]; discriminate.
  - destruct (aget t (strs s)) as [x|] eqn:E; [|discriminate]. destruct (s_ttl x) eqn:Ex; [|discriminate]. injection H as <- <-. cbn. split; [apply R, calm_adel|]. split; [auto|].
    intros u [[= <-]|[]]. left. apply Hs. unfold ttl_of. now rewrite E.
Qed.

(** A topic and its messages vanish only if a process asked for the topic with a time to
    live, or called Close of the topic. *)
Theorem C49_gone : forall sched s evs t, run step init sched = Some (s, evs) -> In (EGone t) evs ->
  (exists r, In (LNew t true r) sched) \/ (exists r, In (LTClose t r) sched).
Proof.
  intros sched s evs t H. revert s evs t H.
  assert (G : forall s evs, run step init sched = Some (s, evs) ->
    let P := fun t => exists r, In (LNew t true r) sched in let Q := fun t => exists r, In (LTClose t r) sched in
    (forall t, ttl_of t (strs s) = true -> P t) /\ Forall (need P Q) (thrs s) /\ forall t, In (EGone t) evs -> P t \/ Q t).
  { induction sched as [|l sched IH] using rev_ind; intros s evs H P Q.
    - injection H as <- <-. cbn. split; [discriminate|]. split; [constructor|intros ? []].
    - apply run_app_inv in H as (u & e1 & e2 & H1 & H2 & ->). apply run_one_inv in H2. specialize (IH _ _ H1) as (I1 & I2 & I3). cbn zeta in *.
      assert (MP : forall t, (exists r, In (LNew t true r) sched) -> P t) by (intros t (r & Hr); exists r; apply in_or_app; auto).
      assert (MQ : forall t, (exists r, In (LTClose t r) sched) -> Q t) by (intros t (r & Hr); exists r; apply in_or_app; auto).
      destruct (gone_step P Q _ _ _ _ H2) as (J1 & J2 & J3); auto.
      + eapply Forall_impl; [|exact I2]. intros [x []|x n []|x|x|x|x|x|]; cbn; auto.
      + intros x r ->. exists r. apply in_or_app. cbn. auto.
      + intros x r ->. exists r. apply in_or_app. cbn. auto.
      + split; [exact J1|]. split; [exact J2|]. intros x Hx. apply in_app_or in Hx as [Hx|Hx]; [|auto]. destruct (I3 _ Hx); auto. }
  intros s evs t H. apply (proj2 (proj2 (G _ _ H))).
Qed.
Print Assumptions C49_gone.
Example C49_gone_case : exists s evs, run step init [LNew "t" true Ok; LThr 0 Ok; LThr 0 Ok; LThr 0 Ok; LPub "t" "e" "b" Ok; LExpire "t"; LNew "u" false Ok; LThr 1 Ok; LThr 1 Ok; LTClose "u" Ok; LThr 2 Ok; LThr 2 Ok] = Some (s, evs) /\
  In (EPub "t" (mkE 2 "e" "b")) evs /\ In (EGone "t") evs /\ In (EGone "u") evs.
Proof. eexists _, _. split; [lazy; reflexivity|]. cbn. tauto. Qed.
(** A topic that nobody asked for with a time to live never expires. *)
Theorem C49_lasting : forall sched s evs t, run step init sched = Some (s, evs) -> (forall r, ~ In (LNew t true r) sched) -> step s (LExpire t) = None.
Proof.
  intros sched s evs t H Hn.
  assert (G : forall sched s evs, run step init sched = Some (s, evs) -> let P := fun t => exists r, In (LNew t true r) sched in
    (forall t, ttl_of t (strs s) = true -> P t) /\ Forall (need P (fun _ => True)) (thrs s)).
  { clear. induction sched as [|l sched IH] using rev_ind; intros s evs H P.
    - injection H as <- <-. cbn. split; [discriminate|constructor].
    - apply run_app_inv in H as (u & e1 & e2 & H1 & H2 & ->). apply run_one_inv in H2. specialize (IH _ _ H1) as (I1 & I2). cbn zeta in *.
      assert (MP : forall t, (exists r, In (LNew t true r) sched) -> P t) by (intros t (r & Hr); exists r; apply in_or_app; auto).
      destruct (gone_step P (fun _ => True) _ _ _ _ H2) as (J1 & J2 & J3); auto.
      + eapply Forall_impl; [|exact I2]. intros [x []|x n []|x|x|x|x|x|]; cbn; auto.
      + intros x r ->. exists r. apply in_or_app. cbn. auto. }
  cbn. destruct (aget t (strs s)) as [x|] eqn:E; [|reflexivity]. destruct (s_ttl x) eqn:Ex; [|reflexivity]. exfalso.
  destruct (proj1 (G _ _ _ H) t) as (r & Hr); [unfold ttl_of; now rewrite E|]. exact (Hn r Hr).
Qed.
Print Assumptions C49_lasting.
Example C49_lasting_case : exists s evs, run step init [LNew "t" false Ok; LThr 0 Ok; LThr 0 Ok; LPub "t" "e" "b" Ok] = Some (s, evs) /\ In (EPub "t" (mkE 2 "e" "b")) evs /\ step s (LExpire "t") = None.
Proof. eexists _, _. split; [lazy; reflexivity|]. split; [cbn; tauto|reflexivity]. Qed.

(** ** C50: after the acknowledgement of a message it is no longer pending in its group,
    and every other message pending anywhere still is. *)
Theorem C50_acknowledged : forall s c h r s' evs x y e, step s (LHand c h r) = Some (s', evs) ->
  nth_error (cons s) c = Some x -> nth_error (c_hs x) h = Some y -> h_pc y = HAck e -> r <> NotDone ->
  (forall st g d, aget (c_top x) (strs s') = Some st -> aget (c_ch x) (s_grps st) = Some g -> ~ In (e_id e, d) (g_pel g)) /\
  (forall t ch st g id d, aget t (strs s) = Some st -> aget ch (s_grps st) = Some g -> In (id, d) (g_pel g) ->
     (t = c_top x /\ ch = c_ch x /\ id = e_id e) \/
     exists st' g', aget t (strs s') = Some st' /\ aget ch (s_grps st') = Some g' /\ In (id, d) (g_pel g')).
Proof.
  intros s c h r s' evs x y e H Hx Hy Hp Hr. cbn in H. rewrite Hx in H. destruct (c_up x); [|discriminate]. cbn in H. rewrite Hy in H.
  unfold hand_step in H. rewrite Hp in H.
  assert (E : strs s' = xack (c_top x) (c_ch x) (e_id e) (strs s)) by (destruct r; [injection H as <- <-; reflexivity|congruence|injection H as <- <-; reflexivity]).
  rewrite E. clear H E Hr. unfold xack, find_group. split.
  - intros st g d H1 H2 Hi. destruct (aget (c_top x) (strs s)) as [s0|] eqn:E0; [|congruence]. destruct (aget (c_ch x) (s_grps s0)) as [g0|] eqn:E1.
    + unfold set_group in H1. rewrite aget_aset, String.eqb_refl in H1. injection H1 as <-. cbn in H2. rewrite aget_aset, String.eqb_refl in H2. injection H2 as <-.
      cbn in Hi. apply filter_In in Hi as [_ Hi]. cbn in Hi. rewrite Nat.eqb_refl in Hi. discriminate.
    + rewrite E0 in H1. injection H1 as <-. congruence.
  - intros t ch st g id d H1 H2 Hi. destruct (aget (c_top x) (strs s)) as [s0|] eqn:E0; [|right; exists st, g; auto].
    destruct (aget (c_ch x) (s_grps s0)) as [g0|] eqn:E1; [|right; exists st, g; auto]. unfold set_group. rewrite aget_aset.
    destruct (String.eqb_spec t (c_top x)) as [->|Ht]; [|right; exists st, g; auto]. assert (s0 = st) by congruence. subst s0.
    destruct (String.eqb_spec ch (c_ch x)) as [->|Hc].
    + assert (g0 = g) by congruence. subst g0. destruct (Nat.eq_dec id (e_id e)) as [->|Hid]; [auto|]. right. eexists _, _. split; [reflexivity|]. cbn. rewrite aget_aset, String.eqb_refl.
      split; [reflexivity|]. cbn. apply filter_In. split; [exact Hi|]. cbn. now rewrite (proj2 (Nat.eqb_neq _ _) Hid).
    + right. eexists _, _. split; [reflexivity|]. cbn. rewrite aget_aset. apply String.eqb_neq in Hc. rewrite Hc. split; [exact H2|exact Hi].
Qed.
Print Assumptions C50_acknowledged.
(** Two messages read, the first acknowledged. *)
Example C50_acknowledged_case : exists s evs x y, run step init [LNew "t" false Ok; LThr 0 Ok; LThr 0 Ok; LSub "t" "c" Latest Ok; LArrive 0 7; LPub "t" "e" "a" Ok; LPub "t" "e" "b" Ok; LRead 0 Ok; LPut 0; LHand 0 0 Ok; LHand 0 0 Ok; LHand 0 0 Ok] = Some (s, evs) /\
  nth_error (cons s) 0 = Some x /\ nth_error (c_hs x) 0 = Some y /\ h_pc y = HAck (mkE 2 "e" "a") /\
  option_map (fun st => map (fun p => g_pel (snd p)) (s_grps st)) (aget "t" (strs s)) = Some [[(2, 0); (3, 0)]] /\
  exists s' evs', step s (LHand 0 0 Ok) = Some (s', evs') /\ option_map (fun st => map (fun p => g_pel (snd p)) (s_grps st)) (aget "t" (strs s')) = Some [[(3, 0)]].
Proof.
  eexists _, _, _, _. split; [lazy; reflexivity|]. split; [reflexivity|]. split; [reflexivity|]. split; [reflexivity|]. split; [reflexivity|].
  eexists _, _. split; [lazy; reflexivity|reflexivity].
Qed.
(** A message handed to a consumer is pending for it, even if the reply is lost. *)
Theorem C50_pending : forall s c r s' evs t ch e, step s (LRead c r) = Some (s', evs) -> In (ERead c t ch e) evs \/ In (ELost c t ch e) evs ->
  exists st g, aget t (strs s') = Some st /\ aget ch (s_grps st) = Some g /\ In (e_id e, c) (g_pel g) /\ In c (g_cons g).
Proof.
  intros s c r s' evs t ch e H He. cbn in H. destruct (nth_error (cons s) c) as [x|]; [|discriminate]. destruct (c_up x); [|discriminate]. cbn in H.
  destruct (c_rd x); [|discriminate]. destruct (UnboundedModel.holder (c_buf x)); [discriminate|].
  destruct (xreadgroup (c_top x) (c_ch x) c (strs s)) as [[es m]|] eqn:E; [|destruct r; injection H as <- <-; destruct He as [[]|[]]].
  assert (G : strs s' = m /\ t = c_top x /\ ch = c_ch x /\ In e es).
  { destruct r; injection H as <- <-; cbn in *; destruct He as [He|He]; try destruct He; apply in_map_iff in He as (? & [=] & ?); subst; auto. }
  destruct G as (-> & -> & -> & Hi). clear H He. unfold xreadgroup in E. destruct (find_group _ _ _) as [[st g]|]; [|discriminate]. injection E as <- <-.
  unfold set_group. rewrite aget_aset, String.eqb_refl. eexists _, _. split; [reflexivity|]. cbn. rewrite aget_aset, String.eqb_refl. split; [reflexivity|]. cbn. split.
  - apply in_or_app. right. apply in_map_iff. exists e. auto.
  - destruct (existsb (Nat.eqb c) (g_cons g)) eqn:Ex; [apply existsb_exists in Ex as (d & Hd & Hc); apply Nat.eqb_eq in Hc; now subst|apply in_or_app; cbn; auto].
Qed.
Print Assumptions C50_pending.
Example C50_pending_case : exists s evs s' evs', run step init [LNew "t" false Ok; LThr 0 Ok; LThr 0 Ok; LSub "t" "c" Latest Ok; LPub "t" "e" "a" Ok] = Some (s, evs) /\
  step s (LRead 0 NoReply) = Some (s', evs') /\ In (ELost 0 "t" "c" (mkE 2 "e" "a")) evs'.
Proof. eexists _, _, _, _. split; [lazy; reflexivity|]. split; [lazy; reflexivity|]. now left. Qed.
