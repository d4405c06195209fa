(** Publish/subscribe: where a channel starts, and what Close leaves alone. *)
From Coq Require Import List String Arith Bool Lia Sorting.Sorted Permutation.
From Verif Require Import Machine AddrModel AddrProofs PubsubModel PubsubSpec PubsubProofs PubsubLive.
From Verif Require UnboundedModel.
Import ListNotations.
Open Scope list_scope.

(** ** A channel starts where it was subscribed *)
Definition behind (t ch : string) (id : nat) (s : state) : Prop :=
  id < next s /\ forall st e, aget t (strs s) = Some st -> In e (s_ents st) -> e_id e = id -> id <= s_last st /\ forall g, aget ch (s_grps st) = Some g -> id <= g_last g.
Lemma behind_step t ch id s l s' ev : behind t ch id s -> latest t ch l -> step s l = Some (s', ev) ->
  behind t ch id s' /\ forall c e, In (ERead c t ch e) ev -> e_id e <> id.
Proof.
  intros [Hi Ha] Hl E. pose proof (step_delta _ _ _ _ E) as [Hw Hn Hp Hk|t' w body tl Hs Hn Hp He|t' ch' md r -> Hc Hn Hp|c x es Hx Hc Hn He].
  - split; [split; [lia|]|intros c e X; rewrite Forall_forall in Hp; destruct (Hp _ X)]. intros st e A B C. destruct (Hw _ _ A) as (y & P & L & (p & Q) & R). rewrite Q in B. apply filter_In in B as [B _].
    destruct (Ha _ _ P B C) as [U V]. rewrite L. split; [exact U|]. intros g G. destruct (R _ _ G) as (k & R1 & ->). auto.
  - split; [split; [lia|]|].
    + intros st e A B C. rewrite Hs in A. unfold xadd in A. rewrite aget_aset in A. destruct (String.eqb_spec t t') as [<-|]; [|exact (Ha _ _ A B C)]. injection A as <-. cbn [s_ents s_last s_grps e_id] in *. apply in_app_or in B as [B|[<-|[]]]; [|cbn in C; lia].
      unfold get_or_new in *. destruct (aget t (strs s)) as [y|] eqn:Ey; [|destruct B]. destruct (Ha _ _ eq_refl B C) as [U V]. split; [lia|exact V].
    + intros c e X. rewrite Forall_forall in Hp. destruct He as [->|(-> & _)]; (destruct X as [X|X]; [discriminate|destruct (Hp _ X)]).
  - split; [split; [lia|]|intros c e X; rewrite Forall_forall in Hp; destruct (Hp _ X)]. intros st e A B C. apply create_inv in Hc as [Hc|(y & g' & X & Y & Z & W)]; [rewrite Hc in A; exact (Ha _ _ A B C)|].
    rewrite Z in A. unfold set_group in A. rewrite aget_aset in A. destruct (String.eqb_spec t t') as [<-|]; [|exact (Ha _ _ A B C)]. injection A as <-. cbn [s_ents s_last s_grps set_grps] in *.
    destruct (Ha _ _ X B C) as [U V]. split; [exact U|]. intros g. rewrite aget_aset. destruct (String.eqb_spec ch ch') as [<-|]; [|apply V]. intros [= <-]. destruct W as [->|[-> _]]; [exact U|]. destruct Hl. auto.
  - apply read_inv in Hc as (st & g & g' & A & B & C & D & F). split; [split; [lia|]|].
    + intros y e P Q R. rewrite F in P. unfold set_group in P. rewrite aget_aset in P. destruct (String.eqb_spec t (c_top x)) as [->|]; [|exact (Ha _ _ P Q R)]. injection P as <-. cbn [s_ents s_last s_grps set_grps] in *.
      destruct (Ha _ _ A Q R) as [U V]. split; [exact U|]. intros k. rewrite aget_aset. destruct (String.eqb_spec ch (c_ch x)) as [->|]; [|apply V]. intros [= <-]. specialize (V _ B). rewrite D.
      destruct es as [|e0 es0]; [exact V|]. assert (X : In (last_id (g_last g) (e0 :: es0)) (map e_id (e0 :: es0))) by (apply last_id_in; discriminate). apply in_map_iff in X as (e1 & <- & X). rewrite C in X. apply in_fresh in X as [_ X]. lia.
    + intros c' e X Z. destruct He as [->| ->]; apply in_map_iff in X as (e' & X & Y); [|discriminate]. injection X as _ <- <- ->. rewrite C in Y. apply in_fresh in Y as [Y1 Y2]. destruct (Ha _ _ A Y1 Z) as [_ V]. specialize (V _ B). lia.
Qed.
Lemma behind_run t ch id sched : forall s s' evs, run step s sched = Some (s', evs) -> Forall (latest t ch) sched -> behind t ch id s -> forall c e, In (ERead c t ch e) evs -> e_id e <> id.
Proof.
  induction sched as [|l sched IH]; cbn [run]; intros s s' evs H Hl Ha c e X; [injection H as <- <-; destruct X|].
  destruct (step s l) as [[s1 e1]|] eqn:E; [|discriminate]. destruct (run step s1 sched) as [[s2 e2]|] eqn:E2; [|discriminate]. injection H as <- <-. inversion Hl as [|? ? Hl1 Hl2]; subst.
  destruct (behind_step _ _ _ _ _ _ _ Ha Hl1 E) as [A B]. apply in_app_or in X as [X|X]; [exact (B _ _ X)|exact (IH _ _ _ E2 Hl2 A _ _ X)].
Qed.
Lemma sub_events t ch md r sched : forall s s' evs, run step s sched = Some (s', evs) -> In (LSub t ch md r) sched -> ~ unsubscribed t ch evs.
Proof.
  induction sched as [|l sched IH]; cbn [run]; intros s s' evs H X; [destruct X|].
  destruct (step s l) as [[s1 e1]|] eqn:E; [|discriminate]. destruct (run step s1 sched) as [[s2 e2]|] eqn:E2; [|discriminate]. injection H as <- <-. intros [U V]. destruct X as [->|X].
  - cbn [step] in E. destruct r, (xgroup_create t ch md (strs s)); injection E as <- <-; try (apply V; now left). apply (U (List.length (cons s))). now left.
  - apply (IH _ _ _ E2 X). split; [intros c Y; apply (U c)|intros Y; apply V]; apply in_or_app; now right.
Qed.
Lemma not_from_before t ch e pre s0 e0 : run step init pre = Some (s0, e0) -> unsubscribed t ch e0 -> In (EPub t e) e0 ->
  forall sched s evs, run step s0 sched = Some (s, evs) -> Forall (latest t ch) sched -> deliveries t ch (e_id e) (e0 ++ evs) = 0.
Proof.
  intros Hp Hu Hin sched s evs H Hl.
  assert (Hng : ~ has_group t ch s0 /\ forall c e, ~ In (ERead c t ch e) e0).
  { apply (no_group_no_read t ch _ _ _ _ Hp); [intros (x & g & A & _); discriminate|]. intros md r X. exact (sub_events _ _ _ _ _ _ _ _ Hp X Hu). }
  destruct Hng as [Hg Hnr]. destruct (okS_reach _ _ _ Hp) as (O1 & _ & O3 & _).
  assert (Hb : behind t ch (e_id e) s0).
  { split; [apply O3; unfold adds; apply in_flat_map; eexists; split; [exact Hin|now left]|]. intros st e' A B C. destruct (O1 _ _ A) as (_ & J & _). split; [destruct (J _ B); lia|]. intros g G. destruct Hg. exists st, g. auto. }
  pose proof (run_app _ _ _ _ _ _ _ _ Hp H) as Hr. pose proof (balance t ch (e_id e) _ _ _ Hr) as B. enough (rcount t ch (e_id e) (e0 ++ evs) = 0) by lia.
  pose proof (behind_run _ _ _ _ _ _ _ H Hl Hb) as Ha. unfold rcount. destruct (filter _ (e0 ++ evs)) as [|z l] eqn:Ef; [reflexivity|exfalso].
  assert (X : In z (z :: l)) by now left. rewrite <- Ef in X. apply filter_In in X as [X Y]. destruct z; try discriminate. apply andb_prop in Y as [Y Y3]. apply andb_prop in Y as [Y1 Y2]. apply String.eqb_eq in Y1 as ->. apply String.eqb_eq in Y2 as ->. apply Nat.eqb_eq in Y3.
  apply in_app_or in X as [X|X]; [exact (Hnr _ _ X)|exact (Ha _ _ X Y3)].
Qed.
(** From the beginning: what is in the stream waits for the new channel. *)
Lemma from_beginning t ch pre s evs st : run step init pre = Some (s, evs) -> aget t (strs s) = Some st -> aget ch (s_grps st) = None ->
  exists s', step s (LSub t ch Begin Ok) = Some (s', [ESub (List.length (cons s)) t ch]) /\ forall e, In e (s_ents st) -> waiting t ch e s'.
Proof.
  intros Hp A B. cbn [step]. unfold xgroup_create. rewrite A, B. eexists. split; [reflexivity|]. intros e He. unfold waiting. cbn [strs set_cons set_strs]. unfold set_group. rewrite aget_aset, String.eqb_refl.
  eexists _, _. split; [reflexivity|]. cbn [s_grps s_ents set_grps]. rewrite aget_aset, String.eqb_refl. split; [reflexivity|]. split; [exact He|]. cbn [g_last].
  destruct (okS_reach _ _ _ Hp) as (O1 & _ & _ & _ & _). destruct (O1 _ _ A) as (_ & J & _). destruct (J _ He) as [_ Hadd].
  assert (K : forall sched s evs, run step init sched = Some (s, evs) -> Forall (fun id => 0 < id) (adds evs) /\ 0 < next s).
  { apply (run_inv step init (fun _ evs s => Forall (fun id => 0 < id) (adds evs) /\ 0 < next s)); [split; [constructor|cbn; lia]|].
    intros sch e1 s1 l s2 e2 _ [I1 I2] E. rewrite adds_app. pose proof (step_delta _ _ _ _ E) as [Hw Hn Hq Hk|t' w body tl Hs Hn Hq Hz|t' ch' md r -> Hc Hn Hq|c x es Hx Hc Hn Hz].
    - rewrite (adds_plain _ Hq), app_nil_r. split; [exact I1|lia].
    - assert (Q : adds e2 = [next s1]) by (destruct Hz as [->|(-> & -> & ->)]; cbn; fold (adds tl); now rewrite (adds_plain tl Hq)). rewrite Q. split; [apply Forall_app; split; [exact I1|repeat constructor; exact I2]|lia].
    - rewrite (adds_plain _ Hq), app_nil_r. split; [exact I1|lia].
    - assert (Q : adds e2 = []) by (destruct Hz as [->| ->]; clear; induction es; auto). rewrite Q, app_nil_r. split; [exact I1|lia]. }
  destruct (K _ _ _ Hp) as [K1 _]. rewrite Forall_forall in K1. apply K1. unfold adds. apply in_flat_map. destruct Hadd as [X|(X & _)]; eexists; (split; [exact X|now left]).
Qed.

(** ** What Close leaves alone *)
Definition knm (d : nat) (t ch : string) (m : list (string * stream)) : Prop := exists x g, aget t m = Some x /\ aget ch (s_grps x) = Some g /\ In d (g_cons g).
Lemma knm_on d t ch t' f m : (forall x g, aget ch (s_grps x) = Some g -> t' = t -> aget ch (s_grps (f x)) = Some g) -> knm d t ch m -> knm d t ch (on_stream t' f m).
Proof.
  intros Hf (x & g & A & B & C). unfold on_stream. destruct (aget t' m) as [y|] eqn:Ey; [|exists x, g; auto]. unfold knm. rewrite aget_aset. destruct (String.eqb_spec t t') as [<-|]; [|exists x, g; auto].
  assert (y = x) as -> by congruence. exists (f x), g. auto.
Qed.
Lemma knm_set d t ch t' ch' s g g' m : find_group t' ch' m = Some (s, g) -> (t' = t -> ch' = ch -> In d (g_cons g) -> In d (g_cons g')) -> knm d t ch m -> knm d t ch (set_group t' ch' s g' m).
Proof.
  intros Hf Hg (x & k & A & B & C). apply find_group_inv in Hf as [F1 F2]. unfold knm, set_group. rewrite aget_aset. destruct (String.eqb_spec t t') as [<-|]; [|exists x, k; auto].
  assert (x = s) as -> by congruence. eexists _. cbn [s_grps set_grps]. destruct (String.eqb_spec ch ch') as [<-|N].
  - assert (k = g) as -> by congruence. exists g'. split; [reflexivity|]. cbn [s_grps set_grps]. rewrite aget_aset, String.eqb_refl. auto.
  - exists k. split; [reflexivity|]. cbn [s_grps set_grps]. rewrite aget_aset. apply String.eqb_neq in N. rewrite N. auto.
Qed.
Lemma knm_add d t ch t' e m : knm d t ch m -> knm d t ch (xadd t' e m).
Proof.
  intros (x & k & A & B & C). unfold knm, xadd. rewrite aget_aset. destruct (String.eqb_spec t t') as [<-|]; [|exists x, k; auto]. eexists _, k. split; [reflexivity|]. cbn [s_grps]. unfold get_or_new. now rewrite A.
Qed.
Lemma knm_create d t ch t' ch' md m m' : xgroup_create t' ch' md m = Some m' -> knm d t ch m -> knm d t ch m'.
Proof.
  intros H (x & k & A & B & C). apply create_inv in H as [->|(s & g & X & Y & -> & _)]; [exists x, k; auto|]. unfold knm, set_group. rewrite aget_aset. destruct (String.eqb_spec t t') as [<-|]; [|exists x, k; auto].
  assert (x = s) as -> by congruence. eexists _, k. split; [reflexivity|]. cbn [s_grps set_grps]. rewrite aget_aset. destruct (String.eqb_spec ch ch') as [<-|]; [congruence|auto].
Qed.
Lemma knm_adel d t ch t' m : t' <> t -> knm d t ch m -> knm d t ch (adel t' m).
Proof. intros N (x & k & A & B & C). exists x, k. rewrite aget_adel. destruct (String.eqb_spec t t') as [<-|]; [congruence|auto]. Qed.
Lemma knm_read d t ch t' ch' c m es m' : xreadgroup t' ch' c m = Some (es, m') -> knm d t ch m -> knm d t ch m'.
Proof.
  unfold xreadgroup. destruct (find_group t' ch' m) as [[s g]|] eqn:E; [|discriminate]. intros [= <- <-]. apply (knm_set _ _ _ _ _ _ _ _ _ E). intros _ _ X. cbn [g_cons]. destruct (existsb (Nat.eqb c) (g_cons g)); [exact X|apply in_or_app; now left].
Qed.
Lemma knm_ack d t ch t' ch' id m : knm d t ch m -> knm d t ch (xack t' ch' id m).
Proof. unfold xack. destruct (find_group t' ch' m) as [[s g]|] eqn:E; [|auto]. apply (knm_set _ _ _ _ _ _ _ _ _ E). auto. Qed.
Lemma knm_delc d t ch t' ch' c m m' : c <> d -> xdelconsumer t' ch' c m = Some m' -> knm d t ch m -> knm d t ch m'.
Proof.
  unfold xdelconsumer. intros N. destruct (find_group t' ch' m) as [[s g]|] eqn:E; [|discriminate]. intros [= <-]. apply (knm_set _ _ _ _ _ _ _ _ _ E). intros _ _ X. cbn [g_cons]. apply filter_In. split; [exact X|]. apply negb_true_iff, Nat.eqb_neq. congruence.
Qed.
Lemma known_step d t ch s l s' ev : step s l = Some (s', ev) -> (forall r, l <> LClose d r) -> stays t ch ev -> known d t ch s -> known d t ch s'.
Proof.
  change (known d t ch s) with (knm d t ch (strs s)). change (known d t ch s') with (knm d t ch (strs s')).
  intros H Hl [Hs1 Hs2] K. destruct l as [t0 ttl r|t0 w body r|t0 ch0 md r|c q|c r|c|c h r|c r|t0 r|i r|c|t0]; cbn [step] in H.
  - red_step H; injection H as <- <-; exact K.
  - red_step H; [injection H as <- <-; exact K|]. destruct r; cbn [done fails app] in H; injection H as <- <-; try exact K; now apply knm_add.
  - destruct r, (xgroup_create t0 ch0 md (strs s)) as [m|] eqn:E; injection H as <- <-; try exact K; exact (knm_create _ _ _ _ _ _ _ _ E K).
  - red_step H; injection H as <- <-; exact K.
  - destruct (nth_error (cons s) c) as [x|] eqn:Ex; [|discriminate]. destruct (c_up x); [|discriminate]. cbn [negb] in H. destruct (c_rd x); [|discriminate]. destruct (UnboundedModel.holder (c_buf x)); [destruct r; discriminate|].
    destruct r, (xreadgroup (c_top x) (c_ch x) c (strs s)) as [[es m]|] eqn:E; injection H as <- <-; try exact K; exact (knm_read _ _ _ _ _ _ _ _ _ E K).
  - red_step H; injection H as <- <-; exact K.
  - red_step H. unfold hand_step in H. red_step H; try destruct r; cbn [done] in H; injection H as <- <-; cbn [strs set_strs set_cons]; try exact K; try (now apply knm_ack); (apply knm_on; [auto|exact K]).
  - red_step H; injection H as <- <-; try exact K; cbn [strs add_thr set_thrs set_strs]; (eapply knm_delc; [|eassumption|exact K]); intros <-; eapply Hl; reflexivity.
  - red_step H; injection H as <- <-; exact K.
  - destruct (nth_error (thrs s) i) as [p|] eqn:E; [|discriminate]. destruct p as [t1 ttl|t1 id ttl|t1|c|c|t1|t1|]; cbn [thr_step] in H.
    + destruct r; cbn [done fails] in H; injection H as <- <-; try exact K; now apply knm_add.
    + destruct r; cbn [done] in H; injection H as <- <-; cbn [strs go set_thrs set_strs]; try exact K; (apply knm_on; [auto|exact K]).
    + destruct r; cbn [done] in H; injection H as <- <-; cbn [strs go set_thrs set_strs]; try exact K; (apply knm_on; [auto|exact K]).
    + red_step H; injection H as <- <-; exact K.
    + red_step H. destruct r; cbn [done] in H; injection H as <- <-; cbn [strs go set_thrs set_strs]; try exact K; (apply knm_on; [|exact K]); intros x g A B; cbn [s_grps set_grps]; rewrite aget_adel; (destruct (String.eqb_spec ch (c_ch c0)) as [E1|]; [|exact A]); exfalso; apply Hs2; left; congruence.
    + red_step H; injection H as <- <-; exact K.
    + destruct r; cbn [done fails app] in H; injection H as <- <-; cbn [strs go set_thrs set_strs]; try exact K; (apply knm_adel; [|exact K]); intros <-; apply Hs1; now left.
    + discriminate.
  - red_step H; injection H as <- <-; exact K.
  - red_step H. injection H as <- <-. cbn [strs set_strs]. apply knm_adel; [|exact K]. intros <-. apply Hs1. now left.
Qed.
Lemma known_run d t ch sched : forall s s' evs, run step s sched = Some (s', evs) -> (forall r, ~ In (LClose d r) sched) -> stays t ch evs -> known d t ch s -> known d t ch s'.
Proof.
  induction sched as [|l sched IH]; cbn [run]; intros s s' evs H Hl Hs K; [injection H as <- <-; exact K|].
  destruct (step s l) as [[s1 e1]|] eqn:E; [|discriminate]. destruct (run step s1 sched) as [[s2 e2]|] eqn:E2; [|discriminate]. injection H as <- <-. apply stays_app in Hs as [S1 S2].
  refine (IH _ _ _ E2 _ S2 (known_step _ _ _ _ _ _ _ E _ S1 K)); [intros r X; apply (Hl r); now right|intros r ->; apply (Hl r); now left].
Qed.
Lemma read_known c t ch s s' ev x : nth_error (cons s) c = Some x -> c_top x = t -> c_ch x = ch -> has_group t ch s -> step s (LRead c Ok) = Some (s', ev) -> known c t ch s'.
Proof.
  intros Hx <- <- (st & g & A & B) H. cbn [step] in H. rewrite Hx in H. destruct (c_up x); [|discriminate]. cbn [negb] in H. destruct (c_rd x); [|discriminate]. destruct (UnboundedModel.holder (c_buf x)); [discriminate|].
  unfold xreadgroup, find_group in H. rewrite A, B in H. injection H as <- <-. unfold known. cbn [strs set_cons set_strs]. unfold set_group. rewrite aget_aset, String.eqb_refl. eexists _, _. split; [reflexivity|]. cbn [s_grps set_grps]. rewrite aget_aset, String.eqb_refl. split; [reflexivity|].
  cbn [g_cons]. destruct (existsb (Nat.eqb c) (g_cons g)) eqn:E; [|apply in_or_app; right; now left]. apply existsb_exists in E as (d & D1 & D2). apply Nat.eqb_eq in D2 as ->. exact D1.
Qed.
Lemma cons_keep s l s' ev : step s l = Some (s', ev) -> forall c x, nth_error (cons s) c = Some x -> exists x', nth_error (cons s') c = Some x' /\ c_top x' = c_top x /\ c_ch x' = c_ch x.
Proof.
  intros H c x Hx. pose proof (step_cdelta _ _ _ _ H) as [Hc _ _|t' ch' Hc _ _|d y y' Hy Hu' Hc Ht Hch _ _ _ _]; rewrite Hc.
  - eauto.
  - exists x. rewrite nth_error_app1; [auto|]. now apply lt_of_nth in Hx.
  - destruct (Nat.eq_dec d c) as [->|N].
    + assert (y = x) as -> by congruence. exists y'. rewrite nth_upd_eq; [auto|]. now apply lt_of_nth in Hx.
    + exists x. rewrite nth_upd_neq; auto.
Qed.
(** Close destroys a group only if it was empty when Close looked. *)
Lemma snoc_thr s p i c : (forall d, p <> KDestroy d) -> nth_error (thrs s ++ [p]) i = Some (KDestroy c) -> nth_error (thrs s) i = Some (KDestroy c).
Proof.
  intros N H. destruct (Nat.lt_ge_cases i (List.length (thrs s))) as [Hl|Hl]; [now rewrite nth_error_app1 in H by exact Hl|]. rewrite nth_error_app2 in H by exact Hl. destruct (i - List.length (thrs s)) as [|[|k]]; try discriminate. injection H as H. destruct (N _ H).
Qed.
Lemma destroy_born s l s' ev i c : step s l = Some (s', ev) -> nth_error (thrs s') i = Some (KDestroy c) ->
  nth_error (thrs s) i = Some (KDestroy c) \/ l = LThr i Ok /\ exists x, nth_error (cons s) c = Some x /\ forall d, ~ known d (c_top x) (c_ch x) s.
Proof.
  intros H Hi. destruct l as [t0 ttl r|t0 w body r|t0 ch0 md r|d q|d r|d|d h r|d r|t0 r|j r|d|t0]; cbn [step] in H.
  10: { destruct (nth_error (thrs s) j) as [p|] eqn:Ej; [|discriminate].
    assert (Q : forall q, nth_error (upd (thrs s) j q) i = Some (KDestroy c) -> i = j /\ q = KDestroy c \/ nth_error (thrs s) i = Some (KDestroy c)).
    { intros q X. rewrite nth_upd in X by (now apply lt_of_nth in Ej). destruct (Nat.eqb_spec j i) as [->|N]; [left|right; exact X]. injection X as ->. auto. }
    destruct p as [t1 ttl|t1 id ttl|t1|c0|c0|t1|t1|]; cbn [thr_step] in H.
    4: { destruct (nth_error (cons s) c0) as [x|] eqn:Ex; [|discriminate]. destruct (find_group (c_top x) (c_ch x) (strs s)) as [[st g]|] eqn:Ef; [destruct r; [destruct (g_cons g) as [|z l] eqn:Eg|..]|]; injection H as <- <-; cbn [thrs go set_thrs] in Hi; apply Q in Hi as [[-> X]|X]; try discriminate X; auto.
         injection X as <-. right. split; [reflexivity|]. exists x. split; [exact Ex|]. intros d (st' & g' & A & B & C). apply find_group_inv in Ef as [F1 F2]. assert (st' = st) as -> by congruence. assert (g' = g) as -> by congruence. rewrite Eg in C. destruct C. }
    all: red_step H; try destruct r; cbn [done fails app] in H; try discriminate H; injection H as <- <-; cbn [thrs go set_thrs set_strs add] in Hi; apply Q in Hi as [[-> X]|X]; auto; try discriminate X; destruct ttl; discriminate X. }
  7: { red_step H. unfold hand_step in H. red_step H; try destruct r; cbn [done] in H; injection H as <- <-; left; exact Hi. }
  2: { red_step H; [injection H as <- <-; left; exact Hi|]. destruct r; cbn [done fails app] in H; injection H as <- <-; left; exact Hi. }
  all: red_step H; injection H as <- <-; left; first [exact Hi|refine (snoc_thr _ _ _ _ _ Hi); intros ?; discriminate].
Qed.
Definition looked (sched : list label) (s : state) : Prop :=
  forall i c, nth_error (thrs s) i = Some (KDestroy c) -> exists x, nth_error (cons s) c = Some x /\
  exists a b s0 e0, sched = a ++ LThr i Ok :: b /\ run step init a = Some (s0, e0) /\ forall d, ~ known d (c_top x) (c_ch x) s0.
Lemma looked_reach sched s evs : run step init sched = Some (s, evs) -> looked sched s.
Proof.
  intros H. revert sched s evs H. apply (run_inv step init (fun sched _ s => looked sched s)); [intros [|i]; discriminate|].
  intros sched evs s l s' ev Hr I H i c Hi. destruct (destroy_born _ _ _ _ _ _ H Hi) as [X|(-> & x & Hx & K)].
  - destruct (I _ _ X) as (x & Hx & a & b & s0 & e0 & -> & R & K). destruct (cons_keep _ _ _ _ H _ _ Hx) as (x' & A & B & C). exists x'. split; [exact A|]. exists a, (b ++ [l]), s0, e0. rewrite B, C, <- app_assoc. auto.
  - destruct (cons_keep _ _ _ _ H _ _ Hx) as (x' & A & B & C). exists x'. split; [exact A|]. exists sched, [], s, evs. rewrite B, C. auto.
Qed.
Lemma destroy_label s l s' ev t ch : step s l = Some (s', ev) -> In (EDestroy t ch) ev -> exists i r c x, l = LThr i r /\ nth_error (thrs s) i = Some (KDestroy c) /\ nth_error (cons s) c = Some x /\ c_top x = t /\ c_ch x = ch.
Proof.
  intros H Hin. destruct l as [t0 ttl r|t0 w body r|t0 ch0 md r|d q|d r|d|d h r|d r|t0 r|i r|d|t0]; cbn [step] in H.
  5: { red_step H; injection H as <- <-; try (destruct Hin; fail); apply in_map_iff in Hin as (e' & X & _); discriminate. }
  6: { red_step H. unfold hand_step in H. destruct r; cbn [done] in H; red_step H; injection H as <- <-; cbn in Hin; repeat (destruct Hin as [Hin|Hin]; [discriminate|]); destruct Hin. }
  8: { destruct (nth_error (thrs s) i) as [p|] eqn:Ep; [|discriminate]. destruct p as [t0 ttl|t0 id ttl|t0|c|c|t0|t0|]; cbn [thr_step] in H.
       5: { destruct (nth_error (cons s) c) as [x|] eqn:Ex; [|discriminate]. exists i, r, c, x. do 3 (split; [auto|]). destruct r; cbn [done] in H; injection H as <- <-; cbn in Hin; repeat (destruct Hin as [Hin|Hin]; [first [discriminate Hin|injection Hin as <- <-; auto]|]); destruct Hin. }
       all: red_step H; try destruct r; cbn [done fails app] in H; try discriminate H; injection H as <- <-; cbn in Hin; repeat (destruct Hin as [Hin|Hin]; [discriminate|]); destruct Hin. }
  all: try destruct r; cbn [done fails app] in H; red_step H; injection H as <- <-; cbn in Hin; repeat (destruct Hin as [Hin|Hin]; [discriminate|]); destruct Hin.
Qed.
(** When a group is destroyed, the same call of Close had found it empty before. *)
Lemma destroyed_was_empty sched l s evs s' ev t ch : run step init sched = Some (s, evs) -> step s l = Some (s', ev) -> In (EDestroy t ch) ev ->
  exists i r a b s0 e0, l = LThr i r /\ sched = a ++ LThr i Ok :: b /\ run step init a = Some (s0, e0) /\ forall d, ~ known d t ch s0.
Proof.
  intros Hr H Hin. destruct (destroy_label _ _ _ _ _ _ H Hin) as (i & r & c & x & -> & A & B & <- & <-). destruct (looked_reach _ _ _ Hr _ _ A) as (y & Y & a & b & s0 & e0 & E & R & K). assert (y = x) as -> by congruence. exists i, r, a, b, s0, e0. auto.
Qed.

(** ** Pub *)
Lemma pub_stored pre s evs t ev body r s' ev' : run step init pre = Some (s, evs) -> step s (LPub t ev body r) = Some (s', ev') -> ~ In (EPubErr t) ev' ->
  ev <> ""%string /\ exists e st, ev' = [EPub t e] /\ e_ev e = ev /\ e_body e = body /\ aget t (strs s') = Some st /\ last (s_ents st) e = e /\ In e (s_ents st) /\
    (forall t' e', In (EPub t' e') evs -> e_id e' < e_id e) /\ (forall c ch, In (ESub c t ch) evs -> stays t ch evs -> waiting t ch e s').
Proof.
  intros Hp H Hn. cbn [step] in H. destruct (String.eqb_spec ev "") as [->|N]; [injection H as <- <-; destruct Hn; now left|]. split; [exact N|].
  destruct r; cbn [done fails app] in H; injection H as <- <-; try (destruct Hn; cbn; auto; fail).
  exists (mkE (next s) ev body), (mkS (s_ents (get_or_new t (strs s)) ++ [mkE (next s) ev body]) (next s) (s_grps (get_or_new t (strs s))) (s_ttl (get_or_new t (strs s)))). cbn [e_ev e_body s_ents e_id].
  do 3 (split; [reflexivity|]). unfold add, xadd. cbn [strs e_id]. split; [now rewrite aget_aset, String.eqb_refl|]. split; [now rewrite last_last|]. split; [apply in_or_app; right; now left|].
  destruct (okS_reach _ _ _ Hp) as (O1 & _ & O3 & _). split.
  - intros t' e' X. apply O3. unfold adds. apply in_flat_map. eexists. split; [exact X|now left].
  - intros c ch Hc Hs. destruct (proj1 (fate_reach _ _ _ _ _ Hp Hs)) as (x & g & A & B); [now exists c|]. unfold waiting. cbn [strs]. rewrite aget_aset, String.eqb_refl. eexists _, g. split; [reflexivity|]. unfold get_or_new. rewrite A. cbn [s_grps s_ents e_id]. split; [exact B|]. split; [apply in_or_app; right; now left|]. destruct (O1 _ _ A) as (_ & _ & J3 & J4). specialize (J4 _ _ B). lia.
Qed.
