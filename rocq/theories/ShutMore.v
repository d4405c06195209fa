(** Proofs about the shutdown of a node: the goroutines for the actors, the beginning, crashes. *)
From Coq Require Import List Arith Bool Lia.
From Verif Require Import Machine MachineMore ShutModel ShutSpec ShutProofs.
Import ListNotations.

(** ** The goroutines of the loop *)
Lemma nodup_snoc {A} (l : list A) x : NoDup l -> ~ In x l -> NoDup (l ++ [x]).
Proof.
  intros N H. induction N as [|y l Hy N IH]; cbn; [constructor; [tauto|constructor]|]. constructor.
  - rewrite in_app_iff. cbn. intros [X|[X|[]]]; [now apply Hy|]. apply H. now left.
  - apply IH. intros X. apply H. now right.
Qed.
Definition alive (q : nat * xpc) : bool := match snd q with XEnd => false | _ => true end.
Definition live (l : list (nat * xpc)) : nat := length (filter alive l).
Lemma live_upd l x q q' : nth_error l x = Some q -> live (upd l x q') + (if alive q then 1 else 0) = live l + (if alive q' then 1 else 0).
Proof.
  unfold live. revert x. induction l as [|r l IH]; intros [|x] H; cbn in *; try discriminate.
  - injection H as ->. destruct (alive q), (alive q'); cbn; lia.
  - specialize (IH _ H). destruct (alive r); cbn; lia.
Qed.
Lemma live_snoc l q : live (l ++ [q]) = live l + (if alive q then 1 else 0).
Proof. unfold live. rewrite filter_app, app_length. cbn. destruct (alive q); reflexivity. Qed.
Lemma live_zero l x q : live l = 0 -> nth_error l x = Some q -> alive q = false.
Proof.
  intros H E. destruct (alive q) eqn:A; [|reflexivity]. unfold live in H. apply nth_error_In in E. assert (X : In q (filter alive l)) by (apply filter_In; auto). destruct (filter alive l); [destruct X|discriminate].
Qed.
Arguments live : simpl never.
Definition pre (m : mpc) : Prop := match m with MWait | MAdd | MStop | MDone | MRange => True | _ => False end.
Definition hold (m : mpc) : nat := match m with MStop | MDone => 1 | _ => 0 end.
Definition late (m : mpc) : Prop := match m with MSelect | MRet => True | _ => False end.
Lemma pre_drop ins a m : pre (drop ins a m) <-> pre m.
Proof. destruct m; cbn; try tauto. destruct ins; cbn; tauto. Qed.
Lemma late_drop ins a m : late (drop ins a m) <-> late m.
Proof. destruct m; cbn; try tauto. destruct ins; cbn; tauto. Qed.
Lemma hold_drop ins a m : hold (drop ins a m) = hold m.
Proof. destruct m; cbn; auto. destruct ins; reflexivity. Qed.
Lemma seen_drop ins a m todo seen : drop ins a m = MLoop todo seen -> exists todo', m = MLoop todo' seen /\ forall b, In b todo <-> (In b todo' /\ (ins = false -> b <> a)).
Proof.
  destruct m; cbn; try discriminate. destruct ins; intros H; injection H as <- <-; eexists; (split; [reflexivity|]); intros b; [split; [intros; split; [assumption|discriminate]|tauto]|].
  rewrite in_rm. intuition.
Qed.
Definition started (s : state) (a : nat) : Prop := exists x p, nth_error (exits s) x = Some (a, p) /\ p <> XExit.
Definition removed (evs : list event) (s : state) (a : nat) : Prop := exists j, In (VDel j a) evs \/ exists p, nth_error (calls s) j = Some p /\ unreg_pc p a /\ p <> CExit a.
Record Ex (evs : list event) (s : state) : Prop := mkEx {
  x_act : forall x a p, nth_error (exits s) x = Some (a, p) -> exists y, nth_error (actors s) a = Some y /\ (p <> XExit -> closing y = true) /\ (p = XDone \/ p = XEnd -> ended y = true);
  x_nodup : NoDup (map fst (exits s));
  x_seen : forall todo seen, main s = MLoop todo seen -> forall a, In a seen <-> In a (map fst (exits s));
  x_pre : pre (main s) -> exits s = [];
  x_wg : wg s = hold (main s) + live (exits s);
  x_wait : waiter s <> WNone <-> late (main s);
  x_closed : waiter s = WClosed -> wg s = 0;
  x_clos : forall a y, nth_error (actors s) a = Some y -> closing y = true -> started s a \/ removed evs s a;
  x_exit : forall a y, nth_error (actors s) a = Some y -> closing y = true -> exists b, In (VExit b a) evs;
  x_ended : forall a y, nth_error (actors s) a = Some y -> ended y = true -> In (VEnded a) evs;
  x_clear : match main s with MFork | MSelect | MRet => In VClear evs | _ => True end }.
Lemma removed_app evs e s s' a : removed evs s a -> calls s' = calls s -> removed (evs ++ e) s' a.
Proof. intros (j & [H|H]) E; exists j; [left; now evl|right; now rewrite E]. Qed.
Lemma pres_actor evs s a : Map evs s -> In a (present s) -> a < length (actors s).
Proof. intros M H. apply (m_pres _ _ M) in H as [(j & H) _]. eapply (m_made _ _ M), (m_put _ _ M). eauto. Qed.
Lemma nth_fst (l : list (nat * xpc)) x a p : nth_error l x = Some (a, p) -> In a (map fst l).
Proof. intros H. apply nth_error_In in H. change a with (fst (a, p)). now apply in_map. Qed.
(** Steps that leave actors, goroutines and calls alone. *)
Lemma ex_frame evs s s' e : Ex evs s -> actors s' = actors s -> exits s' = exits s -> calls s' = calls s -> wg s' = wg s -> waiter s' = waiter s ->
  (pre (main s') -> pre (main s)) -> hold (main s') = hold (main s) -> (late (main s') <-> late (main s)) ->
  (forall todo seen, main s' = MLoop todo seen -> exists todo', main s = MLoop todo' seen) ->
  match main s' with MFork | MSelect | MRet => In VClear (evs ++ e) | _ => True end -> Ex (evs ++ e) s'.
Proof.
  intros [X1 X2 X3 X4 X5 X6 X7 X8 X9 X10 X11] Ea Ee Ec Ew Et Hp Hh Hl Hs Hc. constructor; rewrite ?Ea, ?Ee, ?Ew, ?Et, ?Hh; auto.
  - intros todo seen E. destruct (Hs _ _ E) as (todo' & E'). eapply X3; eauto.
  - now rewrite Hl.
  - intros a y Hy Hc'. destruct (X8 _ _ Hy Hc') as [(x & p & A & B)|R]; [left; exists x, p; rewrite Ee; auto|right; eapply removed_app; eauto].
  - intros a y Hy Hc'. destruct (X9 _ _ Hy Hc') as (b & B). exists b. now evl.
  - intros a y Hy Hc'. evl. eauto.
Qed.
Lemma ex_calls evs s s' e : Ex evs s -> actors s' = actors s -> exits s' = exits s -> wg s' = wg s -> waiter s' = waiter s -> main s' = main s ->
  (forall a, removed evs s a -> removed (evs ++ e) s' a) -> Ex (evs ++ e) s'.
Proof.
  intros [X1 X2 X3 X4 X5 X6 X7 X8 X9 X10 X11] Ea Ee Ew Et Em Hr. constructor; rewrite ?Ea, ?Ee, ?Ew, ?Et, ?Em; auto.
  - intros a y Hy Hc'. destruct (X8 _ _ Hy Hc') as [(x & p & A & B)|R]; [left; exists x, p; rewrite Ee; auto|right; auto].
  - intros a y Hy Hc'. destruct (X9 _ _ Hy Hc') as (b & B). exists b. now evl.
  - intros a y Hy Hc'. evl. eauto.
  - destruct (main s); auto; now evl.
Qed.
Lemma removed_goto evs e s s' j p q a : removed evs s a -> nth_error (calls s) j = Some p -> calls s' = upd (calls s) j q ->
  (unreg_pc p a -> p <> CExit a -> (unreg_pc q a /\ q <> CExit a) \/ In (VDel j a) e) -> removed (evs ++ e) s' a.
Proof.
  intros (k & [H|(r & H1 & H2 & H3)]) Hj E Hq; [exists k; left; now evl|]. exists k. destruct (Nat.eq_dec k j) as [->|N].
  - assert (r = p) as -> by congruence. destruct (Hq H2 H3) as [[A B]|A]; [right; exists q; rewrite E, nth_upd_eq by (eapply some_lt; eauto); auto|left; apply in_or_app; auto].
  - right. exists r. rewrite E, nth_upd_neq by congruence. auto.
Qed.
Lemma started_goto s s' x a p q b : nth_error (exits s) x = Some (a, p) -> exits s' = upd (exits s) x (a, q) -> q <> XExit -> started s b -> started s' b.
Proof.
  intros Hx E Nq (x' & r & H1 & H2). destruct (Nat.eq_dec x' x) as [->|N].
  - assert (b = a) as -> by congruence. exists x, q. rewrite E, nth_upd_eq by (eapply some_lt; eauto). auto.
  - exists x', r. rewrite E, nth_upd_neq by congruence. auto.
Qed.
Lemma ex_step evs s l s' e : Ex evs s -> Map evs s -> step s l = Some (s', e) -> Ex (evs ++ e) s'.
Proof.
  intros X M H. apply step_move in H as [D V]. pose proof X as [X1 X2 X3 X4 X5 X6 X7 X8 X9 X10 X11].
  assert (Hne : forall P : Prop, In VClear evs -> In VClear (evs ++ e)) by (intros; now evl).
  assert (F : main s' = main s -> actors s' = actors s -> exits s' = exits s -> calls s' = calls s -> wg s' = wg s -> waiter s' = waiter s -> Ex (evs ++ e) s').
  { intros Em Ea Ee Ec Ew Et. apply (ex_frame _ s); auto; rewrite Em; try tauto; eauto. destruct (main s); auto; now evl. }
  destruct V; try (apply F; reflexivity).
  - apply (ex_frame _ s); auto; cbn; rewrite ?H; cbn; try tauto; destruct (port s); cbn; try tauto; try discriminate.
  - constructor; cbn; auto; try discriminate.
    + intros _. apply X4. rewrite H. exact I.
    + rewrite X5, H. reflexivity.
    + rewrite X6, H. cbn. tauto.
    + intros W. exfalso. assert (Y : waiter s <> WNone) by congruence. apply X6 in Y. rewrite H in Y. exact Y.
    + intros a y Hy Hc'. destruct (X8 _ _ Hy Hc') as [(x & p & A & B)|R]; [left; exists x, p; auto|right; eapply removed_app; eauto].
    + intros a y Hy Hc'. destruct (X9 _ _ Hy Hc') as (b & B). exists b. now evl.
    + intros a y Hy Hc'. evl. eauto.
  - apply (ex_frame _ s); auto; cbn; rewrite ?H; cbn; try tauto; discriminate.
  - constructor; cbn; auto; try discriminate.
    + intros _. apply X4. rewrite H. exact I.
    + rewrite H, H0 in X5. cbn in X5. lia.
    + rewrite X6, H. cbn. tauto.
    + intros W. exfalso. assert (Y : waiter s <> WNone) by congruence. apply X6 in Y. rewrite H in Y. exact Y.
    + intros a y Hy Hc'. destruct (X8 _ _ Hy Hc') as [(x & p & A & B)|R]; [left; exists x, p; auto|right; eapply removed_app; eauto].
    + intros a y Hy Hc'. destruct (X9 _ _ Hy Hc') as (b & B). exists b. now evl.
    + intros a y Hy Hc'. evl. eauto.
  - assert (E0 : exits s = []) by (apply X4; rewrite H; exact I). rewrite app_nil_r. constructor; cbn; auto; try tauto.
    + intros todo seen E. injection E as _ <-. intros a. rewrite E0. tauto.
    + rewrite X5, H. reflexivity.
    + rewrite X6, H. tauto.
  - apply (ex_frame _ s); auto; cbn; rewrite ?H; cbn; try tauto; discriminate.
  - apply (ex_frame _ s); auto; cbn; rewrite ?H; cbn; try tauto; try discriminate. evr.
  - rewrite app_nil_r. rewrite H in *. constructor; cbn; auto; try tauto; try discriminate. split; [tauto|discriminate].
  - rewrite app_nil_r. assert (La : a < length (actors s)) by (eapply pres_actor; eauto). rewrite H in *. constructor; cbn; auto; try tauto.
    + intros x b p Hx. apply snoc_case in Hx as [[-> Hx]|[_ Hx]]; [|eauto]. injection Hx as -> ->. destruct (nth_error (actors s) a) as [y|] eqn:Ey; [|apply nth_error_None in Ey; lia].
      exists y. split; [reflexivity|]. split; [tauto|]. intros [Q|Q]; discriminate.
    + rewrite map_app. cbn. apply nodup_snoc; [exact X2|]. intros Y. apply H0. now apply (X3 _ _ eq_refl).
    + intros todo0 seen0 E b. injection E as <- <-. rewrite map_app, in_app_iff. cbn. rewrite (X3 _ _ eq_refl). tauto.
    + rewrite live_snoc, X5. cbn. lia.
    + intros W. exfalso. assert (Y : waiter s <> WNone) by congruence. exact (proj1 X6 Y).
    + intros b y Hy Hc'. destruct (X8 _ _ Hy Hc') as [(x & p & A & B)|R]; [left; exists x, p; split; [apply nth_snoc; exact A|exact B]|auto].
  - constructor; cbn.
    + intros x' b p Hx. destruct (upd_case _ _ _ _ _ _ H Hx) as [[-> Q]|[N Hx']].
      * injection Q as -> ->. exists (mkA true (ended y)). split; [apply nth_upd_eq; eapply some_lt; eauto|]. split; [reflexivity|]. intros [Q|Q]; discriminate.
      * destruct (X1 _ _ _ Hx') as (z & Z1 & Z2 & Z3). destruct (Nat.eq_dec a b) as [->|Nb]; [|exists z; rewrite nth_upd_neq by exact Nb; auto].
        exists (mkA true (ended y)). assert (z = y) as -> by congruence. split; [apply nth_upd_eq; eapply some_lt; eauto|]. split; [reflexivity|exact Z3].
    + rewrite (upd_fst _ _ _ _ _ H). exact X2.
    + intros todo seen E b. rewrite (upd_fst _ _ _ _ _ H). eauto.
    + intros P. rewrite (X4 P) in H. destruct x; discriminate.
    + pose proof (live_upd _ _ _ (a, XWait) H) as L. cbn in L. rewrite X5. lia.
    + exact X6.
    + intros W. rewrite X7 by exact W. reflexivity.
    + intros b z Hz Hc'. destruct (upd_case _ _ _ _ _ _ H0 Hz) as [[-> ->]|[N Hz']]; [left; exists x, XWait; cbn; rewrite nth_upd_eq by (eapply some_lt; eauto); split; [reflexivity|discriminate]|].
      destruct (X8 _ _ Hz' Hc') as [R|R]; [left; eapply started_goto; [exact H|cbn; reflexivity|discriminate|exact R]|right; eapply removed_app; eauto].
    + intros b z Hz Hc'. destruct (upd_case _ _ _ _ _ _ H0 Hz) as [[-> ->]|[N Hz']]; [exists true; evr|]. destruct (X9 _ _ Hz' Hc') as (c & B). exists c. now evl.
    + intros b z Hz Hc'. evl. destruct (upd_case _ _ _ _ _ _ H0 Hz) as [[-> ->]|[N Hz']]; eauto.
    + destruct (main s); auto; now evl.
  - rewrite app_nil_r. constructor; cbn; auto.
    + intros x' b p Hx. destruct (upd_case _ _ _ _ _ _ H Hx) as [[-> Q]|[N Hx']]; [|eauto]. injection Q as -> ->. destruct (X1 _ _ _ H) as (z & Z1 & Z2 & _). exists z. split; [exact Z1|]. split; [intros _; apply Z2; discriminate|]. congruence.
    + rewrite (upd_fst _ _ _ _ _ H). exact X2.
    + intros todo seen E b. rewrite (upd_fst _ _ _ _ _ H). eauto.
    + intros P. rewrite (X4 P) in H. destruct x; discriminate.
    + pose proof (live_upd _ _ _ (a, XDone) H) as L. cbn in L. rewrite X5. lia.
    + intros b z Hz Hc'. destruct (X8 _ _ Hz Hc') as [R|R]; [left; eapply started_goto; [exact H|cbn; reflexivity|discriminate|exact R]|right; exact R].
  - rewrite app_nil_r. constructor; cbn; auto.
    + intros x' b p Hx. destruct (upd_case _ _ _ _ _ _ H Hx) as [[-> Q]|[N Hx']]; [|eauto]. injection Q as -> ->. destruct (X1 _ _ _ H) as (z & Z1 & Z2 & Z3). exists z. split; [exact Z1|]. split; [intros _; apply Z2; discriminate|]. intros _. apply Z3. now left.
    + rewrite (upd_fst _ _ _ _ _ H). exact X2.
    + intros todo seen E b. rewrite (upd_fst _ _ _ _ _ H). eauto.
    + intros P. rewrite (X4 P) in H. destruct x; discriminate.
    + pose proof (live_upd _ _ _ (a, XEnd) H) as L. cbn in L. lia.
    + intros W. apply X7 in W. congruence.
    + intros b z Hz Hc'. destruct (X8 _ _ Hz Hc') as [R|R]; [left; eapply started_goto; [exact H|cbn; reflexivity|discriminate|exact R]|right; exact R].
  - rewrite app_nil_r. constructor; cbn; auto. rewrite <- X6, H. split; discriminate.
  - apply (ex_frame _ s); auto; cbn; rewrite ?H in *; cbn; try tauto; try discriminate. now evl.
  - apply (ex_frame _ s); auto; cbn; rewrite ?H in *; cbn; try tauto; try discriminate. now evl.
  - constructor; cbn; auto.
    + intros x a p Hx. destruct (X1 _ _ _ Hx) as (y & Y & Z). exists y. split; [now apply nth_snoc|exact Z].
    + intros a y Hy Hc'. apply snoc_case in Hy as [[_ ->]|[_ Hy]]; [discriminate|]. destruct (X8 _ _ Hy Hc') as [R|(j & [R|(p & P1 & P2)])]; [left; exact R|right; exists j; left; now evl|].
      right. exists j. right. exists p. split; [now apply nth_snoc|exact P2].
    + intros a y Hy Hc'. apply snoc_case in Hy as [[_ ->]|[_ Hy]]; [discriminate|]. destruct (X9 _ _ Hy Hc') as (b & B). exists b. now evl.
    + intros a y Hy Hc'. apply snoc_case in Hy as [[_ ->]|[_ Hy]]; [discriminate|]. evl. eauto.
    + destruct (main s); auto; now evl.
  - apply (ex_calls _ s); auto. intros b (j & [R|(p & P1 & P2)]); exists j; [left; now evl|right]. exists p. split; [now apply nth_snoc|exact P2].
  - constructor; cbn; auto.
    + intros x b p Hx. destruct (X1 _ _ _ Hx) as (z & Z1 & Z2 & Z3). destruct (Nat.eq_dec a b) as [->|Nb]; [|exists z; rewrite nth_upd_neq by exact Nb; auto].
      exists (mkA true (ended y)). assert (z = y) as -> by congruence. split; [apply nth_upd_eq; eapply some_lt; eauto|]. split; [reflexivity|exact Z3].
    + intros b z Hz Hc'. destruct (upd_case _ _ _ _ _ _ H0 Hz) as [[-> ->]|[N Hz']].
      * right. exists j. right. exists (CWait a). cbn. rewrite nth_upd_eq by (eapply some_lt; eauto). split; [reflexivity|]. split; [right; now left|discriminate].
      * destruct (X8 _ _ Hz' Hc') as [R|R]; [left; exact R|right]. eapply removed_goto; [exact R|exact H|reflexivity|]. intros [Q|[Q|[Q|Q]]] B; try discriminate. injection Q as <-. now destruct B.
    + intros b z Hz Hc'. destruct (upd_case _ _ _ _ _ _ H0 Hz) as [[-> ->]|[N Hz']]; [exists false; evr|]. destruct (X9 _ _ Hz' Hc') as (c & B). exists c. now evl.
    + intros b z Hz Hc'. evl. destruct (upd_case _ _ _ _ _ _ H0 Hz) as [[-> ->]|[N Hz']]; eauto.
    + destruct (main s); auto; now evl.
  - apply (ex_calls _ s); auto. intros b R. eapply removed_goto; [exact R|exact H|reflexivity|]. intros [Q|[Q|[Q|Q]]] _; try discriminate. injection Q as <-. left. split; [right; right; now left|discriminate].
  - apply (ex_calls _ s); auto. intros b R. eapply removed_goto; [exact R|exact H|reflexivity|]. intros [Q|[Q|[Q|Q]]] _; try discriminate. injection Q as -> <-. left. split; [right; right; now right|discriminate].
  - constructor; cbn; auto.
    + intros todo seen E. destruct (seen_drop _ _ _ _ _ E) as (todo' & E' & _). eauto.
    + intros P. apply X4. now apply pre_drop in P.
    + rewrite hold_drop. exact X5.
    + rewrite late_drop. exact X6.
    + intros b y Hy Hc'. destruct (X8 _ _ Hy Hc') as [R|R]; [left; exact R|right]. eapply removed_goto; [exact R|exact H|reflexivity|]. intros [Q|[Q|[Q|Q]]] _; try discriminate. injection Q as -> <-. right. now left.
    + intros b y Hy Hc'. destruct (X9 _ _ Hy Hc') as (c & B). exists c. now evl.
    + intros b y Hy Hc'. evl. eauto.
    + destruct (main s); cbn; auto; try (now evl). destruct ins; exact I.
  - constructor; cbn; auto.
    + intros x b p Hx. destruct (X1 _ _ _ Hx) as (z & Z1 & Z2 & Z3). destruct (Nat.eq_dec a b) as [->|Nb]; [|exists z; rewrite nth_upd_neq by exact Nb; auto].
      exists (mkA true true). split; [apply nth_upd_eq; eapply some_lt; eauto|]. split; reflexivity.
    + intros b z Hz Hc'. destruct (upd_case _ _ _ _ _ _ H Hz) as [[-> ->]|[N Hz']]; [destruct (X8 _ _ H eq_refl) as [R|R]|destruct (X8 _ _ Hz' Hc') as [R|R]]; try (left; exact R); right; eapply removed_app; eauto.
    + intros b z Hz Hc'. destruct (upd_case _ _ _ _ _ _ H Hz) as [[-> ->]|[N Hz']]; [destruct (X9 _ _ H eq_refl) as (c & B)|destruct (X9 _ _ Hz' Hc') as (c & B)]; exists c; now evl.
    + intros b z Hz Hc'. destruct (upd_case _ _ _ _ _ _ H Hz) as [[-> ->]|[N Hz']]; [evr|evl; eauto].
    + destruct (main s); auto; now evl.
Qed.
Lemma ex_reach p sched s evs : run step (init p) sched = Some (s, evs) -> Ex evs s.
Proof.
  revert sched s evs. apply (run_inv step (init p) (fun _ evs s => Ex evs s)).
  - constructor; cbn; try tauto; try discriminate; try reflexivity; try (intros []; discriminate); try (constructor; fail).
  - intros sched evs s l s' e R IH H. eapply ex_step; eauto. eapply map_reach; eauto.
Qed.

(** ** The beginning *)
Definition reached (s : state) (a : nat) : Prop :=
  match main s with
  | MLoop todo _ => In a todo \/ In a (map fst (exits s))
  | MClear | MFork | MSelect | MRet => In a (map fst (exits s))
  | _ => True
  end.
Record Beg (b c : list event) (s : state) : Prop := mkBeg {
  b_one : ~ begun b; b_two : ~ begun c;
  b_del : forall a j, In a (map fst (exits s)) -> ~ In (VDel j a) b;
  b_todo : forall a, registered b a -> (forall j, ~ In (VDel j a) c) -> reached s a;
  b_time : began s <= now s }.
Definition Start (evs : list event) (s : state) : Prop :=
  match main s with MWait => ~ begun evs | _ => exists b c, evs = b ++ VBegin (began s) :: c /\ Beg b c s end.
Lemma start_pre evs s : Start evs s -> begun evs -> main s <> MWait.
Proof. intros H B E. unfold Start in H. rewrite E in H. contradiction. Qed.
Lemma start_get evs s : Start evs s -> main s <> MWait -> exists b c, evs = b ++ VBegin (began s) :: c /\ Beg b c s.
Proof. unfold Start. destruct (main s); tauto. Qed.
Lemma start_put evs s : main s <> MWait -> (exists b c, evs = b ++ VBegin (began s) :: c /\ Beg b c s) -> Start evs s.
Proof. unfold Start. destruct (main s); tauto. Qed.
Lemma begun_app a b : begun (a ++ b) <-> begun a \/ begun b.
Proof. unfold begun. split; [intros (t & H); apply in_app_or in H as [H|H]; eauto|intros [(t & H)|(t & H)]; exists t; apply in_or_app; auto]. Qed.
Lemma move_begun s s' e : move s s' e -> main s <> MWait -> ~ begun e /\ began s' = began s /\ main s' <> MWait /\ now s <= now s'.
Proof.
  intros M N. destruct M; cbn; (split; [intros (t & X); cbn in X; repeat destruct X as [X|X]; try discriminate; try contradiction; destruct ins; discriminate|]);
    (split; [try reflexivity; congruence|]); (split; [first [exact N|discriminate|congruence|idtac]|lia]).
  intros X. apply N. eapply drop_simple; [|exact X]. exact I.
Qed.
Lemma move_exits s s' e a : move s s' e -> In a (map fst (exits s')) -> In a (map fst (exits s)) \/ In a (present s).
Proof.
  intros M. destruct M; cbn; auto; try (erewrite upd_fst by eassumption; auto). rewrite map_app, in_app_iff. cbn. intros [X|[<-|[]]]; auto.
Qed.
Lemma move_reached evs s s' e a : move s s' e -> Map evs s -> main s <> MWait -> registered evs a -> (forall j, ~ In (VDel j a) e) -> reached s a -> reached s' a.
Proof.
  intros M Mp N R Nd. unfold reached.
  destruct M; cbn; try (match goal with E : main s = _ |- _ => rewrite E end); cbn; auto; try (erewrite upd_fst by eassumption; auto; fail); try tauto.
  - intros _. left. now apply (m_pres _ _ Mp).
  - rewrite map_app, in_app_iff, in_rm. cbn. destruct (Nat.eq_dec a a0) as [->|]; [auto|]. tauto.
  - destruct (main s); cbn; auto. destruct ins; cbn; auto. rewrite in_rm. intros [X|X]; [|auto]. left. split; [exact X|]. intros ->. apply (Nd j). now left.
Qed.
Lemma start_step evs s l s' e : Start evs s -> Map evs s -> Ex evs s -> step s l = Some (s', e) -> Start (evs ++ e) s'.
Proof.
  intros St Mp X H. apply step_move in H as [D M]. assert (dec : main s = MWait \/ main s <> MWait) by (destruct (main s); auto; right; discriminate). destruct dec as [E|N].
  - unfold Start in St. rewrite E in St. assert (X0 : exits s = []) by (apply (x_pre _ _ X); rewrite E; exact I).
    destruct M; try congruence; try (unfold Start; cbn; rewrite E; rewrite begun_app; intros [Y|(t & Y)]; [now apply St|cbn in Y; repeat destruct Y as [Y|Y]; try discriminate; contradiction]).
    + apply start_put; [cbn; destruct (port s); discriminate|]. cbn. exists evs, []. split; [reflexivity|]. constructor; cbn.
      * exact St.
      * intros (t & []).
      * rewrite X0. intros a j [].
      * intros a R _. unfold reached. cbn. destruct (port s); exact I.
      * lia.
    + unfold Start. cbn. rewrite E. cbn. rewrite begun_app. intros [Y|(t & Y)]; [now apply St|]. cbn in Y. destruct Y as [Y|[]]. destruct ins; discriminate.
  - destruct (start_get _ _ St N) as (b & c & -> & B). destruct (move_begun _ _ _ M N) as (B1 & B2 & B3 & B4). apply start_put; [exact B3|]. exists b, (c ++ e). split; [rewrite B2, <- app_assoc; reflexivity|].
    destruct B as [C1 C2 C3 C4 C5]. constructor.
    + exact C1.
    + rewrite begun_app. tauto.
    + intros a j Ha. destruct (move_exits _ _ _ _ M Ha) as [Ha'|Ha']; [now apply C3|]. apply (m_pres _ _ Mp) in Ha' as [_ Ha']. intros Y. apply (Ha' j). apply in_or_app. now left.
    + intros a R Nd. assert (Nd1 : forall j, ~ In (VDel j a) c) by (intros j Y; apply (Nd j); now evl). eapply move_reached; [exact M|exact Mp|exact N| | |now apply C4].
      * destruct R as [(j & R1) R2]. split; [exists j; now evl|]. intros k Y. apply in_app_or in Y as [Y|[Y|Y]]; [now apply (R2 k)|discriminate|now apply (Nd1 k)].
      * intros j Y. apply (Nd j). apply in_or_app. now right.
    + lia.
Qed.
Lemma start_reach p sched s evs : run step (init p) sched = Some (s, evs) -> Start evs s.
Proof.
  revert sched s evs. apply (run_inv step (init p) (fun _ evs s => Start evs s)); [intros (t & [])|].
  intros sched evs s l s' e R IH H. eapply start_step; eauto; [eapply map_reach|eapply ex_reach]; eauto.
Qed.

(** ** The end *)
Lemma return_state p sched s evs x t ok z : run step (init p) sched = Some (s, evs) -> evs = x ++ VReturn t ok :: z ->
  exists sched' u, run step (init p) sched' = Some (u, x) /\ main u = MSelect /\ t = now u /\ (ok = true -> waiter u = WClosed) /\ (ok = false -> began u + limit <= now u).
Proof.
  intros H E. destruct (run_split _ _ _ _ _ _ _ _ H E) as (a & l & c & u & u' & e1 & q & r & e2 & -> & H1 & H2 & H3 & -> & ->).
  apply step_move in H2 as [D M]. remember (q ++ VReturn t ok :: r) as e eqn:Ee.
  assert (N : In (VReturn t ok) e) by (rewrite Ee; apply in_or_app; right; now left).
  destruct M; try (exfalso; cbn in N; repeat destruct N as [N|N]; try discriminate; contradiction); try (destruct ins; destruct N as [N|[]]; discriminate).
  - apply in_single in Ee as (-> & -> & Ee). injection Ee as <- <-. rewrite app_nil_r. exists a, u. repeat (split; [assumption || reflexivity|]). split; [auto|discriminate].
  - apply in_single in Ee as (-> & -> & Ee). injection Ee as <- <-. rewrite app_nil_r. exists a, u. repeat (split; [assumption || reflexivity|]). split; [discriminate|auto].
Qed.
Lemma graceful p sched s evs x t z b t0 c a : run step (init p) sched = Some (s, evs) -> evs = x ++ VReturn t true :: z -> x = b ++ VBegin t0 :: c ->
  registered b a -> (forall j, ~ In (VDel j a) c) -> (exists w, In (VExit w a) x) /\ In (VEnded a) x.
Proof.
  intros H E Ex0 R Nd. destruct (return_state _ _ _ _ _ _ _ _ H E) as (sched' & u & Hu & Mu & _ & W & _). specialize (W eq_refl).
  pose proof (ex_reach _ _ _ _ Hu) as X. destruct (start_get _ _ (start_reach _ _ _ _ Hu)) as (b' & c' & E' & B); [congruence|].
  assert (b = b' /\ c = c') as [-> ->].
  { rewrite E' in Ex0. destruct B as [B1 B2 _ _ _]. clear -Ex0 B1 B2. revert b Ex0. induction b' as [|y b' IH]; intros [|y' b] Ex0; cbn in Ex0.
    - injection Ex0 as _ <-. auto.
    - injection Ex0 as _ Y. exfalso. apply B2. exists t0. rewrite Y. apply in_or_app. right. now left.
    - injection Ex0 as Y _. exfalso. apply B1. exists t0. now left.
    - injection Ex0 as <- Y. destruct (IH ltac:(intros (q & Q); apply B1; exists q; now right) _ Y) as [-> ->]. auto. }
  pose proof (b_todo _ _ _ B _ R Nd) as Q. unfold reached in Q. rewrite Mu in Q. apply in_map_iff in Q as ([a' q] & Qa & Qi). cbn in Qa. subst a'. apply In_nth_error in Qi as (i & Qi).
  pose proof (x_wg _ _ X) as G. rewrite (x_closed _ _ X W), Mu in G. cbn in G. assert (L : live (exits u) = 0) by lia. pose proof (live_zero _ _ _ L Qi) as A. destruct q; try discriminate A.
  destruct (x_act _ _ X _ _ _ Qi) as (y & Y1 & Y2 & Y3). split; [eapply (x_exit _ _ X); eauto; apply Y2; discriminate|eapply (x_ended _ _ X); eauto].
Qed.
(** Removed or not. *)
Definition gone_by (evs : list event) (a : nat) : Prop := (exists w, In (VExit w a) evs) /\ In (VEnded a) evs.
Lemma gone_app evs e a : gone_by evs a -> gone_by (evs ++ e) a.
Proof. intros [(w & X) Y]. split; [exists w|]; apply in_or_app; now left. Qed.
Lemma ended_exit p sched s evs : run step (init p) sched = Some (s, evs) -> forall a, In (VEnded a) evs -> exists w, In (VExit w a) evs.
Proof.
  revert sched s evs. apply (run_inv step (init p) (fun _ evs _ => forall a, In (VEnded a) evs -> exists w, In (VExit w a) evs)); [intros a []|].
  intros sched evs s l s' e R IH H a Y. pose proof (ex_reach _ _ _ _ R) as X. apply step_move in H as [_ M]. apply in_app_or in Y as [Y|Y]; [destruct (IH _ Y) as (w & Z); exists w; now evl|].
  destruct M; cbn in Y; repeat destruct Y as [Y|Y]; try discriminate; try contradiction; try (destruct ins; discriminate). injection Y as ->. destruct (x_exit _ _ X _ _ H eq_refl) as (w & Z). exists w. now evl.
Qed.
Lemma removed_gone p sched s evs : run step (init p) sched = Some (s, evs) ->
  (forall j a, nth_error (calls s) j = Some (CLock false a) \/ nth_error (calls s) j = Some (CWrite false a) -> gone_by evs a) /\ (forall j a, In (VDel j a) evs -> gone_by evs a).
Proof.
  revert sched s evs. apply (run_inv step (init p) (fun _ evs s => (forall j a, nth_error (calls s) j = Some (CLock false a) \/ nth_error (calls s) j = Some (CWrite false a) -> gone_by evs a) /\ (forall j a, In (VDel j a) evs -> gone_by evs a))).
  - split; [intros [|j] a [H|H]; discriminate|intros j a []].
  - intros sched evs s l s' e R [IH1 IH2] H. pose proof (ex_reach _ _ _ _ R) as X. apply step_move in H as [_ M].
    assert (D : (forall j a, ~ In (VDel j a) e) -> forall j a, In (VDel j a) (evs ++ e) -> gone_by (evs ++ e) a).
    { intros N j a Y. apply in_app_or in Y as [Y|Y]; [apply gone_app; eauto|destruct (N _ _ Y)]. }
    assert (C : calls s' = calls s -> forall j a, nth_error (calls s') j = Some (CLock false a) \/ nth_error (calls s') j = Some (CWrite false a) -> gone_by (evs ++ e) a).
    { intros -> j a Y. apply gone_app. eauto. }
    assert (U : forall k q q', nth_error (calls s) k = Some q -> calls s' = upd (calls s) k q' -> (forall a, q' = CLock false a \/ q' = CWrite false a -> gone_by evs a) -> forall j a, nth_error (calls s') j = Some (CLock false a) \/ nth_error (calls s') j = Some (CWrite false a) -> gone_by (evs ++ e) a).
    { intros k q q' Hk -> Hq j a Y. apply gone_app. destruct Y as [Y|Y]; destruct (upd_case _ _ _ _ _ _ Hk Y) as [[_ Y']|[_ Y']]; eauto. }
    destruct M; try (split; [apply C; reflexivity|apply D; intros j0 a0 Y; cbn in Y; intuition discriminate]).
    + split; [|apply D; intros j0 a0 Y; cbn in Y; intuition discriminate]. cbn. intros j0 a0 Y. apply gone_app. apply (IH1 j0). destruct Y as [Y|Y]; apply snoc_case in Y as [[_ Y]|[_ Y]]; auto; discriminate.
    + split; [|apply D; intros j0 a0 Y; cbn in Y; intuition discriminate]. cbn. intros j0 a0 Y. apply gone_app. apply (IH1 j0). destruct Y as [Y|Y]; apply snoc_case in Y as [[_ Y]|[_ Y]]; auto; discriminate.
    + split; [|apply D; intros j0 a0 Y; cbn in Y; intuition discriminate]. eapply U; [eassumption|reflexivity|]. intros a0 [Y|Y]; discriminate.
    + split; [|apply D; intros j0 a0 Y; cbn in Y; intuition discriminate]. eapply U; [eassumption|reflexivity|]. intros a0 [Y|Y]; [|discriminate]. injection Y as <-. pose proof (x_ended _ _ X _ _ H0 H1) as Z. split; [eapply ended_exit; eauto|exact Z].
    + split; [|apply D; intros j0 a0 Y; cbn in Y; intuition discriminate]. eapply U; [eassumption|reflexivity|]. intros a0 [Y|Y]; [discriminate|]. injection Y as -> ->. eauto.
    + split; [eapply U; [eassumption|reflexivity|]; intros a0 [Y|Y]; discriminate|]. intros j0 a0 Y. apply gone_app. apply in_app_or in Y as [Y|Y]; [eauto|]. destruct ins; destruct Y as [Y|[]]; [discriminate|]. injection Y as <- <-. eauto.
Qed.
Lemma graceful_all p sched s evs x t z b t0 c a : run step (init p) sched = Some (s, evs) -> evs = x ++ VReturn t true :: z -> x = b ++ VBegin t0 :: c -> registered b a -> (exists w, In (VExit w a) x) /\ In (VEnded a) x.
Proof.
  intros H E Ex0 R. destruct (return_state _ _ _ _ _ _ _ _ H E) as (sched' & u & Hu & _).
  assert (dec : (exists j, In (VDel j a) c) \/ forall j, ~ In (VDel j a) c).
  { clear. induction c as [|e c IH]; [right; intros j []|]. destruct IH as [(j & IH)|IH]; [left; exists j; now right|]. destruct e as [| | | | | | |j0 b| | | | |]; try (right; intros j1 [X|X]; [discriminate|exact (IH _ X)]). destruct (Nat.eq_dec b a) as [->|Nb]; [left; exists j0; now left|right; intros j [X|X]; [congruence|exact (IH _ X)]]. }
  destruct dec as [(j & D)|N]; [|eapply (graceful _ _ _ _ _ _ _ _ _ _ _ H E Ex0); eauto]. apply (proj2 (removed_gone _ _ _ _ Hu) j). rewrite Ex0. apply in_or_app. right. now right.
Qed.
Lemma timeout p sched s evs x t z : run step (init p) sched = Some (s, evs) -> evs = x ++ VReturn t false :: z -> exists t0, In (VBegin t0) x /\ t0 + 30 <= t.
Proof.
  intros H E. destruct (return_state _ _ _ _ _ _ _ _ H E) as (sched' & u & Hu & Mu & -> & _ & W). destruct (start_get _ _ (start_reach _ _ _ _ Hu)) as (b' & c' & E' & B); [congruence|].
  exists (began u). split; [rewrite E'; apply in_or_app; right; now left|]. apply W. reflexivity.
Qed.
Lemma cleared p sched s evs x t ok z : run step (init p) sched = Some (s, evs) -> evs = x ++ VReturn t ok :: z -> In VClear x.
Proof. intros H E. destruct (return_state _ _ _ _ _ _ _ _ H E) as (sched' & u & Hu & Mu & _). pose proof (x_clear _ _ (ex_reach _ _ _ _ Hu)) as X. now rewrite Mu in X. Qed.
Lemma requests_first p sched s evs x a z r : run step (init p) sched = Some (s, evs) -> evs = x ++ VExit true a :: z -> In (VRequest r) evs -> In (VAnswer r) x.
Proof.
  intros H E Hr. destruct (run_split _ _ _ _ _ _ _ _ H E) as (k & l & c & u & u' & e1 & q & w & e2 & -> & H1 & H2 & H3 & -> & ->).
  pose proof (req_reach _ _ _ _ H1) as Q. pose proof (ex_reach _ _ _ _ H1) as X. pose proof H2 as H2'. apply step_move in H2 as [D M]. remember (q ++ VExit true a :: w) as e eqn:Ee.
  assert (N : In (VExit true a) e) by (rewrite Ee; apply in_or_app; right; now left).
  destruct M; try (exfalso; cbn in N; repeat destruct N as [N|N]; try discriminate; contradiction); try (destruct ins; destruct N as [N|[]]; discriminate).
  apply in_single in Ee as (-> & -> & Ee). injection Ee as ->. rewrite app_nil_r in *.
  assert (NP : ~ pre (main u)) by (intros P; rewrite (x_pre _ _ X P) in H0; destruct x; discriminate).
  destruct (port u) eqn:Pt.
  - assert (St : stopped u = true) by (apply (q_main _ _ _ Q Pt); intros Y; apply NP; destruct (main u); try destruct Y; exact I).
    assert (L : r < length (requests u)).
    { rewrite E in Hr. apply in_app_or in Hr as [Hr|Hr]; [now apply (q_in _ _ _ Q)|]. destruct Hr as [Hr|Hr]; [discriminate|]. exfalso. eapply (stopped_quiet _ _ _ _ H3); [exact St|exact Hr]. }
    destruct (nth_error (requests u) r) as [[|]|] eqn:Er; [destruct (q_stop _ _ _ Q St _ Er)|now apply (q_nth _ _ _ Q)|apply nth_error_None in Er; lia].
  - exfalso. pose proof (req_reach _ _ _ _ H) as Qf. apply (q_in _ _ _ Qf) in Hr. rewrite (q_none _ _ _ Qf) in Hr; [inversion Hr|]. rewrite (q_port _ _ _ Qf), <- (q_port _ _ _ Q). exact Pt.
Qed.

(** ** Crashes *)
Lemma crash_state p sched s evs x k z : run step (init p) sched = Some (s, evs) -> evs = x ++ VCrash k :: z -> exists sched' u, run step (init p) sched' = Some (u, x) /\ crashes u k.
Proof.
  intros H E. destruct (run_split _ _ _ _ _ _ _ _ H E) as (a & l & c & u & u' & e1 & q & r & e2 & -> & H1 & H2 & H3 & -> & ->).
  apply step_move in H2 as [D M]. remember (q ++ VCrash k :: r) as e eqn:Ee.
  assert (N : In (VCrash k) e) by (rewrite Ee; apply in_or_app; right; now left).
  destruct M; try (exfalso; cbn in N; repeat destruct N as [N|N]; try discriminate; contradiction); try (destruct ins; destruct N as [N|[]]; discriminate).
  apply in_single in Ee as (-> & -> & Ee). injection Ee as <-. rewrite app_nil_r. eauto.
Qed.
Lemma not_negative p sched s evs : run step (init p) sched = Some (s, evs) -> ~ In (VCrash CNegative) evs.
Proof.
  intros H N. apply in_split in N as (x & z & E). destruct (crash_state _ _ _ _ _ _ _ H E) as (sched' & u & Hu & K). pose proof (x_wg _ _ (ex_reach _ _ _ _ Hu)) as G. inversion K.
  - rewrite H0, H1 in G. cbn in G. lia.
  - rewrite H1 in G. assert (L : live (exits u) = 0) by lia. pose proof (live_zero _ _ _ L H0). discriminate.
Qed.
Lemma one_writer evs s j i a : Map evs s -> nth_error (calls s) j = Some (CWrite i a) -> writing (with_calls s (upd (calls s) j CDone)) = false.
Proof.
  intros M H. destruct (writing _) eqn:W; [|reflexivity]. apply is_writing in W as (k & i' & a' & Hk). change (nth_error (upd (calls s) j CDone) k = Some (CWrite i' a')) in Hk.
  destruct (upd_case _ _ _ _ _ _ H Hk) as [[_ Y]|[Nk Hk']]; [discriminate|]. destruct (Nk (m_lock _ _ M _ _ _ _ _ _ Hk' H)).
Qed.
Lemma overlap_cause p sched s evs x z : run step (init p) sched = Some (s, evs) -> evs = x ++ VCrash COverlap :: z -> begun x /\ exists j, pending x j.
Proof.
  intros H E. destruct (crash_state _ _ _ _ _ _ _ H E) as (sched' & u & Hu & K). inversion K as [td sn H0 H1|j i a H0 H1| | | |]; [|exfalso; rewrite (one_writer _ _ _ _ _ (map_reach _ _ _ _ Hu) H0) in H1; discriminate]. destruct (start_get _ _ (start_reach _ _ _ _ Hu)) as (b & c & -> & B); [congruence|]. split.
  - exists (began u). apply in_or_app. right. now left.
  - pose proof (map_reach _ _ _ _ Hu) as M. apply is_writing in H1 as (j & i & a & Hj). exists j. destruct i.
    + destruct (m_reg _ _ M _ _ a Hj) as (X & Y & _); [now right|]. split; [exists a; auto|exact Y].
    + destruct (m_unreg _ _ M _ _ a Hj) as (X & Y & _); [right; right; now right|]. split; [exists a; auto|exact Y].
Qed.
Lemma twice_cause p sched s evs x a z : run step (init p) sched = Some (s, evs) -> evs = x ++ VCrash (CTwice a) :: z ->
  exists j, In (VUnregister j a) x /\ ((exists j', j' <> j /\ In (VUnregister j' a) x) \/ (exists b t c, x = b ++ VBegin t :: c /\ ~ In (VDel j a) b)).
Proof.
  intros H E. destruct (crash_state _ _ _ _ _ _ _ H E) as (sched' & u & Hu & K). pose proof (map_reach _ _ _ _ Hu) as M. pose proof (ex_reach _ _ _ _ Hu) as X.
  assert (Rm : removed x u a -> exists j, In (VUnregister j a) x /\ nth_error (calls u) j <> Some (CExit a)).
  { intros (j & [R|(q & R1 & R2 & R3)]); exists j.
    - destruct (m_del _ _ M _ _ R) as (Y & _). split; [exact Y|]. intros Z. destruct (m_unreg _ _ M _ _ a Z) as (_ & NR & _); [now left|]. apply NR. exists a. auto.
    - destruct (m_unreg _ _ M _ _ _ R1 R2) as (Y & _). split; [exact Y|congruence]. }
  assert (Bg : forall i q, nth_error (exits u) i = Some (a, q) -> exists b t c, x = b ++ VBegin t :: c /\ forall j, ~ In (VDel j a) b).
  { intros i q Hi. destruct (start_get _ _ (start_reach _ _ _ _ Hu)) as (b & c & -> & B); [intros Y; rewrite (x_pre _ _ X) in Hi by (rewrite Y; exact I); destruct i; discriminate|].
    exists b, (began u), c. split; [reflexivity|]. intros j. apply (b_del _ _ _ B). eapply nth_fst; eauto. }
  inversion K as [| | | |i0 a0 y0 H1 H2 H3 Ea|j a0 y0 H1 H2 H3 Ea]; subst a0.
  - destruct (x_clos _ _ X _ _ H2 H3) as [(x' & q & A1 & A2)|R].
    + exfalso. assert (i0 = x') by (eapply (proj1 (NoDup_nth_error (map fst (exits u))) (x_nodup _ _ X)); [rewrite map_length; eapply some_lt; eauto|rewrite !nth_error_map, H1, A1; reflexivity]). subst x'. congruence.
    + destruct (Rm R) as (j & A & _). exists j. split; [exact A|]. right. destruct (Bg _ _ H1) as (b & t & c & B1 & B2). exists b, t, c. auto.
  - destruct (m_unreg _ _ M _ _ a H1) as (A & A2 & _); [now left|]. exists j. split; [exact A|]. destruct (x_clos _ _ X _ _ H2 H3) as [(x' & q & Q1 & _)|R].
    + right. destruct (Bg _ _ Q1) as (b & t & c & B1 & B2). exists b, t, c. auto.
    + left. destruct (Rm R) as (j' & B1 & B2). exists j'. split; [congruence|exact B1].
Qed.
