(** Proofs about the span reporter. *)
From Coq Require Import List Arith ZArith Bool Lia.
From Verif Require Import Machine ClientProofs ReporterModel ReporterSpec.
Import ListNotations.
Local Arguments length : simpl never.

Lemma pick_app f a b : pick f (a ++ b) = pick f a ++ pick f b.
Proof. apply flat_map_app. Qed.
Lemma spans_app a b : spans (a ++ b) = spans a ++ spans b.
Proof. apply flat_map_app. Qed.

Section R.
Variable sampled : nat -> bool.
Notation step := (step sampled).
Ltac inv_step H :=
  cbn [ReporterModel.step] in H;
  repeat match type of H with
  | match nth_error (thr ?s) ?i with _ => _ end = _ => let E := fresh "En" in destruct (nth_error (thr s) i) as [[]|] eqn:E; try discriminate
  | (if ?b then _ else _) = _ => let E := fresh "Eb" in destruct b eqn:E; try discriminate
  | match work ?s with _ => _ end = _ => let E := fresh "Ew" in destruct (work s) as [|[|]| | | |[]] eqn:E; try discriminate
  | match queue ?s with _ => _ end = _ => let E := fresh "Eq" in destruct (queue s) as [|it q] eqn:E; try discriminate
  end; injection H as <- <-.

(** ** Accounting *)
Definition acc (sched : list label) (evs : list event) (s : state) : Prop :=
  accepted evs = decided evs ++ waiting s /\ handled evs = reports sched /\ dropped s = length (refused evs) /\ sent evs = filter sampled (decided evs) /\ retained evs = handled evs /\
  decided evs = released evs ++ match work s with WRelease sp => [sp] | _ => [] end.
Lemma acc_step sched evs s l s' e : acc sched evs s -> step s l = Some (s', e) -> acc (sched ++ [l]) (evs ++ e) s'.
Proof.
  unfold acc, waiting. intros (A & B & C & D & F & G) H.
  unfold accepted, decided, handled, refused, sent, released, retained, reports. rewrite !pick_app, flat_map_app, filter_app, app_length.
  fold (accepted evs) (decided evs) (handled evs) (refused evs) (sent evs) (released evs) (retained evs) (reports sched).
  revert A B C D F G. generalize (accepted evs) (decided evs) (handled evs) (refused evs) (sent evs) (released evs) (retained evs) (reports sched).
  intros a d h r se rl rt rp A B C D F G.
  destruct l; inv_step H; 
    try match goal with Ew : work s = _ |- _ => rewrite ?Ew in * end; try match goal with Eq : queue s = _ |- _ => rewrite ?Eq in * end;
    cbn [pick flat_map app queue work set dropped in_hand] in *; rewrite ?spans_app.
  all: try destruct it; try (destruct (sampled sp) eqn:Es); cbn [pick filter flat_map app in_hand spans]; rewrite ?Es; cbn [app]; fold spans.
  all: change (length (@nil nat)) with 0; try change (length [sp]) with 1; subst; cbn [in_hand app spans flat_map]; rewrite ?app_nil_r, ?filter_app, <- ?app_assoc; repeat split; try lia.
  all: cbn [filter]; rewrite ?Es, ?app_nil_r; try reflexivity.
  all: rewrite Ew; cbn [in_hand app]; rewrite ?app_nil_r; reflexivity.
Qed.
Lemma acc_reach n sched s evs : run step (reporter n) sched = Some (s, evs) -> acc sched evs s.
Proof.
  apply (run_inv step (reporter n) acc); [|intros; eapply acc_step; eauto]. unfold acc, waiting. cbn. repeat split.
Qed.

(** ** Gauge *)
Definition owed (p : pc) : bool := match p with RBump | CBump => true | _ => false end.
Definition gauge_ok (s : state) : Prop :=
  (gauge s + Z.of_nat (length (filter owed (thr s))) = Z.of_nat (length (queue s)) + match work s with WGot _ => 1 | _ => 0 end)%Z.
Lemma gauge_step s l s' e : gauge_ok s -> step s l = Some (s', e) -> gauge_ok s'.
Proof.
  intros G H. unfold gauge_ok in *. destruct l; inv_step H; cbn [gauge queue work thr set];
    try match goal with Ew : work s = _ |- _ => rewrite ?Ew in * end; try match goal with Eq : queue s = _ |- _ => rewrite ?Eq in * end;
    rewrite ?cnt_snoc, ?app_length; cbn [owed b2n];
    try (match goal with En : nth_error (thr s) ?i = Some ?x |- context [upd (thr s) ?i ?y] => pose proof (cnt_upd owed (thr s) i x y En) as Hu; cbn [owed b2n] in Hu end);
    repeat (match goal with |- context [length [?x]] => change (length [x]) with 1 | |- context [length (?x :: ?y)] => change (length (x :: y)) with (S (length y)) | G : context [length (?x :: ?y)] |- _ => change (length (x :: y)) with (S (length y)) in G end); try lia.
Qed.
Lemma gauge_reach n sched s evs : run step (reporter n) sched = Some (s, evs) -> gauge_ok s.
Proof. apply (run_inv_state step gauge_ok); [exact gauge_step|reflexivity]. Qed.

(** ** Closing *)
Definition closing (w : worker) : bool := match w with WGot IClose | WFlush | WDone _ => true | _ => false end.
Definition active (p : pc) : bool := match p with CPush | CBump | CWait | CSender => true | _ => false end.
Definition no_push (evs : list event) : Prop := forall i, ~ In (EPushed i) evs.
Definition phase_a (evs : list event) (s : state) : Prop :=
  no_push evs /\ ~ In IClose (queue s) /\ closing (work s) = false /\ ~ In ESenderClose evs /\
  (forall i p, nth_error (thr s) i = Some p -> active p = true -> p = CPush /\ closed s = true) /\
  (forall i j, nth_error (thr s) i = Some CPush -> nth_error (thr s) j = Some CPush -> i = j).
Definition open_b (e1 evs : list event) (s : state) (p : pc) : Prop :=
  closing (work s) = false /\ (p = CBump \/ p = CWait) /\ ~ In ESenderClose evs /\
  exists q1 q2, queue s = q1 ++ IClose :: q2 /\ ~ In IClose q1 /\ ~ In IClose q2 /\ accepted e1 = decided evs ++ in_hand (work s) ++ spans q1.
Definition shut_b (e1 evs : list event) (s : state) (p : pc) : Prop :=
  closing (work s) = true /\ ~ In IClose (queue s) /\ decided evs = accepted e1 /\
  (p = CSender \/ p = CDone -> work s = WDone true) /\ (p <> CDone -> ~ In ESenderClose evs).
Definition phase_b (evs : list event) (s : state) : Prop :=
  exists e1 w e2 p, evs = e1 ++ EPushed w :: e2 /\ no_push e1 /\ no_push e2 /\ closed s = true /\
  (forall i q, nth_error (thr s) i = Some q -> active q = true -> i = w) /\
  nth_error (thr s) w = Some p /\ (p = CBump \/ p = CWait \/ p = CSender \/ p = CDone) /\
  (open_b e1 evs s p \/ shut_b e1 evs s p).

Lemma in_snoc {A} (x y : A) l : In x (l ++ [y]) -> In x l \/ x = y.
Proof. intros H. apply in_app_or in H as [H|[H|[]]]; auto. Qed.
Lemma no_push_app a b : no_push a -> (forall i, ~ In (EPushed i) b) -> no_push (a ++ b).
Proof. intros H1 H2 i H. apply in_app_or in H as [H|H]; [exact (H1 i H)|exact (H2 i H)]. Qed.
Lemma decided_app a b : decided (a ++ b) = decided a ++ decided b. Proof. apply pick_app. Qed.
Lemma accepted_app a b : accepted (a ++ b) = accepted a ++ accepted b. Proof. apply pick_app. Qed.
Ltac not_in := let H := fresh in intros H; cbn in H; repeat destruct H as [H|H]; try discriminate; try contradiction.
Ltac not_in_app := let H := fresh in intros H; apply in_app_or in H; destruct H as [H|H]; [auto|cbn in H; repeat destruct H as [H|H]; try discriminate; try contradiction].

Lemma a_step n sched evs s l s' e : run step (reporter n) sched = Some (s, evs) -> phase_a evs s -> step s l = Some (s', e) ->
  phase_a (evs ++ e) s' \/ phase_b (evs ++ e) s'.
Proof.
  intros Hr (A1 & A2 & A3 & A4 & A5 & A6) H.
  destruct l; inv_step H; try (rewrite ?Ew in A3; discriminate A3).
  (* the push *)
  all: try (match goal with En : nth_error (thr _) ?i = Some CPush |- _ => right; exists evs, i, [], CBump end).
  - left. unfold phase_a; cbn [queue work thr closed]. split; [apply no_push_app; [exact A1|intros j; not_in]|]. split; [intros X; apply in_snoc in X as [X|X]; [auto|discriminate]|].
    split; [exact A3|]. split; [not_in_app|]. split; [|intros j k Hj Hk; apply snoc_at in Hj as [[_ Hj]|Hj]; [discriminate|]; apply snoc_at in Hk as [[_ Hk]|Hk]; [discriminate|]; eauto].
    intros j p Hj Hp. apply snoc_at in Hj as [[_ ->]|Hj]; [discriminate|eauto].
  - left. unfold phase_a; cbn [queue work thr closed]. split; [apply no_push_app; [exact A1|intros j; not_in]|]. split; [exact A2|].
    split; [exact A3|]. split; [not_in_app|]. split; [|intros j k Hj Hk; apply snoc_at in Hj as [[_ Hj]|Hj]; [discriminate|]; apply snoc_at in Hk as [[_ Hk]|Hk]; [discriminate|]; eauto].
    intros j p Hj Hp. apply snoc_at in Hj as [[_ ->]|Hj]; [discriminate|eauto].
  - left. unfold phase_a; cbn [queue work thr closed]. split; [apply no_push_app; [exact A1|intros j; not_in]|]. split; [exact A2|].
    split; [exact A3|]. split; [not_in_app|]. split; [|intros j k Hj Hk; apply snoc_at in Hj as [[_ Hj]|Hj]; [discriminate|]; apply snoc_at in Hk as [[_ Hk]|Hk]; [discriminate|]; eauto].
    intros j p Hj Hp. apply snoc_at in Hj as [[_ ->]|Hj]; [discriminate|eauto].
  - left. unfold phase_a; cbn [queue work thr closed]. split; [apply no_push_app; [exact A1|intros j; not_in]|]. split; [exact A2|].
    split; [exact A3|]. split; [not_in_app|]. split; [intros j p Hj Hp; apply (upd_at _ _ _ _ _ _ En) in Hj as [[_ ->]|[_ Hj]]; [discriminate|eauto]|].
    intros j k Hj Hk. apply (upd_at _ _ _ _ _ _ En) in Hj as [[_ Hj]|[_ Hj]]; [discriminate|]. apply (upd_at _ _ _ _ _ _ En) in Hk as [[_ Hk]|[_ Hk]]; [discriminate|eauto].
  - left. unfold phase_a; cbn [queue work thr closed set]. split; [apply no_push_app; [exact A1|intros j; not_in]|]. split; [exact A2|].
    split; [exact A3|]. split; [not_in_app|]. split; [intros j p Hj Hp; apply (upd_at _ _ _ _ _ _ En) in Hj as [[_ ->]|[_ Hj]]; [discriminate|]; destruct (A5 _ _ Hj Hp); auto|].
    intros j k Hj Hk. apply (upd_at _ _ _ _ _ _ En) in Hj as [[_ Hj]|[_ Hj]]; [discriminate|]. apply (upd_at _ _ _ _ _ _ En) in Hk as [[_ Hk]|[_ Hk]]; [discriminate|eauto].
  - left. assert (N : forall j, nth_error (thr s) j <> Some CPush) by (intros j Hj; destruct (A5 _ _ Hj eq_refl); congruence).
    unfold phase_a; cbn [queue work thr closed set]. split; [apply no_push_app; [exact A1|intros j; not_in]|]. split; [exact A2|].
    split; [exact A3|]. split; [not_in_app|]. split; [intros j p Hj Hp; apply (upd_at _ _ _ _ _ _ En) in Hj as [[_ ->]|[_ Hj]]; [auto|]; destruct (A5 _ _ Hj Hp); auto|].
    intros j k Hj Hk. apply (upd_at _ _ _ _ _ _ En) in Hj as [[<- _]|[_ Hj]]; [|destruct (N _ Hj)]. apply (upd_at _ _ _ _ _ _ En) in Hk as [[<- _]|[_ Hk]]; [reflexivity|destruct (N _ Hk)].
  - split; [reflexivity|]. split; [exact A1|]. split; [intros j; not_in|]. cbn [closed thr queue work]. split; [eapply A5; [exact En|reflexivity]|].
    split; [intros j q Hj Hq; apply (upd_at _ _ _ _ _ _ En) in Hj as [[<- _]|[_ Hj]]; [reflexivity|]; destruct (A5 _ _ Hj Hq) as [-> _]; eapply A6; eauto|].
    split; [eapply nth_upd_same; eauto|]. split; [auto|]. left. split; [exact A3|]. split; [auto|]. split; [not_in_app|]. exists (queue s), []. split; [reflexivity|].
    split; [exact A2|]. split; [intros []|]. rewrite decided_app. cbn. rewrite app_nil_r. exact (proj1 (acc_reach _ _ _ _ Hr)).
  - destruct (A5 _ _ En eq_refl). discriminate.
  - destruct (A5 _ _ En eq_refl). discriminate.
  - left. unfold phase_a. split; [apply no_push_app; [exact A1|intros j; not_in]|]. rewrite Ew. split; [exact A2|]. split; [reflexivity|]. split; [not_in_app|]. split; [exact A5|exact A6].
  - left. unfold phase_a; cbn [queue work thr closed]. split; [apply no_push_app; [exact A1|intros j; not_in]|].  split; [intros X; apply A2; now right|].
    split; [destruct it; [reflexivity|]; destruct A2; now left|]. split; [not_in_app|]. split; [exact A5|exact A6].
  - left. unfold phase_a; cbn [queue work thr closed]. split; [apply no_push_app; [exact A1|intros j; not_in]|]. split; [exact A2|]. split; [reflexivity|]. split; [not_in_app|]. split; [exact A5|exact A6].
  - left. unfold phase_a; cbn [queue work thr closed]. split; [apply no_push_app; [exact A1|intros j; destruct (sampled sp); not_in]|]. split; [exact A2|]. split; [reflexivity|]. split; [destruct (sampled sp); not_in_app|]. split; [exact A5|exact A6].
  - left. unfold phase_a; cbn [queue work thr closed]. split; [apply no_push_app; [exact A1|intros j; not_in]|]. split; [exact A2|]. split; [reflexivity|]. split; [not_in_app|]. split; [exact A5|exact A6].
Qed.

Lemma b_mk e1 w e2 p evs s e : evs = e1 ++ EPushed w :: e2 -> no_push e1 -> no_push e2 -> no_push e -> closed s = true ->
  (forall i q, nth_error (thr s) i = Some q -> active q = true -> i = w) -> nth_error (thr s) w = Some p ->
  (p = CBump \/ p = CWait \/ p = CSender \/ p = CDone) -> open_b e1 (evs ++ e) s p \/ shut_b e1 (evs ++ e) s p -> phase_b (evs ++ e) s.
Proof.
  intros -> H1 H2 H3 H4 H5 H6 H7 H8. exists e1, w, (e2 ++ e), p. rewrite <- app_assoc. cbn [app]. split; [reflexivity|]. split; [exact H1|].
  split; [apply no_push_app; assumption|]. rewrite <- app_assoc in H8. auto 6.
Qed.
(** The work is left alone and the queue only grows by spans. *)
Lemma b_keep e1 evs s p p' s' e q : open_b e1 evs s p \/ shut_b e1 evs s p -> work s' = work s -> queue s' = queue s ++ q -> ~ In IClose q ->
  decided e = [] -> ~ In ESenderClose e -> (p' = p \/ p = CBump /\ p' = CWait) -> open_b e1 (evs ++ e) s' p' \/ shut_b e1 (evs ++ e) s' p'.
Proof.
  intros [(O1 & O2 & O3 & q1 & q2 & O4 & O5 & O6 & O7)|(S1 & S2 & S3 & S4 & S5)] Hw Hq Hn Hd He Hp.
  - left. split; [now rewrite Hw|]. split; [destruct Hp as [->|[-> ->]]; auto|]. split; [intros X; apply in_app_or in X as [X|X]; auto|].
    exists q1, (q2 ++ q). split; [rewrite Hq, O4, <- app_assoc; reflexivity|]. split; [exact O5|]. split; [intros X; apply in_app_or in X as [X|X]; auto|].
    now rewrite decided_app, Hd, app_nil_r, Hw.
  - right. split; [now rewrite Hw|]. split; [rewrite Hq; intros X; apply in_app_or in X as [X|X]; auto|]. split; [now rewrite decided_app, Hd, app_nil_r|].
    rewrite Hw. destruct Hp as [->|[-> ->]]; (split; [|intros X Y; apply in_app_or in Y as [Y|Y]; [|auto]; eapply S5; [|exact Y]; congruence]); [exact S4|intros [X|X]; discriminate].
Qed.
Lemma b_step evs s l s' e : phase_b evs s -> step s l = Some (s', e) -> phase_b (evs ++ e) s'.
Proof.
  intros (e1 & w & e2 & p & B1 & B2 & B3 & B4 & B5 & B6 & B7 & B8) H.
  assert (Hw : w < length (thr s)) by (apply nth_error_Some; congruence).
  destruct l; inv_step H.
  1-3: (eapply b_mk; [exact B1|exact B2|exact B3|intros j; not_in|exact B4| |cbn [thr]; rewrite nth_error_app1 by exact Hw; exact B6|exact B7|]);
       [intros j q Hj Hq; cbn [thr] in Hj; apply snoc_at in Hj as [[_ ->]|Hj]; [discriminate|eauto]|].
  - eapply b_keep; [exact B8|reflexivity|reflexivity|not_in|reflexivity|not_in|auto].
  - eapply b_keep with (q := []); [exact B8|reflexivity|symmetry; apply app_nil_r|not_in|reflexivity|not_in|auto].
  - eapply b_keep with (q := []); [exact B8|reflexivity|symmetry; apply app_nil_r|not_in|reflexivity|not_in|auto].
  - assert (Hne : i <> w) by (intros ->; rewrite En in B6; injection B6 as <-; intuition discriminate).
    eapply b_mk; [exact B1|exact B2|exact B3|intros j; not_in|exact B4| |cbn [thr]; rewrite nth_upd_neq by exact Hne; exact B6|exact B7|].
    + intros j q Hj Hq. cbn [thr] in Hj. apply (upd_at _ _ _ _ _ _ En) in Hj as [[_ ->]|[_ Hj]]; [discriminate|eauto].
    + eapply b_keep with (q := []); [exact B8|reflexivity|symmetry; apply app_nil_r|not_in|reflexivity|not_in|auto].
  - assert (Hne : i <> w) by (intros ->; rewrite En in B6; injection B6 as <-; intuition discriminate).
    eapply b_mk; [exact B1|exact B2|exact B3|intros j; not_in|exact Eb| |cbn [thr set]; rewrite nth_upd_neq by exact Hne; exact B6|exact B7|].
    + intros j q Hj Hq. cbn [thr set] in Hj. apply (upd_at _ _ _ _ _ _ En) in Hj as [[_ ->]|[_ Hj]]; [discriminate|eauto].
    + eapply b_keep with (q := []); [exact B8|reflexivity|symmetry; apply app_nil_r|not_in|reflexivity|not_in|auto].
  - assert (i = w) by (eapply B5; [exact En|reflexivity]). subst i. rewrite En in B6. injection B6 as <-. intuition discriminate.
  - assert (i = w) by (eapply B5; [exact En|reflexivity]). subst i. rewrite En in B6. injection B6 as <-.
    eapply b_mk; [exact B1|exact B2|exact B3|intros j; not_in|exact B4| |eapply nth_upd_same; exact En|right; left; reflexivity|].
    + intros j q Hj Hq. cbn [thr] in Hj. apply (upd_at _ _ _ _ _ _ En) in Hj as [[<- _]|[_ Hj]]; [reflexivity|eauto].
    + eapply b_keep with (q := []); [exact B8|reflexivity|symmetry; apply app_nil_r|not_in|reflexivity|not_in|auto].
  - assert (i = w) by (eapply B5; [exact En|reflexivity]). subst i. rewrite En in B6. injection B6 as <-.
    eapply b_mk; [exact B1|exact B2|exact B3|intros j; not_in|exact B4| |eapply nth_upd_same; exact En|right; right; left; reflexivity|].
    + intros j q Hj Hq. cbn [thr] in Hj. apply (upd_at _ _ _ _ _ _ En) in Hj as [[<- _]|[_ Hj]]; [reflexivity|eauto].
    + right. destruct B8 as [(O1 & _)|(S1 & S2 & S3 & S4 & S5)]; [rewrite Ew in O1; discriminate|]. split; [cbn; now rewrite Ew|]. split; [exact S2|].
      split; [now rewrite app_nil_r|]. split; [intros _; exact Ew|]. intros _. rewrite app_nil_r. apply S5. discriminate.
  - assert (i = w) by (eapply B5; [exact En|reflexivity]). subst i. rewrite En in B6. injection B6 as <-.
    eapply b_mk; [exact B1|exact B2|exact B3|intros j; not_in|exact B4| |eapply nth_upd_same; exact En|right; right; right; reflexivity|].
    + intros j q Hj Hq. cbn [thr set] in Hj. apply (upd_at _ _ _ _ _ _ En) in Hj as [[_ ->]|[_ Hj]]; [discriminate|eauto].
    + right. destruct B8 as [(_ & [O|O] & _)|(S1 & S2 & S3 & S4 & S5)]; [discriminate|discriminate|]. split; [exact S1|]. split; [exact S2|].
      split; [rewrite decided_app; cbn; now rewrite app_nil_r|]. split; [intros _; apply S4; auto|]. intros X. congruence.
  - eapply b_mk; [exact B1|exact B2|exact B3|intros j; not_in|exact B4|exact B5|exact B6|exact B7|].
    eapply b_keep with (q := []); [exact B8|reflexivity|symmetry; apply app_nil_r|not_in|reflexivity|not_in|auto].
  - eapply b_mk; [exact B1|exact B2|exact B3|intros j; not_in|exact B4|exact B5|exact B6|exact B7|]. rewrite app_nil_r.
    destruct B8 as [(O1 & O2 & O3 & q1 & q2 & O4 & O5 & O6 & O7)|(S1 & _)]; [|rewrite Ew in S1; discriminate]. rewrite Eq in O4. rewrite Ew in O7. cbn [in_hand app] in O7.
    destruct q1 as [|x q1]; injection O4 as -> ->.
    + right. split; [reflexivity|]. split; [exact O6|]. split; [now rewrite O7, app_nil_r|]. split; [intros [->| ->]; destruct O2; discriminate|auto].
    + left. split; [destruct x; [reflexivity|]; destruct O5; now left|]. split; [exact O2|]. split; [exact O3|]. exists q1, q2. split; [reflexivity|]. split; [intros X; apply O5; now right|].
      split; [exact O6|]. rewrite O7. destruct x; [reflexivity|]. destruct O5; now left.
  - eapply b_mk; [exact B1|exact B2|exact B3|intros j; not_in|exact B4|exact B5|exact B6|exact B7|]. rewrite app_nil_r.
    destruct B8 as [(O1 & O2 & O3 & q1 & q2 & O4 & O5 & O6 & O7)|(S1 & _)]; [|rewrite Ew in S1; discriminate]. rewrite Ew in O7.
    left. split; [reflexivity|]. split; [exact O2|]. split; [exact O3|]. exists q1, q2. auto.
  - eapply b_mk; [exact B1|exact B2|exact B3|intros j; not_in|exact B4|exact B5|exact B6|exact B7|]. rewrite app_nil_r.
    destruct B8 as [(O1 & _)|(S1 & S2 & S3 & S4 & S5)]; [rewrite Ew in O1; discriminate|]. right. split; [reflexivity|]. split; [exact S2|]. split; [exact S3|].
    split; [intros X; specialize (S4 X); congruence|exact S5].
  - eapply b_mk; [exact B1|exact B2|exact B3|intros j; destruct (sampled sp); not_in|exact B4|exact B5|exact B6|exact B7|].
    destruct B8 as [(O1 & O2 & O3 & q1 & q2 & O4 & O5 & O6 & O7)|(S1 & _)]; [|rewrite Ew in S1; discriminate]. rewrite Ew in O7.
    left. split; [reflexivity|]. split; [exact O2|]. split; [destruct (sampled sp); not_in_app|]. exists q1, q2. split; [exact O4|]. split; [exact O5|]. split; [exact O6|].
    rewrite decided_app, O7, <- app_assoc. destruct (sampled sp); reflexivity.
  - eapply b_mk; [exact B1|exact B2|exact B3|intros j; not_in|exact B4|exact B5|exact B6|exact B7|].
    destruct B8 as [(O1 & O2 & O3 & q1 & q2 & O4 & O5 & O6 & O7)|(S1 & _)]; [|rewrite Ew in S1; discriminate]. rewrite Ew in O7.
    left. split; [reflexivity|]. split; [exact O2|]. split; [not_in_app|]. exists q1, q2. split; [exact O4|]. split; [exact O5|]. split; [exact O6|].
    rewrite decided_app, O7, <- app_assoc. reflexivity.
  - eapply b_mk; [exact B1|exact B2|exact B3|intros j; not_in|exact B4|exact B5|exact B6|exact B7|].
    destruct B8 as [(O1 & _)|(S1 & S2 & S3 & S4 & S5)]; [rewrite Ew in O1; discriminate|]. right. split; [reflexivity|]. split; [exact S2|].
    split; [rewrite decided_app; cbn; now rewrite app_nil_r|].
    split; [intros X; specialize (S4 X); congruence|]. intros X. specialize (S5 X). not_in_app.
  - eapply b_mk; [exact B1|exact B2|exact B3|intros j; not_in|exact B4|exact B5|exact B6|exact B7|]. rewrite app_nil_r.
    destruct B8 as [(O1 & _)|(S1 & S2 & S3 & S4 & S5)]; [rewrite Ew in O1; discriminate|]. right. split; [reflexivity|]. split; [exact S2|]. split; [exact S3|].
    split; [reflexivity|exact S5].
Qed.
Lemma phase_reach n sched s evs : run step (reporter n) sched = Some (s, evs) -> phase_a evs s \/ phase_b evs s.
Proof.
  apply (run_inv step (reporter n) (fun _ evs s => phase_a evs s \/ phase_b evs s)).
  - left. unfold phase_a. cbn. split; [intros i []|]. split; [intros []|]. split; [reflexivity|]. split; [intros []|]. split; intros [|i]; discriminate.
  - clear. intros sched evs s l s' e Hr [Ha|Hb] H; [eapply a_step; eauto|right; eapply b_step; eauto].
Qed.

(** EClosed only from threads that are done. *)
Lemma closed_done n sched s evs i : run step (reporter n) sched = Some (s, evs) -> In (EClosed i) evs -> nth_error (thr s) i = Some CDone.
Proof.
  revert sched s evs. apply (run_inv step (reporter n) (fun _ evs s => In (EClosed i) evs -> nth_error (thr s) i = Some CDone)); [intros []|].
  intros sched evs s l s' e _ IH H Hin. assert (K : forall x, nth_error (thr s) i = Some CDone -> nth_error (thr s ++ [x]) i = Some CDone).
  { intros x X. rewrite nth_error_app1; [exact X|]. apply nth_error_Some. congruence. }
  assert (U : forall j x y, nth_error (thr s) j = Some x -> x <> CDone -> nth_error (thr s) i = Some CDone -> nth_error (upd (thr s) j y) i = Some CDone).
  { intros j x y Hx Hne X. rewrite nth_upd_neq; [exact X|]. intros ->. congruence. }
  apply in_app_or in Hin as [Hin|Hin].
  - specialize (IH Hin). destruct l; inv_step H; cbn [thr set]; auto; (eapply U; [eassumption|discriminate|exact IH]).
  - destruct l; inv_step H; cbn in Hin; try destruct (sampled sp); cbn in Hin; repeat destruct Hin as [Hin|Hin]; try discriminate; try contradiction;
      injection Hin as <-; eapply nth_upd_same; eauto.
Qed.
(** The last flush. *)
Definition flushed_last (evs : list event) : Prop := exists a b, evs = a ++ EFlush :: b /\ forall sp, ~ In (ESampled sp) b /\ ~ In (EAppend sp) b.
Lemma last_flush n sched s evs : run step (reporter n) sched = Some (s, evs) -> (exists b, work s = WDone b) -> flushed_last evs.
Proof.
  revert sched s evs. apply (run_inv step (reporter n) (fun _ evs s => (exists b, work s = WDone b) -> flushed_last evs)); [intros (b & X); discriminate|].
  intros sched evs s l s' e _ IH H (b & Hb).
  assert (K : (exists b, work s = WDone b) -> (forall sp, ~ In (ESampled sp) e /\ ~ In (EAppend sp) e) -> flushed_last (evs ++ e)).
  { intros X Y. destruct (IH X) as (a & c & -> & Hc). exists a, (c ++ e). rewrite <- app_assoc. split; [reflexivity|].
    intros sp. split; intros Z; apply in_app_or in Z as [Z|Z]; first [exact (proj1 (Hc _) Z)|exact (proj2 (Hc _) Z)|exact (proj1 (Y _) Z)|exact (proj2 (Y _) Z)]. }
  destruct l; inv_step H; cbn [work set] in Hb; try discriminate; try congruence; try (apply K; [solve [eauto]|intros sp'; split; not_in]).
  - exists evs, []. split; [reflexivity|]. intros sp'. split; not_in.
Qed.
(** Nothing is sent after the transport was closed. *)
Definition quiet (e : event) : Prop := match e with EAppend _ | EFlush | ESenderClose => False | _ => True end.
Definition ends (evs : list event) : Prop := forall a b e, evs = a ++ ESenderClose :: b -> In e b -> quiet e.
Lemma snoc_split {A} (x : A) a b c d : a ++ b = c ++ x :: d -> (exists b1, b = b1 ++ x :: d /\ c = a ++ b1) \/ (exists d1, a = c ++ x :: d1 /\ d = d1 ++ b).
Proof.
  revert c. induction a as [|y a IH]; intros c H; [left; exists c; auto|].
  destruct c as [|z c]; cbn in H; injection H as -> H; [right; exists a; auto|]. destruct (IH c H) as [(b1 & -> & ->)|(d1 & -> & ->)]; [left; exists b1; auto|right; exists d1; auto].
Qed.
Lemma ends_reach n sched s evs : run step (reporter n) sched = Some (s, evs) -> ends evs.
Proof.
  revert sched s evs. apply (run_inv step (reporter n) (fun _ evs s => ends evs)); [intros a b e X; destruct a; discriminate|].
  intros sched evs s l s' e Hr IH H a b x Hs Hx. apply snoc_split in Hs as [(b1 & Hs & ->)|(d1 & -> & ->)].
  - destruct l; inv_step H; try (destruct b1 as [|? [|? [|]]]; discriminate); [|destruct (sampled sp); destruct b1 as [|? [|? [|]]]; discriminate].
    destruct b1 as [|? [|? [|]]]; try discriminate. injection Hs as <-. destruct Hx as [<-|[]]. exact I.
  - apply in_app_or in Hx as [Hx|Hx]; [eapply IH; eauto|]. destruct (phase_reach _ _ _ _ Hr) as [(_ & _ & _ & X & _)|(e1 & w & e2 & p & B1 & B2 & B3 & B4 & B5 & B6 & B7 & B8)].
    + destruct X. apply in_or_app. right. now left.
    + assert (HS : In ESenderClose (a ++ ESenderClose :: d1)) by (apply in_or_app; right; now left).
      destruct B8 as [(_ & _ & X & _)|(S1 & S2 & S3 & S4 & S5)]; [contradiction|].
      assert (p = CDone) by (destruct B7 as [->|[->|[->| ->]]]; try reflexivity; exfalso; apply S5; auto; discriminate). subst p.
      specialize (S4 (or_intror eq_refl)).
      destruct l; inv_step H; try congruence; cbn in Hx; repeat destruct Hx as [Hx|Hx]; try contradiction; subst x; try exact I.
      assert (i = w) by (eapply B5; [exact En|reflexivity]). subst i. congruence.
Qed.
Lemma close_all n sched s evs e1 w e2 : run step (reporter n) sched = Some (s, evs) -> evs = e1 ++ EPushed w :: e2 -> In (EClosed w) evs ->
  decided evs = accepted e1 /\ work s = WDone true /\ flushed_last evs.
Proof.
  intros Hr He Hin. pose proof (closed_done _ _ _ _ _ Hr Hin) as Hd.
  destruct (phase_reach _ _ _ _ Hr) as [(X & _)|(f1 & v & f2 & p & B1 & B2 & B3 & B4 & B5 & B6 & B7 & B8)].
  - destruct (X w). rewrite He. apply in_or_app. right. now left.
  - assert (f1 = e1 /\ v = w) as [-> ->].
    { rewrite B1 in He. clear -He B2 B3. revert e1 He. induction f1 as [|x f1 IH]; intros [|y e1] He; cbn in He.
      - injection He as -> _. auto.
      - injection He as <- ->. destruct (B3 w). apply in_or_app. right. now left.
      - injection He as -> _. destruct (B2 w). now left.
      - injection He as -> He. destruct (IH (fun i Hi => B2 i (or_intror Hi)) e1 He) as [-> ->]. auto. }
    rewrite Hd in B6. injection B6 as <-. destruct B8 as [(_ & [X|X] & _)|(S1 & S2 & S3 & S4 & _)]; try discriminate.
    specialize (S4 (or_intror eq_refl)). split; [exact S3|]. split; [exact S4|]. eapply last_flush; eauto.
Qed.
Lemma stuck_step s l s' e : work s = WDone true -> step s l = Some (s', e) -> work s' = WDone true /\ decided e = [].
Proof. intros Hw H. destruct l; inv_step H; try congruence; cbn; auto. Qed.
Lemma stuck_run : forall more s s' evs, work s = WDone true -> run step s more = Some (s', evs) -> decided evs = [].
Proof.
  induction more as [|l more IH]; intros s s' evs Hw H; cbn [run] in H; [injection H as <- <-; reflexivity|].
  destruct (step s l) as [[s1 f1]|] eqn:E; [|discriminate]. destruct (run step s1 more) as [[s2 f2]|] eqn:R; [|discriminate]. injection H as <- <-.
  destruct (stuck_step _ _ _ _ Hw E) as [Hw' He]. rewrite decided_app, He. exact (IH _ _ _ Hw' R).
Qed.

(** ** Close returns *)
Definition room (n : nat) (s : state) : Prop := cap s = n /\ length (queue s) <= n.
Lemma room_step n s l s' e : room n s -> step s l = Some (s', e) -> room n s'.
Proof.
  intros [H1 H2] H. unfold room. destruct l; inv_step H; cbn [cap queue set]; try (apply Nat.ltb_lt in Eb); rewrite ?app_length; try change (length [ISpan sp]) with 1; try change (length [IClose]) with 1;
    try (match type of H2 with length (?x :: ?y) <= _ => change (length (x :: y)) with (S (length y)) in H2 end); (split; [assumption|]); lia.
Qed.
Lemma room_reach n sched s evs : run step (reporter n) sched = Some (s, evs) -> room n s.
Proof. apply (run_inv_state step (room n)); [apply room_step|split; [reflexivity|apply Nat.le_0_l]]. Qed.

Definition works (s s' : state) (more : list label) (evs : list event) : Prop :=
  run step s more = Some (s', evs) /\ (forall l, In l more -> l = LWork) /\ thr s' = thr s /\ cap s' = cap s.
Lemma works_nil s : works s s [] [].
Proof. split; [reflexivity|]. split; [intros l []|auto]. Qed.
Lemma works_cons s s1 s2 e1 more evs : step s LWork = Some (s1, e1) -> works s1 s2 more evs -> works s s2 (LWork :: more) (e1 ++ evs).
Proof.
  intros H (R & A & B & C). split; [cbn [run]; now rewrite H, R|]. split; [intros l [<-|X]; auto|].
  assert (thr s1 = thr s /\ cap s1 = cap s) as [X Y] by (inv_step H; auto). split; congruence.
Qed.
Lemma to_wait s : closing (work s) = false -> exists s' more evs, works s s' more evs /\ work s' = WWait /\ queue s' = queue s.
Proof.
  intros H. destruct (work s) as [|[sp|]|sp|sp| |b] eqn:Ew; try discriminate.
  - exists s, [], []. split; [apply works_nil|auto].
  - eexists _, _, _. split; [eapply works_cons; [cbn; rewrite Ew; reflexivity|]; eapply works_cons; [reflexivity|]; eapply works_cons; [reflexivity|]; apply works_nil|auto].
  - eexists _, _, _. split; [eapply works_cons; [cbn; rewrite Ew; reflexivity|]; eapply works_cons; [reflexivity|]; apply works_nil|auto].
  - eexists _, _, _. split; [eapply works_cons; [cbn; rewrite Ew; reflexivity|]; apply works_nil|auto].
Qed.
Lemma works_app s s1 s2 m1 e1 m2 e2 : works s s1 m1 e1 -> works s1 s2 m2 e2 -> works s s2 (m1 ++ m2) (e1 ++ e2).
Proof.
  intros (R1 & A1 & B1 & C1) (R2 & A2 & B2 & C2). split; [eapply run_app; eauto|]. split; [intros l X; apply in_app_or in X as [X|X]; auto|]. split; congruence.
Qed.
Lemma to_end s : closing (work s) = true -> exists s' more evs, works s s' more evs /\ work s' = WDone true.
Proof.
  intros H. destruct (work s) as [|[sp|]|sp|sp| |[]] eqn:Ew; try discriminate.
  - eexists _, _, _. split; [eapply works_cons; [cbn; rewrite Ew; reflexivity|]; eapply works_cons; [reflexivity|]; eapply works_cons; [reflexivity|]; apply works_nil|auto].
  - eexists _, _, _. split; [eapply works_cons; [cbn; rewrite Ew; reflexivity|]; eapply works_cons; [reflexivity|]; apply works_nil|auto].
  - exists s, [], []. split; [apply works_nil|auto].
  - eexists _, _, _. split; [eapply works_cons; [cbn; rewrite Ew; reflexivity|]; apply works_nil|auto].
Qed.
Lemma drain : forall q1 s q2, closing (work s) = false -> queue s = q1 ++ IClose :: q2 -> exists s' more evs, works s s' more evs /\ work s' = WDone true.
Proof.
  induction q1 as [|x q1 IH]; intros s q2 Hc Hq; destruct (to_wait s Hc) as (s1 & m1 & e1 & W1 & Hw & Hq1); rewrite Hq in Hq1.
  - assert (E : step s1 LWork = Some (mkS (cap s1) q2 (gauge s1) (dropped s1) (closed s1) (WGot IClose) (thr s1), [])) by (cbn; rewrite Hw, Hq1; reflexivity).
    destruct (to_end (mkS (cap s1) q2 (gauge s1) (dropped s1) (closed s1) (WGot IClose) (thr s1)) eq_refl) as (s2 & m2 & e2 & W2 & Hw2).
    eexists s2, _, _. split; [|exact Hw2]. eapply works_app; [exact W1|]. eapply works_cons; [exact E|exact W2].
  - assert (E : step s1 LWork = Some (mkS (cap s1) (q1 ++ IClose :: q2) (gauge s1) (dropped s1) (closed s1) (WGot x) (thr s1), [])) by (cbn; rewrite Hw, Hq1; reflexivity).
    assert (exists s2 m2 e2, works (mkS (cap s1) (q1 ++ IClose :: q2) (gauge s1) (dropped s1) (closed s1) (WGot x) (thr s1)) s2 m2 e2 /\ work s2 = WDone true) as (s2 & m2 & e2 & W2 & Hw2).
    { destruct x; [eapply IH; reflexivity|apply to_end; reflexivity]. }
    eexists s2, _, _. split; [|exact Hw2]. eapply works_app; [exact W1|]. eapply works_cons; [exact E|exact W2].
Qed.
Definition mine (i : nat) (l : label) : Prop := l = LWork \/ l = LStep i.
Definition returns (i : nat) (s : state) : Prop :=
  exists more s' evs, run step s more = Some (s', evs) /\ (forall l, In l more -> mine i l) /\ In (EClosed i) evs.
Lemma returns_cons i s l s1 e1 : step s l = Some (s1, e1) -> mine i l -> returns i s1 -> returns i s.
Proof.
  intros H Hl (more & s' & evs & R & A & B). exists (l :: more), s', (e1 ++ evs). split; [cbn [run]; now rewrite H, R|]. split; [intros x [<-|X]; auto|]. apply in_or_app. now right.
Qed.
Lemma returns_works i s s1 m e : works s s1 m e -> returns i s1 -> returns i s.
Proof.
  intros (R1 & A1 & _) (more & s' & evs & R & A & B). exists (m ++ more), s', (e ++ evs). split; [eapply run_app; eauto|].
  split; [intros x X; apply in_app_or in X as [X|X]; [left; auto|auto]|]. apply in_or_app. now right.
Qed.
Lemma returns_late s i : nth_error (thr s) i = Some CSender \/ (nth_error (thr s) i = Some CWait /\ work s = WDone true) -> returns i s.
Proof.
  assert (G : forall s, nth_error (thr s) i = Some CSender -> returns i s).
  { intros s0 H. exists [LStep i]. eexists _, _. split; [apply run_one; cbn; rewrite H; reflexivity|]. split; [intros l [<-|[]]; right; reflexivity|]. right. now left. }
  intros [H|[H Hw]]; [auto|]. eapply (returns_cons i _ (LStep i)); [cbn; rewrite H, Hw; reflexivity|right; reflexivity|]. apply G. cbn. eapply nth_upd_same; eauto.
Qed.
Lemma returns_wait s i : nth_error (thr s) i = Some CWait -> closing (work s) = true \/ (closing (work s) = false /\ exists q1 q2, queue s = q1 ++ IClose :: q2) -> returns i s.
Proof.
  intros H [Hc|(Hc & q1 & q2 & Hq)]; [destruct (to_end s Hc) as (s' & m & e & W & Hw)|destruct (drain q1 s q2 Hc Hq) as (s' & m & e & W & Hw)];
    (eapply returns_works; [exact W|]); apply returns_late; right; destruct W as (_ & _ & -> & _); auto.
Qed.
Lemma returns_bump s i : nth_error (thr s) i = Some CBump -> closing (work s) = true \/ (closing (work s) = false /\ exists q1 q2, queue s = q1 ++ IClose :: q2) -> returns i s.
Proof.
  intros H HH. eapply (returns_cons i _ (LStep i)); [cbn; rewrite H; reflexivity|right; reflexivity|]. apply returns_wait; [cbn; eapply nth_upd_same; eauto|exact HH].
Qed.
Lemma returns_push s i n : 0 < n -> room n s -> nth_error (thr s) i = Some CPush -> closing (work s) = false -> returns i s.
Proof.
  intros Hn [Hcap Hl] H Hc.
  assert (P : forall s, nth_error (thr s) i = Some CPush -> closing (work s) = false -> length (queue s) < cap s -> returns i s).
  { intros s0 H0 Hc0 Hl0. eapply (returns_cons i _ (LStep i)); [cbn [ReporterModel.step]; rewrite H0; apply Nat.ltb_lt in Hl0; rewrite Hl0; reflexivity|right; reflexivity|].
    apply returns_bump; [cbn; eapply nth_upd_same; eauto|]. right. split; [exact Hc0|]. cbn. exists (queue s0), []. reflexivity. }
  destruct (Nat.lt_ge_cases (length (queue s)) (cap s)) as [Hlt|Hge]; [auto|].
  destruct (to_wait s Hc) as (s1 & m1 & e1 & W1 & Hw & Hq1). eapply returns_works; [exact W1|]. destruct W1 as (_ & _ & Ht & Hcp).
  destruct (queue s) as [|x q] eqn:Eq; [change (length (@nil item)) with 0 in Hge; lia|]. change (length (x :: q)) with (S (length q)) in *.
  destruct x as [sp|].
  - eapply (returns_cons i _ LWork); [cbn; rewrite Hw, Hq1; reflexivity|left; reflexivity|]. apply P; [cbn; now rewrite Ht|reflexivity|cbn; lia].
  - eapply (returns_cons i _ LWork); [cbn; rewrite Hw, Hq1; reflexivity|left; reflexivity|].
    eapply (returns_cons i _ (LStep i)); [cbn [ReporterModel.step thr queue cap]; rewrite Ht, H; replace (length q <? cap s1) with true by (symmetry; apply Nat.ltb_lt; lia); reflexivity|right; reflexivity|].
    apply returns_bump; [cbn; eapply nth_upd_same; eauto|]. left. reflexivity.
Qed.
Lemma close_returns n sched s evs i p : 0 < n -> run step (reporter n) sched = Some (s, evs) -> nth_error (thr s) i = Some p ->
  (p = CSwap \/ active p = true) -> returns i s.
Proof.
  intros Hn Hr Hp Hk. pose proof (room_reach _ _ _ _ Hr) as Hroom. pose proof (phase_reach _ _ _ _ Hr) as Hph.
  destruct p; destruct Hk as [Hk|Hk]; try discriminate; clear Hk.
  - destruct (closed s) eqn:Ec.
    + exists [LStep i]. eexists _, _. split; [apply run_one; cbn; rewrite Hp, Ec; reflexivity|]. split; [intros l [<-|[]]; right; reflexivity|]. now left.
    + eapply (returns_cons i _ (LStep i)); [cbn; rewrite Hp, Ec; reflexivity|right; reflexivity|].
      eapply (returns_push _ _ n Hn); [destruct Hroom; split; assumption|cbn; eapply nth_upd_same; eauto|]. cbn.
      destruct Hph as [(_ & _ & X & _)|(e1 & w & e2 & q & _ & _ & _ & X & _)]; [exact X|congruence].
  - destruct Hph as [(_ & _ & X & _)|(e1 & w & e2 & q & _ & _ & _ & X & Y & Z & V & _)]; [eapply returns_push; eauto|].
    assert (i = w) by (eapply Y; [exact Hp|reflexivity]). subst. rewrite Hp in Z. injection Z as <-. intuition discriminate.
  - destruct Hph as [(_ & _ & _ & _ & X & _)|(e1 & w & e2 & q & _ & _ & _ & X & Y & Z & V & O)]; [destruct (X _ _ Hp eq_refl); discriminate|].
    apply returns_bump; [exact Hp|]. destruct O as [(O1 & _ & _ & q1 & q2 & O2 & _)|(O1 & _)]; eauto 6.
  - destruct Hph as [(_ & _ & _ & _ & X & _)|(e1 & w & e2 & q & _ & _ & _ & X & Y & Z & V & O)]; [destruct (X _ _ Hp eq_refl); discriminate|].
    apply returns_wait; [exact Hp|]. destruct O as [(O1 & _ & _ & q1 & q2 & O2 & _)|(O1 & _)]; eauto 6.
  - apply returns_late. now left.
Qed.
Lemma step_accepted s l s' e sp : step s l = Some (s', e) -> In sp (accepted e) -> l = LReport sp.
Proof.
  intros H Hin. destruct l; inv_step H; try (destruct (sampled sp0)); cbn in Hin; repeat destruct Hin as [Hin|Hin]; try contradiction; now subst.
Qed.
End R.
