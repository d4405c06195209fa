(** Proofs about periodic tasks. *)
From Coq Require Import List Arith Bool Lia.
From Verif Require Import Machine ClientProofs TaskModel TaskSpec.
Import ListNotations.

Ltac inv_step H :=
  unfold step in H; match type of H with (if crashed ?s then _ else _) = _ => let E := fresh "Ecr" in destruct (crashed s) eqn:E; [discriminate|] end;
  repeat match type of H with
  | match nth_error (loops ?s) ?i with _ => _ end = _ => let E := fresh "En" in destruct (nth_error (loops s) i) as [[]|] eqn:E; try discriminate
  | match nth_error (ticks ?s) ?i with _ => _ end = _ => let E := fresh "Et" in destruct (nth_error (ticks s) i) as [[rn fl]|] eqn:E; try discriminate
  | match cur ?s with _ => _ end = _ => let E := fresh "Ek" in destruct (cur s) eqn:E; try discriminate
  | match st ?s with _ => _ end = _ => let E := fresh "Es" in destruct (st s) eqn:E; try discriminate
  | (if ?b then _ else _) = _ => let E := fresh "Eb" in destruct b eqn:E; try discriminate
  end; injection H as <- <-.

(** ** Counting *)
Lemma loops_count b1 b2 sched s evs : run step (task b1 b2) sched = Some (s, evs) -> crashed s = false ->
  length (loops s) = count_ev started evs + count_ev paniced evs.
Proof.
  revert sched s evs. apply (run_inv step (task b1 b2) (fun _ evs s => crashed s = false -> length (loops s) = count_ev started evs + count_ev paniced evs)); [reflexivity|].
  intros sched evs s l s' e _ IH H Hc. unfold count_ev in *. rewrite !filter_app, !app_length.
  assert (C : crashed s = false) by (unfold step in H; destruct (crashed s); [discriminate|reflexivity]). specialize (IH C).
  destruct l; inv_step H; cbn [loops set spawn with_st with_ticks crashed crash filter started paniced] in *; try discriminate; rewrite ?app_length, ?upd_length; cbn [length]; lia.
Qed.
Lemma stopped_st b1 b2 sched s evs : run step (task b1 b2) sched = Some (s, evs) -> stopped evs -> st s = TStop.
Proof.
  revert sched s evs. apply (run_inv step (task b1 b2) (fun _ evs s => stopped evs -> st s = TStop)); [intros (a & b & H & _); destruct a; discriminate|].
  intros sched evs s l s' e _ IH H (a & b & Hs & Hn).
  assert (G : forall e0, e = [e0] -> e0 <> EStopped -> e0 <> EStarted /\ st s = TStop).
  { intros e0 -> Hne. destruct b as [|x b] using rev_ind.
    - apply app_inj_tail in Hs as [_ ->]. congruence.
    - clear IHb. rewrite app_comm_cons, app_assoc in Hs. apply app_inj_tail in Hs as [-> ->]. split; [intros ->; apply Hn, in_or_app; right; now left|].
      apply IH. exists a, b. split; [reflexivity|]. intros X. apply Hn, in_or_app. now left. }
  assert (G0 : e = [] -> st s = TStop) by (intros ->; apply IH; exists a, b; rewrite <- Hs, app_nil_r; auto).
  assert (G2 : forall x, e = [EPanic x; ECrash] -> st s = TStop).
  { intros x ->. apply IH. destruct b as [|y b] using rev_ind; [apply (f_equal (@rev event)) in Hs; rewrite !rev_app_distr in Hs; discriminate|]. clear IHb.
    destruct b as [|z b] using rev_ind; [apply (f_equal (@rev event)) in Hs; rewrite !rev_app_distr in Hs; discriminate|]. clear IHb.
    exists a, b. change [EPanic x; ECrash] with ([EPanic x] ++ [ECrash]) in Hs. rewrite app_assoc, app_comm_cons, app_assoc, app_comm_cons, app_assoc in Hs.
    apply app_inj_tail in Hs as [Hs _]. apply app_inj_tail in Hs as [Hs _]. split; [exact Hs|]. intros X. apply Hn, in_or_app. left. apply in_or_app. now left. }
  destruct l; inv_step H; cbn [st set spawn with_st with_ticks crash];
    first [reflexivity | exact (G0 eq_refl) | exact (G2 _ eq_refl) | exact (proj2 (G _ eq_refl ltac:(discriminate))) | congruence | discriminate (G0 eq_refl) | idtac].
  all: exfalso; destruct (G _ eq_refl ltac:(discriminate)) as [X Y]; congruence.
Qed.

(** ** Gentle use *)
Definition off (t : ticker) : Prop := t = mkTk false false.
Definition parked (s : state) (i : nat) : Prop := forall j q, j <> i -> nth_error (loops s) j = Some q -> exists k, q = PBlock k /\ k < length (ticks s).
Definition live (s : state) (i : nat) (p : loop) : Prop :=
  match p with
  | PDue => parked s i /\ forall k t, nth_error (ticks s) k = Some t -> off t
  | _ => exists k t, cur s = Some k /\ nth_error (ticks s) k = Some t /\ running t = true /\
         (forall j q, j <> i -> nth_error (loops s) j = Some q -> exists k', q = PBlock k' /\ k' < length (ticks s) /\ k' <> k) /\
         (forall k' t', k' <> k -> nth_error (ticks s) k' = Some t' -> off t') /\ (forall k', p = PBlock k' -> k' = k)
  end.
Definition inv (s : state) : Prop := crashed s = false /\
  match st s with
  | TInit => loops s = [] /\ ticks s = []
  | TStop => (forall j q, nth_error (loops s) j = Some q -> exists k, q = PBlock k /\ k < length (ticks s)) /\ (forall k t, nth_error (ticks s) k = Some t -> off t)
  | TRun => exists i p, nth_error (loops s) i = Some p /\ live s i p
  end.
Lemma upd_off (l : list ticker) k t : nth_error l k = Some t -> (forall k' t', k' <> k -> nth_error l k' = Some t' -> off t') ->
  forall k' t', nth_error (upd l k (mkTk false false)) k' = Some t' -> off t'.
Proof. intros H1 H2 k' t' H. apply (upd_at _ _ _ _ _ _ H1) in H as [[_ ->]|[Hne H]]; [reflexivity|eauto]. Qed.
Lemma only s i0 p i q : nth_error (loops s) i0 = Some p -> live s i0 p -> nth_error (loops s) i = Some q -> (forall k, q <> PBlock k) -> i0 = i.
Proof.
  intros Hi HP Hq Hn. destruct (Nat.eq_dec i i0) as [|Hne]; [congruence|]. exfalso.
  destruct p; cbn [live] in HP; [destruct HP as [HP _]; destruct (HP _ _ Hne Hq) as (k & X & _); exact (Hn k X)|..];
    destruct HP as (k0 & t & _ & _ & _ & K4 & _); destruct (K4 _ _ Hne Hq) as (k1 & X & _); exact (Hn k1 X).
Qed.
Lemma inv_step s l s' e : inv s -> (forall i, l <> LEnd i true) -> (l = LStart \/ l = LStop -> idle s) -> step s l = Some (s', e) -> inv s'.
Proof.
  intros (HC & HI) Hp Hg H. destruct l; inv_step H.
  - split; [exact Ecr|exact HI].
  - try rewrite Es in HI. destruct HI as [HL HT]. split; [exact Ecr|]. cbn [st with_st spawn loops ticks]. exists 0, PDue. rewrite HL. split; [reflexivity|]. split; [intros [|[|j]] q Hj X; cbn in X; rewrite HL in X; [congruence|discriminate|destruct j; discriminate]|cbn; rewrite HT; intros [|k]; discriminate].
  - split; [exact Ecr|]. now rewrite Es.
  - try rewrite Es in HI. destruct HI as [HL HT]. split; [exact Ecr|]. cbn [st with_st spawn loops ticks]. exists (length (loops s)), PDue. split; [rewrite nth_error_app2, Nat.sub_diag by lia; reflexivity|].
    split; [|exact HT]. intros j q Hj X. cbn in X. apply snoc_at in X as [[-> _]|X]; [congruence|eauto].
  - split; [exact Ecr|exact HI].
  - split; [exact Ecr|]. now rewrite Es.
  - try rewrite Es in HI. destruct (Hg (or_intror eq_refl)) as [G1 G2]. destruct HI as (i & p & Hi & HP). destruct (G1 p (nth_error_In _ _ Hi)) as (k & ->).
    destruct HP as (k' & t & K1 & K2 & K3 & K4 & K5 & K6). try rewrite Ek in K1. injection K1 as <-. try rewrite Et in K2. injection K2 as <-.
    assert (Ft : fl = false) by (apply (G2 (mkTk rn fl)); eapply nth_error_In; eauto).
    split; [exact Ecr|]. cbn [st with_st with_ticks loops ticks full]. split.
    + intros j q Hj. rewrite upd_length. destruct (Nat.eq_dec j i) as [->|Hne]; [rewrite Hi in Hj; injection Hj as <-; exists k; split; [reflexivity|rewrite (K6 k eq_refl); apply nth_error_Some; congruence]|].
      destruct (K4 j q Hne Hj) as (k' & -> & X & _). eauto.
    + rewrite Ft. eapply upd_off; eauto.
  - try rewrite Es in HI. destruct (Hg (or_intror eq_refl)) as [G1 G2]. destruct HI as (i & p & Hi & HP). destruct (G1 p (nth_error_In _ _ Hi)) as (k & ->).
    destruct HP as (k' & t & K1 & _). congruence.
  - split; [exact Ecr|]. now rewrite Es.
  - destruct (st s) eqn:Es; cbn [st with_st with_ticks loops ticks full]; [destruct HI as [HL _]; rewrite HL in En; destruct i; discriminate| |destruct HI as [HL _]; destruct (HL _ _ En) as (k & X & _); discriminate].
    destruct HI as (i0 & p & Hi & HP). assert (i0 = i) as -> by (eapply only; [exact Hi|exact HP|exact En|discriminate]).
    try rewrite En in Hi. injection Hi as <-. destruct HP as [P1 P2]. split; [reflexivity|]. cbn [st]. rewrite ?Es. exists i, PHandle. split; [cbn [loops]; eapply nth_upd_same; eauto|].
    exists (length (ticks s)), (mkTk true false). cbn [cur ticks loops]. split; [reflexivity|]. split; [rewrite nth_error_app2, Nat.sub_diag by lia; reflexivity|]. split; [reflexivity|].
    split; [|split; [|discriminate]].
    + intros j q Hj X. cbn [loops ticks set with_ticks cur] in X |- *; rewrite nth_upd_neq in X by congruence. destruct (P1 _ _ Hj X) as (k & -> & Hk). exists k. rewrite app_length. cbn. split; [reflexivity|lia].
    + intros k' t' Hk X. apply snoc_at in X as [[-> _]|X]; [congruence|eauto].
  - destruct (Hp i eq_refl).
  - destruct (Hp i eq_refl).
  - destruct (st s) eqn:Es; [destruct HI as [HL _]; rewrite HL in En; destruct i; discriminate| |destruct HI as [HL _]; destruct (HL _ _ En) as (k & X & _); discriminate].
    destruct HI as (i0 & p & Hi & HP). assert (i0 = i) as -> by (eapply only; [exact Hi|exact HP|exact En|discriminate]).
    try rewrite En in Hi. injection Hi as <-. destruct HP as (k & t & K1 & K2 & K3 & K4 & K5 & K6). split; [exact Ecr|]. cbn [st set]. rewrite ?Es. exists i, PEval. split; [cbn [loops]; eapply nth_upd_same; eauto|].
    exists k, t. cbn [cur ticks loops]. split; [exact K1|]. split; [exact K2|]. split; [exact K3|]. split; [|split; [exact K5|discriminate]].
    intros j q Hj X. cbn [loops ticks set with_ticks cur] in X |- *; rewrite nth_upd_neq in X by congruence. eauto.
  - destruct (st s) eqn:Es; [destruct HI as [HL _]; rewrite HL in En; destruct i; discriminate| |destruct HI as [HL _]; destruct (HL _ _ En) as (k & X & _); discriminate].
    destruct HI as (i0 & p & Hi & HP). assert (i0 = i) as -> by (eapply only; [exact Hi|exact HP|exact En|discriminate]).
    try rewrite En in Hi. injection Hi as <-. destruct HP as (k & t & K1 & K2 & K3 & K4 & K5 & K6). try rewrite Ek in K1. injection K1 as ->.
    split; [exact Ecr|]. cbn [st set]. rewrite ?Es. exists i, (PBlock k). split; [cbn [loops]; eapply nth_upd_same; eauto|].
    exists k, t. cbn [cur ticks loops]. split; [exact Ek|]. split; [exact K2|]. split; [exact K3|]. split; [|split; [exact K5|congruence]].
    intros j q Hj X. cbn [loops ticks set with_ticks cur] in X |- *; rewrite nth_upd_neq in X by congruence. eauto.
  - destruct (st s) eqn:Es; [destruct HI as [HL _]; rewrite HL in En; destruct i; discriminate| |destruct HI as [_ HT]; specialize (HT _ _ Et); discriminate].
    destruct HI as (i0 & p & Hi & HP). destruct p as [| | |kb]; [destruct HP as [_ HP]; specialize (HP _ _ Et); discriminate|..];
      destruct HP as (k0 & t & K1 & K2 & K3 & K4 & K5 & K6); (assert (k0 = k) as -> by (destruct (Nat.eq_dec k k0) as [|Hne]; [congruence|]; specialize (K5 _ _ Hne Et); discriminate)).
    + destruct (Nat.eq_dec i i0) as [->|Hne]; [congruence|]. destruct (K4 _ _ Hne En) as (x & X & _ & Y). congruence.
    + destruct (Nat.eq_dec i i0) as [->|Hne]; [congruence|]. destruct (K4 _ _ Hne En) as (x & X & _ & Y). congruence.
    + destruct (Nat.eq_dec i i0) as [->|Hne]; [|destruct (K4 _ _ Hne En) as (x & X & _ & Y); congruence].
      try rewrite Et in K2. injection K2 as <-. cbn in K3. subst rn. split; [exact Ecr|]. cbn [st set with_ticks]. rewrite ?Es. exists i0, PHandle. split; [cbn [loops]; eapply nth_upd_same; eauto|].
      exists k, (mkTk true false). cbn [cur ticks loops]. split; [exact K1|]. split; [eapply nth_upd_same; eauto|]. split; [reflexivity|]. split; [|split; [|discriminate]].
      * intros j q Hj X. cbn [loops ticks set with_ticks cur] in X |- *; rewrite nth_upd_neq in X by congruence. rewrite upd_length. eauto.
      * intros k' t' Hk X. cbn [loops ticks set with_ticks cur] in X |- *; rewrite nth_upd_neq in X by congruence. eauto.
  - destruct (st s) eqn:Es; [destruct HI as [_ HT]; rewrite HT in Et; destruct k; discriminate| |destruct HI as [_ HT]; specialize (HT _ _ Et); discriminate].
    destruct HI as (i0 & p & Hi & HP). split; [exact Ecr|]. cbn [st set with_ticks]. rewrite ?Es. exists i0, p. split; [exact Hi|]. destruct p as [| | |kb]; [destruct HP as [_ HP]; specialize (HP _ _ Et); discriminate|..];
      destruct HP as (k0 & t & K1 & K2 & K3 & K4 & K5 & K6); (assert (k0 = k) as -> by (destruct (Nat.eq_dec k k0) as [|Hne]; [congruence|]; specialize (K5 _ _ Hne Et); discriminate));
      exists k, (mkTk true true); cbn [cur ticks loops with_ticks]; rewrite upd_length;
      (split; [exact K1|]); (split; [eapply nth_upd_same; eauto|]); (split; [reflexivity|]); (split; [exact K4|]); (split; [|exact K6]);
      intros k' t' Hk X; cbn [loops ticks set with_ticks cur] in X |- *; rewrite nth_upd_neq in X by congruence; eauto.
Qed.
Lemma inv_reach b1 b2 sched s evs : run step (task b1 b2) sched = Some (s, evs) -> no_panic sched -> gentle (task b1 b2) sched -> inv s.
Proof.
  revert s evs. induction sched as [|l sched IH] using rev_ind; intros s evs Hr Hp Hg.
  - injection Hr as <- _. split; [reflexivity|]. cbn. auto.
  - apply run_app_inv in Hr as (s1 & e1 & e2 & R1 & R2 & ->). apply run_one_inv in R2. eapply inv_step; [eapply IH; [exact R1| |]| | |exact R2].
    + intros i Hi. apply (Hp i), in_or_app. now left.
    + intros pre x suf s0 ev Hs Hx R. eapply Hg; [rewrite Hs, <- app_assoc; reflexivity|exact Hx|exact R].
    + intros i ->. apply (Hp i), in_or_app. right. now left.
    + intros Hx. eapply (Hg sched l []); [reflexivity|exact Hx|exact R1].
Qed.
Lemma inv_one s i j : inv s -> in_handler s i -> in_handler s j -> i = j.
Proof.
  unfold in_handler. intros (_ & HI) H1 H2. destruct (st s).
  - destruct HI as [HL _]. rewrite HL in H1. destruct i; discriminate.
  - destruct HI as (i0 & p & Hi & HP). assert (G : forall x, nth_error (loops s) x = Some PHandle -> x = i0); [|rewrite (G i H1), (G j H2); reflexivity].
    intros x Hx. symmetry. eapply only; [exact Hi|exact HP|exact Hx|discriminate].
  - destruct HI as [HL _]. destruct (HL _ _ H1) as (k & X & _). discriminate.
Qed.
Lemma inv_stop s : inv s -> st s = TStop -> (forall i, ~ in_handler s i) /\ forall l s' e i, step s l = Some (s', e) -> ~ In (EBegin i) e.
Proof.
  intros (_ & HI) Hs. rewrite Hs in HI. destruct HI as [HL HT]. split; [intros i Hi; destruct (HL _ _ Hi) as (k & X & _); discriminate|].
  intros l s' e i H Hin. destruct l; inv_step H; cbn in Hin; repeat destruct Hin as [Hin|Hin]; try discriminate; try contradiction.
  - destruct (HL _ _ En) as (k & X & _). discriminate.
  - specialize (HT _ _ Et). discriminate.
Qed.

(** ** Crashes *)
Lemma begun b1 sched s evs : run step (task b1 true) sched = Some (s, evs) -> service s = true /\ (cur s = None -> ticks s = [] /\ forall i, ~ In (EBegin i) evs).
Proof.
  revert sched s evs. apply (run_inv step (task b1 true) (fun _ evs s => service s = true /\ (cur s = None -> ticks s = [] /\ forall i, ~ In (EBegin i) evs))); [split; [reflexivity|intros _; split; [reflexivity|intros i []]]|].
  intros sched evs s l0 s0 e0 _ (A & B) H.
  assert (G : (forall i, ~ In (EBegin i) e0) -> cur s = None -> ticks s = [] /\ forall i, ~ In (EBegin i) (evs ++ e0)).
  { intros G X. destruct (B X) as [Y Z]. split; [exact Y|]. intros i W. apply in_app_or in W as [W|W]; [exact (Z i W)|exact (G i W)]. }
  destruct l0; inv_step H; cbn [service cur ticks set spawn with_st with_ticks crash] in *; (split; [first [assumption|congruence]|]); try discriminate; try congruence;
    try (apply G; intros j X; cbn in X; repeat destruct X as [X|X]; try discriminate; contradiction).
  - intros _. apply G; [|reflexivity]. intros j X; cbn in X; repeat destruct X as [X|X]; try discriminate; contradiction.
  - intros X. destruct (B X) as [Y _]. rewrite Y in Et. destruct k; discriminate.
  - intros X. destruct (B X) as [Y _]. rewrite Y in Et. destruct k; discriminate.
Qed.
