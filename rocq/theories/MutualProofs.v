(** Proofs for C181 and C182. *)
From Coq Require Import List Arith Bool Lia.
From Verif Require Import Machine MutualModel MutualSpec.
Import ListNotations.

(** ** Invariants *)

Definition ok (x : actor) : Prop :=
  closed x <= 2 /\ (closed x <> 0 -> shut x = true) /\ (inmap x = false -> closed x = 2) /\
  (at_ x = Left -> closed x = 2).

Record inv (s : state) : Prop := {
  i_ok : forall a x, nth_error (actors s) a = Some x -> ok x;
  i_wait : forall a x t r, nth_error (actors s) a = Some x -> at_ x = Waits t r ->
    exists y, nth_error (actors s) t = Some y /\ shut y = true;
  i_out : forall t, In (Some t) (outside s) ->
    exists y, nth_error (actors s) t = Some y /\ shut y = true }.

Lemma some_lt {A} (l : list A) i x : nth_error l i = Some x -> i < length l.
Proof. intros H. apply nth_error_Some. rewrite H. discriminate. Qed.

(** How an actor changes in one step. *)
Definition later (x x' : actor) : Prop :=
  (shut x = true -> shut x' = true) /\ closed x <= closed x' /\ (inmap x = false -> inmap x' = false).

Lemma later_refl x : later x x.
Proof. repeat split; auto. Qed.

Ltac crush_step H :=
  repeat match type of H with
  | None = Some _ => discriminate H
  | Some _ = Some _ => injection H as <- <-
  | context [match ?e with _ => _ end] =>
      let E := fresh "E" in destruct e eqn:E; try discriminate H
  end.

Lemma set_set_nth s t y a x p : nth_error (actors s) t = Some y ->
  nth_error (actors (set s t y)) a = Some x -> nth_error (actors (set (set s t y) a p)) a = Some p.
Proof. intros. cbn. rewrite nth_upd_eq; auto. rewrite upd_length. cbn in H0. rewrite <- (upd_length _ t y). eapply some_lt; eauto. Qed.

Lemma nth_upd' {A} (l : list A) i j x z : nth_error l i = Some z ->
  nth_error (upd l i x) j = if Nat.eqb i j then Some x else nth_error l j.
Proof. intros. apply nth_upd. eapply some_lt; eauto. Qed.

Lemma step_later s l s' e : step s l = Some (s', e) -> inv s ->
  forall a x, nth_error (actors s) a = Some x ->
  exists x', nth_error (actors s') a = Some x' /\ later x x'.
Proof.
  intros H I b z Hz. pose proof (i_ok _ I _ _ Hz) as O.
  destruct l; cbn [step] in H; crush_step H; cbn [actors set] in *;
  repeat match goal with
  | Hn : nth_error (actors s) ?i = Some _ |- context [nth_error (upd (actors s) ?i _) _] => rewrite (nth_upd' _ _ _ _ _ Hn)
  | Hn : nth_error (upd _ ?i _) ?j = Some _ |- context [nth_error (upd (upd _ ?i _) ?j _) _] => rewrite (nth_upd' _ _ _ _ _ Hn)
  end;
  repeat match goal with
  | Hn : nth_error (actors s) ?i = Some _, Hm : nth_error (upd (actors s) ?i _) _ = Some _ |- _ => rewrite (nth_upd' _ _ _ _ _ Hn) in Hm
  end;
  repeat match goal with
  | |- context [Nat.eqb ?i ?j] => destruct (Nat.eqb_spec i j); subst
  | Hm : context [Nat.eqb ?i ?j] |- _ => destruct (Nat.eqb_spec i j); subst
  end;
  repeat match goal with
  | H1 : ?u = Some _, H2 : ?u = Some _ |- _ => rewrite H1 in H2; injection H2 as H2; subst
  | H1 : Some _ = Some _ |- _ => injection H1 as H1; subst
  end;
  try (eexists; split; [eassumption|apply later_refl]);
  try (eexists; split; [reflexivity|]);
  unfold later, put, shutting, removed; cbn; try solve [repeat split; auto];
  repeat match goal with
  | E : (_ && _)%bool = true |- _ => apply andb_true_iff in E; destruct E
  | E : Nat.eqb _ _ = true |- _ => apply Nat.eqb_eq in E
  end; repeat split; auto; try lia; try discriminate.
Qed.

Lemma nth_upd_some {A} (l : list A) i j x z : nth_error (upd l i x) j = Some z ->
  (i = j /\ z = x) \/ (i <> j /\ nth_error l j = Some z).
Proof.
  intros H. destruct (Nat.eq_dec i j) as [->|N]; [|right; rewrite nth_upd_neq in H by auto; auto].
  left. split; auto. rewrite nth_upd_eq in H; [congruence|]. rewrite <- (upd_length l j x). eapply some_lt; eauto.
Qed.

Ltac norm s :=
  cbn [actors set outside] in *;
  repeat match goal with
  | Hm : nth_error (upd _ _ _) _ = Some _ |- _ =>
    apply nth_upd_some in Hm; destruct Hm as [[? Hm]|[? Hm]]; subst
  end;
  repeat match goal with
  | H1 : ?u = Some _, H2 : ?u = Some _ |- _ => rewrite H1 in H2; injection H2 as H2; subst
  | H1 : Some _ = Some _ |- _ => injection H1 as H1; subst
  | H1 : ?u <> ?u |- _ => contradiction
  end.

Lemma step_inv s l s' e : step s l = Some (s', e) -> inv s -> inv s'.
Proof.
  intros H I. pose proof (step_later _ _ _ _ H I) as L. split.
  - intros b z' Hz'.
    destruct l; cbn [step] in H; crush_step H; norm s;
    try (eapply (i_ok _ I); eassumption);
    repeat match goal with Hn : nth_error (actors s) ?i = Some ?x |- _ =>
      lazymatch goal with _ : ok x |- _ => fail | _ => pose proof (i_ok _ I _ _ Hn) end end;
    unfold ok, put, shutting, removed in *; cbn in *;
    repeat match goal with
    | E : (_ && _)%bool = true |- _ => apply andb_true_iff in E; destruct E
    | E : Nat.eqb _ _ = true |- _ => apply Nat.eqb_eq in E
    | E : negb _ = true |- _ => apply negb_true_iff in E
    end; intuition (try lia; try congruence; auto).
  - intros b z' t r Hz' Hw.
    assert (K : (exists z r0, nth_error (actors s) b = Some z /\ at_ z = Waits t r0) \/
                (exists y, nth_error (actors s') t = Some y /\ shut y = true)).
    { destruct l; cbn [step] in H; crush_step H; norm s;
      try (left; do 2 eexists; split; [eassumption|]; cbn in Hw; eassumption);
      try (cbn in Hw; discriminate Hw).
      all: try (cbn in Hw; congruence).
      all: cbn in Hw; injection Hw as <- <-; right.
      - eexists. split; [|shelve]. apply nth_upd_eq. rewrite upd_length. eapply some_lt; eauto. Unshelve. reflexivity.
      - match goal with Ht : nth_error (actors s) ?t = Some ?y, N : ?t <> ?b |- _ =>
          exists (shutting y); split; [|reflexivity]; rewrite nth_upd_neq by auto; apply nth_upd_eq; eapply some_lt; eauto end. }
    destruct K as [(z & r0 & Hz & Hz0)|K]; [|exact K].
    destruct (i_wait _ I _ _ _ _ Hz Hz0) as (y & Hy & Sy). destruct (L _ _ Hy) as (y' & Hy' & (S' & _)). eauto.
  - intros t Ht.
    assert (K : In (Some t) (outside s) \/ exists y, nth_error (actors s') t = Some y /\ shut y = true).
    { destruct l; cbn [step] in H; crush_step H; cbn [outside set actors] in *; auto.
      - apply in_app_iff in Ht. destruct Ht as [Ht|[Ht|[]]]; auto. injection Ht as <-. right.
        eexists. split; [apply nth_upd_eq; eapply some_lt; eauto|reflexivity].
      - apply in_upd in Ht. destruct Ht as [Ht|Ht]; [discriminate|auto]. }
    destruct K as [K|K]; [|exact K].
    destruct (i_out _ I _ K) as (y & Hy & Sy). destruct (L _ _ Hy) as (y' & Hy' & (S' & _)). eauto.
Qed.

Lemma inv_init n : inv (init n).
Proof.
  split; cbn.
  - intros a x H. apply nth_error_In in H. apply repeat_spec in H. subst. unfold ok; cbn. repeat split; auto; try lia; discriminate.
  - intros a x t r H W. apply nth_error_In in H. apply repeat_spec in H. subst. discriminate.
  - intros t [].
Qed.

Lemma reached_inv n sched s evs : reached n sched s evs -> inv s.
Proof.
  unfold reached. assert (G : forall s0 s evs, inv s0 -> run step s0 sched = Some (s, evs) -> inv s).
  { induction sched as [|l r IH]; cbn; intros s0 s1 e1 I H; [injection H as <- _; auto|].
    destruct (step s0 l) as [[s2 e2]|] eqn:E; [|discriminate].
    destruct (run step s2 r) as [[s3 e3]|] eqn:R; [|discriminate]. injection H as <- _.
    eapply IH; [|exact R]. eapply step_inv; eauto. }
  intros H. eapply G; [apply inv_init|exact H].
Qed.

(** ** What goes on comes to an end *)

Definition pm (p : place) : nat :=
  match p with Runs r => 2 * length r + 2 | Waits _ r => 2 * length r + 3 | Idle => 1 | Left => 0 end.
Fixpoint bm (b : list (list nat)) : nat := match b with [] => 0 | x :: r => 2 * length x + 2 + bm r end.
Definition am (x : actor) : nat := bm (box x) + pm (at_ x) + (2 - closed x).
Fixpoint sm (l : list actor) : nat := match l with [] => 0 | x :: r => am x + sm r end.
Fixpoint om (l : list (option nat)) : nat := match l with [] => 0 | None :: r => om r | Some _ :: r => 1 + om r end.
Definition measure (s : state) : nat := sm (actors s) + om (outside s).

Lemma bm_app a b : bm (a ++ b) = bm a + bm b.
Proof. induction a; cbn; auto. rewrite IHa. lia. Qed.
Lemma om_app a b : om (a ++ b) = om a + om b.
Proof. induction a as [|[]]; cbn; auto. Qed.
Lemma sm_upd l i x y : nth_error l i = Some x -> sm (upd l i y) + am x = sm l + am y.
Proof.
  revert i; induction l; intros [] H; cbn in *; try discriminate.
  - injection H as <-. lia.
  - apply IHl in H. lia.
Qed.
Lemma om_upd l i t : nth_error l i = Some (Some t) -> om (upd l i None) + 1 = om l.
Proof.
  revert i; induction l as [|[]]; intros [] H; cbn in *; try discriminate; try lia.
  - apply IHl in H. lia.
  - apply IHl in H. lia.
Qed.

Lemma step_measure s l s' e : step s l = Some (s', e) -> inv s ->
  measure s' + (if goes_on l then 1 else 0) <= measure s + asked l.
Proof.
  intros H I. unfold measure.
  destruct l; cbn [step] in H; crush_step H; cbn [actors set outside goes_on asked] in *;
  repeat match goal with
  | Hn : nth_error ?L ?i = Some ?x |- context [sm (upd ?L ?i ?y)] =>
    pose proof (sm_upd L i x y Hn); generalize dependent (sm (upd L i y)); intros
  | Hn : nth_error ?L ?i = Some ?x, Hs : context [sm (upd ?L ?i ?y)] |- _ =>
    pose proof (sm_upd L i x y Hn); generalize dependent (sm (upd L i y)); intros
  end;
  repeat match goal with
  | Hm : nth_error (upd _ _ _) _ = Some _ |- _ =>
    apply nth_upd_some in Hm; destruct Hm as [[? Hm]|[? Hm]]; subst
  end;
  repeat match goal with
  | H1 : ?u = Some _, H2 : ?u = Some _ |- _ => rewrite H1 in H2; injection H2 as H2; subst
  end;
  repeat match goal with
  | E : (_ && _)%bool = true |- _ => apply andb_true_iff in E; destruct E
  | E : Nat.eqb _ _ = true |- _ => apply Nat.eqb_eq in E
  end;
  repeat match goal with
  | E : at_ _ = _ |- _ => rewrite E in *
  | E : box _ = _ |- _ => rewrite E in *
  | E : closed _ = _ |- _ => rewrite E in *
  | E : nth_error (outside s) _ = Some (Some _) |- _ => pose proof (om_upd _ _ _ E); clear E
  end;
  rewrite ?bm_app, ?om_app in *; unfold am, put, shutting, removed in *; cbn in *;
  repeat match goal with
  | E : at_ _ = _ |- _ => rewrite E in *
  | E : box _ = _ |- _ => rewrite E in *
  | E : closed _ = _ |- _ => rewrite E in *
  end; rewrite ?bm_app, ?om_app in *; cbn in *; try lia;
  destruct forced; lia.
Qed.

Lemma sm_init n : sm (repeat (mkA true false 0 [] Idle) n) = 3 * n.
Proof. induction n; cbn in *; auto. rewrite IHn. lia. Qed.

Lemma bound n sched s evs : reached n sched s evs ->
  measure s + length (filter goes_on sched) <= 3 * n + asked_all sched.
Proof.
  unfold reached. intros H.
  assert (G : forall sched s0 s evs, inv s0 -> run step s0 sched = Some (s, evs) ->
    measure s + length (filter goes_on sched) <= measure s0 + asked_all sched).
  { clear. induction sched as [|l r IH]; cbn [run filter]; intros s0 s1 e1 I H; [injection H as <- _; cbn; lia|].
    destruct (step s0 l) as [[s2 e2]|] eqn:E; [|discriminate].
    destruct (run step s2 r) as [[s3 e3]|] eqn:R; [|discriminate]. injection H as <- _.
    pose proof (step_measure _ _ _ _ E I). pose proof (IH _ _ _ (step_inv _ _ _ _ E I) R).
    change (asked_all (l :: r)) with (asked l + asked_all r).
    destruct (goes_on l); cbn [length]; lia. }
  pose proof (G _ _ _ _ (inv_init n) H). unfold measure in *; cbn in *. rewrite sm_init in *. lia.
Qed.

(** ** Why a call does not return *)

Definition rests (s : state) : Prop := forall l, goes_on l = true -> step s l = None.

Lemma rests_waits s t y : inv s -> rests s -> nth_error (actors s) t = Some y -> shut y = true ->
  closed y <> 2 -> exists u, waits_for s t u.
Proof.
  intros I R Hy Sy C. destruct (i_ok _ I _ _ Hy) as (O1 & O2 & O3 & O4).
  destruct (at_ y) as [|[|u todo]|u todo|] eqn:A.
  - exfalso. destruct (closed y) as [|[|c]] eqn:Ec; [| |lia].
    + specialize (R (LShut t) eq_refl). cbn [step] in R. rewrite Hy, A, Sy, Ec in R. discriminate.
    + destruct (box y) as [|m r] eqn:B.
      * specialize (R (LClose t false) eq_refl). cbn [step] in R. rewrite Hy, Ec, B in R. discriminate.
      * specialize (R (LPop t) eq_refl). cbn [step] in R. rewrite Hy, A, B in R. discriminate.
  - exfalso. specialize (R (LDone t) eq_refl). cbn [step] in R. rewrite Hy, A in R. discriminate.
  - exfalso. specialize (R (LUnreg t) eq_refl). cbn [step] in R. rewrite Hy, A in R.
    destruct (nth_error (actors s) u) as [z|] eqn:Hu; [|discriminate].
    destruct (inmap z); [|discriminate]. destruct (shut z); [discriminate|].
    cbn [set actors] in R.
    destruct (nth_error (upd (actors s) u (shutting z)) t) eqn:N; [discriminate|].
    apply nth_error_None in N. rewrite upd_length in N. apply some_lt in Hy. lia.
  - exists u, y, todo. auto.
  - specialize (O4 eq_refl). congruence.
Qed.

Lemma rests_next s a t : inv s -> rests s -> waits_for s a t -> exists u, waits_for s t u.
Proof.
  intros I R (x & todo & Hx & A). destruct (i_wait _ I _ _ _ _ Hx A) as (y & Hy & Sy).
  eapply rests_waits; eauto. intros C.
  specialize (R (LWake a) eq_refl). cbn [step] in R. rewrite Hx, A, Hy, C in R. cbn [set actors Nat.eqb] in R.
  destruct (nth_error (upd (actors s) t (removed y)) a) eqn:N; [discriminate|].
  apply nth_error_None in N. rewrite upd_length in N. apply some_lt in Hx. lia.
Qed.

Lemma rests_outside s t : inv s -> rests s -> awaited_outside s t -> exists u, waits_for s t u.
Proof.
  intros I R H. destruct (i_out _ I _ H) as (y & Hy & Sy).
  eapply rests_waits; eauto. intros C.
  apply In_nth_error in H. destruct H as (i & Hi).
  specialize (R (LExtWake i) eq_refl). cbn [step] in R. rewrite Hi, Hy, C in R. discriminate.
Qed.

Lemma hangs_trans s a b c : hangs_on s a b -> hangs_on s b c -> hangs_on s a c.
Proof. induction 1; intros; [eapply hangs_more; eauto|eapply hangs_more; eauto]. Qed.

Lemma waits_lt s a t : waits_for s a t -> a < length (actors s).
Proof. intros (x & r & H & _). eapply some_lt; eauto. Qed.

(** Following the waits from [h], having come through [l]. *)
Lemma chase s : inv s -> rests s -> forall k h l u,
  length (actors s) <= length (h :: l) + k -> NoDup (h :: l) ->
  (forall x, In x (h :: l) -> x < length (actors s)) ->
  (forall x, In x l -> hangs_on s x h) -> waits_for s h u ->
  exists c, (c = h \/ hangs_on s h c) /\ hangs_on s c c.
Proof.
  intros I R. induction k; intros h l u Hk N B P W.
  - (* all actors are in the list *)
    assert (Hu : In u (h :: l)).
    { destruct (rests_next _ _ _ I R W) as (v & Wv). apply waits_lt in Wv.
      assert (Inc : incl (h :: l) (seq 0 (length (actors s)))).
      { intros x Hx. apply in_seq. specialize (B x Hx). lia. }
      assert (Inc2 : incl (seq 0 (length (actors s))) (h :: l)).
      { apply NoDup_length_incl; auto. rewrite seq_length. lia. }
      apply Inc2. apply in_seq. lia. }
    destruct Hu as [<-|Hu].
    + exists h. split; auto. constructor. exact W.
    + exists u. split; [right; constructor; exact W|]. eapply hangs_trans; [apply P; exact Hu|constructor; exact W].
  - destruct (in_dec Nat.eq_dec u (h :: l)) as [Hu|Hu].
    + destruct Hu as [<-|Hu].
      * exists h. split; auto. constructor. exact W.
      * exists u. split; [right; constructor; exact W|]. eapply hangs_trans; [apply P; exact Hu|constructor; exact W].
    + destruct (rests_next _ _ _ I R W) as (v & Wv).
      destruct (IHk u (h :: l) v) as (c & Hc & C); auto.
      * cbn in *. lia.
      * constructor; auto.
      * intros x [<-|Hx]; [eapply waits_lt; eauto|auto].
      * intros x [<-|Hx]; [constructor; exact W|]. eapply hangs_trans; [apply P; auto|constructor; exact W].
      * exists c. split; auto. right. destruct Hc as [->|Hc]; [constructor; exact W|eapply hangs_more; eauto].
Qed.

Lemma cause s a t : inv s -> rests s -> waits_for s a t ->
  exists c, (c = a \/ hangs_on s a c) /\ hangs_on s c c.
Proof.
  intros I R W. eapply (chase s I R (length (actors s)) a [] t); auto.
  - repeat constructor; auto.
  - intros x [<-|[]]. eapply waits_lt; eauto.
  - intros x [].
Qed.

(** ** The discipline *)

Section Rank.
Variable rank : nat -> nat.

Definition below (s : state) : Prop :=
  forall a x, nth_error (actors s) a = Some x ->
    (forall m t, In m (box x) -> In t m -> rank t < rank a) /\
    (forall todo t, at_ x = Runs todo -> In t todo -> rank t < rank a) /\
    (forall u todo, at_ x = Waits u todo -> rank u < rank a /\ forall t, In t todo -> rank t < rank a).

Lemma step_below s l s' e : step s l = Some (s', e) ->
  (forall a todo t, l = LSend a todo -> In t todo -> rank t < rank a) -> below s -> below s'.
Proof.
  intros H D I b z' Hz'.
  destruct l; cbn [step] in H; crush_step H; norm s;
  try (eapply I; eassumption);
  repeat match goal with Hn : nth_error (actors s) ?i = Some ?x |- _ =>
      let K := fresh in pose proof (I _ _ Hn) as K; destruct K as (? & ? & ?); clear Hn end;
  cbn [box at_ put shutting removed inmap shut closed] in *;
  (split; [|split]); intros;
  repeat match goal with E : at_ _ = _ |- _ => rewrite E in * end;
  repeat match goal with
  | E : box _ = _ |- _ => rewrite E in *
  | E : Runs _ = Runs _ |- _ => injection E as E; subst
  | E : Waits _ _ = Waits _ _ |- _ => injection E as ? E; subst
  | E : In _ (_ ++ _) |- _ => apply in_app_iff in E; destruct E as [E|[E|[]]]; subst
  end; try discriminate;
  eauto using in_eq, in_cons;
  repeat match goal with
  | E : forall u todo, Waits _ _ = Waits u todo -> _ |- _ => specialize (E _ _ eq_refl); destruct E
  end; try split; intros; eauto using in_eq, in_cons.
Qed.
End Rank.

Lemma reached_below rank n sched s evs : reached n sched s evs -> downward rank sched -> below rank s.
Proof.
  unfold reached, downward.
  assert (G : forall s0 s evs, below rank s0 -> run step s0 sched = Some (s, evs) ->
    (forall a todo t, In (LSend a todo) sched -> In t todo -> rank t < rank a) -> below rank s).
  { induction sched as [|l r IH]; cbn; intros s0 s1 e1 I H D; [injection H as <- _; auto|].
    destruct (step s0 l) as [[s2 e2]|] eqn:E; [|discriminate].
    destruct (run step s2 r) as [[s3 e3]|] eqn:R; [|discriminate]. injection H as <- _.
    eapply IH; [|exact R|eauto]. eapply step_below; eauto. }
  intros H D. eapply G; [|exact H|exact D].
  intros a x Hx. cbn in Hx. apply nth_error_In, repeat_spec in Hx. subst. cbn. repeat split; intros; try discriminate; contradiction.
Qed.

Lemma below_hangs rank s a c : below rank s -> hangs_on s a c -> rank c < rank a.
Proof.
  intros B H. induction H as [a t (x & r & Hx & A)|a t u (x & r & Hx & A) _ IH].
  - destruct (B _ _ Hx) as (_ & _ & K). destruct (K _ _ A). auto.
  - destruct (B _ _ Hx) as (_ & _ & K). destruct (K _ _ A). lia.
Qed.

(** ** Counting *)

Definition waitn (s : state) (a t : nat) : nat :=
  match nth_error (actors s) a with
  | Some x => match at_ x with Waits u _ => if Nat.eqb u t then 1 else 0 | _ => 0 end
  | None => 0
  end.
Definition outn (s : state) (t : nat) : nat := length (filter (fun o => match o with Some u => Nat.eqb u t | None => false end) (outside s)).

Lemma times_app e a b : times e (a ++ b) = times e a + times e b.
Proof. apply count_occ_app. Qed.

Lemma outn_upd l i t u : nth_error l i = Some (Some u) ->
  length (filter (fun o => match o with Some v => Nat.eqb v t | None => false end) (upd l i None)) + (if Nat.eqb u t then 1 else 0) =
  length (filter (fun o => match o with Some v => Nat.eqb v t | None => false end) l).
Proof.
  revert i; induction l as [|o r IH]; intros [] H; cbn in *; try discriminate.
  - injection H as ->. destruct (Nat.eqb u t); cbn; lia.
  - specialize (IH _ H). destruct o as [v|]; [destruct (Nat.eqb v t)|]; cbn; lia.
Qed.

Lemma times_cons e x l : times e (x :: l) = (if event_eq_dec x e then 1 else 0) + times e l.
Proof. unfold times. cbn. destruct (event_eq_dec x e); auto. Qed.

Lemma step_count s l s' e a t : step s l = Some (s', e) -> inv s ->
  waitn s' a t + times (VReturn a t) e + times (VPanic a t) e = waitn s a t + times (VCall a t) e.
Proof.
  intros H I. unfold waitn.
  destruct l; cbn [step] in H; crush_step H; cbn [actors set] in *; rewrite ?times_cons;
  change (times (VReturn a t) []) with 0; change (times (VPanic a t) []) with 0; change (times (VCall a t) []) with 0;
  repeat match goal with
  | |- context [event_eq_dec ?u ?v] => destruct (event_eq_dec u v); try discriminate
  end;
  repeat match goal with
  | E : VCall _ _ = VCall _ _ |- _ => injection E as; subst
  | E : VReturn _ _ = VReturn _ _ |- _ => injection E as; subst
  | E : VPanic _ _ = VPanic _ _ |- _ => injection E as; subst
  end; try congruence;
  repeat match goal with
  | Hn : nth_error (upd _ ?i _) ?j = Some _ |- context [nth_error (upd (upd _ ?i _) ?j _) _] => rewrite (nth_upd' _ _ _ _ _ Hn)
  end;
  repeat match goal with
  | Hn : nth_error (actors s) ?i = Some _ |- context [nth_error (upd (actors s) ?i _) _] => rewrite (nth_upd' _ _ _ _ _ Hn)
  end;
  norm s;
  repeat match goal with
  | |- context [Nat.eqb ?i ?j] => destruct (Nat.eqb_spec i j); subst
  end; try congruence;
  repeat match goal with
  | H1 : ?u = Some _, H2 : ?u = Some _ |- _ => rewrite H1 in H2; injection H2 as H2; subst
  | E : nth_error (actors s) _ = Some _ |- _ => rewrite E
  | E : at_ _ = _ |- _ => rewrite E
  end; cbn; repeat match goal with
  | E : at_ _ = _ |- _ => rewrite E
  | |- context [Nat.eqb ?i ?j] => destruct (Nat.eqb_spec i j); subst
  end; try congruence; try lia.
Qed.

Lemma step_count_out s l s' e t : step s l = Some (s', e) ->
  outn s' t + times (VExtReturn t) e = outn s t + times (VExtCall t) e.
Proof.
  intros H. unfold outn.
  destruct l; cbn [step] in H; crush_step H; cbn [outside set] in *; rewrite ?times_cons;
  change (times (VExtReturn t) []) with 0; change (times (VExtCall t) []) with 0;
  repeat match goal with
  | |- context [event_eq_dec ?u ?v] => destruct (event_eq_dec u v); try discriminate
  end; try lia.
  - injection e. intros ->. rewrite filter_app, app_length. cbn. rewrite Nat.eqb_refl. cbn. lia.
  - rewrite filter_app, app_length. cbn. destruct (Nat.eqb_spec t0 t); [subst; congruence|]. cbn. lia.
  - injection e. intros ->. pose proof (outn_upd _ _ t _ E). rewrite Nat.eqb_refl in *. lia.
  - match goal with E : nth_error (outside s) _ = Some (Some ?u) |- _ => pose proof (outn_upd _ _ t _ E); destruct (Nat.eqb_spec u t); [subst; congruence|lia] end.
Qed.

Lemma count_run sched : forall s0 s evs, inv s0 -> run step s0 sched = Some (s, evs) ->
  (forall a t, waitn s a t + times (VReturn a t) evs + times (VPanic a t) evs = waitn s0 a t + times (VCall a t) evs) /\
  (forall t, outn s t + times (VExtReturn t) evs = outn s0 t + times (VExtCall t) evs).
Proof.
  induction sched as [|l r IH]; cbn; intros s0 s1 e1 I H; [injection H as <- <-; cbn; split; intros; lia|].
  destruct (step s0 l) as [[s2 e2]|] eqn:E; [|discriminate].
  destruct (run step s2 r) as [[s3 e3]|] eqn:R; [|discriminate]. injection H as <- <-.
  destruct (IH _ _ _ (step_inv _ _ _ _ E I) R) as (K1 & K2). split.
  - intros a t. rewrite !times_app. pose proof (step_count _ _ _ _ a t E I). specialize (K1 a t). lia.
  - intros t. rewrite !times_app. pose proof (step_count_out _ _ _ _ t E). specialize (K2 t). lia.
Qed.

Lemma count_reached n sched s evs : reached n sched s evs ->
  (forall a t, waitn s a t + times (VReturn a t) evs + times (VPanic a t) evs = times (VCall a t) evs) /\
  (forall t, outn s t + times (VExtReturn t) evs = times (VExtCall t) evs).
Proof.
  intros H. destruct (count_run _ _ _ _ (inv_init n) H) as (K1 & K2). split.
  - intros a t. rewrite K1. replace (waitn (init n) a t) with 0; auto. unfold waitn.
    destruct (nth_error (actors (init n)) a) eqn:E; auto. cbn in E. apply nth_error_In, repeat_spec in E. subst. reflexivity.
  - intros t. rewrite K2. reflexivity.
Qed.

Lemma waitn_waits s a t : waitn s a t <> 0 -> waits_for s a t.
Proof.
  unfold waitn, waits_for. destruct (nth_error (actors s) a) as [x|] eqn:E; [|congruence].
  destruct (at_ x) as [| |u r|] eqn:A; try congruence. destruct (Nat.eqb_spec u t); [subst|congruence]. eauto.
Qed.
Lemma outn_awaited s t : outn s t <> 0 -> awaited_outside s t.
Proof.
  unfold outn, awaited_outside. destruct (filter _ (outside s)) as [|o r] eqn:E; [cbn; congruence|]. intros _.
  assert (H : In o (o :: r)) by (left; auto). rewrite <- E in H. apply filter_In in H. destruct H as (H & K).
  destruct o as [u|]; [|discriminate]. apply Nat.eqb_eq in K. subst. exact H.
Qed.

(** ** Gone *)

Definition ends_call (t : nat) (e : event) : Prop := (exists a, e = VReturn a t) \/ e = VExtReturn t.

Lemma step_gone s l s' e t ev y' : step s l = Some (s', e) -> inv s -> In ev e -> ends_call t ev ->
  nth_error (actors s') t = Some y' -> inmap y' = false.
Proof.
  intros H I Hin En Hy.
  destruct l; cbn [step] in H; crush_step H; cbn in Hin;
  repeat match goal with K : _ \/ _ |- _ => destruct K as [K|K] end; subst; try contradiction;
  destruct En as [[b En]|En]; try discriminate; injection En as; subst; norm s; cbn; auto; try congruence.
Qed.

Lemma gone n sched s evs t y : reached n sched s evs ->
  (exists a, In (VReturn a t) evs) \/ In (VExtReturn t) evs ->
  nth_error (actors s) t = Some y -> inmap y = false /\ closed y = 2.
Proof.
  intros H R Hy. pose proof (reached_inv _ _ _ _ H) as I0.
  assert (K : inmap y = false).
  { assert (R' : exists ev, In ev evs /\ ends_call t ev) by (unfold ends_call; destruct R as [[a R]|R]; eauto).
    clear R I0. unfold reached in H. revert R' Hy. pose proof (inv_init n) as I. revert H I. generalize (init n).
    revert s evs. induction sched as [|l r IH]; cbn; intros s evs s0 H I (ev & Hin & En) Hy.
    - injection H as <- <-. contradiction.
    - destruct (step s0 l) as [[s2 e2]|] eqn:E; [|discriminate].
      destruct (run step s2 r) as [[s3 e3]|] eqn:Rn; [|discriminate]. injection H as <- <-.
      pose proof (step_inv _ _ _ _ E I) as I2. apply in_app_iff in Hin. destruct Hin as [Hin|Hin]; [|eapply IH; eauto].
      assert (P : forall y2, nth_error (actors s2) t = Some y2 -> inmap y2 = false) by (intros; eapply step_gone; eauto).
      clear - P Rn I2 Hy. revert s2 s3 e3 P Rn I2 Hy. induction r as [|l r IH]; cbn; intros s2 s3 e3 P Rn I2 Hy.
      + injection Rn as <- <-. auto.
      + destruct (step s2 l) as [[s4 e4]|] eqn:E; [|discriminate].
        destruct (run step s4 r) as [[s5 e5]|] eqn:R5; [|discriminate]. injection Rn as <- <-.
        eapply IH; [|exact R5|eapply step_inv; eauto|exact Hy].
        intros y4 H4. destruct (nth_error (actors s2) t) as [y2|] eqn:H2.
        * destruct (step_later _ _ _ _ E I2 _ _ H2) as (y4' & H4' & (_ & _ & L)). rewrite H4 in H4'. injection H4' as <-. auto.
        * exfalso. apply nth_error_None in H2. apply some_lt in H4.
          assert (length (actors s4) = length (actors s2)); [|lia].
          clear - E. destruct l; cbn [step] in E; crush_step E; cbn; rewrite ?upd_length; auto. }
  split; auto. destruct (i_ok _ I0 _ _ Hy) as (_ & _ & O & _). auto.
Qed.

(** ** Cycles *)

Definition ring (C : list nat) (s : state) : Prop :=
  forall a, In a C -> exists x t todo, nth_error (actors s) a = Some x /\ closed x = 0 /\ at_ x = Waits t todo /\ In t C.

Lemma step_ring C s l s' e : step s l = Some (s', e) -> ring C s ->
  ring C s' /\ forall a t, In a C -> ~ In (VReturn a t) e /\ ~ In (VPanic a t) e.
Proof.
  intros H R.
  assert (K : forall a x, In a C -> nth_error (actors s) a = Some x ->
    exists x', nth_error (actors s') a = Some x' /\ closed x' = closed x /\ at_ x' = at_ x).
  { intros a x Ha Hx. destruct (R a Ha) as (x0 & t & todo & Hx0 & Cx & Ax & Ht). rewrite Hx in Hx0. injection Hx0 as <-.
    destruct (R t Ht) as (y & _ & _ & Hy & Cy & _).
    destruct (nth_error (actors s') a) as [x'|] eqn:Hx'.
    - exists x'. split; auto.
      destruct l; cbn [step] in H; crush_step H; norm s; cbn;
      repeat match goal with
      | E : (_ && _)%bool = true |- _ => apply andb_true_iff in E; destruct E
      | E : Nat.eqb _ _ = true |- _ => apply Nat.eqb_eq in E
      end; try congruence; try solve [split; congruence].
      all: rewrite Ax in *; repeat match goal with E : Waits _ _ = Waits _ _ |- _ => injection E as ? E; subst end; norm s; congruence.
    - exfalso. apply nth_error_None in Hx'. apply some_lt in Hx.
      assert (length (actors s') = length (actors s)); [|lia].
      clear - H. destruct l; cbn [step] in H; crush_step H; cbn; rewrite ?upd_length; auto. }
  split.
  - intros a Ha. destruct (R a Ha) as (x & t & todo & Hx & Cx & Ax & Ht). destruct (K a x Ha Hx) as (x' & Hx' & C' & A').
    exists x', t, todo. repeat split; auto; congruence.
  - intros a t Ha. destruct (R a Ha) as (x & u & todo & Hx & Cx & Ax & Ht). destruct (R u Ht) as (y & _ & _ & Hy & Cy & _).
    split; intros Hin; destruct l; cbn [step] in H; crush_step H; cbn in Hin;
    repeat match goal with Q : _ \/ _ |- _ => destruct Q as [Q|Q] end; subst; try contradiction; try discriminate;
    injection Hin as; subst; norm s;
    repeat match goal with E : Nat.eqb _ _ = true |- _ => apply Nat.eqb_eq in E end; try congruence.
    all: rewrite Ax in *; repeat match goal with E : Waits _ _ = Waits _ _ |- _ => injection E as ? E; subst end; norm s; congruence.
Qed.

Lemma ring_run C sched : forall s s' e, ring C s -> run step s sched = Some (s', e) ->
  ring C s' /\ forall a t, In a C -> ~ In (VReturn a t) e /\ ~ In (VPanic a t) e.
Proof.
  induction sched as [|l r IH]; cbn; intros s s' e R H.
  - injection H as <- <-. split; auto.
  - destruct (step s l) as [[s2 e2]|] eqn:E; [|discriminate].
    destruct (run step s2 r) as [[s3 e3]|] eqn:Rn; [|discriminate]. injection H as <- <-.
    destruct (step_ring _ _ _ _ _ E R) as (R2 & N2). destruct (IH _ _ _ R2 Rn) as (R3 & N3). split; auto.
    intros a t Ha. rewrite !in_app_iff. destruct (N2 a t Ha), (N3 a t Ha). tauto.
Qed.

(** ** Rings of any size *)

Section Round.
Variable n : nat.
Definition sh (k i : nat) : bool := if i =? 0 then n <=? k else i <=? k.
Definition stage (k : nat) (s : state) : Prop :=
  length (actors s) = n /\ forall i, i < n ->
  nth_error (actors s) i = Some (mkA true (sh k i) 0 [] (if i <? k then Waits (next n i) [] else Idle)).

Lemma nth_ext {A} (l : list A) i j x : i < length l ->
  nth_error (upd l i x) j = if Nat.eqb i j then Some x else nth_error l j.
Proof. apply nth_upd. Qed.

Lemma stage_step k s : k < n -> stage k s ->
  exists s' , run step s [LSend k [next n k]; LPop k; LUnreg k] = Some (s', [VCall k (next n k)]) /\ stage (S k) s'.
Proof.
  intros Hk (L & P).
  assert (Ht : next n k < n) by (unfold next; destruct (Nat.eqb_spec (S k) n); lia).
  assert (Hs : sh k (next n k) = false).
  { unfold sh, next. destruct (Nat.eqb_spec (S k) n).
    - cbn. apply Nat.leb_gt. lia.
    - cbn [Nat.eqb]. apply Nat.leb_gt. lia. }
  pose proof (P k Hk) as Pk. rewrite Nat.ltb_irrefl in Pk.
  cbn [run step]. rewrite Pk. cbn [closed Nat.eqb inmap shut box at_ set actors app].
  rewrite nth_upd_eq by lia. cbn [closed Nat.eqb inmap shut box at_ set actors app].
  rewrite nth_upd_eq by (rewrite upd_length; lia). cbn [closed Nat.eqb inmap shut box at_ set actors app].
  assert (Q : exists y, nth_error (upd (upd (actors s) k (mkA true (sh k k) 0 [[next n k]] Idle)) k (mkA true (sh k k) 0 [] (Runs [next n k]))) (next n k) = Some y /\
    inmap y = true /\ shut y = false /\ closed y = 0 /\ box y = [] /\ (next n k = k -> at_ y = Runs [next n k]) /\ (next n k <> k -> at_ y = if next n k <? k then Waits (next n (next n k)) [] else Idle)).
  { destruct (Nat.eq_dec (next n k) k) as [Ek|Ek].
    - rewrite Ek. rewrite nth_upd_eq by (rewrite upd_length; lia). eexists; split; [reflexivity|]. cbn. rewrite Ek in Hs. rewrite Hs. repeat split; auto. congruence.
    - rewrite !nth_upd_neq by auto. rewrite (P _ Ht), Hs. eexists; split; [reflexivity|]. cbn. repeat split; auto. congruence. }
  destruct Q as (y & Hy & Iy & Sy & Cy & By & A1 & A2). rewrite Hy, Iy, Sy.
  set (l2 := upd (upd (actors s) k _) k _) in *.
  assert (L2 : length l2 = n) by (unfold l2; rewrite !upd_length; auto).
  destruct (nth_error (upd l2 (next n k) (shutting y)) k) as [x1|] eqn:Hx1.
  2:{ apply nth_error_None in Hx1. rewrite upd_length in Hx1. lia. }
  eexists. split; [reflexivity|]. split; [cbn; rewrite !upd_length; auto|].
  intros i Hi. cbn [set actors]. fold l2. rewrite nth_upd by (rewrite upd_length; lia).
  apply nth_upd_some in Hx1.
  destruct (Nat.eqb_spec k i) as [<-|Nk].
  - assert (E : k <? S k = true) by (apply Nat.ltb_lt; lia). rewrite E. f_equal.
    destruct Hx1 as [(Ek & ->)|(Ek & Hx1)].
    + unfold put, shutting; cbn. rewrite Iy, Cy, By. f_equal.
      unfold sh. unfold next in Ek. destruct (Nat.eqb_spec (S k) n); [|lia]. subst k. cbn. symmetry. apply Nat.leb_le. lia.
    + unfold l2 in Hx1. rewrite nth_upd_eq in Hx1 by (rewrite upd_length; lia). injection Hx1 as <-. unfold put; cbn. f_equal.
      unfold sh. unfold next in Ek. destruct (Nat.eqb_spec k 0).
      * destruct (Nat.leb_spec n k), (Nat.leb_spec n (S k)); auto; try lia. subst k. destruct (Nat.eqb_spec 1 n); lia.
      * rewrite Nat.leb_refl. symmetry. apply Nat.leb_le. lia.
  - destruct (Nat.eq_dec (next n k) i) as [Ei|Ei].
    + rewrite <- Ei. rewrite nth_upd_eq by lia. f_equal. unfold shutting. rewrite Iy, Cy, By. rewrite A2 by congruence.
      f_equal.
      * unfold sh, next. destruct (Nat.eqb_spec (S k) n); cbn [Nat.eqb]; symmetry; [apply Nat.leb_le; lia|apply Nat.leb_refl].
      * unfold next in Ei. destruct (Nat.eqb_spec (S k) n) as [En|En].
        -- unfold next. rewrite (proj2 (Nat.eqb_eq _ _) En). destruct k; [lia|]. reflexivity.
        -- unfold next. rewrite (proj2 (Nat.eqb_neq _ _) En). rewrite Nat.ltb_irrefl.
           destruct (Nat.ltb_spec (S k) k); [lia|reflexivity].
    + rewrite nth_upd_neq by auto. unfold l2. rewrite !nth_upd_neq by auto. rewrite (P i Hi). f_equal. f_equal.
      * unfold sh. unfold next in Ei. destruct (Nat.eqb_spec (S k) n); destruct (Nat.eqb_spec i 0); subst;
        repeat match goal with |- context [?u <=? ?v] => destruct (Nat.leb_spec u v) end; auto; lia.
      * destruct (Nat.ltb_spec i k), (Nat.ltb_spec i (S k)); auto; lia.
Qed.

Lemma stage_run : forall k, k <= n -> forall s, stage 0 s ->
  exists s', run step s (flat_map (fun i => [LSend i [next n i]; LPop i; LUnreg i]) (seq 0 k)) =
     Some (s', map (fun i => VCall i (next n i)) (seq 0 k)) /\ stage k s'.
Proof.
  induction k; intros Hk s H0; [exists s; split; auto|].
  destruct (IHk ltac:(lia) s H0) as (s1 & R1 & P1). destruct (stage_step k s1 ltac:(lia) P1) as (s2 & R2 & P2).
  exists s2. split; auto. rewrite seq_S, flat_map_app, map_app. cbn [flat_map map app Nat.add].
  exact (run_app step _ _ _ _ _ _ _ R1 R2).
Qed.
End Round.

Lemma stage_init n : 1 <= n -> stage n 0 (init n).
Proof.
  intros Hn. split; [apply repeat_length|]. intros i Hi. cbn. rewrite nth_error_repeat by auto. f_equal.
  unfold sh. destruct (Nat.eqb_spec i 0); subst; f_equal; symmetry; apply Nat.leb_gt; lia.
Qed.

Lemma round_ring n : 1 <= n -> exists s, reached n (round n) s (map (fun i => VCall i (next n i)) (seq 0 n)) /\
  ring (seq 0 n) s.
Proof.
  intros Hn. destruct (stage_run n n (le_n n) (init n) (stage_init n Hn)) as (s & R & (L & P)).
  exists s. split; [exact R|]. intros a Ha. apply in_seq in Ha. exists (mkA true (sh n n a) 0 [] (Waits (next n a) [])), (next n a), [].
  rewrite (P a) by lia. rewrite (proj2 (Nat.ltb_lt a n)) by lia. repeat split; auto. apply in_seq. unfold next.
  destruct (Nat.eqb_spec (S a) n); lia.
Qed.

Lemma reached_length n sched s evs : reached n sched s evs -> length (actors s) = n.
Proof.
  unfold reached. intros H. rewrite <- (repeat_length (mkA true false 0 [] Idle) n).
  change (repeat _ n) with (actors (init n)). revert H. generalize (init n). revert s evs.
  induction sched as [|l r IH]; cbn; intros s evs s0 H; [injection H as <- _; auto|].
  destruct (step s0 l) as [[s2 e2]|] eqn:E; [|discriminate].
  destruct (run step s2 r) as [[s3 e3]|] eqn:R; [|discriminate]. injection H as <- _.
  rewrite (IH _ _ _ R). clear - E. destruct l; cbn [step] in E; crush_step E; cbn; rewrite ?upd_length; auto.
Qed.

(** ** Panics *)

Lemma calls_app t a b : calls t (a ++ b) = calls t a + calls t b.
Proof. unfold calls. rewrite filter_app, app_length. reflexivity. Qed.

Lemma step_calls s l s' e t y' : step s l = Some (s', e) -> nth_error (actors s') t = Some y' -> shut y' = true ->
  (exists y, nth_error (actors s) t = Some y /\ shut y = true) \/ 1 <= calls t e.
Proof.
  intros H Hy Sy.
  destruct l; cbn [step] in H; crush_step H; norm s; cbn in Sy;
  try (left; eexists; split; [eassumption|assumption]);
  right; unfold calls; cbn; rewrite ?Nat.eqb_refl; cbn; lia.
Qed.

Lemma step_panic s l s' e a t : step s l = Some (s', e) -> In (VPanic a t) e ->
  (exists y, nth_error (actors s) t = Some y /\ shut y = true) /\ 1 <= calls t e.
Proof.
  intros H Hin.
  destruct l; cbn [step] in H; crush_step H; cbn in Hin;
  repeat match goal with Q : _ \/ _ |- _ => destruct Q as [Q|Q] end; subst; try contradiction; try discriminate.
  injection Hin as; subst. split; [eauto|]. unfold calls. cbn. rewrite Nat.eqb_refl. cbn. lia.
Qed.

Lemma panics n sched s evs : reached n sched s evs ->
  (forall t y, nth_error (actors s) t = Some y -> shut y = true -> 1 <= calls t evs) /\
  (forall a t, In (VPanic a t) evs -> 2 <= calls t evs).
Proof.
  unfold reached. revert s evs. induction sched as [|l r IH] using rev_ind; intros s evs H.
  - injection H as <- <-. split; [|intros ? ? []]. intros t y Hy Sy. cbn in Hy. apply nth_error_In, repeat_spec in Hy. subst. discriminate.
  - apply run_app_inv in H. destruct H as (s1 & e1 & e2 & R1 & R2 & ->). cbn in R2.
    destruct (step s1 l) as [[s2 e3]|] eqn:E; [|discriminate]. injection R2 as <- <-. rewrite app_nil_r.
    destruct (IH _ _ R1) as (K1 & K2). split.
    + intros t y Hy Sy. rewrite calls_app. destruct (step_calls _ _ _ _ _ _ E Hy Sy) as [(y0 & H0 & S0)|C]; [|lia].
      specialize (K1 _ _ H0 S0). lia.
    + intros a t Hin. rewrite calls_app. apply in_app_iff in Hin. destruct Hin as [Hin|Hin]; [specialize (K2 _ _ Hin); lia|].
      destruct (step_panic _ _ _ _ _ _ E Hin) as ((y & Hy & Sy) & C). specialize (K1 _ _ Hy Sy). lia.
Qed.

(** The call that panics and an earlier one both come before the panic. *)
Lemma step_panic_at s l s' e p a t q : step s l = Some (s', e) -> e = p ++ VPanic a t :: q ->
  (exists y, nth_error (actors s) t = Some y /\ shut y = true) /\ 1 <= calls t p.
Proof.
  intros H He.
  destruct l; cbn [step] in H; crush_step H;
  destruct p as [|v [|w [|z p]]]; try discriminate He; injection He as; subst; try discriminate; try (destruct p; discriminate).
  split; [eauto|]. unfold calls. cbn. rewrite Nat.eqb_refl. cbn. lia.
Qed.

Lemma app_mid {A} (x y p q : list A) v : x ++ y = p ++ v :: q ->
  (exists r, x = p ++ v :: r /\ q = r ++ y) \/ (exists r, p = x ++ r /\ y = r ++ v :: q).
Proof.
  revert p. induction x as [|u x IH]; intros p H; cbn in H.
  - right. exists p. auto.
  - destruct p as [|w p]; cbn in H; injection H as -> H.
    + left. exists x. auto.
    + destruct (IH _ H) as [(r & -> & ->)|(r & -> & ->)]; [left|right]; eexists; split; reflexivity.
Qed.

Lemma panic_before n sched s p a t q : reached n sched s (p ++ VPanic a t :: q) -> 2 <= calls t p.
Proof.
  remember (p ++ VPanic a t :: q) as evs eqn:He. unfold reached. revert s evs p q He.
  induction sched as [|l r IH] using rev_ind; intros s evs p q He H.
  - injection H as <- <-. destruct p; discriminate.
  - apply run_app_inv in H. destruct H as (s1 & e1 & e2 & R1 & R2 & E12). cbn in R2.
    destruct (step s1 l) as [[s2 e3]|] eqn:E; [|discriminate]. injection R2 as <- <-. rewrite app_nil_r in E12.
    rewrite He in E12. symmetry in E12. apply app_mid in E12. destruct E12 as [(x & -> & ->)|(x & -> & E3)].
    + eapply IH; [reflexivity|exact R1].
    + destruct (step_panic_at _ _ _ _ _ _ _ _ E E3) as ((y & Hy & Sy) & C).
      destruct (panics _ _ _ _ R1) as (K1 & _). specialize (K1 _ _ Hy Sy). rewrite calls_app. lia.
Qed.

(** ** Once at rest, for ever *)

Definition targets (s : state) : list nat :=
  flat_map (fun x => match at_ x with Waits t _ => [t] | _ => [] end) (actors s).

Lemma targets_in s t : In t (targets s) <-> exists a, waits_for s a t.
Proof.
  unfold targets, waits_for. rewrite in_flat_map. split.
  - intros (x & Hx & Ht). apply In_nth_error in Hx. destruct Hx as (a & Hx).
    destruct (at_ x) as [| |u r|] eqn:A; try contradiction. destruct Ht as [<-|[]]. eauto.
  - intros (a & x & r & Hx & A). exists x. split; [eapply nth_error_In; eauto|]. rewrite A. now left.
Qed.

Lemma limit_ring s : inv s -> rests s -> (forall a, step s (LClose a true) = None) -> ring (targets s) s.
Proof.
  intros I R F t Ht. apply targets_in in Ht. destruct Ht as (a & W).
  destruct (rests_next _ _ _ I R W) as (u & y & todo & Hy & A).
  exists y, u, todo. split; auto. split; [|split; auto; apply targets_in; exists t, y, todo; auto].
  destruct W as (x & r & Hx & Ax).
  destruct (i_ok _ I _ _ Hy) as (O1 & _). destruct (closed y) as [|[|[|c]]] eqn:Ec; auto; try lia.
  - specialize (F t). cbn [step] in F. rewrite Hy, Ec in F. discriminate.
  - specialize (R (LWake a) eq_refl). cbn [step] in R. rewrite Hx, Ax, Hy, Ec in R. cbn [set actors Nat.eqb] in R.
    destruct (nth_error (upd (actors s) t (removed y)) a) eqn:N; [discriminate|].
    apply nth_error_None in N. rewrite upd_length in N. apply some_lt in Hx. lia.
Qed.

Lemma step_kept C s l s' e a t : step s l = Some (s', e) -> ring C s -> waits_for s a t -> In t C ->
  waits_for s' a t /\ forall u, ~ In (VReturn a u) e /\ ~ In (VPanic a u) e.
Proof.
  intros H R (x & todo & Hx & Ax) Ht. destruct (R t Ht) as (y & v & rv & Hy & Cy & _).
  assert (L : length (actors s') = length (actors s)).
  { clear - H. destruct l; cbn [step] in H; crush_step H; cbn; rewrite ?upd_length; auto. }
  split.
  - destruct (nth_error (actors s') a) as [x'|] eqn:Hx'.
    2:{ exfalso. apply nth_error_None in Hx'. apply some_lt in Hx. lia. }
    exists x', todo. split; auto.
    destruct l; cbn [step] in H; crush_step H; norm s; cbn;
    repeat match goal with
    | E : (_ && _)%bool = true |- _ => apply andb_true_iff in E; destruct E
    | E : Nat.eqb _ _ = true |- _ => apply Nat.eqb_eq in E
    end; try congruence.
    all: rewrite Ax in *; repeat match goal with E : Waits _ _ = Waits _ _ |- _ => injection E as ? E; subst end; norm s; congruence.
  - intros u. split; intros Hin; destruct l; cbn [step] in H; crush_step H; cbn in Hin;
    repeat match goal with Q : _ \/ _ |- _ => destruct Q as [Q|Q] end; subst; try contradiction; try discriminate;
    injection Hin as; subst; norm s;
    repeat match goal with E : Nat.eqb _ _ = true |- _ => apply Nat.eqb_eq in E end; try congruence.
    all: rewrite Ax in *; repeat match goal with E : Waits _ _ = Waits _ _ |- _ => injection E as ? E; subst end; norm s; congruence.
Qed.

Lemma kept_run C a t sched : forall s s' e, ring C s -> waits_for s a t -> In t C -> run step s sched = Some (s', e) ->
  waits_for s' a t /\ forall u, ~ In (VReturn a u) e /\ ~ In (VPanic a u) e.
Proof.
  induction sched as [|l r IH]; cbn; intros s s' e R W Ht H.
  - injection H as <- <-. split; auto.
  - destruct (step s l) as [[s2 e2]|] eqn:E; [|discriminate].
    destruct (run step s2 r) as [[s3 e3]|] eqn:Rn; [|discriminate]. injection H as <- <-.
    destruct (step_kept _ _ _ _ _ _ _ E R W Ht) as (W2 & N2). destruct (step_ring _ _ _ _ _ E R) as (R2 & _).
    destruct (IH _ _ _ R2 W2 Ht Rn) as (W3 & N3). split; auto.
    intros u. rewrite !in_app_iff. destruct (N2 u), (N3 u). tauto.
Qed.
