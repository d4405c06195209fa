(** Clear after a crash in the middle of an operation. *)
From Coq Require Import List String ZArith Bool Permutation Lia.
From Verif Require Import Machine AddrModel AddrSpec AddrProofs AddrInv AddrRun AddrFacts.
Import ListNotations.
Open Scope string_scope.
Open Scope list_scope.

(** The store holds the registrations [L] (none of node [n]) and, besides, only
    things of node [n] that its Clear can find. *)
Record clearable (s : store) (n : string) (L : list reg) : Prop := {
  k_unique : NoDup (map r_id L);
  k_other : forall r, In r L -> r_node r <> n;
  k_rec1 : forall r, In r L -> rec s (r_id r) = Some (addr_of r);
  k_mem1 : forall r, In r L -> mem s (r_ty r) (addr_of r);
  k_rec2 : forall id a, rec s id = Some a ->
    (exists r, In r L /\ r_id r = id /\ a = addr_of r) \/ (a_node a = n /\ a_id a = id /\ exists ty, mem s ty a);
  k_mem2 : forall ty a, mem s ty a ->
    (exists r, In r L /\ r_ty r = ty /\ a = addr_of r) \/
    (a_node a = n /\ (exists z, fld s n (FType ty) = Some z) /\ forall r, In r L -> r_id r <> a_id a);
  k_total : forall m, m <> n -> match fld s m FTotal with Some z => z | None => 0%Z end = total (on_node m) L;
  k_type : forall m ty, m <> n -> match fld s m (FType ty) with Some z => z | None => 0%Z end =
             total (fun r => on_node m r && of_type ty r) L;
  k_field : forall r, In r L -> exists z, fld s (r_node r) (FType (r_ty r)) = Some z;
  k_node : forall r, In r L -> exists ep, ninfo s (r_node r) = Some ep;
  k_weight : forall m ep, m <> n -> ninfo s m = Some ep -> exists z, fld s m FTotal = Some z }.

Lemma total_none p L n : (forall r, In r L -> r_node r <> n) -> (forall r, p r = true -> r_node r = n) -> total p L = 0%Z.
Proof.
  induction L as [|r L IH]; intros H Hp; cbn; [reflexivity|]. rewrite IH; auto.
  - destruct (p r) eqn:E; [|reflexivity]. exfalso. apply (H r (or_introl eq_refl)), Hp, E.
  - intros q Hq. apply H. now right.
Qed.

Lemma clear_repairs s n L : clearable s n L -> cview (apply_all s (clear_cmds n s)) L.
Proof.
  intros [K1 K2 K3 K4 K5 K6 K7 K8 K9 K10 K11]. unfold clear_cmds. fold (clear_removals n s). rewrite apply_all_app.
  set (cs := clear_removals n s). pose proof (clear_is_removal n s) as Hcs. fold cs in Hcs.
  set (s1 := apply_all s cs). destruct (removal_rest cs s Hcs) as [N1 F1]. fold s1 in N1, F1.
  unfold apply_all. cbn [fold_left].
  constructor; auto.
  - intros id a. rewrite !rec_apply. unfold s1. rewrite removal_rec by exact Hcs. split.
    + destruct (existsb _ cs) eqn:Ex; [discriminate|]. intros Hq.
      apply K5 in Hq as [Hq|(Q1 & Q2 & ty & Q3)]; [exact Hq|]. exfalso.
      assert (Et : existsb (fun c => match c with HDelId i => String.eqb id i | _ => false end) cs = true); [|congruence].
      apply existsb_exists. exists (HDelId id). split; [|apply String.eqb_refl].
      apply clear_removals_in. pose proof (K6 _ _ Q3) as [(r & R1 & R2 & R3)|(_ & (z & Hz) & _)].
      * exfalso. subst a. apply (K2 r R1). exact Q1.
      * exists ty, z, a. apply fget_in in Hz. rewrite Q2. auto.
    + intros (r & R1 & R2 & ->). destruct (existsb _ cs) eqn:Ex.
      * exfalso. apply existsb_exists in Ex as (c & Hc & Hi). apply clear_removals_in in Hc as (ty & z & a & _ & A2 & A3 & [->| ->]); [discriminate|].
        apply String.eqb_eq in Hi. subst id. apply K6 in A2 as [(q & Q1 & _ & ->)|(_ & _ & A4)].
        -- apply (K2 q Q1 A3).
        -- apply (A4 r R1 Hi).
      * rewrite <- R2. now apply K3.
  - intros ty a. rewrite !mem_apply. unfold s1. rewrite removal_mem by exact Hcs. split.
    + intros [Hm Hn]. pose proof (K6 _ _ Hm) as [Hq|(Q1 & (z & Hz) & _)]; [exact Hq|]. exfalso. apply Hn.
      apply clear_removals_in. apply fget_in in Hz. exists ty, z, a. auto.
    + intros (r & R1 & <- & ->). split; [now apply K4|]. intros Hc.
      apply clear_removals_in in Hc as (ty & z & a & _ & A2 & A3 & [E|E]); [|discriminate].
      injection E as _ E. subst a. exact (K2 r R1 A3).
  - intros m. rewrite !fld_apply, F1. destruct (String.eqb_spec m n) as [->|Hm]; [|now apply K7].
    symmetry. apply total_none with n; [exact K2|]. intros r. apply String.eqb_eq.
  - intros m ty. rewrite !fld_apply, F1. destruct (String.eqb_spec m n) as [->|Hm]; [|now apply K8].
    symmetry. apply total_none with n; [exact K2|]. intros r Hp. apply andb_true_iff in Hp as [Hp _]. now apply String.eqb_eq.
  - intros r Hr. rewrite !fld_apply, F1. destruct (String.eqb_spec (r_node r) n); [exfalso; eapply K2; eauto|auto].
  - intros r Hr. rewrite !ninfo_apply, N1. destruct (String.eqb_spec (r_node r) n); [exfalso; eapply K2; eauto|auto].
  - intros m ep. rewrite !ninfo_apply, !fld_apply, N1, F1. destruct (String.eqb_spec m n); [discriminate|]. now apply K11.
Qed.

Definition others (n : string) (L : list reg) : list reg := filter (fun r => negb (String.eqb (r_node r) n)) L.
Lemma in_others n L q : In q (others n L) <-> In q L /\ r_node q <> n.
Proof. unfold others. rewrite filter_In. destruct (String.eqb_spec (r_node q) n); cbn; intuition; discriminate. Qed.

(** A store in which things of node [n] were changed in ways Clear can cope with. *)
Lemma clearable_from s s' n L : cview s L ->
  (forall id a, a_node a <> n -> (rec s' id = Some a <-> rec s id = Some a)) ->
  (forall ty a, a_node a <> n -> (mem s' ty a <-> mem s ty a)) ->
  (forall m f, m <> n -> fld s' m f = fld s m f) ->
  (forall m, m <> n -> ninfo s' m = ninfo s m) ->
  (forall id a, rec s' id = Some a -> a_node a = n -> a_id a = id /\ exists ty, mem s' ty a) ->
  (forall ty a, mem s' ty a -> a_node a = n -> (exists z, fld s' n (FType ty) = Some z) /\
     forall r, In r L -> r_node r <> n -> r_id r <> a_id a) ->
  clearable s' n (others n L).
Proof.
  intros [A B C D E F G H] H1 H2 H3 H4 H5 H6. constructor.
  - now apply filter_map_nodup.
  - intros r Hr. now apply in_others in Hr as [_ Hr].
  - intros r Hr. apply in_others in Hr as [Hr Hn]. apply H1; [exact Hn|]. apply B. eauto.
  - intros r Hr. apply in_others in Hr as [Hr Hn]. apply H2; [exact Hn|]. apply C. eauto.
  - intros id a Hr. destruct (string_dec (a_node a) n) as [En|En].
    + right. destruct (H5 _ _ Hr En). auto.
    + left. apply H1 in Hr; [|exact En]. apply B in Hr as (r & R1 & R2 & ->). exists r. rewrite in_others. auto.
  - intros ty a Hm. destruct (string_dec (a_node a) n) as [En|En].
    + right. destruct (H6 _ _ Hm En) as [Hz Hid]. split; [exact En|]. split; [exact Hz|].
      intros r Hr. apply in_others in Hr as [Hr Hn]. now apply Hid.
    + left. apply H2 in Hm; [|exact En]. apply C in Hm as (r & R1 & R2 & ->). exists r. rewrite in_others. auto.
  - intros m Hm. rewrite H3 by exact Hm. rewrite D. symmetry. apply total_filter_nodes with m; auto.
    intros r. apply String.eqb_eq.
  - intros m ty Hm. rewrite H3 by exact Hm. rewrite E. symmetry. apply total_filter_nodes with m; auto.
    intros r Hp. apply andb_true_iff in Hp as [Hp _]. now apply String.eqb_eq.
  - intros r Hr. apply in_others in Hr as [Hr Hn]. rewrite H3 by exact Hn. auto.
  - intros r Hr. apply in_others in Hr as [Hr Hn]. rewrite H4 by exact Hn. auto.
  - intros m ep Hm. rewrite H4, H3 by exact Hm. apply H.
Qed.

(** Commands that a node issues about one id of its own. *)
Definition own_cmds (n id : string) (cs : list cmd) : Prop :=
  forall c, In c cs -> match c with
    | HSetId i a => i = id /\ a_node a = n
    | HDelId i => i = id
    | SAddTy _ a | SRemTy _ a => a_node a = n
    | HSetNode m _ | HIncr m _ _ => m = n
    | HDelNode _ | DelNode _ => False
    end.
Lemma own_frame n id cs : own_cmds n id cs -> forall s,
  (forall i a, i <> id -> a_node a <> n -> (rec (apply_all s cs) i = Some a <-> rec s i = Some a)) /\
  (forall i, i <> id -> rec (apply_all s cs) i = rec s i) /\
  (forall ty a, a_node a <> n -> (mem (apply_all s cs) ty a <-> mem s ty a)) /\
  (forall m f, m <> n -> fld (apply_all s cs) m f = fld s m f) /\
  (forall m, m <> n -> ninfo (apply_all s cs) m = ninfo s m) /\
  (forall f z, fld s n f = Some z -> exists z', fld (apply_all s cs) n f = Some z').
Proof.
  intros H s.
  assert (HH : forall s,
    (forall i, i <> id -> rec (apply_all s cs) i = rec s i) /\
    (forall ty a, a_node a <> n -> (mem (apply_all s cs) ty a <-> mem s ty a)) /\
    (forall m f, m <> n -> fld (apply_all s cs) m f = fld s m f) /\
    (forall m, m <> n -> ninfo (apply_all s cs) m = ninfo s m) /\
    (forall f z, fld s n f = Some z -> exists z', fld (apply_all s cs) n f = Some z')).
  { clear s. induction cs as [|c cs IH]; intros s.
    - repeat split; auto. intros f z Hz. exists z. exact Hz.
    - assert (Hcs : own_cmds n id cs) by (intros d Hd; apply H; now right). pose proof (H c (or_introl eq_refl)) as Hc.
      destruct (IH Hcs (apply s c)) as (A & B & C & D & E). change (apply_all s (c :: cs)) with (apply_all (apply s c) cs).
      split; [|split; [|split; [|split]]].
      + intros i Hi. rewrite A, rec_apply by exact Hi. destruct c; auto; [destruct Hc as [-> _]|subst id0];
          destruct (String.eqb_spec i id); congruence.
      + intros ty a Ha. rewrite B, mem_apply by exact Ha. destruct c; try tauto; intuition congruence.
      + intros m f Hm. rewrite C, fld_apply by exact Hm. destruct c; auto; subst; [|contradiction].
        destruct (String.eqb_spec m n); [contradiction|reflexivity].
      + intros m Hm. rewrite D, ninfo_apply by exact Hm. destruct c; auto; subst; [|contradiction].
        destruct (String.eqb_spec m n); [contradiction|reflexivity].
      + intros f z Hz. rewrite <- (app_nil_l cs). cbn [app].
        assert (exists z', fld (apply s c) n f = Some z') as [z' Hz'].
        { rewrite fld_apply. destruct c; eauto; [|destruct Hc].
          match goal with |- context [if ?b then _ else _] => destruct b end; eauto. }
        eapply E; eauto. }
  destruct (HH s) as (A & B & C & D & E). split; [|auto]. intros i a Hi _. now rewrite A.
Qed.

Lemma own_firstn n id cs k : own_cmds n id cs -> own_cmds n id (firstn k cs).
Proof. intros H c Hc. apply H. rewrite <- (firstn_skipn k cs). apply in_or_app. now left. Qed.
Lemma unreg_own r : own_cmds (r_node r) (r_id r) (unreg_cmds (r_node r) (r_id r) (addr_of r) (r_w r)).
Proof. intros c Hc. apply in_unreg_cmds in Hc as [->|[->|[f ->]]]; cbn; auto. Qed.
Lemma reg_own n ep ty id w : own_cmds n id (reg_cmds n ep ty id w).
Proof. intros c Hc. apply in_reg_cmds in Hc as [->|[->|[->|[f ->]]]]; cbn; auto. Qed.

Lemma clear_after_unregister s L r k : consistent s L -> In r L ->
  let s' := apply_all s (firstn k (unreg_cmds (r_node r) (r_id r) (addr_of r) (r_w r))) in
  consistent (apply_all s' (clear_cmds (r_node r) s')) (others (r_node r) L).
Proof.
  intros HC Hr s'. pose proof (consistent_cview _ _ HC) as Hv.
  set (n := r_node r) in *. set (cs := unreg_cmds n (r_id r) (addr_of r) (r_w r)) in *.
  destruct (own_frame n (r_id r) (firstn k cs) (own_firstn _ _ _ k (unreg_own r)) s) as (O1 & O2 & O3 & O4 & O5 & O6).
  fold s' in O1, O2, O3, O4, O5, O6.
  assert (Hrec : rec s' (r_id r) = None \/ (forall i, rec s' i = rec s i) /\ (forall ty a, mem s' ty a <-> mem s ty a)).
  { destruct k as [|k]; [right; split; [reflexivity|tauto]|]. left. unfold s', cs. cbn [firstn unreg_cmds].
    change (apply_all s (HDelId (r_id r) :: ?x)) with (apply_all (apply s (HDelId (r_id r))) x).
    destruct k as [|[|[|k]]]; cbn [firstn]; rewrite ?firstn_nil; unfold apply_all; cbn [fold_left]; rewrite !rec_apply, String.eqb_refl; reflexivity. }
  assert (Hmem : forall ty a, mem s' ty a -> mem s ty a).
  { intros ty a. unfold s', cs. destruct k as [|[|[|[|k]]]]; cbn [firstn unreg_cmds]; rewrite ?firstn_nil; unfold apply_all; cbn [fold_left];
      rewrite ?mem_apply; tauto. }
  assert (Hmem2 : forall ty a, mem s ty a -> a_id a <> r_id r -> mem s' ty a).
  { intros ty a Hm Hn. unfold s', cs. destruct k as [|[|[|[|k]]]]; cbn [firstn unreg_cmds]; rewrite ?firstn_nil; unfold apply_all; cbn [fold_left];
      rewrite ?mem_apply; try tauto; (split; [exact Hm|]; intros [_ ->]; apply Hn; reflexivity). }
  apply cview_consistent; [|apply set_ok_apply_all, set_ok_apply_all; intros ty; apply (c_set _ _ HC)].
  apply clear_repairs. apply (clearable_from s); auto.
  - intros id a Ha. destruct (string_dec id (r_id r)) as [->|Hi]; [|now rewrite O2].
    assert (Hno : rec s (r_id r) <> Some a).
    { intros Hx. rewrite (proj2 (v_record _ _ Hv (r_id r) (addr_of r))) in Hx by eauto.
      injection Hx as <-. apply Ha. reflexivity. }
    split; [|tauto]. intros Hx. destruct Hrec as [Hrec|[Hrec _]]; [congruence|]. rewrite Hrec in Hx. tauto.
  - intros id a Ha Hn. destruct (string_dec id (r_id r)) as [->|Hi].
    + destruct Hrec as [Hrec|[Hrec1 Hrec2]]; [congruence|]. rewrite Hrec1 in Ha.
      apply (v_record _ _ Hv) in Ha as (q & Q1 & Q2 & ->). split; [exact Q2|]. exists (r_ty q). apply Hrec2.
      apply (v_member _ _ Hv). eauto.
    + rewrite O2 in Ha by exact Hi. apply (v_record _ _ Hv) in Ha as (q & Q1 & Q2 & ->). split; [exact Q2|].
      exists (r_ty q). apply Hmem2; [|cbn; congruence]. apply (v_member _ _ Hv). eauto.
  - intros ty a Ha Hn. apply Hmem in Ha. apply (v_member _ _ Hv) in Ha as (q & Q1 & Q2 & ->). split.
    + destruct (v_field _ _ Hv q Q1) as [z Hz]. cbn in Hn. rewrite Hn, Q2 in Hz. eapply O6; eauto.
    + intros x Hx Hxn E. cbn in E, Hn. rewrite (nodup_id_eq _ _ _ (v_unique _ _ Hv) Hx Q1 E) in Hxn. contradiction.
Qed.

(** A crashed Register is repaired if it had got as far as the type counter, or
    if the node already had such a counter and the membership was written. *)
Definition found_by_clear (s : store) (n ty : string) (k : nat) : Prop :=
  k = 0 \/ 4 <= k \/ (2 <= k /\ exists z, fget (FType ty) (fields s n) = Some z).
Lemma clear_after_register s L n ep ty id w k : consistent s L -> (forall r, In r L -> r_id r <> id) ->
  found_by_clear s n ty k ->
  let s' := apply_all s (firstn k (reg_cmds n ep ty id w)) in
  consistent (apply_all s' (clear_cmds n s')) (others n L).
Proof.
  intros HC Hid Hk s'. pose proof (consistent_cview _ _ HC) as Hv.
  destruct (own_frame n id (firstn k (reg_cmds n ep ty id w)) (own_firstn _ _ _ k (reg_own n ep ty id w)) s) as (O1 & O2 & O3 & O4 & O5 & O6).
  fold s' in O1, O2, O3, O4, O5, O6.
  assert (Hnone : rec s id = None).
  { destruct (rec s id) as [a|] eqn:E; [|reflexivity]. apply (v_record _ _ Hv) in E as (q & Q1 & Q2 & _). exfalso. eapply Hid; eauto. }
  set (a0 := mkAddr n id ty ep).
  assert (Hcase : (k = 0 /\ (forall i, rec s' i = rec s i) /\ (forall t a, mem s' t a <-> mem s t a)) \/
    (rec s' id = Some a0 /\ (forall t a, mem s' t a <-> (t = ty /\ a = a0) \/ mem s t a) /\ exists z, fld s' n (FType ty) = Some z)).
  { destruct Hk as [->|Hk]; [left; split; [auto|]; split; [reflexivity|tauto]|]. right.
    assert (H2 : 2 <= k) by (destruct Hk as [?|[? _]]; lia).
    split; [|split].
    - unfold s'. destruct k as [|[|[|[|[|k]]]]]; try lia; cbn [firstn reg_cmds]; rewrite ?firstn_nil; unfold apply_all; cbn [fold_left];
        rewrite ?rec_apply, ?String.eqb_refl; reflexivity.
    - intros t a. unfold s'. destruct k as [|[|[|[|[|k]]]]]; try lia; cbn [firstn reg_cmds]; rewrite ?firstn_nil; unfold apply_all; cbn [fold_left];
        rewrite ?mem_apply; reflexivity.
    - destruct Hk as [Hk|[_ [z Hz]]]; [|eapply O6; exact Hz].
      unfold s'. destruct k as [|[|[|[|[|k]]]]]; try lia; cbn [firstn reg_cmds]; rewrite ?firstn_nil; unfold apply_all; cbn [fold_left];
        rewrite ?fld_apply; cbn; rewrite ?andb_false_r, ?String.eqb_refl; cbn; eauto. }
  apply cview_consistent; [|apply set_ok_apply_all, set_ok_apply_all; intros t; apply (c_set _ _ HC)].
  apply clear_repairs. apply (clearable_from s); auto.
  - intros i a Ha. destruct (string_dec i id) as [->|Hi]; [|now rewrite O2]. rewrite Hnone.
    split; [|discriminate]. destruct Hcase as [(_ & E & _)|(E & _)]; rewrite E; [rewrite Hnone; discriminate|].
    intros [= <-]. exfalso. apply Ha. reflexivity.
  - intros i a Ha Hn. destruct Hcase as [(_ & E1 & E2)|(E1 & E2 & _)].
    + rewrite E1 in Ha. apply (v_record _ _ Hv) in Ha as (q & Q1 & Q2 & ->). split; [exact Q2|]. exists (r_ty q).
      apply E2, (v_member _ _ Hv). eauto.
    + destruct (string_dec i id) as [->|Hi].
      * rewrite E1 in Ha. injection Ha as <-. split; [reflexivity|]. exists ty. apply E2. auto.
      * rewrite O2 in Ha by exact Hi. apply (v_record _ _ Hv) in Ha as (q & Q1 & Q2 & ->). split; [exact Q2|]. exists (r_ty q).
        apply E2. right. apply (v_member _ _ Hv). eauto.
  - intros t a Ha Hn.
    assert (Hold : mem s t a -> (exists z, fld s' n (FType t) = Some z) /\ (forall r, In r L -> r_node r <> n -> r_id r <> a_id a)).
    { intros Hm. apply (v_member _ _ Hv) in Hm as (q & Q1 & Q2 & ->). split.
      - destruct (v_field _ _ Hv q Q1) as [z Hz]. cbn in Hn. rewrite Hn, Q2 in Hz. eapply O6; eauto.
      - intros x Hx Hxn E. cbn in E, Hn. rewrite (nodup_id_eq _ _ _ (v_unique _ _ Hv) Hx Q1 E) in Hxn. contradiction. }
    destruct Hcase as [(_ & E1 & E2)|(E1 & E2 & E3)].
    + apply E2 in Ha. auto.
    + apply E2 in Ha as [[-> ->]|Ha]; [|auto]. split; [exact E3|]. intros r Hr _. cbn. now apply Hid.
Qed.
