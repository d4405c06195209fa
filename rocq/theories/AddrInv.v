(** Effects of whole operations and the invariant of orderly executions. *)
From Coq Require Import List String ZArith Bool Permutation Lia.
From Verif Require Import Machine AddrModel AddrSpec AddrProofs.
Import ListNotations.
Open Scope string_scope.
Open Scope list_scope.

(** [consistent] without the duplicate-freedom of the sets. *)
Record cview (s : store) (L : list reg) : Prop := {
  v_unique : NoDup (map r_id L);
  v_record : forall id a, rec s id = Some a <-> exists r, In r L /\ r_id r = id /\ a = addr_of r;
  v_member : forall ty a, mem s ty a <-> exists r, In r L /\ r_ty r = ty /\ a = addr_of r;
  v_total : forall n, match fld s n FTotal with Some z => z | None => 0%Z end = total (on_node n) L;
  v_type : forall n ty, match fld s n (FType ty) with Some z => z | None => 0%Z end =
             total (fun r => on_node n r && of_type ty r) L;
  v_field : forall r, In r L -> exists z, fld s (r_node r) (FType (r_ty r)) = Some z;
  v_node : forall r, In r L -> exists ep, ninfo s (r_node r) = Some ep;
  v_weight : forall n ep, ninfo s n = Some ep -> exists z, fld s n FTotal = Some z }.
Definition set_ok (s : store) : Prop := forall ty, NoDup (members s ty).

Lemma cview_consistent s L : cview s L -> set_ok s -> consistent s L.
Proof. intros [A B C D E F G H] K. constructor; auto. Qed.
Lemma consistent_cview s L : consistent s L -> cview s L.
Proof. intros [A B C K D E F G H]. constructor; auto. Qed.
Lemma cview_veq s t L : veq s t -> cview s L -> cview t L.
Proof.
  intros (V1 & V2 & V3 & V4) [A B C D E F G H]. constructor; auto; intros.
  - rewrite <- V1. auto.
  - rewrite <- V2. auto.
  - rewrite <- V4. auto.
  - rewrite <- V4. auto.
  - rewrite <- V4. auto.
  - rewrite <- V3. auto.
  - rewrite <- V3 in H0. rewrite <- V4. eauto.
Qed.
Lemma set_ok_apply s c : set_ok s -> set_ok (apply s c).
Proof.
  intros H ty. destruct c; try exact (H ty); cbn [apply]; rewrite members_aset;
  destruct (String.eqb ty ty0); auto; [apply nodup_sadd|apply nodup_srem]; auto.
Qed.
Lemma set_ok_apply_all cs : forall s, set_ok s -> set_ok (apply_all s cs).
Proof. induction cs as [|c cs IH]; intros s H; [exact H|]. cbn. apply IH, set_ok_apply, H. Qed.

Lemma total_app p a b : total p (a ++ b) = (total p a + total p b)%Z.
Proof. induction a; cbn; lia. Qed.

Lemma nodup_id_eq L r q : NoDup (map r_id L) -> In r L -> In q L -> r_id r = r_id q -> r = q.
Proof.
  induction L as [|x L IH]; cbn; [tauto|]. intros H Hr Hq E. apply NoDup_cons_iff in H as [H1 H2].
  destruct Hr as [->|Hr], Hq as [->|Hq]; auto.
  - exfalso. apply H1. rewrite E. now apply in_map.
  - exfalso. apply H1. rewrite <- E. now apply in_map.
Qed.
Lemma filter_map_nodup (f : reg -> bool) L : NoDup (map r_id L) -> NoDup (map r_id (filter f L)).
Proof.
  induction L as [|x L IH]; cbn; [auto|]. intros H. apply NoDup_cons_iff in H as [H1 H2].
  destruct (f x); cbn; auto. constructor; auto. intros Hin. apply H1.
  apply in_map_iff in Hin as (y & E & Hy). apply filter_In in Hy as [Hy _]. rewrite <- E. now apply in_map.
Qed.
Lemma total_remove p L r : NoDup (map r_id L) -> In r L ->
  total p (filter (fun x => negb (String.eqb (r_id x) (r_id r))) L) =
  (total p L - (if p r then r_w r else 0))%Z.
Proof.
  induction L as [|x L IH]; cbn; [tauto|]. intros H Hr. apply NoDup_cons_iff in H as [H1 H2].
  destruct Hr as [->|Hr].
  - rewrite String.eqb_refl. cbn.
    assert (E : filter (fun y => negb (String.eqb (r_id y) (r_id r))) L = L).
    { clear -H1. induction L as [|y L IH]; cbn in *; [auto|].
      destruct (String.eqb_spec (r_id y) (r_id r)) as [E|E]; [exfalso; apply H1; left; auto|].
      cbn. f_equal. apply IH. intros Hin. apply H1. now right. }
    rewrite E. lia.
  - destruct (String.eqb_spec (r_id x) (r_id r)) as [E|E]; cbn.
    + exfalso. apply H1. rewrite E. now apply in_map.
    + rewrite (IH H2 Hr). lia.
Qed.
Lemma total_filter_nodes p L n m : m <> n -> (forall r, p r = true -> r_node r = m) ->
  total p (filter (fun x => negb (String.eqb (r_node x) n)) L) = total p L.
Proof.
  intros Hm Hp. induction L as [|x L IH]; cbn; [auto|].
  destruct (String.eqb_spec (r_node x) n) as [E|E]; cbn; [|now rewrite IH].
  destruct (p x) eqn:Ep; [|lia]. apply Hp in Ep. congruence.
Qed.
Lemma total_filter_node0 p L n : (forall r, p r = true -> r_node r = n) ->
  total p (filter (fun x => negb (String.eqb (r_node x) n)) L) = 0%Z.
Proof.
  intros Hp. induction L as [|x L IH]; cbn; [auto|].
  destruct (String.eqb_spec (r_node x) n) as [E|E]; cbn; [exact IH|].
  destruct (p x) eqn:Ep; [|lia]. apply Hp in Ep. congruence.
Qed.

(** ** Register *)
Lemma cview_reg s L n ep ty id w : cview s L -> (forall r, In r L -> r_id r <> id) ->
  cview (apply_all s (reg_cmds n ep ty id w)) (L ++ [mkReg n ep ty id w]).
Proof.
  intros [A B C D E F G H] Hid. unfold apply_all, reg_cmds. cbn [fold_left]. constructor.
  - rewrite map_app. cbn. apply Permutation_NoDup with (id :: map r_id L); [apply Permutation_cons_append|].
    constructor; auto. intros Hin. apply in_map_iff in Hin as (r & E1 & Hr). eapply Hid; eauto.
  - intros i a. rewrite !rec_apply. split.
    + destruct (String.eqb_spec i id) as [->|Hi].
      * intros [= <-]. exists (mkReg n ep ty id w). rewrite in_app_iff. cbn. auto.
      * intros Hr. apply B in Hr as (r & R1 & R2 & R3). exists r. rewrite in_app_iff. auto.
    + intros (r & R1 & R2 & ->). apply in_app_or in R1 as [R1|[<-|[]]].
      * destruct (String.eqb_spec i id) as [->|Hi]; [exfalso; eapply Hid; eauto|]. apply B. eauto.
      * cbn in R2. subst i. rewrite String.eqb_refl. reflexivity.
  - intros t a. rewrite !mem_apply. rewrite C. split.
    + intros [[-> ->]|(r & R1 & R2 & R3)].
      * exists (mkReg n ep ty id w). rewrite in_app_iff. cbn. auto.
      * exists r. rewrite in_app_iff. auto.
    + intros (r & R1 & R2 & ->). apply in_app_or in R1 as [R1|[<-|[]]]; [right; eauto|left]. cbn in R2. auto.
  - intros m. rewrite total_app, <- D. rewrite !fld_apply. cbn. unfold on_node. cbn.
    rewrite ?fld_apply. rewrite (String.eqb_sym n m). destruct (String.eqb_spec m n) as [->|Hm]; cbn; [|lia].
    rewrite !andb_false_r. cbn. lia.
  - intros m t. rewrite total_app, <- E. rewrite !fld_apply. cbn. unfold on_node, of_type. cbn.
    rewrite ?fld_apply, andb_false_r, (String.eqb_sym n m), (String.eqb_sym ty t).
    destruct (String.eqb_spec m n) as [->|Hm]; cbn; [|lia].
    destruct (String.eqb_spec t ty) as [->|Ht]; cbn; lia.
  - intros r Hr. rewrite !fld_apply. rewrite andb_false_r.
    destruct (String.eqb (r_node r) n && field_eqb (FType (r_ty r)) (FType ty)) eqn:Eb; [eauto|].
    apply in_app_or in Hr as [Hr|[<-|[]]]; [auto|]. cbn in Eb. rewrite !String.eqb_refl in Eb. discriminate.
  - intros r Hr. rewrite !ninfo_apply. destruct (String.eqb_spec (r_node r) n) as [E1|E1]; [eauto|].
    apply in_app_or in Hr as [Hr|[<-|[]]]; [auto|]. cbn in E1. congruence.
  - intros m e. rewrite !ninfo_apply, !fld_apply. cbn [field_eqb]. rewrite andb_false_r, andb_true_r.
    destruct (String.eqb_spec m n) as [->|Hm]; [eauto|]. apply H.
Qed.

(** ** Unregister by the owner *)
Lemma cview_unreg s L r : cview s L -> In r L ->
  cview (apply_all s (unreg_cmds (r_node r) (r_id r) (addr_of r) (r_w r)))
        (filter (fun x => negb (String.eqb (r_id x) (r_id r))) L).
Proof.
  intros [A B C D E F G H] Hr. unfold apply_all, unreg_cmds. cbn [fold_left].
  assert (Hin : forall q, In q (filter (fun x => negb (String.eqb (r_id x) (r_id r))) L) <-> In q L /\ r_id q <> r_id r).
  { intros q. rewrite filter_In. destruct (String.eqb_spec (r_id q) (r_id r)); cbn; intuition; discriminate. }
  constructor.
  - now apply filter_map_nodup.
  - intros i a. rewrite !rec_apply. split.
    + destruct (String.eqb_spec i (r_id r)) as [->|Hi]; [discriminate|].
      intros Hq. apply B in Hq as (q & Q1 & Q2 & Q3). exists q. rewrite Hin. intuition congruence.
    + intros (q & Q1 & Q2 & ->). apply Hin in Q1 as [Q1 Q4].
      destruct (String.eqb_spec i (r_id r)); [congruence|]. apply B. eauto.
  - intros t a. rewrite !mem_apply, C. split.
    + intros [(q & Q1 & Q2 & Q3) Hn]. exists q. rewrite Hin. split; [|auto]. split; [exact Q1|].
      intros Eq. apply Hn. rewrite (nodup_id_eq _ _ _ A Q1 Hr Eq) in *. auto.
    + intros (q & Q1 & Q2 & ->). apply Hin in Q1 as [Q1 Q4]. split; [eauto|].
      intros [_ Eq]. apply Q4. unfold addr_of in Eq. congruence.
  - intros m. rewrite total_remove by assumption. rewrite <- D, !fld_apply. cbn. rewrite ?fld_apply, andb_true_r.
    rewrite !andb_false_r. unfold on_node. rewrite (String.eqb_sym (r_node r) m).
    destruct (String.eqb_spec m (r_node r)) as [->|Hm]; lia.
  - intros m t. rewrite total_remove by assumption. rewrite <- E, !fld_apply. cbn. rewrite ?fld_apply, andb_false_r.
    unfold on_node, of_type. rewrite (String.eqb_sym (r_node r) m), (String.eqb_sym (r_ty r) t).
    destruct (String.eqb_spec m (r_node r)) as [->|Hm]; cbn; [|lia].
    destruct (String.eqb_spec t (r_ty r)) as [->|Ht]; cbn; lia.
  - intros q Hq. apply Hin in Hq as [Hq _]. rewrite !fld_apply. rewrite andb_false_r.
    match goal with |- context [if ?b then _ else _] => destruct b end; eauto.
  - intros q Hq. apply Hin in Hq as [Hq _]. rewrite !ninfo_apply. auto.
  - intros m e. rewrite !ninfo_apply, !fld_apply. rewrite andb_true_r, andb_false_r.
    destruct (String.eqb_spec m (r_node r)) as [->|Hm]; [eauto|]. apply H.
Qed.

(** ** Clear *)
Definition is_removal (c : cmd) : bool :=
  match c with SRemTy _ _ | HDelId _ => true | _ => false end.
Lemma removal_rec cs : forall s id, forallb is_removal cs = true ->
  rec (apply_all s cs) id = if existsb (fun c => match c with HDelId i => String.eqb id i | _ => false end) cs
                            then None else rec s id.
Proof.
  induction cs as [|c cs IH]; intros s id H; [reflexivity|]. cbn in H. apply andb_true_iff in H as [Hc H].
  cbn. fold (apply_all (apply s c) cs). rewrite IH, rec_apply by exact H. destruct c; try discriminate; cbn; [|reflexivity].
  destruct (String.eqb id id0); [|reflexivity]. now destruct (existsb _ cs).
Qed.
Lemma removal_mem cs : forall s ty a, forallb is_removal cs = true ->
  (mem (apply_all s cs) ty a <-> mem s ty a /\ ~ In (SRemTy ty a) cs).
Proof.
  induction cs as [|c cs IH]; intros s ty a H; [cbn; tauto|]. cbn in H. apply andb_true_iff in H as [Hc H].
  cbn. fold (apply_all (apply s c) cs). rewrite IH, mem_apply by exact H. destruct c; try discriminate; cbn.
  - intuition congruence.
  - split.
    + intros [[A B] C]. split; [exact A|]. intros [D|D]; [|tauto]. apply B. split; congruence.
    + intros [A B]. split; [split; [exact A|]|]; [intros [-> ->]; apply B; auto|intros C; apply B; auto].
Qed.
Lemma removal_rest cs : forall s, forallb is_removal cs = true ->
  (forall n, ninfo (apply_all s cs) n = ninfo s n) /\ (forall n f, fld (apply_all s cs) n f = fld s n f).
Proof.
  induction cs as [|c cs IH]; intros s H; [auto|]. cbn in H. apply andb_true_iff in H as [Hc H].
  cbn. fold (apply_all (apply s c) cs). destruct (IH (apply s c) H) as [A B].
  split; intros; [rewrite A, ninfo_apply|rewrite B, fld_apply]; destruct c; auto; discriminate.
Qed.

Definition clear_removals (n : string) (s : store) : list cmd :=
  flat_map (fun p => match fst p with FTotal => [] | FType ty => clear_members n s ty end) (fields s n).
Lemma clear_removals_in n s c : In c (clear_removals n s) <->
  exists ty z a, In (FType ty, z) (fields s n) /\ mem s ty a /\ a_node a = n /\
    (c = SRemTy ty a \/ c = HDelId (a_id a)).
Proof.
  unfold clear_removals, clear_members. rewrite in_flat_map. split.
  - intros ([[|ty] z] & H1 & H2); cbn in H2; [contradiction|].
    apply in_flat_map in H2 as (a & H3 & H4). destruct (String.eqb_spec (a_node a) n); [|contradiction].
    exists ty, z, a. destruct H4 as [<-|[<-|[]]]; auto 6.
  - intros (ty & z & a & H1 & H2 & H3 & H4). exists (FType ty, z). split; [exact H1|]. cbn.
    apply in_flat_map. exists a. split; [exact H2|]. rewrite H3, String.eqb_refl. cbn. intuition.
Qed.
Lemma clear_is_removal n s : forallb is_removal (clear_removals n s) = true.
Proof.
  apply forallb_forall. intros c H. apply clear_removals_in in H as (ty & z & a & _ & _ & _ & [->| ->]); reflexivity.
Qed.
Lemma apply_all_app s a b : apply_all s (a ++ b) = apply_all (apply_all s a) b.
Proof. apply fold_left_app. Qed.

(** [s0] is the store read, [s] the one to which the commands are applied. *)
Lemma cview_clear s0 s L n : cview s L ->
  (forall ty a, a_node a = n -> (mem s0 ty a <-> mem s ty a)) -> (forall f, fld s0 n f = fld s n f) ->
  cview (apply_all s (clear_cmds n s0)) (filter (fun r => negb (String.eqb (r_node r) n)) L).
Proof.
  intros [A B C D E F G H] Hm Hf. unfold clear_cmds. fold (clear_removals n s0). rewrite apply_all_app.
  set (cs := clear_removals n s0). pose proof (clear_is_removal n s0) as Hcs. fold cs in Hcs.
  set (s1 := apply_all s cs). destruct (removal_rest cs s Hcs) as [N1 F1]. fold s1 in N1, F1.
  unfold apply_all. cbn [fold_left].
  assert (Hin : forall q, In q (filter (fun x => negb (String.eqb (r_node x) n)) L) <-> In q L /\ r_node q <> n).
  { intros q. rewrite filter_In. destruct (String.eqb_spec (r_node q) n); cbn; intuition; discriminate. }
  assert (Hdel : forall r, In r L -> r_node r = n -> In (SRemTy (r_ty r) (addr_of r)) cs /\ In (HDelId (r_id r)) cs).
  { intros r Hr Hn. destruct (F r Hr) as [z Hz]. rewrite Hn, <- Hf in Hz. unfold fld in Hz. apply fget_in in Hz.
    assert (Hmm : mem s0 (r_ty r) (addr_of r)) by (apply Hm; [exact Hn|]; apply C; eauto).
    split; apply clear_removals_in; exists (r_ty r), z, (addr_of r); auto. }
  assert (Hdel2 : forall c, In c cs -> exists r, In r L /\ r_node r = n /\ (c = SRemTy (r_ty r) (addr_of r) \/ c = HDelId (r_id r))).
  { intros c Hc. apply clear_removals_in in Hc as (ty & z & a & _ & H2 & H3 & H4). apply Hm in H2; [|exact H3].
    apply C in H2 as (r & R1 & R2 & R3). exists r. subst a. cbn in H3. split; [exact R1|]. split; [exact H3|].
    rewrite R2. destruct H4 as [->| ->]; auto. }
  constructor.
  - now apply filter_map_nodup.
  - intros id a. rewrite !rec_apply. unfold s1. rewrite removal_rec by exact Hcs. split.
    + destruct (existsb _ cs) eqn:Ex; [discriminate|]. intros Hq. apply B in Hq as (q & Q1 & Q2 & Q3).
      exists q. rewrite Hin. split; [|auto]. split; [exact Q1|]. intros Hn.
      destruct (Hdel q Q1 Hn) as [_ Hd]. rewrite Q2 in Hd.
      assert (Et : existsb (fun c => match c with HDelId i => String.eqb id i | _ => false end) cs = true).
      { apply existsb_exists. exists (HDelId id). split; [exact Hd|]. apply String.eqb_refl. }
      congruence.
    + intros (q & Q1 & Q2 & ->). apply Hin in Q1 as [Q1 Q4].
      destruct (existsb _ cs) eqn:Ex.
      * exfalso. apply existsb_exists in Ex as (c & Hc & Hi). destruct (Hdel2 c Hc) as (r & R1 & R2 & [->| ->]); [discriminate|].
        apply String.eqb_eq in Hi. rewrite <- Q2 in Hi. rewrite (nodup_id_eq _ _ _ A Q1 R1 Hi) in Q4. contradiction.
      * apply B. eauto.
  - intros ty a. rewrite !mem_apply. unfold s1. rewrite removal_mem by exact Hcs. rewrite C. split.
    + intros [(q & Q1 & Q2 & Q3) Hn]. exists q. rewrite Hin. split; [|auto]. split; [exact Q1|].
      intros Eq. apply Hn. destruct (Hdel q Q1 Eq) as [Hd _]. now rewrite Q2, <- Q3 in Hd.
    + intros (q & Q1 & Q2 & ->). apply Hin in Q1 as [Q1 Q4]. split; [eauto|].
      intros Hc. destruct (Hdel2 _ Hc) as (r & R1 & R2 & [E1|E1]); [|discriminate].
      injection E1 as _ E1 _ _ _. congruence.
  - intros m. rewrite !fld_apply. rewrite F1. destruct (String.eqb_spec m n) as [->|Hmn].
    + symmetry. apply total_filter_node0. intros r. apply String.eqb_eq.
    + rewrite (total_filter_nodes _ _ n m); auto. intros r. apply String.eqb_eq.
  - intros m ty. rewrite !fld_apply. rewrite F1. destruct (String.eqb_spec m n) as [->|Hmn].
    + symmetry. apply total_filter_node0. intros r Hp. apply andb_true_iff in Hp as [Hp _]. now apply String.eqb_eq.
    + rewrite (total_filter_nodes _ _ n m); auto. intros r Hp. apply andb_true_iff in Hp as [Hp _]. now apply String.eqb_eq.
  - intros r Hr. apply Hin in Hr as [Hr Hn]. rewrite !fld_apply, F1.
    destruct (String.eqb_spec (r_node r) n); [contradiction|auto].
  - intros r Hr. apply Hin in Hr as [Hr Hn]. rewrite !ninfo_apply, N1.
    destruct (String.eqb_spec (r_node r) n); [contradiction|auto].
  - intros m ep. rewrite !ninfo_apply, !fld_apply, N1, F1.
    destruct (String.eqb_spec m n); [discriminate|]. apply H.
Qed.
