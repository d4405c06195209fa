(** Proofs of the remaining address-book properties. *)
From Coq Require Import List String ZArith Bool Permutation Lia.
From Verif Require Import Machine AddrModel AddrSpec AddrProofs AddrInv AddrRun.
Import ListNotations.
Open Scope string_scope.
Open Scope list_scope.

Lemma orderly_is_run sched s L evs : orun sched = Some ((s, L), evs) -> run step init sched = Some (s, evs).
Proof.
  unfold orun. change init with (fst (init, @nil reg)) at 2. generalize (init, @nil reg) as x.
  change s with (fst (s, L)) at 2. generalize (s, L) as y. clear s L. revert evs.
  induction sched as [|l sched IH]; intros evs y x H; cbn [run] in *.
  - injection H as <- <-. reflexivity.
  - destruct x as [s0 L0]. cbn [fst]. unfold ostep at 1 in H. destruct (in_order L0 s0 l); [|discriminate].
    destruct (step s0 l) as [[s1 e1]|]; [|discriminate].
    destruct (run ostep (s1, fold_left after e1 L0) sched) as [[z f]|] eqn:E; [|discriminate].
    injection H as <- <-. apply IH in E. cbn [fst] in E. now rewrite E.
Qed.

(** ** Counting *)
Lemma addr_of_inj L : NoDup (map r_id L) -> forall r q, In r L -> In q L -> addr_of r = addr_of q -> r = q.
Proof. intros H r q Hr Hq E. eapply nodup_id_eq; eauto. unfold addr_of in E. congruence. Qed.
Lemma nodup_map_inj {A B} (f : A -> B) l : (forall x y, In x l -> In y l -> f x = f y -> x = y) -> NoDup l -> NoDup (map f l).
Proof.
  induction l as [|a l IH]; intros Hf H; cbn; [constructor|]. apply NoDup_cons_iff in H as [H1 H2]. constructor.
  - intros Hin. apply in_map_iff in Hin as (b & E & Hb). rewrite (Hf b a) in Hb; auto; [now right|now left].
  - apply IH; auto. intros x y Hx Hy. apply Hf; now right.
Qed.
Lemma type_count s L ty : consistent s L -> GetActorTypeCount s ty = List.length (filter (of_type ty) L).
Proof.
  intros H. unfold GetActorTypeCount. rewrite <- (map_length addr_of). apply Permutation_length.
  apply NoDup_Permutation.
  - apply (c_set _ _ H).
  - apply nodup_map_inj.
    + intros x y Hx Hy. apply filter_In in Hx as [Hx _]. apply filter_In in Hy as [Hy _].
      now apply (addr_of_inj L (c_unique _ _ H)).
    + apply NoDup_filter. pose proof (c_unique _ _ H) as Hu. clear -Hu.
      induction L as [|r L IH]; [constructor|]. cbn in Hu. apply NoDup_cons_iff in Hu as [H1 H2].
      constructor; auto. intros Hin. apply H1. now apply in_map.
  - intros a. rewrite (c_member _ _ H), in_map_iff. split.
    + intros (r & R1 & R2 & ->). exists r. rewrite filter_In. unfold of_type. rewrite R2, String.eqb_refl. auto.
    + intros (r & <- & R). apply filter_In in R as [R1 R2]. apply String.eqb_eq in R2. eauto.
Qed.
Lemma by_type s L ty : consistent s L -> exists l, GetByType s ty = Ok l /\
  forall a, In a l <-> exists r, In r L /\ r_ty r = ty /\ a = addr_of r.
Proof. intros H. exists (members s ty). split; [reflexivity|]. apply (c_member _ _ H). Qed.

(** ** C39 *)
Lemma unreg_stored s n id a w m f : stored (apply_all s (unreg_cmds n id a w)) m f =
  (stored s m f + if String.eqb m n && (field_eqb f FTotal || field_eqb f (FType (a_ty a))) then - w else 0)%Z.
Proof.
  unfold stored. change (fget f (fields ?x m)) with (fld x m f).
  unfold apply_all, unreg_cmds. cbn [fold_left]. rewrite !fld_apply.
  destruct (String.eqb_spec m n) as [->|Hm]; cbn [andb].
  - rewrite String.eqb_refl. cbn. destruct f as [|t]; cbn; rewrite ?fld_apply, ?andb_false_r; cbn.
    + lia.
    + destruct (String.eqb_spec t (a_ty a)) as [->|Ht]; cbn; [|lia]. lia.
  - unfold fld. cbn. lia.
Qed.

(** ** C40: prefixes *)
Lemma mhr_view s : members_have_records s <-> (forall ty a, mem s ty a -> rec s (a_id a) = Some a).
Proof. unfold members_have_records, mem, rec. tauto. Qed.

Lemma consistent_mhr s L : cview s L -> members_have_records s.
Proof.
  intros H. apply mhr_view. intros ty a Hm. apply (v_member _ _ H) in Hm as (r & R1 & R2 & ->).
  apply (v_record _ _ H). eauto.
Qed.

Ltac prefixes k := destruct k as [|[|[|[|[|k]]]]]; cbn [firstn reg_cmds unreg_cmds]; rewrite ?firstn_nil; unfold apply_all; cbn [fold_left].

Lemma register_crash_records s L n ep ty id w k : consistent s L -> (forall r, In r L -> r_id r <> id) ->
  members_have_records (apply_all s (firstn k (reg_cmds n ep ty id w))).
Proof.
  intros H Hid. apply consistent_cview in H. apply mhr_view. intros t a.
  assert (Hbase : forall t a, mem s t a -> rec s (a_id a) = Some a /\ a_id a <> id).
  { intros t0 b Hm. apply (v_member _ _ H) in Hm as (r & R1 & R2 & ->). split; [apply (v_record _ _ H); eauto|].
    cbn. now apply Hid. }
  assert (Hfin : forall t a, (t = ty /\ a = mkAddr n id ty ep) \/ mem s t a ->
    (if String.eqb (a_id a) id then Some (mkAddr n id ty ep) else rec s (a_id a)) = Some a).
  { intros t0 b [[_ ->]|Hm]; [cbn; now rewrite String.eqb_refl|]. destruct (Hbase _ _ Hm) as [A B].
    destruct (String.eqb_spec (a_id b) id); [contradiction|exact A]. }
  prefixes k; rewrite ?mem_apply, ?rec_apply; intros Hm; try (now apply (Hbase t a)); apply Hfin with t; tauto.
Qed.

Lemma register_crash_weight s L n ep ty id w k m : consistent s L ->
  stored (apply_all s (firstn k (reg_cmds n ep ty id w))) m FTotal =
  (total (on_node m) L + if String.eqb m n && Nat.leb 5 k then w else 0)%Z.
Proof.
  intros H. rewrite <- (c_total _ _ H). unfold stored. change (fget FTotal (fields ?x m)) with (fld x m FTotal).
  prefixes k; rewrite ?fld_apply; cbn; rewrite ?andb_false_r; try lia.
  rewrite andb_true_r. rewrite ?fld_apply. cbn. rewrite ?andb_false_r, ?andb_true_r.
  destruct (String.eqb_spec m n) as [->|]; [|lia]. unfold fld. lia.
Qed.

(** Totals of selected registrations. *)
Lemma total_le p q L : (forall r, In r L -> p r = true -> q r = true) -> (forall r, In r L -> (0 <= r_w r)%Z) ->
  (total p L <= total q L)%Z.
Proof.
  induction L as [|r L IH]; intros H Hw; cbn; [lia|].
  specialize (IH (fun x Hx => H x (or_intror Hx)) (fun x Hx => Hw x (or_intror Hx))).
  pose proof (Hw r (or_introl eq_refl)). pose proof (H r (or_introl eq_refl)).
  destruct (p r); [rewrite H1 by reflexivity; lia|]. destruct (q r); lia.
Qed.
Lemma total_ext p q L : (forall r, In r L -> p r = q r) -> total p L = total q L.
Proof.
  induction L as [|r L IH]; intros H; cbn; [reflexivity|]. rewrite (H r (or_introl eq_refl)).
  rewrite IH; [reflexivity|]. intros x Hx. apply H. now right.
Qed.

Lemma unregister_crash_charged s L r k : consistent s L -> In r L -> (forall q, In q L -> (0 <= r_w q)%Z) ->
  not_undercharged (apply_all s (firstn k (unreg_cmds (r_node r) (r_id r) (addr_of r) (r_w r)))) L.
Proof.
  intros H Hr Hw n. pose proof (consistent_cview _ _ H) as Hv.
  set (cs := unreg_cmds (r_node r) (r_id r) (addr_of r) (r_w r)).
  assert (Hkeep : forall p, (total (fun q => on_node n q && p q) L <= total (on_node n) L)%Z).
  { intros p. apply total_le; auto. intros q _ E. now apply andb_true_iff in E as [E _]. }
  destruct (Nat.leb_spec 4 k) as [Hk|Hk].
  - assert (E : firstn k cs = cs).
    { apply firstn_all2. cbn. lia. }
    rewrite E. pose proof (cview_unreg _ _ _ Hv Hr) as Hu. fold cs in Hu.
    unfold stored. change (fget FTotal (fields ?x n)) with (fld x n FTotal). rewrite (v_total _ _ Hu).
    rewrite total_remove by (try apply (c_unique _ _ H); exact Hr).
    rewrite <- (total_remove (on_node n) L r (c_unique _ _ H) Hr).
    set (p := fun q => on_node n q && _).
    assert (Ef : total p L = total p (filter (fun x => negb (String.eqb (r_id x) (r_id r))) L)).
    { rewrite (total_remove p L r (c_unique _ _ H) Hr). unfold p at 3.
      change (aget (r_id r) (ids ?x)) with (rec x (r_id r)).
      unfold cs, apply_all, unreg_cmds. cbn [fold_left]. rewrite !rec_apply, String.eqb_refl, andb_false_r. lia. }
    rewrite Ef. apply total_le.
    + intros q _ Hq. unfold p in Hq. now apply andb_true_iff in Hq as [Hq _].
    + intros q Hq. apply filter_In in Hq as [Hq _]. auto.
  - assert (E : stored (apply_all s (firstn k cs)) n FTotal = total (on_node n) L).
    { rewrite <- (c_total _ _ H). unfold stored. change (fget FTotal (fields ?x n)) with (fld x n FTotal).
      unfold cs. destruct k as [|[|[|[|k]]]]; cbn [firstn unreg_cmds]; rewrite ?firstn_nil; unfold apply_all; cbn [fold_left];
        rewrite ?fld_apply; cbn; rewrite ?andb_false_r; try reflexivity. lia. }
    rewrite E. apply Hkeep.
Qed.

(** ** C41 *)
Lemma in_idmap_add id l x : existsb (String.eqb x) (idmap_add id l) = (String.eqb x id || existsb (String.eqb x) l).
Proof.
  unfold idmap_add. destruct (existsb (String.eqb id) l) eqn:E.
  - destruct (String.eqb_spec x id) as [->|]; [now rewrite E|reflexivity].
  - rewrite existsb_app. cbn. rewrite orb_false_r. apply orb_comm.
Qed.
Lemma in_idmap_del id l x : existsb (String.eqb x) (idmap_del id l) = (negb (String.eqb x id) && existsb (String.eqb x) l).
Proof.
  unfold idmap_del. induction l as [|y l IH]; cbn; [now rewrite andb_false_r|].
  destruct (String.eqb_spec id y) as [->|Hy]; cbn.
  - rewrite IH. destruct (String.eqb_spec x y) ; cbn; reflexivity.
  - rewrite IH. destruct (String.eqb_spec x y) as [E|]; cbn; [|reflexivity].
    subst x. destruct (String.eqb_spec y id); [congruence|reflexivity].
Qed.

Lemma idmap_holds sched s evs : run step init sched = Some (s, evs) ->
  forall n p id, aget n (procs s) = Some p -> existsb (String.eqb id) (p_ids p) = holds n id evs.
Proof.
  revert sched s evs. apply (run_inv step init (fun _ evs s => forall n p id, aget n (procs s) = Some p ->
    existsb (String.eqb id) (p_ids p) = holds n id evs)).
  - discriminate.
  - intros sched evs s l s' e _ IH H n p id Hp. unfold holds. rewrite fold_left_app. fold (holds n id evs).
    destruct l as [m ep|m|m ty i w|m i w|m|t|t|t]; cbn in H.
    + destruct (aget m (procs s)) eqn:Em; [discriminate|]. injection H as <- <-. cbn in Hp |- *.
      rewrite aget_aset in Hp. rewrite (String.eqb_sym m n). destruct (String.eqb_spec n m) as [->|Hn].
      * injection Hp as <-. reflexivity.
      * apply IH, Hp.
    + destruct (aget m (procs s)) eqn:Em; [|discriminate]. injection H as <- <-. cbn in Hp |- *.
      rewrite aget_adel in Hp. destruct (String.eqb n m); [discriminate|]. apply IH, Hp.
    + destruct (aget m (procs s)) eqn:Em; [|discriminate].
      match type of H with (if ?b then _ else _) = _ => destruct b end; injection H as <- <-; apply IH, Hp.
    + destruct (aget m (procs s)) eqn:Em; [|discriminate].
      destruct (String.eqb i ""); [injection H as <- <-; apply IH, Hp|].
      destruct (aget i (ids (st s))); injection H as <- <-; apply IH, Hp.
    + destruct (aget m (procs s)) eqn:Em; [|discriminate]. injection H as <- <-. apply IH, Hp.
    + destruct (nth_error (threads s) t) as [[m o [[|c r]|]]|]; try discriminate. injection H as <- <-. apply IH, Hp.
    + destruct (nth_error (threads s) t) as [[m o [r|]]|]; try discriminate. injection H as <- <-. apply IH, Hp.
    + destruct (nth_error (threads s) t) as [[m o [[|c r]|]]|]; try discriminate.
      destruct (aget m (procs s)) as [p0|] eqn:Em; [|discriminate]. injection H as <- <-. cbn in Hp |- *.
      rewrite aget_aset in Hp. rewrite (String.eqb_sym m n). destruct (String.eqb_spec n m) as [->|Hn].
      * injection Hp as <-. cbn. destruct o as [ty i w|i a w|]; cbn.
        -- rewrite in_idmap_add, (IH _ _ _ Em), (String.eqb_sym i id). now destruct (String.eqb id i).
        -- rewrite in_idmap_del, (IH _ _ _ Em), (String.eqb_sym i id). now destruct (String.eqb id i).
        -- apply IH, Em.
      * destruct o; cbn; apply IH, Hp.
Qed.

Lemma lookup sched s evs n p id : run step init sched = Some (s, evs) -> aget n (procs s) = Some p ->
  (id = "" -> GetByID n (p_ep p) (p_ids p) (st s) id = Err) /\
  (id <> "" -> holds n id evs = true -> GetByID n (p_ep p) (p_ids p) (st s) id = Ok (mkAddr n id "" (p_ep p))) /\
  (id <> "" -> holds n id evs = false -> forall a,
     GetByID n (p_ep p) (p_ids p) (st s) id = Ok a <-> aget id (ids (st s)) = Some a) /\
  (id <> "" -> holds n id evs = false ->
     GetByID n (p_ep p) (p_ids p) (st s) id = Err <-> aget id (ids (st s)) = None).
Proof.
  intros H Hp. unfold GetByID. rewrite (idmap_holds _ _ _ H _ _ _ Hp).
  destruct (String.eqb_spec id "") as [->|Hi].
  - repeat split; intros; auto; congruence.
  - split; [congruence|]. split; [intros _ ->; reflexivity|].
    split; intros _ ->; destruct (aget id (ids (st s))); split; congruence.
Qed.

(** ** C42 *)
Lemma lowest_spec s sample : forall best low,
  match lowest s sample best low with
  | (b, z) =>
    (z <= low)%Z /\
    (forall a w, In a sample -> node_weight s (a_node a) = Some w -> (z <= w)%Z) /\
    ((b = best /\ z = low) \/
     (exists a, b = Some a /\ In a sample /\ node_weight s (a_node a) = Some z /\ (z < low)%Z))
  end.
Proof.
  induction sample as [|x sample IH]; intros best low; cbn.
  - split; [lia|]. split; [intros a w []|auto].
  - fold (node_weight s (a_node x)). destruct (node_weight s (a_node x)) as [w|] eqn:Ew.
    + destruct (Z.ltb_spec w low) as [Hlt|Hge].
      * specialize (IH (Some x) w). destruct (lowest s sample (Some x) w) as [b z]. destruct IH as (A & B & C).
        split; [lia|]. split.
        -- intros a v [<-|Hin] Hv; [congruence|]. eapply B; eauto.
        -- right. destruct C as [[-> ->]|(a & -> & C1 & C2 & C3)].
           ++ exists x. auto.
           ++ exists a. repeat split; auto. lia.
      * specialize (IH best low). destruct (lowest s sample best low) as [b z]. destruct IH as (A & B & C).
        split; [exact A|]. split.
        -- intros a v [<-|Hin] Hv; [|eapply B; eauto]. assert (v = w) by congruence. lia.
        -- destruct C as [C|(a & -> & C1 & C2 & C3)]; [left; exact C|right]. exists a. auto.
    + specialize (IH best low). destruct (lowest s sample best low) as [b z]. destruct IH as (A & B & C).
      split; [exact A|]. split.
      * intros a v [<-|Hin] Hv; [congruence|]. eapply B; eauto.
      * destruct C as [C|(a & -> & C1 & C2 & C3)]; [left; exact C|right]. exists a. auto.
Qed.

Lemma wildcard_least s sample a : GetWildcardActor s sample = Ok a ->
  In a sample /\ exists w, node_weight s (a_node a) = Some w /\
    forall b v, In b sample -> node_weight s (a_node b) = Some v -> (w <= v)%Z.
Proof.
  unfold GetWildcardActor. destruct sample as [|x r]; [discriminate|]. set (sample := x :: r).
  pose proof (lowest_spec s sample None max_int) as H. destruct (lowest s sample None max_int) as [[b|] z]; [|discriminate].
  destruct (z =? max_int)%Z; [discriminate|]. intros [= ->]. destruct H as (A & B & C).
  destruct C as [[C _]|(c & C0 & C1 & C2 & C3)]; [discriminate|]. injection C0 as <-. split; [exact C1|].
  exists z. split; [exact C2|exact B].
Qed.
Lemma wildcard_err s sample : GetWildcardActor s sample = Err <->
  (forall b v, In b sample -> node_weight s (a_node b) = Some v -> (max_int <= v)%Z).
Proof.
  unfold GetWildcardActor. destruct sample as [|x r]; [split; [intros _ b v []|reflexivity]|]. set (sample := x :: r).
  pose proof (lowest_spec s sample None max_int) as H. destruct (lowest s sample None max_int) as [[b|] z] eqn:El;
  destruct H as (A & B & C).
  - destruct C as [[C _]|(c & C0 & C1 & C2 & C3)]; [discriminate|]. injection C0 as <-.
    destruct (Z.eqb_spec z max_int); [lia|]. split; [discriminate|]. intros H. specialize (H _ _ C1 C2). lia.
  - destruct C as [[_ ->]|(c & C0 & _)]; [|discriminate]. split; [|reflexivity]. intros _ d v. apply B.
Qed.
Lemma small_sample l sample : NoDup l -> sample_of l sample -> List.length l <= pick_limit -> forall a, In a l -> In a sample.
Proof.
  intros Hn (S1 & S2 & S3) Hle a Ha. rewrite Nat.min_r in S3 by exact Hle.
  refine (NoDup_length_incl S1 _ S2 a Ha). lia.
Qed.

(** ** C43 *)
Lemma weights_spec s ord ws : weights s ord = Some ws ->
  List.length ws = List.length ord /\ (forall i p w, nth_error ord i = Some p -> nth_error ws i = Some w -> node_weight s (fst p) = Some w).
Proof.
  revert ws. induction ord as [|[n e] ord IH]; intros ws H; cbn in H.
  - injection H as <-. split; [reflexivity|]. intros [|i] p w Hp; discriminate.
  - destruct (node_weight s n) as [w0|] eqn:Ew; [|discriminate]. destruct (weights s ord) as [ws0|]; [|discriminate].
    injection H as <-. destruct (IH _ eq_refl) as [L1 L2]. split; [cbn; now rewrite L1|].
    intros [|i] p w Hp Hw; cbn in Hp, Hw; [|eapply L2; eauto].
    injection Hp as <-. injection Hw as <-. exact Ew.
Qed.
Lemma lightest_spec ord : forall ws best low, List.length ws = List.length ord ->
  (exists z, (z <= low)%Z /\ (forall i w, nth_error ws i = Some w -> (z <= w)%Z) /\
   ((lightest ord ws best low = best /\ z = low) \/
    (exists i p, nth_error ord i = Some p /\ nth_error ws i = Some z /\ lightest ord ws best low = Some p /\ (z < low)%Z))).
Proof.
  induction ord as [|p ord IH]; intros [|w ws] best low Hl; cbn in Hl; try discriminate.
  - exists low. split; [lia|]. split; [intros [|i] w H; discriminate|]. left. auto.
  - cbn. injection Hl as Hl. destruct (Z.ltb_spec w low) as [Hlt|Hge].
    + destruct (IH ws (Some p) w Hl) as (z & A & B & C). exists z. split; [lia|]. split.
      * intros [|i] v Hv; cbn in Hv; [injection Hv as <-; lia|eapply B; eauto].
      * right. destruct C as [[C ->]|(i & q & C1 & C2 & C3 & C4)].
        -- exists 0, p. cbn. auto.
        -- exists (S i), q. cbn. repeat split; auto. lia.
    + destruct (IH ws best low Hl) as (z & A & B & C). exists z. split; [lia|]. split.
      * intros [|i] v Hv; cbn in Hv; [injection Hv as <-; lia|eapply B; eauto].
      * destruct C as [C|(i & q & C1 & C2 & C3 & C4)]; [left; exact C|right]. exists (S i), q. cbn. auto.
Qed.

Lemma lightest_in ord : forall ws best low p, lightest ord ws best low = Some p -> best = Some p \/ In p ord.
Proof.
  induction ord as [|q ord IH]; intros [|w ws] best low p H; cbn in H; auto.
  destruct (w <? low)%Z; apply IH in H as [H|H]; [injection H as <-| | |]; cbn; auto.
Qed.

Lemma low_weight_same_order s ord n ep : Permutation ord (nodes s) ->
  GetLowWeightNodeForActor s ord ord = Ok (n, ep) ->
  In (n, ep) (nodes s) /\ exists w, node_weight s n = Some w /\
    forall m e v, In (m, e) (nodes s) -> node_weight s m = Some v -> (w <= v)%Z.
Proof.
  intros HP H. unfold GetLowWeightNodeForActor in H. destruct (nodes s) as [|x r] eqn:En; [discriminate|]. rewrite <- En in *.
  destruct (weights s ord) as [ws|] eqn:Ew; [|discriminate]. destruct (weights_spec _ _ _ Ew) as [W1 W2].
  destruct (lightest_spec ord ws None max_int W1) as (z & A & B & C).
  destruct C as [[C _]|(i & p & C1 & C2 & C3 & C4)]; [rewrite C in H; discriminate|]. rewrite C3 in H.
  destruct p as [n0 ep0]. destruct (String.eqb n0 ""); [discriminate|]. injection H as <- <-.
  split; [eapply Permutation_in; [exact HP|]; eapply nth_error_In; eauto|].
  exists z. split; [apply (W2 _ _ _ C1 C2)|]. intros m e v Hm Hv.
  apply (Permutation_in _ (Permutation_sym HP)) in Hm. apply In_nth_error in Hm as [j Hj].
  destruct (nth_error ws j) as [w|] eqn:Ej.
  - pose proof (W2 _ _ _ Hj Ej) as E. cbn in E. assert (v = w) by congruence. subst. eapply B; eauto.
  - exfalso. apply nth_error_None in Ej. assert (j < List.length ord) by (apply nth_error_Some; congruence). lia.
Qed.
Lemma low_weight_registered s ord1 ord2 n ep : Permutation ord2 (nodes s) ->
  GetLowWeightNodeForActor s ord1 ord2 = Ok (n, ep) -> In (n, ep) (nodes s).
Proof.
  intros HP H. unfold GetLowWeightNodeForActor in H. destruct (nodes s) as [|x r] eqn:En; [discriminate|]. rewrite <- En in *.
  destruct (weights s ord1); [|discriminate]. destruct (lightest ord2 l None max_int) as [[n0 e0]|] eqn:El; [|discriminate].
  destruct (String.eqb n0 ""); [discriminate|]. injection H as <- <-.
  apply lightest_in in El as [El|El]; [discriminate|]. eapply Permutation_in; eauto.
Qed.
(** Its answer is right up to the order: the weight it saw is one of some node. *)

(** ** C44 *)
Lemma clear_exact s L n : consistent s L ->
  let s' := apply_all s (clear_cmds n s) in
  (forall ty a, In a (members s' ty) -> a_node a <> n) /\
  (forall id a, aget id (ids s') = Some a -> a_node a <> n) /\
  aget n (nodes s') = None /\ (forall f, fget f (fields s' n) = None) /\
  (forall ty a, a_node a <> n -> (In a (members s' ty) <-> In a (members s ty))) /\
  (forall id a, a_node a <> n -> (aget id (ids s') = Some a <-> aget id (ids s) = Some a)) /\
  (forall m, m <> n -> aget m (nodes s') = aget m (nodes s)) /\
  (forall m f, m <> n -> fget f (fields s' m) = fget f (fields s m)) /\
  consistent s' (filter (fun r => negb (String.eqb (r_node r) n)) L).
Proof.
  intros H s'. pose proof (consistent_cview _ _ H) as Hv.
  pose proof (cview_clear s s L n Hv ltac:(tauto) ltac:(reflexivity)) as Hc. fold s' in Hc.
  assert (Hset : set_ok s') by (apply set_ok_apply_all; intros ty; apply (c_set _ _ H)).
  assert (Hin : forall q, In q (filter (fun x => negb (String.eqb (r_node x) n)) L) <-> In q L /\ r_node q <> n).
  { intros q. rewrite filter_In. destruct (String.eqb_spec (r_node q) n); cbn; intuition; discriminate. }
  split; [|split; [|split; [|split; [|split; [|split; [|split; [|split]]]]]]].
  - intros ty a Ha. apply (v_member _ _ Hc) in Ha as (r & R1 & _ & ->). apply Hin in R1 as [_ R1]. exact R1.
  - intros id a Ha. apply (v_record _ _ Hc) in Ha as (r & R1 & _ & ->). apply Hin in R1 as [_ R1]. exact R1.
  - change (ninfo s' n = None). unfold s', clear_cmds. rewrite apply_all_app. unfold apply_all at 1. cbn [fold_left].
    rewrite !ninfo_apply, String.eqb_refl. reflexivity.
  - intros f. change (fld s' n f = None). unfold s', clear_cmds. rewrite apply_all_app. unfold apply_all at 1. cbn [fold_left].
    rewrite !fld_apply, String.eqb_refl. reflexivity.
  - intros ty a Hn. change (mem s' ty a <-> mem s ty a). rewrite (v_member _ _ Hc), (v_member _ _ Hv).
    split; intros (r & R1 & R2 & ->); exists r; [apply Hin in R1 as [R1 _]|]; repeat split; auto.
    apply Hin. auto.
  - intros id a Hn. change (rec s' id = Some a <-> rec s id = Some a). rewrite (v_record _ _ Hc), (v_record _ _ Hv).
    split; intros (r & R1 & R2 & ->); exists r; [apply Hin in R1 as [R1 _]|]; repeat split; auto.
    apply Hin. auto.
  - intros m Hm. change (ninfo s' m = ninfo s m). unfold s', clear_cmds. rewrite apply_all_app. unfold apply_all at 1. cbn [fold_left].
    rewrite !ninfo_apply. destruct (String.eqb_spec m n); [contradiction|].
    apply (proj1 (removal_rest _ s (clear_is_removal n s))).
  - intros m f Hm. change (fld s' m f = fld s m f). unfold s', clear_cmds. rewrite apply_all_app. unfold apply_all at 1. cbn [fold_left].
    rewrite !fld_apply. destruct (String.eqb_spec m n); [contradiction|].
    apply (proj2 (removal_rest _ s (clear_is_removal n s))).
  - now apply cview_consistent.
Qed.
