(** No process dies of a panic while calls about one id do not overlap on a node. *)
From Coq Require Import List String ZArith Bool Lia.
From Verif Require Import Machine AddrModel AddrSpec AddrProofs RegModel RegSpec RegProofs RegLive.
Import ListNotations.
Open Scope string_scope.
Open Scope list_scope.

Section Safe.
Variable factory : string -> option Z.
Definition runs (s : state) (k : nat) (n id : string) : Prop := exists ty, nth_error (insts s) k = Some (mkInst n id ty Running).
Definition leaving (c : call) (k : nat) : Prop := c_pc c = UWait k \/ c_pc c = UDel.
Record Inv5 (s : state) : Prop := {
  r_map : forall n id k, mp s n id = Some k -> runs s k n id \/
    exists t c, nth_error (calls s) t = Some c /\ c_node c = n /\ call_id c = id /\ leaving c k;
  r_ins : forall t c k, nth_error (calls s) t = Some c -> c_pc c = PInsert k -> runs s k (c_node c) (call_id c);
  r_ctor : forall t c b, nth_error (calls s) t = Some c -> c_kind c = CReg b -> b_ctor b = true }.

Lemma pres5 s s' t c p : Inv1 s -> Inv5 s -> nth_error (calls s) t = Some c -> active c = true ->
  calls s' = upd (calls s) t (mkCall (c_node c) (c_kind c) p) ->
  (forall n id, ~ (n = c_node c /\ id = call_id c) -> mp s' n id = mp s n id) ->
  (forall k n id, ~ (n = c_node c /\ id = call_id c) -> runs s k n id -> runs s' k n id) ->
  (forall k, mp s' (c_node c) (call_id c) = Some k -> runs s' k (c_node c) (call_id c) \/ leaving (mkCall (c_node c) (c_kind c) p) k) ->
  (forall k, p = PInsert k -> runs s' k (c_node c) (call_id c)) -> Inv5 s'.
Proof.
  intros H1 HI Hc Ha E1 Hmp Hr Hloc Hins.
  assert (Hnew : forall u d, nth_error (calls s') u = Some d ->
    (u = t /\ d = mkCall (c_node c) (c_kind c) p) \/ (u <> t /\ nth_error (calls s) u = Some d)).
  { intros u d Hu. rewrite E1 in Hu. eapply nth_upd_case; eauto. }
  constructor.
  - intros n id k Hk.
    assert (Hcase : (n = c_node c /\ id = call_id c) \/ ~ (n = c_node c /\ id = call_id c)).
    { destruct (string_dec n (c_node c)) as [->|]; [destruct (string_dec id (call_id c)) as [->|]|]; tauto. }
    destruct Hcase as [[-> ->]|Hne].
    + destruct (Hloc _ Hk) as [Hl|Hl]; [auto|]. right. exists t, (mkCall (c_node c) (c_kind c) p).
      rewrite E1. split; [eapply nth_upd_self; eauto|]. split; [reflexivity|]. split; [reflexivity|exact Hl].
    + rewrite Hmp in Hk by exact Hne. apply (r_map _ HI) in Hk as [Hk|(u & d & A & B & C & D)]; [left; auto|].
      right. exists u, d. assert (u <> t) by (intros ->; rewrite Hc in A; injection A as <-; subst; tauto).
      rewrite E1, nth_upd_neq by auto. auto.
  - intros u d k Hu Hp. apply Hnew in Hu as [[-> ->]|[Hne Hu]]; [exact (Hins k Hp)|].
    apply Hr; [|exact (r_ins _ HI _ _ _ Hu Hp)]. intros [A B]. apply Hne.
    apply (i_one _ H1 _ _ _ _ Hu Hc); auto. unfold active. now rewrite Hp.
  - intros u d b Hu Hk. apply Hnew in Hu as [[-> ->]|[Hne Hu]]; [exact (r_ctor _ HI _ _ _ Hc Hk)|exact (r_ctor _ HI _ _ _ Hu Hk)].
Qed.
Lemma pres5_mp s s' t c p : Inv1 s -> Inv5 s -> nth_error (calls s) t = Some c -> active c = true ->
  calls s' = upd (calls s) t (mkCall (c_node c) (c_kind c) p) -> (forall n id, mp s' n id = mp s n id) -> insts s' = insts s ->
  (forall k, ~ leaving c k) -> (forall k, p <> PInsert k) -> Inv5 s'.
Proof.
  intros H1 HI Hc Ha E1 Hmp E3 Hl Hp. apply (pres5 s s' t c p); auto.
  - intros k n id _. unfold runs. now rewrite E3.
  - intros k. rewrite Hmp. intros Hk. left. unfold runs. rewrite E3.
    destruct (r_map _ HI _ _ _ Hk) as [Hk'|(u & d & A & B & C & D)]; [exact Hk'|].
    assert (u = t). { apply (i_one _ H1 _ _ _ _ A Hc); auto. unfold active. destruct D as [-> | ->]; reflexivity. }
    subst u. rewrite Hc in A. injection A as <-. destruct (Hl k D).
  - intros k E. destruct (Hp k E).
Qed.
Lemma pres5_pc s s' t c p : Inv1 s -> Inv5 s -> nth_error (calls s) t = Some c -> active c = true ->
  calls s' = upd (calls s) t (mkCall (c_node c) (c_kind c) p) -> nds s' = nds s -> insts s' = insts s ->
  (forall k, ~ leaving c k) -> (forall k, p <> PInsert k) -> Inv5 s'.
Proof. intros H1 HI Hc Ha E1 E2 E3 Hl Hp. apply (pres5_mp s s' t c p); auto. intros; unfold mp; now rewrite E2. Qed.

Lemma inv5_die s n : Inv5 s -> Inv5 (die s n).
Proof.
  intros HI.
  assert (Hr : forall k m id, m <> n -> runs s k m id -> runs (die s n) k m id).
  { intros k m id Hm (ty & Hk). exists ty. cbn. rewrite nth_error_map, Hk. cbn. destruct (String.eqb_spec m n); [contradiction|reflexivity]. }
  constructor.
  - intros m id k Hk. unfold mp in Hk. cbn in Hk. rewrite aget_adel in Hk. destruct (String.eqb_spec m n) as [E|E]; [discriminate|].
    destruct (r_map _ HI m id k Hk) as [H|(t & c & A & B & C & D)]; [left; auto|]. right. exists t, c. split; [|auto].
    cbn. rewrite nth_error_map, A. cbn. destruct (String.eqb_spec (c_node c) n); [congruence|reflexivity].
  - intros u d k Hu Hp. apply die_call in Hu as [Hu Hn]; [|unfold active; now rewrite Hp]. apply Hr; [exact Hn|]. exact (r_ins _ HI _ _ _ Hu Hp).
  - intros u d b Hu Hk. apply die_kind in Hu as (c & Hu & E). rewrite <- E in Hk. exact (r_ctor _ HI _ _ _ Hu Hk).
Qed.
Lemma inv5_new s n k p : Inv5 s -> match p with PCheck | UMap | PRet _ => True | _ => False end ->
  (forall b, k = CReg b -> b_ctor b = true) -> Inv5 (set_calls s (calls s ++ [mkCall n k p])).
Proof.
  intros HI Hp Hb. constructor.
  - intros m id j Hk. destruct (r_map _ HI m id j Hk) as [H|(t & c & A & B)]; [left; exact H|]. right. exists t, c. split; [now apply nth_snoc_old|exact B].
  - intros u d j Hu Hd. apply nth_snoc in Hu as [[-> ->]|Hu]; [|exact (r_ins _ HI _ _ _ Hu Hd)]. cbn in Hd. subst p. contradiction.
  - intros u d b Hu Hd. apply nth_snoc in Hu as [[-> ->]|Hu]; [now apply Hb|exact (r_ctor _ HI _ _ _ Hu Hd)].
Qed.

Lemma runs_upd s i x v k n id cs : nth_error (insts s) i = Some x -> (i_node x = n /\ i_id x = id -> False) ->
  runs s k n id -> runs (mkState (st s) (nds s) (upd (insts s) i (set_st x v)) cs) k n id.
Proof.
  intros Hi Hx (ty & Hk). exists ty. cbn. destruct (Nat.eq_dec k i) as [->|]; [rewrite Hi in Hk; injection Hk as ->; destruct Hx; auto|].
  now rewrite nth_upd_neq by auto.
Qed.

Lemma inv5_step s l s' e : Inv1 s -> Inv5 s -> serial_ids s l = true -> (forall n b, l = LReg n b -> b_ctor b = true) ->
  step factory s l = Some (s', e) -> Inv5 s' /\ forall n, ~ In (EPanic n) e.
Proof.
  intros H1 HI Hok Hct H. inv_step H.
  all: try solve [split; [|intros n0 [HH|[]]; discriminate HH || (intros []; contradiction)];
    eapply pres5_pc; [eassumption|eassumption|eassumption|reflexivity|reflexivity|reflexivity|reflexivity|intros k [E|E]; discriminate E|discriminate]].
  all: try solve [split; [|intros n0 HH; repeat destruct HH as [HH|HH]; try discriminate HH; contradiction];
    eapply pres5_pc; [eassumption|eassumption|eassumption|reflexivity|reflexivity|reflexivity|reflexivity|intros k [E|E]; discriminate E|discriminate]].
  all: try solve [split; [|intros n0 HH; repeat destruct HH as [HH|HH]; try discriminate HH; contradiction];
    apply inv5_new; auto; try discriminate; intros b' [= <-]; eauto].
  - split; [|intros ? []]. assert (Hmp : forall m id, mp (set_node s n (mkNode ep [] [])) m id = mp s m id).
    { intros m id. unfold mp. cbn. rewrite aget_aset. destruct (String.eqb_spec m n) as [->|]; [now rewrite Hn|reflexivity]. }
    destruct HI as [A B C]. constructor; auto. intros m id k. rewrite Hmp. apply A.
  - split; [now apply inv5_die|intros ? []].
  - split; [|intros ? []]. eapply pres5_mp; [eassumption|eassumption|eassumption|reflexivity|reflexivity| |reflexivity|intros k [E|E]; discriminate E|discriminate].
    intros m i. rewrite mp_set_node. cbn [n_map]. destruct (String.eqb_spec m cn) as [->|]; [now rewrite (mp_at _ _ _ _ Hn)|reflexivity].
  - split; [|intros n0 [HH|[]]; discriminate HH].
    assert (Hold : forall k m i, runs s k m i -> runs (mkState (st s) (nds s) (insts s ++ [mkInst cn (b_id b) (b_ty b) Running])
                (goto s t (mkCall cn (CReg b) PBuild) (PInsert (List.length (insts s))))) k m i).
    { intros k m i (ty & Hk). exists ty. now apply nth_snoc_old. }
    eapply pres5; [eassumption|eassumption|eassumption|reflexivity|reflexivity|reflexivity|auto| |].
    + intros k Hk. change (mp s cn (b_id b) = Some k) in Hk. pose proof (i_pc _ H1 _ _ Hc) as Hpc. unfold pc_ok in Hpc. cbn in Hpc. congruence.
    + intros k [= <-]. exists (b_ty b). cbn. rewrite nth_error_app2 by lia. now rewrite Nat.sub_diag.
  - exfalso. pose proof (r_ctor _ HI _ _ _ Hc eq_refl). congruence.
  - split; [|intros n0 [HH|[]]; discriminate HH].
    eapply pres5; [eassumption|eassumption|eassumption|reflexivity|reflexivity| |auto| |discriminate].
    + intros m j Hne. rewrite mp_set_node. cbn [n_map]. cbn in Hne. destruct (String.eqb_spec m cn) as [->|]; [|reflexivity].
      rewrite aget_aset, (mp_at _ _ _ _ Hn). destruct (String.eqb_spec j (b_id b)) as [->|]; [destruct Hne; auto|reflexivity].
    + intros k. rewrite mp_set_node. cbn [c_node call_id c_kind]. rewrite String.eqb_refl. cbn [n_map]. rewrite aget_aset, String.eqb_refl. intros [= <-].
      left. exact (r_ins _ HI _ _ _ Hc eq_refl).
  - (* UExit *)
    split; [|intros ? []]. pose proof (i_pc _ H1 _ _ Hc) as Hpc. unfold pc_ok in Hpc. cbn in Hpc.
    destruct (i_map _ H1 _ _ _ Hpc) as (ty0 & x & Hi). rewrite Hif in Hi. injection Hi as ->.
    eapply pres5; [eassumption|eassumption|eassumption|reflexivity|reflexivity|reflexivity| | |discriminate].
    + intros k m j Hne. apply runs_upd; [exact Hif|]. cbn in *. intros [<- <-]. apply Hne. auto.
    + intros k Hk. change (mp s cn id = Some k) in Hk. right. left. cbn. congruence.
  - exfalso. pose proof (i_pc _ H1 _ _ Hc) as Hpc. unfold pc_ok in Hpc. cbn in Hpc.
    destruct (r_map _ HI _ _ _ Hpc) as [(ty0 & Hr)|(u & d & A & B & C & D)]; [rewrite Hif in Hr; injection Hr as ->; discriminate|].
    assert (u = t). { apply (i_one _ H1 _ _ _ _ A Hc); auto. unfold active. destruct D as [-> | ->]; reflexivity. }
    subst u. rewrite Hc in A. injection A as <-. destruct D; discriminate.
  - exfalso. pose proof (i_pc _ H1 _ _ Hc) as Hpc. unfold pc_ok in Hpc. cbn in Hpc.
    destruct (r_map _ HI _ _ _ Hpc) as [(ty0 & Hr)|(u & d & A & B & C & D)]; [rewrite Hif in Hr; injection Hr as ->; discriminate|].
    assert (u = t). { apply (i_one _ H1 _ _ _ _ A Hc); auto. unfold active. destruct D as [-> | ->]; reflexivity. }
    subst u. rewrite Hc in A. injection A as <-. destruct D; discriminate.
  - (* UWait *)
    split; [|intros n0 [HH|[]]; discriminate HH]. pose proof (i_pc _ H1 _ _ Hc) as Hpc. unfold pc_ok in Hpc. cbn in Hpc.
    destruct (i_map _ H1 _ _ _ Hpc) as (ty0 & x & Hi). rewrite Hif in Hi. injection Hi as ->.
    eapply pres5; [eassumption|eassumption|eassumption|reflexivity|reflexivity|reflexivity| | |discriminate].
    + intros k m j Hne. apply runs_upd; [exact Hif|]. cbn in *. intros [<- <-]. apply Hne. auto.
    + intros k _. right. right. reflexivity.
  - (* UDel *)
    split; [|intros ? []]. eapply pres5; [eassumption|eassumption|eassumption|reflexivity|reflexivity| |auto| |discriminate].
    + intros m j Hne. rewrite mp_set_node. cbn [n_map]. cbn in Hne. destruct (String.eqb_spec m cn) as [->|]; [|reflexivity].
      rewrite aget_adel, (mp_at _ _ _ _ Hn). destruct (String.eqb_spec j id) as [->|]; [destruct Hne; auto|reflexivity].
    + intros k. rewrite mp_set_node. cbn [c_node call_id c_kind]. rewrite String.eqb_refl. cbn [n_map]. rewrite aget_adel, String.eqb_refl. discriminate.
  - split; [|intros n0 [HH|[]]; discriminate HH].
    eapply pres5_mp; [eassumption|eassumption|eassumption|reflexivity|reflexivity| |reflexivity|intros k [E|E]; discriminate E|discriminate].
    intros m i. rewrite mp_set_node. cbn [n_map]. destruct (String.eqb_spec m cn) as [->|]; [now rewrite (mp_at _ _ _ _ Hn)|reflexivity].
Qed.

Lemma no_panic sched s evs : run (filtered serial_ids factory) init sched = Some (s, evs) ->
  (forall n b, In (LReg n b) sched -> b_ctor b = true) -> forall n, ~ In (EPanic n) evs.
Proof.
  intros H Hall. assert (HH : Inv1 s /\ ((forall n b, In (LReg n b) sched -> b_ctor b = true) -> Inv5 s /\ forall n, ~ In (EPanic n) evs)).
  { clear Hall. revert sched s evs H.
    apply (run_inv _ _ (fun sched evs s => Inv1 s /\ ((forall n b, In (LReg n b) sched -> b_ctor b = true) -> Inv5 s /\ forall n, ~ In (EPanic n) evs))).
    - split; [apply inv1_init|]. intros _. split; [|intros n []]. constructor; cbn; intros; try (destruct t; discriminate). discriminate.
    - intros sched e s l s' e' _ [I1 IH] H. unfold filtered in H. destruct (serial_ids s l) eqn:E1; [|discriminate]. split.
      + eapply inv1_step; eauto.
      + intros Hall. destruct IH as [I5 IH]; [intros n b Hin; apply (Hall n b); apply in_or_app; now left|].
        destruct (inv5_step s l s' e' I1 I5 E1) as [A B]; [|exact H|].
        * intros n b ->. apply (Hall n b). apply in_or_app. right. now left.
        * split; [exact A|]. intros n Hin. apply in_app_or in Hin as [Hin|Hin]; [exact (IH n Hin)|exact (B n Hin)]. }
  destruct HH as [_ HH]. exact (proj2 (HH Hall)).
Qed.
End Safe.
