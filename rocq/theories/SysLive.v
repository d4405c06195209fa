(** Proofs that messages reach actors the address book knows: C32. *)
From Coq Require Import List String ZArith Bool Lia.
From Verif Require Import Machine AddrModel AddrSpec AddrProofs RegModel RegSpec RegProofs RegLive SysModel SysSpec SysProofs.
Import ListNotations.
Open Scope string_scope.
Open Scope list_scope.

Lemma nth_last {A} (l : list A) x : nth_error (l ++ [x]) (List.length l) = Some x.
Proof. rewrite nth_error_app2, Nat.sub_diag by lia. reflexivity. Qed.
Lemma upd_last {A} (l : list A) x y : upd (l ++ [x]) (List.length l) y = l ++ [y].
Proof. induction l as [|a l IH]; cbn; [reflexivity|]. now rewrite IH. Qed.

Section Live.
Variable factory : string -> option Z.
Variables (r : state) (ms : list msg).
Notation at_ o sy ty h p := (mkSys r (ms ++ [mkM o sy ty h p])).
Notation m := (List.length ms).
Lemma enter o sy ty nd : aget o (nds r) = Some nd -> sstep factory (mkSys r ms) (SCall o sy ty) = Some (at_ o sy ty 0 (MAt o), [ECalled m o sy ty]).
Proof. intros H. cbn. rewrite H. reflexivity. Qed.
Lemma on_last o sy ty h p n nd f : at_node p = Some n -> aget n (nds r) = Some nd -> on_msg (at_ o sy ty h p) m f = f (mkM o sy ty h p) nd n.
Proof. intros H1 H2. unfold on_msg. cbn [msgs reg]. rewrite nth_last. cbn [m_pc]. rewrite H1, H2. reflexivity. Qed.
Lemma goto_last o sy ty h p q : goto_m (at_ o sy ty h p) m (mkM o sy ty h p) q = at_ o sy ty h q.
Proof. unfold goto_m, setm. cbn [msgs reg m_org m_sym m_ty m_hops]. now rewrite upd_last. Qed.
Lemma plain_bools id : plain id -> String.eqb id "" = false /\ String.eqb id "?" = false /\ String.eqb id "~" = false.
Proof. intros (A & B & C). now rewrite !String.eqb_neq. Qed.
Lemma forward o sy ty h n nd n' nd' a : aget n (nds r) = Some nd -> aget n' (nds r) = Some nd' -> a_ep a = n_ep nd' -> n_ep nd' <> n_ep nd ->
  sstep factory (at_ o sy ty h (MInfo n (Ok a))) (SForward m n') = Some (at_ o sy ty (S h) (MAt n'), [EForward m n n']).
Proof.
  intros H1 H2 H3 H4. cbn [sstep]. rewrite (on_last _ _ _ _ _ n nd) by (assumption || reflexivity). cbn [m_pc reg]. rewrite H2, H3, Nat.eqb_refl.
  destruct (Nat.eqb_spec (n_ep nd') (n_ep nd)); [congruence|]. cbn [negb andb msgs m_org m_sym m_ty m_hops]. now rewrite upd_last.
Qed.

Lemma plain_remote o id ty nd n' nd' k a : plain id -> aget o (nds r) = Some nd -> aget id (n_map nd) = None -> ~ In id (n_ids nd) ->
  aget id (ids (st r)) = Some a -> aget n' (nds r) = Some nd' -> n_ep nd' = a_ep a -> n_ep nd' <> n_ep nd -> aget id (n_map nd') = Some k ->
  exists s', run (sstep factory) (mkSys r ms) [SCall o id ty; SHop m; SHop m; SForward m n'; SHop m] = Some (s', [ECalled m o id ty; EForward m o n'; EDeliver m n' k]).
Proof.
  intros Hp Ho Hm Hi Ha Hn Hep Hne Hk. destruct (plain_bools _ Hp) as (P1 & P2 & P3).
  assert (S1 : sstep factory (at_ o id ty 0 (MAt o)) (SHop m) = Some (at_ o id ty 0 (MBook o), [])).
  { cbn [sstep]. rewrite (on_last _ _ _ _ _ o nd) by (assumption || reflexivity). unfold hop. cbn [m_pc m_sym]. rewrite P1, P2, P3, Hm, goto_last. reflexivity. }
  assert (S2 : sstep factory (at_ o id ty 0 (MBook o)) (SHop m) = Some (at_ o id ty 0 (MInfo o (Ok a)), [])).
  { cbn [sstep]. rewrite (on_last _ _ _ _ _ o nd) by (assumption || reflexivity). unfold hop. cbn [m_pc m_sym]. rewrite P3, goto_last. unfold GetByID. rewrite P1.
    assert (existsb (String.eqb id) (n_ids nd) = false) as ->; [|cbn [reg]; rewrite Ha; reflexivity].
    destruct (existsb _ _) eqn:E; [|reflexivity]. apply existsb_exists in E as (x & X & Y). apply String.eqb_eq in Y. subst x. contradiction. }
  assert (S3 : sstep factory (at_ o id ty 1 (MAt n')) (SHop m) = Some (at_ o id ty 1 MDone, [EDeliver m n' k])).
  { cbn [sstep]. rewrite (on_last _ _ _ _ _ n' nd') by (assumption || reflexivity). unfold hop. cbn [m_pc m_sym]. rewrite P1, P2, P3, Hk, goto_last. reflexivity. }
  eexists. cbn [run]. rewrite (enter _ _ _ _ Ho), S1, S2, (forward o id ty 0 o nd n' nd' a Ho Hn (eq_sym Hep) Hne), S3. cbn [app]. reflexivity.
Qed.

Lemma lowest_some s smp : forall best low, (forall a, In a smp -> exists w, fget FTotal (fields s (a_node a)) = Some w /\ (w < max_int)%Z) ->
  (low <= max_int)%Z -> (best = None -> low = max_int) -> (best <> None -> (low < max_int)%Z) -> (best <> None \/ smp <> []) ->
  exists a low', lowest s smp best low = (Some a, low') /\ (low' < max_int)%Z.
Proof.
  induction smp as [|x smp IH]; intros best low Hw Hl Hb Hc Hne.
  - destruct Hne as [Hne|Hne]; [|congruence]. destruct best as [b|]; [|congruence]. exists b, low. split; [reflexivity|]. apply Hc. discriminate.
  - cbn [lowest]. destruct (Hw x (or_introl eq_refl)) as (w & -> & Lw). destruct (Z.ltb_spec w low).
    + apply IH; try (intros; apply Hw; right; assumption); try discriminate; try lia. all: intros; try lia. left. discriminate.
    + destruct best as [b|]; [|specialize (Hb eq_refl); lia]. apply IH; auto; try (intros; apply Hw; right; assumption). left. discriminate.
Qed.
Lemma pick smp ty : is_sample (members (st r) ty) smp = true -> smp <> [] -> backed ty r -> exists a, GetWildcardActor (st r) smp = Ok a /\ In a (members (st r) ty).
Proof.
  intros Hs Hne Hb. assert (Hi : forall a, In a smp -> In a (members (st r) ty)) by (intros a Ha; eapply sample_in; eassumption).
  destruct (lowest_some (st r) smp None max_int) as (a & low & Hl & Hlow).
  - intros x Hx. destruct (Hb _ (Hi _ Hx)) as (n & nd & k & i & w & _ & _ & _ & _ & _ & W1 & W2). eauto.
  - lia.
  - reflexivity.
  - congruence.
  - right. exact Hne.
  - assert (G : GetWildcardActor (st r) smp = Ok a).
    { unfold GetWildcardActor. destruct smp; [congruence|]. rewrite Hl. destruct (Z.eqb_spec low max_int); [lia|reflexivity]. }
    exists a. split; [exact G|]. eapply wildcard_listed; eassumption.
Qed.

Lemma wildcard_reach o nd ty smp : aget o (nds r) = Some nd -> is_sample (members (st r) ty) smp = true -> smp <> [] -> backed ty r -> own_endpoints r ->
  exists sched s' evs n k, Forall calm sched /\ run (sstep factory) (mkSys r ms) (SCall o "?" ty :: sched) = Some (s', ECalled m o "?" ty :: evs) /\ In (EDeliver m n k) evs.
Proof.
  intros Ho Hs Hne Hb He. destruct (pick _ _ Hs Hne Hb) as (a & Ga & La). destruct (Hb _ La) as (n & nd' & k & i & w & Hn & Hep & Hk & _).
  assert (S1 : forall h p, aget p (nds r) <> None -> sstep factory (at_ o "?" ty h (MAt p)) (SPick m smp) = Some (at_ o "?" ty h (MPicked p (Ok a)), [])).
  { intros h p Hq. destruct (aget p (nds r)) as [ndp|] eqn:Ep; [|congruence]. cbn [sstep]. rewrite (on_last _ _ _ _ _ p ndp) by (assumption || reflexivity). cbn [m_ty reg m_pc m_sym]. rewrite Hs, Ga, String.eqb_refl. now rewrite goto_last. }
  assert (S2 : forall h p ndp kp, aget p (nds r) = Some ndp -> aget (a_id a) (n_map ndp) = Some kp -> sstep factory (at_ o "?" ty h (MPicked p (Ok a))) (SHop m) = Some (at_ o "?" ty h MDone, [EDeliver m p kp])).
  { intros h p ndp kp Ep Hkp. cbn [sstep]. rewrite (on_last _ _ _ _ _ p ndp) by (assumption || reflexivity). unfold hop. cbn [m_pc]. rewrite Hkp. now rewrite goto_last. }
  destruct (aget (a_id a) (n_map nd)) as [k0|] eqn:E0.
  - exists [SPick m smp; SHop m]. eexists _, _, o, k0. split; [repeat constructor|]. cbn [run]. rewrite (enter _ _ _ _ Ho), S1, (S2 _ _ _ _ Ho E0) by congruence. cbn [app]. split; [reflexivity|now left].
  - assert (Hnn : n_ep nd' <> n_ep nd) by (intros X; pose proof (He _ _ _ _ Hn Ho X) as Y; subst n; congruence).
    exists [SPick m smp; SHop m; SForward m n; SPick m smp; SHop m]. eexists _, _, n, k. split; [repeat constructor|]. cbn [run]. rewrite (enter _ _ _ _ Ho), S1 by congruence.
    assert (S3 : sstep factory (at_ o "?" ty 0 (MPicked o (Ok a))) (SHop m) = Some (at_ o "?" ty 0 (MInfo o (Ok a)), [])).
    { cbn [sstep]. rewrite (on_last _ _ _ _ _ o nd) by (assumption || reflexivity). unfold hop. cbn [m_pc]. rewrite E0. now rewrite goto_last. }
    rewrite S3, (forward o "?" ty 0 o nd n nd' a Ho Hn (eq_sym Hep) Hnn), S1, (S2 _ _ _ _ Hn Hk) by congruence. cbn [app]. split; [reflexivity|]. right. now left.
Qed.
Lemma scan o ty h p ndp id kp ip : aget p (nds r) = Some ndp -> aget id (n_map ndp) = Some kp -> nth_error (insts r) kp = Some ip -> i_ty ip = ty ->
  sstep factory (at_ o "~" ty h (MAt p)) (SScan m (Some id)) = Some (at_ o "~" ty h MDone, [EDeliver m p kp]).
Proof.
  intros Ep Hkp Hip Htp. cbn [sstep]. rewrite (on_last _ _ _ _ _ p ndp) by (assumption || reflexivity). cbn [m_pc m_sym m_ty reg]. rewrite String.eqb_refl, Hkp. unfold of_type. rewrite Hip, Htp, String.eqb_refl. now rewrite goto_last.
Qed.
Lemma local_reach o ty : holds_type o ty r -> exists l s' k, run (sstep factory) (mkSys r ms) [SCall o "~" ty; l] = Some (s', [ECalled m o "~" ty; EDeliver m o k]).
Proof.
  intros (nd & id & k & i & Ho & Hk & Hi & Ht). exists (SScan m (Some id)). eexists _, k. cbn [run]. rewrite (enter _ _ _ _ Ho), (scan _ _ _ _ _ _ _ _ Ho Hk Hi Ht). reflexivity.
Qed.
Lemma elsewhere_reach o nd ty smp : aget o (nds r) = Some nd -> is_sample (members (st r) ty) smp = true -> smp <> [] -> backed ty r -> own_endpoints r ->
  (forall id k i, In (id, k) (n_map nd) -> nth_error (insts r) k = Some i -> i_ty i <> ty) ->
  exists sched s' n k, Forall calm sched /\ run (sstep factory) (mkSys r ms) (SCall o "~" ty :: sched) = Some (s', [ECalled m o "~" ty; EForward m o n; EDeliver m n k]).
Proof.
  intros Ho Hs Hne Hb He Hno. destruct (pick _ _ Hs Hne Hb) as (a & Ga & La). destruct (Hb _ La) as (n & nd' & k & i & w & Hn & Hep & Hk & Hi & Ht & _).
  assert (Hnn : n_ep nd' <> n_ep nd). { intros X. pose proof (He _ _ _ _ Hn Ho X) as Y. subst n. assert (nd' = nd) as -> by congruence. apply aget_in in Hk. exact (Hno _ _ _ Hk Hi Ht). }
  assert (S1 : sstep factory (at_ o "~" ty 0 (MAt o)) (SScan m None) = Some (at_ o "~" ty 0 (MBook o), [])).
  { cbn [sstep]. rewrite (on_last _ _ _ _ _ o nd) by (assumption || reflexivity). cbn [m_pc m_sym m_ty reg]. rewrite String.eqb_refl, goto_last.
    assert (existsb (fun p => of_type r ty (snd p)) (n_map nd) = false) as ->; [|reflexivity].
    destruct (existsb _ _) eqn:E; [|reflexivity]. exfalso. apply existsb_exists in E as ((id & k0) & X & Y). unfold of_type in Y. cbn [snd] in Y. destruct (nth_error (insts r) k0) as [i0|] eqn:E0; [|discriminate]. apply String.eqb_eq in Y. exact (Hno _ _ _ X E0 Y). }
  assert (S2 : sstep factory (at_ o "~" ty 0 (MBook o)) (SPick m smp) = Some (at_ o "~" ty 0 (MInfo o (Ok a)), [])).
  { cbn [sstep]. rewrite (on_last _ _ _ _ _ o nd) by (assumption || reflexivity). cbn [m_pc m_sym m_ty reg]. rewrite Hs, Ga, String.eqb_refl. now rewrite goto_last. }
  exists [SScan m None; SPick m smp; SForward m n; SScan m (Some (a_id a))]. eexists _, n, k. split; [repeat constructor|].
  cbn [run]. rewrite (enter _ _ _ _ Ho), S1, S2, (forward o "~" ty 0 o nd n nd' a Ho Hn (eq_sym Hep) Hnn), (scan _ _ _ _ _ _ _ _ Hn Hk Hi Ht). reflexivity.
Qed.
End Live.
