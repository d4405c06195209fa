(** Proofs about target resolution. *)
From Coq Require Import List String ZArith Bool Lia.
From Verif Require Import Machine AddrModel AddrSpec AddrProofs RegModel RegSpec RegProofs SysModel SysSpec.
Import ListNotations.
Open Scope string_scope.
Open Scope list_scope.

Section Proofs.
Variable factory : string -> option Z.
Notation sstep := (sstep factory).

(** ** The cluster underneath *)
(** Actor [k] is on node [n] and has this id and type. *)
Definition actor (r : state) (k : nat) (n id ty : string) : Prop := exists x, nth_error (insts r) k = Some (mkInst n id ty x).
Definition J (r : state) : Prop :=
  (forall n id k, mp r n id = Some k -> id <> "" /\ exists ty, actor r k n id ty) /\
  (forall t c b, nth_error (calls r) t = Some c -> c_kind c = CReg b ->
     match c_pc c with PRet _ | PDead => True | _ => b_id b <> "" end /\
     forall i, c_pc c = PInsert i -> actor r i (c_node c) (b_id b) (b_ty b)).

Lemma actor_upd r r' k n id ty j i x : actor r k n id ty -> nth_error (insts r) j = Some i -> insts r' = upd (insts r) j (set_st i x) -> actor r' k n id ty.
Proof.
  intros [y H] Hj E. unfold actor. rewrite E. destruct (Nat.eq_dec j k) as [->|Hn].
  - erewrite nth_upd_self by exact Hj. rewrite H in Hj. injection Hj as <-. now exists x.
  - rewrite nth_upd_neq by exact Hn. now exists y.
Qed.
Lemma actor_snoc r r' k n id ty i : actor r k n id ty -> insts r' = insts r ++ [i] -> actor r' k n id ty.
Proof. intros [y H] E. unfold actor. rewrite E. erewrite nth_snoc_old by exact H. now exists y. Qed.
Lemma actor_same r r' k n id ty : actor r k n id ty -> insts r' = insts r -> actor r' k n id ty.
Proof. intros H E. unfold actor. now rewrite E. Qed.
Lemma actor_die r k n id ty m : actor r k n id ty -> actor (die r m) k n id ty.
Proof.
  intros [y H]. unfold actor. cbn [insts die]. rewrite nth_error_map, H. cbn. destruct (_ =? _); eexists; reflexivity.
Qed.
Lemma die_calls r n t c : nth_error (calls (die r n)) t = Some c -> exists c0, nth_error (calls r) t = Some c0 /\ c_node c = c_node c0 /\ c_kind c = c_kind c0 /\ (c_pc c = c_pc c0 \/ c_pc c = PDead).
Proof.
  cbn [calls die]. rewrite nth_error_map. destruct (nth_error (calls r) t) as [c0|] eqn:E; [|discriminate]. cbn. intros X. injection X as <-.
  exists c0. destruct (c_node c0 =? n); [|auto]. destruct (c_pc c0) eqn:Ep; cbn; auto.
Qed.
Lemma J_die r n : J r -> J (die r n).
Proof.
  intros [A B]. split.
  - intros m id k H. assert (H' : mp r m id = Some k).
    { unfold mp in *. cbn [nds die] in H. rewrite aget_adel in H. destruct (_ =? _); [discriminate|exact H]. }
    destruct (A _ _ _ H') as (A1 & ty & A2). split; [exact A1|]. exists ty. now apply actor_die.
  - intros t c b Hc Hk. apply die_calls in Hc as (c0 & C1 & C2 & C3 & C4). rewrite C3 in Hk. destruct (B _ _ _ C1 Hk) as [B1 B2].
    destruct C4 as [C4|C4]; rewrite C4; [|split; [exact I|discriminate]]. split; [exact B1|]. intros i Hi. rewrite C2. apply actor_die. now apply B2.
Qed.
Lemma J_call r c0 : J r -> match c_kind c0 with CReg b => b_id b <> "" /\ c_pc c0 = PCheck \/ c_pc c0 = PRet false | _ => True end -> J (set_calls r (calls r ++ [c0])).
Proof.
  intros [A B] H0. split; [exact A|]. intros t c b Hc Hk. apply nth_snoc in Hc as [[-> ->]|Hc]; [|exact (B _ _ _ Hc Hk)].
  rewrite Hk in H0. destruct H0 as [[H1 H2]|H2]; rewrite H2; split; auto; discriminate.
Qed.
(** A call steps on, to [p]; nodes and actors change as said. *)
Lemma J_goto r r' t c p : J r -> nth_error (calls r) t = Some c -> calls r' = goto r t c p ->
  (forall k n id ty, actor r k n id ty -> actor r' k n id ty) ->
  (forall n id k, mp r' n id = Some k -> mp r n id = Some k \/ exists b, c_kind c = CReg b /\ c_pc c = PInsert k /\ id = b_id b /\ n = c_node c) ->
  (forall b, c_kind c = CReg b -> match c_pc c with PRet _ | PDead => False | _ => True end) ->
  (forall b i, c_kind c = CReg b -> p = PInsert i -> actor r' i (c_node c) (b_id b) (b_ty b)) -> J r'.
Proof.
  intros [A B] Hc Ec Ha Hm Hp Hi. split.
  - intros n id k H. destruct (Hm _ _ _ H) as [H'|(b & C1 & C2 & -> & ->)].
    + destruct (A _ _ _ H') as (A1 & ty & A2). split; [exact A1|]. exists ty. auto.
    + destruct (B _ _ _ Hc C1) as [B1 B2]. rewrite C2 in B1. split; [exact B1|]. exists (b_ty b). apply Ha, B2, C2.
  - intros t' c' b H Hk. rewrite Ec in H. unfold goto in H. eapply nth_upd_case in H as [[-> ->]|[Hn H]]; [| |exact Hc].
    + cbn [c_kind c_pc c_node] in *. destruct (B _ _ _ Hc Hk) as [B1 _]. specialize (Hp _ Hk). split; [|intros i ->; apply (Hi b i); auto].
      assert (b_id b <> "") by (destruct (c_pc c); try exact B1; contradiction). destruct p; auto.
    + destruct (B _ _ _ H Hk) as [B1 B2]. split; [exact B1|]. intros i Hi'. apply Ha, B2, Hi'.
Qed.
Lemma J_step r l r' e : J r -> step factory r l = Some (r', e) -> J r'.
Proof.
  intros HJ H. inv_step H.
  1: { destruct HJ as [A B]. split; [|exact B]. intros m id k X. unfold mp in X. cbn [nds set_node] in X. rewrite aget_aset in X.
       destruct (String.eqb_spec m n) as [->|Hne]; [discriminate X|]. apply (A m id k). unfold mp. exact X. }
  all: try (apply J_die; exact HJ).
  all: try (apply J_call; [exact HJ|cbn; first [exact I|now right|left; split; [|reflexivity]; intros X; rewrite X in Hemp; discriminate]]).
  all: try (eapply J_goto; [exact HJ|exact Hc|reflexivity|intros; assumption|intros n' id' k' X; left; exact X|intros b' Hb'; exact I|intros b' i' Hb' Hi'; discriminate]; fail).
  all: try (eapply J_goto; [exact HJ|exact Hc|reflexivity|intros k' n' id' ty' X; eapply actor_upd; [exact X|eassumption|reflexivity]|intros n' id' k' X; left; exact X|intros b' Hb'; exact I|intros b' i' Hb' Hi'; discriminate]; fail).
  - (* IDMap *) eapply J_goto; [exact HJ|exact Hc|reflexivity|intros; assumption| |intros b' Hb'; exact I|intros b' i' Hb' Hi'; discriminate].
    intros n' id' k' X. left. rewrite mp_set_node in X. cbn in X. destruct (String.eqb_spec n' cn) as [->|]; [unfold mp; now rewrite Hn|exact X].
  - (* build *) eapply J_goto; [exact HJ|exact Hc|reflexivity|intros k' n' id' ty' X; eapply actor_snoc; [exact X|reflexivity]|intros n' id' k' X; left; exact X|intros b' Hb'; exact I|].
    intros b' i' Hb' Hi'. cbn in Hb', Hi'. injection Hb' as <-. injection Hi' as <-. exists Running. cbn [insts]. rewrite nth_error_app2 by lia. now rewrite Nat.sub_diag.
  - (* insert *) eapply J_goto; [exact HJ|exact Hc|reflexivity|intros; assumption| |intros b' Hb'; exact I|intros b' i' Hb' Hi'; discriminate].
    intros n' id' k' X. rewrite mp_set_node in X. cbn in X. destruct (String.eqb_spec n' cn) as [->|]; [|left; exact X].
    rewrite aget_aset in X. destruct (String.eqb_spec id' (b_id b)) as [->|]; [injection X as <-; right; exists b; auto|left; unfold mp; now rewrite Hn].
  - (* delete *) eapply J_goto; [exact HJ|exact Hc|reflexivity|intros; assumption| |intros b' Hb'; exact I|intros b' i' Hb' Hi'; discriminate].
    intros n' id' k' X. left. rewrite mp_set_node in X. cbn in X. destruct (String.eqb_spec n' cn) as [->|]; [|exact X].
    rewrite aget_adel in X. unfold mp. rewrite Hn. destruct (_ =? _); [discriminate|exact X].
  - (* IDMap *) eapply J_goto; [exact HJ|exact Hc|reflexivity|intros; assumption| |intros b' Hb'; exact I|intros b' i' Hb' Hi'; discriminate].
    intros n' id' k' X. left. rewrite mp_set_node in X. cbn in X. destruct (String.eqb_spec n' cn) as [->|]; [unfold mp; now rewrite Hn|exact X].
Qed.
Lemma actor_step r l r' e k n0 id0 ty0 : step factory r l = Some (r', e) -> actor r k n0 id0 ty0 -> actor r' k n0 id0 ty0.
Proof.
  intros H X. inv_step H; first [exact X|apply actor_die; exact X|eapply actor_upd; [exact X|eassumption|reflexivity]|eapply actor_snoc; [exact X|reflexivity]].
Qed.
Lemma ep_die r n m nd : aget m (nds r) = Some nd -> aget m (nds (die r n)) = None \/ exists nd', aget m (nds (die r n)) = Some nd' /\ n_ep nd' = n_ep nd.
Proof. intros H. cbn [nds die]. rewrite aget_adel. destruct (_ =? _); [now left|right]. now exists nd. Qed.
Lemma ep_step r l r' e m d : step factory r l = Some (r', e) -> aget m (nds r) = Some d ->
  aget m (nds r') = None \/ exists nd', aget m (nds r') = Some nd' /\ n_ep nd' = n_ep d.
Proof.
  intros H X. inv_step H; try (apply ep_die; exact X); try (right; exists d; split; [exact X|reflexivity]).
  all: cbn [nds set_calls set_node]; rewrite aget_aset; match goal with |- context [?a =? ?b] => destruct (String.eqb_spec a b) as [->|Hne] end; [|right; eexists; split; [exact X|reflexivity]].
  { rewrite Hn in X. discriminate. }
  all: right; eexists; split; [reflexivity|]; cbn; congruence.
Qed.
(** Records are filed under their own id. *)
Definition cmd_ok (c : cmd) : Prop := match c with HSetId id a => a_id a = id | _ => True end.
Definition K (r : state) : Prop :=
  (forall id a, aget id (ids (st r)) = Some a -> a_id a = id) /\
  (forall t c, nth_error (calls r) t = Some c -> match c_pc c with PPipe cs | UPipe cs => Forall cmd_ok cs | _ => True end).
Lemma apply_ok s c : (forall id a, aget id (ids s) = Some a -> a_id a = id) -> cmd_ok c -> forall id a, aget id (ids (apply s c)) = Some a -> a_id a = id.
Proof.
  intros H Hc id a X. destruct c; cbn in X; auto.
  - rewrite aget_aset in X. destruct (String.eqb_spec id id0) as [->|]; [injection X as <-; exact Hc|auto].
  - rewrite aget_adel in X. destruct (_ =? _); [discriminate|auto].
Qed.
Lemma K_die r n : K r -> K (die r n).
Proof.
  intros [A B]. split; [exact A|]. intros t c Hc. apply die_calls in Hc as (c0 & C1 & C2 & C3 & [C4|C4]); rewrite C4; [exact (B _ _ C1)|exact I].
Qed.
Lemma K_call r c0 : K r -> match c_pc c0 with PPipe _ | UPipe _ => False | _ => True end -> K (set_calls r (calls r ++ [c0])).
Proof.
  intros [A B] H. split; [exact A|]. intros t c Hc. apply nth_snoc in Hc as [[-> ->]|Hc]; [destruct (c_pc c0); auto; contradiction|exact (B _ _ Hc)].
Qed.
Lemma K_goto r r' t c p : K r -> nth_error (calls r) t = Some c -> calls r' = goto r t c p ->
  (st r' = st r \/ exists x cs, (c_pc c = PPipe (x :: cs) \/ c_pc c = UPipe (x :: cs)) /\ st r' = apply (st r) x) ->
  match p with PPipe cs | UPipe cs => Forall cmd_ok cs | _ => True end -> K r'.
Proof.
  intros [A B] Hc Ec Es Hp. split.
  - destruct Es as [->|(x & cs & Hx & ->)]; [exact A|]. apply apply_ok; [exact A|]. specialize (B _ _ Hc). destruct Hx as [Hx|Hx]; rewrite Hx in B; now inversion B.
  - intros t' c' H. rewrite Ec in H. unfold goto in H. eapply nth_upd_case in H as [[-> ->]|[Hn H]]; [exact Hp|exact (B _ _ H)|exact Hc].
Qed.
Lemma K_step r l r' e : K r -> step factory r l = Some (r', e) -> K r'.
Proof.
  intros HK H. inv_step H; try exact HK; try (apply K_die; exact HK); try (apply K_call; [exact HK|exact I]).
  all: try (eapply K_goto; [exact HK|exact Hc|reflexivity|left; reflexivity|exact I]; fail).
  - eapply K_goto; [exact HK|exact Hc|reflexivity|left; reflexivity|]. repeat constructor.
  - eapply K_goto; [exact HK|exact Hc|reflexivity|right; exists x, cs; split; [now left|reflexivity]|]. destruct HK as [_ B]. specialize (B _ _ Hc). cbn in B. now inversion B.
  - eapply K_goto; [exact HK|exact Hc|reflexivity|left; reflexivity|]. repeat constructor.
  - eapply K_goto; [exact HK|exact Hc|reflexivity|right; exists x, cs; split; [now right|reflexivity]|]. destruct HK as [_ B]. specialize (B _ _ Hc). cbn in B. now inversion B.
Qed.

(** ** Messages *)
Notation passed := (passed factory).
Lemma passed_now sched s e (P : state -> Prop) : run sstep sinit sched = Some (s, e) -> P (reg s) -> passed sched P.
Proof. intros H X. exists sched, [], s, e. rewrite app_nil_r. auto. Qed.
Lemma passed_snoc sched l P : passed sched P -> passed (sched ++ [l]) P.
Proof. intros (a & b & s & e & -> & H & X). exists a, (b ++ [l]), s, e. rewrite app_assoc. auto. Qed.

Definition pcok (sched : list slabel) (r : state) (x : msg) : Prop :=
  (forall n, at_node (m_pc x) = Some n -> exists nd, aget n (nds r) = Some nd) /\
  match m_pc x with
  | MAt _ | MDone | MClean _ _ => True
  | MBook n => m_sym x <> "" /\ m_sym x <> "?" /\
      (m_sym x = "~" -> passed sched (fun r => ~ holds_type n (m_ty x) r)) /\ (m_sym x <> "~" -> passed sched (fun r => ~ holds n (m_sym x) r))
  | MPicked n q => m_sym x = "?" /\ forall a, q = Ok a -> passed sched (listed (m_ty x) a)
  | MInfo n q => forall a, q = Ok a -> m_sym x <> "" /\
      (m_sym x = "?" -> passed sched (listed (m_ty x) a) /\ passed sched (fun r => ~ holds n (a_id a) r)) /\
      (m_sym x = "~" -> passed sched (listed (m_ty x) a) /\ passed sched (fun r => ~ holds_type n (m_ty x) r)) /\
      (plain (m_sym x) -> a_id a = m_sym x /\ passed sched (fun r => ~ holds n (m_sym x) r) /\ (passed sched (recorded (m_sym x) (a_ep a)) \/ ep_of n (a_ep a) r))
  end.
Definition evok (sched : list slabel) (s : sys) (e : sevent) : Prop :=
  match e with
  | EReg _ => True
  | ECalled m o sy ty => exists x, nth_error (msgs s) m = Some x /\ m_org x = o /\ m_sym x = sy /\ m_ty x = ty
  | EDeliver m n k => exists x, nth_error (msgs s) m = Some x /\ m_sym x <> "" /\
      (plain (m_sym x) -> exists ty', actor (reg s) k n (m_sym x) ty') /\
      (m_sym x = "?" -> exists a ty', passed sched (listed (m_ty x) a) /\ actor (reg s) k n (a_id a) ty') /\
      (m_sym x = "~" -> exists id, actor (reg s) k n id (m_ty x))
  | EForward m n n' => exists x ep, nth_error (msgs s) m = Some x /\ m_sym x <> "" /\ passed sched (ep_of n' ep) /\
      (plain (m_sym x) -> passed sched (fun r => ~ holds n (m_sym x) r) /\ passed sched (recorded (m_sym x) ep)) /\
      (m_sym x = "?" -> exists a, passed sched (listed (m_ty x) a) /\ a_ep a = ep /\ passed sched (fun r => ~ holds n (a_id a) r)) /\
      (m_sym x = "~" -> exists a, passed sched (listed (m_ty x) a) /\ a_ep a = ep /\ passed sched (fun r => ~ holds_type n (m_ty x) r))
  | EClean m n id => exists x, nth_error (msgs s) m = Some x /\ m_sym x <> "" /\
      (plain (m_sym x) -> id = m_sym x /\ passed sched (fun r => ~ holds n id r)) /\
      (m_sym x = "?" -> passed sched (fun r => ~ holds n id r)) /\
      (m_sym x = "~" -> passed sched (fun r => ~ holds_type n (m_ty x) r))
  | EUndelivered m n ok => ok = true -> exists x, nth_error (msgs s) m = Some x /\ 0 < m_hops x
  end.
Definition ended (m : nat) (evs : list sevent) : nat := List.length (filter (ends m) evs).
Lemma ended_app m a b : ended m (a ++ b) = ended m a + ended m b.
Proof. unfold ended. now rewrite filter_app, app_length. Qed.
Lemma forwards_app m a b : forwards m (a ++ b) = forwards m a + forwards m b.
Proof. unfold forwards. now rewrite filter_app, app_length. Qed.
Definition cntok (evs : list sevent) (m : nat) (x : msg) : Prop :=
  forwards m evs = m_hops x /\ ended m evs <= match m_pc x with MDone => 1 | _ => 0 end.

(** [x'] is [x] later on. *)
Definition later (x x' : msg) : Prop := m_org x' = m_org x /\ m_sym x' = m_sym x /\ m_ty x' = m_ty x /\ m_hops x <= m_hops x'.
Definition grows (s s' : sys) : Prop :=
  (forall m x, nth_error (msgs s) m = Some x -> exists x', nth_error (msgs s') m = Some x' /\ later x x') /\
  (forall k n id ty, actor (reg s) k n id ty -> actor (reg s') k n id ty).
Lemma evok_mono sched s l s' e : grows s s' -> evok sched s e -> evok (sched ++ [l]) s' e.
Proof.
  intros [G A] H. destruct e as [e|m o sy ty|m n k|m n n'|m n id|m n ok]; cbn in *; auto.
  - destruct H as (x & H1 & <- & <- & <-). destruct (G _ _ H1) as (x' & G1 & G2 & G3 & G4 & G5). exists x'. auto.
  - destruct H as (x & H1 & H0 & H2 & H3 & H4). destruct (G _ _ H1) as (x' & G1 & G2 & G3 & G4 & G5). exists x'. rewrite G3, G4.
    split; [exact G1|]. split; [exact H0|]. split; [|split].
    + intros X. destruct (H2 X) as (ty' & Y). exists ty'. auto.
    + intros X. destruct (H3 X) as (a & ty' & Y & Z). exists a, ty'. split; [now apply passed_snoc|auto].
    + intros X. destruct (H4 X) as (id & Y). exists id. auto.
  - destruct H as (x & ep & H1 & H0 & H5 & H2 & H3 & H4). destruct (G _ _ H1) as (x' & G1 & G2 & G3 & G4 & G5). exists x', ep. rewrite G3, G4.
    split; [exact G1|]. split; [exact H0|]. split; [now apply passed_snoc|]. split; [|split].
    + intros X. destruct (H2 X). split; now apply passed_snoc.
    + intros X. destruct (H3 X) as (a & Y & Z & W). exists a. split; [now apply passed_snoc|]. split; [exact Z|now apply passed_snoc].
    + intros X. destruct (H4 X) as (a & Y & Z & W). exists a. split; [now apply passed_snoc|]. split; [exact Z|now apply passed_snoc].
  - destruct H as (x & H1 & H0 & H2 & H3 & H4). destruct (G _ _ H1) as (x' & G1 & G2 & G3 & G4 & G5). exists x'. rewrite G3, G4.
    split; [exact G1|]. split; [exact H0|]. split; [|split].
    + intros X. destruct (H2 X). split; [assumption|now apply passed_snoc].
    + intros X. now apply passed_snoc, H3.
    + intros X. now apply passed_snoc, H4.
  - intros X. destruct (H X) as (x & H1 & H2). destruct (G _ _ H1) as (x' & G1 & G2 & G3 & G4 & G5). exists x'. split; [exact G1|lia].
Qed.
Definition stable (r r' : state) (x : msg) : Prop :=
  forall n nd, at_node (m_pc x) = Some n -> aget n (nds r) = Some nd -> exists nd', aget n (nds r') = Some nd' /\ n_ep nd' = n_ep nd.
Lemma pcok_mono sched r l r' x : stable r r' x -> pcok sched r x -> pcok (sched ++ [l]) r' x.
Proof.
  intros HS [A B]. split.
  - intros n Hn. destruct (A _ Hn) as (nd & Hd). destruct (HS _ _ Hn Hd) as (nd' & X & _). now exists nd'.
  - destruct (m_pc x) as [n|n|n q|n q|n t|] eqn:Ep; auto.
    + destruct B as (B1 & B2 & B3 & B4). repeat split; auto; intros X; apply passed_snoc; auto.
    + destruct B as (B1 & B2). split; [exact B1|]. intros a X. apply passed_snoc. auto.
    + intros a X. destruct (B _ X) as (B1 & B2 & B3 & B4). split; [exact B1|]. split; [|split].
      * intros Y. destruct (B2 Y). split; now apply passed_snoc.
      * intros Y. destruct (B3 Y). split; now apply passed_snoc.
      * intros Y. destruct (B4 Y) as (C1 & C2 & C3). split; [exact C1|]. split; [now apply passed_snoc|]. destruct C3 as [C3|(nd & C3 & C4)]; [left; now apply passed_snoc|right].
        destruct (HS n nd) as (nd' & X1 & X2); [now rewrite Ep|exact C3|]. exists nd'. split; [exact X1|congruence].
Qed.

Definition Inv (sched : list slabel) (evs : list sevent) (s : sys) : Prop :=
  J (reg s) /\ K (reg s) /\ (forall m x, nth_error (msgs s) m = Some x -> pcok sched (reg s) x /\ cntok evs m x) /\
  (forall m, List.length (msgs s) <= m -> forwards m evs = 0 /\ ended m evs = 0) /\ (forall e, In e evs -> evok sched s e).

Lemma sample_in l smp a : is_sample l smp = true -> In a smp -> In a l.
Proof.
  unfold is_sample. rewrite !andb_true_iff. intros [[_ H] _] X. rewrite forallb_forall in H. specialize (H _ X). apply existsb_exists in H as (b & H1 & H2).
  unfold addr_eqb in H2. rewrite !andb_true_iff, !String.eqb_eq, Nat.eqb_eq in H2. destruct a, b; cbn in *. destruct H2 as [[[-> ->] ->] ->]. exact H1.
Qed.
Lemma lowest_in s smp : forall best low a low', lowest s smp best low = (Some a, low') -> In a smp \/ best = Some a.
Proof.
  induction smp as [|b smp IH]; intros best low a low' H; cbn in H; [injection H as -> _; auto|].
  destruct (fget FTotal (fields s (a_node b))) as [w|]; [destruct (w <? low)%Z|]; apply IH in H as [H|H]; cbn; auto. injection H as ->. auto.
Qed.
Lemma wildcard_listed s l smp a : is_sample l smp = true -> GetWildcardActor s smp = Ok a -> In a l.
Proof.
  intros H X. eapply sample_in; [exact H|]. unfold GetWildcardActor in X. destruct smp as [|b smp]; [discriminate|].
  destruct (lowest s (b :: smp) None max_int) as [[c|] low] eqn:E; [|discriminate]. destruct (_ =? _)%Z; [discriminate|]. injection X as ->. apply lowest_in in E as [E|E]; [exact E|discriminate].
Qed.

(** One message moves on to [x'], with events [e]. *)
Lemma inv_move sched evs s l m x x' r' e :
  Inv sched evs s -> nth_error (msgs s) m = Some x -> later x x' ->
  J r' -> K r' -> (forall k n id ty, actor (reg s) k n id ty -> actor r' k n id ty) -> (forall y, stable (reg s) r' y) ->
  pcok (sched ++ [l]) r' x' ->
  forwards m e + m_hops x = m_hops x' -> m_pc x <> MDone -> ended m e <= match m_pc x' with MDone => 1 | _ => 0 end ->
  (forall k, k <> m -> forwards k e = 0 /\ ended k e = 0) ->
  (forall y, In y e -> evok (sched ++ [l]) (mkSys r' (upd (msgs s) m x')) y) ->
  Inv (sched ++ [l]) (evs ++ e) (mkSys r' (upd (msgs s) m x')).
Proof.
  intros (HJ & HK & HM & HN & HE) Hx Hl HJ' HK' Ha HS Hpc Hf Hd He Hk Hev.
  assert (HG : grows s (mkSys r' (upd (msgs s) m x'))).
  { split; [|exact Ha]. intros m2 x2 H2. cbn [msgs]. destruct (Nat.eq_dec m m2) as [->|Hne].
    - exists x'. split; [eapply nth_upd_self; exact Hx|]. assert (x2 = x) as -> by congruence. exact Hl.
    - rewrite nth_upd_neq by exact Hne. exists x2. split; [exact H2|]. repeat split; lia. }
  split; [exact HJ'|]. split; [exact HK'|]. split; [|split].
  - intros m2 x2 H2. cbn [msgs reg] in *. eapply nth_upd_case in H2 as [[-> ->]|[Hne H2]]; [| |exact Hx].
    + split; [exact Hpc|]. destruct (HM _ _ Hx) as [_ [A B]]. unfold cntok. rewrite forwards_app, ended_app, A. split; [lia|]. destruct (m_pc x); try lia. congruence.
    + destruct (HM _ _ H2) as [A B]. split; [eapply pcok_mono; [apply HS|exact A]|]. destruct (Hk _ Hne) as [K1 K2]. unfold cntok in *. rewrite forwards_app, ended_app, K1, K2, !Nat.add_0_r. exact B.
  - intros m2 Hm2. cbn [msgs] in Hm2. rewrite upd_length in Hm2. assert (m2 <> m) by (intros ->; apply nth_error_None in Hm2; congruence).
    destruct (Hk _ H) as [K1 K2]. rewrite forwards_app, ended_app, K1, K2, !Nat.add_0_r. exact (HN _ Hm2).
  - intros y Hy. apply in_app_or in Hy as [Hy|Hy]; [|exact (Hev _ Hy)]. eapply evok_mono; [exact HG|exact (HE _ Hy)].
Qed.
Lemma stable_refl r y : stable r r y.
Proof. intros n nd _ H. exists nd. auto. Qed.
Lemma lose_later r x : later x (lose r x).
Proof. unfold lose. destruct (at_node _); [destruct (aget _ _)|]; repeat split; cbn; lia. Qed.
(** The cluster changes underneath. *)
Lemma inv_lose sched evs s l r' e : Inv sched evs s -> J r' -> K r' ->
  (forall k n id ty, actor (reg s) k n id ty -> actor r' k n id ty) ->
  (forall m nd, aget m (nds (reg s)) = Some nd -> aget m (nds r') = None \/ exists nd', aget m (nds r') = Some nd' /\ n_ep nd' = n_ep nd) ->
  (forall y, In y e -> exists z, y = EReg z) -> Inv (sched ++ [l]) (evs ++ e) (mkSys r' (map (lose r') (msgs s))).
Proof.
  intros (HJ & HK & HM & HN & HE) HJ' HK' Ha HS Hev.
  assert (H0 : forall m, forwards m e = 0 /\ ended m e = 0).
  { intros m. unfold forwards, ended. clear -Hev. induction e as [|y e IH]; [now split|]. destruct (Hev y (or_introl eq_refl)) as (z & ->). apply IH. intros y Hy. apply Hev. now right. }
  assert (HG : grows s (mkSys r' (map (lose r') (msgs s)))).
  { split; [|exact Ha]. intros m x H. cbn [msgs]. exists (lose r' x). split; [now rewrite nth_error_map, H|apply lose_later]. }
  split; [exact HJ'|]. split; [exact HK'|]. split; [|split].
  - intros m x' H. cbn [msgs reg] in *. rewrite nth_error_map in H. destruct (nth_error (msgs s) m) as [x|] eqn:Hx; [|discriminate]. injection H as <-.
    destruct (HM _ _ Hx) as [A [B1 B2]]. destruct (H0 m) as [K1 K2]. unfold cntok. rewrite forwards_app, ended_app, K1, K2, !Nat.add_0_r, B1.
    unfold lose. destruct (at_node (m_pc x)) as [n|] eqn:En; [destruct (aget n (nds r')) as [nd'|] eqn:End|].
    + split; [|auto]. eapply pcok_mono; [|exact A]. intros n2 nd2 X Y. rewrite X in En. injection En as ->. destruct (HS _ _ Y) as [Z|Z]; [congruence|exact Z].
    + split; [split; [intros ? X; discriminate X|exact I]|]. cbn. split; [reflexivity|]. destruct (m_pc x); lia.
    + split; [|auto]. eapply pcok_mono; [|exact A]. intros n2 nd2 X Y. congruence.
  - intros m Hm. cbn [msgs] in Hm. rewrite map_length in Hm. destruct (H0 m) as [K1 K2]. rewrite forwards_app, ended_app, K1, K2, !Nat.add_0_r. exact (HN _ Hm).
  - intros y Hy. apply in_app_or in Hy as [Hy|Hy]; [eapply evok_mono; [exact HG|exact (HE _ Hy)]|]. destruct (Hev _ Hy) as (z & ->). exact I.
Qed.
Lemma map_upd {A B} (f : A -> B) l i x y : nth_error l i = Some y -> f x = f y -> map f (upd l i x) = map f l.
Proof. revert i. induction l as [|a l IH]; intros [|i] H E; try discriminate; cbn in *; [injection H as ->; now rewrite E|]. f_equal. now apply IH. Qed.
Lemma not_held n nd id r : aget n (nds r) = Some nd -> aget id (n_map nd) = None -> ~ holds n id r.
Proof. intros A B (nd' & k & C & D). congruence. Qed.
Lemma not_held_type n nd ty r : aget n (nds r) = Some nd -> existsb (fun p => of_type r ty (snd p)) (n_map nd) = false -> ~ holds_type n ty r.
Proof.
  intros A B (nd' & id & k & i & C & D & E & F). assert (nd' = nd) as -> by congruence.
  assert (X : existsb (fun p => of_type r ty (snd p)) (n_map nd) = true); [|congruence].
  apply existsb_exists. assert (In (id, k) (n_map nd)).
  { clear -D. revert D. generalize (n_map nd). intros l. induction l as [|[a b] l IH]; [discriminate|]. cbn. destruct (String.eqb_spec id a) as [->|]; [intros X; injection X as ->; now left|right; auto]. }
  exists (id, k). split; [assumption|]. unfold of_type. cbn. rewrite E. now apply String.eqb_eq.
Qed.
Lemma mp_of r n nd id k : aget n (nds r) = Some nd -> aget id (n_map nd) = Some k -> mp r n id = Some k.
Proof. intros A B. unfold mp. now rewrite A. Qed.
Lemma one_ended m e : ended m [e] = (if ends m e then 1 else 0).
Proof. unfold ended. cbn. destruct (ends m e); reflexivity. Qed.
Ltac later_same := repeat split; cbn; lia.
Ltac quiet := intros kk Hkk; unfold forwards, ended; cbn; rewrite ?(proj2 (Nat.eqb_neq _ _) (not_eq_sym Hkk)); split; reflexivity.
Ltac counts := unfold forwards, ended; cbn; rewrite ?Nat.eqb_refl; cbn; lia.

Lemma inv_goto sched evs s l m x p e : Inv sched evs s -> nth_error (msgs s) m = Some x -> m_pc x <> MDone ->
  pcok (sched ++ [l]) (reg s) (mkM (m_org x) (m_sym x) (m_ty x) (m_hops x) p) -> forwards m e = 0 -> ended m e <= match p with MDone => 1 | _ => 0 end ->
  (forall k, k <> m -> forwards k e = 0 /\ ended k e = 0) -> (forall y, In y e -> evok (sched ++ [l]) (goto_m s m x p) y) ->
  Inv (sched ++ [l]) (evs ++ e) (goto_m s m x p).
Proof.
  intros HI Hx Hd Hp Hf He Hk Hev. pose proof HI as (HJ & HK & _). unfold goto_m, setm. eapply inv_move; try eassumption.
  - later_same.
  - auto.
  - intros y. apply stable_refl.
  - cbn. lia.
Qed.
Lemma inv_silent sched evs s l m x p : Inv sched evs s -> nth_error (msgs s) m = Some x -> m_pc x <> MDone ->
  pcok (sched ++ [l]) (reg s) (mkM (m_org x) (m_sym x) (m_ty x) (m_hops x) p) -> Inv (sched ++ [l]) (evs ++ []) (goto_m s m x p).
Proof. intros HI Hx Hd Hp. eapply inv_goto; try eassumption; [reflexivity|cbn; lia|now split|intros y []]. Qed.
Lemma inv_fail sched evs s l m x n ok : Inv sched evs s -> nth_error (msgs s) m = Some x -> m_pc x <> MDone ->
  (ok = true -> 0 < m_hops x) -> Inv (sched ++ [l]) (evs ++ [EUndelivered m n ok]) (goto_m s m x MDone).
Proof.
  intros HI Hx Hd Hok. eapply inv_goto; try eassumption.
  - split; [intros ? X; discriminate X|exact I].
  - reflexivity.
  - counts.
  - quiet.
  - intros y [<-|[]]. intros X. eexists. split; [eapply nth_upd_self; exact Hx|exact (Hok X)].
Qed.
Lemma inv_deliver sched evs s l m x n k : Inv sched evs s -> nth_error (msgs s) m = Some x -> m_pc x <> MDone ->
  evok (sched ++ [l]) (goto_m s m x MDone) (EDeliver m n k) -> Inv (sched ++ [l]) (evs ++ [EDeliver m n k]) (goto_m s m x MDone).
Proof.
  intros HI Hx Hd Hok. eapply inv_goto; try eassumption.
  - split; [intros ? X; discriminate X|exact I].
  - reflexivity.
  - counts.
  - quiet.
  - intros y [<-|[]]. exact Hok.
Qed.

Lemma inv_sstep sched evs s l s' e : run sstep sinit sched = Some (s, evs) -> Inv sched evs s -> sstep s l = Some (s', e) -> Inv (sched ++ [l]) (evs ++ e) s'.
Proof.
  intros Hr HI H. pose proof HI as (HJ & HK & HM & HN & HE).
  destruct l as [l|n sym ty|m|m id|m smp|m|m n'|m]; cbn [SysModel.sstep] in H.
  1: { destruct (step factory (reg s) l) as [[r e1]|] eqn:Es; [|discriminate]. injection H as <- <-.
       apply inv_lose; [exact HI|eapply J_step; eassumption|eapply K_step; eassumption|intros; eapply actor_step; eassumption|intros; eapply ep_step; eassumption|].
       intros y Hy. apply in_map_iff in Hy as (z & <- & _). now exists z. }
  1: { destruct (aget n (nds (reg s))) as [nd|] eqn:End; [|discriminate]. injection H as <- <-.
       assert (HG : grows s (mkSys (reg s) (msgs s ++ [mkM n sym ty 0 (MAt n)]))).
       { split; [|auto]. intros m x X. exists x. split; [now apply nth_snoc_old|later_same]. }
       split; [exact HJ|]. split; [exact HK|]. split; [|split].
       - intros m x X. cbn [msgs reg] in *. unfold cntok. rewrite forwards_app, ended_app. apply nth_snoc in X as [[-> ->]|X].
         + destruct (HN (List.length (msgs s)) (le_n _)) as [-> ->]. split; [split; [intros n2 X; injection X as <-; now exists nd|exact I]|]. cbn. split; [reflexivity|lia].
         + destruct (HM _ _ X) as [A [B1 B2]]. split; [eapply pcok_mono; [apply stable_refl|exact A]|]. cbn. rewrite !Nat.add_0_r. auto.
       - intros m X. cbn [msgs] in X. rewrite app_length in X. cbn in X. destruct (HN m) as [A B]; [lia|]. rewrite forwards_app, ended_app, A, B. cbn. auto.
       - intros y Hy. apply in_app_or in Hy as [Hy|[<-|[]]]; [eapply evok_mono; [exact HG|exact (HE _ Hy)]|].
         cbn. eexists. rewrite nth_error_app2 by lia. rewrite Nat.sub_diag. split; [reflexivity|auto]. }
  all: unfold on_msg in H; destruct (nth_error (msgs s) m) as [x|] eqn:Hx; [|discriminate]; destruct (at_node (m_pc x)) as [n|] eqn:En; [|discriminate];
    destruct (aget n (nds (reg s))) as [nd|] eqn:End; [|discriminate]; destruct (HM _ _ Hx) as [[P1 P2] [C1 C2]];
    assert (Hself : forall y, nth_error (upd (msgs s) m y) m = Some y) by (intros y; eapply nth_upd_self; exact Hx).
  all: assert (Hnd : m_pc x <> MDone) by (intros X; rewrite X in En; discriminate En).
  - (* the next statement *)
    unfold hop in H. destruct (m_pc x) as [n1|n1|n1 r|n1 [a|]|n1 tt|] eqn:Ep; try discriminate; cbn in En; injection En as ->.
    + destruct (String.eqb_spec (m_sym x) "") as [E0|E0]; [injection H as <- <-; apply inv_fail; auto; [congruence|unfold swallowed; destruct (m_hops x); cbn; [discriminate|lia]]|].
      destruct (String.eqb_spec (m_sym x) "?") as [E1|E1]; [discriminate|]. destruct (String.eqb_spec (m_sym x) "~") as [E2|E2]; [discriminate|]. cbn [orb] in H.
      destruct (aget (m_sym x) (n_map nd)) as [k|] eqn:Ek; injection H as <- <-.
      * apply inv_deliver; auto; [congruence|]. eexists. split; [apply Hself|]. cbn. split; [exact E0|]. split; [|split; [intros X; congruence|intros X; congruence]].
        intros _. apply (proj1 HJ n (m_sym x) k). eapply mp_of; eassumption.
      * apply inv_silent; auto; [congruence|]. split; [intros n2 X; injection X as <-; now exists nd|]. cbn. repeat split; auto; [intros X; congruence|].
        intros _. apply passed_snoc. eapply passed_now; [exact Hr|]. eapply not_held; eassumption.
    + destruct P2 as (Q1 & Q2 & Q3 & Q4). destruct (String.eqb_spec (m_sym x) "~") as [E2|E2]; [discriminate|]. injection H as <- <-.
      apply inv_silent; auto; [congruence|]. split; [intros n2 X; injection X as <-; now exists nd|]. cbn. intros a Ha. split; [exact Q1|]. split; [intros X; congruence|]. split; [intros X; congruence|].
      intros _. unfold GetByID in Ha. destruct (String.eqb_spec (m_sym x) ""); [congruence|]. destruct (existsb _ _).
      * injection Ha as <-. cbn. split; [reflexivity|]. split; [now apply passed_snoc, Q4|]. right. exists nd. auto.
      * destruct (aget (m_sym x) (ids (st (reg s)))) as [b|] eqn:Eb; [|discriminate]. injection Ha as ->. split; [exact (proj1 HK _ _ Eb)|]. split; [now apply passed_snoc, Q4|].
        left. apply passed_snoc. eapply passed_now; [exact Hr|]. exists a. auto.
    + destruct P2 as (Q1 & Q2). destruct (aget (match r with Ok a => a_id a | Err => "" end) (n_map nd)) as [k|] eqn:Ek; injection H as <- <-.
      * apply inv_deliver; auto; [congruence|]. eexists. split; [apply Hself|]. cbn. rewrite Q1. split; [discriminate|]. split; [intros (_ & X & _); congruence|]. split; [intros _|discriminate].
        destruct (proj1 HJ _ _ _ (mp_of _ _ _ _ _ End Ek)) as (X1 & ty' & X2). destruct r as [a|]; [|congruence]. exists a, ty'. split; [now apply passed_snoc, Q2|exact X2].
      * apply inv_silent; auto; [congruence|]. split; [intros n2 X; injection X as <-; now exists nd|]. cbn. rewrite Q1. intros a ->. split; [discriminate|]. split; [|split; [discriminate|intros (_ & X & _); congruence]].
        intros _. split; [now apply passed_snoc, Q2|]. apply passed_snoc. eapply passed_now; [exact Hr|]. eapply not_held; eassumption.
    + destruct (Nat.eqb_spec (a_ep a) (n_ep nd)) as [Ee|]; [|discriminate]. destruct (P2 _ eq_refl) as (Q1 & Q2 & Q3 & Q4). destruct (factory (m_ty x)) as [w|].
      * injection H as <- <-. unfold setm. eapply inv_move; try eassumption.
        -- later_same.
        -- apply J_call; [exact HJ|exact I].
        -- apply K_call; [exact HK|exact I].
        -- intros k n2 id2 ty2 X. exact X.
        -- intros y n2 nd2 _ X. exists nd2. split; [exact X|reflexivity].
        -- split; [intros n2 X; injection X as <-; now exists nd|exact I].
        -- reflexivity.
        -- congruence.
        -- cbn. lia.
        -- quiet.
        -- intros y [<-|[]]. eexists. split; [apply Hself|]. cbn. split; [exact Q1|]. split; [|split].
           ++ intros X. destruct (Q4 X) as (X1 & X2 & _). split; [exact X1|]. rewrite X1. now apply passed_snoc.
           ++ intros X. destruct (Q2 X). now apply passed_snoc.
           ++ intros X. destruct (Q3 X). now apply passed_snoc.
      * destruct (m_hops x =? 0)%nat eqn:Eh; injection H as <- <-.
        -- unfold setm. erewrite map_upd; [|exact Hx|].
           { apply inv_lose; [exact HI|now apply J_die|now apply K_die|intros; now apply actor_die|intros; now apply ep_die|]. intros y [<-|[]]. now exists (EPanic n). }
           unfold lose. rewrite Ep. cbn [at_node m_pc nds die]. rewrite aget_adel, String.eqb_refl. reflexivity.
        -- apply inv_fail; auto; [congruence|]. intros _. apply Nat.eqb_neq in Eh. lia.
    + injection H as <- <-. apply inv_fail; auto; [congruence|]. unfold swallowed. destruct (m_hops x); cbn; [discriminate|lia].
    + destruct (nth_error (calls (reg s)) tt) as [c|]; [|discriminate]. destruct (c_pc c); try discriminate. injection H as <- <-. apply inv_fail; auto; [congruence|]. unfold swallowed. destruct (m_hops x); cbn; [discriminate|lia].
  - (* scan *)
    destruct (m_pc x) as [n1|n1|n1 r|n1 r|n1 tt|] eqn:Ep; try discriminate; cbn in En; injection En as ->. destruct (String.eqb_spec (m_sym x) "~") as [E2|E2]; [|discriminate].
    destruct id as [id|].
    + destruct (aget id (n_map nd)) as [k|] eqn:Ek; [|discriminate]. destruct (of_type (reg s) (m_ty x) k) eqn:Eo; [|discriminate]. injection H as <- <-.
      apply inv_deliver; auto; [congruence|]. eexists. split; [apply Hself|]. cbn. rewrite E2. split; [discriminate|]. split; [intros (_ & _ & X); congruence|]. split; [discriminate|].
      intros _. destruct (proj1 HJ _ _ _ (mp_of _ _ _ _ _ End Ek)) as (X1 & ty' & z & X2). exists id, z. unfold of_type in Eo. rewrite X2 in Eo. cbn in Eo. apply String.eqb_eq in Eo. now rewrite <- Eo.
    + destruct (existsb _ _) eqn:Eo; [discriminate|]. injection H as <- <-. apply inv_silent; auto; [congruence|]. split; [intros n2 X; injection X as <-; now exists nd|]. cbn. rewrite E2. repeat split; try discriminate.
      * intros _. apply passed_snoc. eapply passed_now; [exact Hr|]. eapply not_held_type; eassumption.
      * intros X. congruence.
  - (* pick *)
    destruct (is_sample _ _) eqn:Ei; [|discriminate]. destruct (m_pc x) as [n1|n1|n1 r|n1 r|n1 tt|] eqn:Ep; try discriminate; cbn in En; injection En as ->.
    + destruct (String.eqb_spec (m_sym x) "?") as [E1|E1]; [|discriminate]. injection H as <- <-. apply inv_silent; auto; [congruence|]. split; [intros n2 X; injection X as <-; now exists nd|]. cbn. split; [exact E1|].
      intros a Ha. apply passed_snoc. eapply passed_now; [exact Hr|]. eapply wildcard_listed; eassumption.
    + destruct (String.eqb_spec (m_sym x) "~") as [E1|E1]; [|discriminate]. injection H as <- <-. destruct P2 as (Q1 & Q2 & Q3 & Q4). apply inv_silent; auto; [congruence|]. split; [intros n2 X; injection X as <-; now exists nd|].
      cbn. rewrite E1. intros a Ha. split; [discriminate|]. split; [discriminate|]. split; [|intros (_ & _ & X); congruence]. intros _. split; [|now apply passed_snoc, Q3].
      apply passed_snoc. eapply passed_now; [exact Hr|]. eapply wildcard_listed; eassumption.
  - (* book error *)
    destruct (m_pc x) as [n1|n1|n1 r|n1 r|n1 tt|] eqn:Ep; try discriminate; cbn in En; injection En as ->.
    + destruct (String.eqb_spec (m_sym x) "?") as [E1|E1]; [|discriminate]. injection H as <- <-. apply inv_silent; auto; [congruence|]. split; [intros n2 X; injection X as <-; now exists nd|]. cbn. split; [exact E1|]. discriminate.
    + injection H as <- <-. apply inv_silent; auto; [congruence|]. split; [intros n2 X; injection X as <-; now exists nd|]. discriminate.
  - (* forward *)
    destruct (m_pc x) as [n1|n1|n1 r|n1 [a|]|n1 tt|] eqn:Ep; try discriminate; cbn in En; injection En as ->; try discriminate.
    destruct (aget n' (nds (reg s))) as [nd'|] eqn:End'; [|discriminate]. destruct (Nat.eqb_spec (a_ep a) (n_ep nd)) as [|Ee]; [discriminate|]. cbn [negb andb] in H. destruct (Nat.eqb_spec (a_ep a) (n_ep nd')) as [Ee'|]; [|discriminate].
    injection H as <- <-. destruct (P2 _ eq_refl) as (Q1 & Q2 & Q3 & Q4). eapply inv_move; try eassumption.
    + repeat split; cbn; lia.
    + auto.
    + intros y. apply stable_refl.
    + split; [intros n2 X; injection X as <-; now exists nd'|exact I].
    + counts.
    + congruence.
    + cbn. lia.
    + quiet.
    + intros y [<-|[]]. eexists _, (a_ep a). split; [apply Hself|]. cbn. split; [exact Q1|]. split; [apply passed_snoc; eapply passed_now; [exact Hr|exists nd'; auto]|]. split; [|split].
      * intros X. destruct (Q4 X) as (_ & X2 & X3). split; [now apply passed_snoc|]. destruct X3 as [X3|(nd2 & X3 & X4)]; [now apply passed_snoc|]. congruence.
      * intros X. exists a. destruct (Q2 X). split; [now apply passed_snoc|]. split; [reflexivity|now apply passed_snoc].
      * intros X. exists a. destruct (Q3 X). split; [now apply passed_snoc|]. split; [reflexivity|now apply passed_snoc].
  - (* net error *)
    destruct (m_pc x) as [n1|n1|n1 r|n1 [a|]|n1 tt|] eqn:Ep; try discriminate; cbn in En; injection En as ->; try discriminate.
    destruct (_ =? _)%nat; [discriminate|]. injection H as <- <-. apply inv_fail; auto; [congruence|]. unfold swallowed. destruct (m_hops x); cbn; [discriminate|lia].
Qed.
Lemma inv_reach sched s evs : run sstep sinit sched = Some (s, evs) -> Inv sched evs s.
Proof.
  apply (run_inv sstep sinit Inv).
  - split; [split; [discriminate|intros [|t] c b X; discriminate X]|]. split; [split; [discriminate|intros [|t] c X; discriminate X]|]. split; [intros [|m] x X; discriminate X|]. split; [now split|intros e []].
  - intros. eapply inv_sstep; eassumption.
Qed.

(** ** Every message was called for *)
Lemma called sched s evs : run sstep sinit sched = Some (s, evs) -> forall m x, nth_error (msgs s) m = Some x -> In (ECalled m (m_org x) (m_sym x) (m_ty x)) evs.
Proof.
  apply (run_inv sstep sinit (fun _ evs s => forall m x, nth_error (msgs s) m = Some x -> In (ECalled m (m_org x) (m_sym x) (m_ty x)) evs)); [intros [|m] x X; discriminate X|].
  clear. intros sched evs s l s' e _ IH H m2 x2 X2. rewrite in_app_iff.
  assert (Hmove : forall m x x', nth_error (msgs s) m = Some x -> later x x' -> nth_error (upd (msgs s) m x') m2 = Some x2 -> In (ECalled m2 (m_org x2) (m_sym x2) (m_ty x2)) evs).
  { intros m x x' A (B1 & B2 & B3 & _) C. eapply nth_upd_case in C as [[-> ->]|[_ C]]; [|apply IH; exact C|exact A]. rewrite B1, B2, B3. now apply IH. }
  assert (Hlose : forall r ms, (forall x, nth_error ms m2 = Some x -> In (ECalled m2 (m_org x) (m_sym x) (m_ty x)) evs) -> nth_error (map (lose r) ms) m2 = Some x2 -> In (ECalled m2 (m_org x2) (m_sym x2) (m_ty x2)) evs).
  { intros r ms A B. rewrite nth_error_map in B. destruct (nth_error ms m2) as [y|] eqn:Ey; [|discriminate]. injection B as <-. destruct (lose_later r y) as (-> & -> & -> & _). now apply A. }
  destruct l as [l|n sym ty|m|m id|m smp|m|m n'|m]; cbn [SysModel.sstep] in H.
  1: { destruct (step factory (reg s) l) as [[r e1]|]; [|discriminate]. injection H as <- <-. left. eapply Hlose; [|exact X2]. intros x. apply IH. }
  1: { destruct (aget n (nds (reg s))); [|discriminate]. injection H as <- <-. cbn [msgs] in X2. apply nth_snoc in X2 as [[-> ->]|X2]; [right; now left|left; now apply IH]. }
  all: unfold on_msg in H; destruct (nth_error (msgs s) m) as [x|] eqn:Hx; [|discriminate]; destruct (at_node (m_pc x)) as [n|] eqn:En; [|discriminate];
    destruct (aget n (nds (reg s))) as [nd|] eqn:End; [|discriminate].
  all: left; unfold hop in H.
  all: repeat match type of H with
       | match ?y with _ => _ end = _ => destruct y; try discriminate
       | (if ?y then _ else _) = _ => destruct y; try discriminate
       end; injection H as <- <-; cbn [msgs goto_m] in X2; unfold setm in X2;
    try (eapply Hmove; [exact Hx| |exact X2]; repeat split; cbn; lia).
  all: eapply Hlose; [|exact X2]; intros y Hy; eapply nth_upd_case in Hy as [[-> ->]|[_ Hy]]; [|apply IH; exact Hy|exact Hx]; cbn; now apply IH.
Qed.
Lemma panic_unknown sched s evs l s' e n : run sstep sinit sched = Some (s, evs) -> calm l -> sstep s l = Some (s', e) -> In (EReg (EPanic n)) e ->
  exists m o sy ty, In (ECalled m o sy ty) evs /\ factory ty = None.
Proof.
  intros Hr Hl H Hp. destruct l as [l|n0 sym ty|m|m id|m smp|m|m n'|m]; cbn [SysModel.sstep] in H; [destruct Hl|..].
  { destruct (aget n0 (nds (reg s))); [|discriminate]. injection H as <- <-. destruct Hp as [X|[]]; discriminate X. }
  all: unfold on_msg in H; destruct (nth_error (msgs s) m) as [x|] eqn:Hx; [|discriminate]; destruct (at_node (m_pc x)) as [n1|] eqn:En; [|discriminate];
    destruct (aget n1 (nds (reg s))) as [nd|] eqn:End; [|discriminate].
  { destruct (factory (m_ty x)) eqn:Ef; [|exists m, (m_org x), (m_sym x), (m_ty x); split; [eapply called; eassumption|exact Ef]].
    unfold hop in H. rewrite Ef in H.
    repeat match type of H with
       | match ?y with _ => _ end = _ => destruct y; try discriminate
       | (if ?y then _ else _) = _ => destruct y; try discriminate
       end; injection H as <- <-; cbn in Hp; repeat destruct Hp as [Hp|Hp]; try contradiction; discriminate Hp. }
  all: repeat match type of H with
       | match ?y with _ => _ end = _ => destruct y; try discriminate
       | (if ?y then _ else _) = _ => destruct y; try discriminate
       end; injection H as <- <-; cbn in Hp; repeat destruct Hp as [Hp|Hp]; try contradiction; discriminate Hp.
Qed.

(** ** Plain ids, while nothing is registered *)
Definition direct (r : state) (x : msg) : Prop :=
  match m_pc x with MPicked _ _ => m_sym x = "?" | _ => True end /\
  (forall n, at_node (m_pc x) = Some n -> exists nd, aget n (nds r) = Some nd) /\
  (plain (m_sym x) ->
   (m_hops x = 0 /\ forall n a, m_pc x = MInfo n (Ok a) -> aget (m_sym x) (ids (st r)) = Some a \/ ep_of n (a_ep a) r) \/
   (m_hops x = 1 /\ forall n, at_node (m_pc x) = Some n -> (exists a, aget (m_sym x) (ids (st r)) = Some a /\ ep_of n (a_ep a) r) /\
                     forall a, m_pc x = MInfo n (Ok a) -> ep_of n (a_ep a) r)).
Lemma direct_step k s l s' e : calm l -> (forall m x, k <= m -> nth_error (msgs s) m = Some x -> direct (reg s) x) -> k <= List.length (msgs s) -> sstep s l = Some (s', e) ->
  k <= List.length (msgs s') /\ forall m x, k <= m -> nth_error (msgs s') m = Some x -> direct (reg s') x.
Proof.
  intros Hl HD Hk H. destruct l as [l|n sym ty|m|m id|m smp|m|m n'|m]; cbn [SysModel.sstep] in H; [destruct Hl|..].
  { destruct (aget n (nds (reg s))) as [nd|] eqn:End; [|discriminate]. injection H as <- <-. cbn [msgs reg]. split; [rewrite app_length; lia|]. intros m x Hm X. apply nth_snoc in X as [[-> ->]|X]; [|eapply HD; eassumption].
    split; [exact I|]. split; [intros n2 Y; injection Y as <-; now exists nd|]. intros _. left. split; [reflexivity|discriminate]. }
  all: unfold on_msg in H; destruct (nth_error (msgs s) m) as [x|] eqn:Hx; [|discriminate]; destruct (at_node (m_pc x)) as [n|] eqn:En; [|discriminate];
    destruct (aget n (nds (reg s))) as [nd|] eqn:End; [|discriminate].
  all: assert (Hmove : forall r' x', st r' = st (reg s) -> nds r' = nds (reg s) -> (k <= m -> direct (reg s) x -> direct r' x') ->
    k <= List.length (upd (msgs s) m x') /\ forall m2 x2, k <= m2 -> nth_error (upd (msgs s) m x') m2 = Some x2 -> direct r' x2).
  1,3,5,7,9,11: (intros r' x' Es Ed Hx'; split; [now rewrite upd_length|]; intros m2 x2 Hm2 X2; eapply nth_upd_case in X2 as [[-> ->]|[_ X2]]; [| |exact Hx];
    [apply Hx'; [exact Hm2|eapply HD; eassumption]|specialize (HD _ _ Hm2 X2); unfold direct, ep_of in *; rewrite Es, Ed; exact HD]).
  all: assert (Hdone : forall x0, direct (reg s) x -> x0 = mkM (m_org x) (m_sym x) (m_ty x) (m_hops x) MDone -> direct (reg s) x0)
    by (intros x0 (_ & A & B) ->; split; [exact I|]; split; [discriminate|]; cbn; intros P; destruct (B P) as [[C _]|[C _]]; [left|right]; (split; [exact C|discriminate])).
  all: assert (Hsame : forall p, at_node p = Some n -> (forall a, p <> MInfo n (Ok a)) -> match p with MPicked _ _ => m_sym x = "?" | _ => True end -> direct (reg s) x -> direct (reg s) (mkM (m_org x) (m_sym x) (m_ty x) (m_hops x) p))
    by (intros p Hp Hi Hq (_ & A & B); split; [exact Hq|]; split; [cbn; intros n2 X; apply A; congruence|]; cbn; intros P; destruct (B P) as [[C D]|[C D]]; [left; split; [exact C|]; intros n2 a X; exfalso; apply (Hi a); rewrite X in Hp |- *; cbn in Hp; congruence|
        right; split; [exact C|]; intros n2 X; assert (n2 = n) as -> by congruence; destruct (D n) as [D1 D2]; [congruence|]; split; [exact D1|]; intros a Y; now destruct (Hi a)]).
  - unfold hop in H. destruct (m_pc x) as [n1|n1|n1 r|n1 [a|]|n1 tt|] eqn:Ep; try discriminate; cbn in En; injection En as ->.
    + destruct (m_sym x =? ""); [injection H as <- <-; apply Hmove; auto|]. destruct (_ || _); [discriminate|]. destruct (aget (m_sym x) (n_map nd)); injection H as <- <-; apply Hmove; auto. intros _. apply Hsame; [reflexivity|discriminate|exact I].
    + destruct (m_sym x =? "~"); [discriminate|]. injection H as <- <-. apply Hmove; auto. intros _ (_ & A & B). split; [exact I|]. split; [cbn; intros n2 X; injection X as <-; now exists nd|]. cbn. intros P.
      assert (HG : forall a, GetByID n (n_ep nd) (n_ids nd) (st (reg s)) (m_sym x) = Ok a -> aget (m_sym x) (ids (st (reg s))) = Some a \/ ep_of n (a_ep a) (reg s)).
      { unfold GetByID. intros a. destruct (_ =? _); [discriminate|]. destruct (existsb _ _); [intros X; injection X as <-; right; exists nd; auto|]. destruct (aget _ (ids (st (reg s)))) eqn:Eg; [|discriminate]. intros X. injection X as ->. now left. }
      destruct (B P) as [[C D]|[C D]].
      * left. split; [exact C|]. intros n2 a X. injection X as <- X. apply HG. exact X.
      * right. split; [exact C|]. intros n2 X. injection X as <-. destruct (D n) as [D1 _]; [now rewrite Ep|]. split; [exact D1|]. intros a X. injection X as X. destruct (HG _ X) as [Y|Y]; [|exact Y].
        destruct D1 as (a' & D1 & D2). assert (a' = a) as -> by congruence. exact D2.
    + destruct (aget _ (n_map nd)); injection H as <- <-; apply Hmove; auto. intros _ (E & A & B). rewrite Ep in E. split; [exact I|]. split; [cbn; intros n2 X; injection X as <-; now exists nd|]. cbn. intros (_ & P & _). congruence.
    + destruct (_ =? _)%nat; [|discriminate]. destruct (factory (m_ty x)); [injection H as <- <-; apply (Hmove (set_calls _ _)); auto; intros _; apply Hsame; [reflexivity|discriminate|exact I]|].
      destruct (_ =? _)%nat; injection H as <- <-; [|apply Hmove; auto]. cbn [msgs reg]. rewrite map_length. unfold setm. rewrite upd_length. split; [exact Hk|].
      intros m2 x2 Hm2 X2. rewrite nth_error_map in X2. destruct (nth_error (upd (msgs s) m _) m2) as [y|] eqn:Ey; [|discriminate]. injection X2 as <-.
      assert (HDy : direct (reg s) y). { eapply nth_upd_case in Ey as [[-> ->]|[_ Ey]]; [| |exact Hx]; [eapply Hdone; [eapply HD; eassumption|reflexivity]|eapply HD; eassumption]. }
      clear -HDy. destruct HDy as (E & A & B). unfold lose. destruct (at_node (m_pc y)) as [n2|] eqn:En2; [destruct (aget n2 (nds (die (reg s) n))) as [nd2|] eqn:End2|].
      * assert (Hep : forall z, ep_of n2 z (reg s) -> ep_of n2 z (die (reg s) n)).
        { intros z (nd3 & Z1 & Z2). destruct (ep_die (reg s) n n2 nd3 Z1) as [Z|(nd4 & Z3 & Z4)]; [congruence|]. exists nd4. split; [exact Z3|congruence]. }
        split; [exact E|]. split; [intros n3 X; assert (n3 = n2) as -> by congruence; now exists nd2|]. intros P. destruct (B P) as [[C D]|[C D]]; [left|right]; split; try exact C.
        -- intros n3 a X. destruct (D _ _ X) as [Y|Y]; [now left|right]. rewrite X in En2. cbn in En2. injection En2 as ->. now apply Hep.
        -- intros n3 X. assert (n3 = n2) as -> by congruence. destruct (D n2 eq_refl) as [(a & D1 & D2) D3]. split; [exists a; auto|]. intros a' Y. apply Hep, D3, Y.
      * split; [exact I|]. split; [discriminate|]. cbn. intros P. destruct (B P) as [[C _]|[C _]]; [left|right]; (split; [exact C|discriminate]).
      * split; [exact E|]. split; [congruence|]. intros P. destruct (B P) as [[C D]|[C D]]; [left|right]; split; try exact C; try congruence. intros n3 a X. rewrite X in En2. discriminate En2.
    + injection H as <- <-. apply Hmove; auto.
    + destruct (nth_error _ tt) as [c|]; [|discriminate]. destruct (c_pc c); try discriminate. injection H as <- <-. apply Hmove; auto.
  - destruct (m_pc x) as [n1|n1|n1 r|n1 r|n1 tt|] eqn:Ep; try discriminate; cbn in En; injection En as ->. destruct (m_sym x =? "~"); [|discriminate]. destruct id as [id|].
    + destruct (aget id (n_map nd)); [|discriminate]. destruct (of_type _ _ _); [|discriminate]. injection H as <- <-. apply Hmove; auto.
    + destruct (existsb _ _); [discriminate|]. injection H as <- <-. apply Hmove; auto. intros _. apply Hsame; [reflexivity|discriminate|exact I].
  - destruct (is_sample _ _); [|discriminate]. destruct (m_pc x) as [n1|n1|n1 r|n1 r|n1 tt|] eqn:Ep; try discriminate; cbn in En; injection En as ->.
    + destruct (String.eqb_spec (m_sym x) "?") as [E1|]; [|discriminate]. injection H as <- <-. apply Hmove; auto. intros _. apply Hsame; [reflexivity|discriminate|exact E1].
    + destruct (String.eqb_spec (m_sym x) "~") as [E1|]; [|discriminate]. injection H as <- <-. apply Hmove; auto. intros _ _. split; [exact I|]. split; [cbn; intros n2 X; injection X as <-; now exists nd|]. cbn. intros (_ & _ & P). congruence.
  - destruct (m_pc x) as [n1|n1|n1 r|n1 r|n1 tt|] eqn:Ep; try discriminate; cbn in En; injection En as ->.
    + destruct (String.eqb_spec (m_sym x) "?") as [E1|]; [|discriminate]. injection H as <- <-. apply Hmove; auto. intros _. apply Hsame; [reflexivity|discriminate|exact E1].
    + injection H as <- <-. apply Hmove; auto. intros _. apply Hsame; [reflexivity|discriminate|exact I].
  - destruct (m_pc x) as [n1|n1|n1 r|n1 [a|]|n1 tt|] eqn:Ep; try discriminate; cbn in En; injection En as ->; try discriminate.
    destruct (aget n' (nds (reg s))) as [nd'|] eqn:End'; [|discriminate]. destruct (Nat.eqb_spec (a_ep a) (n_ep nd)) as [|Ee]; [discriminate|]. cbn [negb andb] in H. destruct (Nat.eqb_spec (a_ep a) (n_ep nd')) as [Ee'|]; [|discriminate].
    injection H as <- <-. apply Hmove; auto. intros _ (_ & A & B). split; [exact I|]. split; [cbn; intros n2 X; injection X as <-; now exists nd'|]. cbn. intros P. destruct (B P) as [[C D]|[C D]].
    + right. split; [now rewrite C|]. intros n2 X. injection X as <-. split; [|discriminate]. exists a. destruct (D _ _ Ep) as [Y|(nd2 & Y1 & Y2)]; [|congruence]. split; [exact Y|]. exists nd'. auto.
    + destruct (D n) as [_ D2]; [now rewrite Ep|]. destruct (D2 _ Ep) as (nd2 & Y1 & Y2). congruence.
  - destruct (m_pc x) as [n1|n1|n1 r|n1 [a|]|n1 tt|] eqn:Ep; try discriminate; cbn in En; injection En as ->; try discriminate. destruct (_ =? _)%nat; [discriminate|]. injection H as <- <-. apply Hmove; auto.
Qed.
Lemma one_forward pre s0 e0 sched s evs m o id ty : run sstep sinit pre = Some (s0, e0) -> run sstep s0 sched = Some (s, evs) -> Forall calm sched ->
  In (ECalled m o id ty) evs -> plain id -> forwards m evs <= 1.
Proof.
  intros H0 H Hc Hm Hp. pose proof (run_app _ _ _ _ _ _ _ _ H0 H) as Hall. destruct (inv_reach _ _ _ H0) as (_ & _ & _ & HN & _). destruct (inv_reach _ _ _ Hall) as (_ & _ & HM & _ & HE).
  destruct (HE (ECalled m o id ty)) as (x & X1 & X2 & X3 & X4); [apply in_or_app; now right|].
  assert (Hnew : forall sched s evs, run sstep s0 sched = Some (s, evs) -> List.length (msgs s0) <= List.length (msgs s) /\ (forall m o id ty, In (ECalled m o id ty) evs -> List.length (msgs s0) <= m)).
  { clear. intros sched s evs. apply (run_inv sstep s0 (fun _ evs s => List.length (msgs s0) <= List.length (msgs s) /\ (forall m o id ty, In (ECalled m o id ty) evs -> List.length (msgs s0) <= m))); [split; [lia|intros ? ? ? ? []]|].
    clear. intros sched evs s l s' e _ [IH1 IH2] H.
    assert (HL : List.length (msgs s) <= List.length (msgs s') /\ forall m o id ty, In (ECalled m o id ty) e -> m = List.length (msgs s)).
    { destruct l as [l|n sym ty|m|m id|m smp|m|m n'|m]; cbn [SysModel.sstep] in H.
      1: { destruct (step factory (reg s) l) as [[r e1]|]; [|discriminate]. injection H as <- <-. cbn [msgs]. rewrite map_length. split; [lia|]. intros ? ? ? ? X. apply in_map_iff in X as (? & X & _). discriminate X. }
      1: { destruct (aget n (nds (reg s))); [|discriminate]. injection H as <- <-. cbn [msgs]. rewrite app_length. split; [lia|]. intros ? ? ? ? [X|[]]. congruence. }
      all: unfold on_msg, hop in H;
      repeat match type of H with
       | match ?y with _ => _ end = _ => destruct y; try discriminate
       | (if ?y then _ else _) = _ => destruct y; try discriminate
       end; injection H as <- <-; cbn [msgs goto_m]; unfold setm; rewrite ?map_length, ?upd_length; (split; [lia|]); intros ? ? ? ? X; cbn in X; repeat destruct X as [X|X]; try contradiction; discriminate X. }
    destruct HL as [L1 L2]. split; [lia|]. intros m o id ty X. apply in_app_or in X as [X|X]; [eapply IH2; exact X|]. rewrite (L2 _ _ _ _ X). exact IH1. }
  assert (HD : Forall calm sched -> List.length (msgs s0) <= List.length (msgs s) /\ forall m x, List.length (msgs s0) <= m -> nth_error (msgs s) m = Some x -> direct (reg s) x).
  { revert H. clear. apply (run_inv sstep s0 (fun sched _ s => Forall calm sched -> List.length (msgs s0) <= List.length (msgs s) /\ forall m x, List.length (msgs s0) <= m -> nth_error (msgs s) m = Some x -> direct (reg s) x)).
    - intros _. split; [lia|]. intros m x Hm X. apply nth_error_None in Hm. congruence.
    - clear. intros sched evs s l s' e _ IH H Hc. apply Forall_app in Hc as [Hc1 Hc2]. inversion Hc2 as [|? ? Hl _]; subst. destruct (IH Hc1) as [IH1 IH2]. eapply direct_step; eassumption. }
  destruct (Hnew _ _ _ H) as [_ HmN]. specialize (HmN _ _ _ _ Hm). destruct (HD Hc) as [_ HD']. destruct (HD' _ _ HmN X1) as (_ & _ & HD1). rewrite X3 in HD1. destruct (HM _ _ X1) as [_ [Y _]].
  rewrite forwards_app, (proj1 (HN _ HmN)) in Y. cbn in Y. rewrite Y. destruct (HD1 Hp) as [[-> _]|[-> _]]; lia.
Qed.
End Proofs.
