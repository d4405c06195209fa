(** Proofs about the number handed from actor to actor. *)
From Coq Require Import List ZArith Bool String Lia.
From Verif Require Import MsgModel MsgSpec MsgProofs NestModel NestSpec.
Import ListNotations.
Open Scope Z_scope.
Open Scope list_scope.

Lemma key_valid : valid key.
Proof. intros c H. unfold key in H. apply in_map_iff in H as (x & <- & _). eauto. Qed.
Lemma all_some {A B} (f : A -> option B) l : Forall (fun x => exists y, f x = Some y) l -> exists q, all f l = Some q.
Proof. induction 1 as [|x l (y & E) H (q & IH)]; [now exists []|]. exists (y :: q). cbn. now rewrite E, IH. Qed.
Lemma small_kind z : Z.abs z <= 2 ^ 53 -> in_kind Int z = true.
Proof. intros H. unfold in_kind. cbn [kmin kmax]. apply andb_true_iff. split; apply Z.leb_le; lia. Qed.

(** One write of a number. *)
Lemma put_int s k z b : writable s b -> err b = false -> valid k -> Z.abs z <= 2 ^ 53 ->
  exists b', WithCustomFields s [(k, GInt Int z)] b = Some b' /\ err b' = false /\ writable s b' /\ holds s b' k z /\
    (forall k', valid k' -> k' <> k -> alike s b' b k') /\
    (forall q, ptr s b <> Some q -> nth_error (heap b') q = nth_error (heap b) q) /\
    reqH b' = reqH b /\ resH b' = resH b /\ List.length (heap b') = List.length (heap b) /\
    (forall h, hdr s b = Some h -> Custom h = CEmpty -> exists h', hdr s b' = Some h' /\ Custom h' = CJson (JObj [(enc_str k, JInt z)])).
Proof.
  intros (h & Hh & Hc) He Hk Hz. destruct (hdr_ptr s b h Hh) as (p & Hp & Hn).
  assert (Hd : exists d, (Custom h = CEmpty /\ d = [] \/ read_map (Custom h) = Some (Some d))) by (destruct Hc as [E|(d & E)]; [exists []; auto|exists d; auto]).
  destruct Hd as (d & Hd).
  assert (Hpl : plain (GMap d)).
  { destruct Hd as [[_ ->]|Hd]; [split; constructor|]. apply read_map_obj in Hd as (f & _ & Hf). exact (decode_plain _ _ Hf). }
  destruct (plain_map d Hpl) as [Hnd Hin].
  assert (Hj : exists j, encode (GMap (msets [(k, GInt Int z)] d)) = Some j).
  { cbn [encode]. match goal with |- exists j, option_map _ (all ?f ?l) = _ => destruct (all_some f l) as (q & ->) end; [|cbn; eauto].
    apply Forall_forall. intros [k0 v0] H. cbn [fst snd]. apply msets_in in H as [[H|[]]|H]; [injection H as <- <-; cbn; eauto|].
    destruct (Hin k0 v0 H) as [_ P]. destruct (plain_round v0 P) as (j & -> & _). eauto. }
  destruct Hj as (j & Hj).
  assert (W : WithCustomFields s [(k, GInt Int z)] b = Some (store b p (setCustom h (CJson j)))).
  { unfold WithCustomFields. rewrite Hh. unfold WithCustomFieldsMap. destruct Hd as [[E ->]|E].
    - rewrite E, Hj, Hp, Hh. reflexivity.
    - destruct (Custom h) as [|j0|bs] eqn:Ec; [discriminate| |discriminate]. rewrite E, Hj, Hp, Hh. reflexivity. }
  exists (store b p (setCustom h (CJson j))). split; [exact W|]. split; [exact He|].
  assert (Ht : forall k0 v0, In (k0, v0) [(k, GInt Int z)] -> typed v0) by (intros k0 v0 [H|[]]; injection H as <- <-; cbn; now apply small_kind).
  destruct (write_ok s _ b _ d h W He Ht Hh Hd) as (h' & d' & Hh' & Hr' & HL).
  split; [exists h'; eauto|]. split.
  { unfold holds, GetCustomField. rewrite Hh', Hr', HL; [|exact Hk|intros k' [<-|[]] _; reflexivity]. cbn [last_of]. rewrite str_eq_refl.
    unfold round. cbn [encode decode]. destruct (exact z Hz) as [Tr Fi]. unfold number. rewrite Fi. cbn [has_type]. unfold conv. now rewrite Tr, small_kind. }
  split. { intros k' Hk' Hne t. apply (other_keys s _ b _ k' t W He Ht Hk'). intros k0 [<-|[]] X. apply Hne. cbn in X. symmetry. now apply valid_inj. }
  destruct (header_kept s _ b _ W) as (_ & Hq & H1 & H2 & _ & _).
  split; [exact Hq|]. split; [exact H1|]. split; [exact H2|]. split; [cbn; apply put_length|].
  intros h0 Hh0 E0. rewrite Hh in Hh0. injection Hh0 as <-. exists (setCustom h (CJson j)). split; [exact (hdr_store s b p h _ Hp Hn)|].
  cbn. destruct Hd as [[_ ->]|Hd]; [|rewrite E0 in Hd; discriminate]. cbn in Hj. now injection Hj as <-.
Qed.

Lemma plus1_small v : Z.abs v + 1 <= 2 ^ 53 -> plus1 v = v + 1.
Proof. intros H. unfold plus1. rewrite Z.mod_small; lia. Qed.
Lemma hdr_same s b b' : ptr s b' = ptr s b -> (forall p, ptr s b = Some p -> nth_error (heap b') p = nth_error (heap b) p) -> hdr s b' = hdr s b.
Proof. intros E H. unfold hdr. rewrite E. destruct (ptr s b) as [p|]; [now apply H|reflexivity]. Qed.
Lemma get_same s b b' k t : hdr s b' = hdr s b -> GetCustomField s b' k t = GetCustomField s b k t.
Proof. intros E. unfold GetCustomField. now rewrite E. Qed.

(** One handler. *)
Lemma handle_ok to b v : sound b -> holds Req b key v -> Z.abs v + 1 <= 2 ^ 53 ->
  exists b', handle to b = Goes b' /\ sound b' /\ holds to b' key (v + 1) /\
    (forall k, valid k -> k <> key -> alike to b' b k) /\
    (forall s, s <> to -> hdr s b' = hdr s b) /\
    (forall q, ptr to b <> Some q -> nth_error (heap b') q = nth_error (heap b) q) /\
    reqH b' = reqH b /\ resH b' = resH b /\ List.length (heap b') = List.length (heap b) /\
    (forall h, hdr to b = Some h -> Custom h = CEmpty -> exists h', hdr to b' = Some h' /\ Custom h' = CJson (JObj [(enc_str key, JInt (v + 1))])).
Proof.
  intros (Wq & Ws & Hne & He) Hv Hz. unfold handle. unfold holds in Hv. rewrite Hv, plus1_small by exact Hz.
  assert (Wt : writable to b) by (destruct to; assumption).
  destruct (put_int to key (v + 1) b Wt He key_valid) as (b' & -> & He' & Wt' & Hh' & Hk & Hq & E1 & E2 & El & Ec); [lia|].
  exists b'. split; [reflexivity|].
  assert (Hs : forall s, s <> to -> hdr s b' = hdr s b).
  { intros s Hs. apply hdr_same; [destruct s; assumption|]. intros p Hp. apply Hq. intros X. destruct s, to; try congruence; cbn in Hp, X; congruence. }
  split. { split; [|split; [|split; [congruence|exact He']]]; destruct to; try exact Wt'.
    - destruct Wq as (h & Hh & C). exists h. rewrite (Hs Req) by discriminate. auto.
    - destruct Ws as (h & Hh & C). exists h. rewrite (Hs Res) by discriminate. auto. }
  split; [exact Hh'|]. split; [exact Hk|]. split; [exact Hs|]. split; [exact Hq|]. auto.
Qed.

(** A call of another node: what is known of the other's response. *)
Definition served (ps : list place) (b : builder) (v : Z) (b' : builder) : Prop :=
  sound b' /\ reqH b' = reqH b /\ (resH b' = resH b \/ exists q, resH b' = Some q /\ (List.length (heap b) <= q)%nat) /\
  holds Res b' key (v + Z.of_nat (List.length ps) + 1) /\ holds Req b' key (v + bumps ps) /\
  (forall k, valid k -> k <> key -> alike Req b' b k) /\
  (forall k, valid k -> k <> key -> forall t, GetCustomField Res b' k t = if forallb here ps then GetCustomField Res b k t else Got (zero t)) /\
  (forall h, hdr Res b = Some h -> Custom h = CEmpty ->
     exists h', hdr Res b' = Some h' /\ Custom h' = CJson (JObj [(enc_str key, JInt (v + Z.of_nat (List.length ps) + 1))])) /\
  (List.length (heap b) <= List.length (heap b'))%nat /\
  (forall q, (q < List.length (heap b))%nat -> reqH b <> Some q -> resH b <> Some q -> nth_error (heap b') q = nth_error (heap b) q).

Lemma remote_ok ps uid h b v : (forall b v, sound b -> holds Req b key v -> Z.abs v + Z.of_nat (List.length ps) + 1 <= 2 ^ 53 -> exists b', serve ps b = Some b' /\ served ps b v b') ->
  sound b -> hdr Req b = Some h -> holds Req b key v -> Z.abs v + Z.of_nat (List.length ps) + 1 <= 2 ^ 53 ->
  exists b2, serve ps (arrive uid h b) = Some b2 /\ sound (back b b2) /\ hdr Req (back b b2) = hdr Req b /\
    (exists q, resH b2 = Some q /\ (List.length (heap b) <= q)%nat) /\
    holds Res b2 key (v + Z.of_nat (List.length ps) + 1) /\
    (forall k, valid k -> k <> key -> forall t, GetCustomField Res b2 k t = Got (zero t)) /\
    (exists h', hdr Res b2 = Some h' /\ Custom h' = CJson (JObj [(enc_str key, JInt (v + Z.of_nat (List.length ps) + 1))])) /\
    (List.length (heap b) <= List.length (heap b2))%nat /\
    (forall q, (q < List.length (heap b))%nat -> nth_error (heap b2) q = nth_error (heap b) q).
Proof.
  intros IH (Wq & Ws & Hne & He) Hh Hv Hz. set (n := List.length (heap b)). set (b1 := arrive uid h b).
  assert (Q1 : hdr Req b1 = Some (from_acceptor h)) by (unfold hdr, b1, arrive; cbn; rewrite nth_error_app2 by lia; now rewrite Nat.sub_diag).
  assert (Q2 : hdr Res b1 = Some (newHeader uid)).
  { unfold hdr, b1, arrive. cbn [ptr resH heap]. rewrite nth_error_app2 by lia. now replace (S (List.length (heap b)) - List.length (heap b))%nat with 1%nat by lia. }
  assert (G : forall k t, GetCustomField Req b1 k t = GetCustomField Req b k t) by (intros k t; unfold GetCustomField; now rewrite Q1, Hh).
  destruct (IH b1 v) as (b2 & E2 & (S2 & R2 & P2 & V2 & _ & _ & K2 & C2 & L2 & H2)).
  - split; [|split; [|split; [|reflexivity]]].
    + destruct Wq as (h0 & Hh0 & C). rewrite Hh in Hh0. injection Hh0 as <-. exists (from_acceptor h). auto.
    + exists (newHeader uid). auto.
    + cbn. intros X. injection X as X. lia.
  - unfold holds. now rewrite G.
  - exact Hz.
  - exists b2. assert (Lb : List.length (heap b1) = (n + 2)%nat) by (unfold b1, arrive, n; cbn [heap]; rewrite app_length; cbn; lia).
    assert (P : exists q, resH b2 = Some q /\ (n < q)%nat).
    { destruct P2 as [P2|(q & P2 & Hq)]; [exists (S n); split; [exact P2|lia]|exists q; split; [exact P2|lia]]. }
    assert (Hold : forall q, (q < n)%nat -> nth_error (heap b2) q = nth_error (heap b) q).
    { intros q Hq. rewrite H2; [|lia|cbn; intros X; injection X as X; fold n in X; lia|cbn; intros X; injection X as X; fold n in X; lia].
      unfold b1, arrive. cbn [heap]. apply nth_error_app1. exact Hq. }
    assert (Hr : hdr Req (back b b2) = hdr Req b).
    { apply hdr_same; [reflexivity|]. intros p Hp. cbn [back heap]. apply Hold. unfold n. destruct (hdr_ptr Req b h Hh) as (p' & Hp' & Hnth). rewrite Hp in Hp'. injection Hp' as <-.
      apply nth_error_Some. congruence. }
    assert (Hs : hdr Res (back b b2) = hdr Res b2) by reflexivity.
    split; [exact E2|]. split.
    { destruct S2 as (_ & W2 & _ & _). split; [|split; [|split; [|exact He]]].
      - destruct Wq as (h0 & Hh0 & C). exists h0. now rewrite Hr.
      - destruct W2 as (h0 & Hh0 & C). exists h0. rewrite Hs. auto.
      - cbn [back reqH resH]. destruct P as (q & -> & Hq). intros X. destruct (hdr_ptr Req b h Hh) as (p' & Hp' & Hnth). cbn in Hp'. rewrite X in Hp'. injection Hp' as <-.
        assert (q < List.length (heap b))%nat by (apply nth_error_Some; congruence). unfold n in Hq. lia. }
    split; [exact Hr|]. split. { destruct P as (q & P & Hq). exists q. split; [exact P|lia]. }
    split; [exact V2|]. split.
    { intros k Hk Hkk t. rewrite K2 by assumption. destruct (forallb here ps); [|reflexivity]. unfold GetCustomField. rewrite Q2. reflexivity. }
    split; [exact (C2 _ Q2 eq_refl)|]. split; [fold n; lia|exact Hold].
Qed.

Lemma serve_ok ps : forall b v, sound b -> holds Req b key v -> Z.abs v + Z.of_nat (List.length ps) + 1 <= 2 ^ 53 -> exists b', serve ps b = Some b' /\ served ps b v b'.
Proof.
  induction ps as [|p ps IH]; intros b v S0 V0 Hz.
  - cbn [serve List.length]. cbn in Hz. destruct (handle_ok Res b v S0 V0) as (b' & -> & S1 & V1 & K1 & O1 & H1 & E1 & E2 & L1 & C1); [lia|]. exists b'. split; [reflexivity|].
    unfold served. cbn [Z.of_nat bumps forallb List.length]. rewrite !Z.add_0_r.
    split; [exact S1|]. split; [exact E1|]. split; [now left|]. split; [exact V1|]. split; [unfold holds; rewrite (get_same Req b b' key _ (O1 Req ltac:(discriminate))); exact V0|].
    split. { intros k _ _ t. apply get_same, O1. discriminate. }
    split. { intros k Hk Hkk t. now apply K1. }
    split; [exact C1|]. split; [rewrite L1; lia|]. intros q _ _ Hq. now apply H1.
  - cbn [List.length] in Hz. rewrite Nat2Z.inj_succ in Hz. cbn [serve].
    destruct (handle_ok Req b v S0 V0) as (b1 & -> & S1 & V1 & K1 & O1 & H1 & E1 & E2 & L1 & C1); [lia|].
    assert (R1 : hdr Res b1 = hdr Res b) by (apply O1; discriminate).
    replace (v + Z.of_nat (List.length (p :: ps)) + 1) with ((v + 1) + Z.of_nat (List.length ps) + 1) by (cbn [List.length]; lia).
    destruct p as [|uid].
    + destruct (IH b1 (v + 1) S1 V1) as (b2 & E & (S2 & R2 & P2 & V2 & Q2 & KQ2 & K2 & C2 & L2 & H2)); [lia|]. exists b2. split; [exact E|].
      unfold served. cbn [bumps forallb here andb List.length].
      replace (v + Z.of_nat (S (List.length ps)) + 1) with ((v + 1) + Z.of_nat (List.length ps) + 1) by lia.
      split; [exact S2|]. split; [congruence|]. split; [rewrite <- E2, <- L1; exact P2|]. split; [exact V2|]. split; [now replace (v + (1 + bumps ps)) with (v + 1 + bumps ps) by lia|].
      split. { intros k Hk Hkk t. rewrite (KQ2 k Hk Hkk t). now apply K1. }
      split. { intros k Hk Hkk t. rewrite (K2 k Hk Hkk t). destruct (forallb here ps); [|reflexivity]. now apply get_same. }
      split. { intros h Hh. apply C2. now rewrite R1. }
      split; [lia|]. intros q Hq X1 X2. rewrite H2; [apply H1; exact X1|lia|congruence|congruence].
    + destruct S1 as (Wq & Wr). destruct (Wq) as (h & Hh & _). rewrite Hh.
      destruct (remote_ok ps uid h b1 (v + 1) IH (conj Wq Wr) Hh V1) as (b2 & E & S2 & R2 & P2 & V2 & K2 & C2 & L2 & H2); [lia|]. rewrite E.
      exists (back b1 b2). split; [reflexivity|]. unfold served. cbn [bumps forallb here andb List.length].
      replace (v + Z.of_nat (S (List.length ps)) + 1) with ((v + 1) + Z.of_nat (List.length ps) + 1) by lia.
      split; [exact S2|]. split; [exact E1|]. split; [right; rewrite <- L1; exact P2|]. split; [exact V2|]. split; [unfold holds; rewrite (get_same Req b1 _ _ _ R2); exact V1|].
      split. { intros k Hk Hkk t. rewrite (get_same Req b1 _ _ _ R2). now apply K1. }
      split; [exact K2|]. split; [intros _ _ _; exact C2|]. split; [cbn [back heap]; lia|].
      intros q Hq X1 _. cbn [back heap]. rewrite H2 by lia. now apply H1.
Qed.

Lemma call_ok p ps b v : sound b -> holds Req b key v -> Z.abs v + Z.of_nat (List.length ps) + 1 <= 2 ^ 53 ->
  exists b', call p ps b = Some b' /\ sound b' /\ holds Res b' key (v + Z.of_nat (List.length ps) + 1) /\
    holds Req b' key (match p with Local => v + bumps ps | Remote _ => v end) /\
    (forall k, valid k -> k <> key -> alike Req b' b k) /\
    (forall k, valid k -> k <> key -> forall t, GetCustomField Res b' k t = if forallb here (p :: ps) then GetCustomField Res b k t else Got (zero t)) /\
    (forall h, hdr Res b = Some h -> Custom h = CEmpty -> exists h', hdr Res b' = Some h' /\ Custom h' = CJson (JObj [(enc_str key, JInt (v + Z.of_nat (List.length ps) + 1))])).
Proof.
  intros S0 V0 Hz. unfold call. destruct S0 as (Wq & Wr). destruct (Wq) as (h & Hh & _). rewrite Hh. destruct p as [|uid].
  - destruct (serve_ok ps b v (conj Wq Wr) V0 Hz) as (b' & E & (S2 & R2 & P2 & V2 & Q2 & KQ2 & K2 & C2 & L2 & H2)). exists b'. cbn [forallb here andb]. auto 10.
  - destruct (remote_ok ps uid h b v (serve_ok ps) (conj Wq Wr) Hh V0 Hz) as (b2 & E & S2 & R2 & P2 & V2 & K2 & C2 & L2 & H2). rewrite E. exists (back b b2). cbn [forallb here andb].
    split; [reflexivity|]. split; [exact S2|]. split; [exact V2|]. split; [unfold holds; rewrite (get_same Req b _ _ _ R2); exact V0|].
    split; [intros k _ _ t; exact (get_same Req b _ k t R2)|]. split; [exact K2|]. intros _ _ _. exact C2.
Qed.
