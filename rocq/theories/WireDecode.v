(** Decoder laws: fuel irrelevance, concatenation, varints, unknown fields and
    the effect of each known field. *)
From Coq Require Import List NArith ZArith Bool Lia.
From Coq Require Import ZifyBool ZifyNat ZifyN.
From Coq.Strings Require Import Byte.
From Verif Require Import WireModel WireSpec WireProofs.
Import ListNotations.
Ltac Zify.zify_post_hook ::= Z.div_mod_to_equations.

(** * Bits *)
Lemma land127 n : N.land n 127 = (n mod 128)%N.
Proof. change 127%N with (N.ones 7). now rewrite N.land_ones. Qed.
Lemma land7 n : N.land n 7 = (n mod 8)%N.
Proof. change 7%N with (N.ones 3). now rewrite N.land_ones. Qed.

Lemma lor_disjoint a v k : (a < 2^k)%N -> N.lor a (N.shiftl v k) = (a + v * 2^k)%N.
Proof.
  intros H. assert (HL : N.land a (N.shiftl v k) = 0%N).
  { apply N.bits_inj. intros n. rewrite N.land_spec, N.bits_0.
    destruct (N.lt_ge_cases n k) as [Hl|Hl].
    - rewrite N.shiftl_spec_low by assumption. apply andb_false_r.
    - replace a with (a mod 2^k)%N by now apply N.mod_small.
      rewrite N.mod_pow2_bits_high by assumption. reflexivity. }
  rewrite <- N.lxor_lor by assumption. rewrite <- N.add_nocarry_lxor by assumption.
  now rewrite N.shiftl_mul_pow2.
Qed.

Lemma lor_mod a b k : N.lor (a mod 2^k) (b mod 2^k) = (N.lor a b mod 2^k)%N.
Proof. rewrite <- !N.land_ones. now rewrite N.land_lor_distr_l. Qed.

(** * Varints *)
Lemma sv_groups bs w : groups bs w -> forall fuel r sh acc,
  (length bs <= fuel)%nat -> (sh + 7 * (N.of_nat (length bs) - 1) < 64)%N ->
  sv fuel (bs ++ r) sh acc = Ok (N.lor acc (N.shiftl w sh mod 2^64), r).
Proof.
  induction 1 as [b Hb|b s v Hb Hg IH]; intros fuel r sh acc Hf Hs; cbn [length] in *.
  - destruct fuel as [|f]; [lia|]. cbn [sv app]. replace (64 <=? sh)%N with false by lia.
    fold (b2n b) in *. replace (b2n b <? 128)%N with true by lia.
    rewrite land127, (N.mod_small (b2n b)) by lia. reflexivity.
  - destruct fuel as [|f]; [lia|]. cbn [sv app]. fold (b2n b) in *.
    assert (Hl : (1 <= length s)%nat) by (destruct Hg; simpl; lia).
    replace (64 <=? sh)%N with false by lia.
    replace (b2n b <? 128)%N with false by lia.
    rewrite IH by lia. do 2 f_equal. rewrite <- N.lor_assoc. f_equal.
    rewrite lor_mod. f_equal. rewrite land127.
    pose proof (b2n_lt b).
    replace (b2n b mod 128)%N with (b2n b - 128)%N
      by (apply (N.mod_unique _ _ 1); lia).
    replace (sh + 7)%N with (7 + sh)%N by lia.
    rewrite <- (N.shiftl_shiftl v 7 sh), <- N.shiftl_lor. f_equal.
    rewrite lor_disjoint by (change (2^7)%N with 128%N; lia).
    change (2^7)%N with 128%N. lia.
Qed.

Lemma svarint_ok bs v r : is_varint bs v -> svarint (bs ++ r) = Ok (v, r).
Proof.
  intros (w & Hg & Hl & ->). unfold svarint.
  assert (1 <= length bs)%nat by (destruct Hg; simpl; lia).
  rewrite (sv_groups _ _ Hg) by lia. now rewrite N.shiftl_0_r, N.lor_0_l.
Qed.

Lemma ssv_groups bs w : groups bs w -> forall fuel r sh,
  (length bs <= fuel)%nat -> (sh + 7 * (N.of_nat (length bs) - 1) < 64)%N ->
  ssv fuel (bs ++ r) sh = Ok r.
Proof.
  induction 1 as [b Hb|b s v Hb Hg IH]; intros fuel r sh Hf Hs; cbn [length] in *;
    (destruct fuel as [|f]; [lia|]); cbn [ssv app]; fold (b2n b) in *;
    replace (64 <=? sh)%N with false by lia.
  - replace (b2n b <? 128)%N with true by lia. reflexivity.
  - assert (Hl : (1 <= length s)%nat) by (destruct Hg; simpl; lia).
    replace (b2n b <? 128)%N with false by lia. apply IH; lia.
Qed.
Lemma ssv_ok bs v r : is_varint bs v -> ssv 11 (bs ++ r) 0 = Ok r.
Proof.
  intros (w & Hg & Hl & ->).
  assert (1 <= length bs)%nat by (destruct Hg; simpl; lia).
  apply (ssv_groups _ _ Hg); lia.
Qed.

Lemma pow128 k : (128 ^ N.of_nat (S k) = 128 * 128 ^ N.of_nat k)%N.
Proof. rewrite Nat2N.inj_succ. apply N.pow_succ_r'. Qed.

Lemma varint_n_groups k : forall v, (v < 128 ^ N.of_nat k)%N -> (0 < k)%nat ->
  groups (varint_n k v) v.
Proof.
  induction k as [|k IH]; intros v Hv Hk; [lia|]. cbn [varint_n].
  destruct (v <? 128)%N eqn:E.
  - replace v with (Byte.to_N (n2b v)) at 2.
    + constructor. fold (b2n (n2b v)). rewrite b2n_n2b. lia.
    + fold (b2n (n2b v)). rewrite b2n_n2b. apply N.mod_small. lia.
  - assert (E2 : b2n (n2b (128 + v mod 128)) = (128 + v mod 128)%N).
    { rewrite b2n_n2b. apply N.mod_small. lia. }
    assert (Ev : (v = b2n (n2b (128 + v mod 128)) - 128 + 128 * (v / 128))%N) by (rewrite E2; lia).
    rewrite Ev at 3. apply groups_more.
    + fold (b2n (n2b (128 + v mod 128))). rewrite E2. lia.
    + rewrite pow128 in Hv. apply IH.
      * apply N.div_lt_upper_bound; lia.
      * destruct k; [|lia]. simpl in Hv. lia.
Qed.

Lemma varint_n_len k : forall v j, (v < 128 ^ N.of_nat j)%N -> (1 <= j)%nat ->
  (length (varint_n k v) <= j)%nat.
Proof.
  induction k as [|k IH]; intros v j Hv Hj; cbn [varint_n]; [simpl; lia|].
  destruct (v <? 128)%N eqn:E; [simpl; lia|]. cbn [length].
  destruct j as [|j]; [lia|]. rewrite pow128 in Hv.
  destruct j as [|j]; [simpl in Hv; lia|].
  apply le_n_S. apply IH; [|lia]. apply N.div_lt_upper_bound; lia.
Qed.

Lemma varint_fuel v : (v < 128 ^ N.of_nat (S (N.to_nat (N.size v))))%N.
Proof.
  pose proof (N.size_gt v). rewrite Nat2N.inj_succ, N2Nat.id.
  rewrite N.pow_succ_r'. change 128%N with (2^7)%N at 2. rewrite <- N.pow_mul_r.
  assert (2 ^ N.size v <= 2 ^ (7 * N.size v))%N by (apply N.pow_le_mono_r; lia). lia.
Qed.

Lemma varint_is v : (v < 2^64)%N -> is_varint (varint v) v.
Proof.
  intros H. exists v. split; [|split].
  - apply varint_n_groups; [apply varint_fuel|lia].
  - apply varint_n_len; [|lia]. change (128 ^ N.of_nat 10)%N with (2^70)%N. lia.
  - symmetry. now apply N.mod_small.
Qed.

(** * Concatenation *)
Lemma sv_app fuel : forall s sh acc v t r,
  sv fuel s sh acc = Ok (v, t) -> sv fuel (s ++ r) sh acc = Ok (v, t ++ r).
Proof.
  induction fuel as [|f IH]; intros s sh acc v t r H; [discriminate|].
  cbn [sv] in *. destruct (64 <=? sh)%N; [discriminate|].
  destruct s as [|b s]; [discriminate|]. cbn [app].
  destruct (b2n b <? 128)%N; [inversion H; reflexivity|]. now apply IH.
Qed.
Lemma svarint_app s v t r : svarint s = Ok (v, t) -> svarint (s ++ r) = Ok (v, t ++ r).
Proof. apply sv_app. Qed.

Lemma ssv_app fuel : forall s sh t r,
  ssv fuel s sh = Ok t -> ssv fuel (s ++ r) sh = Ok (t ++ r).
Proof.
  induction fuel as [|f IH]; intros s sh t r H; [discriminate|].
  cbn [ssv] in *. destruct (64 <=? sh)%N; [discriminate|].
  destruct s as [|b s]; [discriminate|]. cbn [app].
  destruct (b2n b <? 128)%N; [inversion H; reflexivity|]. now apply IH.
Qed.

Lemma skipn_app_le {A} n (s r : list A) : (n <= length s)%nat ->
  skipn n (s ++ r) = skipn n s ++ r.
Proof. intros. rewrite skipn_app. replace (n - length s)%nat with 0%nat by lia. reflexivity. Qed.
Lemma firstn_app_le {A} n (s r : list A) : (n <= length s)%nat ->
  firstn n (s ++ r) = firstn n s.
Proof. intros. rewrite firstn_app. replace (n - length s)%nat with 0%nat by lia. apply app_nil_r. Qed.

Lemma len_app s r : len (s ++ r) = (len s + len r)%Z.
Proof. unfold len. rewrite app_length. lia. Qed.

Lemma sdrop_app k s t r : (0 <= k)%Z -> sdrop k s = Ok t -> sdrop k (s ++ r) = Ok (t ++ r).
Proof.
  unfold sdrop. rewrite len_app. intros Hk. destruct (len s <? k)%Z eqn:E; [discriminate|].
  intros H; inversion H; subst. assert (0 <= len r)%Z by (unfold len; lia).
  replace (len s + len r <? k)%Z with false by lia.
  now rewrite skipn_app_le by (unfold len in *; lia).
Qed.

Lemma sskip_app f : forall s dp t r g, sskip f s dp = Ok t ->
  (length (s ++ r) < g)%nat -> sskip g (s ++ r) dp = Ok (t ++ r).
Proof.
  induction f as [|f IH]; intros s dp t r g H Hg; [discriminate|].
  destruct g as [|g]; [lia|].
  cbn [sskip] in *. destruct s as [|b0 s0]; [discriminate|].
  replace ((b0 :: s0) ++ r) with (b0 :: s0 ++ r) by reflexivity. cbv iota.
  change (b0 :: s0 ++ r) with ((b0 :: s0) ++ r).
  remember (b0 :: s0) as s. clear Heqs b0 s0.
  destruct (svarint s) as [[w s1]|e| |] eqn:E; try discriminate.
  rewrite (svarint_app _ _ _ r E). cbn [bind] in *.
  apply svarint_len in E. rewrite app_length in Hg.
  assert (Hfin : forall s2 d', (length s2 <= length s1)%nat ->
     match d' with O => Ok s2 | S _ => sskip f s2 d' end = Ok t ->
     match d' with O => Ok (s2 ++ r) | S _ => sskip g (s2 ++ r) d' end = Ok (t ++ r)).
  { intros s2 d' Hl H2. destruct d'; [inversion H2; reflexivity|].
    apply IH; auto. rewrite app_length. lia. }
  destruct (N.land w 7) as [|p] eqn:Ew.
  - destruct (ssv 11 s1 0) eqn:E2; try discriminate. cbn [bind] in H.
    rewrite (ssv_app _ _ _ _ r E2). apply ssv_len in E2. apply Hfin; auto; lia.
  - destruct p as [[?|[?|?|]|]|[?|[?|?|]|]|]; try discriminate.
    + destruct (sdrop 4 s1) eqn:E2; try discriminate. cbn [bind] in H.
      rewrite (sdrop_app 4 _ _ r ltac:(lia) E2). apply sdrop_len in E2. apply Hfin; auto.
    + apply (Hfin s1 (S dp)); auto.
    + destruct dp as [|dp]; [discriminate|]. apply Hfin; auto.
    + destruct (svarint s1) as [[n s2]|e| |] eqn:E2; try discriminate.
      rewrite (svarint_app _ _ _ r E2). cbn [bind] in *.
      destruct (i64_of n <? 0)%Z eqn:En; [discriminate|].
      destruct (sdrop _ s2) eqn:E3; try discriminate. cbn [bind] in H.
      rewrite (sdrop_app (i64_of n) _ _ r ltac:(lia) E3). apply sdrop_len in E3.
      apply svarint_len in E2. apply Hfin; auto; lia.
    + destruct (sdrop 8 s1) eqn:E2; try discriminate. cbn [bind] in H.
      rewrite (sdrop_app 8 _ _ r ltac:(lia) E2). apply sdrop_len in E2. apply Hfin; auto.
Qed.

Lemma sread_len_app s wt x t r : sread_len s wt = Ok (x, t) ->
  sread_len (s ++ r) wt = Ok (x, t ++ r).
Proof.
  unfold sread_len. destruct (negb (wt =? 2)%N); [discriminate|].
  destruct (svarint s) as [[n s1]|e| |] eqn:E; try discriminate.
  rewrite (svarint_app _ _ _ r E). cbn [bind].
  destruct (i64_of n <? 0)%Z eqn:En; [discriminate|].
  destruct (len s1 <? i64_of n)%Z eqn:El; [discriminate|].
  rewrite len_app. assert (0 <= len r)%Z by (unfold len; lia).
  replace (len s1 + len r <? i64_of n)%Z with false by lia.
  intros H1; inversion H1; subst.
  rewrite firstn_app_le, skipn_app_le by (unfold len in *; lia). reflexivity.
Qed.

Section Laws.
  Context {M : Type}.
  Variable sfields : Z -> N -> bytes -> M -> option (outcome (M * bytes)).
  Hypothesis sf_len : forall n wt s m m' t,
    sfields n wt s m = Some (Ok (m', t)) -> (length t < length s)%nat.
  Hypothesis sf_app : forall n wt s m m' t r,
    sfields n wt s m = Some (Ok (m', t)) -> sfields n wt (s ++ r) m = Some (Ok (m', t ++ r)).
  Hypothesis sf_none : forall n wt s m s' m',
    sfields n wt s m = None -> sfields n wt s' m' = None.

  Lemma sloop_fuel f : forall g s m, (length s < f)%nat -> (length s < g)%nat ->
    sloop sfields f s m = sloop sfields g s m.
  Proof.
    clear sf_app sf_none.
    induction f as [|f IH]; intros g s m Hf Hg; [lia|].
    destruct g as [|g]; [lia|]. cbn [sloop]. destruct s as [|b0 s0]; [reflexivity|].
    remember (b0 :: s0) as s. clear Heqs b0 s0.
    destruct (svarint s) as [[w s1]|e| |] eqn:E; try reflexivity. cbn [bind].
    apply svarint_len in E.
    destruct (N.land w 7 =? 4)%N; [reflexivity|].
    destruct (i32_of (N.shiftr w 3) <=? 0)%Z; [reflexivity|].
    destruct (sfields _ _ s1 m) as [[[m' t]|e| |]|] eqn:Es; try reflexivity.
    - cbn [bind]. apply sf_len in Es. apply IH; lia.
    - destruct (sskip (S (length s)) s 0) eqn:Ek; try reflexivity. cbn [bind].
      apply sskip_len in Ek. apply IH; lia.
  Qed.

  Lemma sdec_nil m : sdec sfields m [] = Ok m.
  Proof. reflexivity. Qed.

  Lemma sdec_eq m s : s <> [] -> sdec sfields m s =
    bind (svarint s) (fun '(w, s1) =>
      let fieldNum := i32_of (N.shiftr w 3) in
      let wireType := N.land w 7 in
      if (wireType =? 4)%N then Err EEndGroupForNonGroup
      else if (fieldNum <=? 0)%Z then Err EIllegalTag
      else match sfields fieldNum wireType s1 m with
           | Some r => bind r (fun '(m', s2) => sdec sfields m' s2)
           | None => bind (sskip (S (length s)) s 0) (fun s2 => sdec sfields m s2)
           end).
  Proof.
    clear sf_app sf_none.
    intros Hs. unfold sdec at 1. cbn [sloop]. destruct s as [|b0 s0]; [congruence|].
    remember (b0 :: s0) as s. clear Heqs b0 s0.
    destruct (svarint s) as [[w s1]|e| |] eqn:E; try reflexivity. cbn [bind].
    apply svarint_len in E.
    destruct (N.land w 7 =? 4)%N; [reflexivity|].
    destruct (i32_of (N.shiftr w 3) <=? 0)%Z; [reflexivity|].
    destruct (sfields _ _ s1 m) as [[[m' t]|e| |]|] eqn:Es; try reflexivity.
    - cbn [bind]. apply sf_len in Es. apply sloop_fuel; lia.
    - destruct (sskip (S (length s)) s 0) eqn:Ek; try reflexivity. cbn [bind].
      apply sskip_len in Ek. apply sloop_fuel; lia.
  Qed.

  Lemma sdec_app_aux n : forall s m m' r, (length s < n)%nat ->
    sdec sfields m s = Ok m' -> sdec sfields m (s ++ r) = sdec sfields m' r.
  Proof.
    induction n as [|n IH]; intros s m m' r Hn H; [lia|].
    destruct s as [|b0 s0]; [inversion H; reflexivity|].
    assert (Hne : b0 :: s0 <> []) by discriminate.
    assert (Hne2 : (b0 :: s0) ++ r <> []) by discriminate.
    remember (b0 :: s0) as s. clear Heqs b0 s0.
    rewrite sdec_eq in H by assumption. rewrite sdec_eq by assumption.
    destruct (svarint s) as [[w s1]|e| |] eqn:E; try discriminate.
    rewrite (svarint_app _ _ _ r E). cbn [bind] in *. apply svarint_len in E. cbv zeta in *.
    destruct (N.land w 7 =? 4)%N; [discriminate|].
    destruct (i32_of (N.shiftr w 3) <=? 0)%Z; [discriminate|].
    destruct (sfields _ _ s1 m) as [[[m2 t]|e| |]|] eqn:Es; try discriminate.
    - rewrite (sf_app _ _ _ _ _ _ r Es). cbn [bind] in *. apply sf_len in Es.
      apply IH; auto; lia.
    - rewrite (sf_none _ _ _ _ (s1 ++ r) m Es).
      destruct (sskip (S (length s)) s 0) eqn:Ek; try discriminate. cbn [bind] in *.
      rewrite (sskip_app _ _ _ _ r _ Ek (Nat.lt_succ_diag_r _)). cbn [bind].
      apply sskip_len in Ek. apply IH; auto; lia.
  Qed.
  Lemma sdec_app s m m' r :
    sdec sfields m s = Ok m' -> sdec sfields m (s ++ r) = sdec sfields m' r.
  Proof. intros; eapply sdec_app_aux; eauto. Qed.
End Laws.

(** * The four switches satisfy the hypotheses *)
Lemma sassign_ok {M} (set : M -> bytes -> M) s wt m m' t :
  sassign set s wt m = Ok (m', t) ->
  exists x, sread_len s wt = Ok (x, t) /\ m' = set m x.
Proof.
  unfold sassign. destruct (sread_len s wt) as [[x u]|e| |]; try discriminate.
  cbn [bind]. intros H; inversion H; eauto.
Qed.
Lemma snested_ok {M X} (dec : X -> bytes -> outcome X) (get : M -> X) put s wt m m' t :
  snested dec get put s wt m = Ok (m', t) ->
  exists x y, sread_len s wt = Ok (x, t) /\ dec (get m) x = Ok y /\ m' = put m y.
Proof.
  unfold snested. destruct (sread_len s wt) as [[x u]|e| |]; try discriminate.
  cbn [bind]. destruct (dec (get m) x) eqn:E; try discriminate.
  cbn [bind]. intros H; inversion H; subst; eauto 6.
Qed.
Lemma sassign_len {M} (set : M -> bytes -> M) s wt m m' t :
  sassign set s wt m = Ok (m', t) -> (length t < length s)%nat.
Proof. intros H; apply sassign_ok in H as (x & H & _). now apply sread_len_sub in H. Qed.
Lemma sassign_app {M} (set : M -> bytes -> M) s wt m m' t r :
  sassign set s wt m = Ok (m', t) -> sassign set (s ++ r) wt m = Ok (m', t ++ r).
Proof.
  intros H; apply sassign_ok in H as (x & H & ->). unfold sassign.
  rewrite (sread_len_app _ _ _ _ r H). reflexivity.
Qed.
Lemma snested_len {M X} (dec : X -> bytes -> outcome X) (get : M -> X) put s wt m m' t :
  snested dec get put s wt m = Ok (m', t) -> (length t < length s)%nat.
Proof. intros H; apply snested_ok in H as (x & y & H & _). now apply sread_len_sub in H. Qed.
Lemma snested_app {M X} (dec : X -> bytes -> outcome X) (get : M -> X) put s wt m m' t r :
  snested dec get put s wt m = Ok (m', t) ->
  snested dec get put (s ++ r) wt m = Ok (m', t ++ r).
Proof.
  intros H; apply snested_ok in H as (x & y & H & H2 & ->). unfold snested.
  rewrite (sread_len_app _ _ _ _ r H). cbn [bind]. now rewrite H2.
Qed.

Ltac header_cases n :=
  destruct n as [|p|p]; [discriminate| |discriminate];
  destruct p as [[[[]|[]|]|[[]|[]|]|]|[[[]|[]|]|[[]|[]|]|]|]; cbn [sheader] in *.

Lemma sheader_len n wt s m m' t :
  sheader n wt s m = Some (Ok (m', t)) -> (length t < length s)%nat.
Proof.
  intros H. header_cases n; try discriminate; injection H as H;
    try (eapply sassign_len; eassumption).
  destruct (negb (wt =? 0)%N); [discriminate|].
  destruct (svarint s) as [[v u]|e| |] eqn:E; try discriminate. cbn [bind] in H.
  inversion H; subst. now apply svarint_len in E.
Qed.
Lemma sheader_app n wt s m m' t r :
  sheader n wt s m = Some (Ok (m', t)) -> sheader n wt (s ++ r) m = Some (Ok (m', t ++ r)).
Proof.
  intros H. header_cases n; try discriminate; injection H as H; f_equal;
    try (apply sassign_app; assumption).
  destruct (negb (wt =? 0)%N); [discriminate|].
  destruct (svarint s) as [[v u]|e| |] eqn:E; try discriminate. cbn [bind] in H.
  rewrite (svarint_app _ _ _ r E). cbn [bind]. inversion H; subst. reflexivity.
Qed.
Lemma sheader_none n wt s m s' m' : sheader n wt s m = None -> sheader n wt s' m' = None.
Proof.
  intros H. destruct n as [|p|p]; [reflexivity| |reflexivity].
  destruct p as [[[[]|[]|]|[[]|[]|]|]|[[[]|[]|]|[[]|[]|]|]|]; cbn [sheader] in *;
  try discriminate; reflexivity.
Qed.

Lemma smessage_len n wt s m m' t :
  smessage n wt s m = Some (Ok (m', t)) -> (length t < length s)%nat.
Proof.
  intros H. destruct n as [|[p|[]|]|p]; try discriminate; injection H as H.
  - eapply sassign_len; eassumption.
  - eapply snested_len; eassumption.
Qed.
Lemma smessage_app n wt s m m' t r :
  smessage n wt s m = Some (Ok (m', t)) -> smessage n wt (s ++ r) m = Some (Ok (m', t ++ r)).
Proof.
  intros H. destruct n as [|[p|[]|]|p]; try discriminate; injection H as H; cbn [smessage]; f_equal.
  - now apply sassign_app.
  - now apply snested_app.
Qed.
Lemma smessage_none n wt s m s' m' : smessage n wt s m = None -> smessage n wt s' m' = None.
Proof. intros H. destruct n as [|[p|[]|]|p]; try discriminate; reflexivity. Qed.

Lemma sroutereq_len n wt s m m' t :
  sroutereq n wt s m = Some (Ok (m', t)) -> (length t < length s)%nat.
Proof.
  intros H. destruct n as [|[p|p|]|p]; try discriminate; injection H as H.
  eapply snested_len; eassumption.
Qed.
Lemma sroutereq_app n wt s m m' t r :
  sroutereq n wt s m = Some (Ok (m', t)) -> sroutereq n wt (s ++ r) m = Some (Ok (m', t ++ r)).
Proof.
  intros H. destruct n as [|[p|p|]|p]; try discriminate; injection H as H; cbn [sroutereq]; f_equal.
  now apply snested_app.
Qed.
Lemma sroutereq_none n wt s m s' m' : sroutereq n wt s m = None -> sroutereq n wt s' m' = None.
Proof. intros H. destruct n as [|[p|p|]|p]; try discriminate; reflexivity. Qed.

Lemma srouteres_len n wt s m m' t :
  srouteres n wt s m = Some (Ok (m', t)) -> (length t < length s)%nat.
Proof.
  intros H. destruct n as [|[p|[]|]|p]; try discriminate; injection H as H.
  eapply snested_len; eassumption.
Qed.
Lemma srouteres_app n wt s m m' t r :
  srouteres n wt s m = Some (Ok (m', t)) -> srouteres n wt (s ++ r) m = Some (Ok (m', t ++ r)).
Proof.
  intros H. destruct n as [|[p|[]|]|p]; try discriminate; injection H as H; cbn [srouteres]; f_equal.
  now apply snested_app.
Qed.
Lemma srouteres_none n wt s m s' m' : srouteres n wt s m = None -> srouteres n wt s' m' = None.
Proof. intros H. destruct n as [|[p|[]|]|p]; try discriminate; reflexivity. Qed.

(** * Tags and known fields *)
Lemma fieldnum_i32 w : i32_of (N.shiftr w 3) = fieldnum w.
Proof.
  unfold i32_of, fieldnum. rewrite N.shiftr_div_pow2. change (2^3)%N with 8%N.
  generalize (Z.of_N (w / 8)). intros z.
  destruct (z mod 2^32 <? 2^31)%Z eqn:E.
  - replace ((z + 2^31) mod 2^32)%Z with (z mod 2^32 + 2^31)%Z; [lia|].
    apply (Z.mod_unique_pos _ _ (z / 2^32)); lia.
  - replace ((z + 2^31) mod 2^32)%Z with (z mod 2^32 - 2^31)%Z; [lia|].
    apply (Z.mod_unique_pos _ _ (z / 2^32 + 1)); lia.
Qed.

Lemma tag_is num wt : (num < 2^28)%N -> (wt < 8)%N ->
  is_varint (tag num wt) (num * 8 + wt).
Proof. intros. apply varint_is. lia. Qed.
Lemma tag_num num wt : (num < 2^28)%N -> (wt < 8)%N ->
  fieldnum (num * 8 + wt) = Z.of_N num.
Proof.
  intros. unfold fieldnum. replace ((num * 8 + wt) / 8)%N with num by lia.
  rewrite Z.mod_small by lia. replace (Z.of_N num <? 2^31)%Z with true by lia. reflexivity.
Qed.
Lemma tag_wt num wt : (wt < 8)%N -> N.land (num * 8 + wt) 7 = wt.
Proof. intros. rewrite land7. lia. Qed.

Lemma varint_nonempty v : varint v <> [].
Proof. unfold varint. cbn [varint_n]. destruct (v <? 128)%N; discriminate. Qed.

Lemma sread_len_ok x r : fits x -> sread_len (varint (nlen x) ++ x ++ r) 2 = Ok (x, r).
Proof.
  intros Hf. unfold fits in Hf. unfold sread_len. cbn [negb N.eqb Pos.eqb].
  rewrite (svarint_ok _ (nlen x)) by (apply varint_is; unfold nlen; lia). cbn [bind].
  assert (E : i64_of (nlen x) = len x).
  { unfold i64_of, nlen, len. rewrite wrap64_small; lia. }
  rewrite E. assert (0 <= len x)%Z by (unfold len; lia).
  assert (0 <= len r)%Z by (unfold len; lia).
  replace (len x <? 0)%Z with false by lia. rewrite len_app.
  replace (len x + len r <? len x)%Z with false by lia.
  unfold len. rewrite Nat2Z.id.
  rewrite firstn_app, firstn_all, Nat.sub_diag. cbn [firstn]. rewrite app_nil_r.
  rewrite skipn_app, skipn_all, Nat.sub_diag. reflexivity.
Qed.

Lemma sdec_tagged {M} sf (m : M) num wt r :
  (forall n wt s m m' t, sf n wt s m = Some (Ok (m', t)) -> (length t < length s)%nat) ->
  (0 < num < 2^28)%N -> (wt < 8)%N -> wt <> 4%N ->
  forall o, sf (Z.of_N num) wt r m = Some o ->
  sdec sf m (tag num wt ++ r) = bind o (fun '(m', s2) => sdec sf m' s2).
Proof.
  intros Hlen Hn Hw H4 o Ho.
  rewrite (sdec_eq sf Hlen) by
    (intros HH; apply app_eq_nil in HH as [HH _]; now apply varint_nonempty in HH).
  rewrite (svarint_ok _ (num * 8 + wt)) by (apply tag_is; lia). cbn [bind]. cbv zeta.
  rewrite tag_wt, fieldnum_i32, tag_num by lia.
  replace (wt =? 4)%N with false by lia.
  replace (Z.of_N num <=? 0)%Z with false by lia. now rewrite Ho.
Qed.

Lemma sdec_delimited {M} sf (m m' : M) num x :
  (forall n wt s m m' t, sf n wt s m = Some (Ok (m', t)) -> (length t < length s)%nat) ->
  (0 < num < 2^28)%N -> fits x ->
  sf (Z.of_N num) 2%N (varint (nlen x) ++ x) m = Some (Ok (m', [])) ->
  sdec sf m (delimited num x) = Ok m'.
Proof.
  intros Hlen Hn Hf Hs. unfold delimited.
  rewrite (sdec_tagged _ _ num 2 _ Hlen Hn ltac:(lia) ltac:(lia) _ Hs). reflexivity.
Qed.

Lemma sassign_delimited {M} (set : M -> bytes -> M) m x : fits x ->
  sassign set (varint (nlen x) ++ x) 2 m = Ok (set m x, []).
Proof.
  intros. unfold sassign. rewrite <- (app_nil_r x) at 2. now rewrite sread_len_ok.
Qed.
Lemma snested_delimited {M X} (dec : X -> bytes -> outcome X) (get : M -> X) put m x y :
  fits x -> dec (get m) x = Ok y ->
  snested dec get put (varint (nlen x) ++ x) 2 m = Ok (put m y, []).
Proof.
  intros Hf Hd. unfold snested. rewrite <- (app_nil_r x) at 2. rewrite sread_len_ok by assumption.
  cbn [bind]. now rewrite Hd.
Qed.

(** * Unknown fields *)
Lemma wt_field w : N.land w 7 = wiretype w.
Proof. apply land7. Qed.

Lemma groups_nonempty s w : groups s w -> s <> [].
Proof. destruct 1; discriminate. Qed.
Lemma is_varint_nonempty s w : is_varint s w -> s <> [].
Proof. intros (v & H & _). now apply groups_nonempty in H. Qed.
Lemma is_varint_lt s w : is_varint s w -> (w < 2^64)%N.
Proof. intros (v & _ & _ & ->). apply N.mod_lt. discriminate. Qed.

Lemma sskip_fuel f : forall g s dp, (length s < f)%nat -> (length s < g)%nat ->
  sskip f s dp = sskip g s dp.
Proof.
  induction f as [|f IH]; intros g s dp Hf Hg; [lia|].
  destruct g as [|g]; [lia|]. cbn [sskip]. destruct s as [|b0 s0]; [reflexivity|].
  remember (b0 :: s0) as s. clear Heqs b0 s0.
  destruct (svarint s) as [[w s1]|e| |] eqn:E; try reflexivity. cbn [bind].
  apply svarint_len in E.
  assert (Hfin : forall s2 d', (length s2 <= length s1)%nat ->
     match d' with O => Ok s2 | S _ => sskip f s2 d' end =
     match d' with O => Ok s2 | S _ => sskip g s2 d' end).
  { intros s2 d' Hl. destruct d'; [reflexivity|]. apply IH; lia. }
  destruct (N.land w 7) as [|p].
  - destruct (ssv 11 s1 0) eqn:E2; try reflexivity. cbn [bind]. apply ssv_len in E2. apply Hfin; lia.
  - destruct p as [[?|[?|?|]|]|[?|[?|?|]|]|]; try reflexivity.
    + destruct (sdrop 4 s1) eqn:E2; try reflexivity. cbn [bind]. apply sdrop_len in E2. apply Hfin; lia.
    + apply (Hfin s1 (S dp)); lia.
    + destruct dp; [reflexivity|]. apply Hfin; lia.
    + destruct (svarint s1) as [[n s2]|e| |] eqn:E2; try reflexivity. cbn [bind].
      destruct (i64_of n <? 0)%Z; [reflexivity|].
      destruct (sdrop _ s2) eqn:E3; try reflexivity. cbn [bind].
      apply sdrop_len in E3. apply svarint_len in E2. apply Hfin; lia.
    + destruct (sdrop 8 s1) eqn:E2; try reflexivity. cbn [bind]. apply sdrop_len in E2. apply Hfin; lia.
Qed.

(** Fuel-free unfolding of [sskip]. *)
Definition skp (s : bytes) (dp : nat) : outcome bytes := sskip (S (length s)) s dp.
Definition fin (s2 : bytes) (d' : nat) : outcome bytes :=
  match d' with O => Ok s2 | S _ => skp s2 d' end.
Lemma skp_tag t w r dp : is_varint t w -> skp (t ++ r) dp =
  match N.land w 7 with
  | 0%N => bind (ssv 11 r 0) (fun s2 => fin s2 dp)
  | 1%N => bind (sdrop 8 r) (fun s2 => fin s2 dp)
  | 2%N => bind (svarint r) (fun '(n, s2) =>
             if (i64_of n <? 0)%Z then Err EInvalidLength
             else bind (sdrop (i64_of n) s2) (fun s3 => fin s3 dp))
  | 3%N => fin r (S dp)
  | 4%N => match dp with O => Err EUnexpectedEndOfGroup | S d' => fin r d' end
  | 5%N => bind (sdrop 4 r) (fun s2 => fin s2 dp)
  | _ => Err EIllegalWireType
  end.
Proof.
  intros Ht. unfold skp at 1. pose proof (svarint_ok _ _ r Ht) as E.
  apply is_varint_nonempty in Ht. cbn [sskip].
  assert (Hl : (length r < length (t ++ r))%nat).
  { destruct t; [congruence|]. simpl. rewrite app_length. lia. }
  destruct (t ++ r) as [|b0 s0] eqn:Es; [destruct t; discriminate|].
  rewrite <- Es in *. clear Es. rewrite E. cbn [bind].
  assert (Hfin : forall s2 d', (length s2 <= length r)%nat ->
     match d' with O => Ok s2 | S _ => sskip (length (t ++ r)) s2 d' end = fin s2 d').
  { intros s2 d' H2. unfold fin, skp. destruct d'; [reflexivity|]. apply sskip_fuel; lia. }
  destruct (N.land w 7) as [|p].
  - destruct (ssv 11 r 0) eqn:E2; try reflexivity. cbn [bind]. apply ssv_len in E2. apply Hfin; lia.
  - destruct p as [[?|[?|?|]|]|[?|[?|?|]|]|]; try reflexivity.
    + destruct (sdrop 4 r) eqn:E2; try reflexivity. cbn [bind]. apply sdrop_len in E2. apply Hfin; lia.
    + apply (Hfin r (S dp)); lia.
    + destruct dp; [reflexivity|]. apply Hfin; lia.
    + destruct (svarint r) as [[n s2]|e| |] eqn:E2; try reflexivity. cbn [bind].
      destruct (i64_of n <? 0)%Z; [reflexivity|].
      destruct (sdrop _ s2) eqn:E3; try reflexivity. cbn [bind].
      apply sdrop_len in E3. apply svarint_len in E2. apply Hfin; lia.
    + destruct (sdrop 8 r) eqn:E2; try reflexivity. cbn [bind]. apply sdrop_len in E2. apply Hfin; lia.
Qed.

Lemma sdrop_exact s r : sdrop (len s) (s ++ r) = Ok r.
Proof.
  unfold sdrop. rewrite len_app. assert (0 <= len r)%Z by (unfold len; lia).
  replace (len s + len r <? len s)%Z with false by lia.
  unfold len. rewrite Nat2Z.id, skipn_app, skipn_all, Nat.sub_diag. reflexivity.
Qed.

Scheme field_ind2 := Induction for field Sort Prop
  with field_seq_ind2 := Induction for field_seq Sort Prop.

Lemma field_skip : forall w s, field w s -> forall r dp, skp (s ++ r) dp = fin r dp.
Proof.
  apply (field_ind2
    (fun w s _ => forall r dp, skp (s ++ r) dp = fin r dp)
    (fun s _ => forall r dp, skp (s ++ r) (S dp) = skp r (S dp))).
  - intros w t v n Ht Hw Hv r dp. rewrite <- app_assoc, (skp_tag _ _ _ _ Ht), wt_field, Hw.
    now rewrite (ssv_ok _ _ _ Hv).
  - intros w t s Ht Hw Hs r dp. rewrite <- app_assoc, (skp_tag _ _ _ _ Ht), wt_field, Hw.
    replace 8%Z with (len s) by (unfold len; lia). now rewrite sdrop_exact.
  - intros w t l n s Ht Hw Hl Hn Hf r dp.
    rewrite <- !app_assoc, (skp_tag _ _ _ _ Ht), wt_field, Hw.
    rewrite (svarint_ok _ _ _ Hl). cbn [bind]. unfold fits in Hf.
    replace (i64_of n) with (len s) by (unfold i64_of, len; rewrite wrap64_small; lia).
    replace (len s <? 0)%Z with false by (unfold len; lia). now rewrite sdrop_exact.
  - intros w t s Ht Hw Hs r dp. rewrite <- app_assoc, (skp_tag _ _ _ _ Ht), wt_field, Hw.
    replace 4%Z with (len s) by (unfold len; lia). now rewrite sdrop_exact.
  - intros w t s w' t' Ht Hw Hs IH Ht' Hw' r dp.
    rewrite <- !app_assoc, (skp_tag _ _ _ _ Ht), wt_field, Hw. cbn [fin].
    rewrite IH, (skp_tag _ _ _ _ Ht'), wt_field, Hw'. reflexivity.
  - reflexivity.
  - intros w s rest Hf IH Hs IH2 r dp. rewrite <- app_assoc, IH. cbn [fin]. apply IH2.
Qed.

Lemma field_tag w s : field w s -> exists t s', s = t ++ s' /\ is_varint t w /\ wiretype w <> 4%N.
Proof. destruct 1; do 2 eexists; repeat split; try eassumption; congruence. Qed.

Section Unknown.
  Context {M : Type}.
  Variable sf : Z -> N -> bytes -> M -> option (outcome (M * bytes)).
  Variable known : list Z.
  Hypothesis sf_len : forall n wt s m m' t,
    sf n wt s m = Some (Ok (m', t)) -> (length t < length s)%nat.
  Hypothesis sf_app : forall n wt s m m' t r,
    sf n wt s m = Some (Ok (m', t)) -> sf n wt (s ++ r) m = Some (Ok (m', t ++ r)).
  Hypothesis sf_none : forall n wt s m s' m', sf n wt s m = None -> sf n wt s' m' = None.
  Hypothesis sf_known : forall n wt s m, ~ In n known -> sf n wt s m = None.

  Lemma sdec_unknown u : unknown_seq known u -> forall m r, sdec sf m (u ++ r) = sdec sf m r.
  Proof.
    induction 1 as [|w s rest Hf Hpos Hnk Hs IH]; intros m r; [reflexivity|].
    rewrite <- app_assoc. pose proof (field_tag _ _ Hf) as (t & s' & Es & Ht & Hw).
    rewrite (sdec_eq sf sf_len).
    2:{ intros HH; apply app_eq_nil in HH as [HH _]. subst s. apply app_eq_nil in HH as [-> _].
        now apply is_varint_nonempty in Ht. }
    fold (skp (s ++ rest ++ r) 0). rewrite (field_skip _ _ Hf). cbn [fin bind].
    rewrite Es, <- app_assoc, (svarint_ok _ _ _ Ht). cbn [bind]. cbv zeta.
    rewrite wt_field, fieldnum_i32.
    replace (wiretype w =? 4)%N with false by lia.
    replace (fieldnum w <=? 0)%Z with false by lia.
    rewrite sf_known by assumption. apply IH.
  Qed.

  Lemma sdec_woven cs s : woven known cs s -> forall gs m,
    Forall2 (fun c g => forall m, sdec sf m c = Ok (g m)) cs gs ->
    sdec sf m s = Ok (fold_left (fun m g => g m) gs m).
  Proof.
    induction 1 as [u Hu|u c cs s Hu Hw IH]; intros gs m HF; inversion HF; subst.
    - rewrite <- (app_nil_r u), (sdec_unknown _ Hu). reflexivity.
    - rewrite (sdec_unknown _ Hu). cbn [fold_left].
      erewrite sdec_app; eauto.
  Qed.
End Unknown.

Lemma woven_concat known cs : woven known cs (concat cs).
Proof.
  induction cs; [constructor; constructor|].
  change (concat (a :: cs)) with ([] ++ a ++ concat cs). constructor; [constructor|assumption].
Qed.

Lemma sheader_known n wt s m : ~ In n header_known -> sheader n wt s m = None.
Proof.
  intros H. destruct n as [|p|p]; [reflexivity| |reflexivity].
  destruct p as [[[[]|[]|]|[[]|[]|]|]|[[[]|[]|]|[[]|[]|]|]|]; try reflexivity;
    exfalso; apply H; cbn; tauto.
Qed.
Lemma smessage_known n wt s m : ~ In n message_known -> smessage n wt s m = None.
Proof.
  intros H. destruct n as [|[p|[]|]|p]; try reflexivity; exfalso; apply H; cbn; tauto.
Qed.
Lemma sroutereq_known n wt s m : ~ In n routereq_known -> sroutereq n wt s m = None.
Proof.
  intros H. destruct n as [|[p|p|]|p]; try reflexivity; exfalso; apply H; cbn; tauto.
Qed.
Lemma srouteres_known n wt s m : ~ In n routeres_known -> srouteres n wt s m = None.
Proof.
  intros H. destruct n as [|[p|[]|]|p]; try reflexivity; exfalso; apply H; cbn; tauto.
Qed.

(** * What each encoded field does *)
Lemma header_bytes_chunk num (get : Header -> bytes) set x :
  (0 < num < 2^28)%N -> fits x ->
  (forall s m, sheader (Z.of_N num) 2 s m = Some (sassign set s 2 m)) ->
  (forall m, set m (get m) = m) ->
  forall m, sdec sheader m (f_bytes num x) = Ok (set m (m_bytes (get m) x)).
Proof.
  intros Hn Hf Hs Hget m. destruct x as [|b x].
  - cbn. now rewrite Hget.
  - cbn [f_bytes m_bytes]. apply sdec_delimited; [exact sheader_len|assumption|assumption|].
    rewrite Hs. now rewrite sassign_delimited.
Qed.

Lemma i64_u64 z : int64 z -> i64_of (Z.to_N (z mod 2^64)) = z.
Proof.
  unfold int64, i64_of, wrap64. intros H.
  rewrite Z2N.id by lia. destruct (Z_lt_ge_dec z 0).
  - replace (z mod 2^64)%Z with (z + 2^64)%Z by (apply (Z.mod_unique_pos _ _ (-1)); lia).
    replace ((z + 2^64 + 2^63) mod 2^64)%Z with (z + 2^63)%Z; [lia|].
    apply (Z.mod_unique_pos _ _ 1); lia.
  - rewrite (Z.mod_small z) by lia. rewrite Z.mod_small; lia.
Qed.

Lemma header_ts_chunk z : int64 z -> forall m,
  sdec sheader m (f_int64 11 z) = Ok (setTimestamp m (m_int (hTimestamp m) z)).
Proof.
  intros Hz m. unfold f_int64, m_int. destruct (z =? 0)%Z.
  - destruct m; reflexivity.
  - assert (Hv : is_varint (varint (Z.to_N (z mod 2^64))) (Z.to_N (z mod 2^64))).
    { apply varint_is. lia. }
    rewrite (sdec_tagged _ _ 11 0 _ sheader_len ltac:(lia) ltac:(lia) ltac:(lia)
      (Ok (setTimestamp m z, []))); [reflexivity|].
    cbn [sheader Z.of_N N.eqb negb]. rewrite <- (app_nil_r (varint _)), (svarint_ok _ _ _ Hv).
    cbn [bind]. now rewrite i64_u64.
Qed.

Definition fits_header (h : Header) : Prop :=
  fits (hID h) /\ fits (hOrgActorID h) /\ fits (hOrgActorType h) /\ fits (hPrevActorType h) /\
  fits (hTargetActorID h) /\ fits (hTargetActorType h) /\ fits (hEvent h) /\ fits (hToken h) /\
  fits (hCustom h).

Lemma sdec_header h s m : wf_header h -> fits_header h -> wire_header h s ->
  sdec sheader m s = Ok (merge_header m h).
Proof.
  intros Hw (F1&F2&F3&F4&F5&F6&F7&F8&F9) Hs.
  pose proof (sdec_woven sheader header_known sheader_len sheader_app sheader_none
                sheader_known _ _ Hs
    [ (fun m => setID m (m_bytes (hID m) (hID h)));
      (fun m => setOrgActorID m (m_bytes (hOrgActorID m) (hOrgActorID h)));
      (fun m => setOrgActorType m (m_bytes (hOrgActorType m) (hOrgActorType h)));
      (fun m => setPrevActorType m (m_bytes (hPrevActorType m) (hPrevActorType h)));
      (fun m => setTargetActorID m (m_bytes (hTargetActorID m) (hTargetActorID h)));
      (fun m => setTargetActorType m (m_bytes (hTargetActorType m) (hTargetActorType h)));
      (fun m => setEvent m (m_bytes (hEvent m) (hEvent h)));
      (fun m => setToken m (m_bytes (hToken m) (hToken h)));
      (fun m => setTimestamp m (m_int (hTimestamp m) (hTimestamp h)));
      (fun m => setCustom m (m_bytes (hCustom m) (hCustom h))) ] m) as H.
  rewrite H; [reflexivity|]. unfold header_chunks.
  repeat (apply Forall2_cons; [|]); try apply Forall2_nil;
    try (apply header_bytes_chunk; [lia|assumption|intros; reflexivity|now intros []]).
  now apply header_ts_chunk.
Qed.

Definition fits_opt (s : option bytes) := match s with Some x => fits x | None => True end.

Lemma m_bytes_nil x : m_bytes [] x = x.
Proof. now destruct x. Qed.
Lemma m_int_0 z : m_int 0 z = z.
Proof. unfold m_int. destruct (z =? 0)%Z eqn:E; lia. Qed.
Lemma merge_header_empty h : merge_header emptyHeader h = h.
Proof.
  destruct h. unfold merge_header, emptyHeader.
  cbn -[m_bytes m_int].
  now rewrite !m_bytes_nil, m_int_0.
Qed.
Lemma merge_message_empty m : merge_message emptyMessage m = m.
Proof. destruct m as [[h|] [|]]; reflexivity. Qed.

Definition fits_message (m : Message) : Prop :=
  match mHeader m with Some h => fits_header h | None => True end /\ fits (mBody m).

Lemma sdec_message m0 m s : wf_message m -> fits_message m -> fits s -> wire_message m s ->
  sdec smessage m0 s = Ok (merge_message m0 m).
Proof.
  intros Hw [Hfh Hfb] Hfs (hs & Ho & Hs).
  assert (Hlen : fits_opt hs).
  { inversion Hs; subst. destruct hs as [x|]; [|exact I]. unfold fits_opt, fits in *.
    cbn [f_message] in *. unfold delimited in *. rewrite !app_length in Hfs. lia. }
  pose proof (sdec_woven smessage message_known smessage_len smessage_app smessage_none
                smessage_known _ _ Hs
    [ (fun m0 => mkMessage (m_opt merge_header (mHeader m0) (mHeader m)) (mBody m0));
      (fun m0 => mkMessage (mHeader m0) (m_bytes (mBody m0) (mBody m))) ] m0) as H.
  rewrite H; [reflexivity|].
  apply Forall2_cons; [|apply Forall2_cons; [|apply Forall2_nil]]; intros m1.
  - unfold wf_message in Hw. destruct Ho as [|h x Hx].
    + destruct m1 as [[h1|] b1]; reflexivity.
    + apply sdec_delimited; [exact smessage_len|lia|assumption|].
      cbn [smessage Z.of_N]. f_equal.
      rewrite (snested_delimited _ _ _ _ _ (merge_header (header_or_new (mHeader m1)) h)); auto.
      * do 2 f_equal. f_equal. destruct m1 as [[h1|] b1]; cbn; [reflexivity|].
        now rewrite merge_header_empty.
      * now apply sdec_header.
  - destruct (mBody m) as [|b x] eqn:Eb.
    + destruct m1; reflexivity.
    + cbn [f_bytes m_bytes]. apply sdec_delimited; [exact smessage_len|lia|assumption|].
      cbn [smessage Z.of_N]. now rewrite sassign_delimited.
Qed.

Definition fits_omessage (o : option Message) :=
  match o with Some m => fits_message m | None => True end.

Lemma sdec_routereq r0 r s : wf_omessage (reqMsg r) -> fits_omessage (reqMsg r) -> fits s ->
  wire_routereq r s -> sdec sroutereq r0 s = Ok (merge_routereq r0 r).
Proof.
  intros Hw Hfm Hfs (ms & Ho & Hs).
  assert (Hlen : fits_opt ms).
  { inversion Hs; subst. destruct ms as [x|]; [|exact I]. unfold fits_opt, fits in *.
    cbn [f_message] in *. unfold delimited in *. rewrite !app_length in Hfs. lia. }
  pose proof (sdec_woven sroutereq routereq_known sroutereq_len sroutereq_app sroutereq_none
                sroutereq_known _ _ Hs
    [ (fun m0 => mkRouteReq (m_opt merge_message (reqMsg m0) (reqMsg r))) ] r0) as H.
  rewrite H; [reflexivity|].
  apply Forall2_cons; [|apply Forall2_nil]; intros m1.
  destruct Ho as [|h x Hx].
  - destruct m1 as [[h1|]]; reflexivity.
  - apply sdec_delimited; [exact sroutereq_len|lia|assumption|].
    cbn [sroutereq Z.of_N]. f_equal.
    rewrite (snested_delimited _ _ _ _ _ (merge_message (message_or_new (reqMsg m1)) h)); auto.
    + do 2 f_equal. destruct m1 as [[h1|]]; cbn; [reflexivity|].
      now rewrite merge_message_empty.
    + now apply sdec_message.
Qed.
Lemma sdec_routeres r0 r s : wf_omessage (resMsg r) -> fits_omessage (resMsg r) -> fits s ->
  wire_routeres r s -> sdec srouteres r0 s = Ok (merge_routeres r0 r).
Proof.
  intros Hw Hfm Hfs (ms & Ho & Hs).
  assert (Hlen : fits_opt ms).
  { inversion Hs; subst. destruct ms as [x|]; [|exact I]. unfold fits_opt, fits in *.
    cbn [f_message] in *. unfold delimited in *. rewrite !app_length in Hfs. lia. }
  pose proof (sdec_woven srouteres routeres_known srouteres_len srouteres_app srouteres_none
                srouteres_known _ _ Hs
    [ (fun m0 => mkRouteRes (m_opt merge_message (resMsg m0) (resMsg r))) ] r0) as H.
  rewrite H; [reflexivity|].
  apply Forall2_cons; [|apply Forall2_nil]; intros m1.
  destruct Ho as [|h x Hx].
  - destruct m1 as [[h1|]]; reflexivity.
  - apply sdec_delimited; [exact srouteres_len|lia|assumption|].
    cbn [srouteres Z.of_N]. f_equal.
    rewrite (snested_delimited _ _ _ _ _ (merge_message (message_or_new (resMsg m1)) h)); auto.
    + do 2 f_equal. destruct m1 as [[h1|]]; cbn; [reflexivity|].
      now rewrite merge_message_empty.
    + now apply sdec_message.
Qed.
