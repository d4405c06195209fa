(** Proofs about the wire codec: the index-based decoders of [WireModel] are
    related to decoders on suffixes, about which everything else is proved. *)
From Coq Require Import List NArith ZArith Bool Lia.
From Coq Require Import ZifyBool ZifyNat ZifyN.
From Coq.Strings Require Import Byte.
From Verif Require Import WireModel WireSpec.
Import ListNotations.
Ltac Zify.zify_post_hook ::= Z.div_mod_to_equations.

(** * Bytes *)
Lemma b2n_lt b : (b2n b < 256)%N.
Proof. unfold b2n. pose proof (Byte.to_N_bounded b). lia. Qed.

Lemma b2n_n2b n : b2n (n2b n) = (n mod 256)%N.
Proof.
  unfold b2n, n2b. destruct (Byte.of_N (n mod 256)) eqn:E.
  - now apply Byte.to_of_N.
  - apply Byte.of_N_None_iff in E. lia.
Qed.

Lemma skipn_skipn' {A} (x y : nat) (l : list A) : skipn x (skipn y l) = skipn (x + y) l.
Proof.
  revert l. induction y as [|y IH]; intros l.
  - now rewrite Nat.add_0_r.
  - rewrite Nat.add_succ_r. destruct l; [now rewrite !skipn_nil|]. cbn [skipn]. apply IH.
Qed.

(** * Suffix decoders *)
Fixpoint sv (fuel : nat) (s : bytes) (shift acc : N) : outcome (N * bytes) :=
  match fuel with
  | O => Fuel
  | S f =>
    if (64 <=? shift)%N then Err EIntOverflow
    else match s with
    | [] => Err EUnexpectedEOF
    | b :: s' =>
      let acc' := N.lor acc (N.shiftl (N.land (b2n b) 127) shift mod 2^64)%N in
      if (b2n b <? 128)%N then Ok (acc', s') else sv f s' (shift + 7)%N acc'
    end
  end.
Definition svarint (s : bytes) := sv 11 s 0 0.

Fixpoint ssv (fuel : nat) (s : bytes) (shift : N) : outcome bytes :=
  match fuel with
  | O => Fuel
  | S f =>
    if (64 <=? shift)%N then Err EIntOverflow
    else match s with
    | [] => Err EUnexpectedEOF
    | b :: s' => if (b2n b <? 128)%N then Ok s' else ssv f s' (shift + 7)%N
    end
  end.

Definition sdrop (k : Z) (s : bytes) : outcome bytes :=
  if (len s <? k)%Z then Err EUnexpectedEOF else Ok (skipn (Z.to_nat k) s).

Fixpoint sskip (fuel : nat) (s : bytes) (depth : nat) : outcome bytes :=
  match fuel with
  | O => Fuel
  | S f =>
    match s with
    | [] => Err EUnexpectedEOF
    | _ =>
      bind (svarint s) (fun '(wire, s1) =>
        let finish (s2 : bytes) (depth' : nat) :=
          match depth' with O => Ok s2 | S _ => sskip f s2 depth' end in
        match N.land wire 7 with
        | 0%N => bind (ssv 11 s1 0) (fun s2 => finish s2 depth)
        | 1%N => bind (sdrop 8 s1) (fun s2 => finish s2 depth)
        | 2%N => bind (svarint s1) (fun '(n, s2) =>
                   if (i64_of n <? 0)%Z then Err EInvalidLength
                   else bind (sdrop (i64_of n) s2) (fun s3 => finish s3 depth))
        | 3%N => finish s1 (S depth)
        | 4%N => match depth with
                 | O => Err EUnexpectedEndOfGroup
                 | S depth' => finish s1 depth'
                 end
        | 5%N => bind (sdrop 4 s1) (fun s2 => finish s2 depth)
        | _ => Err EIllegalWireType
        end)
    end
  end.

Definition sread_len (s : bytes) (wireType : N) : outcome (bytes * bytes) :=
  if negb (wireType =? 2)%N then Err EWrongWireType
  else bind (svarint s) (fun '(n, s1) =>
    if (i64_of n <? 0)%Z then Err EInvalidLength
    else if (len s1 <? i64_of n)%Z then Err EUnexpectedEOF
    else Ok (firstn (Z.to_nat (i64_of n)) s1, skipn (Z.to_nat (i64_of n)) s1)).

Section SLoop.
  Context {M : Type}.
  Variable sfields : Z -> N -> bytes -> M -> option (outcome (M * bytes)).
  Fixpoint sloop (fuel : nat) (s : bytes) (m : M) : outcome M :=
    match fuel with
    | O => Fuel
    | S f =>
      match s with
      | [] => Ok m
      | _ =>
        bind (svarint s) (fun '(wire, s1) =>
          let fieldNum := i32_of (N.shiftr wire 3) in
          let wireType := N.land wire 7 in
          if (wireType =? 4)%N then Err EEndGroupForNonGroup
          else if (fieldNum <=? 0)%Z then Err EIllegalTag
          else match sfields fieldNum wireType s1 m with
               | Some r => bind r (fun '(m', s2) => sloop f s2 m')
               | None => bind (sskip (S (length s)) s 0) (fun s2 => sloop f s2 m)
               end)
      end
    end.
  Definition sdec (m : M) (s : bytes) : outcome M := sloop (S (length s)) s m.
End SLoop.

(** * Relating the two *)
Inductive orel {A B} (R : A -> B -> Prop) : outcome A -> outcome B -> Prop :=
| orel_ok a b : R a b -> orel R (Ok a) (Ok b)
| orel_err e e' : orel R (Err e) (Err e').
#[local] Hint Constructors orel : core.

Definition pos (d : bytes) (i : Z) (s : bytes) : Prop :=
  exists k, i = Z.of_nat k /\ (k <= length d)%nat /\ s = skipn k d.

Lemma pos_len d i s : pos d i s -> len s = (len d - i)%Z /\ (0 <= i)%Z.
Proof.
  intros (k & -> & Hk & ->). unfold len. rewrite skipn_length. lia.
Qed.

Lemma pos_cons d i b s : pos d i (b :: s) ->
  at_ d i = Ok b /\ pos d (i + 1) s /\ (i < len d)%Z.
Proof.
  intros (k & -> & Hk & Hs).
  assert (Hlt : (k < length d)%nat).
  { pose proof (f_equal (@length _) Hs) as HL. rewrite skipn_length in HL. simpl in HL. lia. }
  assert (Hd : d = firstn k d ++ b :: s) by (rewrite Hs; symmetry; apply firstn_skipn).
  assert (Hf : length (firstn k d) = k) by (rewrite firstn_length; lia).
  split; [|split].
  - unfold at_. replace (Z.of_nat k <? 0)%Z with false by lia. rewrite Nat2Z.id.
    rewrite Hd, nth_error_app2 by lia. rewrite Hf, Nat.sub_diag. reflexivity.
  - exists (S k). split; [lia|]. split; [lia|].
    rewrite Hd. rewrite skipn_app, Hf.
    rewrite skipn_all2 by lia. replace (S k - k)%nat with 1%nat by lia. reflexivity.
  - unfold len. lia.
Qed.

Lemma pos_nil d i : pos d i [] -> (len d <= i)%Z.
Proof. intros H. apply pos_len in H. unfold len in *. simpl in *. lia. Qed.

Lemma pos_skip d i s n : pos d i s -> (0 <= n)%Z -> (n <= len s)%Z ->
  pos d (i + n) (skipn (Z.to_nat n) s).
Proof.
  intros (k & -> & Hk & ->) Hn Hle. unfold len in Hle. rewrite skipn_length in Hle.
  exists (k + Z.to_nat n)%nat. repeat split; try lia.
  rewrite skipn_skipn'. f_equal. lia.
Qed.

Lemma pos_start d : pos d 0 d.
Proof. exists 0%nat. repeat split; simpl; lia. Qed.

Definition adv (d : bytes) (s : bytes) {A} (a : A * Z) (b : A * bytes) : Prop :=
  fst a = fst b /\ pos d (snd a) (snd b) /\ (length (snd b) < length s)%nat.

Lemma varint_loop_rel d fuel : forall i s shift acc,
  pos d i s -> (64 <= shift + 7 * (N.of_nat fuel - 1))%N -> (0 < fuel)%nat ->
  orel (adv d s) (varint_loop fuel d i shift acc) (sv fuel s shift acc).
Proof.
  induction fuel as [|f IH]; intros i s shift acc Hp Hf H0; [lia|].
  cbn [varint_loop sv].
  destruct (64 <=? shift)%N eqn:Es; [constructor|].
  destruct s as [|b s'].
  - apply pos_nil in Hp. replace (len d <=? i)%Z with true by lia. constructor.
  - apply pos_cons in Hp as (Ha & Hp & Hl).
    replace (len d <=? i)%Z with false by lia. rewrite Ha. cbn [bind].
    destruct (b2n b <? 128)%N eqn:Eb.
    + constructor. unfold adv. cbn [fst snd length]. repeat split; auto.
    + assert (HR := IH (i+1)%Z s' (shift+7)%N
        (N.lor acc (N.shiftl (N.land (b2n b) 127) shift mod 2^64)) Hp).
      destruct HR; [lia|lia| |constructor].
      constructor. destruct H as (H1 & H2 & H3). unfold adv. cbn [length]. repeat split; auto.
Qed.

Lemma varint_rel d i s : pos d i s -> orel (adv d s) (varint_at d i) (svarint s).
Proof. intros H. apply varint_loop_rel; auto; lia. Qed.

Lemma skip_varint_rel d fuel : forall i s shift,
  pos d i s -> (64 <= shift + 7 * (N.of_nat fuel - 1))%N -> (0 < fuel)%nat ->
  orel (fun j t => pos d j t /\ (length t < length s)%nat)
    (skip_varint_loop fuel d i shift) (ssv fuel s shift).
Proof.
  induction fuel as [|f IH]; intros i s shift Hp Hf H0; [lia|].
  cbn [skip_varint_loop ssv].
  destruct (64 <=? shift)%N eqn:Es; [constructor|].
  destruct s as [|b s'].
  - apply pos_nil in Hp. replace (len d <=? i)%Z with true by lia. constructor.
  - apply pos_cons in Hp as (Ha & Hp & Hl).
    replace (len d <=? i)%Z with false by lia.
    replace (i + 1 - 1)%Z with i by lia. rewrite Ha. cbn [bind].
    destruct (b2n b <? 128)%N eqn:Eb.
    + constructor. cbn [length]. split; auto.
    + assert (HR := IH (i+1)%Z s' (shift+7)%N Hp).
      destruct HR; [lia|lia| |constructor].
      constructor. cbn [length]. split; [tauto|lia].
Qed.

Lemma sv_len fuel : forall s shift acc v t,
  sv fuel s shift acc = Ok (v, t) -> (length t < length s)%nat.
Proof.
  induction fuel as [|f IH]; intros s shift acc v t H; [discriminate|].
  cbn [sv] in H. destruct (64 <=? shift)%N; [discriminate|].
  destruct s as [|b s]; [discriminate|].
  destruct (b2n b <? 128)%N.
  - inversion H; subst. simpl. lia.
  - apply IH in H. simpl. lia.
Qed.
Lemma svarint_len s v t : svarint s = Ok (v, t) -> (length t < length s)%nat.
Proof. apply sv_len. Qed.

Lemma ssv_len fuel : forall s shift t,
  ssv fuel s shift = Ok t -> (length t < length s)%nat.
Proof.
  induction fuel as [|f IH]; intros s shift t H; [discriminate|].
  cbn [ssv] in H. destruct (64 <=? shift)%N; [discriminate|].
  destruct s as [|b s]; [discriminate|].
  destruct (b2n b <? 128)%N.
  - inversion H; subst. simpl. lia.
  - apply IH in H. simpl. lia.
Qed.

Lemma sdrop_ok k s t : sdrop k s = Ok t -> t = skipn (Z.to_nat k) s /\ (k <= len s)%Z.
Proof. unfold sdrop. destruct (len s <? k)%Z eqn:E; intros H; inversion H; split; auto; lia. Qed.
Lemma sdrop_len k s t : sdrop k s = Ok t -> (length t <= length s)%nat.
Proof. intros H; apply sdrop_ok in H as [-> _]. rewrite skipn_length. lia. Qed.

Lemma sskip_len fuel : forall s depth t,
  sskip fuel s depth = Ok t -> (length t < length s)%nat.
Proof.
  induction fuel as [|f IH]; intros s depth t H; [discriminate|].
  cbn [sskip] in H. destruct s as [|b0 s0]; [discriminate|].
  remember (b0 :: s0) as s. clear Heqs b0 s0.
  destruct (svarint s) as [[wire s1]|e| |] eqn:E; try discriminate.
  cbn [bind] in H. pose proof (svarint_len _ _ _ E) as HL.
  assert (Hfin : forall s2 dp, (length s2 <= length s1)%nat ->
     match dp with O => Ok s2 | S _ => sskip f s2 dp end = Ok t ->
     (length t < length s)%nat).
  { intros s2 dp H2 H3. destruct dp.
    - inversion H3; subst. lia.
    - apply IH in H3. lia. }
  destruct (N.land wire 7) as [|p] eqn:Ew.
  - destruct (ssv 11 s1 0) eqn:E2; try discriminate. cbn [bind] in H.
    apply ssv_len in E2. eapply Hfin; [|eassumption]. lia.
  - destruct p as [[?|[?|?|]|]|[?|[?|?|]|]|]; try discriminate; cbn [bind] in H.
    all: try (destruct (sdrop _ s1) eqn:E2; try discriminate; cbn [bind] in H;
              apply sdrop_len in E2; eapply Hfin; [|eassumption]; lia).
    + apply (Hfin s1 (S depth)); [lia|exact H].
    + destruct depth as [|dp]; [discriminate|]. eapply Hfin; [|eassumption]; lia.
    + destruct (svarint s1) as [[n s2]|e| |] eqn:E2; try discriminate. cbn [bind] in H.
      destruct (i64_of n <? 0)%Z; [discriminate|].
      destruct (sdrop _ s2) eqn:E3; try discriminate; cbn [bind] in H.
      apply sdrop_len in E3. apply svarint_len in E2. eapply Hfin; [|eassumption]; lia.
Qed.

Lemma wrap64_small z : (- 2^63 <= z < 2^63)%Z -> wrap64 z = z.
Proof. intros. unfold wrap64. rewrite Z.mod_small; lia. Qed.
Lemma wrap64_big z : (2^63 <= z < 2^64)%Z -> (wrap64 z < 0)%Z.
Proof.
  intros. unfold wrap64.
  replace ((z + 2^63) mod 2^64)%Z with (z - 2^63)%Z; [lia|].
  apply Z.mod_unique_pos with 1%Z; lia.
Qed.
Lemma i64_of_range n : (- 2^63 <= i64_of n < 2^63)%Z.
Proof. unfold i64_of, wrap64. pose proof (Z.mod_pos_bound (Z.of_N n + 2^63) (2^64)). lia. Qed.

Definition skrel (d : bytes) (a : outcome Z) (b : outcome bytes) : Prop :=
  match a, b with
  | Ok j, Ok t => pos d j t
  | Ok j, Err _ => (len d < j < 2^63)%Z
  | Err _, Err _ => True
  | _, _ => False
  end.

Lemma skip_rel d fuel : fits d -> forall i s depth,
  pos d i s -> (length s < fuel)%nat ->
  skrel d (skip_loop fuel d i depth) (sskip fuel s depth).
Proof.
  intros Hfit. induction fuel as [|f IH]; intros i s depth Hp Hf; [lia|].
  cbn [skip_loop sskip]. destruct s as [|b0 s0].
  { apply pos_nil in Hp. replace (i <? len d)%Z with false by lia. exact I. }
  assert (Hlt : (i <? len d)%Z = true).
  { apply pos_cons in Hp as (_&_&?). lia. }
  rewrite Hlt. remember (b0 :: s0) as s. clear Heqs b0 s0.
  pose proof (varint_rel d i s Hp) as HR.
  destruct HR as [[w i1] [w' s1] HA|]; [|exact I].
  destruct HA as (E & Hp1 & HL1). cbn [fst snd] in *. subst w'. cbn [bind].
  assert (Hfin : forall i2 s2 dp, pos d i2 s2 -> (length s2 <= length s1)%nat ->
    skrel d
     (if (i2 <? 0)%Z then Err EInvalidLength
      else match dp with O => Ok i2 | S _ => skip_loop f d i2 dp end)
     match dp with O => Ok s2 | S _ => sskip f s2 dp end).
  { intros i2 s2 dp Hp2 Hl2. pose proof (pos_len _ _ _ Hp2) as [_ H0].
    replace (i2 <? 0)%Z with false by lia. destruct dp; [exact Hp2|].
    apply IH; [exact Hp2|lia]. }
  assert (Hfin2 : forall i2 k s2 dp, pos d i2 s2 -> (length s2 <= length s1)%nat ->
    (0 <= k < 2^63)%Z ->
    skrel d
     (if (wrap64 (i2 + k) <? 0)%Z then Err EInvalidLength
      else match dp with O => Ok (wrap64 (i2 + k)) | S _ => skip_loop f d (wrap64 (i2 + k)) dp end)
     (bind (sdrop k s2) (fun s3 => match dp with O => Ok s3 | S _ => sskip f s3 dp end))).
  { intros i2 k s2 dp Hp2 Hl2 Hk. pose proof (pos_len _ _ _ Hp2) as [Hl H0].
    unfold fits in Hfit. fold (len d) in Hfit.
    unfold sdrop. destruct (len s2 <? k)%Z eqn:Ek.
    - cbn [bind]. destruct (Z_lt_ge_dec (i2 + k) (2^63)) as [Hs|Hs].
      + rewrite wrap64_small by (unfold len in *; lia).
        replace (i2 + k <? 0)%Z with false by lia.
        destruct dp; cbn [skrel]; [lia|].
        destruct f; [lia|]. cbn [skip_loop].
        replace (i2 + k <? len d)%Z with false by lia. exact I.
      + assert (wrap64 (i2 + k) < 0)%Z by (apply wrap64_big; unfold len in *; lia).
        replace (wrap64 (i2 + k) <? 0)%Z with true by lia. exact I.
    - cbn [bind]. rewrite wrap64_small by (unfold len in *; lia).
      apply Hfin; [apply pos_skip; auto; lia|].
      rewrite skipn_length. lia. }
  destruct (N.land w 7) as [|p] eqn:Ew.
  - pose proof (skip_varint_rel d 11 i1 s1 0 Hp1) as HR.
    destruct HR as [j t [Hj Ht]|]; [lia|lia| |exact I]. cbn [bind].
    apply Hfin; auto; lia.
  - destruct p as [[?|[?|?|]|]|[?|[?|?|]|]|]; try exact I.
    all: try (apply Hfin2; auto; lia).
    + apply (Hfin i1 s1 (S depth)); auto; lia.
    + destruct depth as [|dp]; [exact I|]. apply Hfin; auto; lia.
    + pose proof (varint_rel d i1 s1 Hp1) as HR.
      destruct HR as [[n i2] [n' s2] HA|]; [|exact I].
      destruct HA as (E & Hp2 & HL2). cbn [fst snd] in *. subst n'. cbn [bind].
      pose proof (i64_of_range n).
      destruct (i64_of n <? 0)%Z eqn:En; [exact I|].
      apply Hfin2; auto; lia.
Qed.

Lemma slice_rest d i s : pos d i s -> slice d i (len d) = Ok s.
Proof.
  intros (k & -> & Hk & ->). unfold slice, len.
  replace ((0 <=? Z.of_nat k) && (Z.of_nat k <=? Z.of_nat (length d))
           && (Z.of_nat (length d) <=? Z.of_nat (length d)))%Z with true by lia.
  rewrite firstn_all2; [now rewrite Nat2Z.id|].
  rewrite skipn_length. lia.
Qed.

Lemma read_len_rel d i s wt : fits d -> pos d i s ->
  orel (adv d s) (read_len d i wt) (sread_len s wt).
Proof.
  intros Hfit Hp. unfold read_len, sread_len.
  destruct (negb (wt =? 2)%N); [constructor|].
  pose proof (varint_rel d i s Hp) as HR.
  destruct HR as [[n i1] [n' s1] HA|]; [|constructor].
  destruct HA as (E & Hp1 & HL1). cbn [fst snd] in *. subst n'. cbn [bind].
  pose proof (i64_of_range n).
  destruct (i64_of n <? 0)%Z eqn:En; [constructor|].
  pose proof (pos_len _ _ _ Hp1) as [Hl H0]. unfold fits in Hfit. fold (len d) in Hfit.
  assert (0 <= len s1)%Z by (unfold len; lia).
  destruct (len s1 <? i64_of n)%Z eqn:El.
  - destruct (Z_lt_ge_dec (i1 + i64_of n) (2^63)) as [Hs|Hs].
    + rewrite wrap64_small by lia.
      replace (i1 + i64_of n <? 0)%Z with false by lia.
      replace (len d <? i1 + i64_of n)%Z with true by lia. constructor.
    + assert (wrap64 (i1 + i64_of n) < 0)%Z by (apply wrap64_big; lia).
      replace (wrap64 (i1 + i64_of n) <? 0)%Z with true by lia. constructor.
  - rewrite wrap64_small by lia.
    replace (i1 + i64_of n <? 0)%Z with false by lia.
    replace (len d <? i1 + i64_of n)%Z with false by lia.
    unfold slice.
    replace ((0 <=? i1) && (i1 <=? i1 + i64_of n) && (i1 + i64_of n <=? len d))%Z
      with true by lia.
    cbn [bind]. constructor. unfold adv; cbn [fst snd]. split; [|split].
    + destruct Hp1 as (k & -> & Hk & ->). rewrite Nat2Z.id. f_equal. lia.
    + apply pos_skip; auto; lia.
    + rewrite skipn_length. lia.
Qed.

Section LoopRel.
  Context {M : Type}.
  Variable fields : Z -> N -> bytes -> Z -> M -> option (outcome (M * Z)).
  Variable sfields : Z -> N -> bytes -> M -> option (outcome (M * bytes)).
  Hypothesis fields_rel : forall n wt d i s m, fits d -> pos d i s ->
    match fields n wt d i m, sfields n wt s m with
    | None, None => True
    | Some a, Some b => orel (adv d s) a b
    | _, _ => False
    end.

  Lemma loop_rel d fuel : fits d -> forall i s m,
    pos d i s -> (length s < fuel)%nat ->
    orel eq (unmarshal_loop fields fuel d i m) (sloop sfields fuel s m).
  Proof.
    intros Hfit. induction fuel as [|f IH]; intros i s m Hp Hf; [lia|].
    cbn [unmarshal_loop sloop]. destruct s as [|b0 s0].
    { pose proof (pos_len _ _ _ Hp) as [Hl H0]. unfold len at 1 in Hl. cbn [length] in Hl.
      replace (i <? len d)%Z with false by lia.
      replace (len d <? i)%Z with false by lia. constructor. reflexivity. }
    assert (Hlt : (i <? len d)%Z = true).
    { apply pos_cons in Hp as (_&_&?). lia. }
    rewrite Hlt. remember (b0 :: s0) as s. clear Heqs b0 s0.
    pose proof (varint_rel d i s Hp) as HR.
    destruct HR as [[w i1] [w' s1] HA|]; [|constructor].
    destruct HA as (E & Hp1 & HL1). cbn [fst snd] in *. subst w'. cbn [bind].
    destruct (N.land w 7 =? 4)%N; [constructor|].
    destruct (i32_of (N.shiftr w 3) <=? 0)%Z; [constructor|].
    pose proof (fields_rel (i32_of (N.shiftr w 3)) (N.land w 7) d i1 s1 m Hfit Hp1) as HF.
    destruct (fields _ _ d i1 m) as [ra|], (sfields _ _ s1 m) as [rb|]; try contradiction.
    - destruct HF as [[m1 i2] [m2 s2] HA|]; [|constructor].
      destruct HA as (E & Hp2 & HL2). cbn [fst snd] in *. subst m2. cbn [bind].
      apply IH; auto; lia.
    - rewrite (slice_rest d i s Hp). cbn [bind].
      assert (Hfs : fits s).
      { unfold fits in *. destruct Hp as (k & -> & Hk & ->). rewrite skipn_length. lia. }
      pose proof (skip_rel s (S (length s)) Hfs 0 s 0 (pos_start s)) as HS.
      specialize (HS ltac:(lia)). unfold skipRouter.
      unfold fits in Hfit. fold (len d) in Hfit.
      pose proof (pos_len _ _ _ Hp) as [Hl H0].
      destruct (skip_loop (S (length s)) s 0 0) as [j|e| |], (sskip (S (length s)) s 0) as [t|e'| |] eqn:ES;
        cbn [skrel] in HS; try contradiction; cbn [bind]; try constructor.
      + assert (HL := sskip_len _ _ _ _ ES).
        pose proof (pos_len _ _ _ HS) as [Hl2 H02]. assert (0 <= len t)%Z by (unfold len; lia).
        rewrite wrap64_small by lia.
        replace ((j <? 0) || (i + j <? 0))%Z with false by lia.
        replace (len d <? i + j)%Z with false by lia.
        apply IH; [|lia]. destruct HS as (k & -> & Hk & ->).
        replace k with (Z.to_nat (Z.of_nat k)) by lia.
        rewrite Nat2Z.id at 1. apply pos_skip; auto; unfold len; lia.
      + assert (0 <= len s)%Z by (unfold len; lia).
        destruct (Z_lt_ge_dec (i + j) (2^63)) as [Hs|Hs].
        * rewrite wrap64_small by lia.
          replace ((j <? 0) || (i + j <? 0))%Z with false by lia.
          replace (len d <? i + j)%Z with true by lia. constructor.
        * assert (wrap64 (i + j) < 0)%Z by (apply wrap64_big; lia).
          replace ((j <? 0) || (wrap64 (i + j) <? 0))%Z with true by lia. constructor.
  Qed.

  Lemma unmarshal_rel m d : fits d -> orel eq (unmarshal fields m d) (sdec sfields m d).
  Proof. intros. apply loop_rel; auto. apply pos_start. Qed.
End LoopRel.

(** The switches on suffixes. *)
Definition sassign {M} (set : M -> bytes -> M) (s : bytes) (wt : N) (m : M)
  : outcome (M * bytes) :=
  bind (sread_len s wt) (fun '(x, s2) => Ok (set m x, s2)).

Definition sheader (n : Z) (wt : N) (s : bytes) (m : Header)
  : option (outcome (Header * bytes)) :=
  match n with
  | 1%Z => Some (sassign setID s wt m)
  | 2%Z => Some (sassign setOrgActorID s wt m)
  | 3%Z => Some (sassign setOrgActorType s wt m)
  | 4%Z => Some (sassign setPrevActorType s wt m)
  | 7%Z => Some (sassign setTargetActorID s wt m)
  | 8%Z => Some (sassign setTargetActorType s wt m)
  | 9%Z => Some (sassign setEvent s wt m)
  | 10%Z => Some (sassign setToken s wt m)
  | 11%Z => Some (if negb (wt =? 0)%N then Err EWrongWireType
                  else bind (svarint s) (fun '(v, s2) =>
                         Ok (setTimestamp m (i64_of v), s2)))
  | 12%Z => Some (sassign setCustom s wt m)
  | _ => None
  end.

Definition snested {M X} (dec : X -> bytes -> outcome X) (get : M -> X)
  (put : M -> X -> M) (s : bytes) (wt : N) (m : M) : outcome (M * bytes) :=
  bind (sread_len s wt) (fun '(x, s2) =>
  bind (dec (get m) x) (fun h => Ok (put m h, s2))).

Definition smessage (n : Z) (wt : N) (s : bytes) (m : Message)
  : option (outcome (Message * bytes)) :=
  match n with
  | 1%Z => Some (snested (sdec sheader) (fun m => header_or_new (mHeader m))
                   (fun m h => mkMessage (Some h) (mBody m)) s wt m)
  | 2%Z => Some (sassign (fun m s => mkMessage (mHeader m) s) s wt m)
  | _ => None
  end.
Definition sroutereq (n : Z) (wt : N) (s : bytes) (m : RouteReq)
  : option (outcome (RouteReq * bytes)) :=
  match n with
  | 1%Z => Some (snested (sdec smessage) (fun m => message_or_new (reqMsg m))
                   (fun m x => mkRouteReq (Some x)) s wt m)
  | _ => None
  end.
Definition srouteres (n : Z) (wt : N) (s : bytes) (m : RouteRes)
  : option (outcome (RouteRes * bytes)) :=
  match n with
  | 2%Z => Some (snested (sdec smessage) (fun m => message_or_new (resMsg m))
                   (fun m x => mkRouteRes (Some x)) s wt m)
  | _ => None
  end.

Lemma assign_rel {M} (set : M -> bytes -> M) d i s wt m : fits d -> pos d i s ->
  orel (adv d s) (assign_len set d i wt m) (sassign set s wt m).
Proof.
  intros Hf Hp. unfold assign_len, sassign.
  destruct (read_len_rel d i s wt Hf Hp) as [[x j] [y t] H|]; [|constructor].
  destruct H as (E & H2 & H3). cbn [fst snd] in *. subst. cbn [bind]. constructor.
  repeat split; auto.
Qed.

Ltac zcases n :=
  destruct n as [|?p|?p]; [exact I| |exact I];
  repeat match goal with
  | |- match _ with _ => _ end => fail 1
  | p : positive |- _ => destruct p
  end.

Lemma header_rel n wt d i s m : fits d -> pos d i s ->
  match header_fields n wt d i m, sheader n wt s m with
  | None, None => True
  | Some a, Some b => orel (adv d s) a b
  | _, _ => False
  end.
Proof.
  intros Hf Hp. unfold header_fields, sheader.
  destruct n as [|p|p]; [exact I| |exact I].
  assert (HT : orel (adv d s)
     (if negb (wt =? 0)%N then Err EWrongWireType
      else bind (varint_at d i) (fun '(v, i2) => Ok (setTimestamp m (i64_of v), i2)))
     (if negb (wt =? 0)%N then Err EWrongWireType
      else bind (svarint s) (fun '(v, s2) => Ok (setTimestamp m (i64_of v), s2)))).
  { destruct (negb (wt =? 0)%N); [constructor|].
    destruct (varint_rel d i s Hp) as [[v j] [v' t] H|]; [|constructor].
    destruct H as (E & H2 & H3). cbn [fst snd] in *. subst. constructor. repeat split; auto. }
  destruct p as [[[[]|[]|]|[[]|[]|]|]|[[[]|[]|]|[[]|[]|]|]|];
    solve [exact I | apply assign_rel; assumption | exact HT].
Qed.

Lemma header_dec_rel m d : fits d ->
  orel eq (Header_Unmarshal m d) (sdec sheader m d).
Proof. apply unmarshal_rel. intros; now apply header_rel. Qed.

Lemma sread_len_sub s wt x t : sread_len s wt = Ok (x, t) ->
  (length x <= length s)%nat /\ (length t < length s)%nat.
Proof.
  unfold sread_len. destruct (negb (wt =? 2)%N); [discriminate|].
  destruct (svarint s) as [[n s1]|e| |] eqn:E; try discriminate. cbn [bind].
  apply svarint_len in E.
  destruct (i64_of n <? 0)%Z; [discriminate|].
  destruct (len s1 <? i64_of n)%Z; [discriminate|].
  intros H; inversion H; subst. rewrite firstn_length, skipn_length. lia.
Qed.

Lemma nested_rel {M X} (dec : X -> bytes -> outcome X) (sd : X -> bytes -> outcome X)
  (get : M -> X) (put : M -> X -> M) d i s wt m :
  (forall x b, fits b -> orel eq (dec x b) (sd x b)) ->
  fits d -> pos d i s ->
  orel (adv d s)
    (bind (read_len d i wt) (fun '(x, i2) =>
       bind (dec (get m) x) (fun h => Ok (put m h, i2))))
    (snested sd get put s wt m).
Proof.
  intros Hd Hf Hp. unfold snested.
  pose proof (read_len_rel d i s wt Hf Hp) as HR.
  destruct (sread_len s wt) as [[y t]|e| |] eqn:E; inversion HR as [[x j] ? H E1 E2|]; subst;
    try constructor.
  destruct H as (Ex & H2 & H3). cbn [fst snd] in *. subst x. cbn [bind].
  apply sread_len_sub in E as [HL1 HL2].
  assert (Hy : fits y).
  { unfold fits in *. apply pos_len in Hp as [Hl ?]. unfold len in *. lia. }
  destruct (Hd (get m) y Hy) as [a b ->|]; [|constructor].
  cbn [bind]. constructor. repeat split; auto.
Qed.

Lemma message_rel n wt d i s m : fits d -> pos d i s ->
  match message_fields n wt d i m, smessage n wt s m with
  | None, None => True
  | Some a, Some b => orel (adv d s) a b
  | _, _ => False
  end.
Proof.
  intros Hf Hp. unfold message_fields, smessage.
  destruct n as [|[p|p|]|p]; try exact I.
  - destruct p; exact I || (apply assign_rel; assumption).
  - apply nested_rel with (get := fun m => header_or_new (mHeader m))
      (put := fun m h => mkMessage (Some h) (mBody m)); auto.
    intros; now apply header_dec_rel.
Qed.
Lemma message_dec_rel m d : fits d ->
  orel eq (Message_Unmarshal m d) (sdec smessage m d).
Proof. apply unmarshal_rel. intros; now apply message_rel. Qed.

Lemma routereq_rel n wt d i s m : fits d -> pos d i s ->
  match routereq_fields n wt d i m, sroutereq n wt s m with
  | None, None => True
  | Some a, Some b => orel (adv d s) a b
  | _, _ => False
  end.
Proof.
  intros Hf Hp. unfold routereq_fields, sroutereq.
  destruct n as [|[p|p|]|p]; try exact I.
  apply nested_rel with (get := fun m => message_or_new (reqMsg m))
      (put := fun m x => mkRouteReq (Some x)); auto.
  intros; now apply message_dec_rel.
Qed.
Lemma routereq_dec_rel m d : fits d ->
  orel eq (RouteReq_Unmarshal m d) (sdec sroutereq m d).
Proof. apply unmarshal_rel. intros; now apply routereq_rel. Qed.

Lemma routeres_rel n wt d i s m : fits d -> pos d i s ->
  match routeres_fields n wt d i m, srouteres n wt s m with
  | None, None => True
  | Some a, Some b => orel (adv d s) a b
  | _, _ => False
  end.
Proof.
  intros Hf Hp. unfold routeres_fields, srouteres.
  destruct n as [|[p|[p|p|]|]|p]; try exact I.
  apply nested_rel with (get := fun m => message_or_new (resMsg m))
      (put := fun m x => mkRouteRes (Some x)); auto.
  intros; now apply message_dec_rel.
Qed.
Lemma routeres_dec_rel m d : fits d ->
  orel eq (RouteRes_Unmarshal m d) (sdec srouteres m d).
Proof. apply unmarshal_rel. intros; now apply routeres_rel. Qed.

(** Consequences: totality, and Ok results transfer. *)
Definition total {A} (o : outcome A) : Prop :=
  (exists a, o = Ok a) \/ (exists e, o = Err e).
Lemma orel_total {A B} (R : A -> B -> Prop) a b : orel R a b -> total a.
Proof. destruct 1; [left|right]; eauto. Qed.
Lemma orel_ok_iff {A} (a b : outcome A) x : orel eq a b -> a = Ok x <-> b = Ok x.
Proof. destruct 1; subst; split; intros H; inversion H; auto. Qed.
Lemma orel_err_iff {A} (a b : outcome A) : orel eq a b ->
  (exists e, a = Err e) <-> (exists e, b = Err e).
Proof. destruct 1; subst; split; intros [? H]; try discriminate; eauto. Qed.
