(** Writer laws: each writer puts exactly the specified bytes before the
    current index and touches nothing else. *)
From Coq Require Import List NArith ZArith Bool Lia.
From Coq Require Import ZifyBool ZifyNat ZifyN.
From Coq.Strings Require Import Byte.
From Verif Require Import WireModel WireSpec WireProofs WireDecode.
Import ListNotations.
Ltac Zify.zify_post_hook ::= Z.div_mod_to_equations.

(** * sovRouter is the varint length *)
Lemma log2_lor1 x : N.log2 (N.lor x 1) = N.log2 x.
Proof. rewrite N.log2_lor. change (N.log2 1) with 0%N. lia. Qed.
Lemma sov_log2 x : sovRouter x = (Z.of_N (N.log2 x) / 7 + 1)%Z.
Proof.
  unfold sovRouter. rewrite N.size_log2.
  - rewrite log2_lor1. lia.
  - intros H. apply N.lor_eq_0_iff in H. lia.
Qed.

Lemma varint_n_sov k : forall v, (v < 128 ^ N.of_nat k)%N -> (0 < k)%nat ->
  Z.of_nat (length (varint_n k v)) = sovRouter v.
Proof.
  induction k as [|k IH]; intros v Hv Hk; [lia|]. cbn [varint_n]. rewrite sov_log2.
  destruct (v <? 128)%N eqn:E.
  - cbn [length]. assert (N.log2 v <= 6)%N.
    { change 6%N with (N.log2 127). apply N.log2_le_mono. lia. }
    lia.
  - cbn [length]. rewrite pow128 in Hv.
    rewrite Nat2Z.inj_succ, IH, sov_log2.
    + change 128%N with (2^7)%N. rewrite <- N.shiftr_div_pow2, N.log2_shiftr by lia.
      assert (7 <= N.log2 v)%N.
      { change 7%N with (N.log2 128). apply N.log2_le_mono. lia. }
      lia.
    + apply N.div_lt_upper_bound; lia.
    + destruct k; [|lia]. simpl in Hv. lia.
Qed.
Lemma sov_len v : sovRouter v = Z.of_nat (length (varint v)).
Proof. symmetry. apply varint_n_sov; [apply varint_fuel|lia]. Qed.

Lemma u64_len s : fits s -> u64_of (len s) = nlen s.
Proof. unfold fits, u64_of, nlen, len. intros. rewrite Z.mod_small by lia. lia. Qed.

(** * Sizes *)
Lemma delimited_len num x : (length (tag num 2) = 1)%nat ->
  Z.of_nat (length (delimited num x)) = (1 + len x + sovRouter (nlen x))%Z.
Proof. intros H. unfold delimited. rewrite !app_length, H, sov_len. unfold len. lia. Qed.

Lemma size_len_ok num x : fits x -> (length (tag num 2) = 1)%nat ->
  size_len x = Z.of_nat (length (f_bytes num x)).
Proof.
  intros Hf Ht. unfold size_len. destruct x as [|b x].
  - reflexivity.
  - replace (0 <? len (b :: x))%Z with true by (unfold len; cbn [length]; lia).
    cbn [f_bytes]. now rewrite delimited_len, u64_len.
Qed.

Lemma Header_Size_ok h : fits_header h -> Header_Size h = Z.of_nat (length (enc_header h)).
Proof.
  intros (F1&F2&F3&F4&F5&F6&F7&F8&F9).
  unfold Header_Size, enc_header, header_chunks. cbn [concat].
  rewrite !app_length. change (@length byte []) with 0%nat.
  rewrite (size_len_ok 1 (hID h)), (size_len_ok 2 (hOrgActorID h)),
    (size_len_ok 3 (hOrgActorType h)), (size_len_ok 4 (hPrevActorType h)),
    (size_len_ok 7 (hTargetActorID h)), (size_len_ok 8 (hTargetActorType h)),
    (size_len_ok 9 (hEvent h)), (size_len_ok 10 (hToken h)), (size_len_ok 12 (hCustom h))
    by (assumption || reflexivity).
  assert (HT : (if (hTimestamp h =? 0)%Z then 0 else 1 + sovRouter (u64_of (hTimestamp h)))%Z
    = Z.of_nat (length (f_int64 11 (hTimestamp h)))).
  { unfold f_int64. destruct (hTimestamp h =? 0)%Z; [reflexivity|].
    rewrite app_length, sov_len. unfold u64_of. change (length (tag 11 0)) with 1%nat. lia. }
  rewrite HT. lia.
Qed.

Lemma size_msg_ok num x : fits x -> (length (tag num 2) = 1)%nat ->
  size_msg (len x) = Z.of_nat (length (delimited num x)).
Proof. intros. unfold size_msg. now rewrite delimited_len, u64_len. Qed.

(** All strings that must fit: the parts of a message and its encoding. *)
Definition ok_message (m : Message) : Prop :=
  fits_message m /\ match mHeader m with Some h => fits (enc_header h) | None => True end.
Definition ok_omessage (o : option Message) : Prop :=
  match o with Some m => ok_message m /\ fits (enc_message m) | None => True end.

Lemma Message_Size_ok m : ok_message m -> Message_Size m = Z.of_nat (length (enc_message m)).
Proof.
  intros [[Fh Fb] Fe]. unfold Message_Size, enc_message. rewrite app_length.
  rewrite (size_len_ok 2) by (assumption || reflexivity).
  destruct (mHeader m) as [h|]; cbn [option_map f_message].
  - rewrite Header_Size_ok by assumption. fold (len (enc_header h)).
    rewrite (size_msg_ok 1) by (assumption || reflexivity). lia.
  - cbn [length]. lia.
Qed.
Lemma RouteReq_Size_ok r : ok_omessage (reqMsg r) ->
  RouteReq_Size r = Z.of_nat (length (enc_routereq r)).
Proof.
  unfold RouteReq_Size, enc_routereq. destruct (reqMsg r) as [m|]; [|reflexivity].
  intros [Hm Hf]. cbn [option_map f_message]. rewrite Message_Size_ok by assumption.
  fold (len (enc_message m)). now apply size_msg_ok.
Qed.
Lemma RouteRes_Size_ok r : ok_omessage (resMsg r) ->
  RouteRes_Size r = Z.of_nat (length (enc_routeres r)).
Proof.
  unfold RouteRes_Size, enc_routeres. destruct (resMsg r) as [m|]; [|reflexivity].
  intros [Hm Hf]. cbn [option_map f_message]. rewrite Message_Size_ok by assumption.
  fold (len (enc_message m)). now apply size_msg_ok.
Qed.

(** * Backward writes *)
Definition writes (w : bytes * Z -> outcome (bytes * Z)) (c : bytes) : Prop :=
  forall p q suf, length q = length c ->
    w (p ++ q ++ suf, len (p ++ q)) = Ok (p ++ c ++ suf, len p).

Lemma writes_nil : writes (fun st => Ok st) [].
Proof. intros p q suf H. destruct q; [|discriminate]. now rewrite app_nil_r. Qed.

Lemma writes_bind w1 w2 c1 c2 : writes w1 c1 -> writes w2 c2 ->
  writes (fun st => bind (w1 st) w2) (c2 ++ c1).
Proof.
  intros H1 H2 p q suf Hq. rewrite app_length in Hq.
  assert (Eq : q = firstn (length c2) q ++ skipn (length c2) q) by now rewrite firstn_skipn.
  remember (firstn (length c2) q) as q2. remember (skipn (length c2) q) as q1.
  assert (length q2 = length c2) by (subst q2; rewrite firstn_length; lia).
  assert (length q1 = length c1) by (subst q1; rewrite skipn_length; lia).
  rewrite Eq, <- app_assoc, !(app_assoc p q2). rewrite H1 by assumption. cbn [bind].
  rewrite <- app_assoc, H2 by assumption. now rewrite <- !app_assoc.
Qed.

Lemma set_at_ok p b0 b s : set_at (p ++ b0 :: s) (len p) b = Ok (p ++ b :: s).
Proof.
  unfold set_at, len. rewrite app_length. cbn [length].
  replace ((0 <=? Z.of_nat (length p)) &&
     (Z.of_nat (length p) <? Z.of_nat (length p + S (length s))))%Z with true by lia.
  rewrite Nat2Z.id, firstn_app, firstn_all, Nat.sub_diag. cbn [firstn]. rewrite app_nil_r.
  rewrite skipn_app, skipn_all2 by lia.
  replace (S (length p) - length p)%nat with 1%nat by lia. reflexivity.
Qed.

Lemma len_snoc p b : len (p ++ [b]) = (len p + 1)%Z.
Proof. rewrite len_app. reflexivity. Qed.

Lemma put_varint_ok k : forall f v p q suf, (v < 128 ^ N.of_nat k)%N -> (0 < k)%nat ->
  length q = length (varint_n k v) -> (length q <= f)%nat ->
  put_varint_loop f (p ++ q ++ suf) (len p) v = Ok (p ++ varint_n k v ++ suf).
Proof.
  induction k as [|k IH]; intros f v p q suf Hv Hk Hq Hf; [lia|].
  cbn [varint_n] in *. destruct f as [|f].
  { destruct (v <? 128)%N; cbn [length] in *; lia. }
  cbn [put_varint_loop]. destruct (v <? 128)%N eqn:E.
  - replace (128 <=? v)%N with false by lia.
    destruct q as [|b0 [|]]; try discriminate. cbn [app]. apply set_at_ok.
  - replace (128 <=? v)%N with true by lia.
    destruct q as [|b0 q]; [discriminate|]. cbn [app]. rewrite set_at_ok. cbn [bind].
    assert (Eb : N.lor (N.land v 127) 128 = (128 + v mod 128)%N).
    { rewrite land127. change 128%N with (N.shiftl 1 7) at 2.
      rewrite lor_disjoint by (change (2^7)%N with 128%N; lia).
      change (1 * 2^7)%N with 128%N. lia. }
    rewrite Eb, N.shiftr_div_pow2. change (2^7)%N with 128%N.
    change (p ++ n2b (128 + v mod 128) :: q ++ suf)
      with (p ++ [n2b (128 + v mod 128)] ++ q ++ suf).
    rewrite app_assoc, <- len_snoc with (b := n2b (128 + v mod 128)).
    rewrite pow128 in Hv. cbn [length] in *. rewrite IH; try lia.
    + now rewrite <- app_assoc.
    + destruct k; [|lia]. simpl in Hv. lia.
Qed.

Lemma writes_varint v : (v < 2^64)%N ->
  writes (fun '(d, i) => encodeVarint d i v) (varint v).
Proof.
  intros Hv p q suf Hq. unfold encodeVarint.
  replace (len (p ++ q) - sovRouter v)%Z with (len p).
  2:{ rewrite sov_len, len_app. unfold len. lia. }
  pose proof (varint_is v Hv) as (w & _ & Hl & _).
  rewrite (put_varint_ok (S (N.to_nat (N.size v)))); auto using varint_fuel; try lia.
Qed.

Lemma writes_tag t : writes (put_tag t) [n2b t].
Proof.
  intros p q suf Hq. destruct q as [|b0 [|]]; try discriminate.
  unfold put_tag. rewrite len_snoc. replace (len p + 1 - 1)%Z with (len p) by lia.
  cbn [app]. rewrite set_at_ok. reflexivity.
Qed.

Lemma copy_at_ok p q s suf : length q = length s ->
  copy_at (p ++ q ++ suf) (len p) s = Ok (p ++ s ++ suf).
Proof.
  intros Hq. unfold copy_at, len. rewrite !app_length.
  replace ((0 <=? Z.of_nat (length p)) &&
     (Z.of_nat (length p) <=? Z.of_nat (length p + (length q + length suf))))%Z with true by lia.
  rewrite Nat2Z.id. rewrite firstn_app, firstn_all, Nat.sub_diag. cbn [firstn]. rewrite app_nil_r.
  rewrite skipn_app, skipn_all, Nat.sub_diag. cbn [skipn app].
  rewrite app_length. rewrite Nat.min_l by lia. rewrite firstn_all, <- Hq.
  rewrite skipn_app, skipn_all, Nat.sub_diag. reflexivity.
Qed.

Lemma writes_copy s : writes (fun '(d, i) =>
  bind (copy_at d (i - len s) s) (fun d1 => Ok (d1, (i - len s)%Z))) s.
Proof.
  intros p q suf Hq. replace (len (p ++ q) - len s)%Z with (len p)
    by (rewrite len_app; unfold len; lia).
  rewrite copy_at_ok by assumption. reflexivity.
Qed.

Lemma tag_one num t : [n2b t] = tag num 2 ->
  forall c x, n2b t :: c ++ x = tag num 2 ++ c ++ x.
Proof. intros <-. reflexivity. Qed.

Lemma writes_put_len t num s : fits s -> [n2b t] = tag num 2 ->
  writes (put_len t s) (f_bytes num s).
Proof.
  intros Hf Ht. destruct s as [|b s0] eqn:Es.
  - intros p q suf Hq. now apply (writes_nil p q suf).
  - rewrite <- Es in *. assert (Hp : (0 <? len s)%Z = true) by (rewrite Es; unfold len; cbn [length]; lia).
    replace (f_bytes num s) with (([n2b t] ++ varint (nlen s)) ++ s).
    2:{ rewrite Es, <- Es. cbn [f_bytes]. unfold delimited. rewrite Ht, <- app_assoc.
        rewrite Es. reflexivity. }
    intros p q suf Hq.
    pose proof (writes_bind _ _ _ _ (writes_copy s)
      (writes_bind _ _ _ _ (writes_varint (nlen s) ltac:(unfold nlen, fits in *; lia))
         (writes_tag t))) as HW.
    specialize (HW p q suf Hq). cbv beta iota in HW.
    unfold put_len. rewrite Hp. rewrite u64_len by assumption. cbv zeta.
    rewrite <- HW. destruct (copy_at _ _ s); reflexivity.
Qed.

Lemma writes_ext w w' c : (forall st, w st = w' st) -> writes w c -> writes w' c.
Proof. intros He H p q suf Hq. rewrite <- He. now apply H. Qed.

(** A whole-message writer fills the end of any sufficiently long buffer. *)
Definition fills (w : bytes -> outcome (bytes * Z)) (c : bytes) : Prop :=
  forall p q, length q = length c -> w (p ++ q) = Ok (p ++ c, len c).

Lemma fills_of_writes w c : writes w c ->
  fills (fun d => bind (w (d, len d)) (fun '(d', i) => Ok (d', (len d - i)%Z))) c.
Proof.
  intros H p q Hq. specialize (H p q [] Hq). rewrite !app_nil_r in H. cbv beta. unfold bytes in *. rewrite H.
  cbn [bind]. do 2 f_equal. rewrite len_app. unfold len. lia.
Qed.

Lemma writes_put_msg t num w c : fits c -> [n2b t] = tag num 2 -> fills w c ->
  writes (put_msg t w) (delimited num c).
Proof.
  intros Hf Ht Hw p q suf Hq.
  unfold delimited in *. rewrite <- Ht in *. rewrite app_assoc in *. rewrite app_length in Hq.
  remember (firstn (length ([n2b t] ++ varint (nlen c))) q) as q2.
  remember (skipn (length ([n2b t] ++ varint (nlen c))) q) as q1.
  assert (Eq : q = q2 ++ q1) by (subst; now rewrite firstn_skipn).
  assert (L2 : length q2 = length ([n2b t] ++ varint (nlen c)))
    by (subst q2; rewrite firstn_length; lia).
  assert (L1 : length q1 = length c) by (subst q1; rewrite skipn_length; lia).
  unfold put_msg. unfold slice.
  match goal with |- context[if ?c then _ else _] =>
    replace c with true by (rewrite !len_app; unfold len; lia) end.
  cbn [bind]. rewrite Z.sub_0_r. cbn [skipn Z.to_nat].
  replace (Z.to_nat (len (p ++ q))) with (length (p ++ q)) by (unfold len; lia).
  rewrite app_assoc. rewrite firstn_app, firstn_all, Nat.sub_diag. cbn [firstn]. rewrite app_nil_r.
  rewrite skipn_app, skipn_all, Nat.sub_diag. cbn [skipn app].
  rewrite Eq, (app_assoc p q2 q1). unfold fills in Hw. rewrite (Hw (p ++ q2) q1 L1). cbn [bind].
  replace (len ((p ++ q2) ++ q1) - len c)%Z with (len (p ++ q2))
    by (rewrite !len_app; unfold len; lia).
  rewrite u64_len by assumption.
  pose proof (writes_bind _ _ _ _ (writes_varint (nlen c) ltac:(unfold nlen, fits in *; lia))
         (writes_tag t)) as HW.
  specialize (HW p q2 (c ++ suf) L2). cbv beta iota in HW.
  rewrite <- !app_assoc in *. rewrite HW. cbn [app]. now rewrite <- app_assoc.
Qed.

Lemma fills_ext w w' c : (forall d, w d = w' d) -> fills w c -> fills w' c.
Proof. intros He H p q Hq. rewrite <- He. now apply H. Qed.

Lemma writes_ts z : int64 z ->
  writes (fun '(d, i) => if (z =? 0)%Z then Ok (d, i)
          else bind (encodeVarint d i (u64_of z)) (put_tag 0x58)) (f_int64 11 z).
Proof.
  intros Hz. unfold f_int64. destruct (z =? 0)%Z.
  - intros p q suf Hq. now apply (writes_nil p q suf).
  - assert (Hv : (u64_of z < 2^64)%N) by (unfold u64_of; lia).
    exact (writes_ext _ _ _ (fun '(d,i) => eq_refl)
      (writes_bind _ _ _ _ (writes_varint (u64_of z) Hv) (writes_tag 0x58))).
Qed.

Lemma Header_fills h : wf_header h -> fits_header h ->
  fills (Header_MarshalToSizedBuffer h) (enc_header h).
Proof.
  intros Hw (F1&F2&F3&F4&F5&F6&F7&F8&F9).
  unfold enc_header, header_chunks. cbn [concat]. rewrite app_nil_r.
  pose proof (writes_put_len 0x62 12 _ F9 eq_refl) as W12.
  pose proof (writes_ts _ Hw) as W11.
  pose proof (writes_put_len 0x52 10 _ F8 eq_refl) as W10.
  pose proof (writes_put_len 0x4a 9 _ F7 eq_refl) as W9.
  pose proof (writes_put_len 0x42 8 _ F6 eq_refl) as W8.
  pose proof (writes_put_len 0x3a 7 _ F5 eq_refl) as W7.
  pose proof (writes_put_len 0x22 4 _ F4 eq_refl) as W4.
  pose proof (writes_put_len 0x1a 3 _ F3 eq_refl) as W3.
  pose proof (writes_put_len 0x12 2 _ F2 eq_refl) as W2.
  pose proof (writes_put_len 0x0a 1 _ F1 eq_refl) as W1.
  pose proof (fills_of_writes _ _
    (writes_bind _ _ _ _ (writes_bind _ _ _ _ (writes_bind _ _ _ _ (writes_bind _ _ _ _
    (writes_bind _ _ _ _ (writes_bind _ _ _ _ (writes_bind _ _ _ _ (writes_bind _ _ _ _
    (writes_bind _ _ _ _ W12 W11) W10) W9) W8) W7) W4) W3) W2) W1)) as HF.
  eapply fills_ext; [|exact HF]. intros d. unfold Header_MarshalToSizedBuffer.
  destruct (put_len 0x62 (hCustom h) (d, len d)) as [st| | |]; try reflexivity. cbn [bind].
  destruct st as [d1 i1].
  destruct (if (hTimestamp h =? 0)%Z then Ok (d1, i1) else _) as [st| | |]; try reflexivity. cbn [bind].
  repeat (match goal with |- context[bind (put_len ?t ?s ?st) _] =>
    destruct (put_len t s st) as [[? ?]| | |]; try reflexivity; cbn [bind] end).
Qed.

Lemma Message_fills m : wf_message m -> ok_message m ->
  fills (Message_MarshalToSizedBuffer m) (enc_message m).
Proof.
  intros Hw [[Fh Fb] Fe]. unfold enc_message. unfold wf_message in Hw.
  pose proof (writes_put_len 0x12 2 _ Fb eq_refl) as W2.
  assert (W1 : writes (fun st => match mHeader m with
        | Some h => put_msg 0x0a (Header_MarshalToSizedBuffer h) st
        | None => Ok st end) (f_message 1 (option_map enc_header (mHeader m)))).
  { destruct (mHeader m) as [h|]; cbn [option_map f_message].
    - apply (writes_put_msg 0x0a 1 _ _ Fe eq_refl). now apply Header_fills.
    - apply writes_nil. }
  pose proof (fills_of_writes _ _ (writes_bind _ _ _ _ W2 W1)) as HF.
  eapply fills_ext; [|exact HF]. intros d. unfold Message_MarshalToSizedBuffer.
  destruct (put_len 0x12 (mBody m) (d, len d)) as [st| | |]; reflexivity.
Qed.
Lemma RouteReq_fills r : wf_omessage (reqMsg r) -> ok_omessage (reqMsg r) ->
  fills (RouteReq_MarshalToSizedBuffer r) (enc_routereq r).
Proof.
  intros Hw Ho. unfold enc_routereq.
  assert (W1 : writes (fun st => match reqMsg r with
        | Some x => put_msg 0x0a (Message_MarshalToSizedBuffer x) st
        | None => Ok st end) (f_message 1 (option_map enc_message (reqMsg r)))).
  { destruct (reqMsg r) as [m|]; cbn [option_map f_message].
    - destruct Ho as [Ho Hf]. apply (writes_put_msg 0x0a 1 _ _ Hf eq_refl). now apply Message_fills.
    - apply writes_nil. }
  pose proof (fills_of_writes _ _ W1) as HF.
  eapply fills_ext; [|exact HF]. reflexivity.
Qed.
Lemma RouteRes_fills r : wf_omessage (resMsg r) -> ok_omessage (resMsg r) ->
  fills (RouteRes_MarshalToSizedBuffer r) (enc_routeres r).
Proof.
  intros Hw Ho. unfold enc_routeres.
  assert (W1 : writes (fun st => match resMsg r with
        | Some x => put_msg 0x12 (Message_MarshalToSizedBuffer x) st
        | None => Ok st end) (f_message 2 (option_map enc_message (resMsg r)))).
  { destruct (resMsg r) as [m|]; cbn [option_map f_message].
    - destruct Ho as [Ho Hf]. apply (writes_put_msg 0x12 2 _ _ Hf eq_refl). now apply Message_fills.
    - apply writes_nil. }
  pose proof (fills_of_writes _ _ W1) as HF.
  eapply fills_ext; [|exact HF]. reflexivity.
Qed.

Lemma fills_at_least w c buf size : fills w c -> size = len c -> (size <= len buf)%Z ->
  w buf = Ok (firstn (length buf - length c) buf ++ c, size).
Proof.
  intros H -> Hl. unfold len in Hl.
  rewrite <- (firstn_skipn (length buf - length c) buf) at 1.
  apply H. rewrite skipn_length. lia.
Qed.

Lemma marshal_with_ok size w c : fills w c -> size = len c -> marshal_with size w = Ok c.
Proof.
  intros H ->. unfold marshal_with.
  pose proof (H [] (repeat x00 (Z.to_nat (len c)))) as HH. cbn [app] in HH. rewrite HH.
  - cbn [bind]. unfold slice.
    replace ((0 <=? 0) && (0 <=? len c) && (len c <=? len c))%Z with true by (unfold len; lia).
    cbn [skipn Z.to_nat]. rewrite Z.sub_0_r. unfold len. rewrite Nat2Z.id. now rewrite firstn_all.
  - rewrite repeat_length. unfold len. lia.
Qed.

Lemma marshal_to_with_ok size w c buf : fills w c -> size = len c -> (size <= len buf)%Z ->
  marshal_to_with size w buf = Ok (c ++ skipn (length c) buf, size).
Proof.
  intros H -> Hl. unfold marshal_to_with, slice.
  replace ((0 <=? 0) && (0 <=? len c) && (len c <=? len buf))%Z with true by (unfold len in *; lia).
  cbn [bind skipn Z.to_nat]. rewrite Z.sub_0_r. unfold len in *. rewrite Nat2Z.id.
  pose proof (H [] (firstn (length c) buf)) as HH. cbn [app] in HH. rewrite HH; [reflexivity|].
  rewrite firstn_length. lia.
Qed.

(** * Sizes bound the parts *)
Lemma f_bytes_len num x : (length x <= length (f_bytes num x))%nat.
Proof. destruct x; [simpl; lia|]. cbn [f_bytes]. unfold delimited. rewrite !app_length. lia. Qed.
Lemma delimited_le num x : (length x <= length (delimited num x))%nat.
Proof. unfold delimited. rewrite !app_length. lia. Qed.

Lemma woven_le known cs s : woven known cs s -> (length (concat cs) <= length s)%nat.
Proof.
  induction 1 as [|u c cs s Hu Hw IH]; cbn [concat]; [simpl; lia|].
  rewrite !app_length. lia.
Qed.

Lemma fits_mono a b : (length a <= length b)%nat -> fits b -> fits a.
Proof. unfold fits. lia. Qed.

Lemma fits_header_of h s : (length (enc_header h) <= length s)%nat -> fits s -> fits_header h.
Proof.
  intros Hl Hf. unfold enc_header, header_chunks in Hl. cbn [concat] in Hl.
  rewrite !app_length in Hl.
  unfold fits_header, fits in *.
  pose proof (f_bytes_len 1 (hID h)). pose proof (f_bytes_len 2 (hOrgActorID h)).
  pose proof (f_bytes_len 3 (hOrgActorType h)). pose proof (f_bytes_len 4 (hPrevActorType h)).
  pose proof (f_bytes_len 7 (hTargetActorID h)). pose proof (f_bytes_len 8 (hTargetActorType h)).
  pose proof (f_bytes_len 9 (hEvent h)). pose proof (f_bytes_len 10 (hToken h)).
  pose proof (f_bytes_len 12 (hCustom h)). lia.
Qed.

Lemma wire_header_le h s : wire_header h s -> (length (enc_header h) <= length s)%nat.
Proof. apply woven_le. Qed.

Lemma fits_message_of m s : wire_message m s -> fits s -> fits_message m.
Proof.
  intros (hs & Ho & Hw) Hf. apply woven_le in Hw. cbn [concat] in Hw.
  rewrite !app_length in Hw. pose proof (f_bytes_len 2 (mBody m)).
  split; [|eapply fits_mono; [|exact Hf]; lia].
  destruct Ho as [|h x Hx]; [exact I|]. cbn [f_message] in Hw.
  pose proof (delimited_le 1 x). apply wire_header_le in Hx.
  eapply fits_header_of; [exact Hx|]. eapply fits_mono; [|exact Hf]. lia.
Qed.

Lemma wire_enc_header h : wire_header h (enc_header h).
Proof. apply woven_concat. Qed.
Lemma wire_enc_message m : wire_message m (enc_message m).
Proof.
  exists (option_map enc_header (mHeader m)). split.
  - destruct (mHeader m); constructor. apply wire_enc_header.
  - pose proof (woven_concat message_known
      [f_message 1 (option_map enc_header (mHeader m)); f_bytes 2 (mBody m)]) as H.
    cbn [concat] in H. now rewrite app_nil_r in H.
Qed.
Lemma wire_enc_routereq r : wire_routereq r (enc_routereq r).
Proof.
  exists (option_map enc_message (reqMsg r)). split.
  - destruct (reqMsg r); constructor. apply wire_enc_message.
  - pose proof (woven_concat routereq_known [f_message 1 (option_map enc_message (reqMsg r))]) as H.
    cbn [concat] in H. now rewrite app_nil_r in H.
Qed.
Lemma wire_enc_routeres r : wire_routeres r (enc_routeres r).
Proof.
  exists (option_map enc_message (resMsg r)). split.
  - destruct (resMsg r); constructor. apply wire_enc_message.
  - pose proof (woven_concat routeres_known [f_message 2 (option_map enc_message (resMsg r))]) as H.
    cbn [concat] in H. now rewrite app_nil_r in H.
Qed.

Lemma enc_header_fits h : fits (enc_header h) -> fits_header h.
Proof. intros. eapply fits_header_of; eauto. Qed.
Lemma enc_message_ok m : fits (enc_message m) -> ok_message m.
Proof.
  intros Hf. split; [eapply fits_message_of; eauto using wire_enc_message|].
  unfold enc_message in Hf. destruct (mHeader m); [|exact I]. cbn [option_map f_message] in Hf.
  pose proof (delimited_le 1 (enc_header h)).
  eapply fits_mono; [|exact Hf]. rewrite app_length. lia.
Qed.
Lemma enc_routereq_ok r : fits (enc_routereq r) -> ok_omessage (reqMsg r).
Proof.
  unfold enc_routereq. destruct (reqMsg r) as [m|]; [|intros; exact I]. cbn [option_map f_message].
  pose proof (delimited_le 1 (enc_message m)). intros Hf.
  assert (fits (enc_message m)) by (eapply fits_mono; eauto).
  split; auto using enc_message_ok.
Qed.
Lemma enc_routeres_ok r : fits (enc_routeres r) -> ok_omessage (resMsg r).
Proof.
  unfold enc_routeres. destruct (resMsg r) as [m|]; [|intros; exact I]. cbn [option_map f_message].
  pose proof (delimited_le 2 (enc_message m)). intros Hf.
  assert (fits (enc_message m)) by (eapply fits_mono; eauto).
  split; auto using enc_message_ok.
Qed.
