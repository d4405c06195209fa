(** The wire lemmas in the shape of the properties. *)
From Coq Require Import List NArith ZArith Bool Lia.
From Coq Require Import ZifyBool ZifyNat ZifyN.
From Coq.Strings Require Import Byte.
From Verif Require Import WireModel WireSpec WireProofs WireDecode WireEncode.
Import ListNotations.

(** Marshal is exactly the specified encoding. *)
Lemma header_marshal h : wf_header h -> fits (enc_header h) -> Header_Marshal h = Ok (enc_header h).
Proof.
  intros Hw Hf. apply enc_header_fits in Hf as HF. apply marshal_with_ok; [now apply Header_fills|].
  now apply Header_Size_ok.
Qed.
Lemma message_marshal m : wf_message m -> fits (enc_message m) -> Message_Marshal m = Ok (enc_message m).
Proof.
  intros Hw Hf. apply enc_message_ok in Hf as HF. apply marshal_with_ok; [now apply Message_fills|].
  now apply Message_Size_ok.
Qed.
Lemma routereq_marshal r : wf_omessage (reqMsg r) -> fits (enc_routereq r) ->
  RouteReq_Marshal r = Ok (enc_routereq r).
Proof.
  intros Hw Hf. apply enc_routereq_ok in Hf as HF. apply marshal_with_ok; [now apply RouteReq_fills|].
  now apply RouteReq_Size_ok.
Qed.
Lemma routeres_marshal r : wf_omessage (resMsg r) -> fits (enc_routeres r) ->
  RouteRes_Marshal r = Ok (enc_routeres r).
Proof.
  intros Hw Hf. apply enc_routeres_ok in Hf as HF. apply marshal_with_ok; [now apply RouteRes_fills|].
  now apply RouteRes_Size_ok.
Qed.

(** Decoding an encoding with unknown fields woven in, on top of any value. *)
Lemma header_unmarshal m h s : wf_header h -> fits s -> wire_header h s ->
  Header_Unmarshal m s = Ok (merge_header m h).
Proof.
  intros Hw Hf Hs. apply (orel_ok_iff _ _ _ (header_dec_rel m s Hf)).
  apply sdec_header; auto. eapply fits_header_of; [|exact Hf]. now apply wire_header_le.
Qed.
Lemma message_unmarshal m0 m s : wf_message m -> fits s -> wire_message m s ->
  Message_Unmarshal m0 s = Ok (merge_message m0 m).
Proof.
  intros Hw Hf Hs. apply (orel_ok_iff _ _ _ (message_dec_rel m0 s Hf)).
  apply sdec_message; auto. eapply fits_message_of; eauto.
Qed.
Lemma fits_omessage_of o ms s : wire_opt wire_message o ms ->
  match ms with Some x => (length x <= length s)%nat | None => True end -> fits s ->
  fits_omessage o.
Proof.
  intros Ho Hl Hf. destruct Ho as [|m x Hx]; [exact I|]. cbn.
  eapply fits_message_of; [exact Hx|]. eapply fits_mono; eauto.
Qed.
Lemma routereq_unmarshal r0 r s : wf_omessage (reqMsg r) -> fits s -> wire_routereq r s ->
  RouteReq_Unmarshal r0 s = Ok (merge_routereq r0 r).
Proof.
  intros Hw Hf Hs. apply (orel_ok_iff _ _ _ (routereq_dec_rel r0 s Hf)).
  apply sdec_routereq; auto. destruct Hs as (ms & Ho & Hs).
  eapply fits_omessage_of; [exact Ho| |exact Hf].
  apply woven_le in Hs. destruct ms as [x|]; [|exact I]. cbn [f_message concat] in Hs.
  pose proof (delimited_le 1 x). rewrite app_length in Hs. lia.
Qed.
Lemma routeres_unmarshal r0 r s : wf_omessage (resMsg r) -> fits s -> wire_routeres r s ->
  RouteRes_Unmarshal r0 s = Ok (merge_routeres r0 r).
Proof.
  intros Hw Hf Hs. apply (orel_ok_iff _ _ _ (routeres_dec_rel r0 s Hf)).
  apply sdec_routeres; auto. destruct Hs as (ms & Ho & Hs).
  eapply fits_omessage_of; [exact Ho| |exact Hf].
  apply woven_le in Hs. destruct ms as [x|]; [|exact I]. cbn [f_message concat] in Hs.
  pose proof (delimited_le 2 x). rewrite app_length in Hs. lia.
Qed.

Lemma merge_routereq_empty r : merge_routereq (mkRouteReq None) r = r.
Proof. destruct r as [[]]; reflexivity. Qed.
Lemma merge_routeres_empty r : merge_routeres (mkRouteRes None) r = r.
Proof. destruct r as [[]]; reflexivity. Qed.

(** C01 *)
Lemma header_rt_all h : wf_header h -> fits (enc_header h) ->
  exists d, Header_Marshal h = Ok d /\ Header_Unmarshal emptyHeader d = Ok h.
Proof.
  intros Hw Hf. exists (enc_header h). split; [now apply header_marshal|].
  rewrite (header_unmarshal _ h); auto using wire_enc_header. now rewrite merge_header_empty.
Qed.
Lemma message_rt_all m : wf_message m -> fits (enc_message m) ->
  exists d, Message_Marshal m = Ok d /\ Message_Unmarshal emptyMessage d = Ok m.
Proof.
  intros Hw Hf. exists (enc_message m). split; [now apply message_marshal|].
  rewrite (message_unmarshal _ m); auto using wire_enc_message. now rewrite merge_message_empty.
Qed.
Lemma routereq_rt_all r : wf_omessage (reqMsg r) -> fits (enc_routereq r) ->
  exists d, RouteReq_Marshal r = Ok d /\ RouteReq_Unmarshal (mkRouteReq None) d = Ok r.
Proof.
  intros Hw Hf. exists (enc_routereq r). split; [now apply routereq_marshal|].
  rewrite (routereq_unmarshal _ r); auto using wire_enc_routereq. now rewrite merge_routereq_empty.
Qed.
Lemma routeres_rt_all r : wf_omessage (resMsg r) -> fits (enc_routeres r) ->
  exists d, RouteRes_Marshal r = Ok d /\ RouteRes_Unmarshal (mkRouteRes None) d = Ok r.
Proof.
  intros Hw Hf. exists (enc_routeres r). split; [now apply routeres_marshal|].
  rewrite (routeres_unmarshal _ r); auto using wire_enc_routeres. now rewrite merge_routeres_empty.
Qed.

Lemma exact_writer_intro size w d : fills w d -> size = len d ->
  exact_writer size (marshal_with size w) w (marshal_to_with size w).
Proof.
  intros Hw Hs. exists d. split; [now apply marshal_with_ok|]. split; [exact Hs|].
  intros buf Hb. split; [now apply fills_at_least|now apply marshal_to_with_ok].
Qed.
Lemma header_exact h : wf_header h -> fits (enc_header h) ->
  exact_writer (Header_Size h) (Header_Marshal h) (Header_MarshalToSizedBuffer h) (Header_MarshalTo h).
Proof.
  intros Hw Hf. apply enc_header_fits in Hf as HF.
  eapply exact_writer_intro; [now apply Header_fills|now apply Header_Size_ok].
Qed.
Lemma message_exact m : wf_message m -> fits (enc_message m) ->
  exact_writer (Message_Size m) (Message_Marshal m) (Message_MarshalToSizedBuffer m) (Message_MarshalTo m).
Proof.
  intros Hw Hf. apply enc_message_ok in Hf as HF.
  eapply exact_writer_intro; [now apply Message_fills|now apply Message_Size_ok].
Qed.
Lemma routereq_exact r : wf_omessage (reqMsg r) -> fits (enc_routereq r) ->
  exact_writer (RouteReq_Size r) (RouteReq_Marshal r) (RouteReq_MarshalToSizedBuffer r) (RouteReq_MarshalTo r).
Proof.
  intros Hw Hf. apply enc_routereq_ok in Hf as HF.
  eapply exact_writer_intro; [now apply RouteReq_fills|now apply RouteReq_Size_ok].
Qed.
Lemma routeres_exact r : wf_omessage (resMsg r) -> fits (enc_routeres r) ->
  exact_writer (RouteRes_Size r) (RouteRes_Marshal r) (RouteRes_MarshalToSizedBuffer r) (RouteRes_MarshalTo r).
Proof.
  intros Hw Hf. apply enc_routeres_ok in Hf as HF.
  eapply exact_writer_intro; [now apply RouteRes_fills|now apply RouteRes_Size_ok].
Qed.

(** C03 *)
Lemma header_total m d : fits d ->
  (exists x, Header_Unmarshal m d = Ok x) \/ (exists e, Header_Unmarshal m d = Err e).
Proof. intros. eapply orel_total. now apply header_dec_rel. Qed.
Lemma message_total m d : fits d ->
  (exists x, Message_Unmarshal m d = Ok x) \/ (exists e, Message_Unmarshal m d = Err e).
Proof. intros. eapply orel_total. now apply message_dec_rel. Qed.
Lemma routereq_total m d : fits d ->
  (exists x, RouteReq_Unmarshal m d = Ok x) \/ (exists e, RouteReq_Unmarshal m d = Err e).
Proof. intros. eapply orel_total. now apply routereq_dec_rel. Qed.
Lemma routeres_total m d : fits d ->
  (exists x, RouteRes_Unmarshal m d = Ok x) \/ (exists e, RouteRes_Unmarshal m d = Err e).
Proof. intros. eapply orel_total. now apply routeres_dec_rel. Qed.

(** C04: unknown fields anywhere at a field boundary of an arbitrary (not
    necessarily canonical) input. *)
Section Insert.
  Context {M : Type}.
  Variable dec : M -> bytes -> outcome M.
  Variable sf : Z -> N -> bytes -> M -> option (outcome (M * bytes)).
  Variable known : list Z.
  Hypothesis rel : forall m d, fits d -> orel eq (dec m d) (sdec sf m d).
  Hypothesis sf_len : forall n wt s m m' t,
    sf n wt s m = Some (Ok (m', t)) -> (length t < length s)%nat.
  Hypothesis sf_app : forall n wt s m m' t r,
    sf n wt s m = Some (Ok (m', t)) -> sf n wt (s ++ r) m = Some (Ok (m', t ++ r)).
  Hypothesis sf_none : forall n wt s m s' m', sf n wt s m = None -> sf n wt s' m' = None.
  Hypothesis sf_known : forall n wt s m, ~ In n known -> sf n wt s m = None.

  Lemma insert_unknown m a m' u b : fits (a ++ u ++ b) -> dec m a = Ok m' ->
    unknown_seq known u ->
    forall x, dec m (a ++ u ++ b) = Ok x <-> dec m (a ++ b) = Ok x.
  Proof.
    intros Hf Ha Hu x.
    assert (Hf2 : fits (a ++ b)) by (eapply fits_mono; [|exact Hf]; rewrite !app_length; lia).
    assert (Hfa : fits a) by (eapply fits_mono; [|exact Hf]; rewrite !app_length; lia).
    rewrite (orel_ok_iff _ _ x (rel _ _ Hf)), (orel_ok_iff _ _ x (rel _ _ Hf2)).
    apply (orel_ok_iff _ _ _ (rel _ _ Hfa)) in Ha.
    rewrite !(sdec_app sf sf_len sf_app sf_none _ _ _ _ Ha).
    now rewrite (sdec_unknown sf known sf_len sf_app sf_none sf_known u Hu).
  Qed.

  (** C05: decoding a concatenation is decoding the second part on top. *)
  Lemma dec_concat m a m' b : fits (a ++ b) -> dec m a = Ok m' ->
    forall x, dec m (a ++ b) = Ok x <-> dec m' b = Ok x.
  Proof.
    intros Hf Ha x.
    assert (Hfa : fits a) by (eapply fits_mono; [|exact Hf]; rewrite !app_length; lia).
    assert (Hfb : fits b) by (eapply fits_mono; [|exact Hf]; rewrite !app_length; lia).
    rewrite (orel_ok_iff _ _ x (rel _ _ Hf)), (orel_ok_iff _ _ x (rel _ _ Hfb)).
    apply (orel_ok_iff _ _ _ (rel _ _ Hfa)) in Ha.
    now rewrite (sdec_app sf sf_len sf_app sf_none _ _ _ _ Ha).
  Qed.

  (** C07 *)
  Variable declared : Z -> N.
  Hypothesis sf_wrong : forall n wt s m, In n known -> wt <> declared n ->
    exists e, sf n wt s m = Some (Err e).
  Hypothesis known_dec : forall n, In n known \/ ~ In n known.
  Hypothesis decl_ok : forall n, declared n = 0%N \/ declared n = 2%N.

  Lemma bad_tag m a m' t w b : fits (a ++ t ++ b) -> dec m a = Ok m' -> is_varint t w ->
    (wiretype w = 4%N \/ wiretype w = 6%N \/ wiretype w = 7%N \/ (fieldnum w <= 0)%Z \/
     (In (fieldnum w) known /\ wiretype w <> declared (fieldnum w))) ->
    exists e, dec m (a ++ t ++ b) = Err e.
  Proof.
    intros Hf Ha Ht Hbad.
    assert (Hfa : fits a) by (eapply fits_mono; [|exact Hf]; rewrite !app_length; lia).
    apply (orel_err_iff _ _ (rel _ _ Hf)).
    apply (orel_ok_iff _ _ _ (rel _ _ Hfa)) in Ha.
    rewrite (sdec_app sf sf_len sf_app sf_none _ _ _ _ Ha).
    rewrite (sdec_eq sf sf_len).
    2:{ intros HH; apply app_eq_nil in HH as [-> _]. now apply is_varint_nonempty in Ht. }
    rewrite (svarint_ok _ _ _ Ht). cbn [bind]. cbv zeta. rewrite wt_field, fieldnum_i32.
    destruct (wiretype w =? 4)%N eqn:E4; [eauto|].
    destruct (fieldnum w <=? 0)%Z eqn:E0; [eauto|].
    destruct (known_dec (fieldnum w)) as [Hk|Hk].
    - assert (Hwt : wiretype w <> declared (fieldnum w)).
      { pose proof (decl_ok (fieldnum w)). destruct Hbad as [?|[?|[?|[?|[_ ?]]]]]; try assumption; lia. }
      destruct (sf_wrong _ _ b m' Hk Hwt) as [e ->]. cbn [bind]. eauto.
    - rewrite sf_known by assumption. fold (skp (t ++ b) 0). rewrite (skp_tag _ _ _ _ Ht), wt_field.
      destruct Hbad as [?|[Hw|[Hw|[?|[? _]]]]]; try contradiction; try lia.
      + rewrite Hw. cbn [bind]. eauto.
      + rewrite Hw. cbn [bind]. eauto.
  Qed.
End Insert.

Lemma sread_wrong s wt : wt <> 2%N -> sread_len s wt = Err EWrongWireType.
Proof. intros. unfold sread_len. now replace (wt =? 2)%N with false by lia. Qed.
Lemma sheader_wrong n wt s m : In n header_known -> wt <> header_wiretype n ->
  exists e, sheader n wt s m = Some (Err e).
Proof.
  intros Hn Hw. cbn in Hn.
  repeat (destruct Hn as [<-|Hn];
    [cbn [sheader]; unfold header_wiretype, sassign in *;
     match type of Hw with context[if ?c then _ else _] => change c with false in Hw || change c with true in Hw end; cbv iota in Hw;
     try (rewrite sread_wrong by assumption; eexists; reflexivity);
     replace (wt =? 0)%N with false by lia; eexists; reflexivity|]).
  contradiction.
Qed.
Lemma smessage_wrong n wt s m : In n message_known -> wt <> two n ->
  exists e, smessage n wt s m = Some (Err e).
Proof.
  unfold two. intros Hn Hw. cbn in Hn.
  destruct Hn as [<-|[<-|[]]]; cbn [smessage]; unfold sassign, snested;
    rewrite sread_wrong by assumption; eexists; reflexivity.
Qed.
Lemma sroutereq_wrong n wt s m : In n routereq_known -> wt <> two n ->
  exists e, sroutereq n wt s m = Some (Err e).
Proof.
  unfold two. intros Hn Hw. cbn in Hn.
  destruct Hn as [<-|[]]; cbn [sroutereq]; unfold snested;
    rewrite sread_wrong by assumption; eexists; reflexivity.
Qed.
Lemma srouteres_wrong n wt s m : In n routeres_known -> wt <> two n ->
  exists e, srouteres n wt s m = Some (Err e).
Proof.
  unfold two. intros Hn Hw. cbn in Hn.
  destruct Hn as [<-|[]]; cbn [srouteres]; unfold snested;
    rewrite sread_wrong by assumption; eexists; reflexivity.
Qed.
Lemma known_dec_z (k : list Z) n : In n k \/ ~ In n k.
Proof. destruct (in_dec Z.eq_dec n k); auto. Qed.

(** C06 *)
Lemma prefix_read p q x : fits x -> varint (nlen x) ++ x = p ++ q -> q <> [] ->
  forall y t, sread_len p 2 <> Ok (y, t).
Proof.
  intros Hf E Hq y t H. apply sread_len_app with (r := q) in H. rewrite <- E in H.
  rewrite <- (app_nil_r x) in H at 2. rewrite sread_len_ok in H by assumption.
  inversion H as [[H1 H2]]. symmetry in H2. apply app_eq_nil in H2. tauto.
Qed.

Lemma routereq_truncated r d r0 p q : wf_omessage (reqMsg r) -> fits (enc_routereq r) ->
  RouteReq_Marshal r = Ok d -> d = p ++ q -> p <> [] -> q <> [] ->
  exists e, RouteReq_Unmarshal r0 p = Err e.
Proof.
  intros Hw Hf Hm Hd Hp Hq. rewrite routereq_marshal in Hm by assumption.
  assert (Ed : enc_routereq r = p ++ q) by congruence.
  assert (Hfp : fits p) by (eapply fits_mono; [|rewrite Ed in Hf; exact Hf]; rewrite app_length; lia).
  destruct (routereq_total r0 p Hfp) as [[x Hx]|He]; [exfalso|exact He].
  apply (orel_ok_iff _ _ _ (routereq_dec_rel r0 p Hfp)) in Hx.
  unfold enc_routereq in *. destruct (reqMsg r) as [m|]; cbn [option_map f_message] in *.
  2:{ symmetry in Ed. apply app_eq_nil in Ed. tauto. }
  unfold delimited in Ed. change (tag 1 2) with [x0a] in Ed. cbn [app] in Ed.
  destruct p as [|b p]; [congruence|]. inversion Ed as [[Eb Er]]. subst b.
  rewrite (sdec_eq sroutereq sroutereq_len) in Hx by discriminate.
  change (svarint (x0a :: p)) with (@Ok (N * bytes) (10%N, p)) in Hx. cbn [bind] in Hx. cbv zeta in Hx.
  change (N.land 10 7) with 2%N in Hx. change (i32_of (N.shiftr 10 3)) with 1%Z in Hx.
  cbn [sroutereq N.eqb Pos.eqb Z.leb Z.compare] in Hx. unfold snested in Hx.
  assert (Hfm : fits (enc_message m)).
  { eapply fits_mono; [|exact Hf]. apply delimited_le. }
  destruct (sread_len p 2) as [[y t]| | |] eqn:E; try discriminate.
  now apply (prefix_read p q _ Hfm Er Hq y t).
Qed.
Lemma routeres_truncated r d r0 p q : wf_omessage (resMsg r) -> fits (enc_routeres r) ->
  RouteRes_Marshal r = Ok d -> d = p ++ q -> p <> [] -> q <> [] ->
  exists e, RouteRes_Unmarshal r0 p = Err e.
Proof.
  intros Hw Hf Hm Hd Hp Hq. rewrite routeres_marshal in Hm by assumption.
  assert (Ed : enc_routeres r = p ++ q) by congruence.
  assert (Hfp : fits p) by (eapply fits_mono; [|rewrite Ed in Hf; exact Hf]; rewrite app_length; lia).
  destruct (routeres_total r0 p Hfp) as [[x Hx]|He]; [exfalso|exact He].
  apply (orel_ok_iff _ _ _ (routeres_dec_rel r0 p Hfp)) in Hx.
  unfold enc_routeres in *. destruct (resMsg r) as [m|]; cbn [option_map f_message] in *.
  2:{ symmetry in Ed. apply app_eq_nil in Ed. tauto. }
  unfold delimited in Ed. change (tag 2 2) with [x12] in Ed. cbn [app] in Ed.
  destruct p as [|b p]; [congruence|]. inversion Ed as [[Eb Er]]. subst b.
  rewrite (sdec_eq srouteres srouteres_len) in Hx by discriminate.
  change (svarint (x12 :: p)) with (@Ok (N * bytes) (18%N, p)) in Hx. cbn [bind] in Hx. cbv zeta in Hx.
  change (N.land 18 7) with 2%N in Hx. change (i32_of (N.shiftr 18 3)) with 2%Z in Hx.
  cbn [srouteres N.eqb Pos.eqb Z.leb Z.compare] in Hx. unfold snested in Hx.
  assert (Hfm : fits (enc_message m)).
  { eapply fits_mono; [|exact Hf]. apply delimited_le. }
  destruct (sread_len p 2) as [[y t]| | |] eqn:E; try discriminate.
  now apply (prefix_read p q _ Hfm Er Hq y t).
Qed.

Lemma header_unknown (x : Header) s : wf_header x -> fits s -> wire_header x s -> Header_Unmarshal emptyHeader s = Ok x.
Proof. intros. rewrite (header_unmarshal _ x) by assumption. now rewrite merge_header_empty. Qed.
Lemma header_insert (m : Header) a m' u b : fits (a ++ u ++ b) -> Header_Unmarshal m a = Ok m' ->
  unknown_seq header_known u ->
  forall x, Header_Unmarshal m (a ++ u ++ b) = Ok x <-> Header_Unmarshal m (a ++ b) = Ok x.
Proof.
  exact (insert_unknown Header_Unmarshal sheader header_known header_dec_rel sheader_len sheader_app
    sheader_none sheader_known m a m' u b).
Qed.
Lemma header_concat (m : Header) a m' b : fits (a ++ b) -> Header_Unmarshal m a = Ok m' ->
  forall x, Header_Unmarshal m (a ++ b) = Ok x <-> Header_Unmarshal m' b = Ok x.
Proof.
  exact (dec_concat Header_Unmarshal sheader header_dec_rel sheader_len sheader_app sheader_none m a m' b).
Qed.
Lemma header_merge2 (a b : Header) : wf_header a -> wf_header b -> fits (enc_header a ++ enc_header b) ->
  exists da db, Header_Marshal a = Ok da /\ Header_Marshal b = Ok db /\
    Header_Unmarshal emptyHeader (da ++ db) = Ok (merge_header a b).
Proof.
  intros Ha Hb Hf.
  assert (Hfa : fits (enc_header a)) by (eapply fits_mono; [|exact Hf]; rewrite app_length; lia).
  assert (Hfb : fits (enc_header b)) by (eapply fits_mono; [|exact Hf]; rewrite app_length; lia).
  exists (enc_header a), (enc_header b).
  split; [now apply header_marshal|]. split; [now apply header_marshal|].
  apply (header_concat _ _ a); auto.
  - apply header_unknown; auto using wire_enc_header.
  - apply header_unmarshal; auto using wire_enc_header.
Qed.
Lemma header_bad (m : Header) a m' t w b : fits (a ++ t ++ b) -> Header_Unmarshal m a = Ok m' ->
  is_varint t w -> bad_tag_value header_known header_wiretype w ->
  exists e, Header_Unmarshal m (a ++ t ++ b) = Err e.
Proof.
  refine (bad_tag Header_Unmarshal sheader header_known header_dec_rel sheader_len sheader_app
    sheader_none sheader_known header_wiretype sheader_wrong (known_dec_z _) _ m a m' t w b).
  intros n. unfold header_wiretype. destruct (n =? 11)%Z; auto.
Qed.

Lemma message_unknown (x : Message) s : wf_message x -> fits s -> wire_message x s -> Message_Unmarshal emptyMessage s = Ok x.
Proof. intros. rewrite (message_unmarshal _ x) by assumption. now rewrite merge_message_empty. Qed.
Lemma message_insert (m : Message) a m' u b : fits (a ++ u ++ b) -> Message_Unmarshal m a = Ok m' ->
  unknown_seq message_known u ->
  forall x, Message_Unmarshal m (a ++ u ++ b) = Ok x <-> Message_Unmarshal m (a ++ b) = Ok x.
Proof.
  exact (insert_unknown Message_Unmarshal smessage message_known message_dec_rel smessage_len smessage_app
    smessage_none smessage_known m a m' u b).
Qed.
Lemma message_concat (m : Message) a m' b : fits (a ++ b) -> Message_Unmarshal m a = Ok m' ->
  forall x, Message_Unmarshal m (a ++ b) = Ok x <-> Message_Unmarshal m' b = Ok x.
Proof.
  exact (dec_concat Message_Unmarshal smessage message_dec_rel smessage_len smessage_app smessage_none m a m' b).
Qed.
Lemma message_merge2 (a b : Message) : wf_message a -> wf_message b -> fits (enc_message a ++ enc_message b) ->
  exists da db, Message_Marshal a = Ok da /\ Message_Marshal b = Ok db /\
    Message_Unmarshal emptyMessage (da ++ db) = Ok (merge_message a b).
Proof.
  intros Ha Hb Hf.
  assert (Hfa : fits (enc_message a)) by (eapply fits_mono; [|exact Hf]; rewrite app_length; lia).
  assert (Hfb : fits (enc_message b)) by (eapply fits_mono; [|exact Hf]; rewrite app_length; lia).
  exists (enc_message a), (enc_message b).
  split; [now apply message_marshal|]. split; [now apply message_marshal|].
  apply (message_concat _ _ a); auto.
  - apply message_unknown; auto using wire_enc_message.
  - apply message_unmarshal; auto using wire_enc_message.
Qed.
Lemma message_bad (m : Message) a m' t w b : fits (a ++ t ++ b) -> Message_Unmarshal m a = Ok m' ->
  is_varint t w -> bad_tag_value message_known two w ->
  exists e, Message_Unmarshal m (a ++ t ++ b) = Err e.
Proof.
  refine (bad_tag Message_Unmarshal smessage message_known message_dec_rel smessage_len smessage_app
    smessage_none smessage_known two smessage_wrong (known_dec_z _) _ m a m' t w b).
  intros n. unfold two. auto.
Qed.

Lemma routereq_unknown (x : RouteReq) s : wf_omessage (reqMsg x) -> fits s -> wire_routereq x s -> RouteReq_Unmarshal (mkRouteReq None) s = Ok x.
Proof. intros. rewrite (routereq_unmarshal _ x) by assumption. now rewrite merge_routereq_empty. Qed.
Lemma routereq_insert (m : RouteReq) a m' u b : fits (a ++ u ++ b) -> RouteReq_Unmarshal m a = Ok m' ->
  unknown_seq routereq_known u ->
  forall x, RouteReq_Unmarshal m (a ++ u ++ b) = Ok x <-> RouteReq_Unmarshal m (a ++ b) = Ok x.
Proof.
  exact (insert_unknown RouteReq_Unmarshal sroutereq routereq_known routereq_dec_rel sroutereq_len sroutereq_app
    sroutereq_none sroutereq_known m a m' u b).
Qed.
Lemma routereq_concat (m : RouteReq) a m' b : fits (a ++ b) -> RouteReq_Unmarshal m a = Ok m' ->
  forall x, RouteReq_Unmarshal m (a ++ b) = Ok x <-> RouteReq_Unmarshal m' b = Ok x.
Proof.
  exact (dec_concat RouteReq_Unmarshal sroutereq routereq_dec_rel sroutereq_len sroutereq_app sroutereq_none m a m' b).
Qed.
Lemma routereq_merge2 (a b : RouteReq) : wf_omessage (reqMsg a) -> wf_omessage (reqMsg b) -> fits (enc_routereq a ++ enc_routereq b) ->
  exists da db, RouteReq_Marshal a = Ok da /\ RouteReq_Marshal b = Ok db /\
    RouteReq_Unmarshal (mkRouteReq None) (da ++ db) = Ok (merge_routereq a b).
Proof.
  intros Ha Hb Hf.
  assert (Hfa : fits (enc_routereq a)) by (eapply fits_mono; [|exact Hf]; rewrite app_length; lia).
  assert (Hfb : fits (enc_routereq b)) by (eapply fits_mono; [|exact Hf]; rewrite app_length; lia).
  exists (enc_routereq a), (enc_routereq b).
  split; [now apply routereq_marshal|]. split; [now apply routereq_marshal|].
  apply (routereq_concat _ _ a); auto.
  - apply routereq_unknown; auto using wire_enc_routereq.
  - apply routereq_unmarshal; auto using wire_enc_routereq.
Qed.
Lemma routereq_bad (m : RouteReq) a m' t w b : fits (a ++ t ++ b) -> RouteReq_Unmarshal m a = Ok m' ->
  is_varint t w -> bad_tag_value routereq_known two w ->
  exists e, RouteReq_Unmarshal m (a ++ t ++ b) = Err e.
Proof.
  refine (bad_tag RouteReq_Unmarshal sroutereq routereq_known routereq_dec_rel sroutereq_len sroutereq_app
    sroutereq_none sroutereq_known two sroutereq_wrong (known_dec_z _) _ m a m' t w b).
  intros n. unfold two. auto.
Qed.

Lemma routeres_unknown (x : RouteRes) s : wf_omessage (resMsg x) -> fits s -> wire_routeres x s -> RouteRes_Unmarshal (mkRouteRes None) s = Ok x.
Proof. intros. rewrite (routeres_unmarshal _ x) by assumption. now rewrite merge_routeres_empty. Qed.
Lemma routeres_insert (m : RouteRes) a m' u b : fits (a ++ u ++ b) -> RouteRes_Unmarshal m a = Ok m' ->
  unknown_seq routeres_known u ->
  forall x, RouteRes_Unmarshal m (a ++ u ++ b) = Ok x <-> RouteRes_Unmarshal m (a ++ b) = Ok x.
Proof.
  exact (insert_unknown RouteRes_Unmarshal srouteres routeres_known routeres_dec_rel srouteres_len srouteres_app
    srouteres_none srouteres_known m a m' u b).
Qed.
Lemma routeres_concat (m : RouteRes) a m' b : fits (a ++ b) -> RouteRes_Unmarshal m a = Ok m' ->
  forall x, RouteRes_Unmarshal m (a ++ b) = Ok x <-> RouteRes_Unmarshal m' b = Ok x.
Proof.
  exact (dec_concat RouteRes_Unmarshal srouteres routeres_dec_rel srouteres_len srouteres_app srouteres_none m a m' b).
Qed.
Lemma routeres_merge2 (a b : RouteRes) : wf_omessage (resMsg a) -> wf_omessage (resMsg b) -> fits (enc_routeres a ++ enc_routeres b) ->
  exists da db, RouteRes_Marshal a = Ok da /\ RouteRes_Marshal b = Ok db /\
    RouteRes_Unmarshal (mkRouteRes None) (da ++ db) = Ok (merge_routeres a b).
Proof.
  intros Ha Hb Hf.
  assert (Hfa : fits (enc_routeres a)) by (eapply fits_mono; [|exact Hf]; rewrite app_length; lia).
  assert (Hfb : fits (enc_routeres b)) by (eapply fits_mono; [|exact Hf]; rewrite app_length; lia).
  exists (enc_routeres a), (enc_routeres b).
  split; [now apply routeres_marshal|]. split; [now apply routeres_marshal|].
  apply (routeres_concat _ _ a); auto.
  - apply routeres_unknown; auto using wire_enc_routeres.
  - apply routeres_unmarshal; auto using wire_enc_routeres.
Qed.
Lemma routeres_bad (m : RouteRes) a m' t w b : fits (a ++ t ++ b) -> RouteRes_Unmarshal m a = Ok m' ->
  is_varint t w -> bad_tag_value routeres_known two w ->
  exists e, RouteRes_Unmarshal m (a ++ t ++ b) = Err e.
Proof.
  refine (bad_tag RouteRes_Unmarshal srouteres routeres_known routeres_dec_rel srouteres_len srouteres_app
    srouteres_none srouteres_known two srouteres_wrong (known_dec_z _) _ m a m' t w b).
  intros n. unfold two. auto.
Qed.

Lemma one_byte b : (Byte.to_N b < 128)%N -> is_varint [b] (Byte.to_N b).
Proof.
  intros H. exists (Byte.to_N b). split; [now constructor|]. split; [simpl; lia|].
  symmetry. apply N.mod_small. lia.
Qed.
Lemma unknown_case : unknown_seq header_known [x2b; x08; x07; x2c].
Proof.
  change [x2b; x08; x07; x2c] with (([x2b] ++ (([x08] ++ [x07]) ++ []) ++ [x2c]) ++ []).
  apply (unknown_cons _ 43).
  - apply (field_group 43 [x2b] _ 44 [x2c]); try reflexivity.
    + apply (one_byte x2b). reflexivity.
    + apply (field_seq_cons 8); [|constructor].
      apply (field_varint 8 [x08] [x07] 7); try reflexivity.
      * apply (one_byte x08). reflexivity.
      * apply (one_byte x07). reflexivity.
    + apply (one_byte x2c). reflexivity.
  - vm_compute. reflexivity.
  - intros H. vm_compute in H. intuition discriminate.
  - constructor.
Qed.
Lemma bad_case :
  is_varint [x5a] 90 /\ bad_tag_value header_known header_wiretype 90 /\
  Header_Unmarshal emptyHeader
    (enc_header (mkHeader [x61] [] [x62; x63] [] (repeat xff 200) [] [x65] [] (-1)%Z [x00])
     ++ [x5a] ++ [x01; x00]) = Err EWrongWireType.
Proof.
  split; [apply (one_byte x5a); reflexivity|]. split.
  - unfold bad_tag_value. right. right. right. right. split.
    + vm_compute. tauto.
    + vm_compute. discriminate.
  - vm_compute. reflexivity.
Qed.
