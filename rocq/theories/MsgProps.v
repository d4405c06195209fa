(** Properties C54-C56 and C75-C77: custom fields and headers of messages. *)
From Coq Require Import List ZArith Bool String Lia.
From Coq Require Import SpecFloat.
From Verif Require Import MsgModel MsgSpec MsgProofs.
Import ListNotations.
Open Scope Z_scope.
Open Scope list_scope.

Definition a1 : gostr := [Rune 97].   Definition a2 : gostr := [Rune 98].
Definition half : spec_float := S754_finite false 4503599627370496 (-53).

(** ** C54: after any sequence of successful writes a key read with the type it was
    stored with gives the last value stored under it.  Missing from the full statement:
    8-bit integers, integers beyond 2^53, integers inside slices and maps, and strings
    that are not UTF-8; what else was stored does not matter. *)
Theorem C54_read_back_partial : forall s hp uid calls b' k v,
  writes s calls (NewBuilder hp uid) = Some b' -> err b' = false ->
  (forall k v, In (k, v) (List.concat calls) -> valid k /\ typed v) ->
  last_of k (List.concat calls) None = Some v -> faithful v ->
  GetCustomField s b' k (type_of v) = Got v.
Proof. exact read_back. Qed.
Print Assumptions C54_read_back_partial.
(** Three writes; the first value of "a" is replaced, a slice and a large integer are
    stored along. *)
Definition ex54 : list (list (gostr * gval)) :=
  [[(a1, GBool true); (a2, GArr [GInt Int 7; GNil])]; [(a1, GInt Int32 (-41)); ([Rune 99], GInt Uint64 (2 ^ 64 - 1))]; [([Rune 100], GF64 half)]].
Example C54_case : exists b', writes Req ex54 (NewBuilder [] "u") = Some b' /\ err b' = false /\
  (forall k v, In (k, v) (List.concat ex54) -> valid k /\ typed v) /\
  last_of a1 (List.concat ex54) None = Some (GInt Int32 (-41)) /\ faithful (GInt Int32 (-41)) /\
  GetCustomField Req b' a1 (TInt Int32) = Got (GInt Int32 (-41)) /\ GetCustomField Req b' [Rune 100] TF64 = Got (GF64 half).
Proof.
  destruct (writes Req ex54 (NewBuilder [] "u")) as [b'|] eqn:E; [|vm_compute in E; discriminate].
  vm_compute in E. injection E as <-. eexists. split; [reflexivity|]. split; [reflexivity|]. split.
  - assert (V : forall c, valid [Rune c]) by (intros c x [<-|[]]; eauto).
    intros k v H. cbn in H. repeat destruct H as [H|H]; try contradiction; injection H as <- <-; (split; [apply V|cbn; auto]).
  - split; [reflexivity|]. split; [repeat split; try discriminate; lia|]. split; vm_compute; reflexivity.
Qed.
(** Other keys keep what they give, from any state of the message and for any requested
    type, and nothing but Custom of that header changes. *)
Theorem C54_other_keys : forall s a b b' k t, WithCustomFields s a b = Some b' -> err b' = false -> (forall k v, In (k, v) a -> typed v) ->
  valid k -> (forall k', In k' (map fst a) -> enc_str k' <> enc_str k) -> GetCustomField s b' k t = GetCustomField s b k t.
Proof. exact other_keys. Qed.
Print Assumptions C54_other_keys.
Theorem C54_other_fields : forall s a b b', WithCustomFields s a b = Some b' ->
  (exists h h', hdr s b = Some h /\ hdr s b' = Some h' /\ same_but_custom h h') /\
  (forall q, ptr s b <> Some q -> nth_error (heap b') q = nth_error (heap b) q) /\
  reqH b' = reqH b /\ resH b' = resH b /\ reqBody b' = reqBody b /\ resBody b' = resBody b.
Proof. exact header_kept. Qed.
Print Assumptions C54_other_fields.
Definition wire54 : builder :=
  mkB [mkH "i" "e" "o" "t" "k" "p" "x" "y" 5 (CJson (JObj [([97], JStr [104]); ([98], JInt 3); ([97], JBool true)]))] (Some 0%nat) None [] [] false.
Example C54_other_case : exists b', WithCustomFields Req [(a2, GNil)] wire54 = Some b' /\ err b' = false /\
  (forall k', In k' (map fst [(a2, GNil)]) -> enc_str k' <> enc_str a1) /\ GetCustomField Req b' a1 TBool = Got (GBool true).
Proof. eexists. split; [vm_compute; reflexivity|]. split; [reflexivity|]. split; [intros k' [<-|[]]; discriminate|reflexivity]. Qed.

(** Any text, also one that is not UTF-8, reads back repaired. *)
Theorem C54_text : forall s hp uid calls b' k x,
  writes s calls (NewBuilder hp uid) = Some b' -> err b' = false ->
  (forall k v, In (k, v) (List.concat calls) -> valid k /\ typed v) ->
  last_of k (List.concat calls) None = Some (GStr x) -> GetCustomField s b' k TStr = Got (GStr (repaired x)).
Proof.
  intros s hp uid calls b' k x Hw He Ha Hl. destruct (Ha k _ (last_of_in _ _ _ Hl)) as [Hk _].
  destruct (history_ok s calls _ _ _ (new_view s hp uid) Hw He Ha) as (h & Hh & [[_ V]|(d & Hr & V)]); [rewrite V in Hl; discriminate|].
  unfold GetCustomField. rewrite Hh, Hr, (V k Hk), Hl. cbn [then_round]. unfold round. cbn [encode decode has_type].
  unfold repaired, dec_str, enc_str. rewrite map_map. f_equal. f_equal. apply map_ext. intros []; reflexivity.
Qed.
Print Assumptions C54_text.
Example C54_text_case : exists b', writes Req [[(a1, GStr [Rune 97; Bad 255])]] (NewBuilder [] "u") = Some b' /\ err b' = false /\
  GetCustomField Req b' a1 TStr = Got (GStr [Rune 97; Rune 65533]).
Proof. eexists. split; [vm_compute; reflexivity|]. split; reflexivity. Qed.

(** The full statement is false: one write, read back with its own type. *)
Definition one (v : gval) : option builder := writes Req [[(a1, v)]] (NewBuilder [] "u").
Theorem C54_read_back_refuted : forall v,
  In v [GInt Int (2 ^ 53 + 1); GInt Uint64 (2 ^ 64 - 1); GInt Int8 5; GInt Uint8 200; GStr [Bad 255]; GArr [GInt Int 1]; GMap [(a2, GInt Int 1)]] ->
  exists b', one v = Some b' /\ err b' = false /\ typed v /\ GetCustomField Req b' a1 (type_of v) <> Got v.
Proof.
  intros v H. cbn [In] in H.
  repeat destruct H as [<-|H]; try contradiction; (eexists; split; [vm_compute; reflexivity|]); (split; [reflexivity|]); (split; [cbn; try reflexivity; repeat split; try constructor; auto; constructor|vm_compute; discriminate]).
Qed.
Print Assumptions C54_read_back_refuted.

(** ** C55: a call that reports an error changes nothing but the error; a value that
    cannot be serialised is always reported. *)
Theorem C55_rejected_changes_nothing : forall s a b b',
  WithCustomFields s a b = Some b' -> err b = false -> err b' = true -> b' = fail b.
Proof. exact rejected. Qed.
Print Assumptions C55_rejected_changes_nothing.
Theorem C55_unserialisable_reported : forall s a b b' k v,
  WithCustomFields s a b = Some b' -> last_of k a None = Some v -> unserialisable v -> err b' = true.
Proof.
  intros s a b b' k v Hw Hl U. apply (bad_reported s a b b' k v Hw Hl). clear - U.
  induction U; [reflexivity..| |]; cbn [encode].
  - rewrite (all_none _ _ x) by assumption. reflexivity.
  - rewrite (all_none _ _ (k, x)); [reflexivity|assumption|]. cbn [snd]. now rewrite IHU.
Qed.
Print Assumptions C55_unserialisable_reported.
Example C55_case : exists b1 b2, one (GBool true) = Some b1 /\ err b1 = false /\
  WithCustomFields Req [(a2, GInt Int 3); (a1, GArr [GBad])] b1 = Some b2 /\ err b2 = true /\ GetCustomField Req b2 a1 TBool = Got (GBool true).
Proof. eexists _, _. split; [vm_compute; reflexivity|]. split; [reflexivity|]. split; [vm_compute; reflexivity|]. split; reflexivity. Qed.
Example C55_malformed_case : let b := mkB [mkH "i" "" "" "" "" "" "" "" 0 (CBytes [255])] None (Some 0%nat) [] [] false in
  WithCustomFields Res [(a1, GBool true)] b = Some (fail b).
Proof. reflexivity. Qed.

(** ** C56: every field but Timestamp is copied; when the message has no header it takes
    the given one. *)
Theorem C56_copy_header_partial : forall p b b' h, WithReqHeader (Some p) b = Some b' -> nth_error (heap b) p = Some h ->
  exists h', hdr Req b' = Some h' /\
    (ID h' = ID h /\ Event h' = Event h /\ OrgActorID h' = OrgActorID h /\ OrgActorType h' = OrgActorType h /\ Token h' = Token h /\
     PrevActorType h' = PrevActorType h /\ TargetActorID h' = TargetActorID h /\ TargetActorType h' = TargetActorType h /\ Custom h' = Custom h) /\
    (reqH b = None -> h' = h).
Proof. exact copy_header. Qed.
Print Assumptions C56_copy_header_partial.
Definition h56 : header := mkH "i" "e" "o" "t" "k" "p" "x" "y" 1700000000 (CJson (JObj [])).
Theorem C56_timestamp_refuted : exists b' h', WithReqHeader (Some 0%nat) (NewBuilder [h56] "u") = Some b' /\ hdr Req b' = Some h' /\ Timestamp h' <> Timestamp h56.
Proof. eexists _, _. split; [vm_compute; reflexivity|]. split; [vm_compute; reflexivity|discriminate]. Qed.
Print Assumptions C56_timestamp_refuted.
Example C56_case : exists b' h', WithReqHeader (Some 0%nat) (NewBuilder [h56] "u") = Some b' /\ hdr Req b' = Some h' /\ TargetActorID h' = "x"%string.
Proof. eexists _, _. split; [vm_compute; reflexivity|]. split; [vm_compute; reflexivity|reflexivity]. Qed.

(** ** C75: a custom object that cannot be encoded destroys the custom data. *)
Theorem C75_rejected_object_refuted : exists b b' h h', one (GBool true) = Some b /\ WithCustomObject Req None b = Some b' /\
  err b = false /\ err b' = true /\ hdr Req b = Some h /\ hdr Req b' = Some h' /\ Custom h <> CEmpty /\ Custom h' = CEmpty /\
  GetCustomField Req b a1 TBool = Got (GBool true) /\ GetCustomField Req b' a1 TBool = Got (GBool false).
Proof.
  eexists _, _, _, _. split; [vm_compute; reflexivity|]. split; [vm_compute; reflexivity|]. split; [reflexivity|]. split; [reflexivity|].
  split; [reflexivity|]. split; [reflexivity|]. split; [discriminate|]. split; [reflexivity|]. split; vm_compute; reflexivity.
Qed.
Print Assumptions C75_rejected_object_refuted.
(** In every case the error is reported, and only Custom of that header is touched. *)
Theorem C75_rejected_object_partial : forall s b b', WithCustomObject s None b = Some b' ->
  err b' = true /\ exists h h', hdr s b = Some h /\ hdr s b' = Some h' /\ same_but_custom h h' /\
  forall q, ptr s b <> Some q -> nth_error (heap b') q = nth_error (heap b) q.
Proof.
  intros s b b' H. unfold WithCustomObject in H. destruct (ptr s b) as [p|] eqn:Hp; [|discriminate]. destruct (hdr s b) as [h|] eqn:Hh; [|discriminate].
  injection H as <-. destruct (hdr_ptr s b h Hh) as (p' & Hp' & Hn). rewrite Hp in Hp'. injection Hp' as <-. split; [reflexivity|].
  exists h, (setCustom h CEmpty). split; [reflexivity|]. split; [apply (hdr_store s (fail b) p h); [destruct s; exact Hp|exact Hn]|]. split; [apply same_set|].
  intros q Hq. cbn. rewrite put_nth. destruct (Nat.eqb_spec p q) as [->|]; [congruence|reflexivity].
Qed.
Print Assumptions C75_rejected_object_partial.
(** One that can be encoded becomes the custom data: no error is reported, and nothing else is touched. *)
Theorem C75_accepted_object : forall s c b b', WithCustomObject s (Some c) b = Some b' ->
  err b' = err b /\ exists h h', hdr s b = Some h /\ hdr s b' = Some h' /\ same_but_custom h h' /\ Custom h' = c /\
  forall q, ptr s b <> Some q -> nth_error (heap b') q = nth_error (heap b) q.
Proof.
  intros s c b b' H. unfold WithCustomObject in H. destruct (ptr s b) as [p|] eqn:Hp; [|discriminate]. destruct (hdr s b) as [h|] eqn:Hh; [|discriminate].
  injection H as <-. destruct (hdr_ptr s b h Hh) as (p' & Hp' & Hn). rewrite Hp in Hp'. injection Hp' as <-. split; [reflexivity|].
  exists h, (setCustom h c). split; [reflexivity|]. split; [apply (hdr_store s b p h); [exact Hp|exact Hn]|]. split; [apply same_set|]. split; [reflexivity|].
  intros q Hq. cbn. rewrite put_nth. destruct (Nat.eqb_spec p q) as [->|]; [congruence|reflexivity].
Qed.
Print Assumptions C75_accepted_object.
Example C75_accepted_case : exists b b' h', one (GBool true) = Some b /\ WithCustomObject Req (Some (CJson (JBool false))) b = Some b' /\
  err b' = false /\ hdr Req b' = Some h' /\ Custom h' = CJson (JBool false).
Proof. eexists _, _, _. split; [vm_compute; reflexivity|]. split; [vm_compute; reflexivity|]. split; [reflexivity|]. split; reflexivity. Qed.

(** ** C76: writing custom fields to a message with a header can crash: when its custom
    data is the document null, as WithReqCustomFieldsMap(nil) leaves it. *)
Theorem C76_null_map_refuted : exists b h, apply_all [OFieldsMap Req None] (NewBuilder [] "u") = Some b /\
  hdr Req b = Some h /\ err b = false /\ WithCustomFields Req [(a1, GBool true)] b = None.
Proof. eexists _, _. split; [vm_compute; reflexivity|]. split; [vm_compute; reflexivity|]. split; reflexivity. Qed.
Print Assumptions C76_null_map_refuted.
(** It is the only document that does so, and sequences of writes to a new message
    never crash. *)
Theorem C76_no_crash_partial : forall s a b h, hdr s b = Some h -> Custom h <> CJson JNull -> exists b', WithCustomFields s a b = Some b'.
Proof. exact fields_no_panic. Qed.
Print Assumptions C76_no_crash_partial.
Theorem C76_new_message_no_crash : forall s hp uid calls, exists b', writes s calls (NewBuilder hp uid) = Some b'.
Proof. exact new_no_panic. Qed.
Print Assumptions C76_new_message_no_crash.
Example C76_case : exists b, hdr Req wire54 = Some b /\ Custom b <> CJson JNull.
Proof. eexists. split; [reflexivity|discriminate]. Qed.

(** ** C77: the response header given by the caller is shared: writing response fields
    modifies it. *)
Theorem C77_caller_header_refuted : exists ops b h, apply_all ops (NewBuilder [h56] "u") = Some b /\ nth_error (heap b) 0 = Some h /\ h <> h56.
Proof. exists [OResHeader (Some 0%nat); OFields Res [(a1, GBool true)]]. eexists _, _. split; [vm_compute; reflexivity|]. split; [reflexivity|discriminate]. Qed.
Print Assumptions C77_caller_header_refuted.
(** Without WithResHeader and WithReqHeader(nil) no sequence of calls changes a header
    that existed before the builder. *)
Theorem C77_caller_header_partial : forall hp uid ops b, apply_all ops (NewBuilder hp uid) = Some b ->
  (forall h, ~ In (OResHeader h) ops) -> ~ In (OReqHeader None) ops ->
  forall q, (q < List.length hp)%nat -> nth_error (heap b) q = nth_error hp q.
Proof. exact new_keeps. Qed.
Print Assumptions C77_caller_header_partial.
Example C77_case : exists b h, apply_all [OReqHeader (Some 0%nat); OFields Req [(a1, GBool true)]; OObject Res None] (NewBuilder [h56] "u") = Some b /\
  hdr Req b = Some h /\ Custom h = CJson (JObj [([97], JBool true)]) /\ nth_error (heap b) 0 = Some h56.
Proof. eexists _, _. split; [vm_compute; reflexivity|]. split; [vm_compute; reflexivity|]. split; reflexivity. Qed.
