(** More on properties C54 and C77, and property C175. *)
From Coq Require Import List ZArith Bool String Lia.
From Coq Require Import SpecFloat.
From Verif Require Import MsgModel MsgSpec MsgProofs MsgMoreSpec.
Import ListNotations.
Open Scope Z_scope.
Open Scope list_scope.

(** ** C54 *)
(** A key that was never written reads as nothing, as any type. *)
Theorem C54_missing : forall s hp uid calls b' k t,
  writes s calls (NewBuilder hp uid) = Some b' -> err b' = false ->
  (forall k v, In (k, v) (List.concat calls) -> valid k /\ typed v) ->
  valid k -> (forall v, ~ In (k, v) (List.concat calls)) -> GetCustomField s b' k t = Got (nothing t).
Proof.
  intros s hp uid calls b' k t Hw He Ha Hk Hn.
  assert (Hl : last_of k (List.concat calls) None = None).
  { destruct (last_of k (List.concat calls) None) as [v|] eqn:E; [|reflexivity]. destruct (Hn v (last_of_in _ _ _ E)). }
  assert (Z : zero t = nothing t) by (destruct t; reflexivity).
  destruct (history_ok s calls _ _ _ (new_view s hp uid) Hw He Ha) as (h & Hh & [[Ec _]|(d & Hr & V)]); unfold GetCustomField; rewrite Hh.
  - rewrite Ec. cbn [read_map]. now rewrite Z.
  - rewrite Hr, (V k Hk), Hl. cbn [then_round]. now rewrite Z.
Qed.
Print Assumptions C54_missing.
(** Whatever is asked for and whatever the message holds, the answer is a value of the type asked
    for. *)
Theorem C54_type : forall s b k t v, GetCustomField s b k t = Got v -> inhabits v t.
Proof.
  assert (Z : forall t, inhabits (zero t) t).
  { intros []; cbn; eauto. exists 0. split; [reflexivity|]. unfold fits. destruct k; cbn; lia. }
  intros s b k t v H. unfold GetCustomField in H. destruct (hdr s b) as [h|]; [|discriminate].
  destruct (read_map (Custom h)) as [[d|]|] eqn:Er; [|injection H as <-; apply Z|injection H as <-; apply Z].
  destruct (mget k d) as [w|] eqn:Eg; [|injection H as <-; apply Z].
  apply read_map_obj in Er as (f & _ & Hf). apply decode_plain in Hf. destruct (plain_map _ Hf) as [_ Hp]. destruct (Hp k w (mget_in _ _ _ Eg)) as [_ Hw].
  destruct (has_type w t) eqn:Et.
  - injection H as <-. destruct t, w; cbn in Et |- *; try discriminate; try contradiction; eauto.
  - destruct t as [| | |kd| | |]; try (destruct w; cbn in H; injection H as <-; cbn; eauto; fail).
    assert (C : forall f0, conv kd f0 = Got v -> exists z, v = GInt kd z /\ fits kd z).
    { intros f0 Hc. unfold conv in Hc. destruct (trunc f0) as [z|]; [|discriminate]. destruct (in_kind kd z) eqn:Ek; [|discriminate]. injection Hc as <-.
      exists z. split; [reflexivity|]. unfold in_kind in Ek. apply andb_true_iff in Ek as [E1 E2]. apply Z.leb_le in E1, E2. unfold fits. destruct kd; cbn in *; lia. }
    destruct kd; try (injection H as <-; apply (Z (TInt _))); destruct w; try (injection H as <-; apply (Z (TInt _))); exact (C _ H).
Qed.
Print Assumptions C54_type.
(** What is in the message afterwards, for readers in other languages: integers are written
    exactly, beyond 2^53 too. *)
Theorem C54_document : forall s a b b' h h' cs kd z, WithCustomFields s a b = Some b' -> err b' = false ->
  hdr s b = Some h -> (Custom h = CEmpty \/ exists d, read_map (Custom h) = Some (Some d)) ->
  last_of (map Rune cs) a None = Some (GInt kd z) -> hdr s b' = Some h' ->
  exists m, Custom h' = CJson (JObj m) /\ In (cs, JInt z) m.
Proof.
  intros s a b b' h h' cs kd z Hw He Hh Hc Hl Hh'.
  destruct (fields_inv _ _ _ _ Hw) as (h0 & p & Eh & Hp & Hcase). rewrite Eh in Hh. injection Hh as ->.
  destruct (hdr_ptr s b h Eh) as (p' & Hp' & Hn). rewrite Hp in Hp'. injection Hp' as <-.
  destruct Hcase as [->|[(_ & -> & _)|(d & j & Hd & Ej & ->)]]; [discriminate|discriminate|].
  rewrite (hdr_store s b p h _ Hp Hn) in Hh'. injection Hh' as <-. cbn [Custom setCustom].
  cbn [encode] in Ej. destruct (all _ (msets a d)) as [q|] eqn:Eq; [|discriminate]. injection Ej as <-. exists q. split; [reflexivity|].
  apply all_forall2 in Eq.
  assert (Hin : In (map Rune cs, GInt kd z) (msets a d)) by (apply mget_in; rewrite mget_msets, last_of_split, Hl; reflexivity).
  clear -Eq Hin. induction Eq as [|x y l q Hx E IH]; [destruct Hin|]. destruct Hin as [->|Hin]; [left|right; auto].
  cbn [encode snd fst] in Hx. injection Hx as <-. f_equal. unfold enc_str. rewrite map_map. apply map_id.
Qed.
Print Assumptions C54_document.
Example C54_more_case : exists b', writes Req [[([Rune 97], GInt Int64 (2 ^ 62 + 1))]] (NewBuilder [] "u") = Some b' /\ err b' = false /\
  GetCustomField Req b' [Rune 98] (TInt Int64) = Got (GInt Int64 0) /\ GetCustomField Req b' [Rune 97] (TInt Int32) = Unspecified /\
  last_of (map Rune [97]) [([Rune 97], GInt Int64 (2 ^ 62 + 1))] None = Some (GInt Int64 (2 ^ 62 + 1)).
Proof. eexists. split; [vm_compute; reflexivity|]. repeat (split; [vm_compute; reflexivity|]). vm_compute. reflexivity. Qed.

(** ** C175: a message keeps its id, and each side its body *)
(** Any sequence of calls of the builder leaves each side with the body last given to it. *)
Theorem C175_body : forall s ops hp uid b, apply_all ops (NewBuilder hp uid) = Some b -> body s b = last_body s ops [].
Proof.
  assert (K : forall s a b b', WithCustomFieldsMap s a b = Some b' -> reqBody b' = reqBody b /\ resBody b' = resBody b).
  { intros s a b b' H. unfold WithCustomFieldsMap in H. destruct (match a with Some _ => _ | None => _ end); [|injection H as <-; split; reflexivity].
    destruct (ptr s b); [|discriminate]. destruct (hdr s b); [|discriminate]. injection H as <-. split; reflexivity. }
  assert (G : forall s ops b b', apply_all ops b = Some b' -> body s b' = last_body s ops (body s b)).
  { intros s ops. induction ops as [|o r IH]; intros b b' H; cbn [apply_all] in H; [injection H as <-; reflexivity|].
    destruct (apply o b) as [b1|] eqn:E; [|discriminate]. rewrite (IH b1 b' H). clear IH H.
    assert (S0 : reqBody b1 = reqBody b /\ resBody b1 = resBody b -> body s b1 = body s b) by (intros [X Y]; destruct s; assumption).
    destruct o as [h|h|x|x|s' a|s' m|s' e]; cbn [apply last_body] in *.
    - rewrite S0; [reflexivity|]. unfold WithReqHeader in E. destruct (reqH b), h; try (injection E as <-; split; reflexivity).
      destruct (nth_error (heap b) n); [|discriminate]. destruct (nth_error (heap b) n0); [|discriminate]. injection E as <-; split; reflexivity.
    - rewrite S0; [reflexivity|]. injection E as <-. split; reflexivity.
    - injection E as <-. destruct s; reflexivity.
    - injection E as <-. destruct s; reflexivity.
    - rewrite S0; [reflexivity|]. destruct (header_kept _ _ _ _ E) as (_ & _ & _ & _ & X). exact X.
    - rewrite S0; [reflexivity|]. exact (K _ _ _ _ E).
    - rewrite S0; [reflexivity|]. unfold WithCustomObject in E. destruct (ptr s' b); [|discriminate]. destruct (hdr s' b); [|discriminate]. destruct e; injection E as <-; split; reflexivity. }
  intros s ops hp uid b H. rewrite (G s ops _ _ H). destruct s; reflexivity.
Qed.
Print Assumptions C175_body.
(** Unless a header is given by the caller, both sides keep the id the message was made with, and
    no other field of a header is set. *)
Theorem C175_id : forall s ops hp uid b h, apply_all ops (NewBuilder hp uid) = Some b -> (forall p, ~ In (OReqHeader p) ops /\ ~ In (OResHeader p) ops) ->
  hdr s b = Some h -> h = mkH uid "" "" "" "" "" "" "" 0 (Custom h).
Proof.
  intros s ops hp uid b h H N Hh.
  set (I := fun b => forall s, exists c, hdr s b = Some (mkH uid "" "" "" "" "" "" "" 0 c)).
  assert (W : forall b s p c e, I b -> ptr s b = Some p -> reqH b <> None ->
    I (mkB (put (heap b) p (mkH uid "" "" "" "" "" "" "" 0 c)) (reqH b) (resH b) (reqBody b) (resBody b) e)).
  { intros b0 s0 p c e Hi Hp _ s1. destruct (Hi s1) as (c1 & H1). destruct (hdr_ptr _ _ _ H1) as (p1 & Hp1 & Hn1).
    assert (exists c', nth_error (put (heap b0) p (mkH uid "" "" "" "" "" "" "" 0 c)) p1 = Some (mkH uid "" "" "" "" "" "" "" 0 c')) as (c' & Hc').
    { rewrite put_nth. destruct (Nat.eqb_spec p p1) as [->|]; [rewrite Hn1; eauto|rewrite Hn1; eauto]. }
    exists c'. destruct s1; cbn in *; rewrite Hp1; exact Hc'. }
  assert (Step : forall o b b', I b -> apply o b = Some b' -> (forall p, o <> OReqHeader p /\ o <> OResHeader p) -> I b').
  { intros o b0 b1 Hi E No.
    assert (Hq : reqH b0 <> None) by (destruct (Hi Req) as (c & X); unfold hdr in X; cbn in X; destruct (reqH b0); [discriminate|discriminate]).
    assert (Sh : forall s p h0 c e, ptr s b0 = Some p -> hdr s b0 = Some h0 -> I (mkB (put (heap b0) p (setCustom h0 c)) (reqH b0) (resH b0) (reqBody b0) (resBody b0) e)).
    { intros s0 p h0 c e Hp X. destruct (Hi s0) as (c0 & Y). rewrite X in Y. injection Y as ->. apply (W b0 s0 p c e Hi Hp Hq). }
    assert (Fl : I (fail b0)) by (intros s0; destruct (Hi s0) as (c & X); exists c; destruct s0; exact X).
    destruct o as [p|p|x|x|s' a|s' m|s' e]; cbn [apply] in E.
    - destruct (No p) as [X _]. destruct (X eq_refl).
    - destruct (No p) as [_ X]. destruct (X eq_refl).
    - injection E as <-. intros s0. destruct (Hi s0) as (c & X). exists c. destruct s0; exact X.
    - injection E as <-. intros s0. destruct (Hi s0) as (c & X). exists c. destruct s0; exact X.
    - destruct (fields_inv _ _ _ _ E) as (h0 & p & Eh & Hp & [->|[(_ & _ & ->)|(d & j & _ & _ & ->)]]); [exact Fl|apply (Sh s' p h0); assumption|apply (Sh s' p h0); assumption].
    - unfold WithCustomFieldsMap in E. destruct (match m with Some _ => _ | None => _ end); [|injection E as <-; exact Fl].
      destruct (ptr s' b0) as [p|] eqn:Hp; [|discriminate]. destruct (hdr s' b0) as [h0|] eqn:Eh; [|discriminate]. injection E as <-. apply (Sh s' p h0); assumption.
    - unfold WithCustomObject in E. destruct (ptr s' b0) as [p|] eqn:Hp; [|discriminate]. destruct (hdr s' b0) as [h0|] eqn:Eh; [|discriminate].
      destruct e; injection E as <-; apply (Sh s' p h0); assumption. }
  assert (All : forall ops b b', I b -> apply_all ops b = Some b' -> (forall p, ~ In (OReqHeader p) ops /\ ~ In (OResHeader p) ops) -> I b').
  { clear -Step. intros ops. induction ops as [|o r IH]; intros b b' Hi H N; cbn [apply_all] in H; [injection H as <-; exact Hi|].
    destruct (apply o b) as [b1|] eqn:E; [|discriminate]. apply (IH b1 b'); [apply (Step o b b1 Hi E)|exact H|].
    - intros p. destruct (N p) as [N1 N2]. split; intros ->; [apply N1|apply N2]; now left.
    - intros p. destruct (N p) as [N1 N2]. split; intros X; [apply N1|apply N2]; now right. }
  assert (I0 : I (NewBuilder hp uid)).
  { intros s0. exists CEmpty. destruct s0; unfold hdr, ptr, NewBuilder; cbn [reqH resH heap]; rewrite nth_error_app2 by lia; [now rewrite Nat.sub_diag|].
    now replace (S (List.length hp) - List.length hp)%nat with 1%nat by lia. }
  destruct (All ops _ _ I0 H N s) as (c & X). rewrite X in Hh. injection Hh as <-. reflexivity.
Qed.
Print Assumptions C175_id.
Definition ops175 : list op := [OReqBody [1]; OFields Res [([Rune 97], GBool true)]; OResBody [2; 3]; OReqBody [4]; OObject Req None].
Example C175_case : exists b h, apply_all ops175 (NewBuilder [] "m") = Some b /\ hdr Res b = Some h /\ ID h = "m"%string /\ Custom h <> CEmpty /\
  last_body Req ops175 [] = [4] /\ last_body Res ops175 [] = [2; 3] /\ (forall p, ~ In (OReqHeader p) ops175 /\ ~ In (OResHeader p) ops175).
Proof.
  eexists _, _. split; [vm_compute; reflexivity|]. split; [reflexivity|]. split; [reflexivity|]. split; [discriminate|]. split; [reflexivity|]. split; [reflexivity|].
  intros p. split; intros X; cbn in X; repeat destruct X as [X|X]; try discriminate; exact X.
Qed.
