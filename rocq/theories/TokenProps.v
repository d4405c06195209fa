(** Property C62: tokens, for every text encoding, key and keyed hash. *)
From Coq Require Import List ZArith Bool Lia.
From Verif Require Import MsgModel MsgSpec MsgProofs TokenModel.
Import ListNotations.
Open Scope Z_scope.

Lemma segments_at p q : ~ In dot p -> segments (p ++ dot :: q) = p :: segments q.
Proof.
  induction p as [|x p IH]; intros H; cbn [segments app].
  - now rewrite Z.eqb_refl.
  - destruct (Z.eqb_spec x dot) as [->|]; [exfalso; apply H; now left|]. rewrite IH by (intros X; apply H; now right). reflexivity.
Qed.
Lemma segments_one p : ~ In dot p -> segments p = [p].
Proof.
  induction p as [|x p IH]; intros H; cbn [segments]; [reflexivity|].
  destruct (Z.eqb_spec x dot) as [->|]; [exfalso; apply H; now left|]. rewrite IH by (intros X; apply H; now right). reflexivity.
Qed.
Lemma segments_join s : match segments s with [] => False | p :: r => s = fold_left (fun a q => a ++ dot :: q) r p end.
Proof.
  assert (G : forall r p x, fold_left (fun a q => a ++ dot :: q) r (x :: p) = x :: fold_left (fun a q => a ++ dot :: q) r p).
  { induction r as [|q r IH]; intros p x; [reflexivity|]. cbn [fold_left]. exact (IH (p ++ dot :: q) x). }
  induction s as [|x s IH]; cbn [segments]; [reflexivity|]. destruct (Z.eqb_spec x dot) as [->|].
  - destruct (segments s) as [|p r]; [destruct IH|]. cbn [fold_left]. change ([] ++ dot :: p) with (dot :: p). now rewrite G, <- IH.
  - destruct (segments s) as [|p r]; [destruct IH|]. now rewrite G, <- IH.
Qed.

Section Props.
  Variables (header_seg : method -> text) (header_of : text -> option method) (claims_seg : text -> text) (claims_of : text -> option text).
  Variables (sig_seg : text -> text) (sig_of : text -> option text) (mac : method -> text -> text -> text) (key : text).
  Notation create := (Create header_seg claims_seg sig_seg mac key).
  Notation parse := (Parse header_of claims_of sig_of mac key).

  (** Parse accepts a string only if it is, with dots (46) between, a signed header and claims together with
      their hash under the key, and returns the id in the claims. *)
  Theorem C62_no_forgery : forall token id, parse token = Some id ->
    exists h c s a text_id, token = h ++ [46] ++ c ++ [46] ++ s /\ header_of h = Some a /\ (a = HS256 \/ a = HS384 \/ a = HS512) /\
      claims_of c = Some text_id /\ text_id <> [] /\ id = dec_str text_id /\ sig_of s = Some (mac a key (h ++ [46] ++ c)).
  Proof.
    change 46 with dot.
    intros token id H. unfold Parse in H. pose proof (segments_join token) as J.
    destruct (segments token) as [|h [|c [|s [|]]]]; try discriminate. cbn in J.
    destruct (header_of h) as [a|] eqn:Eh; [|discriminate]. destruct (claims_of c) as [i|] eqn:Ec; [|discriminate].
    destruct i as [|x i]; [discriminate|]. unfold verify in H. destruct (is_hmac a) eqn:Ea; [|discriminate]. destruct (sig_of s) as [y|] eqn:Es; [|discriminate].
    unfold text_eq in H. destruct (list_eq_dec Z.eq_dec y (mac a key (h ++ [dot] ++ c))) as [->|]; [|discriminate]. injection H as <-.
    exists h, c, s, a, (x :: i). split; [rewrite J; cbn; now rewrite <- app_assoc|]. split; [assumption|]. split; [destruct a; cbn in Ea; try discriminate; auto|]. repeat (split; [first [reflexivity|assumption|discriminate]|]). assumption.
  Qed.
  Theorem C62_empty_id : create [] = None.
  Proof. reflexivity. Qed.

  Hypothesis header_ok : forall a, header_of (header_seg a) = Some a.
  Hypothesis claims_ok : forall i, claims_of (claims_seg i) = Some i.
  Hypothesis sig_ok : forall s, sig_of (sig_seg s) = Some s.
  Hypothesis header_dot : forall a, ~ In dot (header_seg a).
  Hypothesis claims_dot : forall i, ~ In dot (claims_seg i).
  Hypothesis sig_dot : forall s, ~ In dot (sig_seg s).
  Lemma parse_create id : id <> [] -> exists t, create id = Some t /\ parse t = Some (dec_str (enc_str id)).
  Proof.
    intros Hne. set (signed := header_seg HS256 ++ [dot] ++ claims_seg (enc_str id)).
    exists (signed ++ [dot] ++ sig_seg (mac HS256 key signed)). split; [destruct id; [contradiction|reflexivity]|].
    assert (Ee : enc_str id <> []) by (destruct id; [contradiction|discriminate]).
    unfold Parse. replace (signed ++ [dot] ++ sig_seg (mac HS256 key signed)) with (header_seg HS256 ++ dot :: (claims_seg (enc_str id) ++ dot :: sig_seg (mac HS256 key signed)))
      by (unfold signed; cbn; now rewrite <- app_assoc).
    rewrite segments_at by apply header_dot. rewrite segments_at by apply claims_dot. rewrite segments_one by apply sig_dot.
    rewrite header_ok, claims_ok. fold signed. destruct (enc_str id) as [|x y]; [contradiction|]. unfold verify. cbn [is_hmac]. rewrite sig_ok.
    unfold text_eq. destruct (list_eq_dec Z.eq_dec (mac HS256 key signed) (mac HS256 key signed)); [reflexivity|contradiction].
  Qed.
  (** A token made for an id parses to it; missing from the full statement: ids that are
      not UTF-8. *)
  Theorem C62_round_trip_partial : forall id, id <> [] -> valid id -> exists t, create id = Some t /\ parse t = Some id.
  Proof. intros id Hne Hv. destruct (parse_create id Hne) as (t & H1 & H2). exists t. split; [exact H1|]. now rewrite dec_enc in H2. Qed.
  (** For an id that is not UTF-8 it parses to another id. *)
  Theorem C62_not_utf8_refuted : exists id t id', create id = Some t /\ parse t = Some id' /\ id' <> id.
  Proof. destruct (parse_create [Bad 255] ltac:(discriminate)) as (t & H1 & H2). exists [Bad 255], t, [Rune 65533]. split; [exact H1|]. split; [exact H2|discriminate]. Qed.
End Props.
Print Assumptions C62_no_forgery.
Print Assumptions C62_empty_id.
Print Assumptions C62_round_trip_partial.
Print Assumptions C62_not_utf8_refuted.

(** An encoding that meets the hypotheses: non-negative numbers are shifted above the dot. *)
Definition shift (s : text) : text := map (fun c => if 0 <=? c then 2 * c + 47 else - 2 * c + 46) s.
Definition unshift (s : text) : option text := Some (map (fun c => if Z.odd c then (c - 47) / 2 else - ((c - 46) / 2)) s).
Definition alg_num (a : method) : Z := match a with HS256 => 1 | HS384 => 2 | HS512 => 3 | NoneAlg => 4 | Asymmetric => 5 end.
Definition alg_of (s : text) : option method :=
  match s with [49] => Some HS256 | [51] => Some HS384 | [53] => Some HS512 | [55] => Some NoneAlg | [57] => Some Asymmetric | _ => None end.
Definition toy_mac (a : method) (k m : text) : text := [alg_num a; fold_left Z.add (k ++ m) 0].
Lemma unshift_shift s : unshift (shift s) = Some s.
Proof.
  unfold unshift, shift. rewrite map_map. f_equal. rewrite <- (map_id s) at 2. apply map_ext. intros c.
  destruct (Z.leb_spec 0 c).
  - replace (Z.odd (2 * c + 47)) with true by (rewrite Z.odd_add, Z.odd_mul; reflexivity). replace (2 * c + 47 - 47) with (c * 2) by lia. now rewrite Z.div_mul by lia.
  - replace (Z.odd (- 2 * c + 46)) with false by (rewrite Z.odd_add, Z.odd_mul; reflexivity). replace (- 2 * c + 46 - 46) with ((- c) * 2) by lia. rewrite Z.div_mul by lia. lia.
Qed.
Lemma shift_dot s : ~ In dot (shift s).
Proof. unfold shift, dot. intros H. apply in_map_iff in H as (c & E & _). destruct (Z.leb_spec 0 c); lia. Qed.
Example C62_case : exists t, Create (fun a => [2 * alg_num a + 47]) shift shift toy_mac [116] [Rune 112; Rune 49] = Some t /\
  Parse alg_of unshift unshift toy_mac [116] t = Some [Rune 112; Rune 49] /\ Parse alg_of unshift unshift toy_mac [117] t = None.
Proof.
  destruct (C62_round_trip_partial (fun a => [2 * alg_num a + 47]) alg_of shift unshift shift unshift toy_mac [116]) with (id := [Rune 112; Rune 49]) as (t & H1 & H2).
  - now intros [].
  - apply unshift_shift.
  - apply unshift_shift.
  - intros [] [H|[]]; discriminate.
  - apply shift_dot.
  - apply shift_dot.
  - discriminate.
  - intros c [<-|[<-|[]]]; eauto.
  - exists t. split; [exact H1|]. split; [exact H2|]. injection H1 as <-. vm_compute. reflexivity.
Qed.
(** A token with method "none" is refused whatever its signature. *)
Example C62_none_case : forall s, ~ In dot s -> Parse alg_of unshift unshift toy_mac [116] ([55] ++ [dot] ++ shift [112] ++ [dot] ++ s) = None.
Proof.
  intros s Hs. destruct (Parse _ _ _ _ _ _) as [i|] eqn:E; [|reflexivity]. exfalso.
  unfold Parse in E. change ([dot] ++ shift [112] ++ [dot] ++ s) with (dot :: (shift [112] ++ dot :: s)) in E. rewrite (segments_at [55]) in E by (intros [H|[]]; discriminate). rewrite segments_at in E by apply shift_dot.
  rewrite segments_one in E by exact Hs. cbn in E. discriminate.
Qed.
