(** Proofs about the builder and the custom fields. *)
From Coq Require Import List ZArith Bool String Lia.
From Coq Require Import SpecFloat.
From Verif Require Import MsgModel MsgSpec.
Import ListNotations.
Open Scope Z_scope.
Open Scope list_scope.

(** ** Rounding of integers *)
Lemma digits_size p : digits2_pos p = Pos.size p.
Proof. induction p; cbn; congruence. Qed.
Lemma size_bounds p : 2 ^ (Zpos (Pos.size p) - 1) <= Zpos p < 2 ^ Zpos (Pos.size p).
Proof.
  pose proof (Pos.size_gt p) as H. pose proof (Pos.size_le p) as H'. split.
  - assert (2 ^ Zpos (Pos.size p) <= 2 * Zpos p) by (rewrite <- Pos2Z.inj_pow; lia).
    replace (Zpos (Pos.size p)) with (Z.succ (Zpos (Pos.size p) - 1)) in H0 by lia. rewrite Z.pow_succ_r in H0 by lia. lia.
  - rewrite <- Pos2Z.inj_pow. lia.
Qed.
Lemma size_le p n : 0 <= n -> Zpos p < 2 ^ n -> Zpos (Pos.size p) <= n.
Proof.
  intros Hn H. destruct (Z.le_gt_cases (Zpos (Pos.size p)) n); [assumption|]. pose proof (size_bounds p) as [Hb _].
  assert (2 ^ n <= 2 ^ (Zpos (Pos.size p) - 1)) by (apply Z.pow_le_mono_r; lia). lia.
Qed.
Lemma size_eq p n : 0 < n -> 2 ^ (n - 1) <= Zpos p < 2 ^ n -> Zpos (Pos.size p) = n.
Proof.
  intros Hn [Hl Hu]. pose proof (size_le p n ltac:(lia) Hu). destruct (Z.le_gt_cases n (Zpos (Pos.size p))); [lia|].
  pose proof (size_bounds p) as [_ Hb]. assert (2 ^ Zpos (Pos.size p) <= 2 ^ (n - 1)) by (apply Z.pow_le_mono_r; lia). lia.
Qed.
Lemma fexp_pos d : -1000 <= d -> fexp 53 1024 d = d - 53.
Proof. intros H. unfold fexp, emin. lia. Qed.

(** Integers of at most 53 digits are exact. *)
Lemma round_small s p : Zpos p < 2 ^ 53 ->
  exists m e, binary_round 53 1024 s p 0 = S754_finite s m e /\ e <= 0 /\ Zpos m = Zpos p * 2 ^ (- e).
Proof.
  intros Hp. unfold binary_round. rewrite digits_size, Z.add_0_r. pose proof (size_le p 53 ltac:(lia) Hp) as Hs.
  rewrite fexp_pos by lia. set (d := Zpos (Pos.size p)) in *.
  assert (Hal : shl_align p 0 (d - 53) = (Z.to_pos (Zpos p * 2 ^ (53 - d)), d - 53)).
  { unfold shl_align. rewrite Z.sub_0_r. destruct (d - 53) eqn:E.
    - replace (53 - d) with 0 by lia. rewrite Z.mul_1_r. reflexivity.
    - lia.
    - f_equal. replace (53 - d) with (Zpos p0) by lia. apply Pos2Z.inj. rewrite Z2Pos.id by nia. rewrite shift_pos_correct. change (Z.pow_pos 2 p0) with (2 ^ Zpos p0). lia. }
  rewrite Hal. set (m := Z.to_pos (Zpos p * 2 ^ (53 - d))).
  assert (Hm : Zpos m = Zpos p * 2 ^ (53 - d)) by (unfold m; rewrite Z2Pos.id; [reflexivity|nia]).
  assert (Hsz : Zpos (Pos.size m) = 53).
  { apply size_eq; [lia|]. rewrite Hm. pose proof (size_bounds p) as [Hl Hu]. fold d in Hl, Hu.
    replace (2 ^ (53 - 1)) with (2 ^ (d - 1) * 2 ^ (53 - d)) by (rewrite <- Z.pow_add_r by lia; f_equal; lia).
    replace (2 ^ 53) with (2 ^ d * 2 ^ (53 - d)) by (rewrite <- Z.pow_add_r by lia; f_equal; lia).
    assert (0 < 2 ^ (53 - d)) by (apply Z.pow_pos_nonneg; lia). nia. }
  assert (Hsh : shr_fexp 53 1024 (Zpos m) (d - 53) loc_Exact = (Build_shr_record (Zpos m) false false, d - 53)).
  { unfold shr_fexp, Zdigits2. rewrite digits_size, Hsz, fexp_pos by lia. replace (53 + (d - 53) - 53 - (d - 53)) with 0 by lia. reflexivity. }
  unfold binary_round_aux. rewrite Hsh. cbn [loc_of_shr_record round_nearest_even shr_m]. rewrite Hsh. cbn [shr_m].
  rewrite Zle_imp_le_bool by lia. exists m, (d - 53). split; [reflexivity|]. split; [lia|]. rewrite Hm. f_equal. f_equal. lia.
Qed.
Lemma trunc_small s p : Zpos p < 2 ^ 53 -> trunc (binary_round 53 1024 s p 0) = Some (if s then Zneg p else Zpos p) /\ finite (binary_round 53 1024 s p 0) = true.
Proof.
  intros Hp. destruct (round_small s p Hp) as (m & e & -> & He & Hm). split; [|reflexivity]. cbn [trunc].
  assert (G : (if 0 <=? e then Zpos m * 2 ^ e else Zpos m / 2 ^ (- e)) = Zpos p).
  { destruct (Z.leb_spec 0 e).
    - replace e with 0 in * by lia. cbn in *. lia.
    - rewrite Hm. apply Z.div_mul. assert (0 < 2 ^ (- e)) by (apply Z.pow_pos_nonneg; lia). lia. }
  rewrite G. now destruct s.
Qed.
Lemma exact z : Z.abs z <= 2 ^ 53 -> trunc (to_f64 z) = Some z /\ finite (to_f64 z) = true.
Proof.
  intros H. destruct (Z.eq_dec (Z.abs z) (2 ^ 53)) as [E|E].
  - assert (z = 2 ^ 53 \/ z = - 2 ^ 53) as [->| ->] by lia; split; reflexivity.
  - unfold to_f64, binary_normalize. destruct z as [|p|p]; [split; reflexivity| |].
    + now destruct (trunc_small false p ltac:(lia)).
    + now destruct (trunc_small true p ltac:(lia)).
Qed.

Lemma shr1_le r : 0 <= shr_m r -> 0 <= shr_m (shr_1 r) <= shr_m r.
Proof. destruct r as [[|[p|p|]|p] b c]; cbn; lia. Qed.
Lemma iter_le n : forall r, 0 <= shr_m r -> 0 <= shr_m (iter_pos shr_1 n r) <= shr_m r.
Proof.
  induction n as [n IH|n IH|]; intros r Hr; cbn [iter_pos].
  - pose proof (shr1_le r Hr) as H1. pose proof (IH _ (proj1 H1)) as H2. pose proof (IH _ (proj1 H2)). lia.
  - pose proof (IH _ Hr) as H2. pose proof (IH _ (proj1 H2)). lia.
  - now apply shr1_le.
Qed.
Lemma shr_fexp_bound m e l r e' n : shr_fexp 53 1024 m e l = (r, e') -> 0 <= m < 2 ^ n -> 0 <= n -> -500 <= e ->
  0 <= shr_m r <= m /\ -500 <= e' <= Z.max e (n + e - 53).
Proof.
  intros H Hm Hn He. unfold shr_fexp in H.
  assert (Hr : shr_m (shr_record_of_loc m l) = m) by (destruct l as [|[]]; reflexivity).
  assert (Hd : 0 <= Zdigits2 m <= n).
  { destruct m as [|p|p]; cbn; [lia| |lia]. rewrite digits_size. pose proof (size_le p n Hn ltac:(lia)). lia. }
  rewrite fexp_pos in H by lia. unfold shr in H. destruct (Zdigits2 m + e - 53 - e) eqn:E; injection H as <- <-.
  - rewrite Hr. lia.
  - pose proof (iter_le p (shr_record_of_loc m l)). rewrite Hr in H. lia.
  - rewrite Hr. lia.
Qed.
Lemma round_finite s p : Zpos p <= 2 ^ 64 -> finite (binary_round 53 1024 s p 0) = true.
Proof.
  intros Hp. destruct (Z.lt_ge_cases (Zpos p) (2 ^ 53)) as [Hs|Hs]; [now destruct (trunc_small s p Hs)|].
  unfold binary_round. rewrite digits_size, Z.add_0_r. pose proof (size_bounds p) as [Hl Hu].
  assert (Hsz : 53 < Zpos (Pos.size p)).
  { destruct (Z.le_gt_cases (Zpos (Pos.size p)) 53); [|assumption]. assert (2 ^ Zpos (Pos.size p) <= 2 ^ 53) by (apply Z.pow_le_mono_r; lia). lia. }
  rewrite fexp_pos by lia. unfold shl_align. rewrite Z.sub_0_r.
  destruct (Zpos (Pos.size p) - 53) eqn:E; [lia| |lia]. clear E. unfold binary_round_aux.
  destruct (shr_fexp 53 1024 (Zpos p) 0 loc_Exact) as [r e'] eqn:E1.
  pose proof (shr_fexp_bound _ _ _ _ _ 65 E1 ltac:(lia) ltac:(lia) ltac:(lia)) as [B1 B2].
  destruct (shr_fexp 53 1024 (round_nearest_even (shr_m r) (loc_of_shr_record r)) e' loc_Exact) as [r2 e2] eqn:E2.
  assert (Bm : 0 <= round_nearest_even (shr_m r) (loc_of_shr_record r) <= 2 ^ 64 + 1).
  { unfold round_nearest_even. destruct (loc_of_shr_record r) as [|[]]; try destruct (Z.even _); lia. }
  pose proof (shr_fexp_bound _ _ _ _ _ 66 E2 ltac:(lia) ltac:(lia) ltac:(lia)) as [B3 B4].
  destruct (shr_m r2) as [|q|q] eqn:Eq; [reflexivity| |lia]. rewrite Zle_imp_le_bool by lia. reflexivity.
Qed.
Lemma kind_finite k z : in_kind k z = true -> finite (to_f64 z) = true.
Proof.
  intros H. unfold in_kind in H. apply andb_true_iff in H as [H1 H2]. apply Z.leb_le in H1, H2.
  assert (Hz : - 2 ^ 63 <= z <= 2 ^ 64) by (destruct k; cbn [kmin kmax] in *; lia).
  unfold to_f64, binary_normalize. destruct z as [|p|p]; [reflexivity|apply round_finite; lia|apply round_finite; lia].
Qed.

(** ** Induction over values and documents *)
Section Jind.
  Variable P : jval -> Prop.
  Hypothesis (HN : P JNull) (HB : forall b, P (JBool b)) (HS : forall s, P (JStr s)) (HI : forall z, P (JInt z)) (HF : forall f, P (JFlt f)).
  Hypothesis (HA : forall l, Forall P l -> P (JArr l)) (HO : forall m, Forall (fun e => P (snd e)) m -> P (JObj m)).
  Fixpoint jval_nested (j : jval) : P j :=
    match j with
    | JNull => HN | JBool b => HB b | JStr s => HS s | JInt z => HI z | JFlt f => HF f
    | JArr l => HA l ((fix go l := match l return Forall P l with [] => Forall_nil _ | x :: r => Forall_cons x (jval_nested x) (go r) end) l)
    | JObj m => HO m ((fix go m := match m return Forall (fun e => P (snd e)) m with [] => Forall_nil _ | x :: r => Forall_cons x (jval_nested (snd x)) (go r) end) m)
    end.
End Jind.
Section Gind.
  Variable P : gval -> Prop.
  Hypothesis (HN : P GNil) (HB : forall b, P (GBool b)) (HS : forall s, P (GStr s)) (HI : forall k z, P (GInt k z)) (HF : forall f, P (GF64 f)) (HX : P GBad).
  Hypothesis (HA : forall l, Forall P l -> P (GArr l)) (HO : forall m, Forall (fun e => P (snd e)) m -> P (GMap m)).
  Fixpoint gval_nested (j : gval) : P j :=
    match j with
    | GNil => HN | GBool b => HB b | GStr s => HS s | GInt k z => HI k z | GF64 f => HF f | GBad => HX
    | GArr l => HA l ((fix go l := match l return Forall P l with [] => Forall_nil _ | x :: r => Forall_cons x (gval_nested x) (go r) end) l)
    | GMap m => HO m ((fix go m := match m return Forall (fun e => P (snd e)) m with [] => Forall_nil _ | x :: r => Forall_cons x (gval_nested (snd x)) (go r) end) m)
    end.
End Gind.
Lemma all_forall2 {A B} (f : A -> option B) l q : all f l = Some q <-> Forall2 (fun x y => f x = Some y) l q.
Proof.
  revert q. induction l as [|x r IH]; intros q; cbn [all].
  - split; [intros H; injection H as <-; constructor|intros H; inversion H; reflexivity].
  - split.
    + destruct (f x) eqn:E; [|discriminate]. destruct (all f r) eqn:E'; [|discriminate]. intros H. injection H as <-. constructor; [exact E|now apply IH].
    + intros H. inversion H; subst. rewrite H2. apply IH in H4. now rewrite H4.
Qed.
Lemma fold_all {A} (P : A -> Prop) l : fold_right (fun x Q => P x /\ Q) True l <-> Forall P l.
Proof. induction l; cbn; [split; auto|]. rewrite IHl. split; [intros [H1 H2]; now constructor|intros H; inversion H; auto]. Qed.

(** ** Strings *)
Lemma str_eq_iff a b : str_eq a b = true <-> a = b.
Proof.
  revert b. induction a as [|x a IH]; intros [|y b]; cbn; try (split; [discriminate|discriminate]); [tauto|].
  rewrite andb_true_iff, IH. assert (ch_eq x y = true <-> x = y).
  { destruct x, y; cbn; try (split; discriminate); rewrite Z.eqb_eq; split; [intros ->|intros H; injection H as ->| intros ->|intros H; injection H as ->]; reflexivity. }
  rewrite H. split; [intros [-> ->]; reflexivity|intros E; injection E as -> ->; auto].
Qed.
Lemma str_eq_refl a : str_eq a a = true.
Proof. now apply str_eq_iff. Qed.
Lemma str_eqP a b : reflect (a = b) (str_eq a b).
Proof. apply iff_reflect. symmetry. apply str_eq_iff. Qed.
Lemma enc_dec s : enc_str (dec_str s) = s.
Proof. unfold enc_str, dec_str. rewrite map_map. apply map_id. Qed.
Lemma dec_enc s : valid s -> dec_str (enc_str s) = s.
Proof.
  unfold enc_str, dec_str. rewrite map_map. intros H. rewrite <- (map_id s) at 2. apply map_ext_in. intros c Hc. destruct (H c Hc) as (r & ->). reflexivity.
Qed.
Lemma valid_dec s : valid (dec_str s).
Proof. intros c Hc. apply in_map_iff in Hc as (r & <- & _). eauto. Qed.

(** ** Maps *)
Lemma mget_mset k k' v m : mget k (mset k' v m) = if str_eq k' k then Some v else mget k m.
Proof.
  induction m as [|[a w] m IH]; cbn [mset mget]; [reflexivity|]. destruct (str_eqP a k') as [->|Ha]; cbn [mget].
  - destruct (str_eq k' k); reflexivity.
  - rewrite IH. destruct (str_eqP a k) as [->|]; [|reflexivity]. destruct (str_eqP k' k) as [->|]; [contradiction|reflexivity].
Qed.
Lemma mget_msets k l : forall m, mget k (msets l m) = last_of k l (mget k m).
Proof.
  induction l as [|[a v] l IH]; intros m; cbn [msets fold_left last_of]; [reflexivity|]. unfold msets in IH. rewrite IH. f_equal. apply mget_mset.
Qed.
Lemma mset_keys k v m x : In x (map fst (mset k v m)) <-> x = k \/ In x (map fst m).
Proof.
  induction m as [|[a w] m IH]; cbn; [intuition|]. destruct (str_eqP a k) as [->|]; cbn; [intuition|]. rewrite IH. intuition.
Qed.
Lemma mset_nodup k v m : NoDup (map fst m) -> NoDup (map fst (mset k v m)).
Proof.
  induction m as [|[a w] m IH]; cbn; intros H; [repeat constructor; auto|]. inversion H; subst. destruct (str_eqP a k) as [->|Hn]; cbn; [now constructor|].
  constructor; [|auto]. intros X. apply mset_keys in X as [->|X]; contradiction.
Qed.
Lemma mset_in k v m e : In e (mset k v m) -> e = (k, v) \/ In e m.
Proof.
  induction m as [|[a w] m IH]; cbn; [intuition|]. destruct (str_eqP a k) as [->|]; cbn; [intuition|]. intros [H|H]; [auto|]. apply IH in H. tauto.
Qed.
Lemma msets_nodup l : forall m, NoDup (map fst m) -> NoDup (map fst (msets l m)).
Proof. induction l as [|[k v] l IH]; intros m H; [exact H|]. apply IH. now apply mset_nodup. Qed.
Lemma msets_in l : forall m e, In e (msets l m) -> In e l \/ In e m.
Proof.
  induction l as [|[k v] l IH]; intros m e H; [auto|]. apply IH in H as [H|H]; [left; now right|]. apply mset_in in H as [->|H]; [left; now left|auto].
Qed.
Lemma mset_new k v m : ~ In k (map fst m) -> mset k v m = m ++ [(k, v)].
Proof.
  induction m as [|[a w] m IH]; cbn; intros H; [reflexivity|]. destruct (str_eqP a k) as [->|]; [exfalso; auto|]. now rewrite IH by tauto.
Qed.
Lemma msets_id l : forall m, NoDup (map fst (m ++ l)) -> msets l m = m ++ l.
Proof.
  induction l as [|[k v] l IH]; intros m H; [symmetry; apply app_nil_r|]. change (msets ((k, v) :: l) m) with (msets l (mset k v m)).
  rewrite mset_new.
  - rewrite IH by (rewrite <- app_assoc; exact H). now rewrite <- app_assoc.
  - rewrite map_app in H. apply NoDup_remove_2 in H. intros X. apply H. apply in_or_app. now left.
Qed.

(** ** Documents and values *)
Lemma number_inv f v : number f = Some v -> v = GF64 f /\ finite f = true.
Proof. unfold number. destruct (finite f) eqn:E; [|discriminate]. intros H. injection H as <-. auto. Qed.
Lemma decode_plain j : forall v, decode j = Some v -> plain v.
Proof.
  induction j using jval_nested; intros v Hv; cbn [decode] in Hv.
  - injection Hv as <-. exact I.
  - injection Hv as <-. exact I.
  - injection Hv as <-. apply valid_dec.
  - apply number_inv in Hv as [-> Hf]. exact Hf.
  - apply number_inv in Hv as [-> Hf]. exact Hf.
  - destruct (all decode l) as [q|] eqn:E; [|discriminate]. injection Hv as <-. cbn [plain]. apply fold_all. apply all_forall2 in E.
    induction E as [|x y l q Hx E IH]; [constructor|]. inversion H; subst. constructor; auto.
  - destruct (all _ m) as [q|] eqn:E; [|discriminate]. injection Hv as <-. cbn [plain]. split; [apply msets_nodup; constructor|].
    apply (fold_all (fun e => valid (fst e) /\ plain (snd e))). apply Forall_forall. intros e He. apply msets_in in He as [He|[]].
    apply all_forall2 in E. induction E as [|x y l q Hx E IH]; [destruct He|]. inversion H; subst. destruct He as [<-|He]; [|auto].
    destruct (decode (snd x)) eqn:Ed; [|discriminate]. injection Hx as <-. cbn. split; [apply valid_dec|auto].
Qed.
Lemma plain_round v : plain v -> exists j, encode v = Some j /\ decode j = Some v.
Proof.
  induction v using gval_nested; cbn [plain]; intros Hp; try contradiction.
  - now exists JNull.
  - now exists (JBool b).
  - exists (JStr (enc_str s)). split; [reflexivity|]. cbn. now rewrite dec_enc.
  - exists (JFlt f). cbn. unfold number. rewrite Hp. auto.
  - apply fold_all in Hp.
    assert (G : exists q, Forall2 (fun x y => encode x = Some y) l q /\ Forall2 (fun x y => decode x = Some y) q l).
    { induction l as [|x l IH]; [exists []; split; constructor|]. inversion H; subst. inversion Hp; subst.
      destruct (IH H3 H5) as (q & H6 & H7). destruct (H2 H4) as (j & E1 & E2). exists (j :: q). split; constructor; auto. }
    destruct G as (q & H1 & H2). apply all_forall2 in H1, H2. exists (JArr q). cbn. rewrite H1, H2. auto.
  - destruct Hp as [Hn Hp]. apply (fold_all (fun e => valid (fst e) /\ plain (snd e))) in Hp.
    assert (G : exists q, Forall2 (fun e y => match encode (snd e) with Some j => Some (enc_str (fst e), j) | None => None end = Some y) m q /\
                          Forall2 (fun e y => match decode (snd e) with Some j => Some (dec_str (fst e), j) | None => None end = Some y) q m).
    { clear Hn. induction m as [|[k x] m IH]; [exists []; split; constructor|]. inversion H; subst. inversion Hp as [|? ? [Hk Hx] Hr]; subst. cbn in *.
      destruct (IH H3 Hr) as (q & H6 & H7). destruct (H2 Hx) as (j & E1 & E2). exists ((enc_str k, j) :: q). split; constructor; auto; cbn.
      - now rewrite E1.
      - now rewrite E2, dec_enc. }
    destruct G as (q & H1 & H2). apply all_forall2 in H1, H2. exists (JObj q). cbn [encode decode]. rewrite H1, H2. cbn. split; [reflexivity|].
    now rewrite msets_id.
Qed.
Lemma typed_round v : typed v -> forall j, encode v = Some j -> exists v', decode j = Some v'.
Proof.
  induction v using gval_nested; cbn [typed]; intros Hp j Hj; cbn [encode] in Hj.
  - injection Hj as <-. now exists GNil.
  - injection Hj as <-. now exists (GBool b).
  - injection Hj as <-. eexists. reflexivity.
  - injection Hj as <-. cbn. unfold number. rewrite (kind_finite k z Hp). eauto.
  - destruct (finite f) eqn:E; [|discriminate]. injection Hj as <-. cbn. unfold number. rewrite E. eauto.
  - discriminate.
  - apply fold_all in Hp. destruct (all encode l) as [q|] eqn:E; [|discriminate]. injection Hj as <-. apply all_forall2 in E.
    assert (G : exists w, Forall2 (fun x y => decode x = Some y) q w).
    { induction E as [|x y l q Hx E IH]; [exists []; constructor|]. inversion H; subst. inversion Hp; subst.
      destruct (IH H3 H5) as (w & Hw). destruct (H2 H4 y Hx) as (v' & Ev). exists (v' :: w). now constructor. }
    destruct G as (w & Hw). apply all_forall2 in Hw. cbn [decode]. rewrite Hw. cbn. eauto.
  - destruct Hp as [_ Hp]. apply (fold_all (fun e => typed (snd e))) in Hp. destruct (all _ m) as [q|] eqn:E; [|discriminate]. injection Hj as <-. apply all_forall2 in E.
    assert (G : exists w, Forall2 (fun e y => match decode (snd e) with Some j => Some (dec_str (fst e), j) | None => None end = Some y) q w).
    { induction E as [|x y l q Hx E IH]; [exists []; constructor|]. inversion H; subst. inversion Hp; subst.
      destruct (encode (snd x)) as [jx|] eqn:Ex; [|discriminate]. injection Hx as <-.
      destruct (IH H3 H5) as (w & Hw). destruct (H2 H4 jx eq_refl) as (v' & Ev). exists ((dec_str (enc_str (fst x)), v') :: w). constructor; [cbn; now rewrite Ev|exact Hw]. }
    destruct G as (w & Hw). apply all_forall2 in Hw. cbn [decode]. rewrite Hw. cbn. eauto.
Qed.

(** What is read for a value after it was written. *)
Definition round (v : gval) : option gval := match encode v with Some j => decode j | None => None end.
Lemma round_plain v : plain v -> round v = Some v.
Proof. intros H. destruct (plain_round v H) as (j & E & D). unfold round. now rewrite E. Qed.
Definition then_round (o : option gval) : option gval := match o with Some v => round v | None => None end.
Lemma round_twice o : then_round (then_round o) = then_round o.
Proof.
  destruct o as [v|]; [|reflexivity]. cbn. destruct (round v) as [w|] eqn:E; [|reflexivity]. cbn. unfold round in E.
  destruct (encode v) as [j|]; [|discriminate]. apply round_plain. exact (decode_plain j w E).
Qed.
Definition decodable (v : gval) : Prop := forall j, encode v = Some j -> exists v', decode j = Some v'.
Lemma plain_decodable v : plain v -> decodable v.
Proof. intros H j Hj. destruct (plain_round v H) as (j' & E & D). rewrite E in Hj. injection Hj as <-. eauto. Qed.

Lemma map_round m j : NoDup (map fst m) -> Forall (fun e => decodable (snd e)) m -> encode (GMap m) = Some j ->
  exists f d, j = JObj f /\ decode (JObj f) = Some (GMap d) /\
    forall k, valid k -> (forall k', In k' (map fst m) -> enc_str k' = enc_str k -> k' = k) -> mget k d = then_round (mget k m).
Proof.
  intros Hn Hd Hj. cbn [encode] in Hj. destruct (all _ m) as [q|] eqn:E; [|discriminate]. injection Hj as <-. apply all_forall2 in E.
  assert (G : exists w, Forall2 (fun e y => match decode (snd e) with Some j => Some (dec_str (fst e), j) | None => None end = Some y) q w /\
     forall k, valid k -> (forall k', In k' (map fst m) -> enc_str k' = enc_str k -> k' = k) ->
       forall z, last_of k w z = match mget k m with Some v => round v | None => z end).
  { induction E as [|[k0 v0] y l q Hx E IH]; [exists []; split; [constructor|reflexivity]|]. inversion Hn; subst. inversion Hd; subst. cbn [snd fst] in *.
    destruct (encode v0) as [jx|] eqn:Ex; [|discriminate]. injection Hx as <-. destruct (IH H2 H4) as (w & Hw & HL).
    destruct (H3 jx Ex) as (v' & Ev). exists ((dec_str (enc_str k0), v') :: w). split; [constructor; [cbn; now rewrite Ev|exact Hw]|].
    intros k Hk Hc z. cbn [last_of mget]. rewrite (HL k Hk) by (intros k' Hk'; apply Hc; now right).
    destruct (str_eqP k0 k) as [->|Hne].
    - rewrite dec_enc, str_eq_refl by exact Hk. assert (Hg : mget k l = None).
      { destruct (mget k l) as [u|] eqn:Eg; [|reflexivity]. exfalso. apply H1. clear -Eg. induction l as [|[a b] l IH]; [discriminate|]. cbn in *.
        destruct (str_eqP a k) as [->|]; [now left|right; auto]. }
      rewrite Hg. unfold round. rewrite Ex. now rewrite Ev.
    - destruct (str_eqP (dec_str (enc_str k0)) k) as [X|_]; [|reflexivity]. exfalso. apply Hne. apply Hc; [now left|]. rewrite <- X, enc_dec. reflexivity. }
  destruct G as (w & Hw & HL). apply all_forall2 in Hw. exists q, (msets w []). split; [reflexivity|]. split; [cbn [decode]; now rewrite Hw|].
  intros k Hk Hc. rewrite mget_msets. cbn [mget]. exact (HL k Hk Hc None).
Qed.

(** ** The builder *)
Lemma put_nth {A} (l : list A) n x m : nth_error (put l n x) m = if Nat.eqb n m then match nth_error l n with Some _ => Some x | None => None end else nth_error l m.
Proof.
  revert n m. induction l as [|y l IH]; intros [|n] [|m]; cbn; try reflexivity; try apply IH.
  - destruct (Nat.eqb n m); reflexivity.
Qed.
Lemma put_length {A} (l : list A) n x : List.length (put l n x) = List.length l.
Proof. revert n. induction l; intros [|n]; cbn; auto. Qed.
Lemma hdr_ptr s b h : hdr s b = Some h -> exists p, ptr s b = Some p /\ nth_error (heap b) p = Some h.
Proof. unfold hdr. destruct (ptr s b); [eauto|discriminate]. Qed.
Lemma hdr_store s b p h h' : ptr s b = Some p -> nth_error (heap b) p = Some h -> hdr s (store b p h') = Some h'.
Proof. intros Hp Hn. unfold hdr. replace (ptr s (store b p h')) with (ptr s b) by (destruct s; reflexivity). rewrite Hp. cbn. now rewrite put_nth, Nat.eqb_refl, Hn. Qed.

(** The outcomes of a write. *)
Lemma fields_inv s a b b' : WithCustomFields s a b = Some b' ->
  exists h p, hdr s b = Some h /\ ptr s b = Some p /\
  (b' = fail b \/
   (Custom h = CJson JNull /\ a = [] /\ b' = store b p (setCustom h (CJson JNull))) \/
   exists d j, (Custom h = CEmpty /\ d = [] \/ read_map (Custom h) = Some (Some d)) /\ encode (GMap (msets a d)) = Some j /\ b' = store b p (setCustom h (CJson j))).
Proof.
  unfold WithCustomFields. destruct (hdr s b) as [h|] eqn:Eh; [|discriminate]. destruct (hdr_ptr s b h Eh) as (p & Hp & Hh). intros H.
  exists h, p. split; [reflexivity|]. split; [exact Hp|].
  assert (W : forall d, WithCustomFieldsMap s (Some d) b = Some b' -> b' = fail b \/ exists j, encode (GMap d) = Some j /\ b' = store b p (setCustom h (CJson j))).
  { intros d Hd. unfold WithCustomFieldsMap in Hd. rewrite Hp, Eh in Hd. destruct (encode (GMap d)) as [j|]; injection Hd as <-; eauto. }
  destruct (Custom h) as [|j|bs] eqn:Ec.
  - apply W in H as [->|(j & E & ->)]; [auto|]. right. right. exists [], j. auto.
  - destruct (read_map (CJson j)) as [[d|]|] eqn:Er.
    + apply W in H as [->|(j' & E & ->)]; [auto|]. right. right. exists d, j'. auto.
    + destruct a; [|discriminate]. right. left. unfold WithCustomFieldsMap in H. rewrite Hp, Eh in H. injection H as <-. split; [|auto].
      destruct j; try discriminate; [reflexivity|]. cbn [read_map] in Er. destruct (decode _) as [[]|]; discriminate.
    + injection H as <-. auto.
  - injection H as <-. auto.
Qed.
Lemma read_map_obj c d : read_map c = Some (Some d) -> exists f, c = CJson (JObj f) /\ decode (JObj f) = Some (GMap d).
Proof.
  destruct c as [|j|]; try discriminate. destruct j; try discriminate. cbn [read_map]. destruct (decode (JObj m)) as [[]|] eqn:E; try discriminate.
  intros H. injection H as <-. eauto.
Qed.
Lemma read_map_of f d : decode (JObj f) = Some (GMap d) -> read_map (CJson (JObj f)) = Some (Some d).
Proof. intros H. cbn [read_map]. now rewrite H. Qed.
Lemma plain_map d : plain (GMap d) -> NoDup (map fst d) /\ forall k v, In (k, v) d -> valid k /\ plain v.
Proof. intros [Hn Hp]. split; [exact Hn|]. apply (fold_all (fun e => valid (fst e) /\ plain (snd e))) in Hp. rewrite Forall_forall in Hp. intros k v H. exact (Hp _ H). Qed.
Lemma same_set h c : same_but_custom h (setCustom h c).
Proof. destruct h. unfold same_but_custom. cbn. repeat (split; [reflexivity|]). reflexivity. Qed.

(** A successful write, seen through the values of the keys. *)
Lemma last_of_split k a z : last_of k a z = match last_of k a None with Some v => Some v | None => z end.
Proof.
  revert z. induction a as [|[k' v] a IH]; intros z; cbn; [reflexivity|]. destruct (str_eq k' k); [rewrite (IH (Some v)); destruct (last_of k a None); reflexivity|apply IH].
Qed.
Lemma last_of_in k a v : last_of k a None = Some v -> In (k, v) a.
Proof.
  assert (G : forall z, last_of k a z = Some v -> In (k, v) a \/ z = Some v).
  { induction a as [|[k' w] a IH]; intros z H; cbn in *; [auto|]. apply IH in H as [H|H]; [auto|]. destruct (str_eqP k' k) as [->|]; [injection H as ->; auto|auto]. }
  intros H. apply G in H as [H|H]; [exact H|discriminate].
Qed.
Lemma write_ok s a b b' d0 h0 : WithCustomFields s a b = Some b' -> err b' = false ->
  (forall k v, In (k, v) a -> typed v) -> hdr s b = Some h0 ->
  (Custom h0 = CEmpty /\ d0 = [] \/ read_map (Custom h0) = Some (Some d0)) ->
  exists h' d', hdr s b' = Some h' /\ read_map (Custom h') = Some (Some d') /\
    forall k, valid k -> (forall k', In k' (map fst a) -> enc_str k' = enc_str k -> k' = k) ->
      mget k d' = match last_of k a None with Some v => round v | None => mget k d0 end.
Proof.
  intros Hw He Ht Hh Hd. destruct (fields_inv _ _ _ _ Hw) as (h & p & Eh & Hp & [->|[(Ec & -> & ->)|(d & j & Hd' & Ej & ->)]]).
  - discriminate.
  - rewrite Eh in Hh. injection Hh as ->. rewrite Ec in Hd. destruct Hd as [[Hd _]|Hd]; discriminate.
  - rewrite Eh in Hh. injection Hh as ->.
    assert (d = d0) as -> by (destruct Hd as [[E1 ->]|E1], Hd' as [[E2 ->]|E2]; try congruence; rewrite ?E1 in E2; try discriminate; rewrite E2 in E1; discriminate).
    assert (Hpl : plain (GMap d0)).
    { destruct Hd as [[_ ->]|Hd]; [split; constructor|]. apply read_map_obj in Hd as (f & _ & Hf). exact (decode_plain _ _ Hf). }
    destruct (plain_map d0 Hpl) as [Hnd Hin].
    destruct (map_round (msets a d0) j) as (f & d' & -> & Hdec & HL); [now apply msets_nodup| |exact Ej|].
    { apply Forall_forall. intros [k v] Hv. apply msets_in in Hv as [Hv|Hv]; [exact (typed_round v (Ht k v Hv))|apply plain_decodable; now destruct (Hin k v Hv)]. }
    destruct (hdr_ptr s b h0 Eh) as (p' & Hp' & Hn). rewrite Hp in Hp'. injection Hp' as <-.
    exists (setCustom h0 (CJson (JObj f))), d'. split; [exact (hdr_store s b p h0 _ Hp Hn)|]. split; [exact (read_map_of f d' Hdec)|].
    intros k Hk Hc. rewrite HL.
    + rewrite mget_msets, last_of_split. destruct (last_of k a None) as [v|]; [reflexivity|].
      destruct (mget k d0) as [v|] eqn:Eg; [|reflexivity]. cbn. apply round_plain.
      assert (In (k, v) d0); [|now destruct (Hin k v H)]. clear -Eg. induction d0 as [|[x y] d IH]; [discriminate|]. cbn in *. destruct (str_eqP x k) as [->|]; [injection Eg as ->; now left|right; auto].
    + exact Hk.
    + intros k' Hk' X. apply in_map_iff in Hk' as ([k1 v1] & <- & Hv). cbn [fst] in X |- *. apply msets_in in Hv as [Hv|Hv]; [apply Hc; [now apply (in_map fst) in Hv|exact X]|].
      destruct (Hin k1 v1 Hv) as [Hv1 _]. rewrite <- (dec_enc k1 Hv1), X. now apply dec_enc.
Qed.

(** Histories. *)
Definition view_ok (s : side) (b : builder) (view : gostr -> option gval) : Prop :=
  exists h, hdr s b = Some h /\
    (Custom h = CEmpty /\ (forall k, view k = None) \/
     exists d, read_map (Custom h) = Some (Some d) /\ forall k, valid k -> mget k d = then_round (view k)).
Lemma err_mono s a b b' : WithCustomFields s a b = Some b' -> err b = true -> err b' = true.
Proof. intros H E. destruct (fields_inv _ _ _ _ H) as (h & p & _ & _ & [->|[(_ & _ & ->)|(d & j & _ & _ & ->)]]); auto. Qed.
Lemma errs_mono s calls : forall b b', writes s calls b = Some b' -> err b = true -> err b' = true.
Proof.
  induction calls as [|a r IH]; intros b b' H E; cbn in H; [injection H as <-; exact E|]. destruct (WithCustomFields s a b) as [b1|] eqn:W; [|discriminate].
  apply (IH b1 b' H). exact (err_mono _ _ _ _ W E).
Qed.
Lemma valid_inj k k' : valid k -> valid k' -> enc_str k' = enc_str k -> k' = k.
Proof. intros H H' E. rewrite <- (dec_enc k H), <- (dec_enc k' H'). now rewrite E. Qed.
Lemma history_ok s calls : forall b b' view, view_ok s b view -> writes s calls b = Some b' -> err b' = false ->
  (forall k v, In (k, v) (List.concat calls) -> valid k /\ typed v) -> view_ok s b' (fun k => last_of k (List.concat calls) (view k)).
Proof.
  induction calls as [|a r IH]; intros b b' view Hv Hw He Ha; cbn in Hw.
  - injection Hw as <-. exact Hv.
  - destruct (WithCustomFields s a b) as [b1|] eqn:W; [|discriminate].
    assert (He1 : err b1 = false) by (destruct (err b1) eqn:X; [rewrite (errs_mono _ _ _ _ Hw X) in He; discriminate|reflexivity]).
    assert (V1 : view_ok s b1 (fun k => last_of k a (view k))).
    { destruct Hv as (h & Hh & Hv).
      assert (Hd0 : exists d0, (Custom h = CEmpty /\ d0 = [] \/ read_map (Custom h) = Some (Some d0)) /\ forall k, valid k -> mget k d0 = then_round (view k)).
      { destruct Hv as [[E V]|(d & E & V)]; [exists []; split; [auto|intros k _; now rewrite V]|exists d; auto]. }
      destruct Hd0 as (d0 & Hd0 & V0).
      destruct (write_ok s a b b1 d0 h W He1) as (h' & d' & Hh' & Hr' & HL); [|exact Hh|exact Hd0|].
      { intros k v Hin. apply (Ha k v). cbn. apply in_or_app. now left. }
      exists h'. split; [exact Hh'|]. right. exists d'. split; [exact Hr'|]. intros k Hk. rewrite HL.
      - rewrite (last_of_split k a (view k)). destruct (last_of k a None) as [v|]; [reflexivity|]. now apply V0.
      - exact Hk.
      - intros k' Hk' X. apply in_map_iff in Hk' as ([k1 v1] & <- & Hv1). apply valid_inj; [exact Hk| |exact X]. apply (Ha k1 v1). cbn. apply in_or_app. now left. }
    assert (G := IH b1 b' _ V1 Hw He ltac:(intros k v Hin; apply (Ha k v); cbn; apply in_or_app; now right)).
    destruct G as (h & Hh & G). exists h. split; [exact Hh|].
    assert (X : forall k z, last_of k (List.concat (a :: r)) z = last_of k (List.concat r) (last_of k a z)).
    { intros k. cbn. generalize (List.concat r). clear. intros q. induction a as [|[k' v] a IH]; intros z; cbn; [reflexivity|apply IH]. }
    destruct G as [[E V]|(d & E & V)]; [left; split; [exact E|]; intros k; now rewrite X|right; exists d; split; [exact E|]; intros k Hk; rewrite X; now apply V].
Qed.
Lemma new_view s hp uid : view_ok s (NewBuilder hp uid) (fun _ => None).
Proof.
  assert (G : hdr s (NewBuilder hp uid) = Some (newHeader uid)).
  { destruct s; unfold hdr, ptr, NewBuilder; cbn [reqH resH heap]; rewrite nth_error_app2 by lia; [now rewrite Nat.sub_diag|]. now replace (S (List.length hp) - List.length hp)%nat with 1%nat by lia. }
  exists (newHeader uid). split; [exact G|]. left. auto.
Qed.
Lemma read_back s hp uid calls b' k v : writes s calls (NewBuilder hp uid) = Some b' -> err b' = false ->
  (forall k v, In (k, v) (List.concat calls) -> valid k /\ typed v) -> last_of k (List.concat calls) None = Some v -> faithful v ->
  GetCustomField s b' k (type_of v) = Got v.
Proof.
  intros Hw He Ha Hl Hf. pose proof (last_of_in _ _ _ Hl) as Hin. destruct (Ha k v Hin) as [Hk Ht].
  destruct (history_ok s calls _ _ _ (new_view s hp uid) Hw He Ha) as (h & Hh & [[_ V]|(d & Hr & V)]); [rewrite V in Hl; discriminate|].
  unfold GetCustomField. rewrite Hh, Hr, (V k Hk), Hl. cbn [then_round].
  assert (Hpl : plain v -> match round v with None => Got (zero (type_of v)) | Some v0 => if has_type v0 (type_of v) then Got v0 else
             match type_of v, v0 with TInt Int8, _ | TInt Uint8, _ => Got (zero (type_of v)) | TInt k0, GF64 f => conv k0 f | _, _ => Got (zero (type_of v)) end end = Got v).
  { intros Hp. rewrite (round_plain v Hp). destruct v; cbn in *; try reflexivity; contradiction. }
  destruct v as [| | |kd z| | | |]; try exact (Hpl Hf).
  clear Hpl. destruct Hf as (H8 & Hu8 & Hz). destruct (exact z Hz) as [Htr Hfin].
  unfold round. cbn [encode decode]. unfold number. rewrite Hfin. cbn [type_of has_type]. cbn [typed] in Ht.
  assert (C : conv kd (to_f64 z) = Got (GInt kd z)) by (unfold conv; rewrite Htr, Ht; reflexivity).
  destruct kd; try exact C; contradiction.
Qed.
Lemma other_keys s a b b' k t : WithCustomFields s a b = Some b' -> err b' = false -> (forall k v, In (k, v) a -> typed v) ->
  valid k -> (forall k', In k' (map fst a) -> enc_str k' <> enc_str k) -> GetCustomField s b' k t = GetCustomField s b k t.
Proof.
  intros Hw He Ht Hk Hne. destruct (fields_inv _ _ _ _ Hw) as (h & p & Eh & Hp & Hcase).
  destruct (hdr_ptr s b h Eh) as (p' & Hp' & Hn). rewrite Hp in Hp'. injection Hp' as <-.
  assert (Hl : last_of k a None = None).
  { destruct (last_of k a None) as [v|] eqn:E; [|reflexivity]. apply last_of_in in E. exfalso. apply (Hne k); [now apply (in_map fst) in E|reflexivity]. }
  destruct Hcase as [->|[(Ec & -> & ->)|(d & j & Hd & Ej & E)]]; [discriminate| |].
  - unfold GetCustomField. rewrite (hdr_store s b p h _ Hp Hn), Eh. cbn [Custom setCustom]. now rewrite Ec.
  - destruct (write_ok s a b b' d h Hw He Ht Eh Hd) as (h' & d' & Hh' & Hr' & HL).
    unfold GetCustomField. rewrite Hh', Hr', Eh, HL, Hl.
    + destruct Hd as [[-> ->]|Hd]; [reflexivity|]. now rewrite Hd.
    + exact Hk.
    + intros k' Hin X. destruct (Hne k' Hin X).
Qed.
Lemma header_kept s a b b' : WithCustomFields s a b = Some b' ->
  (exists h h', hdr s b = Some h /\ hdr s b' = Some h' /\ same_but_custom h h') /\
  (forall q, ptr s b <> Some q -> nth_error (heap b') q = nth_error (heap b) q) /\
  reqH b' = reqH b /\ resH b' = resH b /\ reqBody b' = reqBody b /\ resBody b' = resBody b.
Proof.
  intros Hw. destruct (fields_inv _ _ _ _ Hw) as (h & p & Eh & Hp & Hcase). destruct (hdr_ptr s b h Eh) as (p' & Hp' & Hn). rewrite Hp in Hp'. injection Hp' as <-.
  assert (G : forall c, (exists h0 h', hdr s b = Some h0 /\ hdr s (store b p (setCustom h c)) = Some h' /\ same_but_custom h0 h') /\
     (forall q, ptr s b <> Some q -> nth_error (heap (store b p (setCustom h c))) q = nth_error (heap b) q)).
  { intros c. split; [exists h, (setCustom h c); split; [exact Eh|split; [exact (hdr_store s b p h _ Hp Hn)|apply same_set]]|].
    intros q Hq. cbn. rewrite put_nth. destruct (Nat.eqb_spec p q) as [->|]; [congruence|reflexivity]. }
  destruct Hcase as [->|[(_ & _ & ->)|(d & j & _ & _ & ->)]].
  - split; [|split; [reflexivity|repeat split]]. exists h, h. split; [exact Eh|]. split; [|repeat (split; [reflexivity|]); reflexivity].
    unfold hdr in *. destruct s; exact Eh.
  - destruct (G (CJson JNull)) as [G1 G2]. split; [exact G1|]. split; [exact G2|]. repeat split.
  - destruct (G (CJson j)) as [G1 G2]. split; [exact G1|]. split; [exact G2|]. repeat split.
Qed.
Lemma rejected s a b b' : WithCustomFields s a b = Some b' -> err b = false -> err b' = true -> b' = fail b.
Proof. intros Hw E E'. destruct (fields_inv _ _ _ _ Hw) as (h & p & _ & _ & [->|[(_ & _ & ->)|(d & j & _ & _ & ->)]]); [reflexivity| |]; cbn in E'; congruence. Qed.
Lemma all_none {A B} (f : A -> option B) l x : In x l -> f x = None -> all f l = None.
Proof. induction l as [|y l IH]; intros H E; [destruct H|]. destruct H as [->|H]; cbn; [now rewrite E|rewrite (IH H E); now destruct (f y)]. Qed.
Lemma mget_in k m v : mget k m = Some v -> In (k, v) m.
Proof. induction m as [|[a b] m IH]; [discriminate|]. cbn. destruct (str_eqP a k) as [->|]; [intros H; injection H as ->; now left|right; auto]. Qed.
Lemma bad_reported s a b b' k v : WithCustomFields s a b = Some b' -> last_of k a None = Some v -> encode v = None -> err b' = true.
Proof.
  intros Hw Hl Hv. destruct (fields_inv _ _ _ _ Hw) as (h & p & _ & _ & [->|[(_ & -> & ->)|(d & j & _ & Ej & ->)]]); [reflexivity|discriminate|].
  exfalso. cbn [encode] in Ej. rewrite (all_none _ _ (k, v)) in Ej; [discriminate| |cbn; now rewrite Hv].
  apply mget_in. rewrite mget_msets, last_of_split, Hl. reflexivity.
Qed.

(** ** Headers given by the caller *)
Definition own_headers (n : nat) (b : builder) : Prop := reqH b = Some n /\ resH b = Some (S n).
Lemma apply_keeps o b b' n : own_headers n b -> apply o b = Some b' ->
  (forall h, o <> OResHeader h) -> o <> OReqHeader None ->
  own_headers n b' /\ forall q, (q < n)%nat -> nth_error (heap b') q = nth_error (heap b) q.
Proof.
  intros [Hq Hs] Ha H1 H2.
  assert (P : forall s p, ptr s b = Some p -> (n <= p)%nat) by (intros [] p Hp; cbn in Hp; rewrite ?Hq, ?Hs in Hp; injection Hp as <-; lia).
  assert (G : forall s p h e, ptr s b = Some p -> b' = mkB (put (heap b) p h) (reqH b) (resH b) (reqBody b) (resBody b) e ->
     own_headers n b' /\ forall q, (q < n)%nat -> nth_error (heap b') q = nth_error (heap b) q).
  { intros s p h e Hp ->. split; [split; assumption|]. intros q Hlt. cbn. rewrite put_nth. apply P in Hp. destruct (Nat.eqb_spec p q); [lia|reflexivity]. }
  assert (F : b' = fail b -> own_headers n b' /\ forall q, (q < n)%nat -> nth_error (heap b') q = nth_error (heap b) q) by (intros ->; split; [split; assumption|reflexivity]).
  destruct o as [h|h|x|x|s a|s m|s e]; cbn [apply] in Ha.
  - destruct h as [p|]; [|contradiction]. unfold WithReqHeader in Ha. rewrite Hq in Ha. destruct (nth_error (heap b) n); [|discriminate]. destruct (nth_error (heap b) p); [|discriminate].
    injection Ha as <-. eapply (G Req); [exact Hq|]. rewrite Hq. reflexivity.
  - destruct (H1 h eq_refl).
  - injection Ha as <-. split; [split; assumption|reflexivity].
  - injection Ha as <-. split; [split; assumption|reflexivity].
  - destruct (fields_inv _ _ _ _ Ha) as (h & p & _ & Hp & [E|[(_ & _ & E)|(d & j & _ & _ & E)]]); [auto| |]; eapply G; eauto.
  - unfold WithCustomFieldsMap in Ha. destruct (match m with Some _ => _ | None => _ end); [|injection Ha as <-; auto].
    destruct (ptr s b) eqn:Hp; [|discriminate]. destruct (hdr s b); [|discriminate]. injection Ha as <-. eapply G; [exact Hp|reflexivity].
  - unfold WithCustomObject in Ha. destruct (ptr s b) eqn:Hp; [|discriminate]. destruct (hdr s b); [|discriminate].
    destruct e; injection Ha as <-; (eapply G; [exact Hp|reflexivity]).
Qed.
Lemma applies_keep ops : forall b b' n, own_headers n b -> apply_all ops b = Some b' ->
  (forall h, ~ In (OResHeader h) ops) -> ~ In (OReqHeader None) ops ->
  forall q, (q < n)%nat -> nth_error (heap b') q = nth_error (heap b) q.
Proof.
  induction ops as [|o r IH]; intros b b' n Ho Ha H1 H2 q Hq; cbn [apply_all] in Ha; [injection Ha as <-; reflexivity|].
  destruct (apply o b) as [b1|] eqn:E; [|discriminate].
  destruct (apply_keeps o b b1 n Ho E) as [Ho1 Hk]; [intros h ->; apply (H1 h); now left|intros ->; apply H2; now left|].
  rewrite (IH b1 b' n Ho1 Ha); [now apply Hk|intros h X; apply (H1 h); now right|intros X; apply H2; now right|exact Hq].
Qed.
Lemma new_keeps hp uid ops b : apply_all ops (NewBuilder hp uid) = Some b -> (forall h, ~ In (OResHeader h) ops) -> ~ In (OReqHeader None) ops ->
  forall q, (q < List.length hp)%nat -> nth_error (heap b) q = nth_error hp q.
Proof.
  intros Ha H1 H2 q Hq. assert (Ho : own_headers (List.length hp) (NewBuilder hp uid)) by (split; reflexivity).
  rewrite (applies_keep ops _ _ _ Ho Ha H1 H2 q Hq). cbn [heap NewBuilder]. now rewrite nth_error_app1.
Qed.

(** ** No panics *)
Lemma fields_no_panic s a b h : hdr s b = Some h -> Custom h <> CJson JNull -> exists b', WithCustomFields s a b = Some b'.
Proof.
  intros Hh Hc. unfold WithCustomFields. rewrite Hh. destruct (hdr_ptr s b h Hh) as (p & Hp & _).
  assert (W : forall d, exists b', WithCustomFieldsMap s (Some d) b = Some b').
  { intros d. unfold WithCustomFieldsMap. rewrite Hp, Hh. destruct (encode _); eauto. }
  destruct (Custom h) as [|j|bs]; [apply W| |eexists; reflexivity].
  destruct (read_map (CJson j)) as [[d|]|] eqn:Er; [apply W| |eexists; reflexivity].
  exfalso. apply Hc. destruct j; try discriminate; [reflexivity|]. cbn [read_map] in Er. destruct (decode _) as [[]|]; discriminate.
Qed.
Lemma writes_no_panic s calls : forall b h, hdr s b = Some h -> Custom h <> CJson JNull -> exists b', writes s calls b = Some b'.
Proof.
  induction calls as [|a r IH]; intros b h Hh Hc; cbn [writes]; [eauto|]. destruct (fields_no_panic s a b h Hh Hc) as (b1 & W). rewrite W.
  destruct (fields_inv _ _ _ _ W) as (h0 & p & Eh & Hp & Hcase). rewrite Hh in Eh. injection Eh as <-.
  destruct (hdr_ptr s b h Hh) as (p' & Hp' & Hn). rewrite Hp in Hp'. injection Hp' as <-.
  destruct Hcase as [->|[(Ec & _ & _)|(d & j & _ & Ej & ->)]]; [|contradiction|].
  - apply (IH _ h); [|exact Hc]. destruct s; exact Hh.
  - apply (IH _ (setCustom h (CJson j))); [exact (hdr_store s b p h _ Hp Hn)|]. cbn. cbn [encode] in Ej. destruct (all _ _); [|discriminate]. injection Ej as <-. discriminate.
Qed.
Lemma new_no_panic s hp uid calls : exists b', writes s calls (NewBuilder hp uid) = Some b'.
Proof. destruct (new_view s hp uid) as (h & Hh & [[E _]|(d & E & _)]); apply (writes_no_panic s calls _ h Hh); [rewrite E; discriminate|]. intros X. rewrite X in E. discriminate. Qed.

(** ** Copying a header *)
Lemma copy_header p b b' h : WithReqHeader (Some p) b = Some b' -> nth_error (heap b) p = Some h ->
  exists h', hdr Req b' = Some h' /\
    (ID h' = ID h /\ Event h' = Event h /\ OrgActorID h' = OrgActorID h /\ OrgActorType h' = OrgActorType h /\ Token h' = Token h /\
     PrevActorType h' = PrevActorType h /\ TargetActorID h' = TargetActorID h /\ TargetActorType h' = TargetActorType h /\ Custom h' = Custom h) /\
    (reqH b = None -> h' = h).
Proof.
  unfold WithReqHeader. intros H Hh. destruct (reqH b) as [r|] eqn:Er.
  - destruct (nth_error (heap b) r) as [old|] eqn:Eo; [|discriminate]. rewrite Hh in H. injection H as <-.
    eexists. split; [unfold hdr; cbn; rewrite put_nth, Nat.eqb_refl, Eo; reflexivity|]. cbn. split; [repeat (split; [reflexivity|]); reflexivity|discriminate].
  - injection H as <-. exists h. split; [exact Hh|]. split; [repeat (split; [reflexivity|]); reflexivity|reflexivity].
Qed.
