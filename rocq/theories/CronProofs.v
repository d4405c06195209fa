(** Proofs about the cron field parser. *)
From Coq Require Import List ZArith Bool Lia.
From Verif Require Import CronModel CronSpec.
Import ListNotations.
Open Scope Z_scope.

Lemma wrap_id x : - 2 ^ 63 <= x < 2 ^ 63 -> wrap x = x.
Proof. intros H. unfold wrap. rewrite Z.mod_small; lia. Qed.

(** ** The loop *)
Lemma stepped_unfold i last f v : 0 < f -> stepped i last f v <-> i <= last /\ (v = i \/ stepped (i + f) last f v).
Proof.
  intros Hf. split.
  - intros (k & Hk & -> & Hle). split; [nia|]. destruct (Z.eq_dec k 0) as [->|Hn]; [left; lia|]. right. exists (k - 1). lia.
  - intros (Hle & [->|(k & Hk & -> & Hl)]); [exists 0; lia|exists (k + 1); lia].
Qed.
Lemma loop_ok last f : 0 < f -> f + last < 2 ^ 63 -> forall fuel i acc, 0 <= i < 2 ^ 63 -> last - i < Z.of_nat fuel ->
  exists l, loop fuel i last f acc = Some l /\ forall v, In v l <-> In v acc \/ stepped i last f v.
Proof.
  intros Hf Hl. induction fuel as [|n IH]; intros i acc Hi Hfu; cbn [loop].
  - destruct (Z.leb_spec i last); [lia|]. exists acc. split; [reflexivity|]. intros v. split; [auto|].
    intros [H'|H']; [exact H'|]. apply stepped_unfold in H'; lia.
  - destruct (Z.leb_spec i last) as [H|H].
    + rewrite wrap_id by lia. destruct (IH (i + f) (i :: acc)) as (l & E & HL); [lia|lia|]. exists l. split; [exact E|].
      intros v. rewrite HL, (stepped_unfold i) by lia. cbn. intuition.
    + exists acc. split; [reflexivity|]. intros v. split; [auto|]. intros [H'|H']; [exact H'|]. apply stepped_unfold in H'; lia.
Qed.
Lemma loop_zero last : forall fuel i acc, - 2 ^ 63 <= i < 2 ^ 63 -> i <= last -> loop fuel i last 0 acc = None.
Proof.
  induction fuel as [|n IH]; intros i acc Hi H; cbn [loop]; rewrite (proj2 (Z.leb_le _ _) H); [reflexivity|].
  rewrite Z.add_0_r, wrap_id by exact Hi. now apply IH.
Qed.
Lemma loop_neg last f : f < 0 -> forall fuel i acc, i < 2 ^ 63 -> i <= last -> - 2 ^ 63 <= i + Z.of_nat fuel * f -> loop fuel i last f acc = None.
Proof.
  intros Hf. induction fuel as [|n IH]; intros i acc Hi H Hlow; cbn [loop]; rewrite (proj2 (Z.leb_le _ _) H); [reflexivity|].
  rewrite wrap_id by nia. apply IH; nia.
Qed.
Lemma bounds t : 0 <= vmin t <= 1 /\ 7 <= vmax t <= 59 /\ vmax t - vmin t < 60.
Proof. destruct t; cbn; lia. Qed.

(** The specification's bounds are the code's. *)
Lemma least_min t : least t = vmin t.
Proof. destruct t; reflexivity. Qed.
Lemma greatest_max t : greatest t = vmax t.
Proof. destruct t; reflexivity. Qed.

(** ** Termination *)
Lemma wrap_down x : 2 ^ 63 <= x < 2 ^ 64 -> wrap x = x - 2 ^ 64.
Proof.
  intros H. unfold wrap. replace (x + 2 ^ 63) with ((x - 2 ^ 63) + 1 * 2 ^ 64) by lia. rewrite Z.mod_add by lia. rewrite Z.mod_small by lia. lia.
Qed.
Lemma loop_out fuel i last f acc : last < i -> loop fuel i last f acc = Some acc.
Proof. intros H. destruct fuel; cbn [loop]; (destruct (Z.leb_spec i last); [lia|reflexivity]). Qed.
(** Steps so large that the sum may wrap around. *)
Lemma loop_huge last f : 2 ^ 63 - 59 <= f < 2 ^ 63 -> last <= 59 -> forall n fuel i acc, - 118 <= i <= 59 -> i + 2 < Z.of_nat n -> (n <= fuel)%nat -> (0 < fuel)%nat ->
  exists l, loop fuel i last f acc = Some l.
Proof.
  intros Hf Hl. induction n as [n IH] using lt_wf_ind. intros fuel i acc Hi Hn Hfu H0.
  destruct fuel as [|fuel]; [lia|]. cbn [loop]. destruct (Z.leb_spec i last) as [H|H]; [|eauto].
  destruct (Z_lt_le_dec (i + f) (2 ^ 63)) as [Hs|Hs].
  - rewrite wrap_id by lia. rewrite loop_out by lia. eauto.
  - rewrite wrap_down by lia. destruct fuel as [|fuel]; [lia|]. cbn [loop]. destruct (Z.leb_spec (i + f - 2 ^ 64) last) as [H1|H1]; [|eauto].
    rewrite wrap_id by lia. destruct n as [|[|n]]; [lia|lia|]. apply (IH n); lia.
Qed.
Lemma loop_ends last f i acc : 0 < f < 2 ^ 63 -> last <= 59 -> 0 <= i <= 59 -> exists l, loop 62 i last f acc = Some l.
Proof.
  intros Hf Hl Hi. destruct (Z_lt_le_dec f (2 ^ 63 - 59)) as [Hs|Hs]; [|apply (loop_huge last f ltac:(lia) Hl 62 62 i acc); lia].
  assert (G : forall fuel i acc, 0 <= i -> last - i < Z.of_nat fuel -> exists l, loop fuel i last f acc = Some l).
  { clear i acc Hi. induction fuel as [|n IH]; intros i acc Hi Hfu; cbn [loop]; destruct (Z.leb_spec i last); try lia; eauto.
    rewrite wrap_id by lia. apply IH; lia. }
  apply G; lia.
Qed.
Lemma atoi_int s f : atoi s = Some f -> - 2 ^ 63 <= f < 2 ^ 63.
Proof.
  unfold atoi. destruct s as [|c r]; [discriminate|]. destruct (if c =? dash then _ else _) as [x|]; [|discriminate]. unfold int64.
  destruct (Z.leb_spec (- 2 ^ 63) x); [|discriminate]. destruct (Z.ltb_spec x (2 ^ 63)); [|discriminate]. intros E. injection E as <-. lia.
Qed.
Lemma item_ends t f val acc : 0 < f < 2 ^ 63 -> exists l, parse_item 62 t f val acc = Some l.
Proof.
  intros Hf. unfold parse_item. destruct val as [|c val]; [eauto|].
  destruct (negb _); [destruct (atoi _); eauto|].
  destruct (atoi (subString (c :: val) 0 _)) as [a|]; [|eauto]. destruct (atoi (subString (c :: val) _ (-1))) as [b|]; [|eauto].
  destruct (_ || _) eqn:E; [eauto|]. apply orb_false_iff in E as [E E4]. apply orb_false_iff in E as [E E3]. apply orb_false_iff in E as [E1 E2].
  apply Z.ltb_ge in E1, E2, E3, E4. pose proof (bounds t).
  destruct (Z.leb_spec a b).
  - apply loop_ends; lia.
  - destruct (loop_ends (vmax t) f a acc Hf) as (l & ->); [lia|lia|].
    apply loop_ends; lia.
Qed.
Lemma items_end t f : 0 < f < 2 ^ 63 -> forall vals acc, exists l, parse_items 62 t f vals acc = Some l.
Proof.
  intros Hf. induction vals as [|v r IH]; intros acc; cbn [parse_items]; [eauto|].
  destruct (item_ends t f v acc Hf) as (l & ->). apply IH.
Qed.
Lemma with_ends s t f : 0 < f < 2 ^ 63 -> exists l, parse_with 62 s t f = Some l.
Proof.
  intros Hf. unfold parse_with. pose proof (bounds t).
  assert (E : exists l, (match s with
         | [c] => if c =? star then loop 62 (vmin t) (vmax t) f [] else parse_items 62 t f (split s comma) []
         | _ => parse_items 62 t f (split s comma) [] end) = Some l).
  { destruct s as [|c [|d r]]; try apply items_end; auto. destruct (c =? star); [|apply items_end; auto].
    apply loop_ends; lia. }
  destruct E as (l & ->). eauto.
Qed.
Lemma parse_ends s t :
  (contains s slash = true -> forall f, atoi (subString s (index s slash + 1) (-1)) = Some f -> 0 < f) ->
  exists r, parseExpress 62 s t = Some r.
Proof.
  intros H. unfold parseExpress. destruct (contains s slash) eqn:E.
  - destruct (atoi _) as [f|] eqn:Ef; [|eauto]. pose proof (atoi_int _ _ Ef). pose proof (H eq_refl f eq_refl). destruct (with_ends (subString s 0 (index s slash)) t f ltac:(lia)) as (l & ->). cbn. eauto.
  - destruct (with_ends s t 1 ltac:(lia)) as (l & ->). cbn. eauto.
Qed.

(** ** Strings *)
Lemma contains_app p q c : contains (p ++ q) c = contains p c || contains q c.
Proof. apply existsb_app. Qed.
Lemma contains_no p c : (forall x, In x p -> x <> c) -> contains p c = false.
Proof.
  intros H. unfold contains. destruct (existsb _ p) eqn:E; [|reflexivity]. apply existsb_exists in E as (x & Hx & Ex).
  apply Z.eqb_eq in Ex. exfalso. now apply (H x Hx).
Qed.
Definition plain (c : Z) (p : gostring) : Prop := forall x, In x p -> x <> c /\ 0 <= x < 128.
Lemma index_at p c q : plain c p -> index (p ++ c :: q) c = Z.of_nat (List.length p).
Proof.
  induction p as [|x p IH]; intros H; cbn [index app].
  - now rewrite Z.eqb_refl.
  - destruct (H x (or_introl eq_refl)) as [Hx Hr]. destruct (Z.eqb_spec x c); [contradiction|].
    rewrite IH by (intros y Hy; apply H; now right). unfold width.
    destruct (Z.ltb_spec x 128); [|lia]. destruct (Z.ltb_spec (Z.of_nat (List.length p)) 0); cbn [List.length]; lia.
Qed.
Lemma sub_before p c q : plain c p -> subString (p ++ c :: q) 0 (index (p ++ c :: q) c) = p.
Proof.
  intros H. rewrite index_at by exact H. unfold subString. cbn [Z.ltb Z.compare].
  rewrite app_length. cbn [List.length].
  destruct (Z.leb_spec (Z.of_nat (List.length p + S (List.length q))) 0); [lia|].
  destruct (Z.eqb_spec (Z.of_nat (List.length p)) (-1)); [lia|].
  destruct (Z.ltb_spec (Z.of_nat (List.length p + S (List.length q))) (Z.of_nat (List.length p))); [lia|].
  cbn [orb Z.to_nat skipn]. rewrite Nat2Z.id, firstn_app, firstn_all, Nat.sub_diag. cbn. apply app_nil_r.
Qed.
Lemma sub_after p c q : plain c p -> subString (p ++ c :: q) (index (p ++ c :: q) c + 1) (-1) = q.
Proof.
  intros H. rewrite index_at by exact H. unfold subString. rewrite app_length. cbn [List.length].
  destruct (Z.ltb_spec (Z.of_nat (List.length p) + 1) 0); [lia|].
  replace (p ++ c :: q) with ((p ++ [c]) ++ q) by (rewrite <- app_assoc; reflexivity).
  destruct (Z.leb_spec (Z.of_nat (List.length p + S (List.length q))) (Z.of_nat (List.length p) + 1)).
  - destruct q; [reflexivity|]. cbn [List.length] in *. lia.
  - cbn [Z.eqb orb]. replace (Z.to_nat (Z.of_nat (List.length p) + 1)) with (List.length (p ++ [c])) by (rewrite app_length; cbn; lia).
    rewrite skipn_app, skipn_all, Nat.sub_diag. reflexivity.
Qed.
Lemma split_plain p c : (forall x, In x p -> x <> c) -> split p c = [p].
Proof.
  induction p as [|x p IH]; intros H; cbn [split]; [reflexivity|].
  destruct (Z.eqb_spec x c) as [E|E]; [destruct (H x (or_introl eq_refl) E)|]. rewrite IH by (intros y Hy; apply H; now right). reflexivity.
Qed.
Lemma split_at p c q : (forall x, In x p -> x <> c) -> split (p ++ c :: q) c = p :: split q c.
Proof.
  induction p as [|x p IH]; intros H; cbn [split app].
  - now rewrite Z.eqb_refl.
  - destruct (Z.eqb_spec x c) as [E|E]; [destruct (H x (or_introl eq_refl) E)|]. rewrite IH by (intros y Hy; apply H; now right). reflexivity.
Qed.

(** ** Numerals *)
Lemma value_rev_fold s : value_rev (rev s) = fold_left (fun a c => 10 * a + (c - 48)) s 0.
Proof.
  induction s as [|c s IH] using rev_ind; [reflexivity|].
  rewrite rev_app_distr, fold_left_app. cbn [rev app value_rev fold_left]. rewrite IH. lia.
Qed.
Lemma value_rev_nonneg l : (forall c, In c l -> 48 <= c <= 57) -> 0 <= value_rev l.
Proof.
  induction l as [|c r IH]; intros H; cbn [value_rev]; [lia|]. specialize (H c (or_introl eq_refl)) as Hc.
  assert (0 <= value_rev r) by (apply IH; intros x Hx; apply H; now right). lia.
Qed.
Lemma value_nonneg s : numeral s -> 0 <= value s.
Proof.
  intros [_ H]. apply value_rev_nonneg. intros c Hc. apply H. now apply in_rev.
Qed.
Lemma digits_numeral s : numeral s -> digits s = Some (value s).
Proof.
  intros [Hne H]. unfold digits, value. rewrite value_rev_fold.
  assert (E : forallb is_digit s = true).
  { apply forallb_forall. intros c Hc. specialize (H c Hc). unfold is_digit. apply andb_true_iff. split; apply Z.leb_le; lia. }
  rewrite E. destruct s; [contradiction|reflexivity].
Qed.
Lemma atoi_numeral s : numeral s -> value s < 2 ^ 63 -> atoi s = Some (value s).
Proof.
  intros Hn Hv. pose proof (value_nonneg s Hn). pose proof (digits_numeral s Hn) as Hd. destruct Hn as [Hne H0]. destruct s as [|c r]; [contradiction|].
  specialize (H0 c (or_introl eq_refl)). unfold atoi. unfold dash, plus.
  destruct (Z.eqb_spec c 45); [lia|]. destruct (Z.eqb_spec c 43); [lia|]. rewrite Hd. unfold int64.
  destruct (Z.leb_spec (- 2 ^ 63) (value (c :: r))); [|lia]. destruct (Z.ltb_spec (value (c :: r)) (2 ^ 63)); [reflexivity|lia].
Qed.
Lemma numeral_plain s c : numeral s -> c < 48 -> plain c s.
Proof. intros [_ H] Hc x Hx. specialize (H x Hx). lia. Qed.
Lemma plain_neq s c : plain c s -> forall x, In x s -> x <> c.
Proof. intros H x Hx. now destruct (H x Hx). Qed.

(** ** Items *)
Lemma item_plain t i c : legal_item t i -> c < 48 -> c <> dash -> plain c (write_item i).
Proof.
  intros Hl Hc Hd. destruct i as [s|a b]; cbn in *.
  - apply numeral_plain; [apply Hl|exact Hc].
  - destruct Hl as [[Ha _] [Hb _]]. intros x Hx. apply in_app_or in Hx as [Hx|[<-|Hx]].
    + now apply (numeral_plain a c Ha Hc).
    + split; [intros <-; apply Hd; reflexivity|lia].
    + now apply (numeral_plain b c Hb Hc).
Qed.
Lemma split_items t l : l <> [] -> (forall i, In i l -> legal_item t i) -> split (write_items l) comma = map write_item l.
Proof.
  induction l as [|i l IH]; intros Hne Hl; [contradiction|]. assert (Hi := Hl i (or_introl eq_refl)).
  assert (Hp : forall x, In x (write_item i) -> x <> comma) by (apply plain_neq, (item_plain t); [exact Hi|unfold comma; lia|discriminate]).
  destruct l as [|j l].
  - cbn. now apply split_plain.
  - change (write_items (i :: j :: l)) with (write_item i ++ comma :: write_items (j :: l)).
    rewrite split_at by exact Hp. rewrite IH; [reflexivity|discriminate|]. intros k Hk. apply Hl. now right.
Qed.
Lemma item_nonempty t i : legal_item t i -> write_item i <> [].
Proof. destruct i as [s|a b]; cbn; [intros [[H _] _]; exact H|intros _]. destruct a; discriminate. Qed.

Lemma stepped_one a b v : stepped a b 1 v <-> a <= v <= b.
Proof. split; [intros (k & H1 & -> & H2); lia|intros H; exists (v - a); lia]. Qed.

Lemma item_ok t f i acc : 0 < f /\ f + vmax t < 2 ^ 63 -> legal_item t i ->
  exists l, parse_item 60 t f (write_item i) acc = Some l /\ forall v, In v l <-> In v acc \/ item_does t f i v.
Proof.
  intros Hf Hl. pose proof (item_nonempty t i Hl) as Hne. pose proof (bounds t) as Hb.
  destruct i as [s|a b]; cbn [write_item legal_item item_does] in *; unfold in_bounds in Hl; rewrite ?least_min, ?greatest_max in *.
  - destruct Hl as [Hn Hv]. unfold parse_item. destruct s as [|c r]; [contradiction|].
    rewrite contains_no by (apply plain_neq, numeral_plain; [exact Hn|unfold dash; lia]). cbn [negb].
    rewrite atoi_numeral by (auto; lia). eexists. split; [reflexivity|]. intros v. cbn. intuition.
  - destruct Hl as [[Ha Va] [Hb' Vb]]. unfold parse_item.
    change (a ++ [45] ++ b) with (a ++ dash :: b) in *. destruct (a ++ dash :: b) as [|c0 r0] eqn:E; [contradiction|]. rewrite <- E. clear E Hne.
    rewrite contains_app. replace (contains (dash :: b) dash) with true by reflexivity. rewrite orb_true_r. cbn [negb].
    assert (Hp : plain dash a) by (apply numeral_plain; [exact Ha|unfold dash; lia]).
    rewrite sub_before, sub_after by exact Hp. rewrite !atoi_numeral by (auto; lia).
    destruct (Z.ltb_spec (vmax t) (value b)); [lia|]. destruct (Z.ltb_spec (value b) (vmin t)); [lia|].
    destruct (Z.ltb_spec (value a) (vmin t)); [lia|]. destruct (Z.ltb_spec (vmax t) (value a)); [lia|]. cbn [orb].
    destruct (Z.leb_spec (value a) (value b)).
    + destruct (loop_ok (value b) f ltac:(lia) ltac:(lia) 60 (value a) acc ltac:(lia) ltac:(lia)) as (l & -> & HL). eauto.
    + destruct (loop_ok (vmax t) f ltac:(lia) ltac:(lia) 60 (value a) acc ltac:(lia) ltac:(lia)) as (l & -> & HL).
      destruct (loop_ok (value b) f ltac:(lia) ltac:(lia) 60 (vmin t) l ltac:(lia) ltac:(lia)) as (l' & -> & HL').
      exists l'. split; [reflexivity|]. intros v. rewrite HL', HL. tauto.
Qed.
Lemma items_ok t f : 0 < f /\ f + vmax t < 2 ^ 63 -> forall l acc, (forall i, In i l -> legal_item t i) ->
  exists r, parse_items 60 t f (map write_item l) acc = Some r /\
    forall v, In v r <-> In v acc \/ exists i, In i l /\ item_does t f i v.
Proof.
  intros Hf. induction l as [|i l IH]; intros acc Hl; cbn [map parse_items].
  - exists acc. split; [reflexivity|]. intros v. split; [auto|]. intros [H|(i & [] & _)]. exact H.
  - destruct (item_ok t f i acc Hf (Hl i (or_introl eq_refl))) as (r & -> & Hr).
    destruct (IH r (fun j Hj => Hl j (or_intror Hj))) as (r' & -> & Hr'). exists r'. split; [reflexivity|].
    intros v. rewrite Hr', Hr. split.
    + intros [[H|H]|(j & Hj & H)]; [auto|right; exists i; split; [now left|exact H]|right; exists j; split; [now right|exact H]].
    + intros [H|(j & [<-|Hj] & H)]; [auto|auto|right; exists j; auto].
Qed.

Lemma step_pos t e : legal t e -> 0 < step_of e /\ step_of e + vmax t < 2 ^ 63.
Proof. intros [_ H]. unfold step_of. rewrite <- greatest_max. destruct (e_step e); [apply H|destruct t; cbn; lia]. Qed.
Definition write_body (b : body) : gostring := match b with Star => [star] | Items l => write_items l end.
Lemma body_plain t b c : match b with Star => True | Items l => l <> [] /\ forall i, In i l -> legal_item t i end -> c < 48 -> c <> dash -> c <> comma -> c <> star ->
  plain c (write_body b).
Proof.
  intros H H1 H2 H3 H4. destruct b as [|l]; cbn.
  - intros x [<-|[]]. split; [congruence|unfold star; lia].
  - destruct H as [_ H]. induction l as [|i l IH]; cbn; [intros x []|].
    assert (Hi : plain c (write_item i)) by (apply (item_plain t); auto; apply H; now left).
    destruct l as [|j l]; [exact Hi|]. intros x Hx. apply in_app_or in Hx as [Hx|Hx]; [now apply Hi|].
    destruct Hx as [<-|Hx]; [split; [intros <-; apply H3; reflexivity|lia]|]. apply IH; [|exact Hx]. intros k Hk. apply H. now right.
Qed.
Lemma write_not_star l t : l <> [] -> (forall i, In i l -> legal_item t i) -> write_items l <> [star].
Proof.
  intros Hne Hl E. destruct l as [|i l]; [contradiction|]. specialize (Hl i (or_introl eq_refl)).
  assert (Hs : forall s r, numeral s -> s ++ r = [star] -> False).
  { intros s r [Hn Hd] Es. destruct s as [|c s]; [contradiction|]. injection Es as -> _. specialize (Hd star (or_introl eq_refl)). unfold star in Hd. lia. }
  destruct i as [s|a b]; destruct l as [|j l]; cbn in E.
  - destruct Hl as [Hn _]. apply (Hs s [] Hn). now rewrite app_nil_r.
  - destruct Hl as [Hn _]. exact (Hs s _ Hn E).
  - destruct Hl as [[Hn _] _]. exact (Hs a _ Hn E).
  - destruct Hl as [[Hn _] _]. rewrite <- app_assoc in E. exact (Hs a _ Hn E).
Qed.
Lemma sunday_ok t l (P : Z -> Prop) : (forall v, In v l <-> P v) ->
  forall v, In v (sunday t l) <-> match t with Weekday => (v <> 7 /\ P v) \/ (v = 0 /\ P 7) | _ => P v end.
Proof.
  intros H v. destruct t; cbn [sunday]; try apply H.
  destruct (existsb (Z.eqb 7) l) eqn:E.
  - apply existsb_exists in E as (x & Hx & Ex). apply Z.eqb_eq in Ex. subst x. apply H in Hx.
    cbn [In]. rewrite filter_In, H. split.
    + intros [<-|[Hv Hn]]; [right; auto|left]. split; [|exact Hv]. apply negb_true_iff, Z.eqb_neq in Hn. exact Hn.
    + intros [[Hn Hv]|[-> _]]; [|now left]. right. split; [exact Hv|]. apply negb_true_iff, Z.eqb_neq. exact Hn.
  - assert (H7 : ~ P 7).
    { intros X. apply H in X. assert (existsb (Z.eqb 7) l = true); [|congruence]. apply existsb_exists. exists 7. auto. }
    rewrite H. split; [|tauto]. intros Hv. left. split; [|exact Hv]. intros ->. contradiction.
Qed.
Lemma with_ok t e : legal t e -> exists l, parse_with 60 (write_body (e_body e)) t (step_of e) = Some l /\ forall v, In v l <-> does t e v.
Proof.
  intros Hl. pose proof (step_pos t e Hl) as Hf. destruct Hl as [Hb _]. pose proof (bounds t). unfold parse_with.
  assert (G : exists l, (match write_body (e_body e) with
         | [c] => if c =? star then loop 60 (vmin t) (vmax t) (step_of e) [] else parse_items 60 t (step_of e) (split (write_body (e_body e)) comma) []
         | _ => parse_items 60 t (step_of e) (split (write_body (e_body e)) comma) [] end) = Some l /\ forall v, In v l <-> body_does t e v).
  { unfold body_does. change (least t) with (vmin t); change (greatest t) with (vmax t). destruct (e_body e) as [|l] eqn:Eb.
    - cbn [write_body]. rewrite Z.eqb_refl. destruct (loop_ok (vmax t) (step_of e) ltac:(lia) ltac:(lia) 60 (vmin t) [] ltac:(lia) ltac:(lia)) as (l & -> & HL).
      exists l. split; [reflexivity|]. intros v. rewrite HL. cbn. tauto.
    - destruct Hb as [Hne Hi]. cbn [write_body]. destruct (items_ok t (step_of e) Hf l [] Hi) as (r & Hr & HR). rewrite <- (split_items t l Hne Hi) in Hr.
      exists r. split; [|intros v; rewrite HR; cbn; tauto].
      pose proof (write_not_star l t Hne Hi) as Hns. destruct (write_items l) as [|c [|d w]] eqn:Ew; try exact Hr.
      destruct (Z.eqb_spec c star) as [->|]; [contradiction|]. exact Hr. }
  destruct G as (l & -> & HL). eexists. split; [reflexivity|]. intros v. rewrite (sunday_ok t l _ HL v). destruct t; reflexivity.
Qed.
Lemma parse_ok t e : legal t e -> exists l, parseExpress 60 (write e) t = Some (Some l) /\ forall v, In v l <-> does t e v.
Proof.
  intros Hl. destruct (with_ok t e Hl) as (l & Hw & HL). exists l. split; [|exact HL].
  unfold parseExpress, write. pose proof (proj1 Hl) as Hb.
  assert (Hp : plain slash (write_body (e_body e))) by (apply (body_plain t); [exact Hb|unfold slash; lia|discriminate|discriminate|discriminate]).
  change (match e_body e with Star => [42] | Items l0 => write_items l0 end) with (write_body (e_body e)).
  destruct (e_step e) as [s|] eqn:Es.
  - change ([47] ++ s) with (slash :: s).
    rewrite contains_app. replace (contains (slash :: s) slash) with true by reflexivity. rewrite orb_true_r.
    rewrite sub_before, sub_after by exact Hp. pose proof (step_pos t e Hl) as Hf. unfold step_of in Hf, Hw. rewrite Es in Hf, Hw.
    destruct Hl as [_ Hs]. rewrite Es in Hs. pose proof (bounds t). rewrite atoi_numeral by (try apply Hs; lia). now rewrite Hw.
  - rewrite app_nil_r, contains_no by (apply plain_neq; exact Hp). unfold step_of in Hw. rewrite Es in Hw. now rewrite Hw.
Qed.
Lemma does_means t e : legal t e -> no_stepped_wrap e -> forall v, does t e v <-> means t e v.
Proof.
  intros [Hl _] H.
  assert (G : forall v, body_does t e v <-> body_means t e v).
  { intros v. unfold body_does, body_means, no_stepped_wrap in *. destruct (e_body e) as [|l]; [tauto|].
    assert (Hi : forall i, In i l -> item_does t (step_of e) i v <-> item_means t (step_of e) i v).
    { intros [s|a b] Hin; cbn; [tauto|]. destruct (Z.leb_spec (value a) (value b)); [tauto|].
      destruct H as [H|H]; [|specialize (H a b Hin); lia]. rewrite H, !stepped_one. pose proof (bounds t). destruct Hl as [_ Hl]. destruct (Hl _ Hin) as [[_ Ba] [_ Bb]]. rewrite ?least_min, ?greatest_max in *. split; (intros [X|X]; [left; exact X|right; lia]). }
    split; intros (i & Hin & Hv); exists i; (split; [exact Hin|]); now apply Hi. }
  intros v. unfold does, means. destruct t; rewrite ?G; tauto.
Qed.
Lemma match_iff l t x : IsMatch l t x = true <-> In (component t x) l.
Proof.
  unfold IsMatch. rewrite existsb_exists. split; [intros (y & Hy & E); apply Z.eqb_eq in E; now subst|intros H; exists (component t x); split; [exact H|apply Z.eqb_refl]].
Qed.
Lemma part_component t x : part t x = component t x.
Proof. destruct t; reflexivity. Qed.
