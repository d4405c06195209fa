(** Invariant of the futures machine. *)
From Coq Require Import List Arith Bool Lia.
From Verif Require Import Machine FutureModel FutureSpec.
Import ListNotations.

Section P.
Context {W : Type}.
Implicit Types evs : list (event W).

(** ** Event lists *)
Lemma winner_app f a b : winner (W:=W) f (a ++ b) =
  match winner f a with Some w => Some w | None => winner f b end.
Proof. induction a as [|[] a IH]; cbn; auto. destruct (f =? f0); auto. Qed.
Lemma starts_app k a b : starts (W:=W) k (a ++ b) = starts k a + starts k b.
Proof. induction a as [|[] a IH]; cbn; auto. rewrite IH. lia. Qed.
Lemma winner_in f w evs : winner f evs = Some w -> In (EComplete f w) evs.
Proof.
  induction evs as [|[] r IH]; cbn; intros H; try discriminate; auto.
  destruct (Nat.eqb_spec f f0); [injection H as ->; subst; auto|auto].
Qed.
Lemma in_winner f w evs : In (EComplete f w) evs -> winner f evs <> None.
Proof.
  induction evs as [|[] r IH]; cbn; intros H; try tauto;
    try (destruct H as [H|H]; [discriminate|auto]).
  destruct (Nat.eqb_spec f f0); [discriminate|]. destruct H as [H|H]; [congruence|auto].
Qed.

Definition is_then (e : event W) : bool := match e with EThen _ _ _ => true | _ => false end.

Lemma split_snoc {A} (l : list A) x y a b : l ++ [x] = a ++ y :: b ->
  (b = [] /\ l = a /\ x = y) \/ exists b', b = b' ++ [x] /\ l = a ++ y :: b'.
Proof.
  intros H. destruct b as [|z b0] using rev_ind.
  - left. change (a ++ [y]) with (a ++ [y]) in H. apply app_inj_tail in H as [-> ->]. auto.
  - right. clear IHb0. exists b0. rewrite app_comm_cons, app_assoc in H.
    apply app_inj_tail in H as [-> ->]. auto.
Qed.

Lemma pend_snoc evs e f k c : then_while_pending (evs ++ [e]) f k c <->
  then_while_pending evs f k c \/ (e = EThen f k c /\ winner f evs = None).
Proof.
  split.
  - intros (a & b & H & Hw). apply split_snoc in H as [(-> & -> & ->)|(b' & -> & ->)].
    + right. auto.
    + left. exists a, b'. auto.
  - intros [(a & b & -> & Hw)|[-> Hw]].
    + exists a, (b ++ [e]). rewrite <- app_assoc. auto.
    + exists evs, []. auto.
Qed.
Lemma after_snoc evs e f k c : then_after_completion (evs ++ [e]) f k c <->
  then_after_completion evs f k c \/ (e = EThen f k c /\ winner f evs <> None).
Proof.
  split.
  - intros (a & b & H & Hw). apply split_snoc in H as [(-> & -> & ->)|(b' & -> & ->)].
    + right. auto.
    + left. exists a, b'. auto.
  - intros [(a & b & -> & Hw)|[-> Hw]].
    + exists a, (b ++ [e]). rewrite <- app_assoc. auto.
    + exists evs, []. auto.
Qed.
Lemma pend_in evs f k c : then_while_pending evs f k c -> In (EThen f k c) evs.
Proof. intros (a & b & -> & _). apply in_or_app. right. now left. Qed.
Lemma after_in evs f k c : then_after_completion evs f k c -> In (EThen f k c) evs.
Proof. intros (a & b & -> & _). apply in_or_app. right. now left. Qed.
Lemma in_pend_or_after evs f k c : In (EThen f k c) evs ->
  then_while_pending evs f k c \/ then_after_completion evs f k c.
Proof.
  intros H. apply in_split in H as (a & b & ->). destruct (winner f a) eqn:E.
  - right. exists a, b. split; congruence.
  - left. exists a, b. split; congruence.
Qed.

(** ** Counting *)
Fixpoint cnt (k : nat) (l : list nat) : nat :=
  match l with [] => 0 | j :: r => (if k =? j then 1 else 0) + cnt k r end.
Lemma cnt_app k a b : cnt k (a ++ b) = cnt k a + cnt k b.
Proof. induction a; cbn; lia. Qed.
Lemma cnt_in k l : 0 < cnt k l <-> In k l.
Proof.
  induction l as [|j r IH]; cbn; [lia|]. destruct (Nat.eqb_spec k j); [subst; split; [auto|lia]|].
  rewrite <- IH. split; [intros; right; lia|intros [?|?]; [congruence|lia]].
Qed.
Definition waiting (fu : future W) : list nat := map fst (callbacks fu).
Fixpoint cw (k : nat) (l : list (future W)) : nat :=
  match l with [] => 0 | fu :: r => cnt k (waiting fu) + cw k r end.
Lemma cw_app k a b : cw k (a ++ b) = cw k a + cw k b.
Proof. induction a; cbn; lia. Qed.
Lemma cw_upd k l f fu x : nth_error l f = Some fu ->
  cw k (upd l f x) + cnt k (waiting fu) = cw k l + cnt k (waiting x).
Proof.
  revert f; induction l as [|a l IH]; intros [|f] H; cbn in *; try discriminate.
  - injection H as ->. lia.
  - specialize (IH _ H). lia.
Qed.
Lemma cw_in k l f fu : nth_error l f = Some fu -> cnt k (waiting fu) <= cw k l.
Proof.
  revert f; induction l as [|a l IH]; intros [|f] H; cbn in *; try discriminate.
  - injection H as ->. lia.
  - specialize (IH _ H). lia.
Qed.
Definition ct (k : nat) (l : list (task W)) : nat := cnt k (map tcb l).
Definition started (ta : task W) : bool := match tst ta with Spawned => false | _ => true end.
Fixpoint cs (k : nat) (l : list (task W)) : nat :=
  match l with [] => 0 | ta :: r => (if (k =? tcb ta) && started ta then 1 else 0) + cs k r end.
Lemma ct_app k a b : ct k (a ++ b) = ct k a + ct k b.
Proof. unfold ct. rewrite map_app. apply cnt_app. Qed.
Lemma cs_app k a b : cs k (a ++ b) = cs k a + cs k b.
Proof. induction a; cbn [app cs]; lia. Qed.
Lemma ct_upd k l t ta x : nth_error l t = Some ta -> tcb x = tcb ta -> ct k (upd l t x) = ct k l.
Proof.
  unfold ct. revert t; induction l as [|a l IH]; intros [|t] H Hx; cbn in *; try discriminate.
  - injection H as ->. now rewrite Hx.
  - now rewrite (IH _ H Hx).
Qed.
Lemma cs_upd k l t ta x : nth_error l t = Some ta -> tcb x = tcb ta ->
  cs k (upd l t x) + (if (k =? tcb ta) && started ta then 1 else 0) =
  cs k l + (if (k =? tcb ta) && started x then 1 else 0).
Proof.
  revert t; induction l as [|a l IH]; intros [|t] H Hx; cbn [upd nth_error cs] in *; try discriminate.
  - injection H as ->. rewrite Hx. lia.
  - specialize (IH _ H Hx). lia.
Qed.
Lemma cs_le_ct k l : cs k l <= ct k l.
Proof.
  unfold ct. induction l as [|a l IH]; cbn [cs map cnt]; [lia|].
  destruct (k =? tcb a); destruct (started a); cbn [andb]; lia.
Qed.
Lemma ct_nth k l : 0 < ct k l -> exists t ta, nth_error l t = Some ta /\ tcb ta = k.
Proof.
  unfold ct. intros H. apply cnt_in in H. apply in_map_iff in H as (ta & E & Hi).
  apply In_nth_error in Hi as [t Ht]. eauto.
Qed.
Lemma ct_pos k l t ta : nth_error l t = Some ta -> tcb ta = k -> 0 < ct k l.
Proof. intros H <-. unfold ct. apply cnt_in, in_map. eapply nth_error_In; eauto. Qed.
Lemma ct_unique k l t t' ta ta' : ct k l <= 1 -> nth_error l t = Some ta -> tcb ta = k ->
  nth_error l t' = Some ta' -> tcb ta' = k -> t = t'.
Proof.
  unfold ct. revert t t'. induction l as [|a l IH]; intros [|t] [|t'] Hc H E H' E'; cbn in *; try discriminate; auto.
  - injection H as ->. rewrite E, Nat.eqb_refl in Hc.
    pose proof (ct_pos _ _ _ _ H' E'). unfold ct in *. lia.
  - injection H' as ->. rewrite E', Nat.eqb_refl in Hc.
    pose proof (ct_pos _ _ _ _ H E). unfold ct in *. lia.
  - f_equal. eapply IH; eauto. lia.
Qed.

(** ** The core invariant *)
Record Core evs (s : state W) : Prop := {
  v_fut : forall f fu, nth_error (futures s) f = Some fu ->
    result fu = winner f evs /\ (result fu <> None -> callbacks fu = []);
  v_out : forall f, length (futures s) <= f -> winner f evs = None;
  v_cb : forall f fu k c, nth_error (futures s) f = Some fu -> In (k, c) (callbacks fu) ->
    then_while_pending evs f k c;
  v_task : forall ta, In ta (tasks s) -> exists f c, winner f evs = Some (targ ta) /\
    ((tchild ta = Some c /\ then_while_pending evs f (tcb ta) c) \/
     (tchild ta = None /\ then_after_completion evs f (tcb ta) c));
  v_then : forall f k c, In (EThen f k c) evs -> f < c /\ k < ncb s /\ c < length (futures s);
  v_uniq : forall f k c f' k' c', In (EThen f k c) evs -> In (EThen f' k' c') evs ->
    (k = k' \/ c = c') -> f = f' /\ k = k' /\ c = c';
  v_excl : forall f k c, then_while_pending evs f k c -> then_after_completion evs f k c -> False;
  v_count : forall k, cw k (futures s) + ct k (tasks s) = if k <? ncb s then 1 else 0;
  v_start : forall k, starts k evs = cs k (tasks s) }.

Lemma core_init : Core [] init.
Proof.
  constructor; auto.
  - intros [] fu H; discriminate H.
  - intros [] fu k c H; discriminate H.
  - intros ta [].
  - intros f k c [].
  - intros f k c f' k' c' [].
  - intros f k c (a & b & H & _) _. destruct a; discriminate H.
Qed.

Definition neutral (e : event W) : Prop :=
  match e with EReturn _ | EFinish _ => True | _ => False end.
Lemma core_neutral evs e s : neutral e -> Core evs s -> Core (evs ++ [e]) s.
Proof.
  intros Hn [A B C D E F G H I].
  assert (Hw : forall f, winner f (evs ++ [e]) = winner f evs)
    by (intros f; rewrite winner_app; destruct (winner f evs); auto; destruct e; cbn in *; tauto).
  assert (Hi : forall f k c, In (EThen f k c) (evs ++ [e]) -> In (EThen f k c) evs).
  { intros f k c Hi. apply in_app_or in Hi as [|[->|[]]]; auto. contradiction. }
  assert (Hp : forall f k c, then_while_pending (evs ++ [e]) f k c <-> then_while_pending evs f k c).
  { intros. rewrite pend_snoc. split; [|auto]. intros [|[-> _]]; auto. contradiction. }
  assert (Ha : forall f k c, then_after_completion (evs ++ [e]) f k c <-> then_after_completion evs f k c).
  { intros. rewrite after_snoc. split; [|auto]. intros [|[-> _]]; auto. contradiction. }
  constructor.
  - intros. rewrite Hw. auto.
  - intros. rewrite Hw. auto.
  - intros. apply Hp. eauto.
  - intros ta Hta. destruct (D _ Hta) as (f & c & H1 & H2). exists f, c. rewrite Hw, Hp, Ha. auto.
  - auto.
  - intros. eapply F; eauto.
  - intros f k c. rewrite Hp, Ha. apply G.
  - auto.
  - intros k. rewrite starts_app, I. destruct e; cbn in *; try tauto; lia.
Qed.

Lemma nth_upd_cases {A} (l : list A) i x y j z : nth_error l i = Some y ->
  nth_error (upd l i x) j = Some z -> (i = j /\ z = x) \/ (i <> j /\ nth_error l j = Some z).
Proof.
  intros H Hz. assert (i < length l) by (apply nth_error_Some; congruence).
  rewrite nth_upd in Hz by assumption. destruct (Nat.eqb_spec i j); [left|right]; split; auto. congruence.
Qed.

Lemma core_complete evs s f w s' : Core evs s -> complete s f w = Some s' ->
  Core (evs ++ [EComplete f w]) s'.
Proof.
  intros [A B C D E F G H I] Hc. unfold complete in Hc.
  destruct (nth_error (futures s) f) as [fu|] eqn:Ef; [|discriminate].
  assert (Hp : forall g k c, then_while_pending (evs ++ [EComplete f w]) g k c <-> then_while_pending evs g k c).
  { intros. rewrite pend_snoc. split; [|auto]. intros [|[Hx _]]; auto. discriminate. }
  assert (Ha : forall g k c, then_after_completion (evs ++ [EComplete f w]) g k c <-> then_after_completion evs g k c).
  { intros. rewrite after_snoc. split; [|auto]. intros [|[Hx _]]; auto. discriminate. }
  assert (Hi : forall g k c, In (EThen g k c) (evs ++ [EComplete f w]) -> In (EThen g k c) evs).
  { intros g k c Hi. apply in_app_or in Hi as [|[Hx|[]]]; auto. discriminate. }
  assert (Hkeep : forall g v, winner g evs = Some v -> winner g (evs ++ [EComplete f w]) = Some v)
    by (intros g v Hv; rewrite winner_app, Hv; reflexivity).
  assert (Hlen : f < length (futures s)) by (apply nth_error_Some; congruence).
  destruct (A _ _ Ef) as [A1 A2]. unfold IsCompleted in Hc.
  destruct (result fu) as [r|] eqn:Er.
  - injection Hc as <-.
    assert (Hw : forall g, winner g (evs ++ [EComplete f w]) = winner g evs).
    { intros g. rewrite winner_app. destruct (winner g evs) eqn:Eg; auto. cbn.
      destruct (Nat.eqb_spec g f); [subst; congruence|auto]. }
    constructor.
    + intros. rewrite Hw. auto.
    + intros. rewrite Hw. auto.
    + intros. apply Hp. eauto.
    + intros ta Hta. destruct (D _ Hta) as (g & c & H1 & H2). exists g, c. rewrite Hw, Hp, Ha. auto.
    + auto.
    + intros. eapply F; eauto.
    + intros g k c. rewrite Hp, Ha. apply G.
    + auto.
    + intros k. rewrite starts_app, I. cbn. lia.
  - injection Hc as <-.
    assert (Hww : winner f (evs ++ [EComplete f w]) = Some w).
    { rewrite winner_app, <- A1. cbn. now rewrite Nat.eqb_refl. }
    assert (Hwo : forall g, g <> f -> winner g (evs ++ [EComplete f w]) = winner g evs).
    { intros g Hg. rewrite winner_app. destruct (winner g evs) eqn:Eg; auto. cbn.
      destruct (Nat.eqb_spec g f); [congruence|auto]. }
    constructor; cbn [futures ncb tasks]; rewrite ?upd_length.
    + intros g gu Hg. destruct (nth_upd_cases _ _ _ _ _ _ Ef Hg) as [[<- ->]|[Hne Hg']].
      * cbn. auto.
      * rewrite Hwo by auto. auto.
    + intros g Hg. rewrite Hwo by lia. auto.
    + intros g gu k c Hg Hin. apply Hp. destruct (nth_upd_cases _ _ _ _ _ _ Ef Hg) as [[<- ->]|[Hne Hg']].
      * contradiction.
      * eauto.
    + intros ta Hta. apply in_app_or in Hta as [Hta|Hta].
      * destruct (D _ Hta) as (g & c & H1 & H2). exists g, c. rewrite Hp, Ha. split; auto.
      * apply in_map_iff in Hta as ([k c] & <- & Hkc). exists f, c. cbn. split; auto. left.
        split; auto. apply Hp. eauto.
    + intros. eapply E; eauto.
    + intros. eapply F; eauto.
    + intros g k c. rewrite Hp, Ha. apply G.
    + intros k. rewrite ct_app. rewrite <- (H k).
      pose proof (cw_upd k _ _ _ (mkFuture (Some w) []) Ef) as Hu. cbn in Hu.
      assert (Hm : ct k (map (fun kc : nat * nat => mkTask (fst kc) w (Some (snd kc)) Spawned) (callbacks fu)) =
        cnt k (waiting fu)) by (unfold ct, waiting; now rewrite map_map).
      rewrite Hm. lia.
    + intros k. rewrite starts_app, cs_app, I. cbn.
      assert (Hz : forall l, cs k (map (fun kc => mkTask (fst kc) w (Some (snd kc)) Spawned) l) = 0)
        by (induction l; cbn; rewrite ?andb_false_r; auto).
      rewrite Hz. lia.
Qed.

Lemma core_stage evs s t ta st :
  Core evs s -> nth_error (tasks s) t = Some ta -> tst ta <> Spawned -> st <> Spawned ->
  Core evs (mkState (futures s) (ncb s) (upd (tasks s) t (mkTask (tcb ta) (targ ta) (tchild ta) st))).
Proof.
  intros [A B C D E F G H I] Ht Hs1 Hs2. constructor; cbn [futures ncb tasks]; auto.
  - intros x Hx. apply in_upd in Hx as [->|Hx]; [|auto]. cbn.
    exact (D ta (nth_error_In _ _ Ht)).
  - intros k. rewrite (ct_upd k _ _ _ (mkTask (tcb ta) (targ ta) (tchild ta) st) Ht eq_refl). apply H.
  - intros k. rewrite I.
    pose proof (cs_upd k _ _ _ (mkTask (tcb ta) (targ ta) (tchild ta) st) Ht eq_refl) as Hu.
    assert (started ta = true) by (unfold started; destruct (tst ta); congruence).
    assert (started (mkTask (tcb ta) (targ ta) (tchild ta) st) = true) by (unfold started; cbn; destruct st; congruence).
    rewrite H0, H1 in Hu. lia.
Qed.

Lemma core_step evs s l s' e : Core evs s -> step s l = Some (s', e) -> Core (evs ++ e) s'.
Proof.
  intros HC H. pose proof HC as [A B C D E F G Hcount I].
  destruct l as [|f|f w|t|t|t]; cbn [step] in H.
  - (* LNew *)
    injection H as <- <-. rewrite app_nil_r. constructor; cbn [futures ncb tasks]; auto.
    + intros f fu Hf. destruct (Nat.lt_ge_cases f (length (futures s))).
      * rewrite nth_error_app1 in Hf by assumption. auto.
      * rewrite nth_error_app2 in Hf by assumption.
        destruct (f - length (futures s)) as [|[]]; try discriminate. injection Hf as <-. cbn.
        split; auto. symmetry. auto.
    + intros f Hf. apply B. rewrite app_length in Hf. cbn in Hf. lia.
    + intros f fu k c Hf Hin. destruct (Nat.lt_ge_cases f (length (futures s))).
      * rewrite nth_error_app1 in Hf by assumption. eauto.
      * rewrite nth_error_app2 in Hf by assumption.
        destruct (f - length (futures s)) as [|[]]; try discriminate. injection Hf as <-. contradiction.
    + intros f k c Hi. rewrite app_length. cbn. specialize (E _ _ _ Hi). lia.
    + intros k. rewrite cw_app, <- Hcount. cbn. lia.
  - (* LThen *)
    destruct (nth_error (futures s) f) as [fu|] eqn:Ef; [|discriminate].
    assert (Hlen : f < length (futures s)) by (apply nth_error_Some; congruence).
    destruct (A _ _ Ef) as [A1 A2].
    set (k0 := ncb s) in *. set (c0 := length (futures s)) in *.
    assert (Hw : forall g, winner g (evs ++ [EThen f k0 c0]) = winner g evs)
      by (intros g; rewrite winner_app; destruct (winner g evs); auto).
    assert (Hst : forall k, starts k (evs ++ [EThen f k0 c0]) = starts k evs)
      by (intros k; rewrite starts_app; cbn; lia).
    assert (Hin : forall g k c, In (EThen g k c) (evs ++ [EThen f k0 c0]) ->
              In (EThen g k c) evs \/ (g = f /\ k = k0 /\ c = c0)).
    { intros g k c Hi. apply in_app_or in Hi as [|[Hx|[]]]; auto. injection Hx as -> -> ->. auto. }
    assert (Huniq : forall g k c g' k' c', In (EThen g k c) (evs ++ [EThen f k0 c0]) ->
      In (EThen g' k' c') (evs ++ [EThen f k0 c0]) -> (k = k' \/ c = c') -> g = g' /\ k = k' /\ c = c').
    { intros g k c g' k' c' H1 H2 Hor.
      destruct (Hin _ _ _ H1) as [H1'|(->&->&->)], (Hin _ _ _ H2) as [H2'|(->&->&->)].
      - eapply F; eauto.
      - destruct (E _ _ _ H1') as (?&?&?). lia.
      - destruct (E _ _ _ H2') as (?&?&?). lia.
      - auto. }
    assert (Hexcl : forall g k c, then_while_pending (evs ++ [EThen f k0 c0]) g k c ->
              then_after_completion (evs ++ [EThen f k0 c0]) g k c -> False).
    { intros g k c. rewrite pend_snoc, after_snoc. intros [P|[P Pw]] [Q|[Q Qw]].
      - eauto.
      - injection Q as -> -> ->. apply pend_in in P. destruct (E _ _ _ P) as (?&?&?). lia.
      - injection P as -> -> ->. apply after_in in Q. destruct (E _ _ _ Q) as (?&?&?). lia.
      - congruence. }
    assert (Hthen : forall g k c, In (EThen g k c) (evs ++ [EThen f k0 c0]) ->
      g < c /\ k < S k0 /\ c < c0 + 1).
    { intros g k c Hi. destruct (Hin _ _ _ Hi) as [Hi'|(->&->&->)]; [|lia].
      destruct (E _ _ _ Hi') as (?&?&?). lia. }
    assert (Htask : forall ta, In ta (tasks s) -> exists g c, winner g (evs ++ [EThen f k0 c0]) = Some (targ ta) /\
      ((tchild ta = Some c /\ then_while_pending (evs ++ [EThen f k0 c0]) g (tcb ta) c) \/
       (tchild ta = None /\ then_after_completion (evs ++ [EThen f k0 c0]) g (tcb ta) c))).
    { intros ta Hta. destruct (D _ Hta) as (g & c & H1 & H2). exists g, c.
      rewrite Hw, pend_snoc, after_snoc. intuition. }
    destruct (result fu) as [r|] eqn:Er; injection H as <- <-.
    + constructor; cbn [futures ncb tasks]; rewrite ?app_length; cbn [length]; auto.
      * intros g gu Hg. rewrite Hw. destruct (Nat.lt_ge_cases g (length (futures s))).
        -- rewrite nth_error_app1 in Hg by assumption. auto.
        -- rewrite nth_error_app2 in Hg by assumption.
           destruct (g - length (futures s)) as [|[]]; try discriminate. injection Hg as <-. cbn.
           split; auto. symmetry. auto.
      * intros g Hg. rewrite Hw. apply B. unfold c0 in *. lia.
      * intros g gu k c Hg Hi. rewrite pend_snoc. left. destruct (Nat.lt_ge_cases g (length (futures s))).
        -- rewrite nth_error_app1 in Hg by assumption. eauto.
        -- rewrite nth_error_app2 in Hg by assumption.
           destruct (g - length (futures s)) as [|[]]; try discriminate. injection Hg as <-. contradiction.
      * intros ta Hta. apply in_app_or in Hta as [Hta|[<-|[]]]; [auto|].
        exists f, c0. cbn. rewrite Hw. split; [auto|]. right. split; auto.
        rewrite after_snoc. right. split; auto. congruence.
      * intros k. rewrite cw_app, ct_app. cbn [cw waiting callbacks map cnt]. change (ct k [mkTask k0 r None Spawned]) with ((if k =? k0 then 1 else 0) + 0). specialize (Hcount k).
        destruct (Nat.eqb_spec k k0), (Nat.ltb_spec k k0), (Nat.ltb_spec k (S k0)); lia.
      * intros k. rewrite Hst, cs_app. cbn. rewrite andb_false_r, I. lia.
    + constructor; cbn [futures ncb tasks]; rewrite ?app_length, ?upd_length; cbn [length]; auto.
      * intros g gu Hg. rewrite Hw. destruct (Nat.lt_ge_cases g (length (futures s))).
        -- rewrite nth_error_app1 in Hg by (rewrite upd_length; assumption).
           destruct (nth_upd_cases _ _ _ _ _ _ Ef Hg) as [[<- ->]|[Hne Hg']]; [|auto]. cbn. split; congruence.
        -- rewrite nth_error_app2 in Hg by (rewrite upd_length; assumption). rewrite upd_length in Hg.
           destruct (g - length (futures s)) as [|[]]; try discriminate. injection Hg as <-. cbn.
           split; auto. symmetry. auto.
      * intros g Hg. rewrite Hw. apply B. unfold c0 in *. lia.
      * intros g gu k c Hg Hi. rewrite pend_snoc. destruct (Nat.lt_ge_cases g (length (futures s))).
        -- rewrite nth_error_app1 in Hg by (rewrite upd_length; assumption).
           destruct (nth_upd_cases _ _ _ _ _ _ Ef Hg) as [[<- ->]|[Hne Hg']]; [|left; eauto].
           cbn in Hi. apply in_app_or in Hi as [Hi|[Hi|[]]]; [left; eauto|].
           injection Hi as <- <-. right. split; congruence.
        -- rewrite nth_error_app2 in Hg by (rewrite upd_length; assumption). rewrite upd_length in Hg.
           destruct (g - length (futures s)) as [|[]]; try discriminate. injection Hg as <-. contradiction.
      * intros k. rewrite cw_app. cbn [cw waiting callbacks map cnt].
        pose proof (cw_upd k _ _ _ (mkFuture None (callbacks fu ++ [(k0, c0)])) Ef) as Hu.
        unfold waiting in Hu. cbn in Hu. rewrite map_app, cnt_app in Hu. cbn in Hu. specialize (Hcount k).
        destruct (Nat.eqb_spec k k0), (Nat.ltb_spec k k0), (Nat.ltb_spec k (S k0)); lia.
      * intros k. now rewrite Hst.
  - (* LComplete *)
    destruct (complete s f w) as [s1|] eqn:Ec; [|discriminate]. injection H as <- <-.
    eapply core_complete; eauto.
  - (* LStart *)
    destruct (nth_error (tasks s) t) as [ta|] eqn:Et; [|discriminate].
    destruct (tst ta) eqn:Es; try discriminate. injection H as <- <-.
    set (e := EStart (tcb ta) (targ ta)) in *.
    assert (Hw : forall g, winner g (evs ++ [e]) = winner g evs)
      by (intros g; rewrite winner_app; destruct (winner g evs); auto).
    assert (Hp : forall g k c, then_while_pending (evs ++ [e]) g k c <-> then_while_pending evs g k c).
    { intros. rewrite pend_snoc. split; [|auto]. intros [|[Hx _]]; auto. discriminate. }
    assert (Ha : forall g k c, then_after_completion (evs ++ [e]) g k c <-> then_after_completion evs g k c).
    { intros. rewrite after_snoc. split; [|auto]. intros [|[Hx _]]; auto. discriminate. }
    assert (Hi : forall g k c, In (EThen g k c) (evs ++ [e]) -> In (EThen g k c) evs).
    { intros g k c Hi. apply in_app_or in Hi as [|[Hx|[]]]; auto. discriminate. }
    constructor; cbn [futures ncb tasks].
    + intros. rewrite Hw. auto.
    + intros. rewrite Hw. auto.
    + intros. apply Hp. eauto.
    + intros x Hx.
      assert (Hx' : exists y, In y (tasks s) /\ tcb y = tcb x /\ targ y = targ x /\ tchild y = tchild x).
      { apply in_upd in Hx as [->|Hx]; [|eauto]. exists ta. cbn. split; auto. eapply nth_error_In; eauto. }
      destruct Hx' as (y & Hy & E1 & E2 & E3). destruct (D _ Hy) as (g & c & H1 & H2). exists g, c.
      rewrite Hw, Hp, Ha, <- E1, <- E2, <- E3. auto.
    + intros. eapply E; eauto.
    + intros. eapply F; eauto.
    + intros g k c. rewrite Hp, Ha. apply G.
    + intros k. rewrite (ct_upd k _ _ _ (mkTask (tcb ta) (targ ta) (tchild ta) Running) Et eq_refl). auto.
    + intros k. rewrite starts_app, I. unfold e. cbn [starts].
      pose proof (cs_upd k _ _ _ (mkTask (tcb ta) (targ ta) (tchild ta) Running) Et eq_refl) as Hu.
      assert (started ta = false) by (unfold started; now rewrite Es).
      rewrite H in Hu. unfold started in Hu. cbn [tst] in Hu. rewrite andb_false_r, andb_true_r in Hu.
      destruct (k =? tcb ta); lia.
  - (* LReturn *)
    destruct (nth_error (tasks s) t) as [ta|] eqn:Et; [|discriminate].
    destruct (tst ta) eqn:Es; try discriminate. injection H as <- <-.
    apply core_neutral; [exact Logic.I|]. apply core_stage; auto; congruence.
  - (* LChain *)
    destruct (nth_error (tasks s) t) as [ta|] eqn:Et; [|discriminate].
    destruct (tst ta) eqn:Es; try discriminate.
    assert (HC1 : Core evs (mkState (futures s) (ncb s)
              (upd (tasks s) t (mkTask (tcb ta) (targ ta) (tchild ta) Finished))))
      by (apply core_stage; auto; congruence).
    destruct (tchild ta) as [c|] eqn:Ech.
    + rewrite <- Ech in *. destruct (complete _ c (targ ta)) as [s2|] eqn:Ec; [|discriminate]. injection H as <- <-.
      pose proof (core_complete _ _ _ _ _ HC1 Ec) as HC2.
      change [EComplete c (targ ta); EFinish (tcb ta)] with ([EComplete c (targ ta)] ++ [EFinish (tcb ta)]).
      rewrite app_assoc. apply core_neutral; [exact Logic.I|assumption].
    + rewrite <- Ech in *. injection H as <- <-. apply core_neutral; [exact Logic.I|assumption].
Qed.

Lemma core_run sched s evs : run step init sched = Some (s, evs) -> Core evs s.
Proof.
  revert sched s evs. apply (run_inv step init (fun _ evs s => Core evs s)).
  - exact core_init.
  - intros. eapply core_step; eauto.
Qed.

(** ** C14 *)
Lemma result_is_winner sched s evs f fu : run step init sched = Some (s, evs) ->
  nth_error (futures s) f = Some fu -> result fu = winner f evs.
Proof. intros H Hf. destruct (core_run _ _ _ H). exact (proj1 (v_fut0 _ _ Hf)). Qed.

Lemma started_once sched s evs k : run step init sched = Some (s, evs) -> starts k evs <= 1.
Proof.
  intros H. destruct (core_run _ _ _ H). rewrite v_start0. pose proof (cs_le_ct k (tasks s)).
  specialize (v_count0 k). destruct (k <? ncb s); lia.
Qed.

Lemma start_event sched s evs k w : run step init sched = Some (s, evs) ->
  In (EStart k w) evs -> exists f c, In (EThen f k c) evs /\ winner f evs = Some w.
Proof.
  revert sched s evs. apply (run_inv step init (fun _ evs _ => In (EStart k w) evs ->
    exists f c, In (EThen f k c) evs /\ winner f evs = Some w)).
  - intros [].
  - intros sched evs s l s' e Hrun IH Hs Hin. apply in_app_or in Hin as [Hin|Hin].
    + destruct (IH Hin) as (f & c & H1 & H2). exists f, c. split; [apply in_or_app; auto|].
      now rewrite winner_app, H2.
    + assert (exists t, l = LStart t) as [t ->].
      { destruct l; cbn [step] in Hs; eauto; exfalso.
        - injection Hs as <- <-. destruct Hin.
        - destruct (nth_error _ _) as [fu|]; [|discriminate].
          destruct (result fu); injection Hs as <- <-; destruct Hin as [|[]]; discriminate.
        - destruct (complete _ _ _); [|discriminate]. injection Hs as <- <-. destruct Hin as [|[]]; discriminate.
        - destruct (nth_error _ _) as [ta|]; [|discriminate]. destruct (tst ta); try discriminate.
          injection Hs as <- <-. destruct Hin as [|[]]; discriminate.
        - destruct (nth_error _ _) as [ta|]; [|discriminate]. destruct (tst ta); try discriminate.
          destruct (tchild ta); [destruct (complete _ _ _); [|discriminate]|];
          injection Hs as <- <-; [destruct Hin as [|[|[]]]|destruct Hin as [|[]]]; discriminate. }
      pose proof (core_run _ _ _ Hrun) as HC. cbn [step] in Hs.
      destruct (nth_error (tasks s) t) as [ta|] eqn:Et; [|discriminate].
      destruct (tst ta) eqn:Es; try discriminate. injection Hs as <- <-.
      destruct Hin as [Hin|[]]. injection Hin as <- <-.
      destruct (v_task _ _ HC _ (nth_error_In _ _ Et)) as (f & c & Hw & Hor). exists f, c.
      split; [|now rewrite winner_app, Hw]. apply in_or_app. left.
      destruct Hor as [[_ Hp]|[_ Hp]]; [now apply pend_in|now apply after_in].
Qed.

Lemma start_unique_value sched s evs k w f c : run step init sched = Some (s, evs) ->
  In (EStart k w) evs -> In (EThen f k c) evs -> winner f evs = Some w.
Proof.
  intros H Hs Ht. destruct (start_event _ _ _ _ _ H Hs) as (f' & c' & Ht' & Hw).
  destruct (core_run _ _ _ H). destruct (v_uniq0 _ _ _ _ _ _ Ht Ht' (or_introl eq_refl)) as (-> & _ & _). exact Hw.
Qed.

Lemma start_registered sched s evs k w : run step init sched = Some (s, evs) ->
  In (EStart k w) evs -> exists f c, In (EThen f k c) evs.
Proof. intros H Hs. destruct (start_event _ _ _ _ _ H Hs) as (f & c & Ht & _). eauto. Qed.

Lemma find_task evs s f k c w : Core evs s -> In (EThen f k c) evs -> winner f evs = Some w ->
  exists t ta, nth_error (tasks s) t = Some ta /\ tcb ta = k /\ targ ta = w.
Proof.
  intros HC Ht Hw. pose proof HC as [A B C D E F G Hcount I].
  destruct (E _ _ _ Ht) as (Hfc & Hk & Hc). specialize (Hcount k).
  apply Nat.ltb_lt in Hk. rewrite Hk in Hcount.
  assert (Hz : cw k (futures s) = 0).
  { destruct (Nat.eq_dec (cw k (futures s)) 0); auto. exfalso.
    assert (exists g gu, nth_error (futures s) g = Some gu /\ 0 < cnt k (waiting gu)) as (g & gu & Hg & Hpos).
    { clear - n. induction (futures s) as [|a l IH]; cbn in n; [lia|].
      destruct (Nat.eq_dec (cnt k (waiting a)) 0).
      - destruct IH as (g & gu & ? & ?); [lia|]. exists (S g), gu. auto.
      - exists 0, a. split; [reflexivity|lia]. }
    apply cnt_in in Hpos. unfold waiting in Hpos. apply in_map_iff in Hpos as ([k' c'] & Hk' & Hin). cbn in Hk'. subst k'.
    pose proof (C _ _ _ _ Hg Hin) as Hp. apply pend_in in Hp.
    destruct (F _ _ _ _ _ _ Ht Hp (or_introl eq_refl)) as (<- & _ & <-).
    destruct (A _ _ Hg) as [A1 A2]. rewrite A2 in Hin; [contradiction|]. rewrite A1, Hw. discriminate. }
  destruct (ct_nth k (tasks s) ltac:(lia)) as (t & ta & Hta & Hk2). exists t, ta. repeat split; auto.
  destruct (D _ (nth_error_In _ _ Hta)) as (g & c' & Hgw & Hor). rewrite Hk2 in Hor.
  assert (Hin : In (EThen g k c') evs) by (destruct Hor as [[_ P]|[_ P]]; [now apply pend_in|now apply after_in]).
  destruct (F _ _ _ _ _ _ Ht Hin (or_introl eq_refl)) as (<- & _ & _). congruence.
Qed.

Lemma will_start sched s evs f k c w : run step init sched = Some (s, evs) ->
  In (EThen f k c) evs -> winner f evs = Some w ->
  starts k evs = 1 \/ exists t s', step s (LStart t) = Some (s', [EStart k w]).
Proof.
  intros H Ht Hw. pose proof (core_run _ _ _ H) as HC.
  destruct (find_task _ _ _ _ _ _ HC Ht Hw) as (t & ta & Hta & Hk & Ha).
  destruct (started ta) eqn:Es.
  - left. rewrite (v_start _ _ HC). pose proof (started_once _ _ _ k H) as Hle.
    rewrite (v_start _ _ HC) in Hle.
    assert (0 < cs k (tasks s)); [|lia]. clear - Hta Hk Es.
    revert t Hta. induction (tasks s) as [|a l IH]; intros [|t] Hta; cbn [nth_error cs] in *; try discriminate.
    + injection Hta as ->. rewrite Hk, Nat.eqb_refl, Es. cbn. lia.
    + specialize (IH _ Hta). lia.
  - right. exists t. cbn [step]. rewrite Hta. unfold started in Es.
    destruct (tst ta); try discriminate. rewrite Hk, Ha. eexists. reflexivity.
Qed.

(** ** C15 *)
Record Chained (sched : list (label W)) evs (s : state W) : Prop := {
  c_comp : forall c w, In (EComplete c w) evs -> In (LComplete c w) sched \/
    exists ta, In ta (tasks s) /\ tchild ta = Some c /\ targ ta = w /\ tst ta = Finished;
  c_fin : forall ta c, In ta (tasks s) -> tst ta = Finished -> tchild ta = Some c ->
    winner c evs <> None;
  c_efin : forall k, In (EFinish k) evs -> exists ta, In ta (tasks s) /\ tcb ta = k /\ tst ta = Finished;
  c_ret : forall ta, In ta (tasks s) -> (tst ta = Returned \/ tst ta = Finished) -> In (EReturn (tcb ta)) evs }.

Lemma complete_tasks (s : state W) f w s' : complete s f w = Some s' ->
  exists l, tasks s' = tasks s ++ l /\ forall x, In x l -> tst x = Spawned.
Proof.
  unfold complete. destruct (nth_error (futures s) f) as [fu|]; [|discriminate].
  destruct (IsCompleted fu); intros E; injection E as <-.
  - exists []. rewrite app_nil_r. split; [auto|intros x []].
  - cbn. eexists. split; [reflexivity|]. intros x Hx. apply in_map_iff in Hx as (? & <- & _). reflexivity.
Qed.

Lemma chained_run sched s evs : run step init sched = Some (s, evs) -> Chained sched evs s.
Proof.
  revert sched s evs. apply run_inv.
  - constructor; cbn; try tauto.
  - intros sched evs s l s' e Hrun [P Q R T] Hs. pose proof (core_run _ _ _ Hrun) as HC.
    assert (Hwkeep : forall c, winner c evs <> None -> winner c (evs ++ e) <> None).
    { intros c Hc. rewrite winner_app. destruct (winner c evs); congruence. }
    (* all labels: how tasks change *)
    destruct l as [|f|f w|t|t|t]; cbn [step] in Hs.
    + injection Hs as <- <-. rewrite app_nil_r. constructor; cbn; eauto.
      intros c w Hc. destruct (P _ _ Hc); auto. left. apply in_or_app. auto.
    + destruct (nth_error (futures s) f) as [fu|] eqn:Ef; [|discriminate].
      assert (He : e = [EThen f (ncb s) (length (futures s))] /\ exists l, tasks s' = tasks s ++ l /\ forall x, In x l -> tst x = Spawned).
      { destruct (result fu); injection Hs as <- <-; (split; [reflexivity|]); cbn.
        - eexists. split; [reflexivity|]. intros x [<-|[]]. reflexivity.
        - exists []. rewrite app_nil_r. split; auto. intros x []. }
      destruct He as [-> (tl & Htl & Hsp)]. constructor; rewrite Htl.
      * intros c w Hc. apply in_app_or in Hc as [Hc|[Hc|[]]]; [|discriminate].
        destruct (P _ _ Hc) as [|(ta & ? & ?)]; [left; apply in_or_app; auto|right; exists ta; split; auto; apply in_or_app; auto].
      * intros ta c Hta Hf Hch. apply in_app_or in Hta as [Hta|Hta]; [eauto|]. rewrite (Hsp _ Hta) in Hf. discriminate.
      * intros k Hk. apply in_app_or in Hk as [Hk|[Hk|[]]]; [|discriminate].
        destruct (R _ Hk) as (ta & ? & ?). exists ta. split; auto. apply in_or_app; auto.
      * intros ta Hta Hst. apply in_or_app. left. apply in_app_or in Hta as [Hta|Hta]; [eauto|]. rewrite (Hsp _ Hta) in Hst. destruct Hst; discriminate.
    + destruct (complete s f w) as [s1|] eqn:Ec; [|discriminate]. injection Hs as <- <-.
      destruct (complete_tasks _ _ _ _ Ec) as (tl & Htl & Hsp). constructor; rewrite Htl.
      * intros c w' Hc. apply in_app_or in Hc as [Hc|[Hc|[]]].
        -- destruct (P _ _ Hc) as [|(ta & ? & ?)]; [left; apply in_or_app; auto|right; exists ta; split; auto; apply in_or_app; auto].
        -- injection Hc as <- <-. left. apply in_or_app. right. now left.
      * intros ta c Hta Hf Hch. apply in_app_or in Hta as [Hta|Hta]; [eauto|]. rewrite (Hsp _ Hta) in Hf. discriminate.
      * intros k Hk. apply in_app_or in Hk as [Hk|[Hk|[]]]; [|discriminate].
        destruct (R _ Hk) as (ta & ? & ?). exists ta. split; auto. apply in_or_app; auto.
      * intros ta Hta Hst. apply in_or_app. left. apply in_app_or in Hta as [Hta|Hta]; [eauto|]. rewrite (Hsp _ Hta) in Hst. destruct Hst; discriminate.
    + destruct (nth_error (tasks s) t) as [ta|] eqn:Et; [|discriminate].
      destruct (tst ta) eqn:Es; try discriminate. injection Hs as <- <-.
      constructor; cbn [tasks].
      * intros c w' Hc. apply in_app_or in Hc as [Hc|[Hc|[]]]; [|discriminate].
        destruct (P _ _ Hc) as [|(tb & Hb & Hb2 & Hb3 & Hb4)]; [left; apply in_or_app; auto|right; exists tb].
        destruct (in_upd_other _ _ (mkTask (tcb ta) (targ ta) (tchild ta) Running) _ _ Et Hb) as [->|]; auto. congruence.
      * intros tb c Hb Hf Hch. apply Hwkeep. apply in_upd in Hb as [->|Hb]; [discriminate|eauto].
      * intros k Hk. apply in_app_or in Hk as [Hk|[Hk|[]]]; [|discriminate].
        destruct (R _ Hk) as (tb & Hb & Hb2 & Hb3). exists tb.
        destruct (in_upd_other _ _ (mkTask (tcb ta) (targ ta) (tchild ta) Running) _ _ Et Hb) as [->|]; auto. congruence.
      * intros tb Hb Hst. apply in_or_app. left. apply in_upd in Hb as [->|Hb]; [cbn in Hst; destruct Hst; discriminate|eauto].
    + destruct (nth_error (tasks s) t) as [ta|] eqn:Et; [|discriminate].
      destruct (tst ta) eqn:Es; try discriminate. injection Hs as <- <-.
      constructor; cbn [tasks].
      * intros c w' Hc. apply in_app_or in Hc as [Hc|[Hc|[]]]; [|discriminate].
        destruct (P _ _ Hc) as [|(tb & Hb & Hb2 & Hb3 & Hb4)]; [left; apply in_or_app; auto|right; exists tb].
        destruct (in_upd_other _ _ (mkTask (tcb ta) (targ ta) (tchild ta) Returned) _ _ Et Hb) as [->|]; auto. congruence.
      * intros tb c Hb Hf Hch. apply Hwkeep. apply in_upd in Hb as [->|Hb]; [discriminate|eauto].
      * intros k Hk. apply in_app_or in Hk as [Hk|[Hk|[]]]; [|discriminate].
        destruct (R _ Hk) as (tb & Hb & Hb2 & Hb3). exists tb.
        destruct (in_upd_other _ _ (mkTask (tcb ta) (targ ta) (tchild ta) Returned) _ _ Et Hb) as [->|]; auto. congruence.
      * intros tb Hb Hst. apply in_or_app. apply in_upd in Hb as [->|Hb]; [right; now left|left; eauto].
    + destruct (nth_error (tasks s) t) as [ta|] eqn:Et; [|discriminate].
      destruct (tst ta) eqn:Es; try discriminate.
      set (tf := mkTask (tcb ta) (targ ta) (tchild ta) Finished) in *.
      assert (Hin_ta : In ta (tasks s)) by (eapply nth_error_In; eauto).
      assert (Hlt : t < length (tasks s)) by (apply nth_error_Some; congruence).
      assert (Hret : In (EReturn (tcb ta)) evs) by (apply T; auto).
      assert (Hex : exists tl, tasks s' = upd (tasks s) t tf ++ tl /\ (forall x, In x tl -> tst x = Spawned) /\
        e = (match tchild ta with Some c => [EComplete c (targ ta)] | None => [] end) ++ [EFinish (tcb ta)]).
      { destruct (tchild ta) as [c|] eqn:Ech.
        - destruct (complete _ c (targ ta)) as [s2|] eqn:Ec; [|discriminate]. injection Hs as <- <-.
          destruct (complete_tasks _ _ _ _ Ec) as (tl & Htl & Hsp). exists tl. cbn [tasks] in Htl.
          split; auto.
        - injection Hs as <- <-. exists []. rewrite app_nil_r. cbn. split; auto. split; auto. intros x []. }
      clear Hs. destruct Hex as (tl & Htl & Hsp & ->). constructor; rewrite Htl.
      * intros c w' Hc. apply in_app_or in Hc as [Hc|Hc].
        -- destruct (P _ _ Hc) as [|(tb & Hb & Hb2 & Hb3 & Hb4)]; [left; apply in_or_app; auto|right; exists tb].
           destruct (in_upd_other _ _ tf _ _ Et Hb) as [->|]; [congruence|]. split; auto. apply in_or_app; auto.
        -- right. exists tf. destruct (tchild ta) as [c'|] eqn:Ech; cbn in Hc.
           ++ destruct Hc as [Hc|[Hc|[]]]; [|discriminate]. injection Hc as <- <-.
              split; [apply in_or_app; left; now apply in_upd_new|]. repeat split.
           ++ destruct Hc as [Hc|[]]. discriminate.
      * intros tb c Hb Hf Hch. rewrite !winner_app. apply in_app_or in Hb as [Hb|Hb]; [|rewrite (Hsp _ Hb) in Hf; discriminate].
        apply in_upd in Hb as [->|Hb].
        -- unfold tf in Hch. cbn [tchild] in Hch. rewrite Hch. destruct (winner c evs); [discriminate|]. cbn. rewrite Nat.eqb_refl. discriminate.
        -- pose proof (Q _ _ Hb Hf Hch). destruct (winner c evs); [discriminate|congruence].
      * intros k Hk. apply in_app_or in Hk as [Hk|Hk].
        -- destruct (R _ Hk) as (tb & Hb & Hb2 & Hb3). exists tb.
           destruct (in_upd_other _ _ tf _ _ Et Hb) as [->|]; [congruence|]. split; auto. apply in_or_app; auto.
        -- exists tf. assert (k = tcb ta).
           { apply in_app_or in Hk as [Hk|[Hk|[]]]; [|congruence]. destruct (tchild ta); [destruct Hk as [Hk|[]]; discriminate|destruct Hk]. }
           subst k. split; [apply in_or_app; left; now apply in_upd_new|]. repeat split.
      * intros tb Hb Hst. apply in_or_app. left. apply in_app_or in Hb as [Hb|Hb]; [|rewrite (Hsp _ Hb) in Hst; destruct Hst; discriminate].
        apply in_upd in Hb as [->|Hb]; [exact Hret|auto].
Qed.

(** The task of a callback registered while pending carries its child. *)
Lemma task_child evs s ta f c : Core evs s -> In ta (tasks s) ->
  then_while_pending evs f (tcb ta) c -> tchild ta = Some c /\ winner f evs = Some (targ ta).
Proof.
  intros HC Hta Hp. destruct (v_task _ _ HC _ Hta) as (g & d & Hw & Hor).
  destruct Hor as [[Hch Hp2]|[Hch Ha]].
  - destruct (v_uniq _ _ HC _ _ _ _ _ _ (pend_in _ _ _ _ Hp) (pend_in _ _ _ _ Hp2) (or_introl eq_refl)) as (-> & _ & ->). auto.
  - destruct (v_uniq _ _ HC _ _ _ _ _ _ (pend_in _ _ _ _ Hp) (after_in _ _ _ _ Ha) (or_introl eq_refl)) as (-> & _ & ->).
    exfalso. eapply (v_excl _ _ HC); eauto.
Qed.

Lemma child_then evs s ta c : Core evs s -> In ta (tasks s) -> tchild ta = Some c ->
  exists f, then_while_pending evs f (tcb ta) c /\ winner f evs = Some (targ ta).
Proof.
  intros HC Hta Hch. destruct (v_task _ _ HC _ Hta) as (g & d & Hw & [[H1 H2]|[H1 _]]); [|congruence].
  rewrite Hch in H1. injection H1 as ->. eauto.
Qed.

(** Once the goroutine of a callback registered while pending has ended, the
    chained future is completed; unless somebody else completed it directly,
    with the same result. *)
Lemma chain_resolved sched s evs f k c : run step init sched = Some (s, evs) ->
  then_while_pending evs f k c -> In (EFinish k) evs ->
  winner c evs <> None /\ ((forall w, ~ In (LComplete c w) sched) -> winner c evs = winner f evs).
Proof.
  intros H Hp Hf. pose proof (core_run _ _ _ H) as HC. pose proof (chained_run _ _ _ H) as [P Q R T].
  destruct (R _ Hf) as (ta & Hta & <- & Hst).
  destruct (task_child _ _ _ _ _ HC Hta Hp) as [Hch Hw].
  pose proof (Q _ _ Hta Hst Hch) as Hc. split; [exact Hc|]. intros Hno.
  destruct (winner c evs) as [w|] eqn:Ew; [|congruence]. apply winner_in in Ew as Hin.
  destruct (P _ _ Hin) as [Hl|(tb & Hb & Hbc & Hbw & Hbs)]; [exfalso; eapply Hno; eauto|].
  destruct (child_then _ _ _ _ HC Hb Hbc) as (g & Hg & Hgw).
  destruct (v_uniq _ _ HC _ _ _ _ _ _ (pend_in _ _ _ _ Hp) (pend_in _ _ _ _ Hg) (or_intror eq_refl)) as (-> & _ & _).
  congruence.
Qed.

(** A chained future is completed only after its callback has returned. *)
Lemma chain_after_return sched s evs f k c : run step init sched = Some (s, evs) ->
  In (EThen f k c) evs -> (forall w, ~ In (LComplete c w) sched) -> winner c evs <> None ->
  then_while_pending evs f k c /\ In (EReturn k) evs.
Proof.
  intros H Ht Hno Hc. pose proof (core_run _ _ _ H) as HC. pose proof (chained_run _ _ _ H) as [P Q R T].
  destruct (winner c evs) as [w|] eqn:Ew; [|congruence]. apply winner_in in Ew as Hin.
  destruct (P _ _ Hin) as [Hl|(tb & Hb & Hbc & Hbw & Hbs)]; [exfalso; eapply Hno; eauto|].
  destruct (child_then _ _ _ _ HC Hb Hbc) as (g & Hg & Hgw).
  destruct (v_uniq _ _ HC _ _ _ _ _ _ Ht (pend_in _ _ _ _ Hg) (or_intror eq_refl)) as (-> & -> & _).
  split; auto.
Qed.

(** Then on a completed future: the chained future is never resolved by it. *)
Lemma never_resolved sched s evs f k c : run step init sched = Some (s, evs) ->
  then_after_completion evs f k c -> (forall w, ~ In (LComplete c w) sched) -> winner c evs = None.
Proof.
  intros H Ha Hno. destruct (winner c evs) eqn:E; auto. exfalso.
  destruct (chain_after_return _ _ _ _ _ _ H (after_in _ _ _ _ Ha) Hno) as [Hp _]; [congruence|].
  eapply (v_excl _ _ (core_run _ _ _ H)); eauto.
Qed.

(** Progress of the goroutine of a callback. *)
Lemma chain_progress sched s evs f k c w : run step init sched = Some (s, evs) ->
  then_while_pending evs f k c -> winner f evs = Some w ->
  In (EFinish k) evs \/
  (exists t s', step s (LStart t) = Some (s', [EStart k w])) \/
  (exists t s', step s (LReturn t) = Some (s', [EReturn k])) \/
  (exists t s', step s (LChain t) = Some (s', [EComplete c w; EFinish k])) .
Proof.
  intros H Hp Hw. pose proof (core_run _ _ _ H) as HC. pose proof (chained_run _ _ _ H) as [P Q R T].
  destruct (find_task _ _ _ _ _ _ HC (pend_in _ _ _ _ Hp) Hw) as (t & ta & Hta & Hk & Ha).
  subst k. destruct (task_child _ _ _ _ _ HC (nth_error_In _ _ Hta) Hp) as [Hch _].
  destruct (tst ta) eqn:Es.
  - right. left. exists t. cbn [step]. rewrite Hta, Es, Ha. eexists. reflexivity.
  - right. right. left. exists t. cbn [step]. rewrite Hta, Es. eexists. reflexivity.
  - right. right. right. exists t. cbn [step]. rewrite Hta, Es, Hch, Ha.
    destruct (v_then _ _ HC _ _ _ (pend_in _ _ _ _ Hp)) as (_ & _ & Hlt).
    unfold complete. cbn [futures].
    destruct (nth_error (futures s) c) as [cu|] eqn:Ecu; [|apply nth_error_None in Ecu; lia].
    destruct (IsCompleted cu); eexists; reflexivity.
  - left. clear - H Hta Es.
    revert t ta Hta Es. revert sched s evs H.
    apply (run_inv step init (fun _ evs s => forall t ta, nth_error (tasks s) t = Some ta -> tst ta = Finished -> In (EFinish (tcb ta)) evs)).
    + intros [] ta H; discriminate.
    + intros sched evs s l s' e _ IH Hs t ta Ht Hf. apply in_or_app.
      assert (IH' : forall x, In x (tasks s) -> tst x = Finished -> In (EFinish (tcb x)) evs).
      { intros x Hx. apply In_nth_error in Hx as [i Hi]. eauto. }
      apply nth_error_In in Ht.
      destruct l as [|f|f w|u|u|u]; cbn [step] in Hs.
      * injection Hs as <- <-. left. auto.
      * destruct (nth_error (futures s) f) as [fu|]; [|discriminate].
        destruct (result fu); injection Hs as <- <-; cbn in Ht; left; auto.
        apply in_app_or in Ht as [Ht|[<-|[]]]; auto. discriminate.
      * destruct (complete s f w) as [s1|] eqn:Ec; [|discriminate]. injection Hs as <- <-.
        destruct (complete_tasks _ _ _ _ Ec) as (tl & Htl & Hsp). rewrite Htl in Ht. left.
        apply in_app_or in Ht as [Ht|Ht]; auto. rewrite (Hsp _ Ht) in Hf. discriminate.
      * destruct (nth_error (tasks s) u) as [tb|] eqn:Eu; [|discriminate].
        destruct (tst tb) eqn:Es2; try discriminate. injection Hs as <- <-. left.
        cbn in Ht. apply in_upd in Ht as [->|Ht]; [discriminate|auto].
      * destruct (nth_error (tasks s) u) as [tb|] eqn:Eu; [|discriminate].
        destruct (tst tb) eqn:Es2; try discriminate. injection Hs as <- <-. left.
        cbn in Ht. apply in_upd in Ht as [->|Ht]; [discriminate|auto].
      * destruct (nth_error (tasks s) u) as [tb|] eqn:Eu; [|discriminate].
        destruct (tst tb) eqn:Es2; try discriminate.
        destruct (tchild tb) as [c|].
        -- destruct (complete _ c (targ tb)) as [s2|] eqn:Ec; [|discriminate]. injection Hs as <- <-.
           destruct (complete_tasks _ _ _ _ Ec) as (tl & Htl & Hsp). rewrite Htl in Ht. cbn [tasks] in Ht.
           apply in_app_or in Ht as [Ht|Ht]; [|rewrite (Hsp _ Ht) in Hf; discriminate].
           apply in_upd in Ht as [->|Ht]; [right; right; now left|left; auto].
        -- injection Hs as <- <-. cbn in Ht.
           apply in_upd in Ht as [->|Ht]; [right; now left|left; auto].
Qed.
End P.
