(** Invariant of the queue machine and its consequences. *)
From Coq Require Import List ZArith Bool Lia.
From Verif Require Import Machine MpscModel MpscSpec.
Import ListNotations.


Section P.
Context {V : Type}.

Definition counted (p : push) : bool :=
  match pstage p with Added _ | Done => true | _ => false end.
Definition b2z (b : bool) : Z := if b then 1%Z else 0%Z.
Fixpoint ncounted (l : list push) : Z :=
  match l with [] => 0%Z | p :: r => (b2z (counted p) + ncounted r)%Z end.

Lemma ncounted_app a b : ncounted (a ++ b) = (ncounted a + ncounted b)%Z.
Proof. induction a; simpl; lia. Qed.
Lemma ncounted_upd l i p q : nth_error l i = Some p ->
  ncounted (upd l i q) = (ncounted l - b2z (counted p) + b2z (counted q))%Z.
Proof.
  revert i; induction l as [|a l IH]; intros [|i] H; simpl in *; try discriminate.
  - inversion H; subst. lia.
  - rewrite (IH _ H). lia.
Qed.
Lemma ncounted_le l : (ncounted l <= Z.of_nat (length l))%Z.
Proof. induction l as [|a l IH]; simpl length; cbn [ncounted]; [lia|]. destruct (counted a); cbn [b2z]; lia. Qed.
Lemma ncounted_all l : (forall p, In p l -> pstage p = Done) -> ncounted l = Z.of_nat (length l).
Proof.
  induction l as [|a l IH]; intros H; [reflexivity|]. cbn [ncounted length].
  rewrite IH by (intros; apply H; now right).
  unfold counted. rewrite (H a (or_introl eq_refl)). cbn [b2z]. lia.
Qed.

(** Value taken but not yet returned by Pop. *)
Definition in_hand (c : cpc V) : list V :=
  match c with CPopped v | CAdded _ v => [v] | _ => [] end.
(** Taken but not yet subtracted from the counter. *)
Definition undec (c : cpc V) : Z := match c with CPopped _ => 1%Z | _ => 0%Z end.
Definition quiet (c : cpc V) : Prop :=
  match c with CIdle => True | CAdded c _ => (c <= 0)%Z | _ => False end.

Definition link_of (l : list push) (k : nat) : option nat :=
  match nth_error l k with
  | Some pu => match pstage pu with Swapped => None | _ => Some (S k) end
  | None => None
  end.

Record Inv (s : state V) (hist : list (nat * V)) (out : list V) : Prop := {
  i_heap : length (heap s) = S (length hist);
  i_head : head s = length hist;
  i_pushes : length (pushes s) = length hist;
  i_tail : tail s <= length hist;
  i_push : forall i pu, nth_error (pushes s) i = Some pu ->
    pnode pu = S i /\ pprev pu = i /\ option_map fst (nth_error hist i) = Some (owner pu);
  i_next : forall k nd, nth_error (heap s) k = Some nd -> next nd = link_of (pushes s) k;
  i_val : forall k nd, nth_error (heap s) (S k) = Some nd -> tail s <= k ->
    val nd = option_map snd (nth_error hist k);
  i_out : map snd (firstn (tail s) hist) = out ++ in_hand (cons s);
  i_count : count s = (ncounted (pushes s) - Z.of_nat (tail s) + undec (cons s))%Z;
  i_token : chan s = None -> (0 < count s)%Z -> quiet (cons s) ->
    exists p, In p (pushes s) /\ will_signal p }.

Lemma inv_init : Inv init [] [].
Proof.
  constructor; cbn; auto; try lia.
  - intros [] pu H; discriminate.
  - intros [|[]] nd H; inversion H; reflexivity.
  - intros [|] nd H; discriminate.
Qed.

Definition lbl_hist (l : label V) : list (nat * V) := pushed [l].
Lemma pushed_app a b : pushed (V:=V) (a ++ b) = pushed a ++ pushed b.
Proof. induction a as [|[] a IH]; simpl; auto. now rewrite IH. Qed.
Lemma popped_app a b : popped (V:=V) (a ++ b) = popped a ++ popped b.
Proof. induction a as [|[?|[?|]] a IH]; simpl; auto. now rewrite IH. Qed.

Lemma link_of_snoc l k p : k <> length l -> link_of (l ++ [p]) k = link_of l k.
Proof.
  intros H. unfold link_of. destruct (Nat.lt_ge_cases k (length l)).
  - now rewrite nth_error_app1.
  - replace (nth_error l k) with (@None push) by (symmetry; apply nth_error_None; lia).
    replace (nth_error (l ++ [p]) k) with (@None push); [reflexivity|].
    symmetry; apply nth_error_None. rewrite app_length. simpl. lia.
Qed.

Lemma link_of_upd l i pu st k : nth_error l i = Some pu ->
  link_of (upd l i (set_stage pu st)) k =
  if Nat.eqb i k then match st with Swapped => None | _ => Some (S k) end else link_of l k.
Proof.
  intros H. assert (Hi : i < length l) by (apply nth_error_Some; congruence).
  unfold link_of. rewrite nth_upd by assumption. now destruct (Nat.eqb_spec i k) as [->|].
Qed.

Lemma push_upd_ok (s : state V) i pu st (hist : list (nat * V)) :
  (forall j q, nth_error (pushes s) j = Some q ->
    pnode q = S j /\ pprev q = j /\ option_map fst (nth_error hist j) = Some (owner q)) ->
  nth_error (pushes s) i = Some pu ->
  forall j q, nth_error (upd (pushes (V:=V) s) i (set_stage pu st)) j = Some q ->
    pnode q = S j /\ pprev q = j /\ option_map fst (nth_error hist j) = Some (owner q).
Proof.
  intros HP H j q Hq.
  assert (Hi : i < length (pushes s)) by (apply nth_error_Some; congruence).
  rewrite nth_upd in Hq by assumption. destruct (Nat.eqb_spec i j) as [->|].
  - inversion Hq; subst. cbn. now apply HP.
  - now apply HP.
Qed.

Lemma offer_none c ch : offer c ch = None -> ch = None /\ (c <= 0)%Z.
Proof. unfold offer. destruct (0 <? c)%Z eqn:E; destruct ch; intros; try discriminate; split; auto; lia. Qed.

Lemma inv_step s l s' e hist out : Inv s hist out -> step s l = Some (s', e) ->
  Inv s' (hist ++ lbl_hist l) (out ++ popped e).
Proof.
  intros I H. destruct I as [Hh Hhd Hp Ht HP HN HV HO HC HT].
  destruct l as [p v|i|i|i| | | |]; cbn [step] in H.
  - (* LSwap *)
    destruct (busy p (pushes s)); [discriminate|]. inversion H; subst; clear H.
    cbn [lbl_hist pushed popped]. rewrite app_nil_r.
    constructor; cbn [heap head tail chan count pushes cons]; rewrite ?app_length; cbn [length]; try lia.
    + intros i pu Hi. destruct (Nat.lt_ge_cases i (length (pushes s))) as [Hl|Hl].
      * rewrite nth_error_app1 in Hi by assumption. destruct (HP _ _ Hi) as (?&?&?).
        repeat split; auto. rewrite nth_error_app1 by lia. assumption.
      * rewrite nth_error_app2 in Hi by assumption.
        destruct (i - length (pushes s)) as [|[]] eqn:Ei; try discriminate. inversion Hi; subst; cbn.
        assert (i = length hist) by lia. subst i. repeat split; try lia.
        rewrite nth_error_app2, Nat.sub_diag by lia. reflexivity.
    + intros k nd Hk. destruct (Nat.lt_ge_cases k (length (heap s))) as [Hl|Hl].
      * rewrite nth_error_app1 in Hk by assumption. rewrite (HN _ _ Hk).
        destruct (Nat.eq_dec k (length (pushes s))) as [->|Hne].
        -- unfold link_of. rewrite nth_error_app2, Nat.sub_diag by lia. cbn.
           replace (nth_error (pushes s) (length (pushes s))) with (@None push); [reflexivity|].
           symmetry. now apply nth_error_None.
        -- now rewrite link_of_snoc.
      * rewrite nth_error_app2 in Hk by assumption.
        destruct (k - length (heap s)) as [|[]] eqn:Ek; try discriminate. inversion Hk; subst; cbn.
        unfold link_of. replace (nth_error (pushes s ++ _) k) with (@None push); [reflexivity|].
        symmetry. apply nth_error_None. rewrite app_length. cbn. lia.
    + intros k nd Hk Htk. destruct (Nat.lt_ge_cases (S k) (length (heap s))) as [Hl|Hl].
      * rewrite nth_error_app1 in Hk by assumption. rewrite (HV _ _ Hk Htk).
        now rewrite nth_error_app1 by lia.
      * rewrite nth_error_app2 in Hk by assumption.
        destruct (S k - length (heap s)) as [|[]] eqn:Ek; try discriminate. inversion Hk; subst; cbn.
        assert (k = length hist) by lia. subst k. now rewrite nth_error_app2, Nat.sub_diag by lia.
    + rewrite firstn_app. replace (tail s - length hist) with 0 by lia. cbn [firstn].
      now rewrite app_nil_r.
    + rewrite ncounted_app. cbn. lia.
    + intros _ _ _. exists (mkPush p (length (heap s)) (head s) Swapped). split; [|exact I].
      apply in_or_app. right. left. reflexivity.
  - (* LLink *)
    destruct (nth_error (pushes s) i) as [pu|] eqn:Ei; [|discriminate].
    destruct (pstage pu) eqn:Es; try discriminate.
    destruct (nth_error (heap s) (pprev pu)) as [nd|] eqn:En; [|discriminate].
    inversion H; subst; clear H. cbn [lbl_hist pushed popped]. rewrite !app_nil_r.
    destruct (HP _ _ Ei) as (P1 & P2 & P3). rewrite P2 in En.
    assert (Hi : i < length (pushes s)) by (apply nth_error_Some; congruence).
    assert (Hih : i < length (heap s)) by (apply nth_error_Some; congruence).
    constructor; cbn [heap head tail chan count pushes cons]; rewrite ?upd_length; auto.
    + eapply push_upd_ok; eauto.
    + intros k nd' Hk. rewrite P1, P2 in Hk. rewrite nth_upd in Hk by assumption.
      rewrite link_of_upd by assumption.
      destruct (Nat.eqb_spec i k) as [->|]; [inversion Hk; reflexivity|now apply HN].
    + intros k nd' Hk Htk. rewrite P1, P2 in Hk. rewrite nth_upd in Hk by assumption.
      destruct (Nat.eqb_spec i (S k)) as [->|].
      * inversion Hk; subst. cbn. now apply HV.
      * now apply HV.
    + rewrite (ncounted_upd _ _ _ _ Ei). unfold counted at 1 2. rewrite Es. cbn. lia.
    + intros _ _ _. exists (set_stage pu Linked). split; [now apply in_upd_new|exact I].
  - (* LAdd *)
    destruct (nth_error (pushes s) i) as [pu|] eqn:Ei; [|discriminate].
    destruct (pstage pu) eqn:Es; try discriminate.
    inversion H; subst; clear H. cbn [lbl_hist pushed popped]. rewrite !app_nil_r.
    assert (Hi : i < length (pushes s)) by (apply nth_error_Some; congruence).
    constructor; cbn [heap head tail chan count pushes cons]; rewrite ?upd_length; auto.
    + eapply push_upd_ok; eauto.
    + intros k nd' Hk. rewrite link_of_upd by assumption.
      destruct (Nat.eqb_spec i k) as [->|]; [|now apply HN].
      rewrite (HN _ _ Hk). unfold link_of. now rewrite Ei, Es.
    + rewrite (ncounted_upd _ _ _ _ Ei). unfold counted at 1 2. rewrite Es. cbn. lia.
    + intros _ Hc _. exists (set_stage pu (Added (count s + 1))).
      split; [now apply in_upd_new|]. cbn. lia.
  - (* LSend *)
    destruct (nth_error (pushes s) i) as [pu|] eqn:Ei; [|discriminate].
    destruct (pstage pu) as [| |c|] eqn:Es; try discriminate.
    inversion H; subst; clear H. cbn [lbl_hist pushed popped]. rewrite !app_nil_r.
    assert (Hi : i < length (pushes s)) by (apply nth_error_Some; congruence).
    constructor; cbn [heap head tail chan count pushes cons]; rewrite ?upd_length; auto.
    + eapply push_upd_ok; eauto.
    + intros k nd' Hk. rewrite link_of_upd by assumption.
      destruct (Nat.eqb_spec i k) as [->|]; [|now apply HN].
      rewrite (HN _ _ Hk). unfold link_of. now rewrite Ei, Es.
    + rewrite (ncounted_upd _ _ _ _ Ei). unfold counted at 1 2. rewrite Es. cbn. lia.
    + intros Hch Hc Hq. apply offer_none in Hch as [Hch Hle].
      destruct (HT Hch Hc Hq) as (q & Hq1 & Hq2). exists q. split; [|assumption].
      destruct (in_upd_other _ _ (set_stage pu Done) _ _ Ei Hq1) as [->|]; [|assumption].
      unfold will_signal in Hq2. rewrite Es in Hq2. lia.
  - (* LRecv *)
    destruct (cons s) eqn:Ec; try discriminate. destruct (chan s); [|discriminate].
    inversion H; subst; clear H. cbn [lbl_hist pushed popped]. rewrite !app_nil_r.
    constructor; cbn [heap head tail chan count pushes cons]; auto.
    cbn. tauto.
  - (* LPop *)
    assert (Hc : cons s = CIdle \/ cons s = CGot) by (destruct (cons s); try discriminate; auto).
    assert (Hin : in_hand (cons s) = [] /\ undec (cons s) = 0%Z) by (destruct Hc as [-> | ->]; auto).
    destruct Hin as [Hin Hun]. rewrite Hin in HO. rewrite Hun in HC.
    assert (H' : match nth_error (heap s) (tail s) with
      | Some tl =>
        match next tl with
        | None =>
          Some (mkState (heap s) (head s) (tail s) (chan s) (count s) (pushes s) CIdle,
                [EPop None])
        | Some n =>
          match nth_error (heap s) n with
          | Some nd =>
            match val nd with
            | Some v =>
              Some (mkState (upd (heap s) n (mkNode (next nd) None)) (head s) n
                      (chan s) (count s) (pushes s) (CPopped v), [])
            | None => None
            end
          | None => None
          end
        end
      | None => None
      end = Some (s', e)) by (destruct Hc as [Hc|Hc]; rewrite Hc in H; exact H).
    clear H. rename H' into H. rewrite app_nil_r in HO.
    destruct (nth_error (heap s) (tail s)) as [tl|] eqn:Et; [|discriminate].
    pose proof (HN _ _ Et) as Hlink.
    destruct (next tl) as [n|] eqn:En.
    + unfold link_of in Hlink.
      destruct (nth_error (pushes s) (tail s)) as [pu|] eqn:Ep; [|discriminate].
      assert (n = S (tail s)) by (destruct (pstage pu); congruence). subst n.
      assert (Htl : tail s < length (pushes s)) by (apply nth_error_Some; congruence).
      destruct (nth_error (heap s) (S (tail s))) as [nd|] eqn:End; [|discriminate].
      pose proof (HV _ _ End (Nat.le_refl _)) as Hval.
      destruct (val nd) as [v|] eqn:Ev; [|discriminate].
      injection H as <- <-. cbn [lbl_hist pushed popped]. rewrite !app_nil_r.
      assert (Hhl : S (tail s) < length (heap s)) by (apply nth_error_Some; congruence).
      constructor; cbn [heap head tail chan count pushes cons]; rewrite ?upd_length; auto; try lia.
      * intros k nd' Hk. rewrite nth_upd in Hk by assumption.
        destruct (Nat.eqb_spec (S (tail s)) k) as [<-|]; [inversion Hk; cbn; now apply HN|now apply HN].
      * intros k nd' Hk Hle. rewrite nth_upd in Hk by assumption.
        destruct (Nat.eqb_spec (S (tail s)) (S k)) as [Heq|]; [lia|]. apply HV; auto; lia.
      * cbn [in_hand]. rewrite <- HO.
        destruct (nth_error hist (tail s)) as [[p0 v0]|] eqn:Eh; [|discriminate].
        cbn in Hval. inversion Hval; subst v0.
        apply nth_error_split in Eh as (l1 & l2 & -> & Hl1). rewrite <- Hl1.
        rewrite !firstn_app. replace (S (length l1) - length l1) with 1 by lia.
        rewrite firstn_all2 by lia. rewrite Nat.sub_diag, firstn_all. cbn.
        rewrite app_nil_r, map_app. reflexivity.
      * cbn [undec]. lia.
      * cbn. tauto.
    + injection H as <- <-. cbn [lbl_hist pushed popped]. rewrite !app_nil_r.
      constructor; cbn [heap head tail chan count pushes cons]; auto.
      * cbn. now rewrite app_nil_r.
      * intros Hch Hpos _. unfold link_of in Hlink.
        destruct (nth_error (pushes s) (tail s)) as [pu|] eqn:Ep.
        -- exists pu. split; [eapply nth_error_In; eauto|].
           unfold will_signal. destruct (pstage pu); try discriminate. exact I.
        -- apply nth_error_None in Ep. pose proof (ncounted_le (pushes s)). lia.
  - (* LDec *)
    destruct (cons s) as [| |v|] eqn:Ec; try discriminate.
    injection H as <- <-. cbn [lbl_hist pushed popped]. rewrite !app_nil_r.
    constructor; cbn [heap head tail chan count pushes cons]; auto.
    + cbn in *. lia.
    + cbn. lia.
  - (* LCSend *)
    destruct (cons s) as [| | |c v] eqn:Ec; try discriminate.
    injection H as <- <-. cbn [lbl_hist pushed popped]. rewrite !app_nil_r.
    constructor; cbn [heap head tail chan count pushes cons]; auto.
    + cbn in *. now rewrite app_nil_r.
    + intros Hch Hc Hq. apply offer_none in Hch as [Hch Hle]. apply HT; auto.
Qed.

Lemma inv_run sched : forall s s' e hist out, Inv s hist out -> run step s sched = Some (s', e) ->
  Inv s' (hist ++ pushed sched) (out ++ popped e).
Proof.
  induction sched as [|l r IH]; intros s s' e hist out HI H; cbn [run] in H.
  - inversion H; subst. cbn. now rewrite !app_nil_r.
  - destruct (step s l) as [[s1 e1]|] eqn:E1; [|discriminate].
    destruct (run step s1 r) as [[s2 e2]|] eqn:E2; [|discriminate]. inversion H; subst; clear H.
    pose proof (inv_step _ _ _ _ _ _ HI E1) as HI1.
    pose proof (IH _ _ _ _ _ HI1 E2) as HI2.
    rewrite <- !app_assoc in HI2. change (l :: r) with ([l] ++ r). rewrite pushed_app, popped_app.
    exact HI2.
Qed.

Lemma inv_reach (sched : list (label V)) s e : run step init sched = Some (s, e) -> Inv s (pushed sched) (popped e).
Proof. intros H. exact (inv_run _ _ _ _ [] [] inv_init H). Qed.

(** C08 *)
Lemma fifo (sched : list (label V)) s e : run step init sched = Some (s, e) ->
  exists rest, map snd (pushed sched) = popped e ++ rest.
Proof.
  intros H. apply inv_reach in H. destruct H.
  exists (in_hand (cons s) ++ map snd (skipn (tail s) (pushed sched))).
  rewrite app_assoc, <- i_out0, <- map_app. now rewrite firstn_skipn.
Qed.

Lemma quiescent_pop (sched : list (label V)) s e : run step init sched = Some (s, e) ->
  no_push_in_progress s -> no_pop_in_progress s ->
  forall v rest, map snd (pushed sched) = popped e ++ v :: rest ->
  exists s', run step s [LPop; LDec; LCSend] = Some (s', [EPop (Some v)]).
Proof.
  intros H Hq Hc v rest Hr. apply inv_reach in H. destruct H as [Hh Hhd Hp Ht HP HN HV HO HC HT].
  assert (Hin : in_hand (cons s) = []) by (unfold no_pop_in_progress in Hc; destruct (cons s); try contradiction; reflexivity).
  rewrite Hin, app_nil_r in HO.
  assert (Hl : length (popped e) = tail s).
  { rewrite <- HO, map_length, firstn_length. lia. }
  assert (Hlt : tail s < length (pushed sched)).
  { rewrite <- (map_length snd), Hr, app_length. cbn. lia. }
  destruct (nth_error (heap s) (tail s)) as [tl|] eqn:Et; [|apply nth_error_None in Et; lia].
  destruct (nth_error (heap s) (S (tail s))) as [nd|] eqn:End; [|apply nth_error_None in End; lia].
  destruct (nth_error (pushes s) (tail s)) as [pu|] eqn:Ep; [|apply nth_error_None in Ep; lia].
  assert (Hnx : next tl = Some (S (tail s))).
  { rewrite (HN _ _ Et). unfold link_of. rewrite Ep, (Hq _ (nth_error_In _ _ Ep)). reflexivity. }
  assert (Hv : val nd = Some v).
  { rewrite (HV _ _ End (Nat.le_refl _)), <- nth_error_map, Hr, nth_error_app2 by lia.
    rewrite Hl, Nat.sub_diag. reflexivity. }
  eexists. cbn [run step]. unfold no_pop_in_progress in Hc. destruct (cons s); try contradiction;
    rewrite Et, Hnx, End, Hv; cbn; reflexivity.
Qed.

(** C09 *)
Lemma finds_nothing (sched : list (label V)) s e : run step init sched = Some (s, e) -> no_pop_in_progress s ->
  (Empty s = Some true <-> length (popped e) = length (pushed sched) \/ exists pu, nth_error (pushes s) (length (popped e)) = Some pu /\ pstage pu = Swapped) /\
  (Empty s = Some true <-> exists s', step s LPop = Some (s', [EPop None])).
Proof.
  intros H Hc. apply inv_reach in H. destruct H as [Hh Hhd Hp Ht HP HN HV HO HC HT].
  assert (Hin : in_hand (cons s) = []) by (unfold no_pop_in_progress in Hc; destruct (cons s); try contradiction; reflexivity).
  rewrite Hin, app_nil_r in HO.
  assert (Hl : length (popped e) = tail s) by (rewrite <- HO, map_length, firstn_length; lia).
  rewrite Hl, <- Hp in *. unfold Empty. destruct (nth_error (heap s) (tail s)) as [tl|] eqn:E; [|apply nth_error_None in E; lia].
  pose proof (HN _ _ E) as N. unfold link_of in N. split.
  - destruct (nth_error (pushes s) (tail s)) as [pu|] eqn:P.
    + assert (tail s < length (pushes s)) by (apply nth_error_Some; congruence).
      destruct (pstage pu) eqn:Q; rewrite N; split; intros X; try discriminate; try reflexivity; [right; exists pu; auto| | |]; destruct X as [X|(q & X & Y)]; try lia; congruence.
    + rewrite N. split; [intros _; left; apply nth_error_None in P; lia|reflexivity].
  - unfold no_pop_in_progress in Hc. cbn [step]. rewrite E. destruct (cons s); try contradiction.
    all: destruct (next tl) as [n|]; split; intros X; try discriminate; try reflexivity; try (eexists; reflexivity); destruct X as (s' & X); destruct (nth_error (heap s) n) as [nd|]; try discriminate; destruct (val nd); discriminate.
Qed.

Lemma wakeup (sched : list (label V)) s e : run step init sched = Some (s, e) ->
  cons s = CIdle -> Empty s = Some false ->
  chan s <> None \/ exists p, In p (pushes s) /\ will_signal p.
Proof.
  intros H Hc He. apply inv_reach in H. destruct H as [Hh Hhd Hp Ht HP HN HV HO HC HT].
  destruct (chan s) eqn:Ech; [left; discriminate|right].
  destruct (Z_lt_ge_dec 0 (count s)) as [Hpos|Hneg].
  - apply HT; auto. now rewrite Hc.
  - rewrite Hc in HC. cbn [undec] in HC.
    assert (Hlt : tail s < length (pushes s)).
    { unfold Empty in He. destruct (nth_error (heap s) (tail s)) as [tl|] eqn:Et; [|discriminate].
      pose proof (HN _ _ Et) as Hx. unfold link_of in Hx.
      destruct (nth_error (pushes s) (tail s)) eqn:E; [apply nth_error_Some; congruence|].
      rewrite Hx in He. discriminate. }
    assert (Hn : (ncounted (pushes s) < Z.of_nat (length (pushes s)))%Z) by lia.
    clear - Hn. induction (pushes s) as [|a l IH]; cbn [ncounted length] in Hn; [lia|].
    destruct (counted a) eqn:E.
    + cbn [b2z] in Hn. destruct IH as (p & Hp & Hw); [lia|]. exists p. split; [now right|assumption].
    + exists a. split; [now left|]. unfold counted in E. unfold will_signal.
      destruct (pstage a); try discriminate; exact I.
Qed.

Lemma push_step_cons s l s' e : push_step l = true -> step (V:=V) s l = Some (s', e) ->
  cons s' = cons s /\ tail s' = tail s /\ length (pushes s') = length (pushes s) /\ popped e = [].
Proof.
  destruct l as [p v|i|i|i| | | |]; cbn [push_step step]; intros Hp H; try discriminate.
  - destruct (nth_error (pushes s) i) as [pu|]; [|discriminate].
    destruct (pstage pu); try discriminate.
    destruct (nth_error (heap s) (pprev pu)); [|discriminate]. inversion H; subst; cbn.
    rewrite upd_length; auto.
  - destruct (nth_error (pushes s) i) as [pu|]; [|discriminate].
    destruct (pstage pu); try discriminate. inversion H; subst; cbn. rewrite upd_length; auto.
  - destruct (nth_error (pushes s) i) as [pu|]; [|discriminate].
    destruct (pstage pu); try discriminate. inversion H; subst; cbn. rewrite upd_length; auto.
Qed.
Lemma push_steps_cons r : forall s s' e, forallb push_step r = true -> run (step (V:=V)) s r = Some (s', e) ->
  cons s' = cons s /\ tail s' = tail s /\ length (pushes s') = length (pushes s) /\ popped e = [].
Proof.
  induction r as [|l r IH]; intros s s' e Hf H; cbn [run forallb] in *.
  - inversion H; subst; auto.
  - apply andb_prop in Hf as [Hl Hf].
    destruct (step s l) as [[s1 e1]|] eqn:E1; [|discriminate].
    destruct (run step s1 r) as [[s2 e2]|] eqn:E2; [|discriminate]. inversion H; subst; clear H.
    destruct (push_step_cons _ _ _ _ Hl E1) as (A1&A2&A3&A4).
    destruct (IH _ _ _ Hf E2) as (B1&B2&B3&B4). rewrite popped_app, A4, B4.
    repeat split; congruence.
Qed.

Lemma at_rest (sched : list (label V)) s e : run step init sched = Some (s, e) ->
  no_push_in_progress s -> no_pop_in_progress s ->
  Count s = (Z.of_nat (length (pushed sched)) - Z.of_nat (length (popped e)))%Z /\
  (Empty s = Some true <-> length (popped e) = length (pushed sched)) /\
  (Empty s = Some false <-> length (popped e) < length (pushed sched)).
Proof.
  intros H Hq Hc. apply inv_reach in H. destruct H as [Hh Hhd Hp Ht HP HN HV HO HC HT].
  assert (Hin : in_hand (cons s) = [] /\ undec (cons s) = 0%Z) by
    (unfold no_pop_in_progress in Hc; destruct (cons s); try contradiction; auto).
  destruct Hin as [Hin Hun]. rewrite Hin, app_nil_r in HO.
  assert (Hl : length (popped e) = tail s).
  { rewrite <- HO, map_length, firstn_length. lia. }
  rewrite (ncounted_all _ Hq) in HC. unfold Count. split; [lia|].
  unfold Empty. destruct (nth_error (heap s) (tail s)) as [tl|] eqn:Et; [|apply nth_error_None in Et; lia].
  rewrite (HN _ _ Et). unfold link_of.
  destruct (nth_error (pushes s) (tail s)) as [pu|] eqn:Ep.
  - rewrite (Hq _ (nth_error_In _ _ Ep)).
    assert (tail s < length (pushes s)) by (apply nth_error_Some; congruence).
    split; split; intros; try discriminate; try lia; reflexivity.
  - apply nth_error_None in Ep.
    split; split; intros; try discriminate; try lia; reflexivity.
Qed.

Lemma wakeup_rest (sched : list (label V)) s e : run step init sched = Some (s, e) ->
  cons s = CIdle -> no_push_in_progress s -> length (popped e) < length (pushed sched) ->
  chan s <> None.
Proof.
  intros H Hc Hq Hlt.
  assert (Hnp : no_pop_in_progress s) by (unfold no_pop_in_progress; now rewrite Hc).
  destruct (at_rest _ _ _ H Hq Hnp) as (_ & _ & HE).
  destruct (wakeup _ _ _ H Hc (proj2 HE Hlt)) as [|(p & Hp & Hw)]; [assumption|].
  unfold will_signal in Hw. rewrite (Hq _ Hp) in Hw. contradiction.
Qed.

(** Letting the started pushes finish, in any order, always leaves a token. *)
Lemma wakeup_delivered (sched : list (label V)) s e r s' e' : run step init sched = Some (s, e) ->
  cons s = CIdle -> length (popped e) < length (pushed sched) ->
  forallb push_step r = true -> run step s r = Some (s', e') -> no_push_in_progress s' ->
  chan s' <> None.
Proof.
  intros H Hc Hlt Hf Hr Hq.
  pose proof (run_app step _ _ _ _ _ _ _ H Hr) as HR.
  destruct (push_steps_cons _ _ _ _ Hf Hr) as (B1&B2&B3&B4).
  apply (wakeup_rest _ _ _ HR); [congruence|assumption|].
  rewrite pushed_app, popped_app, B4, app_nil_r, app_length. lia.
Qed.

(** Started pushes can always be run to completion. *)
Lemma link_enabled (sched : list (label V)) s e i pu : run step init sched = Some (s, e) ->
  nth_error (pushes s) i = Some pu -> pstage pu <> Done ->
  exists l s' e', push_step l = true /\ step s l = Some (s', e').
Proof.
  intros H Hi Hd. apply inv_reach in H. destruct H as [Hh Hhd Hp Ht HP HN HV HO HC HT].
  destruct (HP _ _ Hi) as (P1&P2&P3).
  assert (i < length (pushes s)) by (apply nth_error_Some; congruence).
  destruct (pstage pu) eqn:Es.
  - destruct (nth_error (heap s) i) as [nd|] eqn:En; [|apply nth_error_None in En; lia].
    exists (LLink i). do 2 eexists. split; [reflexivity|]. cbn [step]. rewrite Hi, Es, P2, En. reflexivity.
  - exists (LAdd i). do 2 eexists. split; [reflexivity|]. cbn [step]. rewrite Hi, Es. reflexivity.
  - exists (LSend i). do 2 eexists. split; [reflexivity|]. cbn [step]. rewrite Hi, Es. reflexivity.
  - congruence.
Qed.

(** C11, the part that holds: visible when the oldest unpopped push is linked. *)
Lemma visible (sched : list (label V)) s e : run step init sched = Some (s, e) ->
  (forall p, In p (pushes s) -> pstage p <> Swapped) ->
  no_pop_in_progress s -> length (popped e) < length (pushed sched) ->
  Empty s = Some false /\ exists v s1 e1, step s LPop = Some (s1, e1) /\ cons s1 = CPopped v /\
    nth_error (map snd (pushed sched)) (length (popped e)) = Some v.
Proof.
  intros H Hq Hc Hlt. apply inv_reach in H. destruct H as [Hh Hhd Hp Ht HP HN HV HO HC HT].
  assert (Hin : in_hand (cons s) = []) by (unfold no_pop_in_progress in Hc; destruct (cons s); try contradiction; auto).
  rewrite Hin, app_nil_r in HO.
  assert (Hl : length (popped e) = tail s).
  { rewrite <- HO, map_length, firstn_length. lia. }
  destruct (nth_error (heap s) (tail s)) as [tl|] eqn:Et; [|apply nth_error_None in Et; lia].
  destruct (nth_error (heap s) (S (tail s))) as [nd|] eqn:End; [|apply nth_error_None in End; lia].
  destruct (nth_error (pushes s) (tail s)) as [pu|] eqn:Ep; [|apply nth_error_None in Ep; lia].
  assert (Hnx : next tl = Some (S (tail s))).
  { rewrite (HN _ _ Et). unfold link_of. rewrite Ep. pose proof (Hq _ (nth_error_In _ _ Ep)).
    destruct (pstage pu); congruence. }
  split; [unfold Empty; now rewrite Et, Hnx|].
  destruct (nth_error (pushed sched) (tail s)) as [[p0 v]|] eqn:Eh; [|apply nth_error_None in Eh; lia].
  assert (Hv : val nd = Some v).
  { rewrite (HV _ _ End (Nat.le_refl _)), Eh. reflexivity. }
  exists v. rewrite Hl, nth_error_map, Eh.
  cbn [step]. unfold no_pop_in_progress in Hc. destruct (cons s); try contradiction; rewrite Et, Hnx, End, Hv; cbn;
    do 2 eexists; repeat split; reflexivity.
Qed.

(** Pushes of one goroutine appear in its program order: the owner field of
    the i-th push is the goroutine of the i-th swap, and a goroutine never has
    two pushes in flight. *)
Definition one_at_a_time (s : state V) : Prop :=
  forall i j p q, nth_error (pushes s) i = Some p -> nth_error (pushes s) j = Some q ->
    owner p = owner q -> pstage p <> Done -> pstage q <> Done -> i = j.
Lemma oaat_step s l s' e : one_at_a_time s -> step s l = Some (s', e) -> one_at_a_time s'.
Proof.
  intros HO H.
  assert (Hupd : forall i pu st, nth_error (pushes s) i = Some pu -> pstage pu <> Done ->
    forall t, pushes t = upd (pushes s) i (set_stage pu st) -> one_at_a_time t).
  { intros i pu st Hi Hnd t Et a b p q Ha Hb Hw Hp Hq.
    assert (i < length (pushes s)) by (apply nth_error_Some; congruence).
    rewrite Et, nth_upd in Ha, Hb by assumption.
    destruct (Nat.eqb_spec i a) as [Ea|Ea]; destruct (Nat.eqb_spec i b) as [Eb|Eb]; try congruence.
    - inversion Ha; subst p a. cbn in Hw. eapply HO; eauto.
    - inversion Hb; subst q b. cbn in Hw. eapply HO; eauto.
    - eapply HO; eauto. }
  destruct l as [p v|i|i|i| | | |]; cbn [step] in H.
  - destruct (busy p (pushes s)) eqn:Eb; [discriminate|]. inversion H; subst; clear H.
    intros a b p0 q Ha Hb Hw Hp Hq. cbn [pushes] in *.
    assert (Hfree : forall j q0, nth_error (pushes s) j = Some q0 -> pstage q0 <> Done -> owner q0 <> p).
    { intros j q0 Hj Hnd Ho. assert (busy p (pushes s) = true); [|congruence].
      unfold busy. apply existsb_exists. exists q0. split; [eapply nth_error_In; eauto|].
      rewrite Ho, Nat.eqb_refl. unfold in_flight. destruct (pstage q0); auto; congruence. }
    destruct (Nat.lt_ge_cases a (length (pushes s))), (Nat.lt_ge_cases b (length (pushes s))).
    + rewrite nth_error_app1 in Ha, Hb by assumption. eapply HO; eauto.
    + rewrite nth_error_app1 in Ha by assumption. rewrite nth_error_app2 in Hb by assumption.
      destruct (b - length (pushes s)) as [|[]]; try discriminate. inversion Hb; subst. cbn in Hw.
      exfalso. eapply Hfree; eauto.
    + rewrite nth_error_app2 in Ha by assumption. rewrite nth_error_app1 in Hb by assumption.
      destruct (a - length (pushes s)) as [|[]]; try discriminate. inversion Ha; subst. cbn in Hw.
      exfalso. eapply Hfree; eauto.
    + rewrite nth_error_app2 in Ha, Hb by assumption.
      destruct (a - length (pushes s)) as [|[]] eqn:E1; try discriminate.
      destruct (b - length (pushes s)) as [|[]] eqn:E2; try discriminate. lia.
  - destruct (nth_error (pushes s) i) as [pu|] eqn:Ei; [|discriminate].
    destruct (pstage pu) eqn:Es; try discriminate.
    destruct (nth_error (heap s) (pprev pu)); [|discriminate]. inversion H; subst.
    eapply Hupd; [exact Ei|congruence|reflexivity].
  - destruct (nth_error (pushes s) i) as [pu|] eqn:Ei; [|discriminate].
    destruct (pstage pu) eqn:Es; try discriminate. inversion H; subst.
    eapply Hupd; [exact Ei|congruence|reflexivity].
  - destruct (nth_error (pushes s) i) as [pu|] eqn:Ei; [|discriminate].
    destruct (pstage pu) eqn:Es; try discriminate. inversion H; subst.
    eapply Hupd; [exact Ei|congruence|reflexivity].
  - destruct (cons s); try discriminate. destruct (chan s); [|discriminate]. inversion H; subst. exact HO.
  - destruct (cons s); try discriminate;
    (destruct (nth_error (heap s) (tail s)) as [tl|]; [|discriminate]);
    (destruct (next tl) as [n|];
      [destruct (nth_error (heap s) n) as [nd|]; [|discriminate]; destruct (val nd); [|discriminate]|]);
    inversion H; subst; exact HO.
  - destruct (cons s); try discriminate. inversion H; subst. exact HO.
  - destruct (cons s); try discriminate. inversion H; subst. exact HO.
Qed.

Lemma oaat_run sched : forall s s' e, one_at_a_time s -> run step s sched = Some (s', e) -> one_at_a_time s'.
Proof.
  induction sched as [|l r IH]; intros s s' e HI H; cbn [run] in H.
  - inversion H; subst. exact HI.
  - destruct (step s l) as [[s1 e1]|] eqn:E1; [|discriminate].
    destruct (run step s1 r) as [[s2 e2]|] eqn:E2; [|discriminate]. inversion H; subst; clear H.
    eapply IH; [|exact E2]. eapply oaat_step; eauto.
Qed.

(** When a goroutine calls Push, its earlier pushes have all returned. *)
Lemma program_order (sched : list (label V)) s e p v s' e' :
  run step init sched = Some (s, e) -> step s (LSwap p v) = Some (s', e') ->
  forall i q, nth_error (pushed sched) i = Some (p, q) ->
    exists pu, nth_error (pushes s) i = Some pu /\ pstage pu = Done.
Proof.
  intros H Hs i q Hi. apply inv_reach in H. destruct H as [Hh Hhd Hp Ht HP HN HV HO HC HT].
  assert (i < length (pushed sched)) by (apply nth_error_Some; congruence).
  destruct (nth_error (pushes s) i) as [pu|] eqn:E; [|apply nth_error_None in E; lia].
  exists pu. split; [reflexivity|]. destruct (HP _ _ E) as (_ & _ & Hw). rewrite Hi in Hw. cbn in Hw.
  inversion Hw as [Ho]. cbn [step] in Hs. destruct (busy p (pushes s)) eqn:Eb; [discriminate|].
  destruct (pstage pu) eqn:Es; auto; exfalso;
  (assert (busy p (pushes s) = true); [|congruence]);
  unfold busy; apply existsb_exists; exists pu; (split; [eapply nth_error_In; eauto|]);
  rewrite <- Ho, Nat.eqb_refl; unfold in_flight; rewrite Es; reflexivity.
Qed.

(** The consumer never meets a dangling pointer or a nil value. *)
Lemma pop_enabled (sched : list (label V)) s e : run step init sched = Some (s, e) ->
  no_pop_in_progress s -> exists s' e', step s LPop = Some (s', e').
Proof.
  intros H Hc. apply inv_reach in H. destruct H as [Hh Hhd Hp Ht HP HN HV HO HC HT].
  destruct (nth_error (heap s) (tail s)) as [tl|] eqn:Et; [|apply nth_error_None in Et; lia].
  pose proof (HN _ _ Et) as Hl. destruct (next tl) as [n|] eqn:En.
  - unfold link_of in Hl. destruct (nth_error (pushes s) (tail s)) as [pu|] eqn:Ep; [|discriminate].
    assert (n = S (tail s)) by (destruct (pstage pu); congruence). subst n.
    assert (tail s < length (pushes s)) by (apply nth_error_Some; congruence).
    destruct (nth_error (heap s) (S (tail s))) as [nd|] eqn:End; [|apply nth_error_None in End; lia].
    pose proof (HV _ _ End (Nat.le_refl _)) as Hv.
    destruct (nth_error (pushed sched) (tail s)) as [[p0 v]|] eqn:Eh; [|apply nth_error_None in Eh; lia].
    cbn in Hv. do 2 eexists. cbn [step].
    unfold no_pop_in_progress in Hc. destruct (cons s); try contradiction; rewrite Et, En, End, Hv; reflexivity.
  - do 2 eexists. cbn [step].
    unfold no_pop_in_progress in Hc. destruct (cons s); try contradiction; rewrite Et, En; reflexivity.
Qed.

Lemma fifo_strong (sched : list (label V)) s e : run step init sched = Some (s, e) ->
  exists k, k <= length (pushed sched) /\ popped e = map snd (firstn k (pushed sched)).
Proof.
  intros H. destruct (fifo _ _ _ H) as [rest Hr]. exists (length (popped e)).
  assert (Hle : length (popped e) <= length (pushed sched)).
  { rewrite <- (map_length snd (pushed sched)), Hr, app_length. lia. }
  split; [exact Hle|]. rewrite <- firstn_map, Hr, firstn_app, Nat.sub_diag, firstn_all.
  cbn. now rewrite app_nil_r.
Qed.

(** Started pushes can be run to completion. *)
Definition todo (p : push) : nat :=
  match pstage p with Swapped => 3 | Linked => 2 | Added _ => 1 | Done => 0 end.
Fixpoint todos (l : list push) : nat := match l with [] => 0 | p :: r => todo p + todos r end.
Lemma todos_upd l i p q : nth_error l i = Some p -> todo q < todo p -> todos (upd l i q) < todos l.
Proof.
  revert i; induction l as [|a l IH]; intros [|i] H Hlt; cbn in *; try discriminate.
  - inversion H; subst. lia.
  - specialize (IH _ H Hlt). lia.
Qed.
Lemma todos_zero l : todos l = 0 -> forall p, In p l -> pstage p = Done.
Proof.
  induction l as [|a l IH]; cbn; intros H p Hp; [contradiction|].
  destruct Hp as [->|Hp]; [|apply IH; auto; lia].
  unfold todo in H. destruct (pstage p); try lia; reflexivity.
Qed.
Lemma todos_pos l : todos l <> 0 -> exists i p, nth_error l i = Some p /\ pstage p <> Done.
Proof.
  induction l as [|a l IH]; cbn; intros H; [lia|].
  destruct (Nat.eq_dec (todo a) 0).
  - destruct IH as (i & p & Hi & Hp); [lia|]. exists (S i), p. auto.
  - exists 0, a. split; [reflexivity|]. intros E. unfold todo in n. rewrite E in n. lia.
Qed.
Lemma push_step_todos s l s' e : push_step l = true -> step (V:=V) s l = Some (s', e) ->
  todos (pushes s') < todos (pushes s).
Proof.
  destruct l as [p v|i|i|i| | | |]; cbn [push_step step]; intros Hp H; try discriminate;
  (destruct (nth_error (pushes s) i) as [pu|] eqn:Ei; [|discriminate]);
  destruct (pstage pu) eqn:Es; try discriminate;
  [destruct (nth_error (heap s) (pprev pu)); [|discriminate]| |];
  inversion H; subst; cbn [pushes]; eapply todos_upd; eauto; unfold todo; cbn; rewrite Es; lia.
Qed.
Lemma finish n : forall (sched : list (label V)) s e, run step init sched = Some (s, e) -> todos (pushes s) <= n ->
  exists r s' e', forallb push_step r = true /\ run step s r = Some (s', e') /\ no_push_in_progress s'.
Proof.
  induction n as [|n IH]; intros sched s e H Hn.
  - exists [], s, []. repeat split. unfold no_push_in_progress. intros p. apply todos_zero. lia.
  - destruct (Nat.eq_dec (todos (pushes s)) 0) as [E|E].
    + exists [], s, []. repeat split. unfold no_push_in_progress. intros p. now apply todos_zero.
    + destruct (todos_pos _ E) as (i & p & Hi & Hp).
      destruct (link_enabled _ _ _ _ _ H Hi Hp) as (l & s1 & e1 & Hl & Hs).
      pose proof (push_step_todos _ _ _ _ Hl Hs) as Hlt.
      assert (H1 : run step s [l] = Some (s1, e1)) by (cbn [run]; rewrite Hs, app_nil_r; reflexivity).
      pose proof (run_app step _ _ _ _ _ _ _ H H1) as H2.
      destruct (IH _ _ _ H2 ltac:(lia)) as (r & s' & e' & Hr1 & Hr2 & Hr3).
      exists (l :: r), s', (e1 ++ e'). cbn [forallb run]. rewrite Hl, Hr1, Hs, Hr2. auto.
Qed.
Lemma finish_pushes (sched : list (label V)) s e : run step init sched = Some (s, e) ->
  exists r s' e', forallb push_step r = true /\ run step s r = Some (s', e') /\ no_push_in_progress s'.
Proof. intros H. exact (finish _ _ _ _ H (Nat.le_refl _)). Qed.
End P.
