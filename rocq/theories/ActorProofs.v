(** Invariants of the actor machine. *)
From Coq Require Import List ZArith Bool Arith Lia.
From Verif Require Import Machine MpscModel MpscSpec MpscProofs ActorModel ActorSpec.
Import ListNotations.

(** ** Facts about queue steps *)
Lemma qstep_swap {V} (s s' : MpscModel.state V) p v e : MpscModel.step s (LSwap p v) = Some (s', e) ->
  pushes s' = pushes s ++ [mkPush p (length (heap s)) (head s) Swapped] /\ cons s' = cons s /\ e = [].
Proof. cbn. destruct (busy p (pushes s)); [discriminate|]. intros H. injection H as <- <-. auto. Qed.
Lemma qstep_mid {V} (s s' : MpscModel.state V) l i e : l = LLink i \/ l = LAdd i ->
  MpscModel.step s l = Some (s', e) ->
  exists pu st, nth_error (pushes s) i = Some pu /\ pstage pu <> Done /\ st <> Done /\
    pushes s' = upd (pushes s) i (set_stage pu st) /\ cons s' = cons s /\ e = [].
Proof.
  intros [-> | ->] H; cbn in H; (destruct (nth_error (pushes s) i) as [pu|] eqn:Ei; [|discriminate]);
  destruct (pstage pu) eqn:Es; try discriminate.
  - destruct (nth_error (heap s) (pprev pu)); [|discriminate]. injection H as <- <-.
    exists pu, Linked. repeat split; auto; congruence.
  - injection H as <- <-. exists pu, (MpscModel.Added (count s + 1)). repeat split; auto; congruence.
Qed.
Lemma qstep_send {V} (s s' : MpscModel.state V) i e : MpscModel.step s (LSend i) = Some (s', e) ->
  exists pu, nth_error (pushes s) i = Some pu /\ pstage pu <> Done /\
    pushes s' = upd (pushes s) i (set_stage pu Done) /\ cons s' = cons s /\ e = [EPushed i].
Proof.
  cbn. destruct (nth_error (pushes s) i) as [pu|] eqn:Ei; [|discriminate].
  destruct (pstage pu) eqn:Es; try discriminate. intros H. injection H as <- <-.
  exists pu. repeat split; auto; congruence.
Qed.
Lemma qstep_recv {V} (s s' : MpscModel.state V) e : MpscModel.step s LRecv = Some (s', e) ->
  pushes s' = pushes s /\ cons s = CIdle /\ cons s' = CGot /\ e = [].
Proof.
  cbn. destruct (cons s); try discriminate. destruct (chan s); [|discriminate].
  intros H. injection H as <- <-. auto.
Qed.
(** Inside Pop (consumer not idle before): what a step does. *)
Lemma qstep_pop {V} (s s' : MpscModel.state V) l e : is_pop l = true -> cons s <> CIdle ->
  MpscModel.step s l = Some (s', e) ->
  pushes s' = pushes s /\
  ((e = [EPop None] /\ cons s' = CIdle) \/ (exists v, e = [EPop (Some v)] /\ cons s' = CIdle) \/
   (e = [] /\ cons s' <> CIdle)).
Proof.
  intros Hl Hc H. destruct l; try discriminate; cbn in H.
  - destruct (cons s) eqn:Ec; try discriminate; [congruence|].
    destruct (nth_error (heap s) (tail s)) as [tl|]; [|discriminate].
    destruct (next tl) as [n|].
    + destruct (nth_error (heap s) n) as [nd|]; [|discriminate].
      destruct (val nd); [|discriminate]. injection H as <- <-. cbn.
      split; auto. right. right. split; [auto|discriminate].
    + injection H as <- <-. cbn. split; auto.
  - destruct (cons s) eqn:Ec; try discriminate. injection H as <- <-. cbn.
    split; auto. right. right. split; [auto|discriminate].
  - destruct (cons s) eqn:Ec; try discriminate. injection H as <- <-. cbn.
    split; auto. right. left. eauto.
Qed.

(** ** Event lists *)
Lemma entered_app a b : entered (a ++ b) = entered a ++ entered b.
Proof. induction a as [|[] a IH]; cbn; rewrite ?IH; auto. Qed.
Lemma taken_app a b : taken (a ++ b) = taken a ++ taken b.
Proof. induction a as [|[] a IH]; cbn; rewrite ?IH; auto. Qed.
Lemma released_app a b : released (a ++ b) = released a ++ released b.
Proof. induction a as [|[] a IH]; cbn; rewrite ?IH; auto. Qed.
Lemma adds_app g a b : adds g (a ++ b) = (adds g a + adds g b)%Z.
Proof. induction a as [|[] a IH]; cbn [app adds]; auto. rewrite IH. lia. Qed.
Lemma releases_app g a b : releases g (a ++ b) = (releases g a + releases g b)%Z.
Proof. induction a as [|m a IH]; cbn [app releases]; auto. rewrite IH. lia. Qed.
Lemma releases_nonneg g a : (0 <= releases g a)%Z.
Proof. induction a as [|m a IH]; cbn [releases]; [lia|]. destruct (Nat.eqb (mwg (snd m)) g); lia. Qed.

Lemma nodup_snoc {A} (l : list A) x : NoDup l -> ~ In x l -> NoDup (l ++ [x]).
Proof.
  induction l as [|y l IH]; cbn; intros H Hn; [constructor; auto; constructor|].
  inversion H; subst. constructor.
  - intros Hin. apply in_app_or in Hin as [|[->|[]]]; auto.
  - apply IH; auto.
Qed.

Lemma nodup_app_l {A} (l k : list A) : NoDup (l ++ k) -> NoDup l.
Proof.
  induction l as [|x l IH]; cbn; intros H; [constructor|]. inversion H; subst.
  constructor; auto. intros Hin. apply H2. apply in_or_app. auto.
Qed.

(** ** Deliveries *)
Definition in_box (st : dstage) : bool := match st with Pushing _ | Returned => true | _ => false end.
Definition has_added (st : dstage) : bool := match st with Checked => false | _ => true end.
Definition one (f : dstage -> bool) (g : nat) (d : delivery) : Z :=
  if f (dst d) && Nat.eqb (mwg (dmsg d)) g then 1%Z else 0%Z.
Fixpoint sumd (f : dstage -> bool) (g : nat) (l : list delivery) : Z :=
  match l with [] => 0%Z | d :: r => (one f g d + sumd f g r)%Z end.
Lemma sumd_app f g a b : sumd f g (a ++ b) = (sumd f g a + sumd f g b)%Z.
Proof. induction a as [|d a IH]; cbn [app sumd]; lia. Qed.
Lemma sumd_upd f g l i d x : nth_error l i = Some d ->
  sumd f g (upd l i x) = (sumd f g l - one f g d + one f g x)%Z.
Proof.
  revert i; induction l as [|a l IH]; intros [|i] H; cbn [upd nth_error sumd] in *; try discriminate.
  - injection H as ->. lia.
  - rewrite (IH _ H). lia.
Qed.
Lemma sumd_le g l : (sumd in_box g l <= sumd has_added g l)%Z.
Proof.
  induction l as [|d l IH]; cbn [sumd]; [lia|]. unfold one.
  destruct (dst d); cbn [in_box has_added andb]; destruct (Nat.eqb (mwg (dmsg d)) g); lia.
Qed.

Section P.
Variable registered : nat -> bool.
Notation step := (step registered).

Record Inv (evs : list event) (s : state) : Prop := {
  a_q : exists qs qe, run MpscModel.step MpscModel.init qs = Some (q s, qe) /\
    map snd (pushed qs) = entered evs /\ popped qe = taken evs;
  a_pc : (at_ s = InPop /\ cons (q s) <> CIdle) \/ (at_ s <> InPop /\ cons (q s) = CIdle);
  a_rel : taken evs = released evs ++ current s;
  a_del1 : forall i m j, nth_error (dels s) i = Some (mkDel m (Pushing j)) ->
    exists pu, nth_error (pushes (q s)) j = Some pu /\ owner pu = i /\ pstage pu <> Done;
  a_del2 : forall j pu, nth_error (pushes (q s)) j = Some pu -> pstage pu <> Done ->
    exists m, nth_error (dels s) (owner pu) = Some (mkDel m (Pushing j));
  a_ent : forall i m, (exists st, nth_error (dels s) i = Some (mkDel m st) /\ in_box st = true) <->
    In (i, m) (entered evs);
  a_nodup : NoDup (map fst (entered evs));
  a_grp : forall g, releases g (entered evs) = sumd in_box g (dels s);
  a_wg : forall g, wg s g = (sumd has_added g (dels s) - releases g (released evs))%Z;
  a_adds : forall g, adds g evs = sumd has_added g (dels s) }.

Lemma inv_init : Inv [] init.
Proof.
  constructor; cbn; auto.
  - exists [], []. auto.
  - right. split; [discriminate|reflexivity].
  - intros [] m j H; discriminate.
  - intros [] pu H; discriminate.
  - intros i m. split; [|tauto]. intros (st & H & _). destruct i; discriminate.
  - constructor.
Qed.

(** Steps that touch neither mailbox nor deliveries nor wait groups. *)
Lemma inv_frame evs s s' e : Inv evs s ->
  q s' = q s -> dels s' = dels s -> wg s' = wg s -> current s' = current s ->
  (at_ s' = InPop <-> at_ s = InPop) ->
  entered e = [] -> taken e = [] -> released e = [] -> (forall g, adds g e = 0%Z) ->
  Inv (evs ++ e) s'.
Proof.
  intros [A B C D E F G H I J] Hq Hd Hw Hc Ha H1 H2 H3 H4.
  constructor; rewrite ?entered_app, ?taken_app, ?released_app, ?H1, ?H2, ?H3, ?app_nil_r, ?Hq, ?Hd, ?Hw, ?Hc; auto.
  - tauto.
  - intros g. rewrite adds_app, H4. rewrite J. lia.
Qed.

Lemma q_extend qs qe (s s' : MpscModel.state qmsg) l e :
  run MpscModel.step MpscModel.init qs = Some (s, qe) -> MpscModel.step s l = Some (s', e) ->
  run MpscModel.step MpscModel.init (qs ++ [l]) = Some (s', qe ++ e).
Proof. intros H H1. eapply run_app; [exact H|]. now apply run_one. Qed.

Ltac inv_some H := injection H as <- <-.

Lemma nth_dels_upd (l : list delivery) i d x k y : nth_error l i = Some d ->
  nth_error (upd l i x) k = Some y -> (k = i /\ y = x) \/ (k <> i /\ nth_error l k = Some y).
Proof.
  intros H Hk. assert (i < length l) by (apply nth_error_Some; congruence).
  rewrite nth_upd in Hk by assumption. destruct (Nat.eqb_spec i k); [left; split; congruence|right; auto].
Qed.
Lemma nth_dels_upd_ne (l : list delivery) i d x k : nth_error l i = Some d -> k <> i ->
  nth_error (upd l i x) k = nth_error l k.
Proof. intros H Hk. apply nth_upd_neq. auto. Qed.
Lemma nth_dels_upd_eq (l : list delivery) i d x : nth_error l i = Some d ->
  nth_error (upd l i x) i = Some x.
Proof. intros H. apply nth_upd_eq. apply nth_error_Some. congruence. Qed.

Lemma inv_new evs s m : Inv evs s -> Inv (evs ++ []) (set_dels s (dels s ++ [mkDel m Checked])).
Proof.
  intros [A B C D E F G H I J]. rewrite app_nil_r. constructor; cbn; auto.
  - intros i m0 j Hi. destruct (Nat.lt_ge_cases i (length (dels s))).
    + rewrite nth_error_app1 in Hi by assumption. eauto.
    + rewrite nth_error_app2 in Hi by assumption.
      destruct (i - length (dels s)) as [|[]]; discriminate.
  - intros j pu Hj Hp. destruct (E _ _ Hj Hp) as (m' & Hm'). exists m'.
    rewrite nth_error_app1; auto. apply nth_error_Some. congruence.
  - intros i m0. rewrite <- F. split; intros (st & Hst & Hb); exists st; split; auto.
    + destruct (Nat.lt_ge_cases i (length (dels s))).
      * now rewrite nth_error_app1 in Hst by assumption.
      * rewrite nth_error_app2 in Hst by assumption.
        destruct (i - length (dels s)) as [|[]]; try discriminate. injection Hst as _ <-. discriminate.
    + rewrite nth_error_app1; auto. apply nth_error_Some. congruence.
  - intros g. rewrite sumd_app, H. cbn. lia.
  - intros g. rewrite sumd_app, I. cbn. lia.
  - intros g. rewrite sumd_app, J. cbn. lia.
Qed.

Lemma inv_addwg evs s i m : Inv evs s -> nth_error (dels s) i = Some (mkDel m Checked) ->
  Inv (evs ++ [EAdd (mwg m)])
    (set_dels (set_wg s (upd_wg (wg s) (mwg m) 1)) (upd (dels s) i (mkDel m Added))).
Proof.
  intros [A B C D E F G H I J] Hi.
  constructor; cbn; rewrite ?entered_app, ?taken_app, ?released_app; cbn; rewrite ?app_nil_r; auto.
  - intros k m0 j Hk. destruct (nth_dels_upd _ _ _ _ _ _ Hi Hk) as [[-> Hx]|[Hne Hx]]; [discriminate|eauto].
  - intros j pu Hj Hp. destruct (E _ _ Hj Hp) as (m' & Hm'). exists m'.
    rewrite (nth_dels_upd_ne _ _ _ _ _ Hi); auto. intros Ho. rewrite Ho in Hm'. congruence.
  - intros k m0. rewrite <- F. split; intros (st & Hst & Hb); exists st; split; auto.
    + destruct (nth_dels_upd _ _ _ _ _ _ Hi Hst) as [[-> Hx]|[Hne Hx]]; [|auto].
      injection Hx as _ ->. discriminate.
    + rewrite (nth_dels_upd_ne _ _ _ _ _ Hi); auto. intros ->. rewrite Hi in Hst. injection Hst as _ <-. discriminate.
  - intros g. rewrite (sumd_upd _ _ _ _ _ _ Hi), H. unfold one. cbn. lia.
  - intros g. rewrite (sumd_upd _ _ _ _ _ _ Hi). unfold upd_wg, one. cbn.
    rewrite I. rewrite (Nat.eqb_sym g). destruct (Nat.eqb (mwg m) g); lia.
  - intros g. rewrite (sumd_upd _ _ _ _ _ _ Hi), adds_app, J. unfold one. cbn. lia.
Qed.

Lemma inv_push evs s i m q' e : Inv evs s -> nth_error (dels s) i = Some (mkDel m Added) ->
  MpscModel.step (q s) (LSwap i (i, m)) = Some (q', e) ->
  Inv (evs ++ [EEnter (i, m)])
    (set_dels (set_q s q') (upd (dels s) i (mkDel m (Pushing (length (pushes (q s))))))).
Proof.
  intros [A B C D E F G H I J] Hi Hs. destruct (qstep_swap _ _ _ _ _ Hs) as (Hp & Hc & ->).
  destruct A as (qs & qe & A1 & A2 & A3).
  constructor; cbn; rewrite ?entered_app, ?taken_app, ?released_app; cbn; rewrite ?app_nil_r; auto.
  - exists (qs ++ [LSwap i (i, m)]), (qe ++ []). split; [eapply q_extend; eauto|].
    rewrite pushed_app, map_app, A2, popped_app, A3. cbn. now rewrite app_nil_r.
  - rewrite Hc. exact B.
  - intros k m0 j Hk. destruct (nth_dels_upd _ _ _ _ _ _ Hi Hk) as [[-> Hx]|[Hne Hx]].
    + injection Hx as -> ->. rewrite Hp, nth_error_app2, Nat.sub_diag by lia. cbn. eexists. split; [reflexivity|].
      cbn. split; [auto|discriminate].
    + destruct (D _ _ _ Hx) as (pu & H1 & H2 & H3). exists pu. rewrite Hp, nth_error_app1; auto.
      apply nth_error_Some. congruence.
  - intros j pu Hj Hst. rewrite Hp in Hj. destruct (Nat.lt_ge_cases j (length (pushes (q s)))).
    + rewrite nth_error_app1 in Hj by assumption. destruct (E _ _ Hj Hst) as (m' & Hm'). exists m'.
      rewrite (nth_dels_upd_ne _ _ _ _ _ Hi); auto. intros Ho. rewrite Ho in Hm'. congruence.
    + rewrite nth_error_app2 in Hj by assumption.
      destruct (j - length (pushes (q s))) as [|[]] eqn:Ej; try discriminate. injection Hj as <-. cbn.
      exists m. rewrite (nth_dels_upd_eq _ _ _ _ Hi). do 3 f_equal. lia.
  - intros k m0. split.
    + intros (st & Hst & Hb). destruct (nth_dels_upd _ _ _ _ _ _ Hi Hst) as [[-> Hx]|[Hne Hx]].
      * injection Hx as -> _. apply in_or_app. right. now left.
      * apply in_or_app. left. apply F. eauto.
    + intros Hin. apply in_app_or in Hin as [Hin|[Hin|[]]].
      * apply F in Hin as (st & Hst & Hb). exists st. split; auto.
        rewrite (nth_dels_upd_ne _ _ _ _ _ Hi); auto. intros ->. rewrite Hi in Hst. injection Hst as _ <-. discriminate.
      * injection Hin as <- <-. eexists. rewrite (nth_dels_upd_eq _ _ _ _ Hi). split; reflexivity.
  - rewrite map_app. cbn. assert (Hni : ~ In i (map fst (entered evs))).
    { intros Hin. apply in_map_iff in Hin as ([i' m'] & Hx & Hin). cbn in Hx. subst i'.
      apply F in Hin as (st & Hst & Hb). rewrite Hi in Hst. injection Hst as _ <-. discriminate. }
    now apply nodup_snoc.
  - intros g. rewrite (sumd_upd _ _ _ _ _ _ Hi), releases_app, H. unfold one. cbn.
    destruct (Nat.eqb (mwg m) g); lia.
  - intros g. rewrite (sumd_upd _ _ _ _ _ _ Hi), I. unfold one. cbn. lia.
  - intros g. rewrite (sumd_upd _ _ _ _ _ _ Hi), adds_app, J. unfold one. cbn. lia.
Qed.

Lemma inv_mid evs s i m j q' l e : Inv evs s -> nth_error (dels s) i = Some (mkDel m (Pushing j)) ->
  l = LLink j \/ l = LAdd j -> MpscModel.step (q s) l = Some (q', e) ->
  Inv (evs ++ []) (set_dels (set_q s q') (upd (dels s) i (mkDel m (Pushing j)))).
Proof.
  intros [A B C D E F G H I J] Hi Hl Hs.
  destruct (qstep_mid _ _ _ _ _ Hl Hs) as (pu & st & P1 & P2 & P3 & P4 & P5 & ->).
  destruct A as (qs & qe & A1 & A2 & A3). rewrite app_nil_r.
  assert (Hnop : pushed [l] = @nil (nat * qmsg)) by (destruct Hl as [-> | ->]; reflexivity).
  assert (Hlen : j < length (pushes (q s))) by (apply nth_error_Some; congruence).
  assert (Hid : forall k, nth_error (upd (dels s) i (mkDel m (Pushing j))) k = nth_error (dels s) k).
  { intros k. destruct (Nat.eq_dec k i) as [->|Hne].
    - rewrite (nth_dels_upd_eq _ _ _ _ Hi). auto.
    - now rewrite (nth_dels_upd_ne _ _ _ _ _ Hi). }
  constructor; cbn; auto.
  - exists (qs ++ [l]), (qe ++ []). split; [eapply q_extend; eauto|].
    rewrite pushed_app, map_app, A2, popped_app, A3, Hnop. cbn. now rewrite !app_nil_r.
  - rewrite P5. exact B.
  - intros k m0 j0 Hk. rewrite Hid in Hk. destruct (D _ _ _ Hk) as (pu0 & H1 & H2 & H3).
    rewrite P4, nth_upd by assumption. destruct (Nat.eqb_spec j j0) as [<-|].
    + eexists. split; [reflexivity|]. cbn. split; auto. congruence.
    + eauto.
  - intros j0 pu0 Hj0 Hst. rewrite P4, nth_upd in Hj0 by assumption.
    destruct (Nat.eqb_spec j j0) as [<-|].
    + injection Hj0 as <-. cbn. rewrite Hid. destruct (E _ _ P1 P2) as (m' & Hm'). eauto.
    + destruct (E _ _ Hj0 Hst) as (m' & Hm'). rewrite Hid. eauto.
  - intros k m0. rewrite Hid. apply F.
  - intros g. rewrite (sumd_upd _ _ _ _ _ _ Hi), H. unfold one. cbn. lia.
  - intros g. rewrite (sumd_upd _ _ _ _ _ _ Hi), I. unfold one. cbn. lia.
  - intros g. rewrite (sumd_upd _ _ _ _ _ _ Hi), J. unfold one. cbn. lia.
Qed.

Lemma inv_signal evs s i m j q' e : Inv evs s -> nth_error (dels s) i = Some (mkDel m (Pushing j)) ->
  MpscModel.step (q s) (LSend j) = Some (q', e) ->
  Inv (evs ++ [EAccepted i]) (set_dels (set_q s q') (upd (dels s) i (mkDel m Returned))).
Proof.
  intros [A B C D E F G H I J] Hi Hs.
  destruct (qstep_send _ _ _ _ Hs) as (pu & P1 & P2 & P4 & P5 & ->).
  destruct A as (qs & qe & A1 & A2 & A3).
  assert (Hlen : j < length (pushes (q s))) by (apply nth_error_Some; congruence).
  constructor; cbn; rewrite ?entered_app, ?taken_app, ?released_app; cbn; rewrite ?app_nil_r; auto.
  - exists (qs ++ [LSend j]), (qe ++ [EPushed j]). split; [eapply q_extend; eauto|].
    rewrite pushed_app, map_app, A2, popped_app, A3. cbn. now rewrite !app_nil_r.
  - rewrite P5. exact B.
  - intros k m0 j0 Hk. destruct (nth_dels_upd _ _ _ _ _ _ Hi Hk) as [[-> Hx]|[Hne Hx]]; [discriminate|].
    destruct (D _ _ _ Hx) as (pu0 & H1 & H2 & H3).
    destruct (Nat.eq_dec j j0) as [<-|Hne2].
    + exfalso. destruct (D _ _ _ Hi) as (pu1 & ? & ? & ?). congruence.
    + exists pu0. rewrite P4, nth_upd_neq by assumption. auto.
  - intros j0 pu0 Hj0 Hst. rewrite P4, nth_upd in Hj0 by assumption.
    destruct (Nat.eqb_spec j j0) as [<-|Hne].
    + injection Hj0 as <-. cbn in Hst. congruence.
    + destruct (E _ _ Hj0 Hst) as (m' & Hm'). exists m'. rewrite (nth_dels_upd_ne _ _ _ _ _ Hi); auto.
      intros Ho. rewrite Ho, Hi in Hm'. injection Hm' as _ ?. congruence.
  - intros k m0. rewrite <- F. split; intros (st & Hst & Hb).
    + destruct (nth_dels_upd _ _ _ _ _ _ Hi Hst) as [[-> Hx]|[Hne Hx]]; [|eauto].
      injection Hx as -> _. exists (Pushing j). auto.
    + destruct (Nat.eq_dec k i) as [->|Hne].
      * rewrite Hi in Hst. injection Hst as <- _. exists Returned. rewrite (nth_dels_upd_eq _ _ _ _ Hi). auto.
      * exists st. rewrite (nth_dels_upd_ne _ _ _ _ _ Hi); auto.
  - intros g. rewrite (sumd_upd _ _ _ _ _ _ Hi), H. unfold one. cbn. lia.
  - intros g. rewrite (sumd_upd _ _ _ _ _ _ Hi), I. unfold one. cbn. lia.
  - intros g. rewrite (sumd_upd _ _ _ _ _ _ Hi), adds_app, J. unfold one. cbn. lia.
Qed.

(** Steps of the loop on the mailbox: everything but queue, location and taken
    messages is unchanged. *)
Lemma inv_qstep evs s q' l e ev at' : Inv evs s -> MpscModel.step (q s) l = Some (q', e) ->
  pushed [l] = [] -> pushes q' = pushes (q s) -> at_ s = InPop \/ at_ s = Select ->
  entered ev = [] -> released ev = [] -> (forall g, adds g ev = 0%Z) -> popped e = taken ev ->
  ((at' = InPop /\ cons q' <> CIdle) \/ (at' <> InPop /\ cons q' = CIdle)) ->
  taken ev = match at' with Handle m | HandleDone m => [m] | _ => [] end ->
  Inv (evs ++ ev) (set_at (set_q s q') at').
Proof.
  intros [A B C D E F G H I J] Hs Hnp Hpu Hat He Hr Ha Hpop Hpc Hcur.
  destruct A as (qs & qe & A1 & A2 & A3).
  constructor; cbn; rewrite ?entered_app, ?taken_app, ?released_app, ?He, ?Hr, ?app_nil_r, ?Hpu; auto.
  - exists (qs ++ [l]), (qe ++ e). split; [eapply q_extend; eauto|].
    rewrite pushed_app, map_app, A2, popped_app, A3, Hnp, Hpop. cbn. now rewrite app_nil_r.
  - unfold current. cbn. rewrite <- Hcur. rewrite C. unfold current.
    destruct Hat as [-> | ->]; now rewrite app_nil_r.
  - intros g. rewrite adds_app, Ha, J. lia.
Qed.

Lemma released_bound evs s : Inv evs s ->
  exists rest, entered evs = taken evs ++ rest.
Proof. intros [(qs & qe & A1 & A2 & A3) _ _ _ _ _ _ _ _ _]. destruct (fifo _ _ _ A1) as [rest Hr]. exists rest. congruence. Qed.

(** The wait group of the message being finished is positive. *)
Lemma wg_positive evs s m : Inv evs s -> at_ s = HandleDone m -> (0 < wg s (mwg (snd m)))%Z.
Proof.
  intros HI Ha. destruct (released_bound _ _ HI) as [rest Hr]. destruct HI as [A B C D E F G H I J].
  rewrite I. pose proof (sumd_le (mwg (snd m)) (dels s)) as Hle. rewrite <- H, Hr, C in Hle.
  unfold current in Hle. rewrite Ha, !releases_app in Hle. cbn [releases] in Hle.
  rewrite Nat.eqb_refl in Hle. pose proof (releases_nonneg (mwg (snd m)) rest). lia.
Qed.
Lemma wg_nonneg evs s g : Inv evs s -> (0 <= wg s g)%Z.
Proof.
  intros HI. destruct (released_bound _ _ HI) as [rest Hr]. destruct HI as [A B C D E F G H I J].
  rewrite I. pose proof (sumd_le g (dels s)) as Hle. rewrite <- H, Hr, C, !releases_app in Hle.
  pose proof (releases_nonneg g rest). pose proof (releases_nonneg g (current s)). lia.
Qed.

Lemma inv_done evs s m : Inv evs s -> at_ s = HandleDone m ->
  Inv (evs ++ [EDone m]) (set_at (set_wg s (upd_wg (wg s) (mwg (snd m)) (-1))) Select).
Proof.
  intros [A B C D E F G H I J] Ha.
  constructor; cbn; rewrite ?entered_app, ?taken_app, ?released_app; cbn; rewrite ?app_nil_r; auto.
  - right. split; [discriminate|]. destruct B as [[B _]|[_ B]]; congruence.
  - unfold current in *. rewrite Ha in C. exact C.
  - intros g. unfold upd_wg. rewrite releases_app, I. cbn. rewrite (Nat.eqb_sym g).
    destruct (Nat.eqb (mwg (snd m)) g); lia.
  - intros g. rewrite adds_app, J. cbn. lia.
Qed.

Ltac frame := eapply inv_frame; [eassumption|..]; try reflexivity; try (intros; reflexivity); try (cbn; split; congruence);
  try (unfold current; cbn; match goal with E : at_ _ = _ |- _ => rewrite E end; reflexivity).

Lemma inv_step evs s l s' e : Inv evs s -> step s l = Some (s', e) -> Inv (evs ++ e) s'.
Proof.
  intros HI H. unfold ActorModel.step in H. destruct (crashed s); [discriminate|].
  destruct l as [m|m|i|i|i|i|i|t|l| | | |l|o| |l| | | | | | | | | | ].
  - destruct (mself m); [inv_some H; frame|]. destruct (closed s); inv_some H; [|frame].
    now apply inv_new.
  - inv_some H. now apply inv_new.
  - destruct (nth_error (dels s) i) as [[m [| | |]]|] eqn:Ei; try discriminate.
    inv_some H. now apply inv_addwg.
  - destruct (nth_error (dels s) i) as [[m [| | |]]|] eqn:Ei; try discriminate.
    unfold push_step in H. destruct (MpscModel.step (q s) _) as [[q' e']|] eqn:Eq; [|discriminate].
    inv_some H. eapply inv_push; eauto.
  - destruct (nth_error (dels s) i) as [[m [| |j|]]|] eqn:Ei; try discriminate.
    unfold push_step in H. destruct (MpscModel.step (q s) _) as [[q' e']|] eqn:Eq; [|discriminate].
    inv_some H. eapply inv_mid; [exact HI|exact Ei| |exact Eq]; auto.
  - destruct (nth_error (dels s) i) as [[m [| |j|]]|] eqn:Ei; try discriminate.
    unfold push_step in H. destruct (MpscModel.step (q s) _) as [[q' e']|] eqn:Eq; [|discriminate].
    inv_some H. eapply inv_mid; [exact HI|exact Ei| |exact Eq]; auto.
  - destruct (nth_error (dels s) i) as [[m [| |j|]]|] eqn:Ei; try discriminate.
    unfold push_step in H. destruct (MpscModel.step (q s) _) as [[q' e']|] eqn:Eq; [|discriminate].
    inv_some H. eapply inv_signal; eauto.
  - destruct (_ <? _); [|discriminate]. inv_some H. frame.
  - destruct (push_label l); [|discriminate].
    destruct (MpscModel.step (rq s) l) as [[rq' e']|]; [|discriminate]. inv_some H. frame.
  - destruct (at_ s) eqn:Ea; try discriminate. destruct (timerChan s); [discriminate|]. inv_some H.
    frame.
  - destruct (at_ s) eqn:Ea; try discriminate. destruct (closed s); inv_some H;
    frame.
  - destruct (at_ s) eqn:Ea; try discriminate. inv_some H.
    frame.
  - destruct (at_ s) eqn:Ea; try discriminate.
    + destruct l; cbn [is_recv] in H; try discriminate.
      destruct (MpscModel.step (q s) LRecv) as [[q' e']|] eqn:Eq; [|discriminate]. inv_some H.
      destruct (qstep_recv _ _ _ Eq) as (P1 & P2 & P3 & ->).
      eapply inv_qstep; eauto. left. split; auto. congruence.
    + destruct (is_pop l) eqn:Hl; [|discriminate].
      destruct (MpscModel.step (q s) l) as [[q' e']|] eqn:Eq; [|discriminate].
      assert (Hc : cons (q s) <> CIdle) by (destruct HI; destruct a_pc0 as [[_ ?]|[? _]]; congruence).
      assert (Hnp : pushed [l] = []) by (destruct l; try discriminate; reflexivity).
      destruct (qstep_pop _ _ _ _ Hl Hc Eq) as (P1 & [[-> P2]|[[v [-> P2]]|[-> P2]]]).
      * inv_some H. eapply inv_qstep; eauto. right. split; [discriminate|auto].
      * destruct (registered (mev (snd v))); inv_some H; eapply inv_qstep; eauto; right; split; auto; discriminate.
      * inv_some H. assert (Hq : set_q s q' = set_at (set_q s q') InPop)
          by (unfold set_at, set_q; cbn; now rewrite Ea).
        rewrite Hq. eapply inv_qstep; eauto.
  - destruct (at_ s) eqn:Ea; try discriminate. inv_some H.
    frame.
  - destruct (at_ s) eqn:Ea; try discriminate.
    pose proof (wg_positive _ _ _ HI Ea) as Hpos.
    destruct (wg s (mwg (snd m)) <=? 0)%Z eqn:El; [apply Z.leb_le in El; lia|]. inv_some H.
    now apply inv_done.
  - destruct (at_ s) eqn:Ea; try discriminate.
    + destruct (is_recv l); [|discriminate].
      destruct (MpscModel.step (rq s) l) as [[rq' e']|]; [|discriminate]. inv_some H.
      frame.
    + destruct (is_pop l); [|discriminate].
      destruct (MpscModel.step (rq s) l) as [[rq' e']|]; [|discriminate].
      assert (Hcase : (exists a, s' = set_at (set_rq s rq') a /\ (a = Select \/ exists r, a = Action r) /\
                 (e = [] \/ exists r, e = [EActStart r])) \/ (s' = set_rq s rq' /\ e = [])).
      { destruct e' as [|[i|[r|]] [|]]; inv_some H; auto; left;
          solve [exists Select; repeat split; eauto | exists (Action r); repeat split; eauto]. }
      destruct Hcase as [(a & -> & Hx & He)|[-> ->]].
      * destruct Hx as [->|[r ->]], He as [->|[r' ->]]; frame.
      * frame.
  - destruct (at_ s) eqn:Ea; try discriminate. inv_some H.
    frame.
  - destruct (at_ s) eqn:Ea; try discriminate. destruct (shutdownCh s); [|discriminate].
    destruct (closed s); inv_some H; frame.
  - destruct (at_ s) eqn:Ea; try discriminate. destruct (closeCh s); [|discriminate]. inv_some H.
    frame.
  - destruct (chk s); try discriminate. destruct (Empty (q s)); [|discriminate]. inv_some H. frame.
  - destruct (chk s); try discriminate. destruct (Empty (rq s)); [|discriminate]. inv_some H. frame.
  - destruct (chk s); try discriminate. inv_some H. frame.
  - destruct (chk s); try discriminate. inv_some H. frame.
  - destruct (chk s); try discriminate. destruct (closed s =? 1); [destruct (closeCh s)|]; inv_some H; frame.
  - destruct (shutdownCh s); inv_some H; frame.
  - destruct (exiting s); [discriminate|]. destruct (closeCh s); [|discriminate]. inv_some H. frame.
Qed.

Lemma inv_run sched s evs : run step init sched = Some (s, evs) -> Inv evs s.
Proof.
  revert sched s evs. apply (run_inv step init (fun _ evs s => Inv evs s)).
  - exact inv_init.
  - intros. eapply inv_step; eauto.
Qed.

(** ** One at a time *)
Definition running (s : state) : option activity :=
  match at_ s with
  | Handle m => Some (AMsg m) | TimerRun t => Some (ATimer t) | Action r => Some (AAction r)
  | _ => None
  end.
Definition after1 (cur : option activity) (e : event) : option activity :=
  match e with
  | EStart m => Some (AMsg m) | ETimerStart t => Some (ATimer t) | EActStart a => Some (AAction a)
  | EEnd _ _ | ETimerEnd _ | EActEnd _ => None
  | _ => cur
  end.
Definition after := fold_left after1.
Lemma alternates_app a : forall c b, alternates c (a ++ b) <-> alternates c a /\ alternates (after a c) b.
Proof.
  induction a as [|[] a IH]; intros c b; cbn [app alternates after fold_left after1]; [tauto|..];
    unfold after in IH; rewrite IH; tauto.
Qed.
Lemma after_app a b c : after (a ++ b) c = after b (after a c).
Proof. apply fold_left_app. Qed.

Lemma alt_step s l s' e : step s l = Some (s', e) ->
  alternates (running s) e /\ after e (running s) = running s'.
Proof.
  intros H. unfold ActorModel.step in H. unfold running. destruct (crashed s); [discriminate|].
  destruct l as [m|m|i|i|i|i|i|t|l| | | |l|o| |l| | | | | | | | | | ]; unfold push_step in H;
  repeat match type of H with
  | (if ?b then _ else _) = _ => destruct b
  | match ?x with _ => _ end = _ => destruct x eqn:?
  end; try discriminate; injection H as <- <-; cbn;
  repeat match goal with E : at_ _ = _ |- _ => rewrite E end; auto.
Qed.
Lemma alt_run sched s evs : run step init sched = Some (s, evs) ->
  alternates None evs /\ after evs None = running s.
Proof.
  revert sched s evs. apply (run_inv step init (fun _ evs s => alternates None evs /\ after evs None = running s)).
  - cbn. auto.
  - intros sched evs s l s' e _ [H1 H2] H. destruct (alt_step _ _ _ _ H) as [H3 H4].
    rewrite alternates_app, after_app, H2. auto.
Qed.
Lemma one_at_a_time sched s evs : run step init sched = Some (s, evs) -> alternates None evs.
Proof. intros H. apply (alt_run _ _ _ H). Qed.

(** ** Order, at most once *)
Lemma handled_in_order sched s evs : run step init sched = Some (s, evs) ->
  (exists waiting, entered evs = taken evs ++ waiting) /\ NoDup (map fst (entered evs)).
Proof.
  intros H. apply inv_run in H. split; [now apply released_bound with s|apply (a_nodup _ _ H)].
Qed.
Lemma accepted_app a b : forall i, In (EAccepted i) (a ++ b) <-> In (EAccepted i) a \/ In (EAccepted i) b.
Proof. intros. apply in_app_iff. Qed.
Lemma accepted_step s l s' e i : step s l = Some (s', e) -> In (EAccepted i) e ->
  exists m, nth_error (dels s') i = Some (mkDel m Returned).
Proof.
  intros H Hin. unfold ActorModel.step in H. destruct (crashed s); [discriminate|].
  destruct l as [m|m|i'|i'|i'|i'|i'|t|l| | | |l|o| |l| | | | | | | | | | ]; unfold push_step in H;
  repeat match type of H with
  | (if ?b then _ else _) = _ => destruct b
  | match ?x with _ => _ end = _ => destruct x eqn:?
  end; try discriminate; injection H as <- <-; cbn in Hin;
  repeat match type of Hin with _ \/ _ => destruct Hin as [Hin|Hin]; [try discriminate|] end; try contradiction.
  injection Hin as ->. eexists. cbn. erewrite nth_dels_upd_eq; [reflexivity|eassumption].
Qed.
Lemma returned_stays s l s' e i m : step s l = Some (s', e) ->
  nth_error (dels s) i = Some (mkDel m Returned) -> nth_error (dels s') i = Some (mkDel m Returned).
Proof.
  intros H Hi. unfold ActorModel.step in H. destruct (crashed s); [discriminate|].
  destruct l as [m'|m'|i'|i'|i'|i'|i'|t|l| | | |l|o| |l| | | | | | | | | | ]; unfold push_step in H;
  repeat match type of H with
  | (if ?b then _ else _) = _ => destruct b
  | match ?x with _ => _ end = _ => destruct x eqn:?
  end; try discriminate; injection H as <- <-; cbn; auto;
  try (rewrite nth_error_app1; [auto|apply nth_error_Some; congruence]);
  (destruct (Nat.eq_dec i i') as [->|Hne]; [congruence|];
   erewrite nth_dels_upd_ne; eauto).
Qed.
(** A message accepted by Received has entered the mailbox. *)
Lemma accepted_entered sched s evs i : run step init sched = Some (s, evs) ->
  In (EAccepted i) evs -> exists m, In (i, m) (entered evs).
Proof.
  intros H Hin. pose proof (inv_run _ _ _ H) as HI.
  assert (Hr : exists m, nth_error (dels s) i = Some (mkDel m Returned)).
  { clear HI. revert sched s evs H Hin.
    apply (run_inv step init (fun _ evs s => In (EAccepted i) evs -> exists m, nth_error (dels s) i = Some (mkDel m Returned))).
    - intros [].
    - intros sched evs s l s' e _ IH H Hin. apply in_app_or in Hin as [Hin|Hin].
      + destruct (IH Hin) as [m Hm]. exists m. eapply returned_stays; eauto.
      + eapply accepted_step; eauto. }
  destruct Hr as [m Hm]. exists m. apply (a_ent _ _ HI). exists Returned. auto.
Qed.

(** ** Wait groups *)
Lemma finished_released sched s evs : run step init sched = Some (s, evs) ->
  taken evs = released evs ++ current s /\ NoDup (map fst (released evs)).
Proof.
  intros H. apply inv_run in H. destruct (released_bound _ _ H) as [rest Hr].
  split; [apply (a_rel _ _ H)|]. pose proof (a_nodup _ _ H) as Hn.
  rewrite Hr, (a_rel _ _ H), !map_app in Hn. rewrite <- app_assoc in Hn.
  now apply nodup_app_l in Hn.
Qed.
Lemma wait_group_balance sched s evs g : run step init sched = Some (s, evs) ->
  (wg s g = adds g evs - releases g (released evs) /\ 0 <= wg s g)%Z.
Proof.
  intros H. apply inv_run in H. split; [|now apply wg_nonneg with evs].
  rewrite (a_wg _ _ H), (a_adds _ _ H). reflexivity.
Qed.

(** ** Shutdown *)
Definition phase (s : state) : Prop :=
  (closed s = 0 /\ chk s = NoChk /\ closeCh s = false) \/
  (closed s = 1 /\ chk s <> NoChk /\ chk s <> ChkEnd /\ closeCh s = false /\ shutdownCh s = true) \/
  (closed s = 2 /\ chk s = ChkEnd /\ closeCh s = true /\ shutdownCh s = true).
Definition K (sched : list label) (s : state) : Prop :=
  phase s /\ (crashed s = false -> shutdownCh s = (0 <? exits sched)) /\
  (crashed s = true -> 2 <= exits sched).
Lemma exits_app a b : exits (a ++ b) = exits a + exits b.
Proof. induction a as [|[] a IH]; cbn [app exits]; auto. rewrite IH. auto. Qed.
Lemma exits_other l : l <> LExit -> exits [l] = 0.
Proof. intros H. destruct l; cbn; auto. congruence. Qed.

Lemma phase_same s s' : phase s -> closed s' = closed s -> chk s' = chk s -> closeCh s' = closeCh s ->
  shutdownCh s' = shutdownCh s -> phase s'.
Proof. unfold phase. intros H -> -> -> ->. exact H. Qed.

Lemma k_step sched evs s l s' e : Inv evs s -> K sched s -> step s l = Some (s', e) -> K (sched ++ [l]) s'.
Proof.
  intros HI (HP & HS & HC) H. unfold K. rewrite exits_app.
  unfold ActorModel.step in H. destruct (crashed s) eqn:Ecr; [discriminate|].
  specialize (HS eq_refl). clear HC.
  assert (Hsame : closed s' = closed s -> chk s' = chk s -> closeCh s' = closeCh s ->
    shutdownCh s' = shutdownCh s -> crashed s' = crashed s -> l <> LExit ->
    phase s' /\ (crashed s' = false -> shutdownCh s' = (0 <? exits sched + exits [l])) /\
    (crashed s' = true -> 2 <= exits sched + exits [l])).
  { intros H1 H2 H3 H4 H5 Hl. rewrite (exits_other _ Hl), Nat.add_0_r.
    split; [eapply phase_same; eauto|]. split; intros; congruence. }
  assert (Hnew : phase s' -> crashed s' = false -> shutdownCh s' = shutdownCh s -> l <> LExit ->
    phase s' /\ (crashed s' = false -> shutdownCh s' = (0 <? exits sched + exits [l])) /\
    (crashed s' = true -> 2 <= exits sched + exits [l])).
  { intros H1 H2 H3 Hl. rewrite (exits_other _ Hl), Nat.add_0_r.
    split; [auto|]. split; intros; congruence. }
  destruct l as [m|m|i|i|i|i|i|t|l| | | |l|o| |l| | | | | | | | | | ];
  try (unfold push_step in H; repeat match type of H with
      | (if ?b then _ else _) = _ => destruct b eqn:?
      | match ?x with _ => _ end = _ => destruct x eqn:?
      end; try discriminate; injection H as <- <-;
      solve [apply Hsame; try reflexivity; try discriminate; auto]).
  - (* LDone *)
    destruct (at_ s) eqn:Ea; try discriminate.
    pose proof (wg_positive _ _ _ HI Ea) as Hpos.
    destruct (wg s (mwg (snd m)) <=? 0)%Z eqn:El; [apply Z.leb_le in El; lia|].
    injection H as <- <-. apply Hsame; try reflexivity; try discriminate; auto.
  - (* LShutdown *)
    destruct (at_ s) eqn:Ea; try discriminate. destruct (shutdownCh s) eqn:Es; [|discriminate].
    destruct (closed s) eqn:Ec; injection H as <- <-.
    + apply Hnew; cbn; auto; [|discriminate]. right. left. cbn. rewrite Es.
      destruct HP as [(?&?&?)|[(?&?)|(?&?)]]; try congruence. repeat split; auto; discriminate.
    + apply Hsame; try reflexivity; try discriminate; auto.
  - (* LChkQ *)
    destruct (chk s) eqn:Ek; try discriminate. destruct (Empty (q s)) as [b|]; [|discriminate].
    injection H as <- <-. apply Hnew; cbn; auto; [|discriminate]. right. left. cbn.
    destruct HP as [(?&?&?)|[(?&?&?&?&?)|(?&?&?)]]; try congruence.
    repeat split; auto; destruct b; discriminate.
  - (* LChkR *)
    destruct (chk s) eqn:Ek; try discriminate. destruct (Empty (rq s)) as [b|]; [|discriminate].
    injection H as <- <-. apply Hnew; cbn; auto; [|discriminate]. right. left. cbn.
    destruct HP as [(?&?&?)|[(?&?&?&?&?)|(?&?&?)]]; try congruence.
    repeat split; auto; destruct b; discriminate.
  - destruct (chk s) eqn:Ek; try discriminate.
    injection H as <- <-. apply Hnew; cbn; auto; [|discriminate]. right. left. cbn.
    destruct HP as [(?&?&?)|[(?&?&?&?&?)|(?&?&?)]]; try congruence.
    repeat split; auto; discriminate.
  - destruct (chk s) eqn:Ek; try discriminate.
    injection H as <- <-. apply Hnew; cbn; auto; [|discriminate]. right. left. cbn.
    destruct HP as [(?&?&?)|[(?&?&?&?&?)|(?&?&?)]]; try congruence.
    repeat split; auto; discriminate.
  - (* LChkClose *)
    destruct (chk s) eqn:Ek; try discriminate.
    destruct HP as [(?&?&?)|[(H1&?&?&H2&?)|(?&?&?)]]; try congruence.
    rewrite H1, H2 in H. cbn in H. injection H as <- <-.
    apply Hnew; cbn; auto; [|discriminate]. right. right. auto.
  - (* LExit *)
    destruct (shutdownCh s) eqn:Es; injection H as <- <-; cbn.
    + split; [eapply phase_same; eauto|]. split; [discriminate|]. intros _.
      symmetry in HS. apply Nat.ltb_lt in HS. lia.
    + split; [|split].
      * destruct HP as [HP|[(?&?&?&?&?)|(?&?&?&?)]]; try congruence. left. exact HP.
      * intros _. rewrite Nat.add_comm. reflexivity.
      * congruence.
Qed.
Lemma k_run sched s evs : run step init sched = Some (s, evs) -> K sched s.
Proof.
  intros H. assert (Inv evs s /\ K sched s) as [_ HK]; [|exact HK]. revert sched s evs H.
  apply (run_inv step init (fun sched evs s => Inv evs s /\ K sched s)).
  - split; [exact inv_init|]. split; [left; auto|]. split; cbn; auto. discriminate.
  - intros sched evs s l s' e _ [HI HK] H. split; [eapply inv_step; eauto|eapply k_step; eauto].
Qed.

Lemma single_exit_no_crash sched s evs : run step init sched = Some (s, evs) ->
  exits sched <= 1 -> crashed s = false.
Proof.
  intros H Hle. destruct (k_run _ _ _ H) as (_ & _ & HC). destruct (crashed s); auto.
  specialize (HC eq_refl). lia.
Qed.
Lemma second_exit_panics sched s evs : run step init sched = Some (s, evs) ->
  exits sched = 1 -> step s LExit = Some (crash s, [EPanic]).
Proof.
  intros H He. pose proof (single_exit_no_crash _ _ _ H ltac:(lia)) as Hc.
  destruct (k_run _ _ _ H) as (_ & HS & _). unfold ActorModel.step. rewrite Hc, (HS Hc), He. reflexivity.
Qed.

(** closed only moves 0, 1, 2. *)
Lemma closed_step s l s' e : phase s -> step s l = Some (s', e) ->
  closed s' = closed s \/ closed s' = S (closed s).
Proof.
  intros HP H. unfold ActorModel.step in H. destruct (crashed s); [discriminate|].
  destruct l as [m|m|i|i|i|i|i|t|l| | | |l|o| |l| | | | | | | | | | ]; unfold push_step in H;
  repeat match type of H with
  | (if ?b then _ else _) = _ => destruct b eqn:?
  | match ?x with _ => _ end = _ => destruct x eqn:?
  end; try discriminate; injection H as <- <-; cbn; auto.
  apply Nat.eqb_eq in Heqb. rewrite Heqb. auto.
Qed.
Lemma closed_moves sched l s evs s' e : run step init sched = Some (s, evs) -> step s l = Some (s', e) ->
  (closed s' = closed s \/ closed s' = S (closed s)) /\ closed s' <= 2.
Proof.
  intros H Hs. destruct (k_run _ _ _ H) as (HP & _ & _). split; [eapply closed_step; eauto|].
  assert (HR : run step init (sched ++ [l]) = Some (s', evs ++ e)) by (eapply run_app; eauto; now apply run_one).
  destruct (k_run _ _ _ HR) as ([(->&_)|[(->&_)|(->&_)]] & _); lia.
Qed.
Lemma closed_mono a b s1 e1 s2 e2 : run step init a = Some (s1, e1) -> run step s1 b = Some (s2, e2) ->
  closed s1 <= closed s2.
Proof.
  revert a s1 e1 e2. induction b as [|l b IH]; intros a s1 e1 e2 Ha Hb; cbn in Hb.
  - injection Hb as <- _. lia.
  - destruct (step s1 l) as [[t f]|] eqn:Es; [|discriminate].
    destruct (run step t b) as [[t2 f2]|] eqn:Er; [|discriminate]. injection Hb as <- _.
    assert (HR : run step init (a ++ [l]) = Some (t, e1 ++ f)) by (eapply run_app; eauto; now apply run_one).
    specialize (IH _ _ _ _ HR Er). destruct (closed_moves _ _ _ _ _ _ Ha Es) as [[?|?] _]; lia.
Qed.
Lemma closed_rejects a b s1 e1 s2 e2 m : run step init a = Some (s1, e1) -> run step s1 b = Some (s2, e2) ->
  closed s1 <> 0 -> crashed s2 = false -> step s2 (LReceived m) = Some (s2, [ERejected m]).
Proof.
  intros Ha Hb Hc Hcr. pose proof (closed_mono _ _ _ _ _ _ Ha Hb). unfold ActorModel.step. rewrite Hcr.
  destruct (mself m); auto. destruct (closed s2); [lia|reflexivity].
Qed.
(** A rejected message changes nothing; only an open actor takes a message. *)
Lemma received_verdict s m s' e : step s (LReceived m) = Some (s', e) ->
  (e = [ERejected m] /\ s' = s /\ (mself m = true \/ closed s <> 0)) \/
  (e = [] /\ mself m = false /\ closed s = 0).
Proof.
  unfold ActorModel.step. destruct (crashed s); [discriminate|].
  destruct (mself m); [intros H; injection H as <- <-; auto|].
  destruct (closed s); intros H; injection H as <- <-; auto.
Qed.
(** No callback of a timer starts once closing began. *)
Lemma closed_no_timer a b s1 e1 s2 e2 : run step init a = Some (s1, e1) -> run step s1 b = Some (s2, e2) ->
  closed s1 <> 0 -> forall t, ~ In (ETimerStart t) e2.
Proof.
  revert a s1 e1 e2. induction b as [|l b IH]; intros a s1 e1 e2 Ha Hb Hc t Hin; cbn in Hb.
  - injection Hb as _ <-. destruct Hin.
  - destruct (step s1 l) as [[u f]|] eqn:Es; [|discriminate].
    destruct (run step u b) as [[u2 f2]|] eqn:Er; [|discriminate]. injection Hb as <- <-.
    assert (HR : run step init (a ++ [l]) = Some (u, e1 ++ f)) by (eapply run_app; eauto; now apply run_one).
    pose proof (proj1 (closed_moves _ _ _ _ _ _ Ha Es)) as Hm.
    apply in_app_or in Hin as [Hin|Hin]; [|eapply (IH _ _ _ _ HR Er); eauto; lia].
    clear - Hc Es Hin. unfold ActorModel.step in Es. destruct (crashed s1); [discriminate|].
    destruct l as [m|m|i|i|i|i|i|t'|l| | | |l|o| |l| | | | | | | | | | ]; unfold push_step in Es;
    repeat match type of Es with
    | (if ?b then _ else _) = _ => destruct b eqn:?
    | match ?x with _ => _ end = _ => destruct x eqn:?
    end; try discriminate; injection Es as _ <-; cbn in Hin;
    repeat match type of Hin with _ \/ _ => destruct Hin as [Hin|Hin]; [try discriminate|] end; try contradiction; congruence.
Qed.
End P.

(** ** Failing handlers *)
Section Noop.
Variable registered : nat -> bool.
Lemma noop_step s l s' e : step registered s l = Some (s', e) ->
  exists ls, run (step (fun _ => true)) s ls = Some (s', flat_map noop_event e) /\
    without_handlers ls = without_handlers [l] /\
    (forall o, In (LHandled o) ls -> o = OK).
Proof.
  intros H.
  assert (Hsame : step (fun _ => true) s l = step registered s l -> (forall o, l <> LHandled o) ->
            flat_map noop_event e = e ->
    exists ls, run (step (fun _ => true)) s ls = Some (s', flat_map noop_event e) /\
    without_handlers ls = without_handlers [l] /\
    (forall o, In (LHandled o) ls -> o = OK)).
  { intros He Hl Hn. exists [l]. rewrite Hn. split; [apply run_one; congruence|]. split; auto.
    intros o [Ho|[]]. elim (Hl _ Ho). }
  destruct l as [m|m|i|i|i|i|i|t|l| | | |l|o| |l| | | | | | | | | | ];
  try (apply Hsame; [reflexivity|intros; discriminate|];
    unfold step, push_step in H; repeat match type of H with
    | (if ?b then _ else _) = _ => destruct b eqn:?
    | match ?x with _ => _ end = _ => destruct x eqn:?
    end; try discriminate; injection H as <- <-; reflexivity).
  - unfold step in H. destruct (crashed s) eqn:Ecr; [discriminate|].
    destruct (at_ s) eqn:Ea; try discriminate.
    + apply Hsame; [|intros; discriminate|].
      * unfold step. rewrite Ecr, Ea. reflexivity.
      * destruct (is_recv l); [|discriminate]. destruct (MpscModel.step (q s) l) as [[q' e']|]; [|discriminate].
        injection H as <- <-. reflexivity.
    + destruct (is_pop l) eqn:El; [|discriminate].
      destruct (MpscModel.step (q s) l) as [[q' e']|] eqn:Eq; [|discriminate].
      destruct e' as [|[k|[v|]] [|]];
      try (apply Hsame; [unfold step; rewrite Ecr, Ea, El, Eq; reflexivity|intros; discriminate|
           injection H as <- <-; reflexivity]).
      destruct (registered (mev (snd v))) eqn:Er.
      * apply Hsame; [unfold step; rewrite Ecr, Ea, El, Eq, Er; reflexivity|intros; discriminate|
           injection H as <- <-; reflexivity].
      * injection H as <- <-. exists [LQ l; LHandled OK]. split; [|split; [reflexivity|]].
        -- cbn [run]. unfold step at 1. rewrite Ecr, Ea, El, Eq. cbn. unfold step. cbn. rewrite Ecr. reflexivity.
        -- intros o [Ho|[Ho|[]]]; congruence.
  - unfold step in H. destruct (crashed s) eqn:Ecr; [discriminate|].
    destruct (at_ s) eqn:Ea; try discriminate. injection H as <- <-.
    exists [LHandled OK]. split; [|split; [reflexivity|]].
    + apply run_one. unfold step. rewrite Ecr, Ea. reflexivity.
    + intros o' [Ho|[]]; congruence.
Qed.
Lemma without_handlers_app a b : without_handlers (a ++ b) = without_handlers a ++ without_handlers b.
Proof. apply filter_app. Qed.
Lemma failures_are_noops sched s evs : run (step registered) init sched = Some (s, evs) ->
  exists sched', run (step (fun _ => true)) init sched' = Some (s, flat_map noop_event evs) /\
    without_handlers sched' = without_handlers sched /\ (forall o, In (LHandled o) sched' -> o = OK).
Proof.
  revert sched s evs. apply (run_inv (step registered) init (fun sched evs s =>
    exists sched', run (step (fun _ => true)) init sched' = Some (s, flat_map noop_event evs) /\
    without_handlers sched' = without_handlers sched /\ (forall o, In (LHandled o) sched' -> o = OK))).
  - exists []. cbn. repeat split; auto. intros o [].
  - intros sched evs s l s' e _ (ls & H1 & H2 & H3) H. destruct (noop_step _ _ _ _ H) as (ls' & G1 & G2 & G3).
    exists (ls ++ ls'). split; [|split].
    + rewrite flat_map_app. eapply run_app; eauto.
    + rewrite !without_handlers_app. congruence.
    + intros o Ho. apply in_app_or in Ho as [|]; auto.
Qed.
End Noop.

(** ** Draining *)
Section Drain.
Variable registered : nat -> bool.
Notation step := (step registered).

Lemma dels_done_pushes evs s : Inv evs s -> no_delivery_in_progress s -> no_push_in_progress (q s).
Proof.
  intros HI Hd p Hp. destruct (pstage p) eqn:Es; auto; exfalso;
  apply In_nth_error in Hp as [j Hj];
  destruct (a_del2 _ _ HI _ _ Hj) as [m Hm]; try congruence;
  apply nth_error_In in Hm; apply Hd in Hm; discriminate.
Qed.

(** With no delivery under way and unhandled messages, the mailbox case of the
    loop's select is ready. *)
Lemma mailbox_ready sched s evs : run step init sched = Some (s, evs) ->
  crashed s = false -> at_ s = Select -> no_delivery_in_progress s ->
  length (taken evs) < length (entered evs) ->
  exists s', step s (LQ LRecv) = Some (s', []).
Proof.
  intros H Hcr Ha Hd Hlt. pose proof (inv_run _ _ _ _ H) as HI.
  pose proof (dels_done_pushes _ _ HI Hd) as Hnp.
  destruct (a_q _ _ HI) as (qs & qe & Q1 & Q2 & Q3).
  assert (Hc : cons (q s) = CIdle) by (destruct (a_pc _ _ HI) as [[? _]|[_ ?]]; congruence).
  assert (Hch : chan (q s) <> None).
  { eapply wakeup_rest; eauto. rewrite Q3. rewrite <- (map_length snd), Q2. exact Hlt. }
  unfold ActorModel.step. rewrite Hcr, Ha. cbn [is_recv].
  unfold MpscModel.step. rewrite Hc. destruct (chan (q s)); [|congruence]. eauto.
Qed.

Lemma no_del_preserved s l s' e : mailbox_step l = true -> step s l = Some (s', e) ->
  dels s' = dels s /\ entered e = [].
Proof.
  intros Hl H. unfold ActorModel.step in H. destruct (crashed s); [discriminate|].
  destruct l; try discriminate;
  repeat match type of H with
  | (if ?b then _ else _) = _ => destruct b
  | match ?x with _ => _ end = _ => destruct x eqn:?
  end; try discriminate; injection H as <- <-; auto.
Qed.
Lemma no_del_run ls : forall s s' e, forallb mailbox_step ls = true -> run step s ls = Some (s', e) ->
  dels s' = dels s /\ entered e = [].
Proof.
  induction ls as [|l ls IH]; intros s s' e Hf H; cbn in *.
  - injection H as <- <-. auto.
  - apply andb_true_iff in Hf as [Hl Hf]. destruct (step s l) as [[u f]|] eqn:Es; [|discriminate].
    destruct (run step u ls) as [[u2 f2]|] eqn:Er; [|discriminate]. injection H as <- <-.
    destruct (no_del_preserved _ _ _ _ Hl Es) as [D1 D2]. destruct (IH _ _ _ Hf Er) as [D3 D4].
    rewrite entered_app, D2, D4. split; [congruence|reflexivity].
Qed.

(** One message: receive, pop, handle, done. *)
Lemma handle_one sched s evs : run step init sched = Some (s, evs) ->
  crashed s = false -> at_ s = Select -> no_delivery_in_progress s ->
  length (taken evs) < length (entered evs) ->
  exists ls s' e, forallb mailbox_step ls = true /\ run step s ls = Some (s', e) /\
    crashed s' = false /\ at_ s' = Select /\ length (taken e) = 1.
Proof.
  intros H Hcr Ha Hd Hlt. destruct (mailbox_ready _ _ _ H Hcr Ha Hd Hlt) as [s1 H1].
  pose proof (inv_run _ _ _ _ H) as HI.
  assert (HR1 : run step init (sched ++ [LQ LRecv]) = Some (s1, evs ++ [])) by (eapply run_app; eauto; now apply run_one).
  pose proof (inv_run _ _ _ _ HR1) as HI1. rewrite app_nil_r in HI1.
  assert (E1 : at_ s1 = InPop /\ crashed s1 = false /\ dels s1 = dels s).
  { unfold ActorModel.step in H1. rewrite Hcr, Ha in H1. cbn [is_recv] in H1.
    destruct (MpscModel.step (q s) LRecv) as [[q' f]|] eqn:Eq; [|discriminate]. injection H1 as <-. auto. }
  destruct E1 as (Ha1 & Hc1 & Hd1).
  assert (Hd1' : no_delivery_in_progress s1) by (unfold no_delivery_in_progress; now rewrite Hd1).
  pose proof (dels_done_pushes _ _ HI1 Hd1') as Hnp.
  assert (Hcons : cons (q s1) = CGot).
  { unfold ActorModel.step in H1. rewrite Hcr, Ha in H1. cbn [is_recv] in H1.
    destruct (MpscModel.step (q s) LRecv) as [[q' f]|] eqn:Eq; [|discriminate]. injection H1 as <-.
    destruct (qstep_recv _ _ _ Eq) as (_ & _ & HX & _). exact HX. }
  destruct (a_q _ _ HI1) as (qs & qe & Q1 & Q2 & Q3).
  destruct (released_bound _ _ HI1) as [rest Hrest].
  destruct rest as [|v rest]; [rewrite Hrest, app_nil_r in Hlt; lia|].
  destruct (quiescent_pop qs (q s1) qe Q1 Hnp ltac:(unfold no_pop_in_progress; now rewrite Hcons) v rest) as [q4 Hq];
    [congruence|].
  cbn [run] in Hq.
  destruct (MpscModel.step (q s1) LPop) as [[q2 f2]|] eqn:P1; [|discriminate].
  destruct (MpscModel.step q2 LDec) as [[q3 f3]|] eqn:P2; [|discriminate].
  destruct (MpscModel.step q3 LCSend) as [[q4' f4]|] eqn:P3; [|discriminate].
  injection Hq as <- Hev.
  assert (F2 : f2 = []).
  { cbn in P1. rewrite Hcons in P1. destruct (nth_error (heap (q s1)) (tail (q s1))) as [tl|]; [|discriminate].
    destruct (next tl) as [n|].
    - destruct (nth_error (heap (q s1)) n) as [nd|]; [|discriminate]. destruct (val nd); [|discriminate].
      injection P1 as _ <-. auto.
    - injection P1 as <- _. cbn in P2. discriminate. }
  assert (F3 : f3 = []) by (cbn in P2; destruct (cons q2); try discriminate; injection P2 as _ <-; auto).
  subst f2 f3. rewrite ?app_nil_r in Hev. cbn in Hev. subst f4.
  set (s2 := set_q s1 q2). set (s3 := set_q s2 q3).
  assert (S2 : step s1 (LQ LPop) = Some (s2, [])) by (unfold ActorModel.step; rewrite Hc1, Ha1; cbn [is_pop]; rewrite P1; reflexivity).
  assert (S3 : step s2 (LQ LDec) = Some (s3, [])).
  { unfold ActorModel.step. change (crashed s2) with (crashed s1). change (at_ s2) with (at_ s1).
    rewrite Hc1, Ha1. cbn [is_pop]. change (q s2) with q2. rewrite P2. reflexivity. }
  assert (S4 : exists s4 e4 ls4, forallb mailbox_step ls4 = true /\
     run step s3 (LQ LCSend :: ls4) = Some (s4, e4) /\ at_ s4 = HandleDone v /\ crashed s4 = false /\ taken e4 = [v] /\ dels s4 = dels s1).
  { destruct (registered (mev (snd v))) eqn:Er.
    - do 2 eexists. exists [LHandled OK]. split; [reflexivity|]. cbn [run].
      unfold ActorModel.step at 1. change (crashed s3) with (crashed s1). change (at_ s3) with (at_ s1).
      rewrite Hc1, Ha1. cbn [is_pop]. change (q s3) with q3. rewrite P3, Er.
      unfold ActorModel.step. cbn. rewrite Hc1. split; [reflexivity|]. cbn. auto.
    - do 2 eexists. exists []. split; [reflexivity|]. cbn [run].
      unfold ActorModel.step at 1. change (crashed s3) with (crashed s1). change (at_ s3) with (at_ s1).
      rewrite Hc1, Ha1. cbn [is_pop]. change (q s3) with q3. rewrite P3, Er.
      split; [reflexivity|]. cbn. auto. }
  destruct S4 as (s4 & e4 & ls4 & L4 & R4 & A4 & C4 & T4 & D4).
  assert (HR3 : run step s ([LQ LRecv; LQ LPop; LQ LDec] ++ LQ LCSend :: ls4) = Some (s4, [] ++ e4)).
  { eapply run_app; [|exact R4]. cbn [run]. rewrite H1, S2, S3. reflexivity. }
  pose proof (run_app _ _ _ _ _ _ _ _ H HR3) as HR4.
  pose proof (wg_positive _ _ _ (inv_run _ _ _ _ HR4) A4) as Hpos.
  eexists (([LQ LRecv; LQ LPop; LQ LDec] ++ LQ LCSend :: ls4) ++ [LDone]). do 2 eexists. split; [|split].
  - rewrite !forallb_app. cbn. now rewrite L4.
  - eapply run_app; [exact HR3|]. apply run_one. unfold ActorModel.step. rewrite C4, A4.
    assert (El : (wg s4 (mwg (snd v)) <=? 0)%Z = false) by (apply Z.leb_gt; lia). rewrite El. reflexivity.
  - cbn [app]. rewrite taken_app, T4. cbn. rewrite C4. auto.
Qed.

(** All messages in the mailbox get handled by loop steps alone. *)
Lemma drain sched s evs : run step init sched = Some (s, evs) ->
  crashed s = false -> at_ s = Select -> no_delivery_in_progress s ->
  exists ls s' e, forallb mailbox_step ls = true /\ run step s ls = Some (s', e) /\
    released (evs ++ e) = entered evs.
Proof.
  remember (length (entered evs) - length (taken evs)) as n eqn:Hn.
  revert sched s evs Hn. induction n as [|n IH]; intros sched s evs Hn H Hcr Ha Hd.
  - exists [], s, []. split; [reflexivity|]. split; [reflexivity|]. rewrite app_nil_r.
    pose proof (inv_run _ _ _ _ H) as HI. destruct (released_bound _ _ HI) as [rest Hr].
    rewrite Hr, app_length in Hn. destruct rest; [|cbn in Hn; lia].
    rewrite Hr, (a_rel _ _ HI). unfold current. rewrite Ha. now rewrite !app_nil_r.
  - assert (Hlt : length (taken evs) < length (entered evs)) by lia.
    destruct (handle_one _ _ _ H Hcr Ha Hd Hlt) as (ls & s1 & e1 & L1 & R1 & C1 & A1 & T1).
    pose proof (run_app _ _ _ _ _ _ _ _ H R1) as HR.
    destruct (no_del_run _ _ _ _ L1 R1) as [D1 D2].
    destruct (IH (sched ++ ls) s1 (evs ++ e1)) as (ls2 & s2 & e2 & L2 & R2 & E2); auto.
    + rewrite entered_app, D2, app_nil_r, taken_app, app_length. lia.
    + unfold no_delivery_in_progress. now rewrite D1.
    + exists (ls ++ ls2), s2, (e1 ++ e2). split; [now rewrite forallb_app, L1, L2|].
      split; [eapply run_app; eauto|]. rewrite app_assoc, E2, entered_app, D2. now rewrite app_nil_r.
Qed.

(** ** Exit drains, in the restricted setting *)
Definition q_drained (s : state) : Prop := tail (q s) = length (pushes (q s)).
Definition Drained (s : state) : Prop :=
  closed s <> 0 /\ no_delivery_in_progress s /\
  (chk s = ChkR \/ chk s = ChkClose \/ chk s = ChkEnd -> q_drained s).

Lemma empty_drained evs s : Inv evs s -> no_delivery_in_progress s -> Empty (q s) = Some true -> q_drained s.
Proof.
  intros HI Hd He. pose proof (dels_done_pushes _ _ HI Hd) as Hnp. unfold q_drained.
  destruct (a_q _ _ HI) as (qs & qe & Q1 & Q2 & Q3).
  pose proof (inv_reach _ _ _ Q1) as HQ. destruct HQ as [Hh Hhd Hp Ht HP HN HV HO HC HT].
  destruct (Nat.eq_dec (tail (q s)) (length (pushes (q s)))) as [Heq|Hne]; [exact Heq|].
  exfalso. unfold Empty in He.
  destruct (nth_error (heap (q s)) (tail (q s))) as [tl|] eqn:En; [|discriminate].
  pose proof (HN _ _ En) as Hnx.
  destruct (next tl) eqn:Ex; [discriminate|].
  unfold link_of in Hnx.
  destruct (nth_error (pushes (q s)) (tail (q s))) as [pu|] eqn:Epu.
  - pose proof (Hnp _ (nth_error_In _ _ Epu)) as Hdone. rewrite Hdone in Hnx. congruence.
  - apply nth_error_None in Epu. lia.
Qed.
Lemma drained_events evs s : Inv evs s -> q_drained s -> entered evs = taken evs ++ in_hand (cons (q s)).
Proof.
  intros HI Hd. destruct (a_q _ _ HI) as (qs & qe & Q1 & Q2 & Q3).
  pose proof (inv_reach _ _ _ Q1) as HQ. destruct HQ as [Hh Hhd Hp Ht HP HN HV HO HC HT].
  rewrite <- Q2, <- Q3, <- HO, Hd, Hp, firstn_all. reflexivity.
Qed.
Lemma drained_qstep evs s q' l e : Inv evs s -> MpscModel.step (q s) l = Some (q', e) ->
  is_recv l = true \/ is_pop l = true -> q_drained s -> tail q' = length (pushes q').
Proof.
  intros HI H Hl Hd. unfold q_drained in Hd. destruct (a_q _ _ HI) as (qs & qe & Q1 & _).
  pose proof (inv_reach _ _ _ Q1) as HQ. destruct HQ as [_ _ Hp Ht HP HN HV HO HC HT].
  destruct l; destruct Hl as [Hl|Hl]; try discriminate; cbn in H.
  - destruct (cons (q s)); try discriminate. destruct (chan (q s)); [|discriminate].
    injection H as <- <-. exact Hd.
  - assert (exists tl, nth_error (heap (q s)) (tail (q s)) = Some tl /\ next tl = None) as (tl & E1 & E2).
    { destruct (nth_error (heap (q s)) (tail (q s))) as [tl|] eqn:En.
      - exists tl. split; auto. rewrite (HN _ _ En). unfold link_of.
        destruct (nth_error (pushes (q s)) (tail (q s))) eqn:Epu; auto.
        assert (tail (q s) < length (pushes (q s))) by (apply nth_error_Some; congruence). lia.
      - destruct (cons (q s)); discriminate. }
    rewrite E1, E2 in H. destruct (cons (q s)); try discriminate; injection H as <- <-; exact Hd.
  - destruct (cons (q s)); try discriminate. injection H as <- <-. exact Hd.
  - destruct (cons (q s)); try discriminate. injection H as <- <-. exact Hd.
Qed.

Lemma drained_step sched evs s l s' e : Inv evs s -> K sched s -> Drained s ->
  is_forward l = false -> is_timeout l = false ->
  step s l = Some (s', e) -> Drained s'.
Proof.
  intros HI HK (Hc & Hd & Hq) Hf Ht H. unfold ActorModel.step in H. destruct (crashed s); [discriminate|].
  assert (Hdel : forall i d, nth_error (dels s) i = Some d -> dst d = Returned)
    by (intros i d Hi; apply Hd; eapply nth_error_In; eauto).
  destruct l as [m|m|i|i|i|i|i|t|l| | | |l|o| |l| | | | | | | | | | ]; try discriminate;
  try (repeat match type of H with
      | (if ?b then _ else _) = _ => destruct b eqn:?
      | match ?x with _ => _ end = _ => destruct x eqn:?
      end; try discriminate; injection H as <- <-; solve [split; [cbn; congruence|split; assumption]]).
  - destruct (mself m); [injection H as <- <-; split; [|split]; assumption|].
    destruct (closed s) eqn:Ecl; [congruence|].
    injection H as <- <-. split; [congruence|split; assumption].
  - destruct (nth_error (dels s) i) as [[m [| | |]]|] eqn:Ei; try discriminate.
    apply Hdel in Ei; discriminate.
  - destruct (nth_error (dels s) i) as [[m [| | |]]|] eqn:Ei; try discriminate.
    apply Hdel in Ei; discriminate.
  - destruct (nth_error (dels s) i) as [[m [| | |]]|] eqn:Ei; try discriminate.
    apply Hdel in Ei; discriminate.
  - destruct (nth_error (dels s) i) as [[m [| | |]]|] eqn:Ei; try discriminate.
    apply Hdel in Ei; discriminate.
  - destruct (nth_error (dels s) i) as [[m [| | |]]|] eqn:Ei; try discriminate.
    apply Hdel in Ei; discriminate.
  - destruct (at_ s) eqn:Ea; try discriminate.
    + destruct (is_recv l) eqn:El; [|discriminate].
      destruct (MpscModel.step (q s) l) as [[q' f]|] eqn:Eq; [|discriminate]. injection H as <- <-.
      split; [|split]; try assumption. intros Hk. eapply drained_qstep; eauto.
    + destruct (is_pop l) eqn:El; [|discriminate].
      destruct (MpscModel.step (q s) l) as [[q' f]|] eqn:Eq; [|discriminate].
      assert (Hs : closed s' = closed s /\ dels s' = dels s /\ chk s' = chk s /\ q s' = q').
      { repeat match type of H with
        | (if ?b then _ else _) = _ => destruct b
        | match ?x with _ => _ end = _ => destruct x eqn:?
        end; injection H as <- <-; cbn; auto. }
      destruct Hs as (S1 & S2 & S3 & S4). unfold Drained, no_delivery_in_progress, q_drained.
      rewrite S1, S2, S3, S4. split; [|split]; try assumption. intros Hk. eapply drained_qstep; eauto.
  - destruct (at_ s); try discriminate. destruct (shutdownCh s); [|discriminate].
    destruct (closed s) eqn:Ecl; [congruence|].
    injection H as <- <-. split; [congruence|split; assumption].
  - destruct (chk s) eqn:Ek; try discriminate. destruct (Empty (q s)) as [b|] eqn:Ee; [|discriminate].
    injection H as <- <-. split; [|split]; try assumption. cbn. intros Hk.
    destruct b; [exact (empty_drained _ _ HI Hd Ee)|]. destruct Hk as [Hk|[Hk|Hk]]; discriminate Hk.
  - destruct (chk s) eqn:Ek; try discriminate. destruct (Empty (rq s)) as [b|] eqn:Ee; [|discriminate].
    injection H as <- <-. split; [|split]; try assumption. cbn. intros _. apply Hq. auto.
  - destruct (chk s) eqn:Ek; try discriminate. injection H as <- <-.
    split; [|split]; try assumption. cbn. intros [Hk|[Hk|Hk]]; discriminate Hk.
  - destruct (chk s) eqn:Ek; try discriminate. destruct HK as (HP & _).
    destruct (closed s =? 1) eqn:E1.
    + destruct (closeCh s); injection H as <- <-; (split; [|split]); try assumption; cbn; auto; try discriminate.
    + injection H as <- <-. split; [|split]; try assumption. cbn. intros _. apply Hq. auto.
Qed.


Lemma drained_run b : forall a s1 e1 s2 e2, run step init a = Some (s1, e1) -> Drained s1 ->
  forallb quiet_label b = true -> run step s1 b = Some (s2, e2) -> Drained s2.
Proof.
  induction b as [|l b IH]; intros a s1 e1 s2 e2 Ha HD Hf Hb; cbn in Hb.
  - injection Hb as <- _. exact HD.
  - destruct (step s1 l) as [[u f]|] eqn:Es; [|discriminate].
    destruct (run step u b) as [[u2 f2]|] eqn:Er; [|discriminate]. injection Hb as <- _.
    cbn in Hf. apply andb_true_iff in Hf as [Hl Hf]. unfold quiet_label in Hl.
    apply andb_true_iff in Hl as [L1 L2]. apply negb_true_iff in L1, L2.
    assert (HR : run step init (a ++ [l]) = Some (u, e1 ++ f)) by (eapply run_app; eauto; now apply run_one).
    eapply IH; [exact HR| |exact Hf|exact Er].
    eapply drained_step; eauto; [eapply inv_run; eauto|eapply k_run; eauto].
Qed.

Lemma exit_drains a b s1 e1 s2 e2 s e :
  run step init a = Some (s1, e1) -> closed s1 = 0 -> no_delivery_in_progress s1 ->
  step s1 LShutdown = Some (s2, e2) ->
  forallb quiet_label b = true -> run step s2 b = Some (s, e) ->
  let evs := e1 ++ e2 ++ e in
  (closeCh s = true -> exists last, entered evs = released evs ++ last /\ length last <= 1) /\
  (at_ s = Stopped -> released evs = entered evs).
Proof.
  intros Ha Hc Hd Hsh Hf Hb evs.
  assert (HR1 : run step init (a ++ [LShutdown]) = Some (s2, e1 ++ e2)) by (eapply run_app; eauto; now apply run_one).
  assert (HD : Drained s2).
  { unfold ActorModel.step in Hsh. destruct (crashed s1); [discriminate|]. destruct (at_ s1); try discriminate.
    destruct (shutdownCh s1); [|discriminate]. rewrite Hc in Hsh. injection Hsh as <- <-.
    split; [discriminate|]. split; [exact Hd|]. cbn. intros [Hk|[Hk|Hk]]; discriminate Hk. }
  pose proof (drained_run _ _ _ _ _ _ HR1 HD Hf Hb) as HDs.
  pose proof (run_app _ _ _ _ _ _ _ _ HR1 Hb) as HR. rewrite <- (app_assoc e1) in HR. fold evs in HR.
  pose proof (inv_run _ _ _ _ HR) as HI. destruct (k_run _ _ _ _ HR) as (HP & _ & _).
  destruct HDs as (D1 & D2 & D3).
  assert (Hall : closeCh s = true -> entered evs = released evs ++ (current s ++ in_hand (cons (q s)))).
  { intros Hcl. rewrite app_assoc, <- (a_rel _ _ HI). apply drained_events; auto.
    apply D3. destruct HP as [(?&?&?)|[(?&?&?&?&?)|(?&?&?)]]; try congruence. auto. }
  split.
  - intros Hcl. eexists. split; [apply Hall; auto|]. unfold current.
    destruct (a_pc _ _ HI) as [[E1 _]|[_ E2]].
    + rewrite E1. cbn. destruct (cons (q s)); cbn; lia.
    + rewrite E2. destruct (at_ s); cbn; lia.
  - intros Hst. rewrite Hall.
    + unfold current. rewrite Hst. destruct (a_pc _ _ HI) as [[E1 _]|[_ E2]]; [congruence|].
      rewrite E2. cbn. now rewrite app_nil_r.
    + assert (Hsc : forall sched s evs, run step init sched = Some (s, evs) -> at_ s = Stopped -> closeCh s = true).
      { clear. apply (run_inv step init (fun _ _ s => at_ s = Stopped -> closeCh s = true)); [discriminate|].
        intros sched evs s l s' e _ IH H Hs. unfold ActorModel.step in H. destruct (crashed s); [discriminate|].
        destruct l as [m|m|i|i|i|i|i|t|l| | | |l|o| |l| | | | | | | | | | ]; unfold push_step in H;
        repeat match type of H with
        | (if ?b then _ else _) = _ => destruct b eqn:?
        | match ?x with _ => _ end = _ => destruct x eqn:?
        end; try discriminate; injection H as <- <-; cbn in *; auto; try discriminate; try congruence. }
      eapply Hsc; eauto.
Qed.

(** A stopped loop stays stopped and handles nothing. *)
Lemma stopped_step s l s' e : step s l = Some (s', e) -> at_ s = Stopped -> at_ s' = Stopped /\ taken e = [] /\ released e = [].
Proof.
  intros H Hs. unfold ActorModel.step in H. destruct (crashed s); [discriminate|].
  destruct l as [m|m|i|i|i|i|i|t|l| | | |l|o| |l| | | | | | | | | | ]; unfold push_step in H;
  repeat match type of H with
  | (if ?b then _ else _) = _ => destruct b eqn:?
  | match ?x with _ => _ end = _ => destruct x eqn:?
  end; try discriminate; injection H as <- <-; cbn; auto.
Qed.
Lemma stopped_forever b : forall s s' e, at_ s = Stopped -> run step s b = Some (s', e) -> taken e = [] /\ released e = [].
Proof.
  induction b as [|l b IH]; intros s s' e Hs Hb; cbn in Hb.
  - injection Hb as _ <-. auto.
  - destruct (step s l) as [[u f]|] eqn:Es; [|discriminate].
    destruct (run step u b) as [[u2 f2]|] eqn:Er; [|discriminate]. injection Hb as _ <-.
    destruct (stopped_step _ _ _ _ Es Hs) as (H1 & H2 & H3). destruct (IH _ _ _ H1 Er) as [H4 H5].
    rewrite taken_app, released_app, H2, H3, H4, H5. auto.
Qed.
End Drain.
