(** Proofs about calls on one node. *)
From Coq Require Import List String ZArith Bool Lia PeanoNat.
From Verif Require Import Machine CallModel CallSpec.
Import ListNotations.
Open Scope string_scope.
Open Scope list_scope.

Arguments do_hop : simpl never.

(** ** Headers *)
Lemma hops_snoc hs h m : do_hops (hs ++ [h]) m = do_hop h (do_hops hs m).
Proof. unfold do_hops. rewrite fold_left_app. reflexivity. Qed.

Lemma hop_payload h m : payload (do_hop h m) = payload m.
Proof. destruct h; unfold do_hop; cbn; try reflexivity. unfold runtime_stamp. destruct (hOrgID (mHeader m) =? ""); reflexivity. Qed.
Lemma hops_payload hs m : payload (do_hops hs m) = payload m.
Proof.
  revert m. induction hs as [|h hs IH]; intros m; [reflexivity|].
  change (do_hops (h :: hs) m) with (do_hops hs (do_hop h m)). rewrite IH. apply hop_payload.
Qed.

Definition origin (m : message) := (hOrgID (mHeader m), hOrgTy (mHeader m)).
Lemma hop_org h m : hOrgID (mHeader m) <> "" -> origin (do_hop h m) = origin m.
Proof.
  intros H. destruct h; unfold do_hop; cbn; try reflexivity. unfold runtime_stamp.
  destruct (String.eqb_spec (hOrgID (mHeader m)) ""); [contradiction|reflexivity].
Qed.
Lemma hops_org hs : forall m, hOrgID (mHeader m) <> "" -> origin (do_hops hs m) = origin m.
Proof.
  induction hs as [|h hs IH]; intros m H; [reflexivity|].
  change (do_hops (h :: hs) m) with (do_hops hs (do_hop h m)).
  assert (E := hop_org h m H). rewrite IH; [exact E|]. apply (f_equal fst) in E. change (fst (origin (do_hop h m))) with (hOrgID (mHeader (do_hop h m))) in E. rewrite E. exact H.
Qed.
Lemma hop_first c m : hOrgID (mHeader m) = "" -> origin (do_hop (hop_of c) m) = (cid c, cty c).
Proof. intros H. unfold do_hop, hop_of. cbn. unfold runtime_stamp. rewrite H. reflexivity. Qed.
Lemma hop_remote_org m : origin (do_hop Remote m) = origin m.
Proof. reflexivity. Qed.

(** ** Frame *)
Definition late (t : thread) : Prop :=
  match tst t with Stamped | Counted | Added => False | _ => True end.
Definition same_call (t t' : thread) : Prop :=
  tby t' = tby t /\ tw t' = tw t /\ tto t' = tto t /\ tev t' = tev t.

Lemma nth_lt {A} (l : list A) i x : nth_error l i = Some x -> i < List.length l.
Proof. intros H. apply nth_error_Some. congruence. Qed.
Lemma nth_snoc {A} (l : list A) x i y : nth_error (l ++ [x]) i = Some y ->
  nth_error l i = Some y \/ (i = List.length l /\ y = x).
Proof.
  intros H. destruct (Nat.lt_ge_cases i (List.length l)).
  - rewrite nth_error_app1 in H by assumption. auto.
  - rewrite nth_error_app2 in H by assumption. destruct (i - List.length l) as [|k] eqn:E.
    + right. cbn in H. split; [lia|congruence].
    + cbn in H. destruct k; discriminate.
Qed.
Lemma nth_snoc_old {A} (l : list A) x i y : nth_error l i = Some y -> nth_error (l ++ [x]) i = Some y.
Proof. intros H. rewrite nth_error_app1; [exact H|]. eapply nth_lt; eauto. Qed.

(** The shape of a step of a Call. *)
Lemma on_call_inv s l i s' e : on_call s l i = Some (s', e) ->
  exists t wr, nth_error (threads s) i = Some t /\ nth_error (heap s) (tw t) = Some wr /\
    call_step s l i t wr = Some (s', e).
Proof.
  unfold on_call. destruct (nth_error (threads s) i) as [t|]; [|discriminate].
  destruct (nth_error (heap s) (tw t)) as [wr|] eqn:Hw; [|discriminate]. intros H. exists t, wr. auto.
Qed.

Record upd_call (s : state) (i : nat) (t : thread) (wr : wrapper) (s' : state) (p : tpc) (g : gpc) : Prop := {
  u_thr : threads s' = upd (threads s) i (set_pc t p g);
  u_heap : heap s' = heap s \/ heap s' = upd (heap s) (tw t) (mkW (wreq wr) (wgroup wr) (Some i));
  u_cur : cur s' = cur s;
  u_dead : dead s' = dead s }.

(** Every step of a Call updates its record, in one of these ways. *)
Inductive cs (s : state) (i : nat) (t : thread) (wr : wrapper) : state -> list event -> Prop :=
| cs_root s' : tst t = Stamped -> wgs s (wgroup wr) = 0%Z ->
    s' = mkState (upd (heap s) (tw t) (mkW (wreq wr) (wgroup wr) (Some i))) (wgs s) (box s) (cur s) (dead s)
          (upd (threads s) i (set_pc t Counted GBlocked)) (closedch s) (crashed s) -> cs s i t wr s' []
| cs_nest s' : tst t = Stamped -> wgs s (wgroup wr) <> 0%Z ->
    s' = with_threads s (upd (threads s) i (set_pc t Counted (tgo t))) -> cs s i t wr s' []
| cs_refuse s' self : tst t = Counted ->
    (self = true <-> hOrgID (mHeader (wreq wr)) <> "" /\ hOrgID (mHeader (wreq wr)) = tto t) ->
    s' = with_threads s (upd (threads s) i (set_pc t Ret (match tgo t with GBlocked => GSelect | g => g end))) ->
    cs s i t wr s' [ERefused i self; EReturn i false]
| cs_add s' : tst t = Counted -> ~ (hOrgID (mHeader (wreq wr)) <> "" /\ hOrgID (mHeader (wreq wr)) = tto t) ->
    s' = mkState (heap s) (upd_wg (wgs s) (wgroup wr) 1) (box s) (cur s) (dead s)
              (upd (threads s) i (set_pc t Added (tgo t))) (closedch s) (crashed s) -> cs s i t wr s' []
| cs_push s' p g e : tst t = Added ->
    (tgo t = GBlocked /\ p = Pushed /\ g = GSelect /\ e = [ESent i] \/
     tgo t <> GBlocked /\ p = Ret /\ g = tgo t /\ e = [ESent i; EReturn i true]) ->
    s' = mkState (heap s) (wgs s) (upd_f (box s) (tto t) (box s (tto t) ++ [(i, tw t)])) (cur s) (dead s)
              (upd (threads s) i (set_pc t p g)) (closedch s) (crashed s) -> cs s i t wr s' e
| cs_select s' ch : tst t = Pushed -> wdone wr = Some ch ->
    s' = with_threads s (upd (threads s) i (set_pc t (Waiting ch) (tgo t))) -> cs s i t wr s' []
| cs_return s' ch : tst t = Waiting ch -> closedch s ch = true ->
    s' = with_threads s (upd (threads s) i (set_pc t Ret (tgo t))) -> cs s i t wr s' [EReturn i true]
| cs_ctx s' ch : tst t = Waiting ch ->
    s' = with_threads s (upd (threads s) i (set_pc t Ret (tgo t))) -> cs s i t wr s' [EReturn i false]
| cs_wake s' b : tgo t = GSelect -> (b = false -> wgs s (wgroup wr) = 0%Z) ->
    s' = with_threads s (upd (threads s) i (set_pc t (tst t) GClosing)) -> cs s i t wr s' [EWake i b]
| cs_close s' ch : tgo t = GClosing -> wdone wr = Some ch -> closedch s ch = false ->
    s' = mkState (heap s) (wgs s) (box s) (cur s) (dead s) (upd (threads s) i (set_pc t (tst t) GEnded))
                   (fun c => if Nat.eqb c ch then true else closedch s c) (crashed s) -> cs s i t wr s' []
| cs_crash s' ch : tgo t = GClosing -> wdone wr = Some ch -> closedch s ch = true ->
    s' = mkState (heap s) (wgs s) (box s) (cur s) (dead s) (threads s) (closedch s) true -> cs s i t wr s' [].

Lemma call_step_cs s l i t wr s' e : call_step s l i t wr = Some (s', e) -> cs s i t wr s' e.
Proof.
  unfold call_step. destruct l; try discriminate; destruct (tst t) eqn:Hp; try discriminate.
  all: try (destruct (Z.eqb_spec (wgs s (wgroup wr)) 0); intros H; injection H as <- <-;
            [eapply cs_root|eapply cs_nest]; eauto; fail).
  all: try (destruct (tgo t) eqn:Hg; try discriminate;
    destruct timeout; [|destruct (Z.eqb_spec (wgs s (wgroup wr)) 0); cbn [orb]]; try discriminate;
    intros H; injection H as <- <-; rewrite <- Hp; eapply cs_wake; eauto; discriminate).
  all: try (destruct (tgo t) eqn:Hg; try discriminate; destruct (wdone wr) as [c|] eqn:Hd; [|discriminate];
    destruct (closedch s c) eqn:Hc; intros H; injection H as <- <-; [eapply cs_crash|rewrite <- Hp; eapply cs_close]; eauto; fail).
  - destruct (negb (hOrgID (mHeader (wreq wr)) =? "") && (hOrgID (mHeader (wreq wr)) =? tto t)) eqn:Hs.
    + intros H; injection H as <- <-. apply andb_prop in Hs as [H1 H2].
      eapply cs_refuse; eauto. split; [|auto]. intros _. apply String.eqb_eq in H2. split; [|assumption].
      intros E. rewrite E in H1. discriminate.
    + assert (Hn : ~ (hOrgID (mHeader (wreq wr)) <> "" /\ hOrgID (mHeader (wreq wr)) = tto t)).
      { intros [H1 H2]. apply String.eqb_eq in H2. rewrite H2 in Hs. apply String.eqb_neq in H1. rewrite H1 in Hs. discriminate. }
      destruct (dead s (tto t)); intros H; injection H as <- <-.
      * eapply cs_refuse; eauto. split; [discriminate|]. intros. exfalso; tauto.
      * eapply cs_add; eauto.
  - destruct (tgo t) eqn:Hg; intros H; injection H as <- <-; eapply cs_push; eauto;
      try (right; repeat split; congruence).
  - destruct (wdone wr) eqn:Hd; [|discriminate]. intros H; injection H as <- <-. eapply cs_select; eauto.
  - destruct (closedch s ch) eqn:Hc; [|discriminate]. intros H; injection H as <- <-. eapply cs_return; eauto.
  - intros H; injection H as <- <-. eapply cs_ctx; eauto.
Qed.

(** The shape of a step. *)
Inductive st (s : state) : state -> list event -> Prop :=
| st_new m g : st s (mkState (heap s ++ [mkW m g None]) (wgs s) (box s) (cur s) (dead s) (threads s) (closedch s) false) []
| st_call by_ par w wr m target ev :
    nth_error (heap s) w = Some wr ->
    (exists h, m = do_hop h (wreq wr)) -> hEvent (mHeader m) = ev ->
    match by_ with
    | None => par = None
    | Some a => in_call a s = false /\ exists n w', cur s a = Some (n, w') /\ par = Some n
    end ->
    st s (mkState (upd (heap s) w (mkW m (wgroup wr) (wdone wr))) (wgs s) (box s) (cur s) (dead s)
              (threads s ++ [mkT by_ w target ev Stamped GNone]) (closedch s) (crashed s))
       [ECall (List.length (threads s)) by_ par w (wgroup wr) target ev (hOrgID (mHeader m))]
| st_cs i t wr s' e : nth_error (threads s) i = Some t -> nth_error (heap s) (tw t) = Some wr ->
    cs s i t wr s' e -> st s s' e
| st_pop a n w r wr : cur s a = None -> box s a = (n, w) :: r -> nth_error (heap s) w = Some wr ->
    st s (mkState (heap s) (wgs s) (upd_f (box s) a r) (upd_f (cur s) a (Some (n, w))) (dead s) (threads s)
                (closedch s) false) [EDispatch a n (hEvent (mHeader (wreq wr)))]
| st_finish a n w wr o : cur s a = Some (n, w) -> in_call a s = false -> nth_error (heap s) w = Some wr ->
    st s (mkState (heap s) (upd_wg (wgs s) (wgroup wr) (-1)) (box s) (upd_f (cur s) a None) (dead s) (threads s)
                  (closedch s) false) [EHandled n o]
| st_close a : st s (mkState (heap s) (wgs s) (box s) (cur s) (upd_f (dead s) a true) (threads s) (closedch s) false) [].

Lemma step_st aty s l s' e : step aty s l = Some (s', e) -> st s s' e.
Proof.
  unfold CallModel.step. destruct (crashed s) eqn:Hcr; [discriminate|].
  destruct l as [m g|by_ w target tty ev|i|i|i|i|a|a o|i b|i|i|i|a].
  all: try (intros H; apply on_call_inv in H as (t & wr & H1 & H2 & H3); eapply st_cs; eauto; eapply call_step_cs; eauto; fail).
  - intros H; injection H as <- <-. constructor.
  - unfold start_call. destruct (nth_error (heap s) w) as [wr|] eqn:Hw; [|discriminate].
    destruct by_ as [a|].
    + destruct (cur s a) as [[n w']|] eqn:Hc; [|discriminate]. destruct (in_call a s) eqn:Hi; [discriminate|].
      intros H; injection H as <- <-. eapply (st_call s (Some a) (Some n) w wr (do_hop (ActorCall a (aty a) target tty ev) (wreq wr))); eauto.
    + intros H; injection H as <- <-. eapply (st_call s None None w wr (do_hop (SystemCall target tty ev) (wreq wr))); eauto.
  - destruct (cur s a) eqn:Hc; [discriminate|]. destruct (box s a) as [|[n w] r] eqn:Hb; [discriminate|].
    destruct (nth_error (heap s) w) eqn:Hw; [|discriminate]. intros H; injection H as <- <-. eapply st_pop; eauto.
  - destruct (cur s a) as [[n w]|] eqn:Hc; [|discriminate]. destruct (in_call a s) eqn:Hi; [discriminate|].
    destruct (nth_error (heap s) w) eqn:Hw; [|discriminate]. intros H; injection H as <- <-. eapply st_finish; eauto.
  - intros H; injection H as <- <-. constructor.
Qed.

(** What a step does to the record of a Call. *)
Definition goes (t t' : thread) : Prop :=
  same_call t t' /\ (late t -> late t') /\ (tgo t <> GNone -> tgo t' <> GNone) /\
  (tst t = Ret -> tst t' = Ret) /\ (tst t <> Stamped -> tst t' <> Stamped /\ (tgo t = GNone -> tgo t' = GNone)).
Lemma goes_refl t : goes t t.
Proof. unfold goes, same_call. intuition. Qed.

Ltac pc_cases t := unfold goes, same_call, late, set_pc in *; cbn in *.

Lemma step_threads s s' e : st s s' e -> forall i t, nth_error (threads s) i = Some t ->
  exists t', nth_error (threads s') i = Some t' /\ goes t t'.
Proof.
  intros H j tj Hj. destruct H; cbn; try (exists tj; split; [assumption|apply goes_refl]).
  - exists tj. split; [now apply nth_snoc_old|apply goes_refl].
  - assert (Hu : forall p g, (late t -> match p with Stamped | Counted | Added => False | _ => True end) ->
                 (tgo t <> GNone -> g <> GNone) -> (tst t = Ret -> p = Ret) ->
                 (tst t <> Stamped -> p <> Stamped /\ (tgo t = GNone -> g = GNone)) ->
             exists t', nth_error (upd (threads s) i (set_pc t p g)) j = Some t' /\ goes tj t').
    { intros p g H2 H3 H4 H5. rewrite nth_upd by (eapply nth_lt; eauto). destruct (Nat.eqb_spec i j) as [<-|].
      - assert (tj = t) by congruence. subst tj. eexists; split; [reflexivity|]. unfold goes, same_call, late in *. cbn. tauto.
      - exists tj. split; [assumption|apply goes_refl]. }
    unfold late in *.
    destruct H1; subst s'; unfold with_threads; cbn;
      try (apply Hu; try rewrite H1; intuition congruence).
    + apply Hu; try rewrite H1; try tauto; try (intuition congruence).
      * destruct (tgo t); intros; congruence.
      * split; [congruence|]. intros ->. reflexivity.
    + exists tj; split; [assumption|apply goes_refl].
Qed.

Definition keeps (wr wr' : wrapper) : Prop :=
  wgroup wr' = wgroup wr /\
  (hOrgID (mHeader (wreq wr)) <> "" -> hOrgID (mHeader (wreq wr')) = hOrgID (mHeader (wreq wr))).
Lemma step_heap s s' e : st s s' e -> forall w wr, nth_error (heap s) w = Some wr ->
  exists wr', nth_error (heap s') w = Some wr' /\ keeps wr wr'.
Proof.
  intros H x wx Hx.
  assert (K : keeps wx wx) by (split; auto).
  destruct H; cbn; try (exists wx; auto; fail).
  - exists wx. split; [now apply nth_snoc_old|auto].
  - rewrite nth_upd by (eapply nth_lt; eauto). destruct (Nat.eqb_spec w x) as [<-|]; [|eauto].
    assert (wx = wr) by congruence. subst wx. eexists; split; [reflexivity|]. split; [reflexivity|]. cbn.
    intros Ho. destruct H0 as [h ->]. assert (E := hop_org h (wreq wr) Ho). apply (f_equal fst) in E. exact E.
  - destruct H1; subst s'; unfold with_threads; cbn; eauto.
    rewrite nth_upd by (eapply nth_lt; eauto). destruct (Nat.eqb_spec (tw t) x) as [<-|]; [|eauto].
    assert (wx = wr) by congruence. subst wx. eexists; split; [reflexivity|]. split; auto.
Qed.

Lemma heap_grows s s' e : st s s' e -> List.length (heap s) <= List.length (heap s').
Proof.
  intros H; destruct H; cbn; rewrite ?app_length, ?upd_length; try lia.
  destruct H1; subst s'; cbn; rewrite ?upd_length; lia.
Qed.

(** ** Counting *)
Fixpoint sumz (f : nat -> bool) (n : nat) : Z :=
  match n with O => 0%Z | Datatypes.S k => (sumz f k + if f k then 1 else 0)%Z end.
Lemma sumz_ext f g n : (forall i, i < n -> f i = g i) -> sumz f n = sumz g n.
Proof. induction n; intros H; cbn; [reflexivity|]. rewrite IHn by (intros; apply H; lia). rewrite (H n) by lia. reflexivity. Qed.
Lemma sumz_one f g n k : k < n -> (forall i, i < n -> i <> k -> f i = g i) ->
  (sumz f n - (if f k then 1 else 0) = sumz g n - (if g k then 1 else 0))%Z.
Proof.
  induction n; intros Hk H; [lia|]. cbn. destruct (Nat.eq_dec k n) as [->|].
  - rewrite (sumz_ext f g n) by (intros; apply H; lia). lia.
  - rewrite (H n) by lia. assert (E := IHn ltac:(lia) ltac:(intros; apply H; lia)). lia.
Qed.
Lemma sumz_pos f n k : k < n -> f k = true -> (1 <= sumz f n)%Z.
Proof.
  intros Hk Hf. assert (Hnn : forall m, (0 <= sumz f m)%Z) by (induction m; cbn; [lia|destruct (f m); lia]).
  induction n; [lia|]. cbn. destruct (Nat.eq_dec k n) as [->|]; [rewrite Hf; specialize (Hnn n); lia|].
  specialize (IHn ltac:(lia)). destruct (f n); lia.
Qed.
Lemma sumz_some f n : sumz f n <> 0%Z -> exists k, k < n /\ f k = true.
Proof.
  induction n; cbn; [lia|]. destruct (f n) eqn:E; [exists n; auto|].
  intros H. destruct IHn as (k & ? & ?); [lia|]. exists k; auto.
Qed.

(** The message of call [i] has been counted and not been handled. *)
Definition out (s : state) (i : nat) : bool :=
  match nth_error (threads s) i with
  | None => false
  | Some t =>
    match tst t with Added => true | _ => false end
    || existsb (fun q => Nat.eqb (fst q) i) (box s (tto t))
    || match cur s (tto t) with Some (n, _) => Nat.eqb n i | None => false end
  end.
Definition ing (s : state) (g i : nat) : bool :=
  match nth_error (threads s) i with
  | None => false
  | Some t => match nth_error (heap s) (tw t) with Some wr => Nat.eqb (wgroup wr) g | None => false end
  end.

Record Inv (s : state) : Prop := {
  i_th : forall i t, nth_error (threads s) i = Some t -> tw t < List.length (heap s);
  i_box : forall a n w, In (n, w) (box s a) ->
    exists t, nth_error (threads s) n = Some t /\ tto t = a /\ tw t = w /\ late t;
  i_cur : forall a n w, cur s a = Some (n, w) ->
    exists t, nth_error (threads s) n = Some t /\ tto t = a /\ tw t = w /\ late t;
  i_nd : forall a, NoDup (map fst (box s a));
  i_cb : forall a n w, cur s a = Some (n, w) -> ~ In n (map fst (box s a));
  i_go : forall i t, nth_error (threads s) i = Some t ->
    match tgo t with GNone => True | GBlocked => tst t = Counted \/ tst t = Added | _ => late t end;
  i_wg : forall g, wgs s g = sumz (fun i => out s i && ing s g i) (List.length (threads s)) }.

Lemma inv_init : Inv init.
Proof.
  split; cbn; intros; try contradiction; try discriminate; auto using NoDup_nil.
  - destruct i; discriminate.
  - destruct i; discriminate.
Qed.

Lemma existsb_box (l : list qm) i : existsb (fun q => Nat.eqb (fst q) i) l = true <-> In i (map fst l).
Proof.
  rewrite existsb_exists, in_map_iff. split.
  - intros (x & H1 & H2). apply Nat.eqb_eq in H2. eauto.
  - intros (x & H1 & H2). exists x. split; [assumption|]. now apply Nat.eqb_eq.
Qed.

Lemma out_box s a n w : Inv s -> In (n, w) (box s a) -> out s n = true.
Proof.
  intros HI H. destruct (i_box s HI _ _ _ H) as (t & Ht & Ha & _). unfold out. rewrite Ht, Ha.
  assert (E : existsb (fun q => Nat.eqb (fst q) n) (box s a) = true).
  { apply existsb_box, in_map_iff. exists (n, w). auto. }
  rewrite E. apply orb_true_iff. left. apply orb_true_r.
Qed.
Lemma out_cur s a n w : Inv s -> cur s a = Some (n, w) -> out s n = true.
Proof.
  intros HI H. destruct (i_cur s HI _ _ _ H) as (t & Ht & Ha & _). unfold out. rewrite Ht, Ha, H.
  rewrite Nat.eqb_refl. apply orb_true_r.
Qed.
(** What being outstanding means. *)
Lemma out_inv s i : out s i = true ->
  exists t, nth_error (threads s) i = Some t /\
    (tst t = Added \/ In i (map fst (box s (tto t))) \/ exists w, cur s (tto t) = Some (i, w)).
Proof.
  unfold out. destruct (nth_error (threads s) i) as [t|]; [|discriminate]. intros H. exists t. split; [reflexivity|].
  apply orb_prop in H as [H|H]; [apply orb_prop in H as [H|H]|].
  - left. destruct (tst t); congruence.
  - right; left. now apply existsb_box.
  - right; right. destruct (cur s (tto t)) as [[n w]|]; [|discriminate]. apply Nat.eqb_eq in H as ->. eauto.
Qed.
Lemma out_intro s i t : nth_error (threads s) i = Some t ->
  (tst t = Added \/ In i (map fst (box s (tto t))) \/ exists w, cur s (tto t) = Some (i, w)) -> out s i = true.
Proof.
  intros Ht H. unfold out. rewrite Ht. destruct H as [->|[H|[w H]]]; [reflexivity| |].
  - apply existsb_box in H. rewrite H. now rewrite orb_true_r.
  - rewrite H, Nat.eqb_refl. apply orb_true_r.
Qed.
Lemma bool_iff (a b : bool) : (a = true <-> b = true) -> a = b.
Proof. destruct a, b; intuition congruence. Qed.

Lemma ing_same s s' e i t g : Inv s -> st s s' e -> nth_error (threads s) i = Some t -> ing s' g i = ing s g i.
Proof.
  intros HI H Ht. unfold ing. destruct (step_threads _ _ _ H _ _ Ht) as (t' & Ht' & Hs & _). rewrite Ht, Ht'.
  destruct Hs as (_ & -> & _).
  assert (Hl := i_th s HI _ _ Ht). destruct (nth_error (heap s) (tw t)) as [wr|] eqn:Hw.
  - destruct (step_heap _ _ _ H _ _ Hw) as (wr' & -> & Hk & _). now rewrite Hk.
  - apply nth_error_None in Hw. lia.
Qed.
Lemma nth_ex {A} (l : list A) i : i < List.length l -> exists x, nth_error l i = Some x.
Proof. intros H. destruct (nth_error l i) eqn:E; eauto. apply nth_error_None in E. lia. Qed.

Lemma thr_len s s' e : st s s' e ->
  List.length (threads s') = List.length (threads s) \/
  List.length (threads s') = Datatypes.S (List.length (threads s)).
Proof.
  intros H; destruct H; cbn; rewrite ?app_length; cbn; try lia.
  destruct H1; subst s'; cbn; rewrite ?upd_length; auto.
Qed.

(** Only Received makes an old message outstanding, only the end of its handler
    stops it being so. *)
Lemma late_out s s' e i t : Inv s -> st s s' e -> nth_error (threads s) i = Some t -> late t ->
  out s i = false -> out s' i = false.
Proof.
  intros HI H Ht Hl Ho. apply not_true_iff_false. intros Ho'. apply not_true_iff_false in Ho. apply Ho. clear Ho.
  apply out_inv in Ho' as (t' & Ht' & Hc).
  assert (Hb : (In i (map fst (box s' (tto t'))) -> In i (map fst (box s (tto t)))) /\
    (forall w, cur s' (tto t') = Some (i, w) -> In i (map fst (box s (tto t))) \/ cur s (tto t) = Some (i, w)) /\
    tst t' <> Added).
  { destruct (step_threads _ _ _ H _ _ Ht) as (t2 & Ht2 & (_ & _ & Hto & _) & Hlate & _).
    assert (t2 = t') by congruence. subst t2. rewrite Hto.
    split; [|split; [|apply Hlate in Hl; unfold late in Hl; destruct (tst t'); congruence || contradiction]].
    - destruct H; cbn; try tauto.
      + destruct H1; subst s'; cbn; try tauto. unfold upd_f. destruct (String.eqb_spec (tto t) (tto t0)) as [E|]; [|tauto].
        rewrite map_app, in_app_iff. rewrite E. intros [?|[<-|[]]]; [assumption|]. cbn in *.
        assert (t = t0) by congruence. subst t0. unfold late in Hl. rewrite H1 in Hl. contradiction.
      + unfold upd_f. destruct (String.eqb_spec (tto t) a) as [E|]; [|tauto]. rewrite E, H0. cbn. tauto.
    - destruct H; cbn; try tauto.
      + destruct H1; subst s'; cbn; tauto.
      + intros x. unfold upd_f. destruct (String.eqb_spec (tto t) a) as [E|]; [|tauto]. rewrite E, H0. intros Hx. left.
        injection Hx as -> ->. left. reflexivity.
      + intros x. unfold upd_f. destruct (String.eqb_spec (tto t) a) as [E|]; [discriminate|tauto]. }
  destruct Hb as (H1 & H2 & H3). apply (out_intro s i t Ht).
  destruct Hc as [?|[?|[w ?]]]; [contradiction|tauto|]. destruct (H2 _ H0); eauto.
Qed.

(** *** The invariant is preserved *)
Lemma out_other_cs s i t wr s' e j : nth_error (threads s) i = Some t -> cs s i t wr s' e -> j <> i -> out s' j = out s j.
Proof.
  intros Ht H Hj.
  assert (Hth : forall p g, nth_error (upd (threads s) i (set_pc t p g)) j = nth_error (threads s) j).
  { intros. apply nth_upd_neq. auto. }
  unfold out. destruct H; subst s'; cbn; rewrite ?Hth; try reflexivity.
  destruct (nth_error (threads s) j) as [tj|]; [|reflexivity]. unfold upd_f.
  destruct (String.eqb_spec (tto tj) (tto t)) as [E|]; [|reflexivity]. rewrite E. rewrite existsb_app. cbn.
  replace (Nat.eqb i j) with false by (symmetry; apply Nat.eqb_neq; auto). cbn. now rewrite orb_false_r.
Qed.

Lemma inv_wg_cs s i t wr s' e : Inv s -> nth_error (threads s) i = Some t -> nth_error (heap s) (tw t) = Some wr ->
  cs s i t wr s' e -> forall g, wgs s' g = sumz (fun k => out s' k && ing s' g k) (List.length (threads s')).
Proof.
  intros HI Ht Hw H g.
  assert (Hst : st s s' e) by (eapply st_cs; eauto).
  assert (Hlen : List.length (threads s') = List.length (threads s)).
  { destruct H; subst s'; cbn; rewrite ?upd_length; reflexivity. }
  assert (Hi : i < List.length (threads s)) by (eapply nth_lt; eauto).
  assert (Hsum : (sumz (fun k => out s' k && ing s' g k) (List.length (threads s))
      = sumz (fun k => out s k && ing s g k) (List.length (threads s))
        + (if out s' i && ing s g i then 1 else 0) - (if out s i && ing s g i then 1 else 0))%Z).
  { assert (E := sumz_one (fun k => out s' k && ing s' g k) (fun k => out s k && ing s g k) _ i Hi). cbn beta in E.
    rewrite (ing_same s s' e i t g HI Hst Ht) in E.
    assert (Hx : forall k, k < List.length (threads s) -> k <> i -> out s' k && ing s' g k = out s k && ing s g k).
    { intros k Hk Hne. destruct (nth_ex _ _ Hk) as [tk Htk].
      rewrite (out_other_cs _ _ _ _ _ _ _ Ht H Hne), (ing_same s s' e k tk g HI Hst Htk). reflexivity. }
    specialize (E Hx). lia. }
  rewrite Hlen, Hsum, <- (i_wg s HI g). clear Hsum.
  assert (Hing : ing s g i = Nat.eqb (wgroup wr) g) by (unfold ing; now rewrite Ht, Hw).
  assert (Hti : forall p g, nth_error (upd (threads s) i (set_pc t p g)) i = Some (set_pc t p g)) by (intros; now apply nth_upd_eq).
  assert (Hnb : ~ late t -> ~ In i (map fst (box s (tto t)))).
  { intros Hn Hin. apply in_map_iff in Hin as ([n w] & E & Hin). cbn in E. subst n.
    destruct (i_box s HI _ _ _ Hin) as (t2 & Ht2 & _ & _ & Hl). assert (t2 = t) by congruence. subst t2. auto. }
  assert (Hnc : ~ late t -> forall w, cur s (tto t) <> Some (i, w)).
  { intros Hn w Hin. destruct (i_cur s HI _ _ _ Hin) as (t2 & Ht2 & _ & _ & Hl). assert (t2 = t) by congruence. subst t2. auto. }
  assert (Hsame : forall b1 b2 : bool, b1 = b2 ->
     (wgs s g = wgs s g + (if b1 && ing s g i then 1 else 0) - (if b2 && ing s g i then 1 else 0))%Z).
  { intros b1 b2 ->. lia. }
  assert (Hkeep : forall p gg s2, threads s2 = upd (threads s) i (set_pc t p gg) -> box s2 = box s -> cur s2 = cur s ->
      (tst t = Added <-> p = Added) -> out s2 i = out s i).
  { intros p gg s2 E1 E2 E3 E4. unfold out. rewrite E1, E2, E3, Hti, Ht. cbn.
    destruct (tst t), p; try reflexivity; exfalso; destruct E4 as [E4 E5]; (discriminate (E4 eq_refl) || discriminate (E5 eq_refl)). }
  destruct H; subst s'; cbn [wgs with_threads].
  - apply Hsame. eapply Hkeep; try reflexivity. rewrite H. split; discriminate.
  - apply Hsame. eapply Hkeep; try reflexivity. rewrite H. split; discriminate.
  - apply Hsame. eapply Hkeep; try reflexivity. rewrite H. split; discriminate.
  - assert (Hnl : ~ late t) by (unfold late; rewrite H; tauto).
    assert (out s i = false) as ->.
    { apply not_true_iff_false. intros Ho. apply out_inv in Ho as (t2 & Ht2 & Hc).
      assert (t2 = t) by congruence. subst t2. destruct Hc as [?|[?|[w ?]]]; [congruence|now apply Hnb|now apply (Hnc Hnl w)]. }
    match goal with |- context[out ?s2 i] => assert (out s2 i = true) as -> end.
    { unfold out. cbn. rewrite Hti. reflexivity. }
    rewrite Hing. unfold upd_wg. rewrite (Nat.eqb_sym g). destruct (Nat.eqb (wgroup wr) g); cbn; lia.
  - apply Hsame. transitivity true; [|unfold out; rewrite Ht, H; reflexivity].
    unfold out. cbn. rewrite Hti. cbn. unfold upd_f. rewrite String.eqb_refl, existsb_app. cbn. rewrite Nat.eqb_refl, orb_true_r, orb_true_r.
    reflexivity.
  - apply Hsame. eapply Hkeep; try reflexivity. rewrite H. split; discriminate.
  - apply Hsame. eapply Hkeep; try reflexivity. rewrite H. split; discriminate.
  - apply Hsame. eapply Hkeep; try reflexivity. rewrite H. split; discriminate.
  - apply Hsame. eapply Hkeep; try reflexivity; tauto.
  - apply Hsame. eapply Hkeep; try reflexivity; tauto.
  - apply Hsame. reflexivity.
Qed.

Lemma keep_pos s s' e n a w : st s s' e ->
  (exists t, nth_error (threads s) n = Some t /\ tto t = a /\ tw t = w /\ late t) ->
  exists t, nth_error (threads s') n = Some t /\ tto t = a /\ tw t = w /\ late t.
Proof.
  intros H (t & Ht & H1 & H2 & H3). destruct (step_threads _ _ _ H _ _ Ht) as (t' & Ht' & (Ha & Hb & Hc & Hd) & Hl & _).
  exists t'. repeat split; [assumption|congruence|congruence|auto].
Qed.

Lemma nodup_snoc' {A} (l : list A) x : NoDup l -> ~ In x l -> NoDup (l ++ [x]).
Proof.
  intros H Hn. apply NoDup_rev in H. rewrite <- (rev_involutive (l ++ [x])), rev_app_distr. apply NoDup_rev. cbn.
  constructor; [|assumption]. now rewrite <- in_rev.
Qed.

Lemma inv_step s s' e : Inv s -> st s s' e -> Inv s'.
Proof.
  intros HI H. assert (Hst := H). split.
  - (* wrappers exist *)
    intros j tj Hj. assert (Hg := heap_grows _ _ _ Hst).
    enough (tw tj < List.length (heap s) \/ tw tj < List.length (heap s')) by lia.
    destruct H; cbn in *; try (left; eapply (i_th s HI); eauto; fail).
    + apply nth_snoc in Hj as [Hj|[-> ->]]; [left; eapply (i_th s HI); eauto|]. left. cbn. eapply nth_lt; eauto.
    + left. assert (Hi : i < List.length (threads s)) by (eapply nth_lt; eauto).
      assert (forall p g, nth_error (upd (threads s) i (set_pc t p g)) j = Some tj -> tw tj < List.length (heap s)).
      { intros p g. rewrite nth_upd by assumption. destruct (Nat.eqb_spec i j); [|intros; eapply (i_th s HI); eauto].
        intros E. injection E as <-. cbn. eapply (i_th s HI); eauto. }
      destruct H1; subst s'; cbn in Hj; eauto. eapply (i_th s HI); eauto.
  - (* mailboxes *)
    intros a n w Hin. destruct H; cbn in Hin; try (eapply keep_pos; [exact Hst|]; eapply (i_box s HI); eauto; fail).
    + destruct H1; subst s'; cbn in Hin; try (eapply keep_pos; [exact Hst|]; eapply (i_box s HI); eauto; fail).
      unfold upd_f in Hin. destruct (String.eqb_spec a (tto t)) as [->|]; [|eapply keep_pos; [exact Hst|]; eapply (i_box s HI); eauto].
      apply in_app_or in Hin as [Hin|[E|[]]]; [eapply keep_pos; [exact Hst|]; eapply (i_box s HI); eauto|].
      injection E as <- <-. cbn. rewrite nth_upd_eq by (eapply nth_lt; eauto). eexists; split; [reflexivity|].
      cbn. repeat split. unfold late; cbn. destruct H2 as [(_ & -> & _)|(_ & -> & _)]; exact I.
    + unfold upd_f in Hin. destruct (String.eqb_spec a a0) as [->|]; eapply keep_pos; try exact Hst; eapply (i_box s HI); eauto.
      rewrite H0. right. exact Hin.
  - (* running *)
    intros a n w Hc. destruct H; cbn in Hc; try (eapply keep_pos; [exact Hst|]; eapply (i_cur s HI); eauto; fail).
    + destruct H1; subst s'; cbn in Hc; eapply keep_pos; try exact Hst; eapply (i_cur s HI); eauto.
    + unfold upd_f in Hc. destruct (String.eqb_spec a a0) as [->|]; eapply keep_pos; try exact Hst; [|eapply (i_cur s HI); eauto].
      injection Hc as -> ->. eapply (i_box s HI). rewrite H0. left. reflexivity.
    + unfold upd_f in Hc. destruct (String.eqb_spec a a0) as [->|]; [discriminate|]. eapply keep_pos; try exact Hst. eapply (i_cur s HI); eauto.
  - (* no message twice *)
    intros a. destruct H; cbn; try apply (i_nd s HI).
    + destruct H1; subst s'; cbn; try apply (i_nd s HI). unfold upd_f. destruct (String.eqb_spec a (tto t)) as [->|]; [|apply (i_nd s HI)].
      rewrite map_app. apply nodup_snoc'; [apply (i_nd s HI)|]. cbn. intros Hin.
      apply in_map_iff in Hin as ([n w] & E & Hin). cbn in E. subst n.
      destruct (i_box s HI _ _ _ Hin) as (t2 & Ht2 & _ & _ & Hl). assert (t2 = t) by congruence. subst t2. unfold late in Hl. rewrite H1 in Hl. exact Hl.
    + unfold upd_f. destruct (String.eqb_spec a a0) as [->|]; [|apply (i_nd s HI)].
      assert (Hn := i_nd s HI a0). rewrite H0 in Hn. cbn in Hn. now inversion Hn.
  - (* running not queued *)
    intros a n w Hc. destruct H; cbn in *; try (eapply (i_cb s HI); eauto; fail).
    + destruct H1; subst s'; cbn in *; try (eapply (i_cb s HI); eauto; fail).
      unfold upd_f. destruct (String.eqb_spec a (tto t)) as [->|]; [|eapply (i_cb s HI); eauto].
      rewrite map_app, in_app_iff. cbn. intros [Hin|[<-|[]]]; [eapply (i_cb s HI); eauto|].
      destruct (i_cur s HI _ _ _ Hc) as (t2 & Ht2 & _ & _ & Hl). assert (t2 = t) by congruence. subst t2. unfold late in Hl. rewrite H1 in Hl. exact Hl.
    + unfold upd_f in *. destruct (String.eqb_spec a a0) as [->|]; [|eapply (i_cb s HI); eauto].
      injection Hc as -> ->. assert (Hn := i_nd s HI a0). rewrite H0 in Hn. cbn in Hn. now inversion Hn.
    + unfold upd_f in *. destruct (String.eqb_spec a a0) as [->|]; [discriminate|]. eapply (i_cb s HI); eauto.
  - (* goroutines *)
    intros j tj Hj. destruct H; cbn in *; try (eapply (i_go s HI); eauto; fail).
    + apply nth_snoc in Hj as [Hj|[-> ->]]; [eapply (i_go s HI); eauto|]. exact I.
    + assert (Hi : i < List.length (threads s)) by (eapply nth_lt; eauto).
      assert (Hu : forall p g, nth_error (upd (threads s) i (set_pc t p g)) j = Some tj ->
        match g with GNone => True | GBlocked => p = Counted \/ p = Added | _ => late (set_pc t p g) end ->
        match tgo tj with GNone => True | GBlocked => tst tj = Counted \/ tst tj = Added | _ => late tj end).
      { intros p g. rewrite nth_upd by assumption. destruct (Nat.eqb_spec i j); [|intros; eapply (i_go s HI); eauto].
        intros E. injection E as <-. cbn. auto. }
      assert (Ho := i_go s HI _ _ H). unfold late in *.
      destruct H1; subst s'; cbn in Hj; try (eapply Hu; [exact Hj|]); cbn; auto;
        try (rewrite H1 in Ho; destruct (tgo t); cbn; auto; try contradiction; destruct Ho; discriminate).
      all: try (rewrite H1 in Ho; auto; fail).
      all: try (eapply (i_go s HI); eauto; fail).
      destruct H2 as [(E1 & E2 & E3 & _)|(Hg & E2 & E3 & _)]; subst p g; cbn; auto. destruct (tgo t); auto; congruence.
  - (* counting *)
    intros g. destruct H.
    + cbn. rewrite (i_wg s HI g). apply sumz_ext. intros i Hi. destruct (nth_ex _ _ Hi) as [t Ht].
      rewrite (ing_same _ _ _ _ _ _ HI Hst Ht). reflexivity.
    + cbn [wgs]. rewrite (i_wg s HI g). cbn [threads]. rewrite app_length. cbn [List.length]. rewrite Nat.add_1_r. cbn [sumz].
      match goal with |- context[out ?s2 (List.length (threads s))] => assert (out s2 (List.length (threads s)) = false) as -> end.
      { apply not_true_iff_false. intros Ho. apply out_inv in Ho as (t & Ht & Hc). cbn in Ht, Hc.
        rewrite nth_error_app2, Nat.sub_diag in Ht by lia. injection Ht as <-. cbn in Hc.
        assert (Hno : forall x, (exists t, nth_error (threads s) x = Some t /\ tto t = target /\ True) -> x <> List.length (threads s)).
        { intros x (t & Ht & _) ->. apply nth_lt in Ht. lia. }
        destruct Hc as [?|[Hc|[x Hc]]]; [discriminate| |].
        - apply in_map_iff in Hc as ([n x] & E & Hc). cbn in E. destruct (i_box s HI _ _ _ Hc) as (t & Ht & _). apply nth_lt in Ht. lia.
        - destruct (i_cur s HI _ _ _ Hc) as (t & Ht & _). apply nth_lt in Ht. lia. }
      cbn [andb]. rewrite Z.add_0_r. apply sumz_ext. intros i Hi. destruct (nth_ex _ _ Hi) as [t Ht].
      rewrite (ing_same _ _ _ _ _ _ HI Hst Ht). f_equal.
      unfold out. cbn. rewrite nth_error_app1 by assumption. reflexivity.
    + eapply inv_wg_cs; eauto.
    + cbn [wgs]. rewrite (i_wg s HI g). cbn [threads]. apply sumz_ext. intros i Hi. destruct (nth_ex _ _ Hi) as [t Ht].
      rewrite (ing_same _ _ _ _ _ _ HI Hst Ht). f_equal. apply bool_iff. split; intros Ho; apply out_inv in Ho as (t2 & Ht2 & Hc).
      * (eapply out_intro; [exact Ht2|]). cbn. unfold upd_f. destruct (String.eqb_spec (tto t2) a) as [E|]; [|exact Hc].
        rewrite E, H0, H in Hc. destruct Hc as [?|[[<-|?]|[x ?]]]; eauto. discriminate.
      * (eapply out_intro; [exact Ht2|]). cbn in *. unfold upd_f in Hc. destruct (String.eqb_spec (tto t2) a) as [E|]; [|exact Hc].
        rewrite E, H0, H. cbn. destruct Hc as [?|[?|[x Hx]]]; auto. injection Hx as -> ->. auto.
    + cbn [wgs threads]. destruct (i_cur s HI _ _ _ H) as (t & Ht & Hto & Htw & Hl).
      assert (Hi : n < List.length (threads s)) by (eapply nth_lt; eauto).
      match goal with |- _ = sumz (fun k => out ?s2 k && _) _ => set (s1 := s2) in * end.
      assert (Hof : out s1 n = false).
      { apply not_true_iff_false. intros Ho. apply out_inv in Ho as (t2 & Ht2 & Hc). cbn in Ht2, Hc.
        assert (t2 = t) by congruence. subst t2. rewrite Hto in Hc. unfold upd_f in Hc. rewrite String.eqb_refl in Hc.
        destruct Hc as [Hc|[Hc|[x Hc]]]; [unfold late in Hl; rewrite Hc in Hl; exact Hl| |discriminate]. eapply (i_cb s HI); eauto. }
      assert (E := sumz_one (fun k => out s1 k && ing s1 g k) (fun k => out s k && ing s g k) _ n Hi). cbn beta in E.
      rewrite Hof, (out_cur s a n w HI H) in E. cbn [andb] in E.
      assert (Hx : forall k, k < List.length (threads s) -> k <> n -> out s1 k && ing s1 g k = out s k && ing s g k).
      { intros k Hk Hne. destruct (nth_ex _ _ Hk) as [tk Htk]. rewrite (ing_same s s1 _ k tk g HI Hst Htk). f_equal.
        apply bool_iff. split; intros Ho; apply out_inv in Ho as (t2 & Ht2 & Hc); (eapply out_intro; [exact Ht2|]); cbn in *;
          unfold upd_f in *; destruct (String.eqb_spec (tto t2) a) as [Ea|]; auto.
        - rewrite Ea in *. destruct Hc as [?|[?|[x Hx]]]; auto. discriminate.
        - rewrite Ea in *. destruct Hc as [?|[?|[x Hx]]]; auto. rewrite H in Hx. injection Hx as -> _. congruence. }
      specialize (E Hx). assert (Hing : ing s g n = Nat.eqb (wgroup wr) g) by (unfold ing; rewrite Ht, Htw, H1; reflexivity).
      rewrite Hing in E. unfold upd_wg. rewrite (Nat.eqb_sym g). rewrite (i_wg s HI g). destruct (Nat.eqb (wgroup wr) g); lia.
    + cbn. rewrite (i_wg s HI g). reflexivity.
Qed.

Lemma inv_run aty sched s evs : run (step aty) init sched = Some (s, evs) -> Inv s.
Proof.
  intros H. apply (run_inv (step aty) init (fun _ _ s => Inv s)) with (sched := sched) (evs := evs); auto using inv_init.
  intros. eapply inv_step; eauto using step_st.
Qed.
