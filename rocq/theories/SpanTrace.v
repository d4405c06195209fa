(** Proofs about SpanModel: contexts of wrappers, parents and traces. *)
From Coq Require Import List Arith Bool Lia.
From Verif Require Import Machine MachineMore SpanModel SpanSpec SpanProofs.
Import ListNotations.

(** ** Bounds *)
Lemma call_of f sched s evs c w : run (step f) init sched = Some (s, evs) -> In (VCall c w) evs <-> exists y, nth_error (calls s) c = Some y /\ w_of y = w.
Proof.
  intros R. split.
  - intros I. destruct (ev_call _ _ _ _ _ c R I (Nat.eqb_refl c)) as (y & N & H & J). exists y. split; [exact N|]. destruct (hist_full _ _ _ H) as (l' & F).
    assert (K : In (VCall c w) (filter (of_call c) evs ++ l')) by (apply in_app_iff; auto).
    destruct F as [F|[(k1 & p1 & F)|[(k1 & p1 & F)|(k1 & p1 & k2 & p2 & F)]]]; rewrite F in K; cbn in K; repeat destruct K as [K|K]; try discriminate K; try contradiction; congruence.
  - intros (y & N & <-). pose proof (hist_all _ _ _ _ R c) as H. rewrite N in H. apply (in_filter_l (of_call c)). clear - H. induction H; cbn; rewrite ?in_app_iff; cbn in *; auto.
Qed.
Lemma call_one f sched s evs c w w' : run (step f) init sched = Some (s, evs) -> In (VCall c w) evs -> In (VCall c w') evs -> w = w'.
Proof. intros R A B. apply (call_of _ _ _ _ _ _ R) in A as (y & N & <-). apply (call_of _ _ _ _ _ _ R) in B as (y' & N' & <-). congruence. Qed.
Lemma w_lt f sched s evs : run (step f) init sched = Some (s, evs) -> forall c y, nth_error (calls s) c = Some y -> w_of y < length (wrappers s).
Proof.
  intros R. apply (run_inv (step f) init (fun _ evs s => forall c y, nth_error (calls s) c = Some y -> w_of y < length (wrappers s))) with (sched := sched) (evs := evs); [intros [|c]; discriminate| |exact R].
  clear. intros sched evs s l s' e _ IH H. moves H; cbn [calls wrappers with_calls with_wrappers with_spans with_serves goto]; intros d y D; rewrite ?app_length, ?upd_length; cbn [length];
  try (apply IH in D; lia).
  1: apply snoc_case in D as [D|[-> ->]]; [apply IH in D; lia|cbn; exact (some_lt _ _ _ H0)].
  all: match goal with X : nth_error (calls _) _ = Some _ |- _ => apply upd_case in D as [[-> ->]|[N D]]; [cbn; apply IH in X; cbn in X; lia|apply IH in D; lia|exact (some_lt _ _ _ X)] end.
Qed.

(** ** What a context holds *)
Lemma snoc_inj {A} (a b : list A) x y : a ++ [x] = b ++ [y] -> a = b /\ x = y.
Proof. apply app_inj_tail. Qed.
Lemma holds_snoc evs e w x : holds (evs ++ [e]) w x ->
  (e = VWrap w None /\ x = None) \/ (exists w', e = VWrap w (Some w') /\ holds evs w' x) \/ (exists c k, e = VSet c k /\ x = Some k /\ In (VCall c w) evs) \/
  (exists v c k p, e = VServe v c w /\ x = Some k /\ In (VStart k p (SServer v)) evs) \/ (holds evs w x /\ forall c k, e = VSet c k -> ~ In (VCall c w) evs).
Proof.
  intros H. inversion H as [ev w0 E1 E2 E3|ev w0 w' x0 P E1 E2 E3|ev c k w0 P E1 E2 E3|ev v c w0 k p P E1 E2 E3|ev w0 x0 e0 P Q E1 E2 E3]; subst; apply snoc_inj in E1 as [-> <-]; eauto 12.
Qed.
Lemma holds_nil w x : ~ holds [] w x.
Proof. intros H. inversion H as [ev w0 E1 E2 E3|ev w0 w' x0 P E1 E2 E3|ev c k w0 P E1 E2 E3|ev v c w0 k p P E1 E2 E3|ev w0 x0 e0 P Q E1 E2 E3]; destruct ev; discriminate E1. Qed.
Definition Ctx (evs : list event) (s : state) : Prop := forall w x, nth_error (wrappers s) w = Some x <-> holds evs w x.
Lemma ctx_keep evs s e : Ctx evs s -> (forall w x, nth_error (wrappers s) w = Some x -> True) ->
  match e with VWrap _ _ | VSet _ _ | VServe _ _ _ => False | _ => True end -> forall w x, nth_error (wrappers s) w = Some x <-> holds (evs ++ [e]) w x.
Proof.
  intros C _ N w x. split.
  - intros H. apply h_keep; [apply C; exact H|]. intros c k ->. destruct N.
  - intros H. apply holds_snoc in H as [(-> & _)|[(w' & -> & _)|[(c & k & -> & _)|[(v & c & k & p & -> & _)|(H & _)]]]]; try destruct N. apply C. exact H.
Qed.
Lemma ctx_new evs s e w0 x0 : Ctx evs s -> w0 = length (wrappers s) ->
  ((e = VWrap w0 None /\ x0 = None) \/ (exists w', e = VWrap w0 (Some w') /\ nth_error (wrappers s) w' = Some x0) \/ (exists v c, e = VServe v c w0 /\ (exists k p, x0 = Some k /\ In (VStart k p (SServer v)) evs) /\ (forall k p, In (VStart k p (SServer v)) evs -> x0 = Some k))) ->
  forall w x, nth_error (wrappers s ++ [x0]) w = Some x <-> holds (evs ++ [e]) w x.
Proof.
  intros C -> K w x. split.
  - intros H. apply snoc_case in H as [H|[-> ->]].
    + apply h_keep; [apply C; exact H|]. destruct K as [(-> & _)|[(w' & -> & _)|(v & c & -> & _)]]; discriminate.
    + destruct K as [(-> & ->)|[(w' & -> & K)|(v & c & -> & (k & p & -> & K) & _)]]; [apply h_new|apply h_copy; apply C; exact K|eapply h_serve; eauto].
  - intros H. apply holds_snoc in H as [(-> & ->)|[(w' & -> & H)|[(c & k & -> & _)|[(v & c & k & p & -> & -> & P)|(H & _)]]]].
    + destruct K as [(E & ->)|[(w' & E & _)|(v & c & E & _)]]; try discriminate. injection E as ->. apply nth_last.
    + destruct K as [(E & ->)|[(w'' & E & Q)|(v & c & E & _)]]; try discriminate. injection E as -> ->. apply C in H. rewrite nth_last. congruence.
    + destruct K as [(E & _)|[(w'' & E & Q)|(v & c' & E & _)]]; discriminate.
    + destruct K as [(E & _)|[(w'' & E & Q)|(v' & c' & E & _ & Q)]]; try discriminate. injection E as -> -> ->. rewrite (Q _ _ P). apply nth_last.
    + apply nth_snoc. apply C. exact H.
Qed.
Lemma ctx_all f sched s evs : run (step f) init sched = Some (s, evs) -> Ctx evs s.
Proof.
  intros R. apply (run_inv (step f) init (fun _ evs s => Ctx evs s)) with (sched := sched); [| |exact R].
  { intros w x. split; [destruct w; discriminate|intros H; now apply holds_nil in H]. }
  clear. intros sched evs s l s' e R IH H. moves H; unfold Ctx; cbn [calls wrappers with_calls with_wrappers with_spans with_serves goto]; rewrite ?app_nil_r; auto;
  try (apply (ctx_keep evs s); auto; fail).
  - apply (ctx_new evs s _ _ _ IH eq_refl); auto.
  - apply (ctx_new evs s _ _ _ IH eq_refl); eauto 6.
  - pose proof (w_lt _ _ _ _ R _ _ H0) as L. cbn in L. assert (CA : In (VCall c w) evs) by (apply (call_of _ _ _ _ _ _ R); eauto).
    intros w0 x0. split.
    + intros H. apply upd_case in H as [[-> ->]|[N H]]; [apply h_set; exact CA| |exact L]. apply h_keep; [apply IH; exact H|].
      intros c' k' E I. injection E as -> ->. apply N. eapply call_one; eauto.
    + intros H. apply holds_snoc in H as [(E & _)|[(w' & E & _)|[(c' & k' & E & -> & I)|[(v & c' & k' & p & E & _)|(H & Q)]]]]; try discriminate.
      * injection E as -> ->. rewrite (call_one _ _ _ _ _ _ _ R I CA). apply nth_upd_eq. exact L.
      * rewrite nth_upd_neq; [apply IH; exact H|]. intros <-. exact (Q _ _ eq_refl CA).
  - change [?a; ?b] with ([a] ++ [b]). rewrite app_assoc.
    apply (ctx_new (evs ++ [VStart (spans s) (Some kc) (SServer (length (serves s)))]) s _ (length (wrappers s))); auto.
    + intros w0 x0. apply (ctx_keep evs s); auto.
    + right. right. exists (length (serves s)), c. split; [auto|split].
      * exists (spans s), (Some kc). split; auto. apply in_app_iff. right. left. reflexivity.
      * intros k1 p1 I. apply in_app_iff in I as [I|[I|[]]]; [|congruence].
        destruct (ev_serve _ _ _ _ _ (length (serves s)) R I (Nat.eqb_refl _)) as (y & Y & _). apply some_lt in Y. lia.
  - change [?a; ?b] with ([a] ++ [b]). rewrite app_assoc. intros w0 x0. apply (ctx_keep (evs ++ [VFinish k (SServer v)]) s); auto. intros w1 x1. apply (ctx_keep evs s); auto.
  - change [?a; ?b] with ([a] ++ [b]). rewrite app_assoc. intros w0 x0. apply (ctx_keep (evs ++ [VFinish k (SClient c)]) s); auto. intros w1 x1. apply (ctx_keep evs s); auto.
  - change [?a; ?b] with ([a] ++ [b]). rewrite app_assoc. intros w0 x0. apply (ctx_keep (evs ++ [VFinish k (SCall c)]) s); auto. intros w1 x1. apply (ctx_keep evs s); auto.
Qed.
Lemma holds_one f sched s evs w x y : run (step f) init sched = Some (s, evs) -> holds evs w x -> holds evs w y -> x = y.
Proof. intros R A B. apply (ctx_all _ _ _ _ R) in A, B. congruence. Qed.

(** ** Parents *)
(** The step that starts the span of a call or of its client interceptor. *)
Lemma start_step f t l t' q1 k par x q2 c : step f t l = Some (t', q1 ++ VStart k par x :: q2) -> (x = SCall c \/ x = SClient c) ->
  q1 = [] /\ q2 = [] /\ exists y, nth_error (calls t) c = Some y /\ nth_error (wrappers t) (w_of y) = Some par /\
  match x with SCall _ => at_ y = PEntry | _ => at_ y = PBegun end.
Proof.
  intros H X. remember (q1 ++ VStart k par x :: q2) as e eqn:E. revert E. moves H; intros E; destruct q1 as [|z [|z' q1]]; cbn in E; try discriminate E; injection E; clear E; intros; subst; try discriminate;
  try (destruct q1; discriminate); destruct X as [X|X]; try discriminate X; injection X as <-; split; auto; split; auto; eexists; split; eauto.
Qed.
Lemma parent_held f sched s evs a k par x b c w : run (step f) init sched = Some (s, evs) -> evs = a ++ VStart k par x :: b -> (x = SCall c \/ x = SClient c) -> In (VCall c w) evs -> holds a w par.
Proof.
  intros R E X I. destruct (run_split _ _ _ _ _ _ _ _ R E) as (x1 & l & y & t & t' & e1 & q1 & q2 & e2 & -> & H1 & H2 & H3 & -> & ->).
  destruct (start_step _ _ _ _ _ _ _ _ _ _ H2 X) as (-> & -> & z & Z1 & Z2 & _). rewrite app_nil_r in *.
  assert (w = w_of z) as ->. { eapply (call_one _ _ _ _ c _ _ R); [exact I|]. rewrite E. apply in_app_iff. left. apply (call_of _ _ _ _ _ _ H1). eauto. }
  apply (ctx_all _ _ _ _ H1). exact Z2.
Qed.
Lemma call_before f sched s evs a k par x b c : run (step f) init sched = Some (s, evs) -> evs = a ++ VStart k par x :: b -> (x = SCall c \/ x = SClient c) -> exists w, In (VCall c w) a.
Proof.
  intros R E X. destruct (run_split _ _ _ _ _ _ _ _ R E) as (x1 & l & y & t & t' & e1 & q1 & q2 & e2 & -> & H1 & H2 & H3 & -> & ->).
  destruct (start_step _ _ _ _ _ _ _ _ _ _ H2 X) as (-> & -> & z & Z1 & Z2 & _). rewrite app_nil_r. exists (w_of z). apply (call_of _ _ _ _ _ _ H1). eauto.
Qed.
(** A context keeps what it holds until a call on its wrapper writes it. *)
Lemma holds_stays evs b w x : holds evs w x -> (forall c k, In (VSet c k) b -> ~ In (VCall c w) (evs ++ b)) -> holds (evs ++ b) w x.
Proof.
  intros H. induction b as [|e b IH] using rev_ind; intros N; [now rewrite app_nil_r|]. rewrite app_assoc. apply h_keep.
  - apply IH. intros c k I J. apply (N c k); [apply in_app_iff; auto|]. rewrite app_assoc. apply in_app_iff. auto.
  - intros c k -> J. apply (N c k); [apply in_app_iff; right; left; reflexivity|]. rewrite app_assoc. apply in_app_iff. auto.
Qed.
Lemma next_parent f sched s evs a b k par x d c w v : run (step f) init sched = Some (s, evs) -> evs = a ++ b ++ VStart k par x :: d -> (x = SCall c \/ x = SClient c) -> In (VCall c w) evs ->
  holds a w v -> (forall c' k', In (VSet c' k') b -> ~ In (VCall c' w) evs) -> par = v.
Proof.
  intros R E X I H N. assert (E' : evs = (a ++ b) ++ VStart k par x :: d) by (rewrite <- app_assoc; exact E). pose proof (parent_held _ _ _ _ _ _ _ _ _ _ _ R E' X I) as P.
  assert (Q : holds (a ++ b) w v). { apply holds_stays; [exact H|]. intros c' k' J K. apply (N _ _ J). rewrite E'. apply in_app_iff. auto. }
  destruct (run_split _ _ _ _ _ _ _ _ R E') as (x1 & l & y & t & t' & e1 & q1 & q2 & e2 & -> & H1 & H2 & H3 & EQ & ->).
  destruct (start_step _ _ _ _ _ _ _ _ _ _ H2 X) as (-> & -> & _). rewrite app_nil_r in EQ. rewrite EQ in P, Q. eapply holds_one; eauto.
Qed.

(** Parents start before their children. *)
Lemma cli_started f sched s evs c y k : run (step f) init sched = Some (s, evs) -> nth_error (calls s) c = Some y -> cli y = Some k -> exists p, In (VStart k p (SClient c)) evs.
Proof.
  intros R N C. pose proof (hist_all _ _ _ _ R c) as H. rewrite N in H.
  enough (exists p, In (VStart k p (SClient c)) (filter (of_call c) evs)) as (p & I) by (exists p; eapply in_filter_l; eauto).
  clear - H C. induction H; cbn in C; try discriminate; try (destruct (IHhist C) as (p1 & I1); exists p1; apply in_app_iff; auto; fail).
  injection C as ->. exists p. apply in_app_iff. right. left. reflexivity.
Qed.
Lemma own_started f sched s evs c y k : run (step f) init sched = Some (s, evs) -> nth_error (calls s) c = Some y -> own y = Some k -> exists p, In (VStart k p (SCall c)) evs.
Proof.
  intros R N C. pose proof (hist_all _ _ _ _ R c) as H. rewrite N in H.
  enough (exists p, In (VStart k p (SCall c)) (filter (of_call c) evs)) as (p & I) by (exists p; eapply in_filter_l; eauto).
  clear - H C. induction H; cbn in C; try discriminate; try (destruct (IHhist C) as (p1 & I1); exists p1; apply in_app_iff; auto; fail);
  injection C as ->; exists p; cbn; auto.
Qed.
Definition Started (evs : list event) (s : state) : Prop := forall w k, nth_error (wrappers s) w = Some (Some k) -> exists p x, In (VStart k p x) evs.
Lemma started_all f sched s evs : run (step f) init sched = Some (s, evs) -> Started evs s.
Proof.
  intros R. apply (run_inv (step f) init (fun _ evs s => Started evs s)) with (sched := sched); [intros [|w]; discriminate| |exact R].
  clear. intros sched evs s l s' e R IH H.
  assert (M : forall k, (exists p x, In (VStart k p x) evs) -> exists p x, In (VStart k p x) (evs ++ e)) by (intros k (p & x & I); exists p, x; apply in_app_iff; auto).
  moves H; intros w0 k0 N; cbn [wrappers with_calls with_wrappers with_spans with_serves goto] in N; try (apply M; eapply IH; exact N).
  - apply snoc_case in N as [N|[_ N]]; [apply M; eauto|discriminate].
  - apply snoc_case in N as [N|[_ <-]]; apply M; eauto.
  - pose proof (w_lt _ _ _ _ R _ _ H0) as L. apply upd_case in N as [[-> N]|[_ N]]; [|apply M; eauto|exact L].
    injection N as ->. apply M. destruct (own_started _ _ _ _ _ _ k R H0 eq_refl) as (p & I). eauto.
  - apply snoc_case in N as [N|[_ N]]; [apply M; eauto|]. injection N as ->. exists (Some kc), (SServer (length (serves s))). apply in_app_iff. right. left. reflexivity.
Qed.
Lemma parent_first f sched s evs a k q x b : run (step f) init sched = Some (s, evs) -> evs = a ++ VStart k (Some q) x :: b -> exists p y, In (VStart q p y) a.
Proof.
  intros R E. destruct (run_split _ _ _ _ _ _ _ _ R E) as (x1 & l & y & t & t' & e1 & q1 & q2 & e2 & -> & H1 & H2 & H3 & -> & ->).
  enough (exists p y, In (VStart q p y) e1) as (p & z & I) by (exists p, z; apply in_app_iff; auto).
  destruct x as [c|c|v].
  - destruct (start_step _ _ _ _ _ _ _ _ _ c H2 (or_introl eq_refl)) as (_ & _ & z & _ & Z & _). eapply started_all; eauto.
  - destruct (start_step _ _ _ _ _ _ _ _ _ c H2 (or_intror eq_refl)) as (_ & _ & z & _ & Z & _). eapply started_all; eauto.
  - remember (q1 ++ VStart k (Some q) (SServer v) :: q2) as e eqn:E1. revert E1. moves H2; intros E1; destruct q1 as [|z [|z' q1]]; cbn in E1; try discriminate E1; injection E1; clear E1; intros; subst; try discriminate; try (destruct q1; discriminate).
    destruct (cli_started _ _ _ _ _ _ q H1 H eq_refl) as (p' & I). eauto.
Qed.
(** The parent of a request's span is the client span of the call that it comes from. *)
Lemma server_parent f sched s evs v c w k par : run (step f) init sched = Some (s, evs) -> In (VServe v c w) evs -> In (VStart k par (SServer v)) evs -> exists kc p, par = Some kc /\ In (VStart kc p (SClient c)) evs.
Proof.
  intros R I J. apply in_split in I as (a & b & E). destruct (run_split _ _ _ _ _ _ _ _ R E) as (x1 & l & y & t & t' & e1 & q1 & q2 & e2 & -> & H1 & H2 & H3 & -> & ->).
  remember (q1 ++ VServe v c w :: q2) as e eqn:E1. revert E1. moves H2; intros E1; destruct q1 as [|z [|z' q1]]; cbn in E1; try discriminate E1; injection E1; clear E1; intros; subst; try discriminate; try (destruct q1; discriminate).
  destruct (cli_started _ _ _ _ _ _ kc H1 H eq_refl) as (p' & I).
  change ([] ++ e2) with e2 in *. exists kc, p'. split; [|rewrite <- app_assoc; apply in_app_iff; auto].
  assert (J2 : In (VStart (spans t) (Some kc) (SServer (length (serves t)))) ((e1 ++ [VStart (spans t) (Some kc) (SServer (length (serves t)))]) ++ VServe (length (serves t)) c (length (wrappers t)) :: e2)).
  { apply in_app_iff. left. apply in_app_iff. right. left. reflexivity. }
  destruct (ev_serve _ _ _ _ _ (length (serves t)) R J (Nat.eqb_refl _)) as (z & _ & F & J'). assert (J2' : In (VStart (spans t) (Some kc) (SServer (length (serves t)))) (filter (of_serve (length (serves t))) ((e1 ++ [VStart (spans t) (Some kc) (SServer (length (serves t)))]) ++ VServe (length (serves t)) c (length (wrappers t)) :: e2))) by (apply filter_In; split; [exact J2|apply Nat.eqb_refl]).
  apply shist_shape in F as (k1 & kc1 & c1 & w1 & F & _). destruct F as [F|F]; rewrite F in J', J2'; cbn in J', J2'; intuition congruence.
Qed.

(** ** One trace *)
Lemma apart_app evs e : apart (evs ++ e) -> apart evs.
Proof.
  intros A a k par c b c' k' d w E I J N. apply (A a k par c b c' k' (d ++ e) w); auto.
  - rewrite E, <- !app_assoc. cbn. now rewrite <- app_assoc.
  - apply in_app_iff; auto.
  - apply in_app_iff; auto.
Qed.
Lemma descends_mono evs e k q : descends evs k q -> descends (evs ++ e) k q.
Proof. induction 1; [apply d_self|eapply d_child; eauto; apply in_app_iff; eauto]. Qed.
Lemma descends_trans evs a b c : descends evs a b -> descends evs b c -> descends evs a c.
Proof. induction 1; intros K; [exact K|eapply d_child; eauto]. Qed.
Lemma carried_snoc evs e w k : carried (evs ++ [e]) w k ->
  (exists c, e = VSet c k /\ In (VCall c w) evs) \/ (exists v c p, e = VServe v c w /\ In (VStart k p (SServer v)) evs) \/ (exists w', e = VWrap w (Some w') /\ carried evs w' k) \/ carried evs w k.
Proof.
  intros H. inversion H as [ev c k0 w0 P E1 E2 E3|ev v c w0 k0 p P E1 E2 E3|ev w0 w' k0 P E1 E2 E3|ev e0 w0 k0 P E1 E2 E3]; subst; apply snoc_inj in E1 as [-> <-]; eauto 10.
Qed.
Lemma carried_nil w k : ~ carried [] w k.
Proof. intros H. inversion H as [ev c k0 w0 P E1 E2 E3|ev v c w0 k0 p P E1 E2 E3|ev w0 w' k0 P E1 E2 E3|ev e0 w0 k0 P E1 E2 E3]; destruct ev; discriminate E1. Qed.
Definition Trace (evs : list event) (s : state) : Prop :=
  (forall c y, nth_error (calls s) c = Some y -> at_ y = PStarted -> forall k par, In (VStart k par (SCall c)) evs -> nth_error (wrappers s) (w_of y) = Some par) /\
  (forall w k, carried evs w k -> exists z, nth_error (wrappers s) w = Some (Some z) /\ descends evs z k).
Lemma trace_keep evs s e : (forall w k, carried evs w k -> exists z, nth_error (wrappers s) w = Some (Some z) /\ descends evs z k) ->
  match e with VWrap _ (Some _) | VSet _ _ | VServe _ _ _ => False | _ => True end -> forall w k, carried (evs ++ [e]) w k -> exists z, nth_error (wrappers s) w = Some (Some z) /\ descends (evs ++ [e]) z k.
Proof.
  intros A N w k C. apply carried_snoc in C as [(c & -> & _)|[(v & c & p & -> & _)|[(w' & -> & _)|C]]]; try destruct N.
  destruct (A _ _ C) as (z & Z & D). exists z. split; [exact Z|now apply descends_mono].
Qed.
Lemma trace_all f sched s evs : run (step f) init sched = Some (s, evs) -> apart evs -> Trace evs s.
Proof.
  intros R. apply (run_inv (step f) init (fun _ evs s => apart evs -> Trace evs s)) with (sched := sched); [| |exact R].
  { intros _. split; [intros [|c]; discriminate|intros w k H; now apply carried_nil in H]. }
  clear. intros sched evs s l s' e R IH H AP. destruct (IH (apart_app _ _ AP)) as [T1 T2]. clear IH. pose proof (hist_all _ _ _ _ R) as HI.
  assert (K : forall c y k par e', nth_error (calls s) c = Some y -> at_ y = PStarted -> (forall k par, ~ In (VStart k par (SCall c)) e') -> In (VStart k par (SCall c)) (evs ++ e') -> nth_error (wrappers s) (w_of y) = Some par).
  { intros c y k par e' N P Q I. apply in_app_iff in I as [I|I]; [eapply T1; eauto|destruct (Q _ _ I)]. }
  moves H; split; cbn [calls wrappers with_calls with_wrappers with_spans with_serves goto]; rewrite ?app_nil_r; auto.
  - intros d y N P k' par' I. apply nth_snoc. eapply K; eauto. intros ? ? [X|[]]; discriminate.
  - intros w0 k0 C. apply carried_snoc in C as [(? & X & _)|[(? & ? & ? & X & _)|[(? & X & _)|C]]]; try discriminate. destruct (T2 _ _ C) as (z & Z & D). exists z. split; [now apply nth_snoc|now apply descends_mono].
  - intros d y N P k' par' I. apply nth_snoc. eapply K; eauto. intros ? ? [X|[]]; discriminate.
  - intros w0 k0 C. apply carried_snoc in C as [(? & X & _)|[(? & ? & ? & X & _)|[(w' & X & C)|C]]]; try discriminate.
    + injection X as <- <-. destruct (T2 _ _ C) as (z & Z & D). exists z. rewrite nth_last. split; [congruence|now apply descends_mono].
    + destruct (T2 _ _ C) as (z & Z & D). exists z. split; [now apply nth_snoc|now apply descends_mono].
  - intros d y N P k' par' I. apply snoc_case in N as [N|[-> ->]]; [|discriminate P]. eapply K; eauto. intros ? ? [X|[]]; discriminate.
  - apply trace_keep; auto; exact I.
  - intros d y N P k' par' I. apply upd_case in N as [[-> ->]|[ND N]]; [| |exact (some_lt _ _ _ H1)].
    + cbn. apply in_app_iff in I as [I|[I|[]]]; [|congruence]. exfalso.
      specialize (HI c). rewrite H1 in HI. assert (J : In (VStart k' par' (SCall c)) (filter (of_call c) evs)) by (apply filter_In; split; [exact I|apply Nat.eqb_refl]).
      inversion HI; subst. match goal with X : [_] = filter _ _ |- _ => rewrite <- X in J end. destruct J as [J|[]]; discriminate.
    + eapply K; eauto. intros ? ? [X|[]]. injection X as _ _ X. congruence.
  - apply trace_keep; auto; exact I.
  - intros d y N P k' par' I. apply upd_case in N as [[-> ->]|[ND N]]; [discriminate P| |exact (some_lt _ _ _ H1)]. eapply T1; eauto.
  - intros d y N P k' par' I. apply upd_case in N as [[-> ->]|[ND N]]; [discriminate P| |exact (some_lt _ _ _ H0)].
    apply in_app_iff in I as [I|[I|[]]]; [|discriminate]. destruct (Nat.eq_dec w (w_of y)) as [->|NW].
    + exfalso. pose proof I as I0. apply in_split in I0 as (a & b & E).
      assert (Q : In (VSet d k') b).
      { apply (AP a k' par' d b c k [] (w_of y)); [rewrite E, <- app_assoc; reflexivity| | |congruence]; apply in_app_iff; left; apply (call_of _ _ _ _ _ _ R); eauto. }
      specialize (HI d). rewrite N in HI. assert (J : In (VSet d k') (filter (of_call d) evs)) by (apply filter_In; split; [rewrite E; apply in_app_iff; right; right; exact Q|apply Nat.eqb_refl]).
      destruct y as [w1 o1 i1 g1 p1]. cbn in P. subst p1. inversion HI; subst. match goal with X : _ = filter _ _ |- _ => rewrite <- X in J end. destruct J as [J|[J|[]]]; discriminate.
    + rewrite nth_upd_neq by exact NW. eapply T1; eauto.
  - pose proof (w_lt _ _ _ _ R _ _ H0) as L. cbn in L. intros w0 k0 C. destruct (own_started _ _ _ _ _ _ k R H0 eq_refl) as (par & ST). pose proof (T1 _ _ H0 eq_refl _ _ ST) as OLD. cbn in OLD.
    assert (CA : In (VCall c w) evs) by (apply (call_of _ _ _ _ _ _ R); eauto).
    apply carried_snoc in C as [(c' & X & C)|[(? & ? & ? & X & _)|[(? & X & _)|C]]]; try discriminate.
    + injection X as <- <-. rewrite <- (call_one _ _ _ _ _ _ _ R CA C). exists k. rewrite nth_upd_eq by exact L. split; [auto|apply d_self].
    + destruct (T2 _ _ C) as (z & Z & D). destruct (Nat.eq_dec w w0) as [<-|NW].
      * exists k. rewrite nth_upd_eq by exact L. split; [auto|]. rewrite OLD in Z. injection Z as ->. eapply d_child; [apply in_app_iff; left; exact ST|now apply descends_mono].
      * exists z. rewrite nth_upd_neq by exact NW. split; [exact Z|now apply descends_mono].
  - intros d y N P k' par' I. apply upd_case in N as [[-> ->]|[ND N]]; [discriminate P| |exact (some_lt _ _ _ H0)]. eapply K; eauto. intros ? ? [X|[]]; discriminate.
  - apply trace_keep; auto; exact I.
  - intros d y N P k' par' I. apply nth_snoc. apply upd_case in N as [[-> ->]|[ND N]]; [| |exact (some_lt _ _ _ H0)].
    + cbn in P. subst p. specialize (HI c). rewrite H0 in HI. inversion HI.
    + eapply K; eauto. intros ? ? [X|[X|[]]]; discriminate.
  - intros w0 k0 C. change [?a; ?b] with ([a] ++ [b]) in *. rewrite app_assoc in *.
    apply carried_snoc in C as [(? & X & _)|[(v & c' & p' & X & I)|[(? & X & _)|C]]]; try discriminate.
    + injection X as <- <- <-. rewrite nth_last. exists (spans s). split; [auto|]. apply in_app_iff in I as [I|[I|[]]].
      * destruct (ev_serve _ _ _ _ _ (length (serves s)) R I (Nat.eqb_refl _)) as (y & Y & _). apply some_lt in Y. lia.
      * injection I as <- _. apply d_self.
    + destruct (trace_keep evs s (VStart (spans s) (Some kc) (SServer (length (serves s)))) T2 Logic.I _ _ C) as (z & Z & D). exists z. split; [now apply nth_snoc|now apply descends_mono].
  - intros d y N P k' par' I. eapply K; eauto. intros ? ? [X|[X|[]]]; discriminate.
  - change [?a; ?b] with ([a] ++ [b]). rewrite app_assoc. apply trace_keep; [apply trace_keep; auto; exact I|exact I].
  - intros d y N P k' par' I. apply upd_case in N as [[-> ->]|[ND N]]; [discriminate P| |exact (some_lt _ _ _ H0)]. eapply K; eauto. intros ? ? [X|[X|[]]]; discriminate.
  - change [?a; ?b] with ([a] ++ [b]). rewrite app_assoc. apply trace_keep; [apply trace_keep; auto; exact I|exact I].
  - intros d y N P k' par' I. apply upd_case in N as [[-> ->]|[ND N]]; [discriminate P| |exact (some_lt _ _ _ H1)]. eapply K; eauto. intros ? ? [X|[X|[]]]; discriminate.
  - change [?a; ?b] with ([a] ++ [b]). rewrite app_assoc. apply trace_keep; [apply trace_keep; auto; exact I|exact I].
  - intros d y N P k' par' I. apply upd_case in N as [[-> ->]|[ND N]]; [discriminate P| |exact (some_lt _ _ _ H1)]. eapply K; eauto. intros ? ? [X|[]]; discriminate.
  - apply trace_keep; auto; exact I.
Qed.

Lemma trace_start f sched s evs a k par x b c w q : run (step f) init sched = Some (s, evs) -> apart evs -> evs = a ++ VStart k par x :: b -> (x = SCall c \/ x = SClient c) -> In (VCall c w) evs ->
  carried a w q -> descends evs k q.
Proof.
  intros R AP E X I C. pose proof (parent_held _ _ _ _ _ _ _ _ _ _ _ R E X I) as P.
  destruct (run_split _ _ _ _ _ _ _ _ R E) as (x1 & l & y & t & t' & e1 & q1 & q2 & e2 & -> & H1 & H2 & H3 & EQ & ->).
  destruct (start_step _ _ _ _ _ _ _ _ _ _ H2 X) as (-> & -> & _). rewrite app_nil_r in EQ. subst a.
  assert (AP1 : apart e1) by (rewrite E in AP; exact (apart_app _ _ AP)). destruct (trace_all _ _ _ _ H1 AP1) as [_ T].
  destruct (T _ _ C) as (z & Z & D). apply (ctx_all _ _ _ _ H1) in Z. rewrite (holds_one _ _ _ _ _ _ _ H1 P Z) in E. rewrite E. eapply d_child; [apply in_elt|now apply descends_mono].
Qed.
Lemma carried_app evs e w k : carried evs w k -> carried (evs ++ e) w k.
Proof. intros C. induction e as [|x e IH] using rev_ind; [now rewrite app_nil_r|rewrite app_assoc; now apply ca_keep]. Qed.
Lemma set_before f sched s evs a k par b c : run (step f) init sched = Some (s, evs) -> evs = a ++ VStart k par (SClient c) :: b -> forall k0 p0, In (VStart k0 p0 (SCall c)) evs -> In (VSet c k0) a.
Proof.
  intros R -> k0 p0 I. destruct (ev_full _ _ _ _ _ c R I (Nat.eqb_refl _)) as (w & l' & F). assert (J : In (VStart k0 p0 (SCall c)) (filter (of_call c) (a ++ VStart k par (SClient c) :: b))) by (apply filter_In; split; [exact I|apply Nat.eqb_refl]).
  rewrite filter_mid in F, J by apply Nat.eqb_refl. apply (in_filter_l (of_call c)). generalize dependent (filter (of_call c) a). generalize dependent (filter (of_call c) b). intros b' a' F J.
  assert (J' : In (VStart k0 p0 (SCall c)) ((a' ++ VStart k par (SClient c) :: b') ++ l')) by (apply in_app_iff; auto).
  rewrite <- app_assoc in F, J'. destruct F as [F|[(k1 & p1 & F)|[(k1 & p1 & F)|(k1 & p1 & k2 & p2 & F)]]]; rewrite F in J'; cbn in J'; repeat destruct J' as [J'|J']; try discriminate J'; try contradiction; chop F a';
  injection J' as <- <-; cbn; auto 10.
Qed.
Lemma serve_step f t l t' q1 v c w q2 : step f t l = Some (t', q1 ++ VServe v c w :: q2) -> q2 = [] /\ w = length (wrappers t) /\ v = length (serves t) /\ exists kc, q1 = [VStart (spans t) (Some kc) (SServer v)].
Proof.
  intros H. remember (q1 ++ VServe v c w :: q2) as e eqn:E. revert E. moves H; intros E; destruct q1 as [|z [|z' q1]]; cbn in E; try discriminate E; injection E; clear E; intros; subst; try discriminate; try (destruct q1; discriminate).
  repeat split; eauto.
Qed.
Lemma serve_carried f sched s evs a k par x b c c' v w ks p : run (step f) init sched = Some (s, evs) -> In (VServe v c w) evs -> In (VStart ks p (SServer v)) evs ->
  evs = a ++ VStart k par x :: b -> (x = SCall c' \/ x = SClient c') -> In (VCall c' w) evs -> carried a w ks.
Proof.
  intros R I J E X K.
  assert (KA : In (VCall c' w) a). { destruct (call_before _ _ _ _ _ _ _ _ _ _ R E X) as (w' & Q). rewrite (call_one _ _ _ _ _ w w' R K); [exact Q|rewrite E; apply in_app_iff; auto]. }
  assert (IA : In (VServe v c w) a).
  { rewrite E in I. apply in_app_iff in I as [I|[I|I]]; [exact I|discriminate|]. exfalso. apply in_split in I as (b1 & b2 & ->).
    assert (E' : evs = (a ++ VStart k par x :: b1) ++ VServe v c w :: b2) by (rewrite E, <- app_assoc; reflexivity).
    destruct (run_split _ _ _ _ _ _ _ _ R E') as (x1 & l & y & t & t' & e1 & q1 & q2 & e2 & -> & H1 & H2 & H3 & EQ & ->).
    destruct (serve_step _ _ _ _ _ _ _ _ _ H2) as (-> & W & _ & kc & ->).
    assert (Q : In (VCall c' w) e1). { assert (Q0 : In (VCall c' w) (a ++ VStart k par x :: b1)) by (apply in_app_iff; auto). rewrite EQ in Q0. apply in_app_iff in Q0 as [Q0|[Q0|[]]]; [exact Q0|discriminate]. }
    apply (call_of _ _ _ _ _ _ H1) in Q as (z & Z & <-). pose proof (w_lt _ _ _ _ H1 _ _ Z). lia. }
  apply in_split in IA as (a1 & a2 & ->). assert (E' : evs = a1 ++ VServe v c w :: (a2 ++ VStart k par x :: b)) by (rewrite E, <- app_assoc; reflexivity).
  destruct (run_split _ _ _ _ _ _ _ _ R E') as (x1 & l & y & t & t' & e1 & q1 & q2 & e2 & -> & H1 & H2 & H3 & EQ & _).
  destruct (serve_step _ _ _ _ _ _ _ _ _ H2) as (-> & W & V & kc & ->).
  assert (ks = spans t) as ->.
  { destruct (ev_serve _ _ _ _ _ v R J (Nat.eqb_refl _)) as (z & _ & F & J').
    assert (J2 : In (VStart (spans t) (Some kc) (SServer v)) (filter (of_serve v) evs)). { apply filter_In. split; [rewrite E', EQ; apply in_app_iff; left; apply in_app_iff; right; left; reflexivity|apply Nat.eqb_refl]. }
    apply shist_shape in F as (k1 & kc1 & c1 & w1 & F & _). destruct F as [F|F]; rewrite F in J', J2; cbn in J', J2; intuition congruence. }
  change (VServe v c w :: a2) with ([VServe v c w] ++ a2). rewrite app_assoc. apply carried_app. eapply ca_serve. rewrite EQ. apply in_app_iff. right. left. reflexivity.
Qed.
Lemma own_set f sched s evs a k par x b c k0 p0 w : run (step f) init sched = Some (s, evs) -> evs = a ++ VStart k par x :: b -> x = SClient c -> In (VStart k0 p0 (SCall c)) evs -> In (VCall c w) evs -> carried a w k0.
Proof.
  intros R E -> I K. pose proof (set_before _ _ _ _ _ _ _ _ _ R E _ _ I) as Q.
  apply in_split in Q as (a1 & a2 & ->).
  assert (E' : evs = a1 ++ VSet c k0 :: (a2 ++ VStart k par (SClient c) :: b)) by (rewrite E, <- app_assoc; reflexivity).
  destruct (run_split _ _ _ _ _ _ _ _ R E') as (x1 & l & y & t & t' & e1 & q1 & q2 & e2 & -> & H1 & H2 & H3 & EQ & _).
  assert (Q : q1 = [] /\ exists z, nth_error (calls t) c = Some z).
  { remember (q1 ++ VSet c k0 :: q2) as e eqn:E1. revert E1. clear - H2. moves H2; intros E1; destruct q1 as [|z [|z' q1]]; cbn in E1; try discriminate E1; injection E1; clear E1; intros; subst; try discriminate; try (destruct q1; discriminate). eauto. }
  destruct Q as (-> & z & Z). rewrite app_nil_r in EQ. subst e1.
  assert (W : In (VCall c w) a1).
  { assert (W : In (VCall c (w_of z)) a1) by (apply (call_of _ _ _ _ _ _ H1); eauto). rewrite (call_one _ _ _ _ c w (w_of z) R K); [exact W|rewrite E'; apply in_app_iff; auto]. }
  change (VSet c k0 :: a2) with ([VSet c k0] ++ a2). rewrite app_assoc. apply carried_app. apply ca_set. exact W.
Qed.
(** A call that has begun can return. *)
Lemma can_return f sched s evs c y : run (step f) init sched = Some (s, evs) -> nth_error (calls s) c = Some y -> ~ In (VReturn c) evs ->
  exists more s' e, run (step f) s more = Some (s', e) /\ In (VReturn c) e.
Proof.
  intros R N NR. pose proof (w_lt _ _ _ _ R _ _ N) as L. pose proof (hist_all _ _ _ _ R c) as H. rewrite N in H.
  assert (G : forall s w o i g p, nth_error (calls s) c = Some (mkC w o i g p) -> p = PBegun \/ p = PReturned -> exists s' e, run (step f) s [LReturn c] = Some (s', e) /\ In (VReturn c) e).
  { intros s0 w o i g p N0 P. cbn. rewrite N0. destruct P as [-> | ->], o; eexists _, _; (split; [reflexivity|]); cbn; auto. }
  assert (U : forall s0 y0 y1, nth_error (calls s0) c = Some y0 -> nth_error (upd (calls s0) c y1) c = Some y1) by (intros s0 y0 y1 X; apply nth_upd_eq, (some_lt _ _ _ X)).
  assert (ST : forall s0 l s1 e1 more s' e, step f s0 l = Some (s1, e1) -> run (step f) s1 more = Some (s', e) -> In (VReturn c) e -> exists more s' e, run (step f) s0 more = Some (s', e) /\ In (VReturn c) e).
  { intros s0 l s1 e1 more s' e S0 R0 I0. exists (l :: more), s', (e1 ++ e). cbn. rewrite S0, R0. split; [reflexivity|apply in_app_iff; auto]. }
  assert (SET : forall s0 w k i g, nth_error (calls s0) c = Some (mkC w (Some k) i g PStarted) -> exists more s' e, run (step f) s0 more = Some (s', e) /\ In (VReturn c) e).
  { intros s0 w k i g N0. edestruct (G (goto (with_wrappers s0 (upd (wrappers s0) w (Some k))) c (mkC w (Some k) None false PBegun))) as (s' & e & R' & I'); [apply (U s0 _ _ N0)|auto|].
    eapply (ST s0 (LBegin c)); [cbn; rewrite N0; reflexivity|exact R'|exact I']. }
  destruct y as [w o i g p]. cbn in L. destruct p.
  - assert (o = None) as -> by (inversion H; auto). destruct f.
    + destruct (nth_error (wrappers s) w) as [par|] eqn:W; [|apply nth_error_None in W; lia].
      edestruct (SET (goto (with_spans s (S (spans s))) c (mkC w (Some (spans s)) None false PStarted))) as (m & s' & e & R' & I'); [apply (U s _ _ N)|].
      eapply (ST s (LBegin c)); [cbn; rewrite N, W; reflexivity|exact R'|exact I'].
    + edestruct (G (goto s c (mkC w None None false PBegun))) as (s' & e & R' & I'); [apply (U s _ _ N)|auto|].
      eapply (ST s (LBegin c)); [cbn; rewrite N; reflexivity|exact R'|exact I'].
  - inversion H; subst. eapply SET; eauto.
  - destruct (G s _ _ _ _ _ N) as (s' & e & R' & I'); [auto|]. eauto.
  - inversion H; subst. edestruct (G (goto s c (mkC w o (Some kc) g PReturned))) as (s' & e & R' & I'); [apply (U s _ _ N)|auto|].
    eapply (ST s (LReply c)); [cbn; rewrite N; reflexivity|exact R'|exact I'].
  - destruct (G s _ _ _ _ _ N) as (s' & e & R' & I'); [auto|]. eauto.
  - exfalso. apply NR. apply (in_filter_l (of_call c)). inversion H; subst; apply in_app_iff; right; cbn; auto.
Qed.
