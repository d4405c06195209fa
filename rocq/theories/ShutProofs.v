(** Proofs about the shutdown of a node. *)
From Coq Require Import List Arith Bool Lia.
From Verif Require Import Machine MachineMore ShutModel ShutSpec.
Import ListNotations.

(** ** The steps *)
Inductive crashes (s : state) : cause -> Prop :=
| KOverlap todo seen : main s = MLoop todo seen -> writing s = true -> crashes s COverlap
| KWrite j i a : nth_error (calls s) j = Some (CWrite i a) -> writing (with_calls s (upd (calls s) j CDone)) = true -> crashes s COverlap
| KMain : main s = MDone -> wg s = 0 -> crashes s CNegative
| KGo x a : nth_error (exits s) x = Some (a, XDone) -> wg s = 0 -> crashes s CNegative
| KExit x a y : nth_error (exits s) x = Some (a, XExit) -> nth_error (actors s) a = Some y -> closing y = true -> crashes s (CTwice a)
| KCall j a y : nth_error (calls s) j = Some (CExit a) -> nth_error (actors s) a = Some y -> closing y = true -> crashes s (CTwice a).
Inductive move (s : state) : state -> list event -> Prop :=
| VmSignal : move s (with_signal s true) [VSignal]
| VmBegin : main s = MWait -> signal s = true -> move s (with_main (with_began (with_signal s false) (now s)) (if port s then MAdd else MRange)) [VBegin (now s)]
| VmAdd : main s = MAdd -> move s (with_main (with_wg s (S (wg s))) MStop) []
| VmStop : main s = MStop -> (forall r, nth_error (requests s) r <> Some true) -> move s (with_main (with_stopped s) MDone) []
| VmDone n : main s = MDone -> wg s = S n -> move s (with_main (with_wg s n) MRange) []
| VmRange : main s = MRange -> move s (with_main s (MLoop (present s) [])) []
| VmEnd seen : main s = MLoop [] seen -> writing s = false -> move s (with_main s MClear) []
| VmClear : main s = MClear -> move s (with_main s MFork) [VClear]
| VmFork : main s = MFork -> move s (with_main (with_waiter s WWait) MSelect) []
| VmNext a todo seen : main s = MLoop todo seen -> ~ In a seen -> In a (present s) -> writing s = false ->
    move s (with_main (with_exits (with_wg s (S (wg s))) (exits s ++ [(a, XExit)])) (MLoop (remove Nat.eq_dec a todo) (a :: seen))) []
| VmExit x a y : nth_error (exits s) x = Some (a, XExit) -> nth_error (actors s) a = Some y -> closing y = false ->
    move s (with_exits (with_actors s (upd (actors s) a (mkA true (ended y)))) (upd (exits s) x (a, XWait))) [VExit true a]
| VmGone x a y : nth_error (exits s) x = Some (a, XWait) -> nth_error (actors s) a = Some y -> ended y = true ->
    move s (with_exits s (upd (exits s) x (a, XDone))) []
| VmEndX x a n : nth_error (exits s) x = Some (a, XDone) -> wg s = S n -> move s (with_exits (with_wg s n) (upd (exits s) x (a, XEnd))) []
| VmWaiter : waiter s = WWait -> wg s = 0 -> move s (with_waiter s WClosed) []
| VmReady : main s = MSelect -> waiter s = WClosed -> move s (with_main s MRet) [VReturn (now s) true]
| VmTimeout : main s = MSelect -> began s + limit <= now s -> move s (with_main s MRet) [VReturn (now s) false]
| VmRegister : move s (with_calls (with_actors s (actors s ++ [mkA false false])) (calls s ++ [CLock true (length (actors s))])) [VMade (length (calls s)) (length (actors s))]
| VmUnregister a : In a (present s) -> move s (with_calls s (calls s ++ [CExit a])) [VUnregister (length (calls s)) a]
| VmCExit j a y : nth_error (calls s) j = Some (CExit a) -> nth_error (actors s) a = Some y -> closing y = false ->
    move s (with_calls (with_actors s (upd (actors s) a (mkA true (ended y)))) (upd (calls s) j (CWait a))) [VExit false a]
| VmCGone j a y : nth_error (calls s) j = Some (CWait a) -> nth_error (actors s) a = Some y -> ended y = true ->
    move s (with_calls s (upd (calls s) j (CLock false a))) []
| VmLock j ins a : nth_error (calls s) j = Some (CLock ins a) -> writing s = false -> move s (with_calls s (upd (calls s) j (CWrite ins a))) []
| VmWrite j ins a : nth_error (calls s) j = Some (CWrite ins a) ->
    move s (with_main (with_present (with_calls s (upd (calls s) j CDone)) (if ins then a :: present s else remove Nat.eq_dec a (present s))) (drop ins a (main s))) [if ins then VPut j a else VDel j a]
| VmRequest : port s = true -> stopped s = false -> move s (with_requests s (requests s ++ [true])) [VRequest (length (requests s))]
| VmAnswer r : nth_error (requests s) r = Some true -> move s (with_requests s (upd (requests s) r false)) [VAnswer r]
| VmLoop a : nth_error (actors s) a = Some (mkA true false) -> move s (with_actors s (upd (actors s) a (mkA true true))) [VEnded a]
| VmTick : move s (with_now s (S (now s))) []
| VmCrash c : crashes s c -> move s (kill s) [VCrash c].

Lemma none_true l : existsb (fun b => b) l = false -> forall r, nth_error l r <> Some true.
Proof.
  intros H r E. assert (X : existsb (fun b => b) l = true); [|congruence]. apply existsb_exists. exists true. split; [eapply nth_error_In; eauto|reflexivity].
Qed.
Lemma step_move s l s' e : step s l = Some (s', e) -> dead s = false /\ move s s' e.
Proof.
  unfold step. destruct (dead s) eqn:Hd; [discriminate|]. intros H. split; [reflexivity|]. destruct l as [| |a|x| | | | |a|j| |r|a|].
  - injection H as <- <-. constructor.
  - destruct (main s) as [| | | | |[|t0 todo] seen| | | |] eqn:E; try discriminate.
    + destruct (signal s) eqn:Es; [|discriminate]. injection H as <- <-. now constructor.
    + injection H as <- <-. now constructor.
    + destruct (existsb _ _) eqn:X; [discriminate|]. injection H as <- <-. constructor; [exact E|now apply none_true].
    + unfold done in H. destruct (wg s) as [|n] eqn:W; injection H as <- <-; [apply VmCrash; now apply KMain|now constructor].
    + injection H as <- <-. now constructor.
    + destruct (writing s) eqn:W; injection H as <- <-; [apply VmCrash; eapply KOverlap; eauto|econstructor; eauto].
    + injection H as <- <-. now constructor.
    + injection H as <- <-. now constructor.
  - destruct (main s) as [| | | | |todo seen| | | |] eqn:E; try discriminate. destruct (in_dec Nat.eq_dec a seen) as [|N]; [discriminate|]. destruct (in_dec Nat.eq_dec a (present s)) as [P|]; [|discriminate].
    destruct (writing s) eqn:W; injection H as <- <-; [apply VmCrash; eapply KOverlap; eauto|now constructor].
  - destruct (nth_error (exits s) x) as [[a [| | |]]|] eqn:E; try discriminate.
    + unfold shut in H. destruct (nth_error (actors s) a) as [y|] eqn:Y; [|discriminate]. destruct (closing y) eqn:C; injection H as <- <-; [apply VmCrash; eapply KExit; eauto|now apply (VmExit s x a y)].
    + unfold gone in H. destruct (nth_error (actors s) a) as [y|] eqn:Y; [|discriminate]. destruct (ended y) eqn:C; [|discriminate]. injection H as <- <-. now apply (VmGone s x a y).
    + unfold done in H. destruct (wg s) as [|n] eqn:W; injection H as <- <-; [apply VmCrash; eapply KGo; eauto|now apply VmEndX].
  - destruct (waiter s) eqn:W; try discriminate. destruct (wg s) eqn:G; [|discriminate]. injection H as <- <-. now constructor.
  - destruct (main s) eqn:E; try discriminate. destruct (waiter s) eqn:W; try discriminate. injection H as <- <-. now constructor.
  - destruct (main s) eqn:E; try discriminate. destruct (Nat.leb_spec (began s + limit) (now s)); [|discriminate]. injection H as <- <-. now constructor.
  - injection H as <- <-. constructor.
  - destruct (in_dec Nat.eq_dec a (present s)); [|discriminate]. destruct (writing s); [discriminate|]. injection H as <- <-. now constructor.
  - destruct (nth_error (calls s) j) as [[a|a|ins a|ins a|]|] eqn:E; try discriminate.
    + unfold shut in H. destruct (nth_error (actors s) a) as [y|] eqn:Y; [|discriminate]. destruct (closing y) eqn:C; injection H as <- <-; [apply VmCrash; eapply KCall; eauto|now apply (VmCExit s j a y)].
    + unfold gone in H. destruct (nth_error (actors s) a) as [y|] eqn:Y; [|discriminate]. destruct (ended y) eqn:C; [|discriminate]. injection H as <- <-. now apply (VmCGone s j a y).
    + destruct (writing s) eqn:W; [discriminate|]. injection H as <- <-. now constructor.
    + destruct (writing (with_calls s (upd (calls s) j CDone))) eqn:W; injection H as <- <-; [apply VmCrash; eapply KWrite; eauto|now apply VmWrite].
  - destruct (port s) eqn:P; [|discriminate]. destruct (stopped s) eqn:St; [discriminate|]. injection H as <- <-. now constructor.
  - destruct (nth_error (requests s) r) as [[|]|] eqn:E; try discriminate. injection H as <- <-. now constructor.
  - destruct (nth_error (actors s) a) as [[[|] [|]]|] eqn:E; try discriminate. injection H as <- <-. now constructor.
  - injection H as <- <-. constructor.
Qed.

(** ** Lists *)
Lemma upd_case {A} (l : list A) t c x k y : nth_error l t = Some c -> nth_error (upd l t x) k = Some y -> (k = t /\ y = x) \/ (k <> t /\ nth_error l k = Some y).
Proof.
  intros H1 H2. destruct (Nat.eq_dec k t) as [->|N]; [left|right; rewrite nth_upd_neq in H2 by congruence; auto].
  rewrite nth_upd_eq in H2 by (apply nth_error_Some; congruence). injection H2 as <-. auto.
Qed.
Lemma snoc_case {A} (l : list A) x k y : nth_error (l ++ [x]) k = Some y -> (k = length l /\ y = x) \/ (k < length l /\ nth_error l k = Some y).
Proof.
  intros H. destruct (Nat.lt_ge_cases k (length l)) as [L|L]; [right; rewrite nth_error_app1 in H by exact L; auto|left].
  rewrite nth_error_app2 in H by exact L. destruct (k - length l) as [|[|d]] eqn:D; cbn in H; try discriminate. injection H as <-. split; [lia|reflexivity].
Qed.
Lemma some_lt {A} (l : list A) k x : nth_error l k = Some x -> k < length l.
Proof. intros H. apply nth_error_Some. congruence. Qed.
Lemma nth_snoc {A} (l : list A) x t y : nth_error l t = Some y -> nth_error (l ++ [x]) t = Some y.
Proof. intros H. rewrite nth_error_app1; [exact H|eapply some_lt; eauto]. Qed.
Lemma nth_last {A} (l : list A) x : nth_error (l ++ [x]) (length l) = Some x.
Proof. rewrite nth_error_app2, Nat.sub_diag by lia. reflexivity. Qed.
Lemma upd_fst (l : list (nat * xpc)) x a p q : nth_error l x = Some (a, p) -> map fst (upd l x (a, q)) = map fst l.
Proof. revert x. induction l as [|[b r] l IH]; intros [|x] H; cbn in *; try discriminate; [injection H as -> _; reflexivity|f_equal; auto]. Qed.
Lemma in_rm a b l : In a (remove Nat.eq_dec b l) <-> In a l /\ a <> b.
Proof. split; [apply in_remove|intros [H N]; now apply in_in_remove]. Qed.

Ltac ev H := apply in_app_or in H as [H|H]; [|cbn in H; repeat destruct H as [H|H]; try discriminate H; try contradiction; try (match type of H with context [if ?b then _ else _] => destruct b; discriminate H end)].
Ltac evl := apply in_or_app; left.
Ltac evr := apply in_or_app; right; cbn; auto.

(** ** Requests *)
Definition early (m : mpc) : Prop := match m with MWait | MAdd | MStop => True | _ => False end.
Record Req (p : bool) (evs : list event) (s : state) : Prop := mkReq {
  q_port : port s = p;
  q_in : forall r, In (VRequest r) evs -> r < length (requests s);
  q_nth : forall r, nth_error (requests s) r = Some false -> In (VAnswer r) evs;
  q_stop : stopped s = true -> forall r, nth_error (requests s) r <> Some true;
  q_none : port s = false -> requests s = [];
  q_main : port s = true -> ~ early (main s) -> stopped s = true;
  q_zero : main s = MAdd \/ main s = MStop \/ main s = MDone -> port s = true }.
Lemma early_drop ins a m : early (drop ins a m) <-> early m.
Proof. destruct m; cbn; try tauto. destruct ins; cbn; tauto. Qed.
Lemma drop_simple ins a m m' : (match m' with MLoop _ _ => False | _ => True end) -> drop ins a m = m' -> m = m'.
Proof. destruct m; cbn; auto. destruct ins; auto. intros H <-. destruct H. Qed.
Lemma req_step p evs s l s' e : Req p evs s -> step s l = Some (s', e) -> Req p (evs ++ e) s'.
Proof.
  intros [Q1 Q2 Q3 Q4 Q5 Q6 Q7] H. apply step_move in H as [D M].
  destruct M; cbn; (constructor; cbn; [exact Q1|..]); try exact Q5; try (intros r X; ev X; now apply Q2); try (intros r X; evl; now apply Q3); try exact Q4.
  all: try (intros X Y; apply Q6; [exact X|]; match goal with E : main _ = _ |- _ => rewrite E; cbn; tauto end).
  all: try (intros X Y; now apply Q6).
  all: try exact Q7.
  all: try (intros [X|[X|X]]; discriminate X).
  - intros X Y. rewrite X in Y. destruct Y. exact I.
  - intros [X|[X|X]]; destruct (port s); auto; discriminate.
  - intros _. apply Q7. tauto.
  - intros _ r. apply H0.
  - intros _ _. reflexivity.
  - intros _. apply Q7. tauto.
  - intros X Y. apply Q6; [exact X|]. rewrite early_drop in Y. exact Y.
  - intros [X|[X|X]]; apply drop_simple in X; auto; exact I.
  - intros r X. rewrite app_length. cbn. ev X; [apply Q2 in X; lia|]. injection X as <-. lia.
  - intros r X. apply snoc_case in X as [[_ X]|[_ X]]; [discriminate|]. evl. auto.
  - congruence.
  - intros X. congruence.
  - intros r' X. rewrite upd_length. ev X; auto.
  - intros r' X. destruct (upd_case _ _ _ _ _ _ H X) as [[-> _]|[_ X']]; [evr|evl; auto].
  - intros X r' Y. destruct (upd_case _ _ _ _ _ _ H Y) as [[_ Z]|[_ Z]]; [discriminate|]. eapply Q4; eauto.
  - intros X. rewrite (Q5 X) in H. destruct r; discriminate.
Qed.
Lemma req_reach p sched s evs : run step (init p) sched = Some (s, evs) -> Req p evs s.
Proof.
  revert sched s evs. apply (run_inv step (init p) (fun _ evs s => Req p evs s)).
  - constructor; cbn; try tauto; try reflexivity; try (intros []; discriminate); try (intros _ []; discriminate). all: try (intros [|]; discriminate). all: try (intros [X|[X|X]]; discriminate).
  - intros sched evs s l s' e _ IH H. eapply req_step; eauto.
Qed.
Lemma stopped_quiet sched : forall s s' evs, run step s sched = Some (s', evs) -> stopped s = true -> stopped s' = true /\ forall r, ~ In (VRequest r) evs.
Proof.
  induction sched as [|l sched IH]; intros s s' evs H St; cbn [run] in H; [injection H as <- <-; split; [exact St|intros r []]|].
  destruct (step s l) as [[t e]|] eqn:E; [|discriminate]. destruct (run step t sched) as [[u f]|] eqn:R; [|discriminate]. injection H as <- <-.
  apply step_move in E as [_ M]. assert (stopped t = true /\ forall r, ~ In (VRequest r) e) as [St' N].
  { destruct M; cbn; (split; [exact St || reflexivity|]); intros r0 X; repeat destruct X as [X|X]; try discriminate; try contradiction; try congruence. destruct ins; discriminate. }
  destruct (IH _ _ _ R St') as [S2 N2]. split; [exact S2|]. intros r X. apply in_app_or in X as [X|X]; [exact (N r X)|exact (N2 r X)].
Qed.

(** ** Calls and the map *)
Definition unreg_pc (p : cpc) (a : nat) : Prop := p = CExit a \/ p = CWait a \/ p = CLock false a \/ p = CWrite false a.
Definition reg_pc (p : cpc) (a : nat) : Prop := p = CLock true a \/ p = CWrite true a.
Record Map (evs : list event) (s : state) : Prop := mkMap {
  m_pres : forall a, In a (present s) <-> registered evs a;
  m_reg : forall j p a, nth_error (calls s) j = Some p -> reg_pc p a -> In (VMade j a) evs /\ ~ returned evs j /\ forall j', ~ In (VPut j' a) evs;
  m_unreg : forall j p a, nth_error (calls s) j = Some p -> unreg_pc p a -> In (VUnregister j a) evs /\ ~ returned evs j /\ exists j', In (VPut j' a) evs;
  m_done : forall j, nth_error (calls s) j = Some CDone -> returned evs j;
  m_num : forall j, called evs j \/ returned evs j -> j < length (calls s);
  m_made : forall j a, In (VMade j a) evs -> a < length (actors s);
  m_one : forall j j' a, In (VMade j a) evs -> In (VMade j' a) evs -> j = j';
  m_put : forall j a, In (VPut j a) evs -> In (VMade j a) evs;
  m_del : forall j a, In (VDel j a) evs -> In (VUnregister j a) evs /\ exists j', In (VPut j' a) evs;
  m_lock : forall j j' i i' a a', nth_error (calls s) j = Some (CWrite i a) -> nth_error (calls s) j' = Some (CWrite i' a') -> j = j' }.
Definition plain (e : list event) : Prop := forall x, In x e -> match x with VMade _ _ | VUnregister _ _ | VPut _ _ | VDel _ _ => False | _ => True end.
Lemma ret_plain evs e j : plain e -> (returned (evs ++ e) j <-> returned evs j).
Proof.
  intros P. split; intros (a & H); exists a.
  - destruct H as [H|H]; apply in_app_or in H as [H|H]; auto; destruct (P _ H).
  - destruct H as [H|H]; [left|right]; apply in_or_app; auto.
Qed.
Lemma call_plain evs e j : plain e -> (called (evs ++ e) j <-> called evs j).
Proof.
  intros P. split; intros (a & H); exists a.
  - destruct H as [H|H]; apply in_app_or in H as [H|H]; auto; destruct (P _ H).
  - destruct H as [H|H]; [left|right]; apply in_or_app; auto.
Qed.
Lemma in_plain evs e x : plain e -> (match x with VMade _ _ | VUnregister _ _ | VPut _ _ | VDel _ _ => True | _ => False end) -> In x (evs ++ e) <-> In x evs.
Proof.
  intros P Hx. split; [intros H; apply in_app_or in H as [H|H]; auto; specialize (P _ H); destruct x; contradiction|intros; apply in_or_app; auto].
Qed.
Lemma reg_plain evs e a : plain e -> (registered (evs ++ e) a <-> registered evs a).
Proof.
  intros P. unfold registered. split; intros [(j & H1) H2]; (split; [exists j|intros j' X; apply (H2 j')]).
  - now rewrite in_plain in H1.
  - now rewrite in_plain.
  - now rewrite in_plain.
  - now rewrite in_plain in X.
Qed.
Lemma map_plain evs s s' e : Map evs s -> plain e -> (forall a, In a (present s') <-> In a (present s)) -> length (actors s') = length (actors s) -> length (calls s') = length (calls s) ->
  (forall j p, nth_error (calls s') j = Some p -> exists q, nth_error (calls s) j = Some q /\ (p = CDone -> q = CDone) /\
     (forall a, reg_pc p a -> reg_pc q a) /\ (forall a, unreg_pc p a -> unreg_pc q a)) ->
  (forall j j' i i' a a', nth_error (calls s') j = Some (CWrite i a) -> nth_error (calls s') j' = Some (CWrite i' a') -> j = j') ->
  Map (evs ++ e) s'.
Proof.
  intros [M1 M2 M3 M4 M5 M6 M7 M8 M9 M10] P Hp La Lc Hc Hl. constructor.
  - intros a. now rewrite Hp, reg_plain.
  - intros j p a Hj R. destruct (Hc _ _ Hj) as (q & Hq & _ & Q & _). destruct (M2 _ _ _ Hq (Q _ R)) as (X & Y & Z). rewrite ret_plain, in_plain by (exact P || exact I). split; [exact X|]. split; [exact Y|].
    intros j'. rewrite in_plain by (exact P || exact I). apply Z.
  - intros j p a Hj R. destruct (Hc _ _ Hj) as (q & Hq & _ & _ & Q). destruct (M3 _ _ _ Hq (Q _ R)) as (X & Y & j' & Z). rewrite ret_plain, in_plain by (exact P || exact I). split; [exact X|]. split; [exact Y|].
    exists j'. now rewrite in_plain by (exact P || exact I).
  - intros j Hj. destruct (Hc _ _ Hj) as (q & Hq & Q & _). rewrite ret_plain by exact P. apply M4. now rewrite Hq, Q.
  - intros j. rewrite call_plain, ret_plain by exact P. rewrite Lc. apply M5.
  - intros j a. rewrite in_plain by (exact P || exact I). rewrite La. apply M6.
  - intros j j' a. rewrite !in_plain by (exact P || exact I). apply M7.
  - intros j a. rewrite !in_plain by (exact P || exact I). apply M8.
  - intros j a. rewrite !in_plain by (exact P || exact I). intros H. destruct (M9 _ _ H) as (X & j' & Y). split; [exact X|]. exists j'. now rewrite in_plain by (exact P || exact I).
  - exact Hl.
Qed.
Lemma map_calls evs s s' e : Map evs s -> plain e -> present s' = present s -> length (actors s') = length (actors s) -> calls s' = calls s -> Map (evs ++ e) s'.
Proof.
  intros M P Hp La Lc. apply (map_plain _ _ _ _ M P); rewrite ?Hp, ?La, ?Lc; try tauto; [|apply (m_lock _ _ M)]. intros j p Hj. exists p. auto.
Qed.
Lemma map_goto evs s s' e j p q : Map evs s -> plain e -> present s' = present s -> length (actors s') = length (actors s) -> nth_error (calls s) j = Some p -> calls s' = upd (calls s) j q ->
  q <> CDone -> (forall a, reg_pc q a -> reg_pc p a) -> (forall a, unreg_pc q a -> unreg_pc p a) -> (forall i a, q = CWrite i a -> writing s = false) -> Map (evs ++ e) s'.
Proof.
  intros M P Hp La Hj Lc N1 N2 N3 N4. apply (map_plain _ _ _ _ M P); rewrite ?Hp, ?La, ?Lc; try tauto; [apply upd_length|..].
  - intros k r Hk. destruct (upd_case _ _ _ _ _ _ Hj Hk) as [[-> ->]|[_ Hk']]; [exists p|exists r]; repeat split; auto. congruence.
  - assert (W : writing s = false -> forall k i a, nth_error (calls s) k <> Some (CWrite i a)).
    { intros W k i a E. assert (X : writing s = true); [|congruence]. apply existsb_exists. eexists. split; [eapply nth_error_In; exact E|reflexivity]. }
    intros k k' i i' a a' Hk Hk'. destruct (upd_case _ _ _ _ _ _ Hj Hk) as [[-> E]|[_ Hk2]]; destruct (upd_case _ _ _ _ _ _ Hj Hk') as [[-> E']|[_ Hk2']]; auto.
    + symmetry in E. destruct (W (N4 _ _ E) _ _ _ Hk2').
    + symmetry in E'. destruct (W (N4 _ _ E') _ _ _ Hk2).
    + eapply m_lock; eauto.
Qed.
Lemma is_writing s : writing s = true -> exists j i a, nth_error (calls s) j = Some (CWrite i a).
Proof. intros H. apply existsb_exists in H as (p & Hin & Hp). destruct p; try discriminate. apply In_nth_error in Hin as (j & Hj). eauto. Qed.
Ltac pl := match goal with |- plain _ => let z := fresh in let X := fresh in intros z X; cbn in X; repeat destruct X as [X|X]; try contradiction; subst z; exact I end.
Lemma map_step evs s l s' e : Map evs s -> step s l = Some (s', e) -> Map (evs ++ e) s'.
Proof.
  intros M H. apply step_move in H as [D V]. pose proof M as [M1 M2 M3 M4 M5 M6 M7 M8 M9 M10].
  destruct V; try (apply (map_calls _ _ _ _ M); cbn; rewrite ?upd_length; try reflexivity; pl).
  - constructor; cbn.
    + intros a. rewrite M1. unfold registered. split; intros [(j & X) Y]; (split; [exists j|]).
      * now evl.
      * intros j' Z. ev Z. exact (Y j' Z).
      * now ev X.
      * intros j' Z. apply (Y j'). now evl.
    + intros j p a Hj R. apply snoc_case in Hj as [[-> ->]|[L Hj]].
      * assert (length (actors s) = a) as <- by (destruct R as [R|R]; congruence). split; [evr|]. split.
        -- intros (a & [X|X]); ev X; apply (Nat.lt_irrefl (length (calls s))); apply M5; right; exists a; auto.
        -- intros j' X. ev X. apply M8, M6 in X. lia.
      * destruct (M2 _ _ _ Hj R) as (X & Y & Z). split; [now evl|]. split; [|intros j' W; ev W; exact (Z j' W)]. intros (b & [W|W]); ev W; apply Y; exists b; auto.
    + intros j p a Hj R. apply snoc_case in Hj as [[-> ->]|[L Hj]]; [destruct R as [R|[R|[R|R]]]; discriminate|].
      destruct (M3 _ _ _ Hj R) as (X & Y & j' & Z). split; [now evl|]. split; [|exists j'; now evl]. intros (b & [W|W]); ev W; apply Y; exists b; auto.
    + intros j Hj. apply snoc_case in Hj as [[_ X]|[_ Hj]]; [discriminate|]. destruct (M4 _ Hj) as (a & X). exists a. destruct X; [left|right]; now evl.
    + intros j. rewrite app_length. cbn. intros [(a & [X|X])|(a & [X|X])]; ev X; try (injection X as <- <-; lia); cut (j < length (calls s)); try lia; apply M5; [left|left|right|right]; exists a; auto.
    + intros j a X. rewrite app_length. cbn. ev X; [apply M6 in X; lia|]. injection X as <- <-. lia.
    + intros j j' a X Y. ev X; ev Y; eauto.
      * injection Y as <- <-. apply M6 in X. lia.
      * injection X as <- <-. apply M6 in Y. lia.
      * congruence.
    + intros j a X. ev X. evl. auto.
    + intros j a X. ev X. destruct (M9 _ _ X) as (Y & j' & Z). split; [now evl|exists j'; now evl].
    + intros j j' i i' a a' X Y. apply snoc_case in X as [[_ X]|[_ X]]; [discriminate|]. apply snoc_case in Y as [[_ Y]|[_ Y]]; [discriminate|]. eauto.
  - constructor; cbn.
    + intros b. rewrite M1. unfold registered. split; intros [(j & X) Y]; (split; [exists j|]).
      * now evl.
      * intros j' Z. ev Z. exact (Y j' Z).
      * now ev X.
      * intros j' Z. apply (Y j'). now evl.
    + intros j p b Hj R. apply snoc_case in Hj as [[-> ->]|[L Hj]]; [destruct R as [R|R]; discriminate|].
      destruct (M2 _ _ _ Hj R) as (X & Y & Z). split; [now evl|]. split; [|intros j' W; ev W; exact (Z j' W)]. intros (c & [W|W]); ev W; apply Y; exists c; auto.
    + intros j p b Hj R. apply snoc_case in Hj as [[-> ->]|[L Hj]].
      * assert (a = b) as <- by (destruct R as [R|[R|[R|R]]]; congruence). split; [evr|]. split.
        -- intros (b & [X|X]); ev X; apply (Nat.lt_irrefl (length (calls s))); apply M5; right; exists b; auto.
        -- apply M1 in H as [(j' & X) _]. exists j'. now evl.
      * destruct (M3 _ _ _ Hj R) as (X & Y & j' & Z). split; [now evl|]. split; [|exists j'; now evl]. intros (c & [W|W]); ev W; apply Y; exists c; auto.
    + intros j Hj. apply snoc_case in Hj as [[_ X]|[_ Hj]]; [discriminate|]. destruct (M4 _ Hj) as (b & X). exists b. destruct X; [left|right]; now evl.
    + intros j. rewrite app_length. cbn. intros [(b & [X|X])|(b & [X|X])]; ev X; try (injection X as <- <-; lia); cut (j < length (calls s)); try lia; apply M5; [left|left|right|right]; exists b; auto.
    + intros j b X. ev X. eauto.
    + intros j j' b X Y. ev X; ev Y; eauto.
    + intros j b X. ev X. evl. auto.
    + intros j b X. ev X. destruct (M9 _ _ X) as (Y & j' & Z). split; [now evl|exists j'; now evl].
    + intros j j' i i' b b' X Y. apply snoc_case in X as [[_ X]|[_ X]]; [discriminate|]. apply snoc_case in Y as [[_ Y]|[_ Y]]; [discriminate|]. eauto.
  - eapply (map_goto _ s _ _ j _ (CWait a) M); cbn; rewrite ?upd_length; try reflexivity; try exact H; try discriminate; try pl.
    + intros b [X|X]; discriminate.
    + intros b [X|[X|[X|X]]]; try discriminate. injection X as <-. now left.
  - eapply (map_goto _ s _ _ j _ (CLock false a) M); cbn; rewrite ?upd_length; try reflexivity; try exact H; try discriminate; try pl.
    + intros b [X|X]; discriminate.
    + intros b [X|[X|[X|X]]]; try discriminate. injection X as <-. right. now left.
  - eapply (map_goto _ s _ _ j _ (CWrite ins a) M); cbn; rewrite ?upd_length; try reflexivity; try exact H; try discriminate; try pl.
    + intros b [X|X]; try discriminate. injection X as -> <-. now left.
    + intros b [X|[X|[X|X]]]; try discriminate. injection X as -> <-. right. right. now left.
    + intros _ _ _. exact H0.
  - assert (NW : forall k i b, k <> j -> nth_error (calls s) k <> Some (CWrite i b)) by (intros k i b N X; apply N; eapply M10; eauto).
    assert (Oth : forall k p, nth_error (upd (calls s) j CDone) k = Some p -> (k = j /\ p = CDone) \/ (k <> j /\ nth_error (calls s) k = Some p)) by (intros k p X; eapply upd_case; eauto).
    destruct ins.
    + destruct (M2 _ _ a H ltac:(now right)) as (A1 & A2 & A3). constructor; cbn.
      * intros b. rewrite M1. unfold registered. split.
        -- intros [<-|[(k & X) Y]]; [split; [exists j; evr|]|split; [exists k; now evl|]]; intros j' Z; ev Z; [destruct (M9 _ _ Z) as (_ & j2 & W); exact (A3 _ W)|exact (Y _ Z)].
        -- intros [(k & X) Y]. ev X; [right; split; [eauto|intros j' Z; apply (Y j'); now evl]|injection X as <- <-; now left].
      * intros k p b Hk R. destruct (Oth _ _ Hk) as [[-> ->]|[N Hk']]; [destruct R; discriminate|]. destruct (M2 _ _ _ Hk' R) as (X & Y & Z). split; [now evl|]. split.
        -- intros (c & [W|W]); ev W; [apply Y; exists c; auto|injection W as -> _; now apply N|apply Y; exists c; auto].
        -- intros j' W. ev W; [exact (Z _ W)|]. injection W as <- <-. apply N. eapply M7; eauto.
      * intros k p b Hk R. destruct (Oth _ _ Hk) as [[-> ->]|[N Hk']]; [destruct R as [R|[R|[R|R]]]; discriminate|]. destruct (M3 _ _ _ Hk' R) as (X & Y & j' & Z). split; [now evl|]. split; [|exists j'; now evl].
        intros (c & [W|W]); ev W; [apply Y; exists c; auto|injection W as -> _; now apply N|apply Y; exists c; auto].
      * intros k Hk. destruct (Oth _ _ Hk) as [[-> _]|[N Hk']]; [exists a; left; evr|]. destruct (M4 _ Hk') as (b & [X|X]); exists b; [left|right]; now evl.
      * intros k. rewrite upd_length. intros [(b & [X|X])|(b & [X|X])]; ev X; try (injection X as <- <-; eapply some_lt; eauto); apply M5; [left|left|right|right]; exists b; auto.
      * intros k b X. ev X. eauto.
      * intros k k' b X Y. ev X; ev Y; eauto.
      * intros k b X. ev X; [evl; auto|]. injection X as <- <-. now evl.
      * intros k b X. ev X. destruct (M9 _ _ X) as (Y & j' & Z). split; [now evl|exists j'; now evl].
      * intros k k' i i' b b' X Y. destruct (Oth _ _ X) as [[_ ?]|[_ X']]; [discriminate|]. destruct (Oth _ _ Y) as [[_ ?]|[_ Y']]; [discriminate|]. eauto.
    + destruct (M3 _ _ a H ltac:(right; right; now right)) as (A1 & A2 & A3). constructor; cbn.
      * intros b. rewrite in_rm, M1. unfold registered. split.
        -- intros [[(k & X) Y] Nb]. split; [exists k; now evl|]. intros j' Z. ev Z; [exact (Y _ Z)|]. injection Z as _ <-. now apply Nb.
        -- intros [(k & X) Y]. ev X. split; [split; [eauto|intros j' Z; apply (Y j'); now evl]|]. intros ->. apply (Y j). evr.
      * intros k p b Hk R. destruct (Oth _ _ Hk) as [[-> ->]|[N Hk']]; [destruct R; discriminate|]. destruct (M2 _ _ _ Hk' R) as (X & Y & Z). split; [now evl|]. split; [|intros j' W; ev W; exact (Z _ W)].
        intros (c & [W|W]); ev W; [apply Y; exists c; auto|apply Y; exists c; auto|injection W as -> _; now apply N].
      * intros k p b Hk R. destruct (Oth _ _ Hk) as [[-> ->]|[N Hk']]; [destruct R as [R|[R|[R|R]]]; discriminate|]. destruct (M3 _ _ _ Hk' R) as (X & Y & j' & Z). split; [now evl|]. split; [|exists j'; now evl].
        intros (c & [W|W]); ev W; [apply Y; exists c; auto|apply Y; exists c; auto|injection W as -> _; now apply N].
      * intros k Hk. destruct (Oth _ _ Hk) as [[-> _]|[N Hk']]; [exists a; right; evr|]. destruct (M4 _ Hk') as (b & [X|X]); exists b; [left|right]; now evl.
      * intros k. rewrite upd_length. intros [(b & [X|X])|(b & [X|X])]; ev X; try (injection X as <- <-; eapply some_lt; eauto); apply M5; [left|left|right|right]; exists b; auto.
      * intros k b X. ev X. eauto.
      * intros k k' b X Y. ev X; ev Y; eauto.
      * intros k b X. ev X. evl. auto.
      * intros k b X. ev X; [destruct (M9 _ _ X) as (Y & j' & Z); split; [now evl|exists j'; now evl]|]. injection X as <- <-. split; [now evl|]. destruct A3 as (j' & Z). exists j'. now evl.
      * intros k k' i i' b b' X Y. destruct (Oth _ _ X) as [[_ ?]|[_ X']]; [discriminate|]. destruct (Oth _ _ Y) as [[_ ?]|[_ Y']]; [discriminate|]. eauto.
Qed.
Lemma map_reach p sched s evs : run step (init p) sched = Some (s, evs) -> Map evs s.
Proof.
  revert sched s evs. apply (run_inv step (init p) (fun _ evs s => Map evs s)).
  - constructor; cbn; try tauto; try (intros []; discriminate).
    + intros a. split; [intros []|intros [(? & []) _]].
    + intros j [(? & [[]|[]])|(? & [[]|[]])].
  - intros sched evs s l s' e _ IH H. eapply map_step; eauto.
Qed.
