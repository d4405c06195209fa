(** C158-C160: the options of topics and subscriptions. *)
From Coq Require Import List ZArith Bool Lia.
From Verif Require Import Machine PsoptModel PsoptSpec.
Import ListNotations.
Open Scope Z_scope.

Lemma mem_in x l : mem x l = true <-> In x l.
Proof.
  unfold mem. rewrite existsb_exists. split; [intros (y & H & E); apply Nat.eqb_eq in E; now subst|intros H; exists x; split; [exact H|apply Nat.eqb_refl]].
Qed.
Lemma mem_not x l : mem x l = false <-> ~ In x l.
Proof. rewrite <- mem_in. destruct (mem x l); split; congruence. Qed.

Lemma fold_ttl opts : last_ttl opts (o_ttl (fold_left set opts (mkO 0 None))) \/
  (o_ttl (fold_left set opts (mkO 0 None)) = 0 /\ forall u, ~ In (WithTTL u) opts).
Proof.
  induction opts as [|o opts IH] using rev_ind; [right; split; [reflexivity|intros u []]|].
  rewrite fold_left_app. cbn [fold_left]. destruct o as [t|f]; cbn [set o_ttl].
  - left. exists opts, []. split; [reflexivity|intros u []].
  - destruct IH as [(a & b & E & N)|(E & N)].
    + left. exists a, (b ++ [WithSubSuccCallback f]). split; [rewrite E at 1; rewrite <- app_assoc; reflexivity|].
      intros u H. apply in_app_or in H as [H|[H|[]]]; [eapply N; eauto|discriminate].
    + right. split; [exact E|]. intros u H. apply in_app_or in H as [H|[H|[]]]; [eapply N; eauto|discriminate].
Qed.
Lemma last_unique opts t u : last_ttl opts t -> last_ttl opts u -> t = u.
Proof.
  intros (a & b & E & N) (a' & b' & E' & N'). rewrite E in E'. clear E. revert a' E'.
  induction a as [|x a IH]; intros [|x' a'] E'; cbn in E'; injection E' as E1 E2.
  - congruence.
  - exfalso. eapply N. rewrite E2. apply in_or_app. right. left. reflexivity.
  - exfalso. eapply N'. rewrite <- E2. apply in_or_app. right. left. reflexivity.
  - eapply IH; eauto.
Qed.
Lemma new_ttl opts t : (if 0 <? o_ttl (fold_left set opts (mkO 0 None)) then Some (o_ttl (fold_left set opts (mkO 0 None))) else None) = Some t <-> last_ttl opts t /\ 0 < t.
Proof.
  destruct (fold_ttl opts) as [L|(Z0 & N)].
  - destruct (Z.ltb_spec 0 (o_ttl (fold_left set opts (mkO 0 None)))) as [P|P]; split.
    + intros Q. injection Q as <-. auto.
    + intros (L' & _). now rewrite (last_unique _ _ _ L' L).
    + discriminate.
    + intros (L' & Q). rewrite (last_unique _ _ _ L' L) in Q. lia.
  - rewrite Z0. cbn. split; [discriminate|]. intros ((a & b & E & _) & _). exfalso. apply (N t). rewrite E. apply in_or_app. right. left. reflexivity.
Qed.
Lemma fold_mode opts : last_mode opts (fold_left set_mode opts Latest).
Proof.
  induction opts as [|o opts IH] using rev_ind; [right; split; [reflexivity|intros n []]|].
  rewrite fold_left_app. cbn [fold_left]. destruct o as [m|]; cbn [set_mode].
  - left. exists opts, []. split; [reflexivity|intros n []].
  - destruct IH as [(a & b & E & N)|(E & N)].
    + left. exists a, (b ++ [Other]). split; [rewrite E at 1; rewrite <- app_assoc; reflexivity|].
      intros u H. apply in_app_or in H as [H|[H|[]]]; [eapply N; eauto|discriminate].
    + right. split; [exact E|]. intros u H. apply in_app_or in H as [H|[H|[]]]; [eapply N; eauto|discriminate].
Qed.

(** What calls do to what the processes know and to the stream. *)
Lemma sub_known ch o w : known (fst (topic_sub ch o w)) = known w.
Proof. unfold topic_sub. destruct (store w) as [s|]; [|reflexivity]. now destruct (mem ch (map fst (groups s))). Qed.
Lemma sub_store ch o w s : store w = Some s -> exists g, store (fst (topic_sub ch o w)) = Some (mkS (ttl s) (g ++ groups s)) /\
  ((g = [] /\ In ch (map fst (groups s))) \/ (g = [(ch, fold_left set_mode o Latest)] /\ ~ In ch (map fst (groups s)))).
Proof.
  intros E. unfold topic_sub. rewrite E. destruct (mem ch (map fst (groups s))) eqn:M; cbn [fst store].
  - exists []. split; [rewrite E; now destruct s|]. left. split; [reflexivity|now apply mem_in].
  - eexists [_]. split; [reflexivity|]. right. split; [reflexivity|now apply mem_not].
Qed.
Lemma sub_none ch o w : store w = None -> topic_sub ch o w = (w, false).
Proof. intros E. unfold topic_sub. now rewrite E. Qed.
Lemma create_known p o w x : In x (known (create p o w)) <-> x = p \/ In x (known w).
Proof.
  unfold create. destruct (mem p (known w)) eqn:M; cbn [known].
  - apply mem_in in M. split; [auto|intros [->|H]; auto].
  - cbn [In]. split; intros [H|H]; auto.
Qed.
Lemma create_some p o w s : store w = Some s -> store (create p o w) = Some s.
Proof. intros E. unfold create. destruct (mem p (known w)); [exact E|]. cbn [store]. now rewrite E. Qed.

(** A process knows the topic exactly if it has asked for it. *)
Lemma known_asked sched w evs p : run step init sched = Some (w, evs) -> (In p (known w) <-> exists l, In l sched /\ asks p l).
Proof.
  revert sched w evs. apply (run_inv step init (fun sched _ w => In p (known w) <-> exists l, In l sched /\ asks p l)).
  - split; [intros []|intros (l & [] & _)].
  - intros sched evs w l w' e _ IH H. assert (K : In p (known w') <-> In p (known w) \/ asks p l).
    { destruct l as [q o|q ch o|q ch o|]; cbn [step asks] in *.
      - injection H as <- _. rewrite create_known. intuition congruence.
      - destruct (mem q (known w)); [|discriminate]. unfold answer in H. injection H as <- _. rewrite sub_known. tauto.
      - unfold answer in H. injection H as <- _. rewrite sub_known, create_known. intuition congruence.
      - injection H as <- _. cbn [known]. tauto. }
    rewrite K, IH. split.
    + intros [(x & I & A)|A]; [exists x|exists l]; (split; [apply in_or_app; cbn; auto|exact A]).
    + intros (x & I & A). apply in_app_or in I as [I|[<-|[]]]; [left; eauto|right; exact A].
Qed.

(** ** C158: a time to live given for a topic is set *)
(** Proved for a process that asks for the topic for the first time while there is no stream: the
    stream then has exactly the time to live the last option says, if that is positive.  Missing:
    all other cases, where the claim is false (below). *)
Theorem C158_created_partial : forall sched w evs p opts w' e,
  run step init sched = Some (w, evs) -> (forall l, In l sched -> ~ asks p l) -> store w = None ->
  step w (Create p opts) = Some (w', e) ->
  forall t, lives w' t <-> last_ttl opts t /\ 0 < t.
Proof.
  intros sched w evs p opts w' e R N E H t. cbn [step] in H. injection H as <- _.
  assert (M : mem p (known w) = false). { apply mem_not. rewrite (known_asked _ _ _ p R). intros (l & I & A). exact (N l I A). }
  unfold lives, create. rewrite M, E. cbn [store newTopic]. rewrite <- new_ttl. split.
  - intros (s & Q & T). injection Q as <-. exact T.
  - intros T. eexists. split; [reflexivity|]. exact T.
Qed.
Print Assumptions C158_created_partial.
Example C158_created_case : exists w evs w', run step init [SystemSub 0 7 []; Vanish] = Some (w, evs) /\ store w = None /\
  step w (Create 1 [WithTTL 5; WithSubSuccCallback 1; WithTTL 9]) = Some (w', []) /\ lives w' 9.
Proof. do 3 eexists. repeat split; try reflexivity. eexists. split; reflexivity. Qed.

(** Every time to live a stream has comes from an option of a direct creation, never from one of
    System.Sub. *)
Theorem C158_source : forall sched w evs t, run step init sched = Some (w, evs) -> lives w t ->
  exists p opts, In (Create p opts) sched /\ last_ttl opts t /\ 0 < t.
Proof.
  intros sched w evs t R. revert sched w evs R.
  apply (run_inv step init (fun sched _ w => lives w t -> exists p opts, In (Create p opts) sched /\ last_ttl opts t /\ 0 < t)).
  - intros (s & E & _). discriminate.
  - intros sched evs w l w' e _ IH H L.
    assert (K : lives w t \/ exists p opts, l = Create p opts /\ last_ttl opts t /\ 0 < t).
    { assert (CR : forall p o, lives (create p o w) t -> lives w t \/ (last_ttl o t /\ 0 < t)).
      { intros p o (s & E & T). unfold create in E. destruct (mem p (known w)); [left; exists s; auto|]. cbn [store] in E.
        destruct (store w) as [s0|] eqn:E0; cbn [newTopic] in E; injection E as <-; [left; exists s0; auto|right; now apply new_ttl]. }
      assert (SB : forall ch o v, lives (fst (topic_sub ch o v)) t -> lives v t).
      { intros ch o v (s & E & T). destruct (store v) as [s0|] eqn:E0; [|rewrite sub_none in E by exact E0; cbn [fst] in E; congruence].
        destruct (sub_store ch o v s0 E0) as (g & Q & _). rewrite Q in E. injection E as <-. exists s0. auto. }
      destruct l as [q o|q ch o|q ch o|]; cbn [step] in H.
      - injection H as <- _. destruct (CR _ _ L) as [A|A]; [auto|right; eauto].
      - destruct (mem q (known w)); [|discriminate]. unfold answer in H. injection H as <- _. left. eapply SB; eauto.
      - unfold answer in H. injection H as <- _. apply SB in L. destruct (CR _ _ L) as [A|((a & b & A & _) & _)]; [auto|]. destruct a; discriminate.
      - injection H as <- _. destruct L as (s & E & _). discriminate. }
    destruct K as [K|(p & o & -> & K)].
    + destruct (IH K) as (p & o & I & Q). exists p, o. split; [apply in_or_app; auto|exact Q].
    + exists p, o. split; [apply in_or_app; cbn; auto|exact K].
Qed.
Print Assumptions C158_source.
Example C158_source_case : exists w evs, run step init [Create 0 [WithTTL 5]; SystemSub 1 7 [WithTTL 9]] = Some (w, evs) /\ lives w 5.
Proof. do 2 eexists. split; [reflexivity|]. eexists. split; reflexivity. Qed.

(** False for System.Sub, even if there is nothing yet: its options are dropped. *)
Theorem C158_system_refuted : exists w evs, run step init [SystemSub 0 7 [WithTTL 5]] = Some (w, evs) /\ no_ttl w.
Proof. do 2 eexists. split; [vm_compute; reflexivity|]. eexists. split; reflexivity. Qed.
Print Assumptions C158_system_refuted.
(** False for a creation when another process has made the stream. *)
Theorem C158_exists_refuted : exists w evs, run step init [Create 0 []; Create 1 [WithTTL 5]] = Some (w, evs) /\ no_ttl w.
Proof. do 2 eexists. split; [vm_compute; reflexivity|]. eexists. split; reflexivity. Qed.
Print Assumptions C158_exists_refuted.

(** ** C159: a subscription begins where its read mode says *)
(** Groups stay as they are as long as the stream does, and none is there twice. *)
Definition unique_groups (w : world) : Prop := forall s, store w = Some s -> NoDup (map fst (groups s)).
Lemma sub_unique ch o w : unique_groups w -> unique_groups (fst (topic_sub ch o w)).
Proof.
  intros U s E. destruct (store w) as [s0|] eqn:E0; [|rewrite sub_none in E by exact E0; cbn [fst] in E; congruence].
  destruct (sub_store ch o w s0 E0) as (g & Q & [(-> & _)|(-> & N)]); rewrite Q in E; injection E as <-; cbn [groups app map fst].
  - apply U. exact E0.
  - constructor; [exact N|apply U; exact E0].
Qed.
Lemma create_unique p o w : unique_groups w -> unique_groups (create p o w).
Proof.
  intros U s E. unfold create in E. destruct (mem p (known w)); [now apply U|]. cbn [store] in E.
  destruct (store w) as [s0|] eqn:E0; cbn [newTopic] in E; injection E as <-; [now apply U|constructor].
Qed.
Lemma step_unique w l w' e : unique_groups w -> step w l = Some (w', e) -> unique_groups w'.
Proof.
  intros U H. destruct l as [q o|q ch o|q ch o|]; cbn [step] in H.
  - injection H as <- _. now apply create_unique.
  - destruct (mem q (known w)); [|discriminate]. unfold answer in H. injection H as <- _. now apply sub_unique.
  - unfold answer in H. injection H as <- _. now apply sub_unique, create_unique.
  - injection H as <- _. intros s E. discriminate.
Qed.
Lemma step_keeps w l w' e ch m : l <> Vanish -> step w l = Some (w', e) -> begins w ch m -> begins w' ch m.
Proof.
  intros V H (s & E & I).
  assert (SB : forall c o v s1, store v = Some s1 -> In (ch, m) (groups s1) -> begins (fst (topic_sub c o v)) ch m).
  { intros c o v s1 E1 I1. destruct (sub_store c o v s1 E1) as (g & Q & _). eexists. split; [exact Q|]. cbn [groups]. apply in_or_app. auto. }
  destruct l as [q o|q c o|q c o|]; cbn [step] in H.
  - injection H as <- _. exists s. split; [now apply create_some|exact I].
  - destruct (mem q (known w)); [|discriminate]. unfold answer in H. injection H as <- _. eapply SB; eauto.
  - unfold answer in H. injection H as <- _. eapply SB; [apply create_some; exact E|exact I].
  - congruence.
Qed.
Lemma run_keeps b : forall w w' e ch m, ~ In Vanish b -> run step w b = Some (w', e) -> begins w ch m -> begins w' ch m.
Proof.
  induction b as [|l b IH]; intros w w' e ch m V H B; cbn [run] in H.
  - injection H as <- _. exact B.
  - destruct (step w l) as [[w1 e1]|] eqn:E1; [|discriminate]. destruct (run step w1 b) as [[w2 e2]|] eqn:E2; [|discriminate]. injection H as <- _.
    eapply IH; [|exact E2|]; [intros I; apply V; now right|]. eapply step_keeps; [|exact E1|exact B]. intros ->. apply V. now left.
Qed.

(** The first subscription to a group of a stream decides where the group begins, for as long as
    the stream lives: where its last read mode says, whatever others say later.  Missing: later
    subscriptions, whose read mode is ignored without an error (below). *)
Theorem C159_first_partial : forall a p ch opts b w0 e0 s0 w evs,
  run step init a = Some (w0, e0) -> store w0 = Some s0 -> (forall m, ~ begins w0 ch m) ->
  run step init (a ++ TopicSub p ch opts :: b) = Some (w, evs) -> ~ In Vanish b ->
  exists m, last_mode opts m /\ forall m', begins w ch m' <-> m' = m.
Proof.
  intros a p ch opts b w0 e0 s0 w evs R0 E0 N R V.
  assert (U : unique_groups w). { eapply (run_inv_state step unique_groups); [intros; eapply step_unique; eauto| |exact R]. intros s Q. discriminate. }
  apply run_app_inv in R as (w1 & f1 & f2 & A & B & ->). rewrite R0 in A. injection A as <- <-.
  cbn [run] in B. destruct (step w0 (TopicSub p ch opts)) as [[w2 g1]|] eqn:S1; [|discriminate].
  destruct (run step w2 b) as [[w3 g2]|] eqn:R2; [|discriminate]. injection B as <- _.
  exists (fold_left set_mode opts Latest). split; [apply fold_mode|].
  assert (B2 : begins w2 ch (fold_left set_mode opts Latest)).
  { cbn [step] in S1. destruct (mem p (known w0)); [|discriminate]. unfold answer in S1. injection S1 as <- _.
    destruct (sub_store ch opts w0 s0 E0) as (g & Q & [(_ & I)|(-> & _)]).
    - apply in_map_iff in I as ([c m] & <- & I). exfalso. apply (N m). exists s0. auto.
    - eexists. split; [exact Q|]. now left. }
  assert (B3 := run_keeps _ _ _ _ _ _ V R2 B2). intros m'. split; [|intros ->; exact B3].
  intros (s & E & I). destruct B3 as (s' & E' & I'). rewrite E in E'. injection E' as <-. specialize (U s E). clear - U I I'.
  induction (groups s) as [|[c x] l IH]; [contradiction|]. cbn [map fst] in U. inversion U as [|? ? NI ND]; subst.
  destruct I as [I|I], I' as [I'|I'].
  - congruence.
  - injection I as -> ->. exfalso. apply NI. change ch with (fst (ch, fold_left set_mode opts Latest)). now apply in_map.
  - injection I' as -> ->. exfalso. apply NI. change ch with (fst (ch, m')). now apply in_map.
  - auto.
Qed.
Print Assumptions C159_first_partial.
Example C159_first_case : exists w evs, run step init ([Create 0 []] ++ TopicSub 0 7 [WithReadMode (At 3); Other; WithReadMode Beginning; Other] :: [SystemSub 1 7 []; SystemSub 1 8 []]) = Some (w, evs) /\ begins w 7 Beginning.
Proof. do 2 eexists. split; [vm_compute; reflexivity|]. eexists. split; [reflexivity|]. cbn. auto. Qed.

(** False: a later subscription succeeds and its read mode is ignored. *)
Theorem C159_later_refuted : exists w evs, run step init [SystemSub 0 7 []; TopicSub 0 7 [WithReadMode Beginning]] = Some (w, evs) /\
  evs = [Subscribed 0 7; Subscribed 0 7] /\ begins w 7 Latest /\ ~ begins w 7 Beginning.
Proof.
  do 2 eexists. split; [vm_compute; reflexivity|]. split; [reflexivity|]. split.
  - eexists. split; [reflexivity|]. cbn. auto.
  - intros (s & E & I). injection E as <-. cbn in I. destruct I as [I|[]]. discriminate.
Qed.
Print Assumptions C159_later_refuted.

(** Once the stream is gone, System.Sub fails in every process that asked for the topic before:
    as long as only such processes act, all subscriptions fail. *)
Theorem C159_gone : forall a b w0 e0 w evs,
  run step init a = Some (w0, e0) -> run step w0 (Vanish :: b) = Some (w, evs) ->
  (forall l p, In l b -> asks p l -> exists l0, In l0 a /\ asks p l0) ->
  store w = None /\ forall p ch, ~ In (Subscribed p ch) evs.
Proof.
  intros a b w0 e0 w evs R0 R A.
  assert (K : forall l p, In l b -> asks p l -> In p (known w0)). { intros l p I Q. apply (known_asked _ _ _ p R0). eauto. }
  cbn [run step] in R. destruct (run step (mkW (known w0) None) b) as [[w1 e1]|] eqn:R1; [|discriminate]. injection R as <- <-. cbn [app].
  clear R0 A. revert R1 K. generalize (known w0). intros k. revert w1 e1. induction b as [|l b IH]; intros w1 e1 R1 K; cbn [run] in R1.
  - injection R1 as <- <-. split; [reflexivity|intros p ch []].
  - destruct (step (mkW k None) l) as [[w2 f]|] eqn:S1; [|discriminate]. destruct (run step w2 b) as [[w3 g]|] eqn:R2; [|discriminate]. injection R1 as <- <-.
    assert (Q : w2 = mkW k None /\ forall p ch, ~ In (Subscribed p ch) f).
    { assert (CR : forall p o, In p k -> create p o (mkW k None) = mkW k None).
      { intros p o I. unfold create. cbn [known]. apply mem_in in I. now rewrite I. }
      destruct l as [q o|q c o|q c o|]; cbn [step] in S1.
      - rewrite CR in S1 by (apply (K (Create q o)); [now left|reflexivity]). injection S1 as <- <-. split; [reflexivity|intros ? ? []].
      - destruct (mem q (known (mkW k None))); [|discriminate]. rewrite sub_none in S1 by reflexivity. injection S1 as <- <-. split; [reflexivity|]. intros ? ? [X|[]]; discriminate.
      - rewrite CR in S1 by (apply (K (SystemSub q c o)); [now left|reflexivity]). rewrite sub_none in S1 by reflexivity. injection S1 as <- <-. split; [reflexivity|]. intros ? ? [X|[]]; discriminate.
      - injection S1 as <- <-. split; [reflexivity|intros ? ? []]. }
    destruct Q as (-> & F). destruct (IH _ _ R2) as (G & H); [intros; eapply K; [right|]; eauto|]. split; [exact G|].
    intros p ch I. apply in_app_or in I as [I|I]; [eapply F|eapply H]; eauto.
Qed.
Print Assumptions C159_gone.
Example C159_gone_case : exists w0 e0 w, run step init [Create 0 [WithTTL 5]; SystemSub 1 7 []] = Some (w0, e0) /\
  run step w0 [Vanish; SystemSub 1 7 []; Create 0 [WithTTL 5]; TopicSub 0 8 []] = Some (w, [Failed 1 7; Failed 0 8]).
Proof. do 3 eexists. split; reflexivity. Qed.

(** ** C160: the callback of a subscription is called *)
Lemma quiet_ttl opts : o_ttl (fold_left set (quiet_opts opts) (mkO 0 None)) = o_ttl (fold_left set opts (mkO 0 None)).
Proof.
  assert (G : forall o1 o2, o_ttl o1 = o_ttl o2 -> o_ttl (fold_left set (quiet_opts opts) o1) = o_ttl (fold_left set opts o2)); [|now apply G].
  induction opts as [|o opts IH]; intros o1 o2 E; [exact E|]. destruct o as [t|f]; cbn [quiet_opts filter fold_left]; apply IH; [reflexivity|exact E].
Qed.
Lemma quiet_create p o w : create p (quiet_opts o) w = create p o w.
Proof. unfold create, newTopic. now rewrite quiet_ttl. Qed.
(** False: callbacks can be left out everywhere and nothing anyone sees changes. *)
Theorem C160_idle_refuted : forall sched w, run step w (map quiet sched) = run step w sched.
Proof.
  induction sched as [|l sched IH]; intros w; [reflexivity|]. cbn [map run].
  assert (E : step w (quiet l) = step w l). { destruct l as [p o|p ch o|p ch o|]; cbn [quiet step]; [now rewrite quiet_create|reflexivity..]. }
  rewrite E. destruct (step w l) as [[w1 e1]|]; [now rewrite IH|reflexivity].
Qed.
Print Assumptions C160_idle_refuted.
Example C160_idle_case : map quiet [Create 0 [WithSubSuccCallback 1; WithTTL 5]; SystemSub 0 7 [WithSubSuccCallback 2]] = [Create 0 [WithTTL 5]; SystemSub 0 7 []].
Proof. reflexivity. Qed.
