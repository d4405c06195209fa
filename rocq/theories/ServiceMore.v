(** Proofs about the timer service: what lookups find, what starts and stops a task, what
    each task does, loops over all tasks, lost tasks, crashes, and that calls end. *)
From Coq Require Import List Arith Bool Lia.
From Verif Require Import Machine MachineMore ServiceModel ServiceSpec ServiceProofs.
From Verif Require TaskModel TaskSpec TaskProofs TaskLive TaskProps.
Import ListNotations.

Lemma in_tail x k e c ret : In x (map (VTask k) e ++ (if c : bool then [VCrash CTask] else ret)) -> (exists y, x = VTask k y) \/ x = VCrash CTask \/ (c = false /\ In x ret).
Proof.
  intros H. apply in_app_or in H as [H|H]; [apply in_map_iff in H as (y & <- & _); eauto|]. destruct c; [destruct H as [<-|[]]; auto|auto].
Qed.
Lemma after_ret j b k p p' ret x : after j b k p p' ret -> In x ret -> x = VRet j true.
Proof. intros [] H; [destruct H as [<-|[]]; reflexivity|destruct H]. Qed.
Lemma first_of {A} (x y : A) r p q : x :: r = p ++ y :: q -> (p = [] /\ x = y /\ r = q) \/ (exists p', p = x :: p' /\ r = p' ++ y :: q).
Proof. destruct p as [|a p]; intros H; injection H as -> H; [auto|right; eauto]. Qed.

(** Where lookups come from. *)
Lemma move_look s s' p j id r q : move s s' (p ++ VLook j id r :: q) -> p = [] /\ get id (tmap s) = r /\ exists c, nth_error (calls s) j = Some c /\
  (exists b, c = PLook1 b id \/ c = PLook2 b id) \/ (nth_error (calls s) j = Some c /\ c = PStop id) \/ (exists b todo seen, nth_error (calls s) j = Some c /\ c = PLoop b todo seen /\ exists k, r = Some k).
Proof.
  intros M. remember (p ++ VLook j id r :: q) as e eqn:E.
  destruct M; try (apply in_single in E as (_ & _ & E); discriminate E); try (apply in_single in E as (-> & -> & E); injection E as <- <- <-; (split; [reflexivity|split; [assumption|]]));
    try (apply first_of in E as [(-> & E & _)|(pz & -> & E)]; [|apply in_single in E as (_ & _ & E); discriminate E]; try discriminate E; try match type of E with wev ?w = _ => destruct w; discriminate E end; injection E as <- <- <-; (split; [reflexivity|split; [assumption|]])).
  - destruct p; discriminate.
  - exists (PLook1 b id0). left. eauto.
  - exists (PLook2 b id0). left. eauto.
  - exists (PStop id0). auto.
  - exists (PLook1 b id0). left. eauto.
  - exists (PStop id0). auto.
  - exists (PLook2 b id0). left. eauto.
  - exists (PLoop b todo seen). right. right. eauto 10.
  - exfalso. assert (X : In (VLook j id r) (VAct j0 k b :: map (VTask k) e ++ (if TaskModel.crashed b' then [VCrash CTask] else ret))) by (rewrite E; apply in_or_app; right; now left).
    destruct X as [X|X]; [discriminate|]. apply in_tail in X as [(y & X)|[X|[_ X]]]; try discriminate. apply (after_ret _ _ _ _ _ _ _ H0) in X. discriminate.
  - exfalso. assert (X : In (VLook j id r) (map (VTask k) e ++ (if TaskModel.crashed b' then [VCrash CTask] else []))) by (rewrite E; apply in_or_app; right; now left).
    apply in_tail in X as [(y & X)|[X|[_ X]]]; try discriminate. destruct X.
Qed.
Lemma look_found sched s evs a j id r b : run step init sched = Some (s, evs) -> evs = a ++ VLook j id r :: b ->
  registered a id = r /\ (exists c, In (VCall j c) a /\ ((exists d, c = KOne d id) \/ c = KStop id \/ exists d, c = KAll d /\ r <> None)) /\ forall k, r = Some k -> exists isrun pos svc, made a k id isrun pos svc.
Proof.
  intros H E. destruct (run_split _ _ _ _ _ _ _ _ H E) as (x & l & y & t & t' & e1 & p & q & e2 & -> & H1 & H2 & H3 & -> & ->). clear E.
  apply step_move in H2 as [D M]. apply move_look in M as (-> & G & c & C). rewrite app_nil_r. pose proof (inv_reach _ _ _ H1 D) as HI.
  split; [now rewrite <- (i_map _ _ HI)|]. split.
  - destruct C as [(Hc & d & [-> | ->])|[(Hc & ->)|(d & todo & seen & Hc & -> & k & ->)]]; destruct (i_call _ _ HI _ _ Hc) as (c & C1 & C2 & _); cbn in C2; subst c; eexists; split; try exact C1; eauto.
    right. right. exists d. split; [reflexivity|discriminate].
  - intros k ->. destruct (i_reg _ _ HI _ _ G) as (u & U & <-). destruct (i_heap _ _ HI _ _ U) as (v & w & Mk). eauto.
Qed.
(** Where starts and stops come from. *)
Lemma move_act s s' p j k b q : move s s' (p ++ VAct j k b :: q) -> p = [] /\ exists c p' ret, nth_error (calls s) j = Some c /\ after j b k c p' ret.
Proof.
  intros M. remember (p ++ VAct j k b :: q) as e eqn:E.
  destruct M; try (apply in_single in E as (_ & _ & E); discriminate E);
    try (apply first_of in E as [(-> & E & _)|(pz & -> & E)]; [|apply in_single in E as (_ & _ & E); discriminate E]; try discriminate E; match type of E with wev ?w = _ => destruct w; discriminate E end).
  - destruct p; discriminate.
  - apply first_of in E as [(-> & E & _)|(pz & -> & E)].
    + injection E as <- <- <-. split; [reflexivity|]. eauto.
    + exfalso. assert (X : In (VAct j k b) (map (VTask k0) e ++ (if TaskModel.crashed b' then [VCrash CTask] else ret))) by (rewrite E; apply in_or_app; right; now left).
      apply in_tail in X as [(y & X)|[X|[_ X]]]; try discriminate. apply (after_ret _ _ _ _ _ _ _ H0) in X. discriminate.
  - exfalso. assert (X : In (VAct j k b) (map (VTask k0) e ++ (if TaskModel.crashed b' then [VCrash CTask] else []))) by (rewrite E; apply in_or_app; right; now left).
    apply in_tail in X as [(y & X)|[X|[_ X]]]; try discriminate. destruct X.
Qed.
Lemma act_asked sched s evs a j k b z : run step init sched = Some (s, evs) -> evs = a ++ VAct j k b :: z ->
  exists c id, In (VCall j c) a /\ asks c b id /\ looked a j id k.
Proof.
  intros H E. destruct (run_split _ _ _ _ _ _ _ _ H E) as (x & l & y & t & t' & e1 & p & q & e2 & -> & H1 & H2 & H3 & -> & ->). clear E.
  apply step_move in H2 as [D M]. apply move_act in M as (-> & c & p' & ret & C & A). rewrite app_nil_r. pose proof (inv_reach _ _ _ H1 D) as HI.
  destruct (i_call _ _ HI _ _ C) as (c0 & C1 & C2 & _). exists c0. destruct A; cbn in C2.
  - destruct C2 as (id & X & L). exists id. split; [exact C1|]. split; [unfold asks; tauto|exact L].
  - destruct C2 as (X & id & L). exists id. split; [exact C1|]. split; [unfold asks; tauto|exact L].
Qed.
(** Numbers of calls and tasks are fresh. *)
Record Fr (evs : list event) (s : state) : Prop := mkFr {
  f_num : forall j c, In (VCall j c) evs -> j < length (calls s);
  f_one : forall j c c', In (VCall j c) evs -> In (VCall j c') evs -> c = c';
  f_made : forall j k, In (VMade j k) evs -> k < length (heap s) /\ j < length (calls s);
  f_maker : forall j j' k, In (VMade j k) evs -> In (VMade j' k) evs -> j = j';
  f_past : forall k, length (heap s) <= k -> acts k evs = [] /\ task_events k evs = [] }.
Lemma fr_same evs e s s' : Fr evs s -> length (calls s') = length (calls s) -> length (heap s') = length (heap s) -> (forall j c, ~ In (VCall j c) e) -> (forall j k, ~ In (VMade j k) e) ->
  (forall k, length (heap s) <= k -> acts k e = [] /\ task_events k e = []) -> Fr (evs ++ e) s'.
Proof.
  intros [A B C D F] E1 E2 N1 N2 N3. constructor; rewrite ?E1, ?E2.
  - intros j c X. apply in_app_or in X as [X|X]; [eauto|destruct (N1 _ _ X)].
  - intros j c c' X Y. apply in_app_or in X as [X|X]; [|destruct (N1 _ _ X)]. apply in_app_or in Y as [Y|Y]; [eauto|destruct (N1 _ _ Y)].
  - intros j k X. apply in_app_or in X as [X|X]; [eauto|destruct (N2 _ _ X)].
  - intros j j' k X Y. apply in_app_or in X as [X|X]; [|destruct (N2 _ _ X)]. apply in_app_or in Y as [Y|Y]; [eauto|destruct (N2 _ _ Y)].
  - intros k Hk. rewrite acts_app, task_events_app. destruct (F k Hk) as [-> ->], (N3 k Hk) as [-> ->]. auto.
Qed.
Lemma fr_task k' e c ret k0 : (forall x, In x ret -> exists j ok, x = VRet j ok) -> k' < k0 ->
  (forall j d, ~ In (VCall j d) (map (VTask k') e ++ (if c : bool then [VCrash CTask] else ret))) /\ (forall j k, ~ In (VMade j k) (map (VTask k') e ++ (if c then [VCrash CTask] else ret))) /\
  (forall k, k0 <= k -> acts k (map (VTask k') e ++ (if c then [VCrash CTask] else ret)) = [] /\ task_events k (map (VTask k') e ++ (if c then [VCrash CTask] else ret)) = []).
Proof.
  intros Hr Hk. assert (R : forall k, acts k (if c then [VCrash CTask] else ret) = [] /\ task_events k (if c then [VCrash CTask] else ret) = []).
  { intros k. destruct c; [auto|]. induction ret as [|x r IH]; [auto|]. destruct (Hr x (or_introl eq_refl)) as (j & ok & ->). cbn. apply IH. intros y Hy. apply Hr. now right. }
  split; [|split].
  - intros j d X. apply in_tail in X as [(y & X)|[X|[_ X]]]; try discriminate. destruct (Hr _ X) as (? & ? & ?). discriminate.
  - intros j d X. apply in_tail in X as [(y & X)|[X|[_ X]]]; try discriminate. destruct (Hr _ X) as (? & ? & ?). discriminate.
  - intros k L. rewrite acts_app, task_events_app, acts_map, task_events_map_other by lia. destruct (R k) as [-> ->]. auto.
Qed.
Lemma fr_reach sched s evs : run step init sched = Some (s, evs) -> Fr evs s.
Proof.
  revert sched s evs. apply (run_inv step init (fun _ evs s => Fr evs s)); [constructor; cbn; try tauto; intros; auto|].
  intros sched evs s l s' e _ IH H. apply step_move in H as [_ M]. destruct M.
  - destruct IH as [A B C D F]. constructor; cbn [heap calls].
    + intros j c X. rewrite app_length. cbn. apply in_app_or in X as [X|[X|[X|[]]]]; try discriminate; [apply A in X; lia|injection X as <- <-; lia].
    + intros j c c' X Y. apply in_app_or in X as [X|[X|[X|[]]]]; try discriminate; apply in_app_or in Y as [Y|[Y|[Y|[]]]]; try discriminate; [eauto| | |congruence].
      * injection Y as <- <-. apply A in X. lia.
      * injection X as <- <-. apply A in Y. lia.
    + intros j k X. rewrite !app_length. cbn. apply in_app_or in X as [X|[X|[X|[]]]]; try discriminate; [apply C in X; lia|injection X as <- <-; lia].
    + intros j j' k X Y. apply in_app_or in X as [X|[X|[X|[]]]]; try discriminate; apply in_app_or in Y as [Y|[Y|[Y|[]]]]; try discriminate; [eauto| | |congruence].
      * injection Y as <- <-. apply C in X. lia.
      * injection X as <- <-. apply C in Y. lia.
    + intros k Hk. rewrite app_length in Hk. cbn in Hk. rewrite acts_app, task_events_app. destruct (F k) as [-> ->]; [lia|]. auto.
  - destruct IH as [A B C D F]. constructor; cbn [heap calls with_calls].
    + intros j c' X. rewrite app_length. cbn. apply in_app_or in X as [X|[X|[]]]; [apply A in X; lia|injection X as <- <-; lia].
    + intros j c1 c2 X Y. apply in_app_or in X as [X|[X|[]]]; apply in_app_or in Y as [Y|[Y|[]]]; [eauto| | |congruence].
      * injection Y as <- <-. apply A in X. lia.
      * injection X as <- <-. apply A in Y. lia.
    + intros j k X. rewrite !app_length. cbn. apply in_app_or in X as [X|[X|[]]]; try discriminate. apply C in X. lia.
    + intros j j' k X Y. apply in_app_or in X as [X|[X|[]]]; try discriminate; apply in_app_or in Y as [Y|[Y|[]]]; try discriminate. eauto.
    + intros k Hk. rewrite acts_app, task_events_app. destruct (F k Hk) as [-> ->]. auto.
  - apply (fr_same _ _ _ _ IH); cbn [heap calls goto with_calls]; rewrite ?upd_length; auto.
  - apply (fr_same _ _ _ _ IH); cbn [heap calls]; rewrite ?map_length, ?upd_length; auto; try (intros ? ? [X|[X|[]]]; destruct w; discriminate). intros k _. destruct w; auto.
  - apply (fr_same _ _ _ _ IH); cbn [heap calls kill]; auto; intros ? ? [X|[]]; discriminate.
  - apply (fr_same _ _ _ _ IH); cbn [heap calls goto with_calls]; rewrite ?upd_length; auto; intros ? ? [X|[]]; discriminate.
  - apply (fr_same _ _ _ _ IH); cbn [heap calls goto with_calls]; rewrite ?upd_length; auto; intros ? ? [X|[]]; discriminate.
  - apply (fr_same _ _ _ _ IH); cbn [heap calls goto with_calls]; rewrite ?upd_length; auto; intros ? ? [X|[]]; discriminate.
  - apply (fr_same _ _ _ _ IH); cbn [heap calls goto with_calls]; rewrite ?upd_length; auto; intros ? ? [X|[X|[]]]; discriminate.
  - apply (fr_same _ _ _ _ IH); cbn [heap calls goto with_calls]; rewrite ?upd_length; auto; intros ? ? [X|[X|[]]]; discriminate.
  - apply (fr_same _ _ _ _ IH); cbn [heap calls kill]; auto; intros ? ? [X|[X|[]]]; discriminate.
  - apply (fr_same _ _ _ _ IH); cbn [heap calls goto with_calls]; rewrite ?upd_length; auto; intros ? ? [X|[]]; discriminate.
  - apply (fr_same _ _ _ _ IH); cbn [heap calls goto with_calls]; rewrite ?upd_length; auto; intros ? ? [X|[]]; discriminate.
  - destruct (fr_task k e (TaskModel.crashed b') ret (length (heap s))) as (N1 & N2 & N3); [intros x Hx; apply (after_ret _ _ _ _ _ _ _ H0) in Hx as ->; eauto|eapply some_lt; eauto|].
    apply (fr_same _ _ _ _ IH); cbn [heap calls]; rewrite ?upd_length; auto.
    + intros ? ? [X|X]; [discriminate|exact (N1 _ _ X)].
    + intros ? ? [X|X]; [discriminate|exact (N2 _ _ X)].
    + intros k' L. cbn [acts task_events]. destruct (Nat.eqb_spec k k') as [<-|]; [apply some_lt in H1; lia|]. auto.
  - destruct (fr_task k e (TaskModel.crashed b') [] (length (heap s))) as (N1 & N2 & N3); [intros x []|eapply some_lt; eauto|].
    apply (fr_same _ _ _ _ IH); cbn [heap calls]; rewrite ?upd_length; auto.
  - apply (fr_same _ _ _ _ IH); cbn [heap calls kill]; auto; intros ? ? [X|[]]; discriminate.
Qed.

(** Where returns come from. *)
Lemma move_ret s s' p j ok q : move s s' (p ++ VRet j ok :: q) -> q = [] /\
  ((exists w, nth_error (calls s) j = Some (PWrite w) /\ p = [wev w] /\ ok = true) \/
   (exists b id, nth_error (calls s) j = Some (PLook1 b id) /\ p = [VLook j id None] /\ ok = true /\ get id (tmap s) = None) \/
   (exists id, nth_error (calls s) j = Some (PStop id) /\ p = [VLook j id None] /\ ok = false /\ get id (tmap s) = None) \/
   (exists b seen, nth_error (calls s) j = Some (PLoop b [] seen) /\ p = [] /\ ok = true) \/
   (exists b k e, nth_error (calls s) j = Some (PHave b k) /\ p = VAct j k b :: map (VTask k) e /\ ok = true)).
Proof.
  intros M. remember (p ++ VRet j ok :: q) as e eqn:E.
  assert (NT : forall k e p, map (VTask k) e <> p ++ VRet j ok :: q).
  { intros k e1 p1 X. assert (Y : In (VRet j ok) (map (VTask k) e1)) by (rewrite X; apply in_or_app; right; now left). apply in_map_iff in Y as (z & Z & _). discriminate. }
  destruct M; try (apply in_single in E as (_ & _ & E); discriminate E).
  - apply first_of in E as [(-> & E & _)|(pz & -> & E)]; [discriminate|]. apply in_single in E as (_ & _ & E). discriminate.
  - destruct p; discriminate.
  - apply first_of in E as [(-> & E & _)|(pz & -> & E)]; [destruct w; discriminate|]. apply in_single in E as (-> & -> & E). injection E as <- <-. split; [reflexivity|]. left. eauto 10.
  - apply first_of in E as [(-> & E & _)|(pz & -> & E)]; [discriminate|]. apply in_single in E as (-> & -> & E). injection E as <- <-. split; [reflexivity|]. right. left. eauto 10.
  - apply first_of in E as [(-> & E & _)|(pz & -> & E)]; [discriminate|]. apply in_single in E as (-> & -> & E). injection E as <- <-. split; [reflexivity|]. right. right. left. eauto 10.
  - apply first_of in E as [(-> & E & _)|(pz & -> & E)]; [discriminate|]. apply in_single in E as (-> & -> & E). discriminate.
  - apply in_single in E as (-> & -> & E). injection E as <- <-. split; [reflexivity|]. do 3 right. left. eauto 10.
  - apply first_of in E as [(-> & E & _)|(pz & -> & E)]; [discriminate|].
    destruct (app_split _ _ _ _ _ E) as [(b1 & E1 & ->)|(d1 & E1 & _)].
    + destruct (TaskModel.crashed b'); [apply in_single in E1 as (_ & _ & X); discriminate|]. destruct H0; [|destruct b1; discriminate].
      apply in_single in E1 as (-> & -> & X). injection X as <- <-. split; [reflexivity|]. do 4 right. exists b, k, e. rewrite app_nil_r. auto.
    + exfalso. assert (Y : In (VRet j ok) (map (VTask k) e)) by (rewrite E1; apply in_or_app; right; now left). apply in_map_iff in Y as (z & Z & _). discriminate.
  - exfalso. assert (X : In (VRet j ok) (map (VTask k) e ++ (if TaskModel.crashed b' then [VCrash CTask] else []))) by (rewrite E; apply in_or_app; right; now left).
    apply in_tail in X as [(y & X)|[X|[_ X]]]; try discriminate. destruct X.
Qed.
(** Stop says what it found. *)
Lemma stop_result sched s evs a j id ok z : run step init sched = Some (s, evs) -> evs = a ++ VRet j ok :: z -> In (VCall j (KStop id)) evs ->
  if ok then exists k a1 a2, a = a1 ++ VLook j id (Some k) :: a2 /\ registered a1 id = Some k /\ In (VAct j k false) a2
  else exists a1, a = a1 ++ [VLook j id None] /\ registered a1 id = None.
Proof.
  intros H E Hc. pose proof (fr_reach _ _ _ H) as HF. destruct (run_split _ _ _ _ _ _ _ _ H E) as (x & l & y & t & t' & e1 & p & q & e2 & -> & H1 & H2 & H3 & -> & ->).
  apply step_move in H2 as [D M]. pose proof (inv_reach _ _ _ H1 D) as HI. apply move_ret in M as (-> & C).
  assert (K : forall p0, nth_error (calls t) j = Some p0 -> okp e1 j (KStop id) p0).
  { intros p0 Hp. destruct (i_call _ _ HI _ _ Hp) as (c & C1 & C2 & _). assert (c = KStop id) as <-; [|exact C2]. eapply (f_one _ _ HF j); [|exact Hc]. rewrite E. apply in_or_app. left. apply in_or_app. now left. }
  destruct C as [(w & X & -> & ->)|[(b & id' & X & -> & -> & G)|[(id' & X & -> & -> & G)|[(b & seen & X & -> & ->)|(b & k & e & X & -> & ->)]]]]; apply K in X; cbn in X; try contradiction; try discriminate.
  - injection X as <-. exists e1. split; [reflexivity|]. now rewrite <- (i_map _ _ HI).
  - destruct X as (id' & [X|[X ->]] & (a1 & a2 & -> & R)); [discriminate|]. injection X as <-. exists k, a1, (a2 ++ VAct j k false :: map (VTask k) e). split; [now rewrite <- app_assoc|]. split; [exact R|]. apply in_or_app. right. now left.
Qed.

(** ** Each task is a task *)
Definition Pj (evs : list event) (s : state) : Prop := forall k t, nth_error (heap s) k = Some t -> exists isrun svc sched,
  made evs k (name t) isrun (pos t) svc /\ run TaskModel.step (TaskModel.task isrun svc) sched = Some (body t, task_events k evs) /\ controls sched = acts k evs /\
  (pos t = false -> forall i, ~ In (TaskModel.LFire i) sched).
Lemma pj_same evs e s s' : Pj evs s -> heap s' = heap s -> (forall k, acts k e = []) -> (forall k, task_events k e = []) -> Pj (evs ++ e) s'.
Proof.
  intros HP E A T k t Hk. rewrite E in Hk. destruct (HP _ _ Hk) as (i & sv & sc & M & R & C & F). exists i, sv, sc. rewrite task_events_app, acts_app, A, T, !app_nil_r. auto using made_app.
Qed.
Lemma pj_reach sched s evs : run step init sched = Some (s, evs) -> Pj evs s.
Proof.
  revert sched s evs. apply (run_inv step init (fun _ evs s => Pj evs s)); [intros k t X; destruct k; discriminate|].
  intros sched evs s l s' e Hr IH H. pose proof (fr_reach _ _ _ Hr) as HF. apply step_move in H as [_ M].
  destruct M; try (apply (pj_same _ _ _ _ IH); auto; fail).
  - intros k t Hk. destruct (snoc_case _ _ _ _ Hk) as [[-> ->]|[L Hk']].
    + cbn [name pos body]. exists isrun, svc, []. split; [exists (length (calls s)); split; apply in_or_app; right; cbn; auto|].
      rewrite task_events_app, acts_app. destruct (f_past _ _ HF (length (heap s))) as [-> ->]; [lia|]. cbn. auto.
    + destruct (IH _ _ Hk') as (i & sv & sc & A & R & C & F). exists i, sv, sc. rewrite task_events_app, acts_app. cbn [acts task_events]. rewrite !app_nil_r. auto using made_app.
  - apply (pj_same _ _ _ _ IH); auto; intros k; destruct w; reflexivity.
  - intros k' t' Hk. cbn [heap] in Hk. rewrite task_events_app, acts_app. cbn [acts task_events].
    assert (R0 : forall k, acts k (if TaskModel.crashed b' then [VCrash CTask] else ret) = [] /\ task_events k (if TaskModel.crashed b' then [VCrash CTask] else ret) = []) by (intros; destruct (TaskModel.crashed b'), H0; auto).
    destruct (R0 k') as [R1 R2]. rewrite acts_app, task_events_app, R1, R2, acts_map, !app_nil_r.
    destruct (upd_case _ _ _ _ _ _ H1 Hk) as [[-> ->]|[N Hk']].
    + destruct (IH _ _ H1) as (i & sv & sc & A & R & C & F). rewrite Nat.eqb_refl, task_events_map. exists i, sv, (sc ++ [ctl b]). cbn [name pos body].
      split; [now apply made_app|]. split; [eapply run_app; [exact R|now apply run_one]|]. split; [rewrite controls_app, C; destruct b; reflexivity|].
      intros P i0 X. apply in_app_or in X as [X|[X|[]]]; [eapply F; eauto|destruct b; discriminate].
    + destruct (IH _ _ Hk') as (i & sv & sc & A & R & C & F). rewrite task_events_map_other by auto. destruct (Nat.eqb_spec k k'); [congruence|]. rewrite !app_nil_r. exists i, sv, sc. auto using made_app.
  - intros k' t' Hk. cbn [heap] in Hk. rewrite task_events_app, acts_app.
    assert (R0 : forall k, acts k (if TaskModel.crashed b' then [VCrash CTask] else []) = [] /\ task_events k (if TaskModel.crashed b' then [VCrash CTask] else []) = []) by (intros; destruct (TaskModel.crashed b'); auto).
    destruct (R0 k') as [R1 R2]. rewrite acts_app, task_events_app, R1, R2, acts_map, !app_nil_r.
    destruct (upd_case _ _ _ _ _ _ H Hk) as [[-> ->]|[N Hk']].
    + destruct (IH _ _ H) as (i & sv & sc & A & R & C & F). rewrite task_events_map. exists i, sv, (sc ++ [l0]). cbn [name pos body].
      split; [now apply made_app|]. split; [eapply run_app; [exact R|now apply run_one]|]. split.
      * rewrite controls_app, C. destruct l0; cbn; rewrite ?app_nil_r; auto; [destruct (H0 true)|destruct (H0 false)]; reflexivity.
      * intros P i0 X. apply in_app_or in X as [X|[X|[]]]; [eapply F; eauto|]. rewrite (H1 _ X) in P. discriminate.
    + destruct (IH _ _ Hk') as (i & sv & sc & A & R & C & F). rewrite task_events_map_other by auto. rewrite !app_nil_r. exists i, sv, sc. auto using made_app.
Qed.
Lemma made_one sched s evs k id a b c id' a' b' c' : run step init sched = Some (s, evs) -> made evs k id a b c -> made evs k id' a' b' c' -> id = id' /\ a = a' /\ b = b' /\ c = c'.
Proof.
  intros H (j & X1 & X2) (j' & Y1 & Y2). pose proof (fr_reach _ _ _ H) as F. assert (j = j') as <- by (eapply f_maker; eauto). pose proof (f_one _ _ F _ _ _ X1 Y1) as E. injection E as -> -> -> ->. auto.
Qed.
Lemma project sched s evs k id isrun p svc : run step init sched = Some (s, evs) -> made evs k id isrun p svc -> exists t tsched,
  nth_error (heap s) k = Some t /\ name t = id /\ pos t = p /\ run TaskModel.step (TaskModel.task isrun svc) tsched = Some (body t, task_events k evs) /\ controls tsched = acts k evs /\
  (p = false -> forall i, ~ In (TaskModel.LFire i) tsched).
Proof.
  intros H M. assert (L : k < length (heap s)) by (destruct M as (j & _ & X); apply (f_made _ _ (fr_reach _ _ _ H)) in X; tauto).
  destruct (nth_error (heap s) k) as [t|] eqn:E; [|apply nth_error_None in E; lia]. destruct (pj_reach _ _ _ H _ _ E) as (i & sv & sc & A & R & C & F).
  destruct (made_one _ _ _ _ _ _ _ _ _ _ _ _ H M A) as (-> & -> & -> & ->). exists t, sc. auto 10.
Qed.

(** ** Loops over all tasks *)
Definition acted (m : list event) (j : nat) (b : bool) (id : nat) : Prop := exists k, In (VLook j id (Some k)) m /\ In (VAct j k b) m.
Definition oklp (evs : list event) (j : nat) (p : pc) : Prop :=
  match p with
  | PLoop b todo _ => forall a m id k, evs = a ++ VCall j (KAll b) :: m -> registered a id = Some k -> ~ In (VDel id) m -> In id todo \/ acted m j b id
  | PItem b k' todo _ => forall a m id k, evs = a ++ VCall j (KAll b) :: m -> registered a id = Some k -> ~ In (VDel id) m -> In id todo \/ acted m j b id \/ In (VLook j id (Some k')) m
  | _ => True
  end.
Definition LI (evs : list event) (s : state) : Prop := forall j p, nth_error (calls s) j = Some p -> oklp evs j p.
Lemma acted_app m e j b id : acted m j b id -> acted (m ++ e) j b id.
Proof. intros (k & A & B). exists k. split; apply in_or_app; auto. Qed.
Lemma in_app_l {A} (x : A) a b : In x a -> In x (a ++ b).
Proof. intros. apply in_or_app. auto. Qed.
Lemma oklp_app evs e j p : oklp evs j p -> (forall c, ~ In (VCall j c) e) -> oklp (evs ++ e) j p.
Proof.
  intros H N. destruct p; cbn; auto; intros a m id k0 E R D; (apply app_split in E as [(b1 & -> & _)|(d1 & E & ->)]; [destruct (N (KAll b)); apply in_or_app; right; now left|]);
    (assert (D' : ~ In (VDel id) d1) by (intros X; apply D; now apply in_app_l)); specialize (H _ _ _ _ E R D').
  - destruct H as [H|H]; auto using acted_app.
  - destruct H as [H|[H|H]]; auto using acted_app, in_app_l.
Qed.
Lemma oklp_drop evs j w p : oklp evs j p -> oklp (evs ++ [wev w]) j (drop w p).
Proof.
  intros H. pose proof (oklp_app _ [wev w] _ _ H) as H'. assert (N : forall c, ~ In (VCall j c) [wev w]) by (intros c [X|[]]; destruct w; discriminate). specialize (H' N).
  destruct w as [id k|id]; [exact H'|]. destruct p; try exact H'; cbn in *; intros a m id' k0 E R D; specialize (H' _ _ _ _ E R D).
  - destruct H' as [X|X]; [left|auto]. apply in_in_remove; [|exact X]. intros ->. apply D. apply app_split in E as [(b1 & E & _)|(d1 & _ & ->)]; [destruct b1 as [|? [|]]; discriminate|]. apply in_or_app. right. now left.
  - destruct H' as [X|X]; [left|auto]. apply in_in_remove; [|exact X]. intros ->. apply D. apply app_split in E as [(b1 & E & _)|(d1 & _ & ->)]; [destruct b1 as [|? [|]]; discriminate|]. apply in_or_app. right. now left.
Qed.
Lemma get_keys id k m : get id m = Some k -> In id (map fst m).
Proof. induction m as [|[a v] m IH]; [discriminate|]. cbn. destruct (Nat.eqb_spec a id) as [->|]; auto. Qed.
Lemma move_calls s s' e j c : move s s' e -> In (VCall j c) e -> j = length (calls s).
Proof.
  intros M H. destruct M; repeat destruct H as [H|H]; try discriminate; try contradiction; try congruence.
  - destruct w; discriminate.
  - apply in_tail in H as [(y & H)|[H|[_ H]]]; try discriminate. apply (after_ret _ _ _ _ _ _ _ H1) in H. discriminate.
  - apply in_tail in H as [(y & H)|[H|[_ H]]]; try discriminate. destruct H.
Qed.
Lemma li_reach sched s evs : run step init sched = Some (s, evs) -> LI evs s.
Proof.
  revert sched s evs. apply (run_inv step init (fun _ evs s => LI evs s)); [intros j p H; destruct j; discriminate|].
  intros sched evs s l s' e Hr IH H. pose proof (fr_reach _ _ _ Hr) as HF. apply step_move in H as [D M]. pose proof (inv_reach _ _ _ Hr D) as HI.
  assert (N : forall j p c, nth_error (calls s) j = Some p -> ~ In (VCall j c) e).
  { intros j p c Hj X. apply (move_calls _ _ _ _ _ M) in X as ->. apply some_lt in Hj. lia. }
  assert (K : forall j p, nth_error (calls s) j = Some p -> oklp (evs ++ e) j p) by (intros j p Hj; apply oklp_app; eauto).
  assert (G : forall j p p', nth_error (calls s) j = Some p -> oklp (evs ++ e) j p' -> forall j' q, nth_error (upd (calls s) j p') j' = Some q -> oklp (evs ++ e) j' q).
  { intros j p p' Hj Ho j' q Hq. destruct (upd_case _ _ _ _ _ _ Hj Hq) as [[-> ->]|[Nj Hq']]; eauto. }
  destruct M; intros j' q Hq; cbn [calls goto with_calls kill] in Hq.
  - destruct (snoc_case _ _ _ _ Hq) as [[-> ->]|[L Hq']]; [exact I|eauto].
  - destruct (snoc_case _ _ _ _ Hq) as [[-> ->]|[L Hq']]; [|eauto]. destruct H; try exact I. cbn. intros a m id k E R Dl. left.
    apply app_split in E as [(b1 & E & ->)|(d1 & E & _)].
    + apply in_single in E as (-> & -> & _). rewrite app_nil_r, <- (i_map _ _ HI) in R. eapply get_keys; eauto.
    + assert (X : length (calls s) < length (calls s)); [|lia]. eapply (f_num _ _ HF). rewrite E. apply in_or_app. right. now left.
  - eapply G; [exact H| |exact Hq]; exact I.
  - rewrite nth_error_map in Hq. destruct (nth_error (upd (calls s) j PDone) j') as [q0|] eqn:E0; [|discriminate]. injection Hq as <-.
    destruct (upd_case _ _ _ _ _ _ H E0) as [[-> ->]|[Nj Hq']]; [destruct w; exact I|]. change [wev w; VRet j true] with ([wev w] ++ [VRet j true]). rewrite app_assoc. apply oklp_app; [|intros c [X|[]]; discriminate]. apply oklp_drop. now apply IH.
  - eauto.
  - eapply G; [exact H| |exact Hq]; exact I.
  - eapply G; [exact H| |exact Hq]; exact I.
  - eapply G; [exact H| |exact Hq]; exact I.
  - eapply G; [exact H| |exact Hq]; exact I.
  - eapply G; [exact H| |exact Hq]; exact I.
  - eauto.
  - eapply G; [exact H| |exact Hq]; exact I.
  - eapply G; [exact H| |exact Hq]. pose proof (IH _ _ H) as B. cbn in B |- *. intros a m id' k0 E R Dl. apply app_split in E as [(b1 & E & _)|(d1 & E & ->)]; [destruct b1 as [|? [|]]; discriminate|].
    assert (D' : ~ In (VDel id') d1) by (intros X; apply Dl; now apply in_app_l). destruct (B _ _ _ _ E R D') as [X|X]; [|auto using acted_app].
    destruct (Nat.eq_dec id' id) as [->|Ni]; [right; right; apply in_or_app; right; now left|left; now apply in_in_remove].
  - eapply G; [exact H| |exact Hq]. destruct H0; [exact I|]. pose proof (IH _ _ H) as B. cbn in B |- *. intros a m id' k0 E R Dl. apply app_split in E as [(b1 & E & _)|(d1 & E & ->)].
    { exfalso. eapply (N j _ (KAll b)); [exact H|]. rewrite E. apply in_or_app. right. now left. }
    assert (D' : ~ In (VDel id') d1) by (intros X; apply Dl; now apply in_app_l). destruct (B _ _ _ _ E R D') as [X|[X|X]]; [auto|auto using acted_app|]. right. exists k. split; [now apply in_app_l|]. apply in_or_app. right. now left.
  - eauto.
  - eauto.
Qed.
Lemma all_visited sched s evs a j b m ok z id k : run step init sched = Some (s, evs) -> evs = a ++ VCall j (KAll b) :: m ++ VRet j ok :: z -> registered a id = Some k -> ~ In (VDel id) m ->
  exists k', In (VLook j id (Some k')) m /\ In (VAct j k' b) m /\ ((forall x, ~ In (VPut id x) m) -> k' = k).
Proof.
  intros H E R D. assert (E' : evs = (a ++ VCall j (KAll b) :: m) ++ VRet j ok :: z) by (rewrite <- app_assoc; exact E).
  destruct (run_split _ _ _ _ _ _ _ _ H E') as (x & l & y & t & t' & e1 & p & q & e2 & -> & H1 & H2 & H3 & E1 & ->). pose proof (fr_reach _ _ _ H) as HF.
  apply step_move in H2 as [Dd M]. pose proof (inv_reach _ _ _ H1 Dd) as HI. pose proof (li_reach _ _ _ H1) as HL. apply move_ret in M as (-> & C).
  assert (K : forall p0, nth_error (calls t) j = Some p0 -> okp e1 j (KAll b) p0).
  { intros p0 Hp. destruct (i_call _ _ HI _ _ Hp) as (c & C1 & C2 & _). assert (c = KAll b) as <-; [|exact C2]. apply (f_one _ _ HF j); [rewrite E', E1; apply in_or_app; left; now apply in_app_l|]. rewrite E. apply in_or_app. right. now left. }
  destruct C as [(w & X & -> & ->)|[(b0 & id' & X & -> & -> & G)|[(id' & X & -> & -> & G)|[(b0 & seen & X & -> & ->)|(b0 & k0 & e & X & -> & ->)]]]]; pose proof (K _ X) as X'; cbn in X'; try contradiction; try discriminate.
  - injection X' as <-. rewrite app_nil_r in E1. specialize (HL _ _ X). cbn in HL. destruct (HL a m id k (eq_sym E1) R D) as [[]|(k' & A & B)]. exists k'. split; [exact A|]. split; [exact B|]. intros N.
    apply in_split in A as (m1 & m2 & A). assert (E2 : exists z, evs = (a ++ VCall j (KAll b) :: m1) ++ VLook j id (Some k') :: z).
    { eexists. rewrite E, A, <- !app_assoc. cbn. rewrite <- ?app_assoc. reflexivity. }
    destruct E2 as (z & E2).
    apply (look_found _ _ _ _ _ _ _ _ H) in E2 as (E2 & _). rewrite registered_app in E2. cbn in E2. rewrite R, reg_none in E2; [congruence| |].
    + intros x0 Hx. apply (N x0). rewrite A. now apply in_app_l.
    + intros Hx. apply D. rewrite A. now apply in_app_l.
  - destruct X' as (? & [X'|[X' _]] & _); discriminate.
Qed.

(** ** Tasks nothing leads to *)
Definition gone (s : state) (k : nat) : Prop := k < length (heap s) /\ (forall id, get id (tmap s) <> Some k) /\ forall j p, nth_error (calls s) j = Some p -> ~ uses p k.
Lemma gone_goto s j p p' k : gone s k -> nth_error (calls s) j = Some p -> (uses p' k -> uses p k \/ exists id, get id (tmap s) = Some k) -> gone (goto s j p') k.
Proof.
  intros (A & B & C) Hj U. split; [exact A|]. split; [exact B|]. cbn [calls goto with_calls]. intros j' q Hq X. destruct (upd_case _ _ _ _ _ _ Hj Hq) as [[-> ->]|[N Hq']]; [|exact (C _ _ Hq' X)].
  destruct (U X) as [Y|(id & Y)]; [exact (C _ _ Hj Y)|exact (B id Y)].
Qed.
Lemma gone_step s l s' e k : gone s k -> step s l = Some (s', e) -> (forall j, ~ In (VCall j (KAdd k)) e) -> gone s' k /\ forall j b, ~ In (VAct j k b) e.
Proof.
  intros G H Hl. apply step_move in H as [D M]. split.
  - destruct G as (A & B & C). destruct M; try (eapply gone_goto; [split; [exact A|split; [exact B|exact C]]|eassumption|cbn; intros X; subst; eauto]; fail).
    + split; [cbn; rewrite app_length; lia|]. split; [exact B|]. cbn [calls]. intros j q Hq X. destruct (snoc_case _ _ _ _ Hq) as [[-> ->]|[L Hq']]; [cbn in X; lia|exact (C _ _ Hq' X)].
    + split; [exact A|]. split; [exact B|]. cbn [calls with_calls]. intros j q Hq X. destruct (snoc_case _ _ _ _ Hq) as [[-> ->]|[L Hq']]; [|exact (C _ _ Hq' X)].
      destruct H; cbn in X; try contradiction. subst k0. apply (Hl (length (calls s))). now left.
    + split; [exact A|]. split.
      * cbn [tmap]. intros id X. destruct w as [id' k'|id']; cbn [apply] in X; [rewrite get_put in X|rewrite get_del in X]; destruct (Nat.eqb id' id); try discriminate; try exact (B _ X). injection X as ->. apply (C _ _ H). reflexivity.
      * cbn [calls]. intros j' q Hq X. rewrite nth_error_map in Hq. destruct (nth_error (upd (calls s) j PDone) j') as [q0|] eqn:E0; [|discriminate]. injection Hq as <-. apply uses_drop in X.
        destruct (upd_case _ _ _ _ _ _ H E0) as [[-> ->]|[N Hq']]; [destruct X|exact (C _ _ Hq' X)].
    + split; [exact A|]. split; [exact B|exact C].
    + split; [exact A|]. split; [exact B|exact C].
    + split; [cbn; now rewrite upd_length|]. split; [exact B|]. cbn [calls]. intros j' q Hq X. destruct (upd_case _ _ _ _ _ _ H Hq) as [[-> ->]|[N Hq']]; [|exact (C _ _ Hq' X)]. destruct H0; destruct X.
    + split; [cbn; now rewrite upd_length|]. split; [exact B|exact C].
    + split; [exact A|]. split; [exact B|exact C].
  - intros j b X. apply in_split in X as (p & q & ->). apply move_act in M as (_ & c & p' & ret & Hc & Ha). destruct G as (_ & _ & C). apply (C _ _ Hc). destruct Ha; reflexivity.
Qed.

Lemma gone_run s sched s' evs k : gone s k -> run step s sched = Some (s', evs) -> (forall j, ~ In (VCall j (KAdd k)) evs) -> forall j b, ~ In (VAct j k b) evs.
Proof.
  revert s s' evs. induction sched as [|l sched IH]; intros s s' evs G H N j b X; cbn [run] in H; [injection H as <- <-; destruct X|].
  destruct (step s l) as [[t e]|] eqn:E; [|discriminate]. destruct (run step t sched) as [[u f]|] eqn:R; [|discriminate]. injection H as <- <-.
  destruct (gone_step _ _ _ _ _ G E) as [G' N']; [intros j0 Y; apply (N j0); now apply in_app_l|]. apply in_app_or in X as [X|X]; [exact (N' _ _ X)|]. eapply IH; eauto. intros j0 Y. apply (N j0), in_or_app. auto.
Qed.
Lemma quiet_gone sched s evs k id i p sv : run step init sched = Some (s, evs) -> dead s = false -> quiet evs -> made evs k id i p sv -> registered evs id <> Some k -> gone s k.
Proof.
  intros H D Q M R. pose proof (inv_reach _ _ _ H D) as HI. destruct (project _ _ _ _ _ _ _ _ H M) as (t & ts & Hk & Hn & _). split; [eapply some_lt; eauto|]. split.
  - intros id' G. destruct (i_reg _ _ HI _ _ G) as (t' & Hk' & E). assert (t' = t) by congruence. subst t'. rewrite (i_map _ _ HI) in G. apply R. congruence.
  - intros j q Hq U. destruct (i_call _ _ HI _ _ Hq) as (c & C1 & C2 & C3). apply (Q j c). split; [exact C1|]. intros ok X. destruct C3 as [_ C3]. rewrite C3 in U by eauto. destruct U.
Qed.

(** ** Tasks: facts about the model of one task *)
Lemma task_shape b1 b2 sched s evs : run TaskModel.step (TaskModel.task b1 b2) sched = Some (s, evs) ->
  TaskModel.service s = b2 /\ TaskModel.isrun s = b1 /\ (TaskModel.cur s = None -> TaskModel.ticks s = [] /\ forall i, ~ In (TaskModel.EBegin i) evs) /\
  (forall k, TaskModel.cur s = Some k -> k < length (TaskModel.ticks s)) /\ (In TaskModel.ECrash evs -> TaskModel.crashed s = true) /\ (TaskModel.loops s <> [] -> In TaskModel.EStarted evs).
Proof.
  revert sched s evs. apply (run_inv TaskModel.step (TaskModel.task b1 b2) (fun _ evs s => TaskModel.service s = b2 /\ TaskModel.isrun s = b1 /\ (TaskModel.cur s = None -> TaskModel.ticks s = [] /\ forall i, ~ In (TaskModel.EBegin i) evs) /\
  (forall k, TaskModel.cur s = Some k -> k < length (TaskModel.ticks s)) /\ (In TaskModel.ECrash evs -> TaskModel.crashed s = true) /\ (TaskModel.loops s <> [] -> In TaskModel.EStarted evs))).
  - cbn. repeat split; try discriminate; auto.
  - intros sched evs s l s' e _ (A & B & C & D & E & F) H. unfold TaskModel.step in H. destruct (TaskModel.crashed s) eqn:Hc; [discriminate|].
    assert (E' : ~ In TaskModel.ECrash evs) by (intros X; specialize (E X); discriminate).
    destruct l; repeat match type of H with
    | context [match ?x with _ => _ end] => destruct x eqn:?; try discriminate H
    | context [if ?x then _ else _] => destruct x eqn:?; try discriminate H end; injection H as <- <-; cbn; rewrite ?app_nil_r, ?app_length, ?upd_length;
    (split; [auto|split; [auto|split; [|split; [|split]]]]); auto; try congruence;
    try (intros X; apply in_app_or in X; cbn in X; intuition discriminate);
    try (intros X; exfalso; congruence);
    try (intros X; destruct (C ltac:(congruence)) as [T Y]; split; [try exact T; rewrite T in *; destruct k; discriminate|intros i0 Z; apply in_app_or in Z as [Z|Z]; [eapply Y; eauto|cbn in Z; intuition discriminate]]; fail);
    try (intros X; destruct (C ltac:(congruence)) as [T Y]; rewrite T in *; destruct k; discriminate);
    try (intros k0 X; injection X as <-; cbn; lia);
    try (intros _; apply in_or_app; cbn; auto; fail);
    try (intros X; apply in_or_app; left; apply F; intros Y; rewrite Y in *; (destruct i; discriminate) || (cbn in X; congruence));
    try (intros k0 X; apply D; congruence).
    + intros X; apply F; intros Y; rewrite Y in *; destruct i; discriminate.
Qed.
Lemma work_alive s l s' e : TaskModel.step s l = Some (s', e) -> TaskSpec.loop_work l -> TaskModel.crashed s' = false.
Proof.
  intros H W. unfold TaskModel.step in H. destruct (TaskModel.crashed s) eqn:Hc; [discriminate|]. destruct l as [| |i|i [|]|i|i|k]; try destruct W;
  repeat match type of H with
    | context [match ?x with _ => _ end] => destruct x eqn:?; try discriminate H end; injection H as <- <-; cbn; auto.
Qed.
Lemma lift s k t sched b' evs : dead s = false -> nth_error (heap s) k = Some t -> pos t = true -> run TaskModel.step (body t) sched = Some (b', evs) -> Forall TaskSpec.loop_work sched ->
  exists s', run step s (map (LTask k) sched) = Some (s', map (VTask k) evs).
Proof.
  revert s t evs. induction sched as [|l sched IH]; intros s t evs D Hk P R F; cbn [run map] in *.
  - injection R as <- <-. eauto.
  - destruct (TaskModel.step (body t) l) as [[b1 e1]|] eqn:E; [|discriminate]. destruct (run TaskModel.step b1 sched) as [[b2 e2]|] eqn:R2; [|discriminate]. injection R as <- <-.
    inversion F as [|x y F1 F2]; subst. pose proof (work_alive _ _ _ _ E F1) as Hc.
    assert (S1 : step s (LTask k l) = Some (mkS (upd (heap s) k (mkI (name t) (pos t) b1)) (tmap s) (calls s) (TaskModel.crashed b1), map (VTask k) e1)).
    { assert (T : tstep s k l = Some (mkS (upd (heap s) k (mkI (name t) (pos t) b1)) (tmap s) (calls s) (TaskModel.crashed b1), map (VTask k) e1)) by (unfold tstep; rewrite Hk, E, Hc, app_nil_r; reflexivity).
      unfold step. rewrite D. destruct l; try destruct F1; try exact T. rewrite Hk. unfold TaskModel.step in E. destruct (TaskModel.crashed (body t)); [discriminate|].
      destruct (nth_error (TaskModel.loops (body t)) i) as [[| | |]|]; try discriminate. rewrite P in T |- *. exact T. }
    rewrite S1. destruct (IH (mkS (upd (heap s) k (mkI (name t) (pos t) b1)) (tmap s) (calls s) (TaskModel.crashed b1)) (mkI (name t) (pos t) b1) e2) as (s2 & R3); auto.
    + cbn. apply nth_upd_eq. eapply some_lt; eauto.
    + rewrite R3, map_app. eauto.
Qed.
(** A crashed task is the end of the process. *)
Lemma crashed_dead sched s evs : run step init sched = Some (s, evs) -> forall k t, nth_error (heap s) k = Some t -> TaskModel.crashed (body t) = true -> dead s = true.
Proof.
  revert sched s evs. apply (run_inv step init (fun _ evs s => forall k t, nth_error (heap s) k = Some t -> TaskModel.crashed (body t) = true -> dead s = true)); [intros k t H; destruct k; discriminate|].
  intros sched evs s l s' e _ IH H. apply step_move in H as [D M]. destruct M; cbn [heap dead goto with_calls kill]; try exact IH; try (intros; reflexivity).
  - intros k t Hk. destruct (snoc_case _ _ _ _ Hk) as [[-> ->]|[L Hk']]; [discriminate|]. intros X. specialize (IH _ _ Hk' X). congruence.
  - intros k t Hk X. specialize (IH _ _ Hk X). congruence.
  - intros k' t' Hk X. destruct (upd_case _ _ _ _ _ _ H1 Hk) as [[-> ->]|[N Hk']]; [exact X|]. specialize (IH _ _ Hk' X). congruence.
  - intros k' t' Hk X. destruct (upd_case _ _ _ _ _ _ H Hk) as [[-> ->]|[N Hk']]; [exact X|]. specialize (IH _ _ Hk' X). congruence.
Qed.
Lemma goes_on sched s evs k id isrun svc n : run step init sched = Some (s, evs) -> dead s = false -> made evs k id isrun true svc -> TaskSpec.running_task (task_events k evs) ->
  exists more s' evs', run step s more = Some (s', evs') /\ Forall (task_work k) more /\ n <= TaskSpec.count_ev TaskSpec.began (task_events k evs').
Proof.
  intros H D M R. destruct (project _ _ _ _ _ _ _ _ H M) as (t & ts & Hk & _ & Hp & Ht & _).
  assert (C : ~ In TaskModel.ECrash (task_events k evs)).
  { intros X. apply task_shape in Ht as (_ & _ & _ & _ & Y & _). pose proof (crashed_dead _ _ _ H _ _ Hk (Y X)). congruence. }
  destruct (TaskLive.runs_again _ _ _ _ _ n Ht R C) as (more & b' & ev' & R' & W & N). destruct (lift _ _ _ _ _ _ D Hk Hp R' W) as (s' & L).
  exists (map (LTask k) more), s', (map (VTask k) ev'). split; [exact L|]. split; [apply Forall_forall; intros x Hx; apply in_map_iff in Hx as (y & <- & _); now exists y|now rewrite task_events_map].
Qed.

(** ** What brings the process down *)
Lemma alone_app a b : alone (a ++ b) -> alone a.
Proof. intros H x y j c -> P C j' c' P'. eapply (H x (y ++ b)); eauto. now rewrite <- app_assoc. Qed.
(** Under [alone], an id found by the first lookup is there for the second. *)
Lemma alone_look sched s evs : run step init sched = Some (s, evs) -> alone evs -> dead s = false -> forall j b id, nth_error (calls s) j = Some (PLook2 b id) -> get id (tmap s) <> None.
Proof.
  revert sched s evs. apply (run_inv step init (fun _ evs s => alone evs -> dead s = false -> forall j b id, nth_error (calls s) j = Some (PLook2 b id) -> get id (tmap s) <> None)); [intros _ _ j b id H; destruct j; discriminate|].
  intros sched evs s l s' e Hr IH H HA Hd. pose proof (alone_app _ _ HA) as HA0. apply step_move in H as [D M]. specialize (IH HA0 D). pose proof (inv_reach _ _ _ Hr D) as HI.
  assert (PD : forall j p, nth_error (calls s) j = Some p -> p <> PDone -> exists c, pending evs j c /\ okp evs j c p).
  { intros j p Hj Np. destruct (i_call _ _ HI _ _ Hj) as (c & C1 & C2 & C3). exists c. split; [split; [exact C1|]|exact C2]. intros ok X. apply Np, C3. eauto. }
  assert (G : forall j p p' m, nth_error (calls s) j = Some p -> (forall b id, p' <> PLook2 b id) -> m = tmap s -> forall j0 b id, nth_error (upd (calls s) j p') j0 = Some (PLook2 b id) -> get id m <> None).
  { intros j p p' m Hj Np -> j0 b id Hq. destruct (upd_case _ _ _ _ _ _ Hj Hq) as [[_ X]|[N Hq']]; [destruct (Np b id); auto|eauto]. }
  destruct M; cbn [calls tmap goto with_calls kill] in *; try exact IH; try (eapply G; [exact H| |reflexivity]; discriminate).
  - intros j b id0 Hq. destruct (snoc_case _ _ _ _ Hq) as [[_ X]|[_ X]]; [discriminate|eauto].
  - intros j b id0 Hq. destruct (snoc_case _ _ _ _ Hq) as [[_ X]|[_ X]]; [destruct H; discriminate|eauto].
  - intros j0 b id Hq. rewrite nth_error_map in Hq. destruct (nth_error (upd (calls s) j PDone) j0) as [q0|] eqn:E0; [|discriminate]. injection Hq as Hq.
    destruct (upd_case _ _ _ _ _ _ H E0) as [[-> ->]|[N Hq']]; [destruct w; discriminate|]. exfalso. apply N.
    destruct (PD _ _ H ltac:(discriminate)) as (c & P1 & O1). destruct (PD j0 q0 Hq') as (c' & P2 & _); [intros ->; destruct w; discriminate|]. eapply (HA0 evs []); eauto. now rewrite app_nil_r.
  - intros j0 b0 id0 Hq. destruct (upd_case _ _ _ _ _ _ H Hq) as [[-> X]|[N Hq']]; [injection X as -> ->; congruence|eauto].
  - eapply G; [exact H| |reflexivity]. destruct H0; discriminate.
Qed.
Lemma move_crash s s' p c q : move s s' (p ++ VCrash c :: q) -> dead s' = true /\
  ((c = COverlap /\ exists j pc0 jw w, nth_error (calls s) j = Some pc0 /\ races pc0 /\ jw <> j /\ nth_error (calls s) jw = Some (PWrite w)) \/
   (c = CNil /\ exists j b id, nth_error (calls s) j = Some (PLook2 b id) /\ get id (tmap s) = None) \/
   (c = CInterval /\ p = [] /\ exists k t i, nth_error (heap s) k = Some t /\ pos t = false /\ nth_error (TaskModel.loops (body t)) i = Some TaskModel.PDue) \/
   (c = CTask /\ exists k t l b' e, nth_error (heap s) k = Some t /\ TaskModel.step (body t) l = Some (b', e) /\ TaskModel.crashed b' = true /\
     ((exists b j, l = ctl b /\ p = VAct j k b :: map (VTask k) e) \/ ((forall b, l <> ctl b) /\ p = map (VTask k) e)))).
Proof.
  intros M. remember (p ++ VCrash c :: q) as e eqn:E.
  destruct M; try (apply in_single in E as (_ & _ & E); discriminate E);
    try (apply first_of in E as [(-> & E & _)|(pz & -> & E)]; [|apply in_single in E as (_ & _ & E); discriminate E]; try discriminate E; match type of E with wev ?w = _ => destruct w; discriminate E end).
  - destruct p; discriminate.
  - apply in_single in E as (-> & -> & E). injection E as <-. split; [reflexivity|]. left. split; [reflexivity|]. eauto 10.
  - apply first_of in E as [(-> & E & _)|(pz & -> & E)]; [discriminate|]. apply in_single in E as (-> & -> & E). injection E as <-. split; [reflexivity|]. right. left. split; [reflexivity|]. eauto.
  - apply first_of in E as [(-> & E & _)|(pz & -> & E)]; [discriminate|]. apply app_split in E as [(b1 & E1 & ->)|(d1 & E1 & _)].
    + destruct (TaskModel.crashed b') eqn:Hc; [|destruct H0; [apply in_single in E1 as (_ & _ & X); discriminate|destruct b1; discriminate]]. apply in_single in E1 as (-> & -> & X). injection X as <-.
      split; [reflexivity|]. right. right. right. split; [reflexivity|]. exists k, t, (ctl b), b', e. split; [exact H1|]. split; [exact H2|]. split; [exact Hc|]. left. exists b, j. rewrite app_nil_r. auto.
    + exfalso. assert (Y : In (VCrash c) (map (VTask k) e)) by (rewrite E1; apply in_or_app; right; now left). apply in_map_iff in Y as (z & Z & _). discriminate.
  - apply app_split in E as [(b1 & E1 & ->)|(d1 & E1 & _)].
    + destruct (TaskModel.crashed b') eqn:Hc; [|destruct b1; discriminate]. apply in_single in E1 as (-> & -> & X). injection X as <-.
      split; [reflexivity|]. right. right. right. split; [reflexivity|]. exists k, t, l, b', e. split; [exact H|]. split; [exact H2|]. split; [exact Hc|]. right. rewrite app_nil_r. auto.
    + exfalso. assert (Y : In (VCrash c) (map (VTask k) e)) by (rewrite E1; apply in_or_app; right; now left). apply in_map_iff in Y as (z & Z & _). discriminate.
  - apply in_single in E as (-> & -> & E). injection E as <-. split; [reflexivity|]. right. right. left. split; [reflexivity|]. split; [reflexivity|]. eauto 10.
Qed.
Lemma task_crash s l s' e : TaskModel.step s l = Some (s', e) -> TaskModel.crashed s' = true ->
  (l = TaskModel.LStop /\ TaskModel.cur s = None /\ e = [TaskModel.ECrash]) \/ (exists i, l = TaskModel.LEnd i true /\ TaskModel.service s = false /\ In (TaskModel.EPanic i) e).
Proof.
  intros H X. unfold TaskModel.step in H. destruct (TaskModel.crashed s) eqn:Hc; [discriminate|]. destruct l as [| |i|i [|]|i|i|k];
  repeat match type of H with
    | context [match ?x with _ => _ end] => destruct x eqn:?; try discriminate H
    | context [if ?x then _ else _] => destruct x eqn:?; try discriminate H end; injection H as <- <-; cbn in X; try congruence; [left; auto|right]. exists i. cbn. auto.
Qed.
Lemma started_acts b1 b2 sched s evs : run TaskModel.step (TaskModel.task b1 b2) sched = Some (s, evs) -> In TaskModel.EStarted evs -> In true (controls sched).
Proof.
  revert sched s evs. apply (run_inv TaskModel.step (TaskModel.task b1 b2) (fun sched evs s => In TaskModel.EStarted evs -> In true (controls sched))); [intros []|].
  intros sched evs s l s' e _ IH H X. rewrite controls_app. apply in_or_app. apply in_app_or in X as [X|X]; [auto|right]. unfold TaskModel.step in H. destruct (TaskModel.crashed s); [discriminate|].
  destruct l; [now left|..]; exfalso; repeat match type of H with
    | context [match ?x with _ => _ end] => destruct x eqn:?; try discriminate H
    | context [if ?x then _ else _] => destruct x eqn:?; try discriminate H end; injection H as <- <-; cbn in X; intuition discriminate.
Qed.
Lemma crash_cause sched s evs a c z : run step init sched = Some (s, evs) -> evs = a ++ VCrash c :: z -> alone evs ->
  (exists k id isrun svc, made a k id isrun false svc /\ In true (acts k a)) \/
  (exists k j, In (VAct j k false) a /\ forall i, ~ In (TaskModel.EBegin i) (task_events k a)) \/
  (exists k id isrun p i, made a k id isrun p false /\ In (TaskModel.EPanic i) (task_events k a)).
Proof.
  intros H E HA. destruct (run_split _ _ _ _ _ _ _ _ H E) as (x & l & y & t & t' & e1 & p & q & e2 & -> & H1 & H2 & H3 & -> & ->).
  apply step_move in H2 as [D M]. pose proof (inv_reach _ _ _ H1 D) as HI. assert (HA1 : alone e1) by (rewrite E, <- app_assoc in HA; eapply alone_app; eauto).
  apply move_crash in M as (_ & [(-> & j & p0 & jw & w & Hj & Rd & Njw & Hw)|[(-> & j & b & id & Hj & G)|[(-> & -> & k & u & i & Hk & P & L)|(-> & k & u & tl & b' & e & Hk & Ht & Hc & Q)]]]).
  - exfalso. destruct (i_call _ _ HI _ _ Hw) as (c1 & A1 & A2 & A3). destruct (i_call _ _ HI _ _ Hj) as (c2 & B1 & B2 & B3). apply Njw. symmetry. apply (HA1 e1 [] jw c1 (eq_sym (app_nil_r _))) with (c' := c2).
    + split; [exact A1|]. intros ok X. discriminate (proj2 A3 (ex_intro _ ok X)).
    + exact A2.
    + split; [exact B1|]. intros ok X. rewrite (proj2 B3 (ex_intro _ ok X)) in Rd. destruct Rd as [[]|(? & Rd)]. discriminate Rd.
  - exfalso. exact (alone_look _ _ _ H1 HA1 D _ _ _ Hj G).
  - left. rewrite app_nil_r. destruct (pj_reach _ _ _ H1 _ _ Hk) as (i0 & sv & ts & Mk & R & C & F). exists k, (name u), i0, sv. split; [congruence|]. rewrite <- C. eapply started_acts; [exact R|].
    destruct (task_shape _ _ _ _ _ R) as (_ & _ & _ & _ & _ & S). apply S. intros X. rewrite X in L. destruct i; discriminate.
  - right. destruct (pj_reach _ _ _ H1 _ _ Hk) as (i0 & sv & ts & Mk & R & C & F). destruct (task_shape _ _ _ _ _ R) as (S1 & S2 & S3 & _). destruct (task_crash _ _ _ _ Ht Hc) as [(-> & Cu & ->)|(i & -> & Sv & Pn)].
    + left. destruct Q as [(b & j & Hb & ->)|[Hb _]]; [|destruct (Hb false); reflexivity]. destruct b; [discriminate|]. exists k, j. split; [apply in_or_app; right; now left|].
      intros i X. rewrite task_events_app in X. apply in_app_or in X as [X|X]; [exact (proj2 (S3 Cu) i X)|]. cbn in X. rewrite Nat.eqb_refl in X. destruct X as [X|[]]. discriminate.
    + right. destruct Q as [(b & j & Hb & _)|[_ ->]]; [destruct b; discriminate|]. exists k, (name u), i0, (pos u), i. split; [apply made_app; congruence|]. rewrite task_events_app, task_events_map. apply in_or_app. auto.
Qed.
Lemma overlap_reader sched s evs a z : run step init sched = Some (s, evs) -> evs = a ++ VCrash COverlap :: z ->
  exists j c j' c', pending a j c /\ changes c /\ pending a j' c' /\ ~ changes c'.
Proof.
  intros H E. destruct (run_split _ _ _ _ _ _ _ _ H E) as (x & l & y & t & t' & e1 & p & q & e2 & -> & H1 & H2 & H3 & -> & ->).
  apply step_move in H2 as [D M]. pose proof (inv_reach _ _ _ H1 D) as HI. assert (p = []) as ->.
  { remember (p ++ VCrash COverlap :: q) as f eqn:Ef. destruct M; try (apply in_single in Ef as (-> & _ & _); reflexivity); exfalso.
    all: try (destruct p; discriminate Ef). all: try (apply first_of in Ef as [(-> & Ef & _)|(pz & -> & Ef)]; [try discriminate Ef; destruct w; discriminate Ef|apply in_single in Ef as (_ & _ & Ef); discriminate Ef]).
    - assert (Y : In (VCrash COverlap) (VAct j k b :: map (VTask k) e ++ (if TaskModel.crashed b' then [VCrash CTask] else ret))) by (rewrite Ef; apply in_or_app; right; now left).
      destruct Y as [Y|Y]; [discriminate|]. apply in_tail in Y as [(? & Y)|[Y|[_ Y]]]; try discriminate. eapply after_ret in Y; [|eassumption]. discriminate.
    - assert (Y : In (VCrash COverlap) (map (VTask k) e ++ (if TaskModel.crashed b' then [VCrash CTask] else []))) by (rewrite Ef; apply in_or_app; right; now left).
      apply in_tail in Y as [(? & Y)|[Y|[_ []]]]; discriminate. }
  rewrite app_nil_r in *. apply (move_crash _ _ []) in M as (_ & [(_ & j & p0 & jw & w & Hj & Rd & Njw & Hw)|[(X & _)|[(X & _)|(X & _)]]]); try discriminate.
  destruct (i_call _ _ HI _ _ Hw) as (c1 & A1 & A2 & A3). destruct (i_call _ _ HI _ _ Hj) as (c2 & B1 & B2 & B3). exists jw, c1, j, c2.
  destruct Rd as [Rd|(w2 & ->)]; [|destruct (Njw (i_lock _ _ HI _ _ _ _ Hw Hj))].
  split; [split; [exact A1|intros ok X; discriminate (proj2 A3 (ex_intro _ ok X))]|]. split; [exact A2|].
  split; [split; [exact B1|intros ok X; rewrite (proj2 B3 (ex_intro _ ok X)) in Rd; destruct Rd]|]. intros C. destruct p0; cbn in Rd, B2; try contradiction; subst c2; destruct C.
Qed.
Lemma crash_last sched s evs a c z : run step init sched = Some (s, evs) -> evs = a ++ VCrash c :: z -> dead s = true.
Proof.
  intros H E. destruct (run_split _ _ _ _ _ _ _ _ H E) as (x & l & y & t & t' & e1 & p & q & e2 & -> & H1 & H2 & H3 & -> & ->).
  apply step_move in H2 as [D M]. apply move_crash in M as [D' _]. destruct y as [|l' y]; cbn in H3; [congruence|]. unfold step in H3. rewrite D' in H3. discriminate.
Qed.
Lemma dead_crash sched s evs : run step init sched = Some (s, evs) -> dead s = true -> exists c, In (VCrash c) evs.
Proof.
  revert sched s evs. apply (run_inv step init (fun _ evs s => dead s = true -> exists c, In (VCrash c) evs)); [discriminate|].
  intros sched evs s l s' e _ IH H X. apply step_move in H as [D M].
  destruct M; cbn [dead goto with_calls kill] in X; try congruence; try (eexists; apply in_or_app; right; cbn; eauto; fail).
  - exists CTask. apply in_or_app. right. right. apply in_or_app. right. rewrite X. now left.
  - exists CTask. apply in_or_app. right. apply in_or_app. right. rewrite X. now left.
Qed.

(** ** Calls end *)
Definition okt (m : list (nat * nat)) (p : pc) : Prop :=
  match p with PLoop _ todo seen | PItem _ _ todo seen => forall id, In id todo -> get id m <> None /\ ~ In id seen | _ => True end.
Definition TI (s : state) : Prop := forall j p, nth_error (calls s) j = Some p -> okt (tmap s) p.
Lemma keys_get id m : In id (map fst m) -> get id m <> None.
Proof. induction m as [|[a k] m IH]; intros H; [destruct H|]. cbn. destruct (Nat.eqb_spec a id) as [->|N]; [discriminate|]. destruct H as [H|H]; [contradiction|auto]. Qed.
Lemma ti_step s l s' e : TI s -> step s l = Some (s', e) -> TI s'.
Proof.
  intros HT H. apply step_move in H as [_ M].
  assert (G : forall j p p', nth_error (calls s) j = Some p -> okt (tmap s) p' -> forall j' q, nth_error (upd (calls s) j p') j' = Some q -> okt (tmap s) q).
  { intros j p p' Hj Ho j' q Hq. destruct (upd_case _ _ _ _ _ _ Hj Hq) as [[-> ->]|[Nj Hq']]; eauto. }
  destruct M; intros j' q Hq; cbn [calls tmap goto with_calls kill] in *; try exact (HT _ _ Hq); try (eapply G; [exact H| |exact Hq]; exact I).
  - destruct (snoc_case _ _ _ _ Hq) as [[_ ->]|[_ Hq']]; [exact I|exact (HT _ _ Hq')].
  - destruct (snoc_case _ _ _ _ Hq) as [[_ ->]|[_ Hq']]; [|exact (HT _ _ Hq')]. destruct H; try exact I. intros id Hid. split; [now apply keys_get|intros []].
  - rewrite nth_error_map in Hq. destruct (nth_error (upd (calls s) j PDone) j') as [q0|] eqn:E0; [|discriminate]. injection Hq as <-.
    assert (Ho : okt (tmap s) q0) by (eapply G; [exact H| |exact E0]; exact I). destruct w as [id' k|id']; cbn [apply drop].
    + destruct q0; try exact I; intros id Hid; cbn in Ho; specialize (Ho id Hid); rewrite get_put; (destruct (Nat.eqb id' id); [split; [discriminate|tauto]|exact Ho]).
    + destruct q0; try exact I; intros id Hid; cbn in Ho; apply in_remove in Hid as [Hid Hn]; specialize (Ho id Hid); rewrite get_del; (destruct (Nat.eqb_spec id' id); [congruence|]); (split; [tauto|]); intros X; apply in_remove in X as [X _]; tauto.
  - eapply G; [exact H| |exact Hq]. intros id' Hid. apply in_remove in Hid as [Hid Hn]. destruct (HT _ _ H id' Hid) as [A B]. split; [exact A|]. intros [X|X]; congruence.
  - eapply G; [exact H| |exact Hq]. destruct H0; [exact I|]. exact (HT _ _ H).
Qed.
Lemma ti_reach sched s evs : run step init sched = Some (s, evs) -> TI s.
Proof. intros H. eapply (run_inv_state step TI); [intros; eapply ti_step; eauto| |exact H]. intros j p X. destruct j; discriminate. Qed.

(** Reachable from a running process. *)
Definition ok_state (s : state) : Prop := exists sched evs, run step init sched = Some (s, evs).
Lemma ok_next s l s' e : ok_state s -> step s l = Some (s', e) -> ok_state s'.
Proof. intros (sc & ev & H) Hs. exists (sc ++ [l]), (ev ++ e). eapply run_app; [exact H|now apply run_one]. Qed.
(** Call j can be brought to its end by the calls that have begun. *)
Definition can_end (s : state) (j : nat) : Prop := exists more s' evs, run step s more = Some (s', evs) /\ Forall own_work more /\ ((exists ok, In (VRet j ok) evs) \/ dead s' = true).
Lemma end_step s l s1 e j : step s l = Some (s1, e) -> own_work l -> can_end s1 j -> can_end s j.
Proof.
  intros H W (more & s' & ev & R & F & Q). exists (l :: more), s', (e ++ ev). split; [cbn [run]; rewrite H, R; reflexivity|]. split; [now constructor|]. destruct Q as [(ok & X)|X]; [left; exists ok; apply in_or_app; auto|auto].
Qed.
Lemma end_ret s l s1 e j ok : step s l = Some (s1, e) -> own_work l -> In (VRet j ok) e -> can_end s j.
Proof. intros H W X. exists [l], s1, e. split; [now apply run_one|]. split; [repeat constructor; exact W|eauto]. Qed.
Lemma end_dead s l s1 e j : step s l = Some (s1, e) -> own_work l -> dead s1 = true -> can_end s j.
Proof. intros H W X. exists [l], s1, e. split; [now apply run_one|]. split; [repeat constructor; exact W|eauto]. Qed.
Lemma ctl_step b1 b2 sched s evs b : run TaskModel.step (TaskModel.task b1 b2) sched = Some (s, evs) -> TaskModel.crashed s = false -> exists s' e, TaskModel.step s (ctl b) = Some (s', e).
Proof.
  intros H Hc. apply task_shape in H as (_ & _ & _ & S & _). unfold ctl, TaskModel.step. rewrite Hc. destruct b.
  - destruct (negb (TaskModel.isrun s)); [eauto|]. destruct (TaskModel.st s); eauto.
  - destruct (negb (TaskModel.isrun s)); [eauto|]. destruct (TaskModel.st s); eauto. destruct (TaskModel.cur s) as [k|]; [|eauto]. specialize (S k eq_refl). destruct (nth_error (TaskModel.ticks s) k) eqn:E; [eauto|].
    apply nth_error_None in E. lia.
Qed.
Lemma act_enabled s j b k p ret : ok_state s -> dead s = false -> k < length (heap s) -> exists s' e, act s j b k p ret = Some (s', e) /\ calls s' = upd (calls s) j p /\ tmap s' = tmap s /\ length (heap s') = length (heap s) /\ (dead s' = false -> forall x, In x ret -> In x e).
Proof.
  intros (sc & ev & H) D L. destruct (nth_error (heap s) k) as [t|] eqn:Hk; [|apply nth_error_None in Hk; lia]. destruct (pj_reach _ _ _ H _ _ Hk) as (i & sv & ts & _ & R & _).
  assert (Hc : TaskModel.crashed (body t) = false) by (destruct (TaskModel.crashed (body t)) eqn:X; [pose proof (crashed_dead _ _ _ H _ _ Hk X); congruence|reflexivity]).
  destruct (ctl_step _ _ _ _ _ b R Hc) as (b' & e & Hs). unfold act, tstep. cbn [heap goto with_calls]. rewrite Hk. fold (ctl b). rewrite Hs. eexists _, _. split; [reflexivity|]. cbn. rewrite upd_length. split; [reflexivity|]. split; [reflexivity|]. split; [reflexivity|].
  intros -> x Hx. right. apply in_or_app. right. exact Hx.
Qed.
Lemma no_write_upd s j p : writing s = false -> (forall w, p <> PWrite w) -> existsb (fun p => match p with PWrite _ => true | _ => false end) (upd (calls s) j p) = false.
Proof.
  unfold writing. intros W N. destruct (existsb _ (upd (calls s) j p)) eqn:E; [|reflexivity]. apply existsb_exists in E as (x & Hx & Px). apply in_upd in Hx as [->|Hx]; [destruct p; try discriminate; destruct (N w); reflexivity|].
  assert (Y : existsb (fun p => match p with PWrite _ => true | _ => false end) (calls s) = true) by (apply existsb_exists; eauto). congruence.
Qed.
Lemma remove_shorter (l : list nat) x : In x l -> length (remove Nat.eq_dec x l) < length l.
Proof.
  induction l as [|a l IH]; intros H; [destruct H|]. cbn. destruct (Nat.eq_dec x a) as [->|N]; [pose proof (remove_length_le Nat.eq_dec l a) as L; cbn; lia|]. cbn. destruct H as [H|H]; [congruence|]. specialize (IH H). lia.
Qed.
Lemma loop_ends n : forall s j b todo seen, ok_state s -> dead s = false -> writing s = false -> length todo <= n -> nth_error (calls s) j = Some (PLoop b todo seen) -> can_end s j.
Proof.
  induction n as [|n IH]; intros s j b todo seen K D W L Hj.
  - destruct todo as [|x todo]; [|cbn in L; lia]. eapply (end_ret _ (LStep j)); [unfold step; rewrite D, Hj; unfold read; rewrite W; reflexivity|exact I|now left].
  - destruct todo as [|id todo]; [eapply (end_ret _ (LStep j)); [unfold step; rewrite D, Hj; unfold read; rewrite W; reflexivity|exact I|now left]|].
    assert (HT : TI s) by (destruct K as (? & ? & ?); eapply ti_reach; eauto). destruct (HT _ _ Hj id (or_introl eq_refl)) as [G Ns]. destruct (get id (tmap s)) as [k|] eqn:Gk; [clear G|congruence].
    assert (S1 : step s (LNext j id) = Some (goto s j (PItem b k (remove Nat.eq_dec id (id :: todo)) (id :: seen)), [VLook j id (Some k)])).
    { unfold step. rewrite D, Hj. destruct (in_dec Nat.eq_dec id seen); [contradiction|]. rewrite Gk. unfold read. now rewrite W. }
    pose proof (ok_next _ _ _ _ K S1) as K1. eapply end_step; [exact S1|exact I|].
    set (td := remove Nat.eq_dec id (id :: todo)) in *. assert (Ltd : length td <= n) by (pose proof (remove_shorter (id :: todo) id (or_introl eq_refl)) as R; change (length td < length (id :: todo)) in R; cbn [length] in L, R; lia).
    set (s1 := goto s j (PItem b k td (id :: seen))) in *.
    assert (Hj1 : nth_error (calls s1) j = Some (PItem b k td (id :: seen))) by (cbn; apply nth_upd_eq; eapply some_lt; eauto).
    assert (Lk : k < length (heap s1)). { destruct K1 as (sc & ev & R1). assert (D1 : dead s1 = false) by exact D. exact (i_use _ _ (inv_reach _ _ _ R1 D1) j _ k Hj1 eq_refl). }
    destruct (act_enabled s1 j b k (PLoop b td (id :: seen)) [] K1 D Lk) as (s2 & e2 & A & A1 & A2 & _).
    assert (S2 : step s1 (LStep j) = Some (s2, e2)) by (unfold step; change (dead s1) with (dead s); rewrite D, Hj1; exact A).
    destruct (dead s2) eqn:D2; [eapply end_dead; [exact S2|exact I|exact D2]|]. eapply end_step; [exact S2|exact I|].
    eapply IH; [eapply ok_next; eauto|exact D2| |exact Ltd|rewrite A1; apply nth_upd_eq; eapply some_lt; exact Hj1].
    unfold writing. rewrite A1. apply no_write_upd; [|discriminate]. unfold writing, s1. cbn [calls goto with_calls]. apply no_write_upd; [exact W|discriminate].
Qed.
Lemma sole_write s j w : ok_state s -> dead s = false -> nth_error (calls s) j = Some (PWrite w) ->
  step s (LStep j) = Some (mkS (heap s) (apply w (tmap s)) (map (drop w) (upd (calls s) j PDone)) false, [wev w; VRet j true]).
Proof.
  intros (sc & ev & R) D Hj. unfold step. rewrite D, Hj. destruct (writing (goto s j PDone)) eqn:W; [|reflexivity]. apply is_writing in W as (jw & w' & Hw).
  destruct (upd_case _ _ _ _ _ _ Hj Hw) as [[_ X]|[N Hw']]; [discriminate|]. destruct (N (i_lock _ _ (inv_reach _ _ _ R D) _ _ _ _ Hw' Hj)).
Qed.
Lemma have_ends s j b k : ok_state s -> dead s = false -> nth_error (calls s) j = Some (PHave b k) -> can_end s j.
Proof.
  intros K D Hj. assert (Lk : k < length (heap s)) by (destruct K as (sc & ev & R); exact (i_use _ _ (inv_reach _ _ _ R D) j _ k Hj eq_refl)).
  destruct (act_enabled s j b k PDone [VRet j true] K D Lk) as (s2 & e2 & A & _ & _ & _ & X). assert (S2 : step s (LStep j) = Some (s2, e2)) by (unfold step; rewrite D, Hj; exact A).
  destruct (dead s2) eqn:D2; [eapply end_dead; [exact S2|exact I|exact D2]|]. eapply end_ret; [exact S2|exact I|apply X; [reflexivity|now left]].
Qed.
Lemma quiet_ends s j p : ok_state s -> dead s = false -> writing s = false -> nth_error (calls s) j = Some p -> p <> PDone -> can_end s j.
Proof.
  intros K D W Hj Np. assert (Lj : j < length (calls s)) by (eapply some_lt; eauto). destruct p as [w|w|b id|b id|id|b k|b todo seen|b k todo seen|].
  - assert (S1 : step s (LStep j) = Some (goto s j (PWrite w), [])) by (unfold step; rewrite D, Hj, W; reflexivity). eapply end_step; [exact S1|exact I|].
    eapply (end_ret _ (LStep j)); [apply sole_write; [eapply ok_next; eauto|exact D|cbn; now apply nth_upd_eq]|exact I|right; now left].
  - destruct (not_writing _ _ _ W Hj).
  - destruct (get id (tmap s)) as [k|] eqn:G.
    + assert (S1 : step s (LStep j) = Some (goto s j (PLook2 b id), [VLook j id (Some k)])) by (unfold step; rewrite D, Hj; unfold read; rewrite W, G; reflexivity).
      eapply end_step; [exact S1|exact I|]. pose proof (ok_next _ _ _ _ K S1) as K1. set (s1 := goto s j (PLook2 b id)) in *. assert (W1 : writing s1 = false) by (apply no_write_upd; [exact W|discriminate]).
      assert (Hj1 : nth_error (calls s1) j = Some (PLook2 b id)) by (cbn; now apply nth_upd_eq).
      assert (S2 : step s1 (LStep j) = Some (goto s1 j (PHave b k), [VLook j id (Some k)])) by (unfold step; change (dead s1) with (dead s); rewrite D, Hj1; unfold read; rewrite W1; change (tmap s1) with (tmap s); rewrite G; reflexivity).
      eapply end_step; [exact S2|exact I|]. eapply (have_ends _ j b k); [eapply ok_next; eauto|exact D|]. cbn. apply nth_upd_eq. now rewrite upd_length.
    + eapply (end_ret _ (LStep j)); [unfold step; rewrite D, Hj; unfold read; rewrite W, G; reflexivity|exact I|right; now left].
  - destruct (get id (tmap s)) as [k|] eqn:G.
    + assert (S1 : step s (LStep j) = Some (goto s j (PHave b k), [VLook j id (Some k)])) by (unfold step; rewrite D, Hj; unfold read; rewrite W, G; reflexivity).
      eapply end_step; [exact S1|exact I|]. eapply (have_ends _ j b k); [eapply ok_next; eauto|exact D|cbn; now apply nth_upd_eq].
    + eapply (end_dead _ (LStep j)); [unfold step; rewrite D, Hj; unfold read; rewrite W, G; reflexivity|exact I|reflexivity].
  - destruct (get id (tmap s)) as [k|] eqn:G.
    + assert (S1 : step s (LStep j) = Some (goto s j (PHave false k), [VLook j id (Some k)])) by (unfold step; rewrite D, Hj; unfold read; rewrite W, G; reflexivity).
      eapply end_step; [exact S1|exact I|]. eapply (have_ends _ j false k); [eapply ok_next; eauto|exact D|cbn; now apply nth_upd_eq].
    + eapply (end_ret _ (LStep j)); [unfold step; rewrite D, Hj; unfold read; rewrite W, G; reflexivity|exact I|right; now left].
  - eapply have_ends; eauto.
  - eapply loop_ends; eauto.
  - assert (Lk : k < length (heap s)) by (destruct K as (sc & ev & R); exact (i_use _ _ (inv_reach _ _ _ R D) j _ k Hj eq_refl)).
    destruct (act_enabled s j b k (PLoop b todo seen) [] K D Lk) as (s2 & e2 & A & A1 & A2 & _). assert (S2 : step s (LStep j) = Some (s2, e2)) by (unfold step; rewrite D, Hj; exact A).
    destruct (dead s2) eqn:D2; [eapply end_dead; [exact S2|exact I|exact D2]|]. eapply end_step; [exact S2|exact I|]. eapply loop_ends; [eapply ok_next; eauto|exact D2| |reflexivity|rewrite A1; apply nth_upd_eq; exact Lj].
    unfold writing. rewrite A1. apply no_write_upd; [exact W|discriminate].
  - congruence.
Qed.
Lemma drop_pc w p : drop w p = p \/ (exists b t1 s1 t2 s2, p = PLoop b t1 s1 /\ drop w p = PLoop b t2 s2) \/ (exists b k t1 s1 t2 s2, p = PItem b k t1 s1 /\ drop w p = PItem b k t2 s2).
Proof. destruct w, p; cbn; auto; right; [left|right]; eauto 10. Qed.
Lemma ends sched s evs j c : run step init sched = Some (s, evs) -> dead s = false -> pending evs j c ->
  exists more s' evs', run step s more = Some (s', evs') /\ Forall own_work more /\ ((exists ok, In (VRet j ok) evs') \/ dead s' = true).
Proof.
  intros H D (P1 & P2). pose proof (inv_reach _ _ _ H D) as HI. assert (K : ok_state s) by (now exists sched, evs). change (can_end s j).
  assert (exists p, nth_error (calls s) j = Some p /\ p <> PDone) as (p & Hj & Np).
  { destruct (nth_error (calls s) j) as [p|] eqn:E; [|apply nth_error_None in E; apply (i_num _ _ HI) in P1; lia]. exists p. split; [reflexivity|]. intros ->. destruct (i_call _ _ HI _ _ E) as (c0 & _ & _ & [X _]). destruct (X eq_refl) as (ok & Y). exact (P2 ok Y). }
  destruct (writing s) eqn:W; [|eapply quiet_ends; eauto]. apply is_writing in W as (jw & w & Hw).
  assert (S1 : step s (LStep jw) = Some (mkS (heap s) (apply w (tmap s)) (map (drop w) (upd (calls s) jw PDone)) false, [wev w; VRet jw true])) by (now apply sole_write).
  destruct (Nat.eq_dec jw j) as [->|N]; [eapply (end_ret _ (LStep j)); [exact S1|exact I|right; now left]|].
  eapply end_step; [exact S1|exact I|]. eapply (quiet_ends _ j (drop w p)); [eapply ok_next; eauto|reflexivity| | |rewrite drop_done; exact Np].
  - unfold writing. cbn [calls]. destruct (existsb _ _) eqn:E; [|reflexivity]. apply existsb_exists in E as (x & Hx & Px). apply in_map_iff in Hx as (y & <- & Hy). destruct (drop w y) eqn:Dy; try discriminate. apply drop_write in Dy as ->.
    apply In_nth_error in Hy as (j2 & Hy). destruct (upd_case _ _ _ _ _ _ Hw Hy) as [[_ X]|[N2 Hy']]; [discriminate|]. destruct (N2 (i_lock _ _ HI _ _ _ _ Hy' Hw)).
  - cbn [calls]. rewrite nth_error_map, nth_upd_neq, Hj by exact N. reflexivity.
Qed.

(** ** A task that is not stopped goes on *)
Lemma move_stopped s s' e k : move s s' e -> In (VTask k TaskModel.EStopped) e -> exists j, In (VAct j k false) e.
Proof.
  intros M X.
  assert (T : forall b l b' f, TaskModel.step b l = Some (b', f) -> In TaskModel.EStopped f -> l = TaskModel.LStop).
  { intros b l b' f H Y. unfold TaskModel.step in H. destruct (TaskModel.crashed b); [discriminate|]. destruct l; auto; exfalso; repeat match type of H with
    | context [match ?x with _ => _ end] => destruct x eqn:?; try discriminate H
    | context [if ?x then _ else _] => destruct x eqn:?; try discriminate H end; injection H as <- <-; cbn in Y; intuition discriminate. }
  destruct M; repeat destruct X as [X|X]; try discriminate; try contradiction.
  - destruct w; discriminate.
  - pose proof X as X0. apply in_tail in X as [(y & X)|[X|[_ X]]]; try discriminate; [|apply (after_ret _ _ _ _ _ _ _ H0) in X; discriminate]. injection X as <- <-.
    apply in_app_or in X0 as [X0|X0]; [|exfalso; destruct (TaskModel.crashed b'); [destruct X0 as [X0|[]]; discriminate|apply (after_ret _ _ _ _ _ _ _ H0) in X0; discriminate]].
    apply in_map_iff in X0 as (z & Z & Y). injection Z as ->. apply (T _ _ _ _ H2) in Y. destruct b; [discriminate|]. exists j. now left.
  - exfalso. apply in_app_or in X as [X|X]; [|destruct (TaskModel.crashed b'); [destruct X as [X|[]]; discriminate|destruct X]].
    apply in_map_iff in X as (z & Z & Y). injection Z as <- ->. apply (T _ _ _ _ H2) in Y. apply (H0 false Y).
Qed.
Lemma in_task_events k e evs : In e (task_events k evs) -> In (VTask k e) evs.
Proof.
  induction evs as [|x r IH]; intros H; [destruct H|]. destruct x; cbn [task_events] in H; try (right; now apply IH). destruct (Nat.eqb_spec k0 k) as [->|]; [destruct H as [->|H]; [now left|]|]; right; now apply IH.
Qed.
Lemma not_stopped s sched s' evs k : run step s sched = Some (s', evs) -> (forall j b, ~ In (VAct j k b) evs) -> ~ In TaskModel.EStopped (task_events k evs).
Proof.
  intros H N X. apply in_task_events in X. apply in_split in X as (p & q & X). destruct (run_split _ _ _ _ _ _ _ _ H X) as (a & l & c & t & t' & e1 & p1 & q1 & e2 & -> & H1 & H2 & H3 & -> & ->).
  apply step_move in H2 as [_ M]. destruct (move_stopped _ _ _ k M) as (j & Y); [apply in_or_app; right; now left|]. apply (N j false). rewrite X, <- app_assoc. apply in_or_app. right. rewrite app_comm_cons, app_assoc. now apply in_app_l.
Qed.
Lemma running_on evs evs' k : TaskSpec.running_task (task_events k evs) -> ~ In TaskModel.EStopped (task_events k evs') -> TaskSpec.running_task (task_events k (evs ++ evs')).
Proof.
  intros (a & b & E & N) N'. exists a, (b ++ task_events k evs'). rewrite task_events_app, E, <- app_assoc. split; [reflexivity|]. intros X. apply in_app_or in X as [X|X]; auto.
Qed.
Lemma lost sched s evs k id isrun svc more s' evs' : run step init sched = Some (s, evs) -> dead s = false -> quiet evs -> made evs k id isrun true svc -> registered evs id <> Some k -> TaskSpec.running_task (task_events k evs) ->
  run step s more = Some (s', evs') -> (forall j, ~ In (VCall j (KAdd k)) evs') ->
  (forall j b, ~ In (VAct j k b) evs') /\
  (dead s' = false -> forall n, exists more2 s2 evs2, run step s' more2 = Some (s2, evs2) /\ Forall (task_work k) more2 /\ n <= TaskSpec.count_ev TaskSpec.began (task_events k evs2)).
Proof.
  intros H D Q M R Rn H' N. assert (NA : forall j b, ~ In (VAct j k b) evs') by (eapply gone_run; eauto; eapply quiet_gone; eauto). split; [exact NA|].
  intros D' n. eapply (goes_on (sched ++ more) s' (evs ++ evs')); [eapply run_app; eauto|exact D'|apply made_app; exact M|]. apply running_on; [exact Rn|]. eapply not_stopped; eauto.
Qed.
(** A task no call has started has never run. *)
Lemma began_started b1 b2 sched s evs i : run TaskModel.step (TaskModel.task b1 b2) sched = Some (s, evs) -> In (TaskModel.EBegin i) evs -> In TaskModel.EStarted evs.
Proof.
  intros H X. apply in_split in X as (p & q & X). destruct (run_split _ _ _ _ _ _ _ _ H X) as (a & l & c & t & t' & e1 & p1 & q1 & e2 & -> & H1 & H2 & H3 & -> & ->).
  apply task_shape in H1 as (_ & _ & _ & _ & _ & S). rewrite X, <- app_assoc. apply in_app_l. apply S. intros L. unfold TaskModel.step in H2. destruct (TaskModel.crashed t); [discriminate|].
  assert (Y : In (TaskModel.EBegin i) (p1 ++ TaskModel.EBegin i :: q1)) by (apply in_or_app; right; now left). rewrite L in H2.
  destruct l as [| |i0|i0 p0|i0|i0|k0]; try (destruct i0; discriminate);
  repeat match type of H2 with
    | context [match ?x with _ => _ end] => destruct x eqn:?; try discriminate H2
    | context [if ?x then _ else _] => destruct x eqn:?; try discriminate H2 end; injection H2 as _ H2; rewrite <- H2 in Y; cbn in Y; intuition discriminate.
Qed.
Lemma never_started sched s evs k id isrun p svc i : run step init sched = Some (s, evs) -> made evs k id isrun p svc -> In (TaskModel.EBegin i) (task_events k evs) -> p = true /\ In true (acts k evs).
Proof.
  intros H M X. destruct (project _ _ _ _ _ _ _ _ H M) as (t & ts & _ & _ & Hp & R & C & F). split.
  - destruct p; [reflexivity|]. exfalso. clear C. specialize (F eq_refl).
    assert (G : forall ts s evs, run TaskModel.step (TaskModel.task isrun svc) ts = Some (s, evs) -> (forall i, ~ In (TaskModel.LFire i) ts) -> (forall i p, nth_error (TaskModel.loops s) i = Some p -> p = TaskModel.PDue) /\ forall i, ~ In (TaskModel.EBegin i) evs).
    { clear. apply (run_inv TaskModel.step (TaskModel.task isrun svc) (fun ts evs s => (forall i, ~ In (TaskModel.LFire i) ts) -> (forall i p, nth_error (TaskModel.loops s) i = Some p -> p = TaskModel.PDue) /\ forall i, ~ In (TaskModel.EBegin i) evs)).
      - intros _. split; [intros i p H; destruct i; discriminate|intros i []].
      - intros ts evs s l s' e _ IH H N. destruct IH as [A B]; [intros i X; apply (N i), in_or_app; auto|]. unfold TaskModel.step in H. destruct (TaskModel.crashed s); [discriminate|].
        destruct l as [| |i0|i0 p0|i0|i0|k0].
        + destruct (negb (TaskModel.isrun s)); [injection H as <- <-; rewrite app_nil_r; auto|]. destruct (TaskModel.st s); injection H as <- <-; rewrite ?app_nil_r; auto.
          all: split; [cbn; intros i p Hi; destruct (snoc_case _ _ _ _ Hi) as [[_ ->]|[_ X]]; eauto|intros i X; apply in_app_or in X as [X|[X|[]]]; [exact (B _ X)|discriminate]].
        + destruct (negb (TaskModel.isrun s)); [injection H as <- <-; rewrite app_nil_r; auto|]. destruct (TaskModel.st s); try (injection H as <- <-; rewrite ?app_nil_r; auto; fail).
          destruct (TaskModel.cur s); [destruct (nth_error (TaskModel.ticks s) n); [|discriminate]|]; injection H as <- <-; (split; [exact A|intros i X; apply in_app_or in X as [X|[X|[]]]; [exact (B _ X)|discriminate]]).
        + destruct (N i0). apply in_or_app. right. now left.
        + destruct (nth_error (TaskModel.loops s) i0) as [q|] eqn:E; [|discriminate]. rewrite (A _ _ E) in H. discriminate.
        + destruct (nth_error (TaskModel.loops s) i0) as [q|] eqn:E; [|discriminate]. rewrite (A _ _ E) in H. discriminate.
        + destruct (nth_error (TaskModel.loops s) i0) as [q|] eqn:E; [|discriminate]. rewrite (A _ _ E) in H. discriminate.
        + destruct (nth_error (TaskModel.ticks s) k0) as [[[|] f]|]; try discriminate. injection H as <- <-. rewrite app_nil_r. auto. }
    destruct (G _ _ _ R F) as [_ B]. exact (B _ X).
  - rewrite <- C. eapply started_acts; [exact R|]. eapply began_started; eauto.
Qed.
