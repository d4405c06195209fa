(** Proofs about the timer service. *)
From Coq Require Import List Arith Bool Lia.
From Verif Require Import Machine MachineMore ServiceModel ServiceSpec.
From Verif Require TaskModel TaskSpec TaskProofs TaskLive.
Import ListNotations.

(** ** Maps and events *)
Lemma get_del id id' m : get id (del id' m) = if Nat.eqb id' id then None else get id m.
Proof.
  unfold del. induction m as [|[a k] m IH]; [destruct (Nat.eqb id' id); reflexivity|]. cbn [filter fst].
  destruct (Nat.eqb_spec a id') as [->|N]; cbn [negb get].
  - rewrite IH. destruct (Nat.eqb_spec id' id) as [->|]; reflexivity.
  - rewrite IH. destruct (Nat.eqb_spec a id) as [->|]; [|reflexivity]. destruct (Nat.eqb_spec id' id) as [->|]; [contradiction|reflexivity].
Qed.
Lemma get_put id id' k m : get id (put id' k m) = if Nat.eqb id' id then Some k else get id m.
Proof. unfold put. cbn [get]. rewrite get_del. destruct (Nat.eqb id' id); reflexivity. Qed.
Lemma reg_app id a b d : reg id (a ++ b) d = reg id b (reg id a d).
Proof. revert d. induction a as [|x a IH]; intros d; [reflexivity|]. destruct x; cbn [app reg]; apply IH. Qed.
Lemma registered_app a b id : registered (a ++ b) id = reg id b (registered a id).
Proof. apply reg_app. Qed.
Lemma reg_none id e d : (forall k, ~ In (VPut id k) e) -> ~ In (VDel id) e -> reg id e d = d.
Proof.
  revert d. induction e as [|x e IH]; intros d H1 H2; [reflexivity|].
  assert (G : forall d, reg id e d = d) by (intros; apply IH; [intros k X; apply (H1 k); now right|intros X; apply H2; now right]).
  destruct x; cbn [reg]; rewrite ?G; try reflexivity.
  - destruct (Nat.eqb_spec id0 id) as [->|]; [destruct (H1 k); now left|reflexivity].
  - destruct (Nat.eqb_spec id0 id) as [->|]; [destruct H2; now left|reflexivity].
Qed.
Lemma reg_tasks id k e d r : reg id (map (VTask k) e ++ r) d = reg id r d.
Proof. induction e as [|x e IH]; [reflexivity|exact IH]. Qed.
Lemma task_events_app k a b : task_events k (a ++ b) = task_events k a ++ task_events k b.
Proof. induction a as [|x a IH]; [reflexivity|]. destruct x; cbn [app task_events]; try exact IH. destruct (Nat.eqb k0 k); cbn [app]; now rewrite IH. Qed.
Lemma acts_app k a b : acts k (a ++ b) = acts k a ++ acts k b.
Proof. induction a as [|x a IH]; [reflexivity|]. destruct x; cbn [app acts]; try exact IH. destruct (Nat.eqb k0 k); cbn [app]; now rewrite IH. Qed.
Lemma task_events_map k e : task_events k (map (VTask k) e) = e.
Proof. induction e as [|x e IH]; [reflexivity|]. cbn. rewrite Nat.eqb_refl. now rewrite IH. Qed.
Lemma task_events_map_other k k' e : k' <> k -> task_events k (map (VTask k') e) = [].
Proof. intros N. induction e as [|x e IH]; [reflexivity|]. cbn. destruct (Nat.eqb_spec k' k); [contradiction|exact IH]. Qed.
Lemma acts_map k k' e : acts k (map (VTask k') e) = [].
Proof. induction e as [|x e IH]; [reflexivity|exact IH]. Qed.
Lemma controls_app a b : controls (a ++ b) = controls a ++ controls b.
Proof. induction a as [|x a IH]; [reflexivity|]. destruct x; cbn; now rewrite ?IH. Qed.
Lemma acts_in k j b evs : In (VAct j k b) evs -> In b (acts k evs).
Proof.
  induction evs as [|x r IH]; intros H; [destruct H|]. destruct H as [->|H]; [cbn; rewrite Nat.eqb_refl; now left|].
  destruct x; cbn [acts]; auto. destruct (Nat.eqb k0 k); [right|]; auto.
Qed.

(** ** The steps *)
Definition reads (p : pc) : Prop := match p with PLook1 _ _ | PLook2 _ _ | PStop _ | PLoop _ _ _ => True | _ => False end.
Definition races (p : pc) : Prop := reads p \/ exists w, p = PWrite w.
Inductive begins (s : state) : call -> pc -> Prop :=
| BAdd k t : nth_error (heap s) k = Some t -> begins s (KAdd k) (PLock (WPut (name t) k))
| BRemove id : begins s (KRemove id) (PLock (WDel id))
| BOne b id : begins s (KOne b id) (PLook1 b id)
| BStop id : begins s (KStop id) (PStop id)
| BAll b : begins s (KAll b) (PLoop b (map fst (tmap s)) []).
Definition wev (w : write) : event := match w with WPut id k => VPut id k | WDel id => VDel id end.
Definition ctl (b : bool) : TaskModel.label := if b then TaskModel.LStart else TaskModel.LStop.
Inductive after (j : nat) (b : bool) (k : nat) : pc -> pc -> list event -> Prop :=
| AOne : after j b k (PHave b k) PDone [VRet j true]
| AItem todo seen : after j b k (PItem b k todo seen) (PLoop b todo seen) [].
Inductive move (s : state) : state -> list event -> Prop :=
| MNew id isrun p svc : move s (mkS (heap s ++ [mkI id p (TaskModel.task isrun svc)]) (tmap s) (calls s ++ [PLock (WPut id (length (heap s)))]) false)
    [VCall (length (calls s)) (KNew id isrun p svc); VMade (length (calls s)) (length (heap s))]
| MCall c p : begins s c p -> move s (with_calls s (calls s ++ [p])) [VCall (length (calls s)) c]
| MLock j w : nth_error (calls s) j = Some (PLock w) -> writing s = false -> move s (goto s j (PWrite w)) []
| MWrite j w : nth_error (calls s) j = Some (PWrite w) ->
    move s (mkS (heap s) (apply w (tmap s)) (map (drop w) (upd (calls s) j PDone)) false) [wev w; VRet j true]
| MOverlap j p jw w : nth_error (calls s) j = Some p -> races p -> jw <> j -> nth_error (calls s) jw = Some (PWrite w) -> move s (kill s) [VCrash COverlap]
| MLook1 j b id k : nth_error (calls s) j = Some (PLook1 b id) -> get id (tmap s) = Some k -> move s (goto s j (PLook2 b id)) [VLook j id (Some k)]
| MLook2 j b id k : nth_error (calls s) j = Some (PLook2 b id) -> get id (tmap s) = Some k -> move s (goto s j (PHave b k)) [VLook j id (Some k)]
| MLook3 j id k : nth_error (calls s) j = Some (PStop id) -> get id (tmap s) = Some k -> move s (goto s j (PHave false k)) [VLook j id (Some k)]
| MNone j b id : nth_error (calls s) j = Some (PLook1 b id) -> get id (tmap s) = None -> move s (goto s j PDone) [VLook j id None; VRet j true]
| MErr j id : nth_error (calls s) j = Some (PStop id) -> get id (tmap s) = None -> move s (goto s j PDone) [VLook j id None; VRet j false]
| MNil j b id : nth_error (calls s) j = Some (PLook2 b id) -> get id (tmap s) = None -> move s (kill s) [VLook j id None; VCrash CNil]
| MEnd j b seen : nth_error (calls s) j = Some (PLoop b [] seen) -> move s (goto s j PDone) [VRet j true]
| MNext j b id k todo seen : nth_error (calls s) j = Some (PLoop b todo seen) -> ~ In id seen -> get id (tmap s) = Some k ->
    move s (goto s j (PItem b k (remove Nat.eq_dec id todo) (id :: seen))) [VLook j id (Some k)]
| MAct j b k p p' ret t b' e : nth_error (calls s) j = Some p -> after j b k p p' ret -> nth_error (heap s) k = Some t -> TaskModel.step (body t) (ctl b) = Some (b', e) ->
    move s (mkS (upd (heap s) k (mkI (name t) (pos t) b')) (tmap s) (upd (calls s) j p') (TaskModel.crashed b'))
      (VAct j k b :: map (VTask k) e ++ (if TaskModel.crashed b' then [VCrash CTask] else ret))
| MTask k t l b' e : nth_error (heap s) k = Some t -> (forall b, l <> ctl b) -> (forall i, l = TaskModel.LFire i -> pos t = true) -> TaskModel.step (body t) l = Some (b', e) ->
    move s (mkS (upd (heap s) k (mkI (name t) (pos t) b')) (tmap s) (calls s) (TaskModel.crashed b')) (map (VTask k) e ++ (if TaskModel.crashed b' then [VCrash CTask] else []))
| MInterval k t i : nth_error (heap s) k = Some t -> pos t = false -> nth_error (TaskModel.loops (body t)) i = Some TaskModel.PDue -> move s (kill s) [VCrash CInterval].

Lemma act_move s j b k p p' ret s' e : nth_error (calls s) j = Some p -> after j b k p p' ret -> act s j b k p' ret = Some (s', e) -> move s s' e.
Proof.
  intros Hj Ha H. unfold act, tstep in H. cbn [heap goto with_calls] in H. destruct (nth_error (heap s) k) as [t|] eqn:Ek; [|discriminate].
  fold (ctl b) in H. destruct (TaskModel.step (body t) (ctl b)) as [[b' f]|] eqn:Et; [|discriminate]. injection H as <- <-. cbn [dead tmap calls goto with_calls].
  rewrite <- app_assoc. replace ((if TaskModel.crashed b' then [VCrash CTask] else []) ++ (if TaskModel.crashed b' then [] else ret)) with (if TaskModel.crashed b' then [VCrash CTask] else ret) by (destruct (TaskModel.crashed b'); reflexivity).
  eapply MAct; eassumption.
Qed.
Lemma not_writing s j w : writing s = false -> nth_error (calls s) j <> Some (PWrite w).
Proof.
  unfold writing. intros H E. assert (X : existsb (fun p => match p with PWrite _ => true | _ => false end) (calls s) = true); [|congruence].
  apply existsb_exists. exists (PWrite w). split; [eapply nth_error_In; eassumption|reflexivity].
Qed.
Lemma is_writing s : writing s = true -> exists j w, nth_error (calls s) j = Some (PWrite w).
Proof.
  unfold writing. intros H. apply existsb_exists in H as (p & Hin & Hp). destruct p; try discriminate. apply In_nth_error in Hin as (j & Hj). eauto.
Qed.
Lemma upd_case {A} (l : list A) t c x k y : nth_error l t = Some c -> nth_error (upd l t x) k = Some y -> (k = t /\ y = x) \/ (k <> t /\ nth_error l k = Some y).
Proof.
  intros H1 H2. destruct (Nat.eq_dec t k) as [->|N]; [left|right; rewrite nth_upd_neq in H2 by exact N; auto].
  rewrite nth_upd_eq in H2 by (apply nth_error_Some; congruence). split; congruence.
Qed.
Lemma over_read s j p : nth_error (calls s) j = Some p -> reads p -> writing s = true -> move s (kill s) [VCrash COverlap].
Proof. intros Hj R W. apply is_writing in W as (jw & w & Hw). eapply MOverlap; [exact Hj|now left| |exact Hw]. intros ->. rewrite Hj in Hw. injection Hw as ->. destruct R. Qed.
Lemma step_move s l s' e : step s l = Some (s', e) -> dead s = false /\ move s s' e.
Proof.
  unfold step. destruct (dead s) eqn:Hd; [discriminate|]. intros H. split; [reflexivity|]. destruct l as [c|j|j id|k l].
  - destruct c as [id i p sv|k|id|b id|id|b].
    + injection H as <- <-. constructor.
    + destruct (nth_error (heap s) k) as [t|] eqn:E; [|discriminate]. injection H as <- <-. constructor. now constructor.
    + injection H as <- <-. constructor. constructor.
    + injection H as <- <-. constructor. constructor.
    + injection H as <- <-. constructor. constructor.
    + injection H as <- <-. constructor. constructor.
  - destruct (nth_error (calls s) j) as [[w|w|b id|b id|id|b k|b [|x todo] seen|b k todo seen|]|] eqn:E; try discriminate.
    + destruct (writing s) eqn:W; [discriminate|]. injection H as <- <-. now constructor.
    + destruct (writing (goto s j PDone)) eqn:W; injection H as <- <-; [|now apply (MWrite s j w)]. apply is_writing in W as (jw & w' & Hw). destruct (upd_case _ _ _ _ _ _ E Hw) as [[_ X]|[N Hw']]; [discriminate|]. eapply MOverlap; [exact E|right; eauto|exact N|exact Hw'].
    + unfold read in H. destruct (writing s) eqn:W; [injection H as <- <-; exact (over_read _ _ _ E I W)|].
      destruct (get id (tmap s)) as [k|] eqn:G; injection H as <- <-; econstructor; eassumption.
    + unfold read in H. destruct (writing s) eqn:W; [injection H as <- <-; exact (over_read _ _ _ E I W)|].
      destruct (get id (tmap s)) as [k|] eqn:G; injection H as <- <-; econstructor; eassumption.
    + unfold read in H. destruct (writing s) eqn:W; [injection H as <- <-; exact (over_read _ _ _ E I W)|].
      destruct (get id (tmap s)) as [k|] eqn:G; injection H as <- <-; econstructor; eassumption.
    + eapply act_move; [exact E|constructor|exact H].
    + unfold read in H. destruct (writing s) eqn:W; injection H as <- <-; [exact (over_read _ _ _ E I W)|]. econstructor; eassumption.
    + eapply act_move; [exact E|constructor|exact H].
  - destruct (nth_error (calls s) j) as [[w|w|b id'|b id'|id'|b k|b todo seen|b k todo seen|]|] eqn:E; try discriminate.
    destruct (in_dec Nat.eq_dec id seen) as [|N]; [discriminate|]. destruct (get id (tmap s)) as [k|] eqn:G; [|discriminate].
    unfold read in H. destruct (writing s) eqn:W; injection H as <- <-; [exact (over_read _ _ _ E I W)|]. eapply MNext; eassumption.
  - assert (T : (forall b, l <> ctl b) -> (forall i t, nth_error (heap s) k = Some t -> l = TaskModel.LFire i -> pos t = true) -> tstep s k l = Some (s', e) -> move s s' e).
    { intros Hl Hp H0. unfold tstep in H0. destruct (nth_error (heap s) k) as [t|] eqn:Ek; [|discriminate]. destruct (TaskModel.step (body t) l) as [[b' f]|] eqn:Et; [|discriminate].
      injection H0 as <- <-. eapply MTask; try eassumption. intros i Hi. eapply Hp; eauto. }
    destruct l as [| |i| | | |]; try discriminate; try (apply T; [intros []; discriminate|intros; discriminate|exact H]).
    destruct (nth_error (heap s) k) as [t|] eqn:Ek; [|discriminate]. destruct (nth_error (TaskModel.loops (body t)) i) as [[| | |]|] eqn:El; try discriminate.
    destruct (pos t) eqn:P; [|injection H as <- <-; eapply MInterval; eassumption].
    apply T; [intros []; discriminate|intros i' t' X _; congruence|exact H].
Qed.

(** ** The invariant *)
Definition looked (evs : list event) (j id k : nat) : Prop := exists a b, evs = a ++ VLook j id (Some k) :: b /\ registered a id = Some k.
Definition okp (evs : list event) (j : nat) (c : call) (p : pc) : Prop :=
  match p with
  | PLock w | PWrite w => changes c
  | PLook1 b id | PLook2 b id => c = KOne b id
  | PStop id => c = KStop id
  | PHave b k => exists id, (c = KOne b id \/ c = KStop id /\ b = false) /\ looked evs j id k
  | PLoop b _ _ => c = KAll b
  | PItem b k _ _ => c = KAll b /\ exists id, looked evs j id k
  | PDone => True
  end.
(** The tasks a call may still use. *)
Definition uses (p : pc) (k : nat) : Prop := match p with PLock (WPut _ k') | PWrite (WPut _ k') | PHave _ k' | PItem _ k' _ _ => k' = k | _ => False end.
Definition puts (p : pc) (id k : nat) : Prop := p = PLock (WPut id k) \/ p = PWrite (WPut id k).
Record Inv (evs : list event) (s : state) : Prop := mkInv {
  i_map : forall id, get id (tmap s) = registered evs id;
  i_call : forall j p, nth_error (calls s) j = Some p -> exists c, In (VCall j c) evs /\ okp evs j c p /\ (p = PDone <-> exists ok, In (VRet j ok) evs);
  i_num : forall j c, In (VCall j c) evs -> j < length (calls s);
  i_one : forall j c c', In (VCall j c) evs -> In (VCall j c') evs -> c = c';
  i_ret : forall j ok, In (VRet j ok) evs -> j < length (calls s);
  i_heap : forall k t, nth_error (heap s) k = Some t -> exists isrun svc, made evs k (name t) isrun (pos t) svc;
  i_made : forall j k, In (VMade j k) evs -> k < length (heap s);
  i_use : forall j p k, nth_error (calls s) j = Some p -> uses p k -> k < length (heap s);
  i_reg : forall id k, get id (tmap s) = Some k -> exists t, nth_error (heap s) k = Some t /\ name t = id;
  i_put : forall j p id k, nth_error (calls s) j = Some p -> puts p id k -> exists t, nth_error (heap s) k = Some t /\ name t = id;
  i_lock : forall j j' w w', nth_error (calls s) j = Some (PWrite w) -> nth_error (calls s) j' = Some (PWrite w') -> j = j' }.

Lemma looked_app evs e j id k : looked evs j id k -> looked (evs ++ e) j id k.
Proof. intros (a & b & -> & H). exists a, (b ++ e). rewrite <- app_assoc. auto. Qed.
Lemma okp_app evs e j c p : okp evs j c p -> okp (evs ++ e) j c p.
Proof. destruct p; cbn; auto; [intros (id & H & L)|intros [H (id & L)]]; [exists id|split; [exact H|exists id]]; auto using looked_app. Qed.
Lemma okp_drop evs j c w p : okp evs j c p -> okp evs j c (drop w p).
Proof. destruct w; [destruct p; auto|]. destruct p; cbn; auto. Qed.
Lemma made_app evs e k id a b c : made evs k id a b c -> made (evs ++ e) k id a b c.
Proof. intros (j & H1 & H2). exists j. split; apply in_or_app; auto. Qed.
Lemma drop_done w p : drop w p = PDone <-> p = PDone.
Proof. destruct w, p; cbn; split; intros H; congruence. Qed.
Lemma snoc_case {A} (l : list A) x k y : nth_error (l ++ [x]) k = Some y -> (k = length l /\ y = x) \/ (k < length l /\ nth_error l k = Some y).
Proof.
  intros H. destruct (Nat.lt_ge_cases k (length l)) as [L|L]; [right; rewrite nth_error_app1 in H by exact L; auto|]. rewrite nth_error_app2 in H by exact L.
  destruct (k - length l) as [|n] eqn:E; [left; split; [lia|cbn in H; congruence]|]. cbn in H. destruct n; discriminate.
Qed.
Lemma some_lt {A} (l : list A) k x : nth_error l k = Some x -> k < length l.
Proof. intros H. apply nth_error_Some. congruence. Qed.
Lemma nth_snoc {A} (l : list A) x t y : nth_error l t = Some y -> nth_error (l ++ [x]) t = Some y.
Proof. intros H. rewrite nth_error_app1; [exact H|]. eapply some_lt; eassumption. Qed.

(** No events that count. *)
Definition plain (e : list event) : Prop := forall x, In x e -> match x with VCall _ _ | VMade _ _ | VPut _ _ | VDel _ | VRet _ _ => False | _ => True end.
Lemma plain_reg e : plain e -> forall id d, reg id e d = d.
Proof. intros H id d. apply reg_none; [intros k X|intros X]; exact (H _ X). Qed.
Lemma no_calls evs s : Inv evs s -> forall j c, In (VCall j c) evs -> length (calls s) <= j -> False.
Proof. intros HI j c H L. apply (i_num _ _ HI) in H. lia. Qed.

(** A call j goes on from p to p', with events that may end it. *)
Lemma inv_goto evs s j p p' e : Inv evs s -> nth_error (calls s) j = Some p -> p <> PDone -> (forall w, p' <> PWrite w) ->
  (forall c, In (VCall j c) evs -> okp evs j c p -> okp (evs ++ e) j c p') ->
  (forall k, uses p' k -> uses p k \/ exists id, get id (tmap s) = Some k) -> (forall id k, puts p' id k -> puts p id k) ->
  (p' = PDone /\ (exists e0 ok, e = e0 ++ [VRet j ok] /\ plain e0)) \/ (p' <> PDone /\ plain e) -> Inv (evs ++ e) (goto s j p').
Proof.
  intros HI Hj Hp Hw Hok Hu Hpt He.
  assert (Hin : forall x, In x e -> match x with VCall _ _ | VMade _ _ | VPut _ _ | VDel _ => False | VRet j' _ => j' = j | _ => True end).
  { destruct He as [(_ & e0 & ok & -> & P)|(_ & P)]; intros x Hx; [apply in_app_or in Hx as [Hx|[<-|[]]]; [|exact eq_refl]|]; specialize (P _ Hx); destruct x; tauto. }
  constructor; cbn [heap tmap calls goto with_calls].
  - intros id. rewrite registered_app, (i_map _ _ HI). symmetry. apply reg_none; [intros k X|intros X]; exact (Hin _ X).
  - intros j' q Hq. destruct (upd_case _ _ _ _ _ _ Hj Hq) as [[-> ->]|[N Hq']].
    + destruct (i_call _ _ HI _ _ Hj) as (c & C1 & C2 & C3). exists c. split; [apply in_or_app; auto|]. split; [auto|]. destruct He as [(-> & e0 & ok & -> & P)|(Hd & P)].
      * split; [intros _; exists ok; apply in_or_app; right; apply in_or_app; right; now left|reflexivity].
      * split; [contradiction|]. intros (ok & X). apply in_app_or in X as [X|X]; [destruct Hp; apply C3; eauto|destruct (P _ X)].
    + destruct (i_call _ _ HI _ _ Hq') as (c & C1 & C2 & C3). exists c. split; [apply in_or_app; auto|]. split; [now apply okp_app|]. rewrite C3. split; intros (ok & X).
      * exists ok. apply in_or_app; auto.
      * apply in_app_or in X as [X|X]; [eauto|]. destruct (N (Hin _ X)).
  - intros j' c X. rewrite upd_length. apply in_app_or in X as [X|X]; [eapply i_num; eauto|destruct (Hin _ X)].
  - intros j' c c' X Y. apply in_app_or in X as [X|X]; [|destruct (Hin _ X)]. apply in_app_or in Y as [Y|Y]; [|destruct (Hin _ Y)]. eapply i_one; eauto.
  - intros j' ok X. rewrite upd_length. apply in_app_or in X as [X|X]; [eapply i_ret; eauto|]. rewrite (Hin _ X). eapply some_lt; eauto.
  - intros k t Hk. destruct (i_heap _ _ HI _ _ Hk) as (a & b & M). eauto using made_app.
  - intros j' k X. apply in_app_or in X as [X|X]; [eapply i_made; eauto|destruct (Hin _ X)].
  - intros j' q k Hq Hk. destruct (upd_case _ _ _ _ _ _ Hj Hq) as [[-> ->]|[N Hq']]; [|eapply i_use; eauto].
    destruct (Hu _ Hk) as [U|(id & G)]; [exact (i_use _ _ HI j p k Hj U)|]. destruct (i_reg _ _ HI _ _ G) as (t & T & _). eapply some_lt; eauto.
  - intros id k G. exact (i_reg _ _ HI _ _ G).
  - intros j' q id k Hq Hk. destruct (upd_case _ _ _ _ _ _ Hj Hq) as [[-> ->]|[N Hq']]; [|eapply i_put; eauto]. exact (i_put _ _ HI j p id k Hj (Hpt _ _ Hk)).
  - intros j1 j2 w w' H1 H2. destruct (upd_case _ _ _ _ _ _ Hj H1) as [[_ X]|[_ X]]; [destruct (Hw w); congruence|].
    destruct (upd_case _ _ _ _ _ _ Hj H2) as [[_ Y]|[_ Y]]; [destruct (Hw w'); congruence|]. eapply i_lock; eauto.
Qed.
(** Steps of a task. *)
Lemma inv_task evs s k t b' d e : Inv evs s -> nth_error (heap s) k = Some t -> plain e ->
  Inv (evs ++ e) (mkS (upd (heap s) k (mkI (name t) (pos t) b')) (tmap s) (calls s) d).
Proof.
  intros HI Hk P.
  assert (K : forall k' t', nth_error (heap s) k' = Some t' -> exists t'', nth_error (upd (heap s) k (mkI (name t) (pos t) b')) k' = Some t'' /\ name t'' = name t').
  { intros k' t' H. destruct (Nat.eq_dec k k') as [<-|N]; [|exists t'; rewrite nth_upd_neq by exact N; auto]. rewrite nth_upd_eq by (eapply some_lt; eauto). eexists. split; [reflexivity|]. cbn. congruence. }
  constructor; cbn [heap tmap calls].
  - intros id. rewrite registered_app, (plain_reg _ P). apply (i_map _ _ HI).
  - intros j p Hp. destruct (i_call _ _ HI _ _ Hp) as (c & C1 & C2 & C3). exists c. split; [apply in_or_app; auto|]. split; [now apply okp_app|]. rewrite C3. split; intros (ok & X); [exists ok; apply in_or_app; auto|].
    apply in_app_or in X as [X|X]; [eauto|destruct (P _ X)].
  - intros j c X. apply in_app_or in X as [X|X]; [eapply i_num; eauto|destruct (P _ X)].
  - intros j c c' X Y. apply in_app_or in X as [X|X]; [|destruct (P _ X)]. apply in_app_or in Y as [Y|Y]; [|destruct (P _ Y)]. eapply i_one; eauto.
  - intros j ok X. apply in_app_or in X as [X|X]; [eapply i_ret; eauto|destruct (P _ X)].
  - intros k' t' H. destruct (upd_case _ _ _ _ _ _ Hk H) as [[-> ->]|[N H']].
    + destruct (i_heap _ _ HI _ _ Hk) as (a & b & M). cbn. eauto using made_app.
    + destruct (i_heap _ _ HI _ _ H') as (a & b & M). eauto using made_app.
  - intros j k' X. rewrite upd_length. apply in_app_or in X as [X|X]; [eapply i_made; eauto|destruct (P _ X)].
  - intros j p k' Hp U. rewrite upd_length. eapply i_use; eauto.
  - intros id k' G. destruct (i_reg _ _ HI _ _ G) as (t' & T & <-). destruct (K _ _ T) as (t'' & ? & ?). eauto.
  - intros j p id k' Hp U. destruct (i_put _ _ HI _ _ _ _ Hp U) as (t' & T & <-). destruct (K _ _ T) as (t'' & ? & ?). eauto.
  - exact (i_lock _ _ HI).
Qed.
Lemma uses_drop w p k : uses (drop w p) k -> uses p k.
Proof. destruct w, p; cbn; auto. Qed.
Lemma puts_drop w p id k : puts (drop w p) id k -> puts p id k.
Proof. destruct w, p; cbn; auto; intros [H|H]; discriminate. Qed.
Lemma drop_write w p w' : drop w p = PWrite w' -> p = PWrite w'.
Proof. destruct w, p; cbn; auto; discriminate. Qed.
(** A change of the map. *)
Lemma inv_write evs s j w : Inv evs s -> nth_error (calls s) j = Some (PWrite w) ->
  Inv (evs ++ [wev w; VRet j true]) (mkS (heap s) (apply w (tmap s)) (map (drop w) (upd (calls s) j PDone)) false).
Proof.
  intros HI Hj.
  assert (NC : forall j' c, ~ In (VCall j' c) [wev w; VRet j true]) by (intros j' c [X|[X|[]]]; [destruct w|]; discriminate).
  assert (NM : forall j' c, ~ In (VMade j' c) [wev w; VRet j true]) by (intros j' c [X|[X|[]]]; [destruct w|]; discriminate).
  assert (NR : forall j' ok, In (VRet j' ok) [wev w; VRet j true] -> j' = j) by (intros j' c [X|[X|[]]]; [destruct w; discriminate|congruence]).
  assert (Q : forall j' q, nth_error (map (drop w) (upd (calls s) j PDone)) j' = Some q -> (j' = j /\ q = PDone) \/ (j' <> j /\ exists q0, nth_error (calls s) j' = Some q0 /\ q = drop w q0)).
  { intros j' q H. rewrite nth_error_map in H. destruct (nth_error (upd (calls s) j PDone) j') as [q0|] eqn:E; [|discriminate]. injection H as <-.
    destruct (upd_case _ _ _ _ _ _ Hj E) as [[-> ->]|[N H]]; [left; split; [reflexivity|destruct w; reflexivity]|right; eauto]. }
  constructor; cbn [heap tmap calls].
  - intros id. rewrite registered_app, <- (i_map _ _ HI). destruct w as [id' k|id']; cbn [apply wev reg]; [apply get_put|apply get_del].
  - intros j' q H. destruct (Q _ _ H) as [[-> ->]|[N (q0 & H0 & ->)]].
    + destruct (i_call _ _ HI _ _ Hj) as (c & C1 & C2 & C3). exists c. split; [apply in_or_app; auto|]. split; [exact I|]. split; [intros _|reflexivity]. exists true. apply in_or_app. right. right. now left.
    + destruct (i_call _ _ HI _ _ H0) as (c & C1 & C2 & C3). exists c. split; [apply in_or_app; auto|]. split; [now apply okp_drop, okp_app|]. rewrite drop_done, C3. split; intros (ok & X); [exists ok; apply in_or_app; auto|].
      apply in_app_or in X as [X|X]; [eauto|destruct (N (NR _ _ X))].
  - intros j' c X. rewrite map_length, upd_length. apply in_app_or in X as [X|X]; [eapply i_num; eauto|destruct (NC _ _ X)].
  - intros j' c c' X Y. apply in_app_or in X as [X|X]; [|destruct (NC _ _ X)]. apply in_app_or in Y as [Y|Y]; [|destruct (NC _ _ Y)]. eapply i_one; eauto.
  - intros j' ok X. rewrite map_length, upd_length. apply in_app_or in X as [X|X]; [eapply i_ret; eauto|]. rewrite (NR _ _ X). eapply some_lt; eauto.
  - intros k t H. destruct (i_heap _ _ HI _ _ H) as (a & b & M). eauto using made_app.
  - intros j' k X. apply in_app_or in X as [X|X]; [eapply i_made; eauto|destruct (NM _ _ X)].
  - intros j' q k H U. destruct (Q _ _ H) as [[-> ->]|[N (q0 & H0 & ->)]]; [destruct U|]. eapply i_use; [exact HI|exact H0|eapply uses_drop; eauto].
  - intros id k G. destruct w as [id' k'|id']; cbn [apply] in G.
    + rewrite get_put in G. destruct (Nat.eqb_spec id' id) as [->|N]; [|exact (i_reg _ _ HI _ _ G)]. injection G as <-. eapply (i_put _ _ HI j); [exact Hj|right; reflexivity].
    + rewrite get_del in G. destruct (Nat.eqb_spec id' id) as [->|N]; [discriminate|exact (i_reg _ _ HI _ _ G)].
  - intros j' q id k H U. destruct (Q _ _ H) as [[-> ->]|[N (q0 & H0 & ->)]]; [destruct U; discriminate|]. eapply (i_put _ _ HI); [exact H0|eapply puts_drop; eauto].
  - intros j1 j2 w1 w2 H1 H2. destruct (Q _ _ H1) as [[_ X]|[_ (q1 & E1 & X)]]; [discriminate|]. destruct (Q _ _ H2) as [[_ Y]|[_ (q2 & E2 & Y)]]; [discriminate|].
    symmetry in X, Y. apply drop_write in X as ->. apply drop_write in Y as ->. eapply i_lock; eauto.
Qed.
(** A new call. *)
Lemma inv_call evs s c p t e : Inv evs s -> p <> PDone -> (forall w, p <> PWrite w) ->
  okp (evs ++ e) (length (calls s)) c p ->
  (forall k, uses p k -> k < length (heap s ++ t)) -> (forall id k, puts p id k -> exists u, nth_error (heap s ++ t) k = Some u /\ name u = id) ->
  (t = [] /\ e = [VCall (length (calls s)) c]) \/
  (exists id isrun ps svc, c = KNew id isrun ps svc /\ t = [mkI id ps (TaskModel.task isrun svc)] /\ e = [VCall (length (calls s)) c; VMade (length (calls s)) (length (heap s))]) ->
  Inv (evs ++ e) (mkS (heap s ++ t) (tmap s) (calls s ++ [p]) false).
Proof.
  intros HI Hp Hw Hok Hu Hpt He.
  assert (NR : forall x, In x e -> match x with VCall j' c' => j' = length (calls s) /\ c' = c | VMade j k => k < length (heap s ++ t) | VTask _ _ | VAct _ _ _ | VLook _ _ _ | VCrash _ => True | _ => False end).
  { destruct He as [[-> ->]|(id & a & b & d & -> & -> & ->)]; intros x Hx; [destruct Hx as [<-|[]]; auto|destruct Hx as [<-|[<-|[]]]; [auto|]]. rewrite app_length. cbn. lia. }
  assert (HC : In (VCall (length (calls s)) c) e) by (destruct He as [[-> ->]|(id & a & b & d & -> & -> & ->)]; now left).
  constructor; cbn [heap tmap calls].
  - intros id. rewrite registered_app, (i_map _ _ HI). symmetry. apply reg_none; [intros k X|intros X]; exact (NR _ X).
  - intros j q Hq. destruct (snoc_case _ _ _ _ Hq) as [[-> ->]|[L Hq']].
    + exists c. split; [apply in_or_app; auto|]. split; [exact Hok|]. split; [contradiction|]. intros (ok & X). apply in_app_or in X as [X|X]; [apply (i_ret _ _ HI) in X; lia|destruct (NR _ X)].
    + destruct (i_call _ _ HI _ _ Hq') as (c' & C1 & C2 & C3). exists c'. split; [apply in_or_app; auto|]. split; [now apply okp_app|]. rewrite C3. split; intros (ok & X); [exists ok; apply in_or_app; auto|].
      apply in_app_or in X as [X|X]; [eauto|destruct (NR _ X)].
  - intros j c' X. rewrite app_length. cbn. apply in_app_or in X as [X|X]; [apply (i_num _ _ HI) in X; lia|]. destruct (NR _ X) as [-> _]. lia.
  - intros j c1 c2 X Y. apply in_app_or in X as [X|X], Y as [Y|Y].
    + eapply i_one; eauto.
    + destruct (NR _ Y) as [-> _]. apply (i_num _ _ HI) in X. lia.
    + destruct (NR _ X) as [-> _]. apply (i_num _ _ HI) in Y. lia.
    + destruct (NR _ X) as [_ ->], (NR _ Y) as [_ ->]. reflexivity.
  - intros j ok X. rewrite app_length. apply in_app_or in X as [X|X]; [apply (i_ret _ _ HI) in X; lia|destruct (NR _ X)].
  - intros k u H. destruct He as [[-> ->]|(id & a & b & d & -> & -> & ->)].
    + rewrite app_nil_r in H. destruct (i_heap _ _ HI _ _ H) as (a & b & M). eauto using made_app.
    + destruct (snoc_case _ _ _ _ H) as [[-> ->]|[L H']]; [|destruct (i_heap _ _ HI _ _ H') as (a' & b' & M); eauto using made_app].
      cbn [name pos]. exists a, d, (length (calls s)). split; apply in_or_app; right; cbn; auto.
  - intros j k X. apply in_app_or in X as [X|X]; [apply (i_made _ _ HI) in X; rewrite app_length; lia|exact (NR _ X)].
  - intros j q k Hq U. destruct (snoc_case _ _ _ _ Hq) as [[-> ->]|[L Hq']]; [auto|]. rewrite app_length. apply Nat.lt_lt_add_r. eapply i_use; eauto.
  - intros id k G. destruct (i_reg _ _ HI _ _ G) as (u & U & <-). exists u. split; [|reflexivity]. rewrite nth_error_app1; [exact U|eapply some_lt; eauto].
  - intros j q id k Hq U. destruct (snoc_case _ _ _ _ Hq) as [[-> ->]|[L Hq']]; [auto|]. destruct (i_put _ _ HI _ _ _ _ Hq' U) as (u & X & <-). exists u. split; [|reflexivity]. rewrite nth_error_app1; [exact X|eapply some_lt; eauto].
  - intros j1 j2 w1 w2 H1 H2. destruct (snoc_case _ _ _ _ H1) as [[_ X]|[_ X]]; [destruct (Hw w1); congruence|]. destruct (snoc_case _ _ _ _ H2) as [[_ Y]|[_ Y]]; [destruct (Hw w2); congruence|]. eapply i_lock; eauto.
Qed.
Lemma inv_same evs s e d : Inv evs s -> plain e -> Inv (evs ++ e) (mkS (heap s) (tmap s) (calls s) d).
Proof.
  intros HI P. constructor; cbn [heap tmap calls]; try apply HI.
  - intros id. rewrite registered_app, (plain_reg _ P). apply (i_map _ _ HI).
  - intros j p Hp. destruct (i_call _ _ HI _ _ Hp) as (c & C1 & C2 & C3). exists c. split; [apply in_or_app; auto|]. split; [now apply okp_app|]. rewrite C3. split; intros (ok & X); [exists ok; apply in_or_app; auto|].
    apply in_app_or in X as [X|X]; [eauto|destruct (P _ X)].
  - intros j c X. apply in_app_or in X as [X|X]; [eapply i_num; eauto|destruct (P _ X)].
  - intros j c c' X Y. apply in_app_or in X as [X|X]; [|destruct (P _ X)]. apply in_app_or in Y as [Y|Y]; [|destruct (P _ Y)]. eapply i_one; eauto.
  - intros j ok X. apply in_app_or in X as [X|X]; [eapply i_ret; eauto|destruct (P _ X)].
  - intros k' t' H. destruct (i_heap _ _ HI _ _ H) as (a & b & M). eauto using made_app.
  - intros j k' X. apply in_app_or in X as [X|X]; [eapply i_made; eauto|destruct (P _ X)].
Qed.
Lemma inv_lock evs s j w : Inv evs s -> nth_error (calls s) j = Some (PLock w) -> writing s = false -> Inv evs (goto s j (PWrite w)).
Proof.
  intros HI Hj W. constructor; cbn [heap tmap calls goto with_calls]; try apply HI.
  - intros j' q Hq. destruct (upd_case _ _ _ _ _ _ Hj Hq) as [[-> ->]|[N Hq']]; [|eapply i_call; eauto].
    destruct (i_call _ _ HI _ _ Hj) as (c & C1 & C2 & C3). exists c. split; [exact C1|]. split; [exact C2|]. rewrite <- C3. split; discriminate.
  - intros j' c X. rewrite upd_length. eapply i_num; eauto.
  - intros j' c X. rewrite upd_length. eapply i_ret; eauto.
  - intros j' q k Hq U. destruct (upd_case _ _ _ _ _ _ Hj Hq) as [[-> ->]|[N Hq']]; [|eapply i_use; eauto]. exact (i_use _ _ HI j _ k Hj U).
  - intros j' q id k Hq U. destruct (upd_case _ _ _ _ _ _ Hj Hq) as [[-> ->]|[N Hq']]; [|eapply i_put; eauto].
    apply (i_put _ _ HI j _ id k Hj). destruct U as [U|U]; [discriminate|left; congruence].
  - intros j1 j2 w1 w2 H1 H2. destruct (upd_case _ _ _ _ _ _ Hj H1) as [[-> _]|[N1 X]]; [|destruct (not_writing _ _ _ W X)].
    destruct (upd_case _ _ _ _ _ _ Hj H2) as [[-> _]|[N2 Y]]; [reflexivity|destruct (not_writing _ _ _ W Y)].
Qed.

Lemma plain_one x : match x with VCall _ _ | VMade _ _ | VPut _ _ | VDel _ | VRet _ _ => False | _ => True end -> plain [x].
Proof. intros H y [<-|[]]. exact H. Qed.
Lemma plain_map k e : plain (map (VTask k) e).
Proof. intros x H. apply in_map_iff in H as (y & <- & _). exact I. Qed.
Lemma plain_app a b : plain a -> plain b -> plain (a ++ b).
Proof. intros A B x H. apply in_app_or in H as [H|H]; [exact (A x H)|exact (B x H)]. Qed.
Lemma plain_nil : plain [].
Proof. intros x []. Qed.

Lemma inv_step evs s l s' e : Inv evs s -> step s l = Some (s', e) -> dead s' = false -> Inv (evs ++ e) s'.
Proof.
  intros HI H Hd. apply step_move in H as [D M]. destruct M; cbn [dead kill goto with_calls] in Hd; try discriminate Hd.
  - apply (inv_call _ _ (KNew id isrun p svc) (PLock (WPut id (length (heap s)))) [mkI id p (TaskModel.task isrun svc)]); auto; try discriminate.
    + exact I.
    + cbn. intros k <-. rewrite app_length. cbn. lia.
    + intros id' k [E|E]; [|discriminate]. injection E as <- <-. eexists. rewrite nth_error_app2, Nat.sub_diag by lia. split; reflexivity.
    + right. eexists _, _, _, _. split; [reflexivity|]. split; reflexivity.
  - unfold with_calls. rewrite <- (app_nil_r (heap s)). rewrite D. apply (inv_call _ _ c); auto.
    + destruct H; discriminate.
    + destruct H; discriminate.
    + destruct H; cbn; auto.
    + rewrite app_nil_r. intros k U. destruct H; cbn in U; try contradiction. subst k0. eapply some_lt; eauto.
    + rewrite app_nil_r. intros id k [E|E]; destruct H; try discriminate. injection E as <- <-. eauto.
  - rewrite app_nil_r. now apply inv_lock.
  - now apply inv_write.
  - eapply inv_goto; [exact HI|exact H|discriminate|discriminate|cbn; auto|cbn; tauto|intros ? ? [X|X]; discriminate|right; split; [discriminate|now apply plain_one]].
  - eapply inv_goto; [exact HI|exact H|discriminate|discriminate| | |intros ? ? [X|X]; discriminate|right; split; [discriminate|now apply plain_one]].
    + cbn. intros c _ ->. exists id. split; [auto|]. exists evs, []. split; [reflexivity|]. now rewrite <- (i_map _ _ HI).
    + cbn. intros k' <-. right. eauto.
  - eapply inv_goto; [exact HI|exact H|discriminate|discriminate| | |intros ? ? [X|X]; discriminate|right; split; [discriminate|now apply plain_one]].
    + cbn. intros c _ ->. exists id. split; [auto|]. exists evs, []. split; [reflexivity|]. now rewrite <- (i_map _ _ HI).
    + cbn. intros k' <-. right. eauto.
  - eapply inv_goto; [exact HI|exact H|discriminate|discriminate|cbn; auto|cbn; tauto|intros ? ? [X|X]; discriminate|left; split; [reflexivity|]]. exists [VLook j id None], true. split; [reflexivity|now apply plain_one].
  - eapply inv_goto; [exact HI|exact H|discriminate|discriminate|cbn; auto|cbn; tauto|intros ? ? [X|X]; discriminate|left; split; [reflexivity|]]. exists [VLook j id None], false. split; [reflexivity|now apply plain_one].
  - eapply inv_goto; [exact HI|exact H|discriminate|discriminate|cbn; auto|cbn; tauto|intros ? ? [X|X]; discriminate|left; split; [reflexivity|]]. exists [], true. split; [reflexivity|apply plain_nil].
  - eapply inv_goto; [exact HI|exact H|discriminate|discriminate| | |intros ? ? [X|X]; discriminate|right; split; [discriminate|now apply plain_one]].
    + cbn. intros c _ ->. split; [reflexivity|]. exists id, evs, []. split; [reflexivity|]. now rewrite <- (i_map _ _ HI).
    + cbn. intros k' <-. right. eauto.
  - cbn [dead] in Hd. rewrite Hd. rewrite app_comm_cons. rewrite app_assoc.
    assert (P : plain (VAct j k b :: map (VTask k) e)) by (apply (plain_app [_]); [now apply plain_one|apply plain_map]).
    pose proof (inv_task _ _ _ _ b' false _ HI H1 P) as HI2.
    eapply (inv_goto _ _ j p p' ret HI2); [exact H|destruct H0; discriminate|destruct H0; discriminate| |destruct H0; cbn; tauto|destruct H0; intros ? ? [X|X]; discriminate|].
    + intros c _. destruct H0; cbn; tauto.
    + destruct H0; [left; split; [reflexivity|exists [], true; split; [reflexivity|apply plain_nil]]|right; split; [discriminate|apply plain_nil]].
  - cbn [dead] in Hd. rewrite Hd. rewrite app_nil_r. eapply inv_task; eauto. apply plain_map.
Qed.
Lemma inv_reach sched s evs : run step init sched = Some (s, evs) -> dead s = false -> Inv evs s.
Proof.
  revert sched s evs. apply (run_inv step init (fun _ evs s => dead s = false -> Inv evs s)).
  - intros _. constructor; cbn; try tauto; try (intros j; destruct j; discriminate); try discriminate; try reflexivity; intros; try (destruct j; discriminate); try (destruct k; discriminate).
  - intros sched evs s l s' e _ IH H Hd. eapply inv_step; eauto. apply IH. apply step_move in H. tauto.
Qed.
