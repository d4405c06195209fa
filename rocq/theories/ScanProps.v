(** C163 and C164: the map of actors of a node. *)
From Coq Require Import List Arith.
From Verif Require Import Machine ScanModel ScanSpec ScanProofs.
Import ListNotations.

(** C163.  The process goes down only while one call loops over the map, a call of Actors or a
    Register of a type that is unique and limited, and another call registers or unregisters. *)
Theorem C163_cause_partial : forall sched s evs x z, run step init sched = Some (s, evs) -> evs = x ++ VCrash :: z ->
  exists j k, j <> k /\ walker x j /\ writer x k.
Proof. exact crash_cause. Qed.
Print Assumptions C163_cause_partial.
(** Two Registers that overlap, an Unregister and a look-up, then Actors: nothing happens. *)
Example C163_cause_case : exists sched s evs, run step init sched = Some (s, evs) /\ dead s = false /\ In (VActors 3 [2]) evs /\ In (VFound 1 false) evs.
Proof.
  exists ([LRegister 1 true; LRegister 2 false; LStep 0 true; LStep 0 true; LStep 1 true; LStep 1 true] ++ repeat (LStep 0 true) 6 ++ repeat (LStep 1 true) 4 ++
    [LUnregister 1] ++ repeat (LStep 2 true) 6 ++ [LFind 1; LActors; LStep 3 true; LTake 3 2; LStep 3 true]).
  eexists _, _. split; [vm_compute; reflexivity|]. split; [reflexivity|]. cbn. tauto.
Qed.
(** Both happen.  Two Registers and nothing else. *)
Theorem C163_register_refuted : exists sched s evs, run step init sched = Some (s, evs) /\ In VCrash evs /\
  forall j l, In (VCall j l) evs -> l = LRegister 1 true \/ l = LRegister 2 false.
Proof.
  exists [LRegister 1 true; LRegister 2 false; LStep 0 true; LStep 0 true; LStep 1 true; LStep 1 true; LStep 1 true; LStep 1 true; LStep 0 true].
  eexists _, _. split; [vm_compute; reflexivity|]. split; [cbn; tauto|]. intros j l H. cbn in H. intuition congruence.
Qed.
Print Assumptions C163_register_refuted.
(** Actors while an actor is unregistered. *)
Theorem C163_actors_refuted : exists sched s evs, run step init sched = Some (s, evs) /\ In VCrash evs /\
  (forall id, ~ In (LRegister id true) sched) /\ exists x z, evs = x ++ VCall 1 LActors :: VCall 2 (LUnregister 1) :: z.
Proof.
  exists [LRegister 1 false; LStep 0 true; LStep 0 true; LStep 0 true; LStep 0 true; LStep 0 true; LStep 0 true; LActors; LStep 1 true;
    LUnregister 1; LStep 2 true; LStep 2 true; LStep 2 true; LStep 2 true; LTake 1 1].
  eexists _, _. split; [vm_compute; reflexivity|]. split; [cbn; tauto|]. split; [cbn; intuition discriminate|].
  eexists [_; _; _], _. reflexivity.
Qed.
Print Assumptions C163_actors_refuted.

(** C164.  What is in the map from the call of Actors to its return is in the answer. *)
Theorem C164_all : forall sched s evs x j y ids z id, run step init sched = Some (s, evs) ->
  evs = x ++ VCall j LActors :: y ++ VActors j ids :: z -> there x id -> (forall k, ~ In (VDel k id) y) -> In id ids.
Proof.
  intros sched s evs x j y ids z id H E T D. destruct (actors_ok _ _ _ _ _ _ _ _ H E) as (t & w & W & E1 & ->).
  apply -> in_rev. destruct (w_all _ _ _ _ _ W id T D) as [K|K]; [rewrite E1 in K; destruct K|exact K].
Qed.
Print Assumptions C164_all.
(** An actor whose Register has returned without an error before, and that nobody has asked to
    unregister, is in the answer. *)
Theorem C164_registered : forall sched s evs x j y ids z k id limited, run step init sched = Some (s, evs) ->
  evs = x ++ VCall j LActors :: y ++ VActors j ids :: z -> In (VCall k (LRegister id limited)) x -> In (VDone k) x ->
  (forall u, ~ In (VCall u (LUnregister id)) (x ++ y)) -> In id ids.
Proof.
  intros sched s evs x j y ids z k id lim H E C D N.
  assert (X : exists a t, run step init a = Some (t, x) /\ forall u i, In (VDel u i) y -> In (VCall u (LUnregister i)) (x ++ VCall j LActors :: y)).
  { destruct (run_prefix _ _ _ _ _ _ H E) as (a & t & R). destruct (actors_prefix _ _ _ _ _ _ _ _ H E) as (b & t2 & R2).
    exists a, t. split; [exact R|]. intros u i K. apply (b_del _ _ (jobs_ok_run _ _ _ R2)). apply in_or_app. right. now right. }
  destruct X as (a & t & R & X). eapply C164_all; [exact H|exact E| |].
  - eapply registered_there; [exact R|exact C|exact D|]. intros u K. apply (N u). apply in_or_app. auto.
  - intros u K. apply X in K. apply in_app_or in K as [K|[K|K]]; [|discriminate|]; apply (N u); apply in_or_app; auto.
Qed.
Print Assumptions C164_registered.
(** What is in the answer was in the map at some moment between the call and the return. *)
Theorem C164_only : forall sched s evs x j y ids z id, run step init sched = Some (s, evs) ->
  evs = x ++ VCall j LActors :: y ++ VActors j ids :: z -> In id ids -> exists y1 y2, y = y1 ++ y2 /\ there (x ++ VCall j LActors :: y1) id.
Proof.
  intros sched s evs x j y ids z id H E K. destruct (actors_ok _ _ _ _ _ _ _ _ H E) as (t & w & W & E1 & ->).
  apply in_rev in K. exact (w_only _ _ _ _ _ W id K).
Qed.
Print Assumptions C164_only.
(** If nothing is registered meanwhile the answer has nothing twice. *)
Theorem C164_once : forall sched s evs x j y ids z, run step init sched = Some (s, evs) ->
  evs = x ++ VCall j LActors :: y ++ VActors j ids :: z -> (forall k id, ~ In (VPut k id) y) -> NoDup ids.
Proof.
  intros sched s evs x j y ids z H E N. destruct (actors_ok _ _ _ _ _ _ _ _ H E) as (t & w & W & E1 & ->).
  apply NoDup_rev. destruct (w_once _ _ _ _ _ W N) as [_ K]. rewrite E1, app_nil_r in K. exact K.
Qed.
Print Assumptions C164_once.
(** Otherwise it can: an actor is taken, unregistered, registered again under its id and taken again. *)
Example C164_twice_case : exists sched s evs, run step init sched = Some (s, evs) /\ In (VActors 1 [1; 1]) evs.
Proof.
  exists [LRegister 1 false; LStep 0 true; LStep 0 true; LStep 0 true; LStep 0 true; LStep 0 true; LStep 0 true; LActors; LStep 1 true; LTake 1 1;
    LUnregister 1; LStep 2 true; LStep 2 true; LStep 2 true; LStep 2 true; LStep 2 true; LStep 2 true;
    LRegister 1 false; LStep 3 true; LStep 3 true; LStep 3 true; LStep 3 true; LStep 3 true; LStep 3 true; LTake 1 1; LStep 1 true].
  eexists _, _. split; [vm_compute; reflexivity|]. cbn. tauto.
Qed.
(** Actors with one actor that stays, one that is unregistered meanwhile after its turn and one
    that is registered meanwhile. *)
Example C164_case : exists sched s x y z, run step init sched = Some (s, x ++ VCall 2 LActors :: y ++ VActors 2 [2; 1; 3] :: z) /\
  there x 1 /\ (forall k, ~ In (VDel k 1) y) /\ In (VCall 0 (LRegister 1 false)) x /\ In (VDone 0) x /\ (forall u, ~ In (VCall u (LUnregister 1)) (x ++ y)) /\
  In (VDel 3 2) y /\ In (VPut 4 3) y.
Proof.
  exists ([LRegister 1 false; LRegister 2 false] ++ repeat (LStep 0 true) 6 ++ repeat (LStep 1 true) 6 ++ [LActors; LStep 2 true; LTake 2 2;
    LUnregister 2] ++ repeat (LStep 3 true) 6 ++ [LTake 2 1; LRegister 3 false] ++ repeat (LStep 4 true) 6 ++ [LTake 2 3; LStep 2 true]).
  eexists _, [VCall 0 (LRegister 1 false); VCall 1 (LRegister 2 false); VPut 0 1; VDone 0; VPut 1 2; VDone 1], [VCall 3 (LUnregister 2); VDel 3 2; VDone 3; VCall 4 (LRegister 3 false); VPut 4 3; VDone 4], [].
  split; [vm_compute; reflexivity|].
  split; [exists [VCall 0 (LRegister 1 false); VCall 1 (LRegister 2 false)], [VDone 0; VPut 1 2; VDone 1], 0; split; [reflexivity|]; intros k H; cbn in H; intuition discriminate|].
  cbn. repeat (split; [try tauto; intros ? H; intuition discriminate|]). tauto.
Qed.

(** C165.  A look-up finds exactly what is in the map. *)
Theorem C165_exact : forall sched s evs x id yes z, run step init sched = Some (s, evs) -> evs = x ++ VFound id yes :: z -> (yes = true <-> there x id).
Proof. exact found. Qed.
Print Assumptions C165_exact.
(** It finds an actor whose Register has returned without an error and that nobody has asked to unregister. *)
Theorem C165_registered : forall sched s evs x k id limited yes z, run step init sched = Some (s, evs) -> evs = x ++ VFound id yes :: z ->
  In (VCall k (LRegister id limited)) x -> In (VDone k) x -> (forall u, ~ In (VCall u (LUnregister id)) x) -> yes = true.
Proof.
  intros sched s evs x k id lim yes z H E C D N. apply (found _ _ _ _ _ _ _ H E). destruct (run_prefix _ _ _ _ _ _ H E) as (a & t & R).
  eapply registered_there; eauto.
Qed.
Print Assumptions C165_registered.
(** It does not find one that nobody has asked to register. *)
Theorem C165_unknown : forall sched s evs x id yes z, run step init sched = Some (s, evs) -> evs = x ++ VFound id yes :: z ->
  (forall k limited, ~ In (VCall k (LRegister id limited)) x) -> yes = false.
Proof.
  intros sched s evs x id yes z H E N. destruct yes; [exfalso|reflexivity].
  destruct (proj1 (found _ _ _ _ _ _ _ H E) eq_refl) as (a & b & j & -> & _). destruct (run_prefix _ _ _ _ _ _ H E) as (c & t & R).
  destruct (put_asked _ _ _ j id R (in_elt _ _ _)) as (lim & K). exact (N j lim K).
Qed.
Print Assumptions C165_unknown.
(** It does not find an actor after an Unregister has returned, as long as it is not put into
    the map after the call of Unregister. *)
Theorem C165_unregistered : forall sched s evs x k id b yes z, run step init sched = Some (s, evs) ->
  evs = x ++ VCall k (LUnregister id) :: b ++ VFound id yes :: z -> In (VDone k) b -> (forall j, ~ In (VPut j id) b) -> yes = false.
Proof.
  intros sched s evs x k id b yes z H E D N. change (VCall k (LUnregister id) :: b ++ VFound id yes :: z) with ((VCall k (LUnregister id) :: b) ++ VFound id yes :: z) in E. rewrite app_assoc in E.
  destruct yes; [exfalso|reflexivity]. pose proof (proj1 (found _ _ _ _ _ _ _ H E) eq_refl) as T. destruct (run_prefix _ _ _ _ _ _ H E) as (c & t & R).
  exact (unregistered _ _ _ _ _ _ _ R eq_refl D N T).
Qed.
Print Assumptions C165_unregistered.
(** When every call has returned a look-up is answered. *)
Theorem C165_answered : forall sched s evs id, run step init sched = Some (s, evs) -> ~ In VCrash evs -> (forall j l, In (VCall j l) evs -> ~ unfinished evs j) ->
  exists yes, step s (LFind id) = Some (s, [VFound id yes]).
Proof. exact look_up. Qed.
Print Assumptions C165_answered.
(** An actor that is registered, found, unregistered and not found; one that is refused; a second that stays. *)
Example C165_case : exists sched s x, run step init sched = Some (s, x ++ [VFound 1 false; VFound 2 true; VFound 3 false]) /\
  In (VFound 1 true) x /\ ~ In VCrash x /\ (forall j l, In (VCall j l) x -> ~ unfinished x j) /\
  In (VCall 1 (LRegister 2 false)) x /\ In (VDone 1) x /\ In (VCall 2 (LUnregister 1)) x /\ In (VRefused 3) x.
Proof.
  exists ([LRegister 1 false; LRegister 2 false] ++ repeat (LStep 0 true) 6 ++ [LFind 1] ++ repeat (LStep 1 true) 6 ++ [LUnregister 1] ++ repeat (LStep 2 true) 6 ++
    [LRegister 2 true; LStep 3 true; LFind 1; LFind 2; LFind 3]).
  eexists _, [VCall 0 (LRegister 1 false); VCall 1 (LRegister 2 false); VPut 0 1; VDone 0; VFound 1 true; VPut 1 2; VDone 1; VCall 2 (LUnregister 1); VDel 2 1; VDone 2; VCall 3 (LRegister 2 true); VRefused 3].
  split; [vm_compute; reflexivity|]. cbn. split; [tauto|]. split; [intuition discriminate|]. split; [|tauto].
  intros j l H (A & B & _). cbn in A, B. repeat match goal with H : _ \/ _ |- _ => destruct H as [H|H] end; try discriminate; try contradiction; injection H as <- _; tauto.
Qed.
