(** C51, C69: the topics of one process. *)
From Coq Require Import List String Arith Bool Lia.
From Verif Require Import Machine AddrModel TopicModel TopicSpec TopicProofs.
Import ListNotations.
Open Scope string_scope.
Open Scope list_scope.

Ltac in_list := first [left; reflexivity | right; in_list].

(** ** C51 *)
(** Whatever calls return a topic for one name, it is the same topic. *)
Theorem C51_same : forall sched s evs i j name k k', run step init sched = Some (s, evs) -> In (ERet i name k) evs -> In (ERet j name k') evs -> k = k'.
Proof.
  intros sched s evs i j name k k' H Hi Hj. destruct (okM_reach _ _ _ H) as (_ & _ & _ & R & _). pose proof (R _ _ _ (or_introl Hi)). pose proof (R _ _ _ (or_introl Hj)). congruence.
Qed.
Print Assumptions C51_same.
(** It is created once. *)
Theorem C51_once : forall sched s evs name, run step init sched = Some (s, evs) -> makes name evs <= 1.
Proof.
  intros sched s evs name H. destruct (okM_reach _ _ _ H) as ((LA & _) & K & M & _). rewrite M. unfold has. destruct (aget name (tmap s)) as [k|] eqn:Ea.
  - enough (filter (pending name) (thrs s) = []) as -> by (cbn; lia). destruct (filter (pending name) (thrs s)) as [|x l] eqn:Ef; [reflexivity|exfalso]. assert (X : In x (x :: l)) by now left. rewrite <- Ef in X. apply filter_In in X as [X Y]. apply In_nth_error in X as [i Hi]. specialize (K _ _ Hi).
    unfold pending in Y. unfold knows in K. destruct (t_pc x); try discriminate. apply String.eqb_eq in Y as <-. congruence.
  - cbn. revert LA. generalize (writer s). clear. intros w LA.
    assert (U : forall i j x y, nth_error (thrs s) i = Some x -> nth_error (thrs s) j = Some y -> pending name x = true -> pending name y = true -> i = j).
    { intros i j x y Hi Hj Px Py. unfold pending in *. assert (w = Some i) by (apply (LA _ _ Hi); destruct (t_pc x); try discriminate; reflexivity). assert (w = Some j) by (apply (LA _ _ Hj); destruct (t_pc y); try discriminate; reflexivity). congruence. }
    clear LA. revert U. generalize (thrs s). intros l. induction l as [|a l IH]; intros U; [cbn; lia|]. cbn [filter]. destruct (pending name a) eqn:Ea.
    + enough (filter (pending name) l = []) as -> by (cbn; lia). destruct (filter (pending name) l) as [|x r] eqn:Ef; [reflexivity|exfalso]. assert (X : In x (x :: r)) by now left. rewrite <- Ef in X. apply filter_In in X as [X Y]. apply In_nth_error in X as [i Hi].
      discriminate (U 0 (S i) a x eq_refl Hi Ea Y).
    + apply IH. intros i j x y Hi Hj Px Py. specialize (U (S i) (S j) x y Hi Hj Px Py). congruence.
Qed.
Print Assumptions C51_once.
(** What is returned for a name was created for that name, and for no other. *)
Theorem C51_own : forall sched s evs i name k, run step init sched = Some (s, evs) -> In (ERet i name k) evs ->
  (exists j, In (EMake j name k) evs) /\ forall i' name', In (ERet i' name' k) evs -> name' = name.
Proof.
  intros sched s evs i name k H Hi. destruct (okM_reach _ _ _ H) as (_ & _ & _ & R & T & _ & N). destruct (T _ _ (R _ _ _ (or_introl Hi))) as (j & Hj). split; [exists j; exact Hj|].
  intros i' name' Hi'. destruct (T _ _ (R _ _ _ (or_introl Hi'))) as (j' & Hj'). exact (proj2 (N _ _ _ Hj) _ _ Hj').
Qed.
Print Assumptions C51_own.
(** Every call returns: some goroutine can go on until all have returned, and however the
    goroutines are scheduled they stop after a bounded number of steps. *)
Theorem C51_returns : forall sched s evs, run step init sched = Some (s, evs) ->
  (exists more s' evs', Forall is_step more /\ run step s more = Some (s', evs') /\ quiescent s') /\
  (~ quiescent s -> exists i s' ev, step s (LStep i) = Some (s', ev)) /\
  exists n, forall more s' evs', Forall is_step more -> run step s more = Some (s', evs') -> List.length more <= n.
Proof.
  intros sched s evs H. destruct (okM_reach _ _ _ H) as (L & _). split; [exact (returns _ s L (Nat.le_refl _))|]. split.
  - intros Hn. apply (enabled s L). destruct (total (thrs s)) eqn:Et; [exfalso; apply Hn; intros i x; apply total_zero; exact Et|lia].
  - exists (total (thrs s)). intros more s' evs'. apply steps_bounded.
Qed.
Print Assumptions C51_returns.
(** Two callers miss the topic at the same time; the second one finds it under the lock. *)
Definition race := [LCall OGetOrCreate "t"; LCall OGetOrCreate "t"] ++ repeat (LStep 0) 4 ++ repeat (LStep 1) 4 ++ repeat (LStep 0) 6 ++ repeat (LStep 1) 4.
Example C51_case : exists s evs, run step init race = Some (s, evs) /\ In (ERet 0 "t" 0) evs /\ In (ERet 1 "t" 0) evs /\ makes "t" evs = 1.
Proof. eexists _, _. split; [vm_compute; reflexivity|]. split; [in_list|]. split; [in_list|reflexivity]. Qed.

(** Once some call has returned the topic, later calls find it: GetTopic does not return nil. *)
Theorem C51_found : forall pre s0 e0 j name k, run step init pre = Some (s0, e0) -> In (ERet j name k) e0 ->
  forall sched s evs i o, run step s0 sched = Some (s, evs) -> In (ECall i o name) evs -> ~ In (ENil i name) evs.
Proof.
  intros pre s0 e0 j name k Hp Hr sched s evs i o H Hc Hx. destruct (known_no_panic _ _ _ _ _ _ Hp Hr _ _ _ H) as (_ & _ & _ & D & F).
  destruct (D _ _ _ Hc) as (Hi & x & X1 & X2). destruct (F i _ Hx) as (y & Y1 & Y2); [cbn; apply Nat.eqb_refl|]. apply (Y2 Hi). congruence.
Qed.
Print Assumptions C51_found.
Example C51_found_case : exists s0 e0 s evs, run step init ([LCall OSub "t"] ++ repeat (LStep 0) 10) = Some (s0, e0) /\ In (ERet 0 "t" 0) e0 /\
  run step s0 ([LCall OGet "t"; LCall OGet "u"] ++ repeat (LStep 1) 4 ++ repeat (LStep 2) 4) = Some (s, evs) /\ In (ECall 1 OGet "t") evs /\ In (ERet 1 "t" 0) evs /\ In (ENil 2 "u") evs.
Proof. eexists _, _, _, _. split; [vm_compute; reflexivity|]. split; [in_list|]. split; [vm_compute; reflexivity|]. split; [in_list|]. split; in_list. Qed.

(** ** C69 *)
(** Publishing to a topic that this process has not created crashes the caller. *)
Theorem C69_refuted : exists sched s evs, run step init sched = Some (s, evs) /\ In (ECall 0 (OPub "ev") "t") evs /\ In (EPanic 0) evs.
Proof. exists ([LCall (OPub "ev") "t"] ++ repeat (LStep 0) 4). eexists _, _. split; [vm_compute; reflexivity|]. split; in_list. Qed.
Print Assumptions C69_refuted.
(** Once some call has returned the topic, later calls of Pub for it do not crash. *)
Theorem C69_known_partial : forall pre s0 e0 j name k, run step init pre = Some (s0, e0) -> In (ERet j name k) e0 ->
  forall sched s evs i o, run step s0 sched = Some (s, evs) -> In (ECall i o name) evs -> ~ In (EPanic i) evs.
Proof.
  intros pre s0 e0 j name k Hp Hr sched s evs i o H Hc Hx. destruct (known_no_panic _ _ _ _ _ _ Hp Hr _ _ _ H) as (_ & _ & _ & D & F).
  destruct (D _ _ _ Hc) as (Hi & x & X1 & X2). destruct (F i _ Hx) as (y & Y1 & Y2); [cbn; apply Nat.eqb_refl|]. apply (Y2 Hi). congruence.
Qed.
Print Assumptions C69_known_partial.
(** And they publish on the topic that was returned. *)
Theorem C69_topic : forall sched s evs i j name k k', run step init sched = Some (s, evs) -> In (ERet j name k) evs -> In (EPubOn i name k') evs -> k' = k.
Proof.
  intros sched s evs i j name k k' H Hr Hp. destruct (okM_reach _ _ _ H) as (_ & _ & _ & R & _). pose proof (R _ _ _ (or_introl Hr)). pose proof (R _ _ _ (or_intror Hp)). congruence.
Qed.
Print Assumptions C69_topic.
Definition sub_then_pub := [LCall OSub "t"] ++ repeat (LStep 0) 10.
Example C69_known_case : exists s0 e0 s evs, run step init sub_then_pub = Some (s0, e0) /\ In (ERet 0 "t" 0) e0 /\
  run step s0 ([LCall (OPub "ev") "t"] ++ repeat (LStep 1) 4) = Some (s, evs) /\ In (ECall 1 (OPub "ev") "t") evs /\ In (EPubOn 1 "t" 0) evs.
Proof. eexists _, _, _, _. split; [vm_compute; reflexivity|]. split; [in_list|]. split; [vm_compute; reflexivity|]. split; in_list. Qed.
