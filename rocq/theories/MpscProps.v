(** C08-C11: the mailbox queue. *)
From Coq Require Import List ZArith Bool.
From Verif Require Import Machine MpscModel MpscSpec MpscProofs.
Import ListNotations.

(** Two goroutines push 10, 20 and 30 with overlapping steps; the consumer is
    woken, pops 10 and is in the middle of popping 20. *)
Definition ex_sched : list (label nat) :=
  [LSwap 0 10; LSwap 1 20; LLink 1; LLink 0; LAdd 0; LSend 0; LRecv; LPop; LAdd 1;
   LDec; LCSend; LSend 1; LSwap 0 30; LRecv; LPop].
Definition ex_end : state nat :=
  match run step init ex_sched with Some (s, _) => s | None => init end.
Example ex_run : run step init ex_sched = Some (ex_end, [EPushed 0; EPop (Some 10); EPushed 1]).
Proof. vm_compute. reflexivity. Qed.

(** ** C08 *)
(** The values Pop has returned are exactly the first [k] values of the order
    in which the Push calls took effect. *)
Theorem C08_popped_is_prefix : forall V (sched : list (label V)) s evs,
  run step init sched = Some (s, evs) ->
  exists k, k <= length (pushed sched) /\ popped evs = map snd (firstn k (pushed sched)).
Proof. exact @fifo_strong. Qed.
Print Assumptions C08_popped_is_prefix.
Example C08_popped_is_prefix_case :
  run step init ex_sched = Some (ex_end, [EPushed 0; EPop (Some 10); EPushed 1]) /\
  pushed ex_sched = [(0, 10); (1, 20); (0, 30)] /\
  popped [EPushed 0; EPop (Some 10); EPushed 1] = [10].
Proof. vm_compute. auto. Qed.

(** That order respects program order: when a goroutine enters Push, all the
    calls it made before, which are earlier in the order, have returned. *)
Theorem C08_program_order : forall V (sched : list (label V)) s evs p v s' evs',
  run step init sched = Some (s, evs) -> step s (LSwap p v) = Some (s', evs') ->
  forall i w, nth_error (pushed sched) i = Some (p, w) ->
    exists pu, nth_error (pushes s) i = Some pu /\ pstage pu = Done.
Proof. exact @program_order. Qed.
Print Assumptions C08_program_order.
Example C08_program_order_case :
  exists s evs s', run step init (firstn 12 ex_sched) = Some (s, evs) /\
    step s (LSwap 0 30) = Some (s', []) /\
    nth_error (pushed (firstn 12 ex_sched)) 0 = Some (0, 10).
Proof. vm_compute. do 3 eexists. auto. Qed.

(** Nothing is lost: with no call in progress, Pop returns the first value not
    popped yet. *)
Theorem C08_nothing_lost : forall V (sched : list (label V)) s evs,
  run step init sched = Some (s, evs) -> no_push_in_progress s -> no_pop_in_progress s ->
  forall v rest, map snd (pushed sched) = popped evs ++ v :: rest ->
  exists s', run step s [LPop; LDec; LCSend] = Some (s', [EPop (Some v)]).
Proof. exact @quiescent_pop. Qed.
Print Assumptions C08_nothing_lost.
Example C08_nothing_lost_case :
  exists s evs, run step init (firstn 12 ex_sched) = Some (s, evs) /\
    (forall p, In p (pushes s) -> pstage p = Done) /\ no_pop_in_progress s /\
    map snd (pushed (firstn 12 ex_sched)) = popped evs ++ 20 :: [].
Proof.
  vm_compute. do 2 eexists. split; [reflexivity|].
  repeat split; auto. intros p [<-|[<-|[]]]; reflexivity.
Qed.

(** Pop itself never fails: whatever the interleaving, the consumer's next
    Pop step follows no dangling pointer and meets no nil value. *)
Theorem C08_pop_never_stuck : forall V (sched : list (label V)) s evs,
  run step init sched = Some (s, evs) -> no_pop_in_progress s ->
  exists s' evs', step s LPop = Some (s', evs').
Proof. exact @pop_enabled. Qed.
Print Assumptions C08_pop_never_stuck.
Example C08_pop_never_stuck_case :
  exists s evs, run step init (firstn 14 ex_sched) = Some (s, evs) /\ no_pop_in_progress s /\
    cons s = CGot.
Proof. vm_compute. do 2 eexists. auto. Qed.

(** ** C09 *)
(** Idle consumer, reachable value: there is a token in C, or a Push call that
    still has to signal. *)
Theorem C09_no_lost_wakeup : forall V (sched : list (label V)) s evs,
  run step init sched = Some (s, evs) -> cons s = CIdle -> Empty s = Some false ->
  chan s <> None \/ exists p, In p (pushes s) /\ will_signal p.
Proof. exact @wakeup. Qed.
Print Assumptions C09_no_lost_wakeup.
Example C09_no_lost_wakeup_case :
  exists s evs, run step init (firstn 11 ex_sched) = Some (s, evs) /\ cons s = CIdle /\
    Empty s = Some false /\ chan s = Some 1%Z.
Proof. vm_compute. do 2 eexists. auto. Qed.

(** With no Push in flight, an idle consumer and unpopped values, C holds a
    token. *)
Theorem C09_token_at_rest : forall V (sched : list (label V)) s evs,
  run step init sched = Some (s, evs) -> cons s = CIdle -> no_push_in_progress s ->
  length (popped evs) < length (pushed sched) -> chan s <> None.
Proof. exact @wakeup_rest. Qed.
Print Assumptions C09_token_at_rest.
Example C09_token_at_rest_case :
  exists s evs, run step init (firstn 12 ex_sched) = Some (s, evs) /\ cons s = CIdle /\
    (forall p, In p (pushes s) -> pstage p = Done) /\
    length (popped evs) = 1 /\ length (pushed (firstn 12 ex_sched)) = 2.
Proof.
  vm_compute. do 2 eexists. split; [reflexivity|].
  repeat split; auto. intros p [<-|[<-|[]]]; reflexivity.
Qed.

(** The signal does arrive: however the Push calls in progress run on, once
    they have all returned C holds a token for the idle consumer; and they can
    always all run to their end. *)
Theorem C09_signal_arrives : forall V (sched : list (label V)) s evs r s' evs',
  run step init sched = Some (s, evs) -> cons s = CIdle ->
  length (popped evs) < length (pushed sched) ->
  forallb push_step r = true -> run step s r = Some (s', evs') -> no_push_in_progress s' ->
  chan s' <> None.
Proof. exact @wakeup_delivered. Qed.
Print Assumptions C09_signal_arrives.
Theorem C09_pushes_can_finish : forall V (sched : list (label V)) s evs,
  run step init sched = Some (s, evs) ->
  exists r s' evs', forallb push_step r = true /\ run step s r = Some (s', evs') /\
    no_push_in_progress s'.
Proof. exact @finish_pushes. Qed.
Print Assumptions C09_pushes_can_finish.
Example C09_signal_arrives_case :
  exists s evs s' evs', run step init (firstn 5 ex_sched) = Some (s, evs) /\ cons s = CIdle /\
    chan s = None /\ run step s [LSend 0; LAdd 1; LSend 1] = Some (s', evs') /\ chan s' = Some 1%Z.
Proof. vm_compute. do 4 eexists. repeat split; reflexivity. Qed.

(** ** C10 *)
Theorem C10_count_and_empty_at_rest : forall V (sched : list (label V)) s evs,
  run step init sched = Some (s, evs) -> no_push_in_progress s -> no_pop_in_progress s ->
  Count s = (Z.of_nat (length (pushed sched)) - Z.of_nat (length (popped evs)))%Z /\
  (Empty s = Some true <-> length (popped evs) = length (pushed sched)) /\
  (Empty s = Some false <-> length (popped evs) < length (pushed sched)).
Proof. exact @at_rest. Qed.
Print Assumptions C10_count_and_empty_at_rest.
Example C10_case :
  exists s evs, run step init (firstn 12 ex_sched) = Some (s, evs) /\
    (forall p, In p (pushes s) -> pstage p = Done) /\ no_pop_in_progress s /\
    Count s = 1%Z /\ Empty s = Some false.
Proof.
  vm_compute. do 2 eexists. split; [reflexivity|].
  repeat split; auto. intros p [<-|[<-|[]]]; reflexivity.
Qed.
(** Away from rest the counter can even be negative. *)
Example C10_negative_count_in_flight :
  exists s evs, run step init [LSwap 0 10; LLink 0; LPop; LDec] = Some (s, evs) /\ Count s = (-1)%Z.
Proof. vm_compute. do 2 eexists. auto. Qed.

(** ** C11 *)
(** False: goroutine 1's Push has returned, nothing has been popped, yet Empty
    is true and Pop returns nil, because goroutine 0 is between its swap and
    its store. *)
Theorem C11_completed_push_visible_refuted :
  exists (sched : list (label nat)) s evs s',
    run step init sched = Some (s, evs) /\ evs = [EPushed 1] /\ no_pop_in_progress s /\
    popped evs = [] /\ Empty s = Some true /\ step s LPop = Some (s', [EPop None]).
Proof.
  exists [LSwap 0 10; LSwap 1 20; LLink 1; LAdd 1; LSend 1]. vm_compute.
  do 3 eexists. repeat split; reflexivity.
Qed.
Print Assumptions C11_completed_push_visible_refuted.

(** What holds: when no Push is between its swap and its store, every unpopped
    push is visible and Pop takes the oldest. *)
Theorem C11_completed_push_visible_partial : forall V (sched : list (label V)) s evs,
  run step init sched = Some (s, evs) -> (forall p, In p (pushes s) -> pstage p <> Swapped) ->
  no_pop_in_progress s -> length (popped evs) < length (pushed sched) ->
  Empty s = Some false /\
  exists v s1 e1, step s LPop = Some (s1, e1) /\ cons s1 = CPopped v /\
    nth_error (map snd (pushed sched)) (length (popped evs)) = Some v.
Proof. exact @visible. Qed.
Print Assumptions C11_completed_push_visible_partial.
Example C11_partial_case :
  exists s evs, run step init (firstn 11 ex_sched) = Some (s, evs) /\
    (forall p, In p (pushes s) -> pstage p <> Swapped) /\ no_pop_in_progress s /\
    length (popped evs) = 1 /\ length (pushed (firstn 11 ex_sched)) = 2.
Proof.
  vm_compute. do 2 eexists. split; [reflexivity|].
  repeat split; auto. intros p [<-|[<-|[]]]; discriminate.
Qed.
(** Exactly: Pop finds nothing when everything has been popped, or when the oldest push that is
    left is between its swap and its store; so a push that has returned is hidden only by an
    older one that has not. *)
Theorem C11_exactly_partial : forall V (sched : list (label V)) s evs,
  run step init sched = Some (s, evs) -> no_pop_in_progress s ->
  (Empty s = Some true <-> length (popped evs) = length (pushed sched) \/
     exists pu, nth_error (pushes s) (length (popped evs)) = Some pu /\ pstage pu = Swapped) /\
  (Empty s = Some true <-> exists s', step s LPop = Some (s', [EPop None])).
Proof. exact @finds_nothing. Qed.
Print Assumptions C11_exactly_partial.
Example C11_exactly_case :
  exists s evs pu, run step init (ex_sched ++ [LDec; LCSend; LSwap 1 40; LLink 3; LAdd 3; LSend 3]) = Some (s, evs) /\ no_pop_in_progress s /\
    In (EPushed 3) evs /\ popped evs = [10; 20] /\ nth_error (pushes s) 2 = Some pu /\ pstage pu = Swapped /\ Empty s = Some true.
Proof. do 3 eexists. split; [vm_compute; reflexivity|]. repeat split; cbn; auto 10. Qed.
