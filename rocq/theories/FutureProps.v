(** C14, C15: futures. *)
From Coq Require Import List Arith.
From Verif Require Import Machine FutureModel FutureSpec FutureProofs.
Import ListNotations.

(** Future 0 gets a callback before completion (chained future 1), is completed
    twice, gets another callback afterwards (chained future 2); future 1 gets a
    callback while pending (chained future 3); everything runs to its end. *)
Definition ex_sched : list (label nat) :=
  [LNew; LThen 0; LComplete 0 7; LComplete 0 8; LThen 0; LThen 1; LStart 1; LStart 0;
   LReturn 0; LChain 0; LReturn 1; LStart 2; LChain 1; LReturn 2; LChain 2].
Definition ex_evs : list (event nat) :=
  [EThen 0 0 1; EComplete 0 7; EComplete 0 8; EThen 0 1 2; EThen 1 2 3; EStart 1 7;
   EStart 0 7; EReturn 0; EComplete 1 7; EFinish 0; EReturn 1; EStart 2 7; EFinish 1;
   EReturn 2; EComplete 3 7; EFinish 2].
Example ex_run : exists s, run step init ex_sched = Some (s, ex_evs) /\ length (futures s) = 4.
Proof. vm_compute. eexists. auto. Qed.

(** ** C14 *)
(** The result of a future is that of the first Complete call, later calls
    change nothing. *)
Theorem C14_first_complete_wins : forall W (sched : list (label W)) s evs f fu,
  run step init sched = Some (s, evs) -> nth_error (futures s) f = Some fu ->
  result fu = winner f evs.
Proof. exact @result_is_winner. Qed.
Print Assumptions C14_first_complete_wins.
Example C14_first_complete_wins_case : winner 0 ex_evs = Some 7.
Proof. reflexivity. Qed.

(** No callback is called twice. *)
Theorem C14_callback_at_most_once : forall W (sched : list (label W)) s evs k,
  run step init sched = Some (s, evs) -> starts k evs <= 1.
Proof. exact @started_once. Qed.
Print Assumptions C14_callback_at_most_once.

(** A callback that has been called was registered by a Then, and was given the
    winning result of that future; as this holds at every moment of every
    execution, none is called while its future is pending. *)
Theorem C14_callback_registered : forall W (sched : list (label W)) s evs k w,
  run step init sched = Some (s, evs) -> In (EStart k w) evs ->
  exists f c, In (EThen f k c) evs.
Proof. exact @start_registered. Qed.
Print Assumptions C14_callback_registered.
Theorem C14_callback_gets_winner : forall W (sched : list (label W)) s evs k w f c,
  run step init sched = Some (s, evs) -> In (EStart k w) evs -> In (EThen f k c) evs ->
  winner f evs = Some w.
Proof. exact @start_unique_value. Qed.
Print Assumptions C14_callback_gets_winner.
Example C14_callback_case :
  In (EStart 1 7) ex_evs /\ In (EThen 0 1 2) ex_evs /\ starts 1 ex_evs = 1.
Proof. vm_compute. tauto. Qed.

(** Once a future is completed, each callback registered on it, before or after
    completion, has been called or its call is an enabled step. *)
Theorem C14_callback_will_run : forall W (sched : list (label W)) s evs f k c w,
  run step init sched = Some (s, evs) -> In (EThen f k c) evs -> winner f evs = Some w ->
  starts k evs = 1 \/ exists t s', step s (LStart t) = Some (s', [EStart k w]).
Proof. exact @will_start. Qed.
Print Assumptions C14_callback_will_run.
Example C14_callback_will_run_case : exists s evs,
  run step init (firstn 5 ex_sched) = Some (s, evs) /\
  In (EThen 0 1 2) evs /\ winner 0 evs = Some 7 /\ starts 1 evs = 0.
Proof. vm_compute. do 2 eexists. split; [reflexivity|]. tauto. Qed.

(** ** C15 *)
(** False: after Then on a completed future everything can come to rest, with
    the callback run, while the chained future is pending and the callback
    chained on it has not been called. *)
Theorem C15_chained_future_resolved_refuted :
  exists (sched : list (label nat)) s evs,
    run step init sched = Some (s, evs) /\
    then_after_completion evs 0 0 1 /\ In (EThen 1 1 2) evs /\
    winner 0 evs = Some 7 /\ In (EFinish 0) evs /\
    (forall t, step s (LStart t) = None /\ step s (LReturn t) = None /\ step s (LChain t) = None) /\
    winner 1 evs = None /\ starts 1 evs = 0.
Proof.
  exists [LNew; LComplete 0 7; LThen 0; LThen 1; LStart 0; LReturn 0; LChain 0].
  vm_compute. do 2 eexists. split; [reflexivity|].
  split; [exists [EComplete 0 7]; eexists; split; [reflexivity|discriminate]|].
  split; [tauto|]. split; [reflexivity|]. split; [tauto|]. split; [|split; reflexivity].
  intros [|[]]; repeat split; reflexivity.
Qed.
Print Assumptions C15_chained_future_resolved_refuted.
(** In fact the future returned by Then on a completed future is never resolved
    unless somebody calls Complete on it directly. *)
Theorem C15_then_after_completion_is_dead : forall W (sched : list (label W)) s evs f k c,
  run step init sched = Some (s, evs) -> then_after_completion evs f k c ->
  (forall w, ~ In (LComplete c w) sched) -> winner c evs = None.
Proof. exact @never_resolved. Qed.
Print Assumptions C15_then_after_completion_is_dead.
Example C15_then_after_completion_is_dead_case : then_after_completion ex_evs 0 1 2.
Proof. exists (firstn 3 ex_evs), (skipn 4 ex_evs). split; [reflexivity|discriminate]. Qed.

(** What holds: for Then on a pending future, the chained future is completed
    when the goroutine of the callback ends, with the result of the first future
    unless somebody completed it directly, ... *)
Theorem C15_chained_future_resolved_partial : forall W (sched : list (label W)) s evs f k c,
  run step init sched = Some (s, evs) -> then_while_pending evs f k c ->
  In (EFinish k) evs ->
  winner c evs <> None /\
  ((forall w, ~ In (LComplete c w) sched) -> winner c evs = winner f evs).
Proof. exact @chain_resolved. Qed.
Print Assumptions C15_chained_future_resolved_partial.
(** ... not before the callback has returned, ... *)
Theorem C15_not_before_callback_returned : forall W (sched : list (label W)) s evs f k c,
  run step init sched = Some (s, evs) -> In (EThen f k c) evs ->
  (forall w, ~ In (LComplete c w) sched) -> winner c evs <> None ->
  then_while_pending evs f k c /\ In (EReturn k) evs.
Proof. exact @chain_after_return. Qed.
Print Assumptions C15_not_before_callback_returned.
(** ... and the goroutine gets there: it has ended or its next step (calling
    the callback, the callback returning, completing the chained future) is
    enabled. *)
Theorem C15_chain_progress_partial : forall W (sched : list (label W)) s evs f k c w,
  run step init sched = Some (s, evs) -> then_while_pending evs f k c ->
  winner f evs = Some w ->
  In (EFinish k) evs \/
  (exists t s', step s (LStart t) = Some (s', [EStart k w])) \/
  (exists t s', step s (LReturn t) = Some (s', [EReturn k])) \/
  (exists t s', step s (LChain t) = Some (s', [EComplete c w; EFinish k])).
Proof. exact @chain_progress. Qed.
Print Assumptions C15_chain_progress_partial.
Example C15_partial_case :
  then_while_pending ex_evs 1 2 3 /\ In (EFinish 2) ex_evs /\
  (forall w, ~ In (LComplete 3 w) ex_sched) /\ winner 3 ex_evs = Some 7.
Proof.
  split; [exists (firstn 4 ex_evs), (skipn 5 ex_evs); split; reflexivity|].
  split; [vm_compute; tauto|]. split; [|reflexivity].
  intros w H. vm_compute in H. decompose [or] H; try discriminate; contradiction.
Qed.
