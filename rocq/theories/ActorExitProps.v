(** C67: stopping an actor from its own code; and, for contrast, from outside. *)
From Coq Require Import List ZArith Bool Lia.
From Verif Require Import Machine MpscModel ActorModel ActorSpec ActorProofs ActorExitProofs ActorProps.
Import ListNotations.

(** A handler, timer callback or re-entry action that calls Unregister on its own
    actor waits inside Exit (system_impl.go line 164, actor_runtime_impl.go line
    369) and so cannot end before Exit returns.  The schedules after the call are
    then those without a step that ends user code: in all of them, whatever all
    other goroutines do, Exit never returns and the loop stays in the user code. *)
Theorem C67_self_exit_hangs : forall registered a s1 e1 b s2 e2,
  run (step registered) init a = Some (s1, e1) -> exits a = 0 ->
  in_user_code s1 ->
  run (step registered) s1 (LExit :: b) = Some (s2, e2) ->
  forallb (fun l => negb (ends_user_code l)) b = true ->
  in_user_code s2 /\ ~ In EExitReturned e2.
Proof. exact self_exit_hangs. Qed.
Print Assumptions C67_self_exit_hangs.

(** Full property ("an actor may stop itself from its own code"), false: a
    handler is running, calls Exit, and no continuation lets it return. *)
Theorem C67_self_exit_refuted : exists registered a s1 e1,
  run (step registered) init a = Some (s1, e1) /\ exits a = 0 /\ in_user_code s1 /\
  (exists s2, run (step registered) s1 [LExit] = Some (s2, [])) /\
  forall b s2 e2, run (step registered) s1 (LExit :: b) = Some (s2, e2) ->
    forallb (fun l => negb (ends_user_code l)) b = true -> ~ In EExitReturned e2.
Proof.
  set (a := LReceived (ex_m 7 1) :: deliver 0 ++ take_one).
  destruct (run (step ex_reg) init a) as [[s1 e1]|] eqn:E; [|exfalso; revert E; vm_compute; discriminate].
  assert (Hu : in_user_code s1).
  { revert E. vm_compute. intros E. injection E as <- <-. left. eexists. reflexivity. }
  exists ex_reg, a, s1, e1. split; [exact E|]. split; [reflexivity|]. split; [exact Hu|]. split.
  - revert E. vm_compute. intros E. injection E as <- <-. eexists. reflexivity.
  - intros b s2 e2 H Hb. exact (proj2 (C67_self_exit_hangs ex_reg a s1 e1 b s2 e2 E eq_refl Hu H Hb)).
Qed.
Print Assumptions C67_self_exit_refuted.

(** What does hold: a single Exit from a goroutine of its own can always return.
    From every reachable state in which it waits, there is a continuation made
    only of steps of the loop (user code returning among them), of checkClose and
    of Exit itself, in which it returns. *)
Theorem C67_exit_from_outside_partial : forall registered sched s evs,
  run (step registered) init sched = Some (s, evs) -> exits sched = 1 -> exiting s <> 0 ->
  exists ls s' e, forallb closing_label ls = true /\ run (step registered) s ls = Some (s', e) /\
    In EExitReturned e.
Proof. exact exit_can_return. Qed.
Print Assumptions C67_exit_from_outside_partial.
Example C67_partial_case :
  run (step ex_reg) init ex_sched = Some (ex_end, ex_evs) /\ exits ex_sched = 1 /\ exiting ex_end = 1 /\
  in_user_code ex_end.
Proof.
  split; [exact ex_run|]. split; [vm_compute; reflexivity|]. split; [vm_compute; reflexivity|].
  left. eexists. vm_compute. reflexivity.
Qed.

(** ** C25, the loop's part: re-entry actions run in the order in which they were
    pushed, each at most once. *)
Theorem C25_actions_in_order : forall registered sched s evs,
  run (step registered) init sched = Some (s, evs) ->
  exists rest, repushed sched = actions evs ++ rest.
Proof. exact actions_in_order. Qed.
Print Assumptions C25_actions_in_order.
Example C25_actions_in_order_case : exists s evs,
  run (step ex_reg) init
    ([LReenter (LSwap 1 11); LReenter (LSwap 2 22); LReenter (LLink 1); LReenter (LLink 0);
      LReenter (LAdd 1); LReenter (LSend 1)] ++
     [LR LRecv; LR LPop; LR LDec; LR LCSend; LActionEnd; LReenter (LAdd 0); LReenter (LSend 0)] ++
     [LR LRecv; LR LPop; LR LDec; LR LCSend]) = Some (s, evs) /\ actions evs = [11; 22].
Proof. do 2 eexists. split; vm_compute; reflexivity. Qed.
