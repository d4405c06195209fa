(** Theorems about timers: C27, C28, C29, C83, C84 and C96. *)
From Coq Require Import List ZArith Arith Bool Lia.
From Verif Require Import Machine MachineMore TimerModel TimerSpec TimerProofs TimerLive.
Import ListNotations.
Open Scope Z_scope.

(** A timer of interval 5 that has ticked once, at time 5. *)
Definition first_tick : list label := [LOn 0 5; LGo 0; LMake 0; LAdvance 5; LTick 0; LRecv 0; LPush 0].
(** A timer due after 10 and then every 5, whose due time has come. *)
Definition due_came : list label := [LOn 10 5; LGo 0; LAdvance 10; LAfter 0; LPush 0; LMake 0].

(** C29: the firing that follows [fires t a] others comes no earlier than the first
    permitted time plus that many intervals, whatever the delays of the goroutines, the
    loop and the runtime, and for timers registered at any moment of the actor's life. *)
Theorem C29_not_early : forall n pre s0 e0 d i sched s evs t a z c,
  run step (actor n) pre = Some (s0, e0) -> run step s0 (LOn d i :: sched) = Some (s, evs) ->
  t = length (tms s0) -> no_reset t sched -> evs = a ++ EFire t z :: c ->
  first_time (now s0) d i + Z.of_nat (fires t a) * i <= z.
Proof. exact not_early. Qed.
Print Assumptions C29_not_early.
Example C29_not_early_case : exists s, run step (actor 4) (due_came ++ [LTake; LDone; LAdvance 12; LTick 0; LRecv 0; LPush 0; LTake]) = Some (s, [EOn 0; EFire 0 10; EFire 0 22]).
Proof. eexists. vm_compute. reflexivity. Qed.

(** C29: once the actor has begun to close, no timer fires. *)
Theorem C29_silent_when_closing : forall s sched s' evs t z, closing s = true -> run step s sched = Some (s', evs) -> ~ In (EFire t z) evs.
Proof. intros s sched s' evs t z Hc H. exact (closing_silent _ _ _ _ Hc H t z). Qed.
Print Assumptions C29_silent_when_closing.
Example C29_silent_case : exists s, run step (actor 4) (first_tick ++ [LShut; LClosing; LTake]) = Some (s, [EOn 0]) /\ closing s = true /\ chan s = [].
Proof. eexists. split; [vm_compute; reflexivity|]. split; reflexivity. Qed.

(** C27 is false: a tick that the goroutine has already put into the actor's channel fires
    after the timer was cancelled. *)
Theorem C27_refuted : exists sched s, run step (actor 4) (first_tick ++ LCancel 0 true :: sched) = Some (s, [EOn 0; ECancelled 0; EFire 0 5]).
Proof. exists [LTake]. eexists. vm_compute. reflexivity. Qed.
Print Assumptions C27_refuted.
(** C27 is false: a timer cancelled during its due time (that call panics, see C28) and
    cancelled again later, which succeeds, goes on firing although nothing was on its way. *)
Theorem C27_again_refuted : exists pre s1 e1 sched s,
  run step (actor 4) pre = Some (s1, e1) /\ on_the_way 0 s1 = 0%nat /\ run step s1 (LCancel 0 true :: sched) = Some (s, [ECancelled 0; EFire 0 15; EFire 0 20]).
Proof.
  exists [LOn 10 5; LGo 0; LCancel 0 true; LAdvance 10; LAfter 0; LPush 0; LMake 0; LTake; LDone].
  eexists _, _, [LAdvance 5; LTick 0; LRecv 0; LPush 0; LTake; LDone; LAdvance 5; LTick 0; LRecv 0; LPush 0; LTake]. eexists. split; [vm_compute; reflexivity|]. split; vm_compute; reflexivity.
Qed.
Print Assumptions C27_again_refuted.
(** What holds of C27: if an active timer is cancelled and not reset, it fires at most as
    often as there were ticks on their way; none, if there were none.
    Missing: that those do not fire. *)
Theorem C27_partial : forall n pre s0 e0 t x inside sched s evs,
  run step (actor n) pre = Some (s0, e0) -> nth_error (tms s0) t = Some x -> active x = true -> no_reset t sched ->
  run step s0 (LCancel t inside :: sched) = Some (s, ECancelled t :: evs) -> (fires t evs <= on_the_way t s0)%nat.
Proof. exact cancelled_few. Qed.
Print Assumptions C27_partial.
Example C27_partial_case : exists s0 s x, run step (actor 4) (due_came ++ [LTake; LDone]) = Some (s0, [EOn 0; EFire 0 10]) /\
  nth_error (tms s0) 0 = Some x /\ active x = true /\ on_the_way 0 s0 = 0%nat /\ run step s0 [LCancel 0 true; LAdvance 100] = Some (s, [ECancelled 0]).
Proof. eexists _, _, _. split; [vm_compute; reflexivity|]. split; [reflexivity|]. split; [reflexivity|]. split; vm_compute; reflexivity. Qed.

(** C28 is false: interval 0, documented as "executes only once", crashes the process. *)
Theorem C28_refuted : exists sched s, run step (actor 4) (LOn 1000 0 :: sched) = Some (s, [EOn 0; EPanic; ECrash]).
Proof. exists [LGo 0; LAdvance 1000; LAfter 0; LPush 0; LMake 0]. eexists. vm_compute. reflexivity. Qed.
Print Assumptions C28_refuted.
(** C28 is false: an actor that exits while a timer waits for its due time crashes the process. *)
Theorem C28_exit_refuted : exists sched s, run step (actor 4) (LOn 1000 500 :: sched) = Some (s, [EOn 0; EPanic; ECrash]).
Proof. exists [LGo 0; LShut; LClosing; LLeave; LCancel 0 false]. eexists. vm_compute. reflexivity. Qed.
Print Assumptions C28_exit_refuted.
(** What holds of C28: with positive intervals, and timers cancelled or reset only once
    started or from inside handlers, the process does not crash; without the second way
    there is no panic either.  Missing: interval 0, and Exit or CancelTimer before. *)
Theorem C28_partial : forall recovered n sched s evs,
  run step (actor n) sched = Some (s, evs) -> all_careful recovered (actor n) sched ->
  crashed s = false /\ ~ In ECrash evs /\ (recovered = false -> ~ In EPanic evs).
Proof.
  intros r n sched s evs H Hc. destruct (sound_run r _ _ _ _ (actor_sound n) Hc H) as ([A _] & B & C). auto.
Qed.
Print Assumptions C28_partial.
Example C28_partial_case : all_careful false (actor 4) (first_tick ++ [LTake; LReset 0 7 true; LDone; LCancel 0 false]).
Proof.
  intros pre l suf s evs Hq Hr. cbn in Hq.
  repeat (destruct pre as [|? pre]; [injection Hq as <- <-; vm_compute in Hr; injection Hr as <- <-; cbn; try exact I; try reflexivity; try (left; eexists _, _; split; reflexivity)|injection Hq as <- Hq]).
  destruct pre; discriminate.
Qed.

(** When the process goes down, that is the last thing that happens. *)
Theorem C28_last : forall n sched s evs x z, run step (actor n) sched = Some (s, evs) -> evs = x ++ ECrash :: z -> z = [].
Proof.
  intros n sched s evs x z H E. destruct (run_split _ _ _ _ _ _ _ _ H E) as (a & l & c & t & t' & e1 & p & q & e2 & _ & _ & S & R & _ & ->).
  assert (K : q = [] /\ crashed t' = true).
  { unfold step in S. destruct (crashed t); [discriminate|].
    destruct l; unfold nil_deref in S; repeat match type of S with
      | context [match ?v with _ => _ end] => let E := fresh in destruct v eqn:E; try discriminate end;
      injection S as <- S;
      try (destruct p as [|? [|? p]]; discriminate S);
      (destruct p as [|? [|? [|? p]]]; try discriminate S; injection S as <- S; try (injection S as <- S); subst; auto). }
  destruct K as [-> K]. destruct c as [|l' c]; [injection R as _ <-; reflexivity|]. cbn in R. unfold step in R. rewrite K in R. discriminate.
Qed.
Print Assumptions C28_last.
Example C28_last_case : exists s, run step (actor 4) (first_tick ++ [LOn 0 0; LTake; LGo 1; LMake 1]) = Some (s, [EOn 0; EOn 1; EFire 0 5; EPanic; ECrash]).
Proof. eexists. vm_compute. reflexivity. Qed.

(** C83 is false: after the first firing NextTrigger still answers the time of that firing,
    while the timer is active and fires again. *)
Theorem C83_refuted : exists pre s1 sched s,
  run step (actor 4) pre = Some (s1, [EOn 0; EFire 0 5]) /\ ticking 0 s1 /\ next_trigger 0 s1 = Some 5 /\ now s1 = 9 /\ run step s1 sched = Some (s, [EFire 0 10]).
Proof.
  exists (first_tick ++ [LTake; LDone; LAdvance 4]). eexists _, [LAdvance 1; LTick 0; LRecv 0; LPush 0; LTake], _. split; [vm_compute; reflexivity|].
  split; [eexists _, _; repeat split|]. repeat split.
Qed.
Print Assumptions C83_refuted.
(** What holds of C83: until it is reset, a timer with due time not negative reports a time
    before which it does not fire, that of its first firing at the earliest.
    Missing: the times of the later firings. *)
Theorem C83_partial : forall n pre s0 e0 d i sched s evs t,
  run step (actor n) pre = Some (s0, e0) -> run step s0 (LOn d i :: sched) = Some (s, evs) ->
  t = length (tms s0) -> no_reset t sched -> 0 <= d -> 0 <= i ->
  exists v, next_trigger t s = Some v /\ v = (if d =? 0 then now s0 + i else now s0 + d) /\ forall z, In (EFire t z) evs -> v <= z.
Proof.
  intros n pre s0 e0 d i sched s evs t H0 H -> Hn Hd Hi. exists (first_time (now s0) d i). split; [eapply next_trigger_new; eassumption|]. split.
  - unfold first_time. destruct (Z.eqb_spec d 0) as [->|]; [reflexivity|]. now rewrite (proj2 (Z.ltb_lt 0 d)) by lia.
  - intros z Hz. apply in_split in Hz as (a & c & Hq). pose proof (not_early _ _ _ _ _ _ _ _ _ _ _ _ _ H0 H eq_refl Hn Hq) as X. nia.
Qed.
Print Assumptions C83_partial.
Example C83_partial_case : exists s, run step (actor 4) due_came = Some (s, [EOn 0]) /\ next_trigger 0 s = Some 10.
Proof. eexists. split; vm_compute; reflexivity. Qed.

(** C84 is false: Reset of a cancelled timer to its own interval answers true and leaves it dead. *)
Theorem C84_refuted : exists s, run step (actor 4) (first_tick ++ [LTake; LDone; LCancel 0 true; LReset 0 5 true]) = Some (s, [EOn 0; EFire 0 5; ECancelled 0; EReset 0 true]) /\ ~ ticking 0 s.
Proof.
  eexists. split; [vm_compute; reflexivity|]. intros (x & k & A & B & C & D). cbn in A. injection A as <-. discriminate C.
Qed.
Print Assumptions C84_refuted.
(** C84 is false: Reset of a timer that waits for its due time panics. *)
Theorem C84_waiting_refuted : exists s, run step (actor 4) [LOn 10 5; LGo 0; LReset 0 7 true] = Some (s, [EOn 0; EPanic]).
Proof. eexists. vm_compute. reflexivity. Qed.
Print Assumptions C84_waiting_refuted.
(** What holds of C84: if Reset to another interval answers true, the timer is active and
    its ticker runs until it is cancelled.  Missing: the same interval. *)
Theorem C84_ticking_partial : forall n pre s0 e0 t x iv inside sched s evs,
  run step (actor n) pre = Some (s0, e0) -> nth_error (tms s0) t = Some x -> ival x <> iv -> no_cancel t sched ->
  run step s0 (LReset t iv inside :: sched) = Some (s, EReset t true :: evs) -> ticking t s.
Proof. exact reset_ticking. Qed.
Print Assumptions C84_ticking_partial.
Example C84_ticking_case : exists s0 s, run step (actor 4) (first_tick ++ [LTake; LDone; LCancel 0 true]) = Some (s0, [EOn 0; EFire 0 5; ECancelled 0]) /\
  run step s0 [LReset 0 7 true; LAdvance 7; LTick 0; LRecv 0; LPush 0; LTake] = Some (s, [EReset 0 true; EFire 0 12]).
Proof. eexists _, _. split; vm_compute; reflexivity. Qed.
(** And, apart from the ticks that were on their way, its firings keep to the new interval. *)
Theorem C84_interval_partial : forall n pre s0 e0 t x iv inside sched s evs a z c,
  run step (actor n) pre = Some (s0, e0) -> nth_error (tms s0) t = Some x -> 0 < iv -> ival x <> iv -> no_reset t sched ->
  run step s0 (LReset t iv inside :: sched) = Some (s, EReset t true :: evs) ->
  evs = a ++ EFire t z :: c -> (on_the_way t s0 <= fires t a)%nat ->
  now s0 + iv * (Z.of_nat (fires t a) - Z.of_nat (on_the_way t s0) + 1) <= z.
Proof. intros n pre s0 e0 t x iv ins sched s evs a z c H0 Hx Hp Hi Hn H Hq. exact (reset_late _ _ _ _ _ _ _ _ _ _ _ H0 Hx Hp Hi Hn H a c z Hq). Qed.
Print Assumptions C84_interval_partial.
Example C84_interval_case : exists s0 s, run step (actor 4) first_tick = Some (s0, [EOn 0]) /\ on_the_way 0 s0 = 1%nat /\
  run step s0 [LReset 0 7 true; LTake; LDone; LAdvance 7; LTick 0; LRecv 0; LPush 0; LTake] = Some (s, [EReset 0 true; EFire 0 5; EFire 0 12]).
Proof. eexists _, _. split; [vm_compute; reflexivity|]. split; vm_compute; reflexivity. Qed.

(** C96: whatever happened before, an active timer of an actor that is not exiting goes on
    firing: with no further calls, the work of its goroutine, of the runtime and of the
    loop lets it fire [m] more times, in at most [m] times the larger of its due time and
    its interval. *)
Theorem C96_fires : forall n sched s evs t x m,
  run step (actor n) sched = Some (s, evs) -> (0 < n)%nat -> crashed s = false -> shut s = false ->
  nth_error (tms s) t = Some x -> active x = true -> 0 < ival x ->
  exists sched' s' evs', run step s sched' = Some (s', evs') /\ Forall (own_work t) sched' /\
    (m <= fires t evs')%nat /\ now s' <= now s + Z.of_nat m * Z.max (due x) (ival x).
Proof. exact fires_again. Qed.
Print Assumptions C96_fires.
(** Two timers, the channel of the actor full, one of them cancelled and reset. *)
Example C96_case : exists s x, run step (actor 1) [LOn 0 5; LOn 3 4; LGo 0; LMake 0; LAdvance 5; LTick 0; LRecv 0; LPush 0; LCancel 0 true; LReset 0 7 true; LGo 1] = Some (s, [EOn 0; EOn 1; ECancelled 0; EReset 0 true]) /\
  nth_error (tms s) 1 = Some x /\ active x = true /\ at_pc x = GAfter 8 /\ chan s = [0%nat] /\
  exists s' , run step s [LTake; LDone; LAdvance 3; LAfter 1; LPush 1; LTake] = Some (s', [EFire 0 5; EFire 1 8]).
Proof. eexists _, _. split; [vm_compute; reflexivity|]. split; [reflexivity|]. do 3 (split; [reflexivity|]). eexists. vm_compute. reflexivity. Qed.
