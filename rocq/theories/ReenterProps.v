(** C25, C26, C85, C86: re-entrant calls. *)
From Coq Require Import List Arith Bool Lia.
From Verif Require Import Machine ReenterModel ReenterSpec ReenterProofs ReenterLive.
Import ListNotations.

(** C25: the future returned by ReenterCall is completed at most once. *)
Theorem C25_once : forall sched s evs c, run step init sched = Some (s, evs) -> resolved c evs <= 1.
Proof. exact resolved_once. Qed.
Print Assumptions C25_once.
(** The call returned, the action ran, and the watcher, which had seen the context end, came late. *)
Definition both : list label := [LReenter; LRegister 0; LThen 0; LCtx 0; LWatchCtx 0; LReturn 0 (Fine None 7); LCallComplete 0; LPush 0; LTake; LAct; LWatchComplete 0; LActEnd; LThen 0; LStart 0; LStart 1].
Example C25_once_case : exists s, run step init both = Some (s, [EThen 0 0; ECtx 0; EReturn 0 (Fine None 7); EAct 0; EResolve 0 (VRes 7); EActEnd 0; EThen 0 1; EStart 0 (VRes 7); EStart 1 (VRes 7)]).
Proof. eexists. vm_compute. reflexivity. Qed.

(** C25: it is completed with the outcome of the call, which has returned, or with the
    context's error, when the context has ended. *)
Theorem C25_outcome : forall sched s evs c v a b, run step init sched = Some (s, evs) -> evs = a ++ EResolve c v :: b ->
  (v = VCtx /\ In (ECtx c) a) \/ exists o, In (EReturn c o) a /\ shows o v.
Proof.
  intros sched s evs c v a b H Hq. destruct (cause _ _ _ H _ _ _ _ Hq) as [X|(o & A & B)]; [left; exact X|right; exists o; split; [exact A|now apply action_shows]].
Qed.
Print Assumptions C25_outcome.
(** C25: so if the context has not ended before, the continuation sees the caller's wrapper
    with the callee's response, or the error with which the call failed. *)
Theorem C25_not_cancelled : forall sched s evs c v o a b, run step init sched = Some (s, evs) -> evs = a ++ EResolve c v :: b ->
  ~ In (ECtx c) a -> In (EReturn c o) evs -> shows o v.
Proof.
  intros sched s evs c v o a b H Hq Hn Ho. destruct (C25_outcome _ _ _ _ _ _ _ H Hq) as [[_ X]|(o' & A & B)]; [contradiction|].
  rewrite (returned_once _ _ _ c o o' H Ho); [exact B|]. rewrite Hq. apply in_or_app. now left.
Qed.
Print Assumptions C25_not_cancelled.
Example C25_not_cancelled_case : exists s, run step init [LReenter; LRegister 0; LReturn 0 (Failed 3); LCallComplete 0; LPush 0; LTake; LAct; LCtx 0] = Some (s, [EReturn 0 (Failed 3); EAct 0] ++ EResolve 0 (VErr 3) :: [ECtx 0]).
Proof. eexists. vm_compute. reflexivity. Qed.
(** C25: every continuation of a call starts with the value the future was completed with. *)
Theorem C25_continuations : forall sched s evs c k v, run step init sched = Some (s, evs) -> In (EThen c k) evs -> In (EStart k v) evs -> In (EResolve c v) evs.
Proof. exact continuation_sees. Qed.
Print Assumptions C25_continuations.
Theorem C25_same_value : forall sched s evs c v v', run step init sched = Some (s, evs) -> In (EResolve c v) evs -> In (EResolve c v') evs -> v = v'.
Proof. exact same_value. Qed.
Print Assumptions C25_same_value.
(** C25: once the re-entry action has run the future is completed. *)
Theorem C25_action_completes : forall sched s evs c, run step init sched = Some (s, evs) -> In (EActEnd c) evs -> exists v, In (EResolve c v) evs.
Proof. exact acted_resolved. Qed.
Print Assumptions C25_action_completes.
(** C25: and once the call has returned, or the context has ended, the library by itself can
    get there from any state: whatever else is queued or running, no lock-up is reachable. *)
Theorem C25_completes : forall sched s evs c, run step init sched = Some (s, evs) -> ~ In ECrash evs ->
  (exists o, In (EReturn c o) evs) \/ In (ECtx c) evs -> (exists v, In (EResolve c v) evs) \/ can_resolve c s.
Proof.
  intros sched s evs c H Hc. apply progress with (sched := sched); [exact H|]. destruct (crashed s) eqn:E; [|reflexivity].
  destruct Hc. rewrite (crashed_in _ _ _ H) in E. apply existsb_exists in E as (x & X & Y). destruct x; try discriminate. exact X.
Qed.
Print Assumptions C25_completes.
(** Two calls queued while a handler runs; the second is not completed yet. *)
Example C25_completes_case : exists s, run step init [LReenter; LReenter; LRegister 0; LReturn 0 (Fine None 1); LCallComplete 0; LPush 0; LHandler; LReturn 1 (Fine (Some 2) 0); LCallComplete 1] =
    Some (s, [EReturn 0 (Fine None 1); EHandler 0; EReturn 1 (Fine (Some 2) 0)]) /\
  exists s', run step s [LRegister 1; LPush 1; LHandlerEnd; LTake; LAct; LActEnd; LTake; LAct] =
    Some (s', [EHandlerEnd 0; EAct 0; EResolve 0 (VRes 1); EActEnd 0; EAct 1; EResolve 1 (VErr 2)]).
Proof. eexists. split; [vm_compute; reflexivity|]. eexists. vm_compute. reflexivity. Qed.
(** C25: no continuation is started twice, *)
Theorem C25_continuation_once : forall sched s evs k, run step init sched = Some (s, evs) -> starts k evs <= 1.
Proof. intros sched s evs k H. rewrite starts_nstart. exact (start_once _ _ _ _ H). Qed.
Print Assumptions C25_continuation_once.
(** and once the future is completed each of its continuations, given before or after, has
    been started with the value or can start right away, whatever the loop is doing. *)
Theorem C25_continuation_runs : forall sched s evs c k v, run step init sched = Some (s, evs) -> ~ In ECrash evs -> In (EThen c k) evs -> In (EResolve c v) evs ->
  In (EStart k v) evs \/ exists t s', step s (LStart t) = Some (s', [EStart k v]).
Proof.
  intros sched s evs c k v H Hc. apply continuation_runs with (sched := sched); [exact H|]. destruct (crashed s) eqn:E; [|reflexivity].
  destruct Hc. rewrite (crashed_in _ _ _ H) in E. apply existsb_exists in E as (x & X & Y). destruct x; try discriminate. exact X.
Qed.
Print Assumptions C25_continuation_runs.
(** Three continuations, one given after the completion, the first already started; a handler runs. *)
Example C25_continuation_case : exists s, run step init [LReenter; LRegister 0; LThen 0; LThen 0; LReturn 0 (Fine None 7); LCallComplete 0; LPush 0; LTake; LAct; LActEnd; LThen 0; LStart 0; LHandler] =
    Some (s, [EThen 0 0; EThen 0 1; EReturn 0 (Fine None 7); EAct 0; EResolve 0 (VRes 7); EActEnd 0; EThen 0 2; EStart 0 (VRes 7); EHandler 0]) /\
  exists s', run step s [LStart 2; LStart 1] = Some (s', [EStart 2 (VRes 7); EStart 1 (VRes 7)]).
Proof. eexists. split; [vm_compute; reflexivity|]. eexists. vm_compute. reflexivity. Qed.
(** C25 is false of the context error: the context ends, the call notices first and returns
    its own error (localCall, system_impl.go 331-338), and the watcher's select takes the
    other branch.  The continuation finds that error, or even a response, and never the
    context's error. *)
Theorem C25_ctx_refuted : exists sched s, run step init sched = Some (s, [EThen 0 0; ECtx 0; EReturn 0 (Failed 9); EAct 0; EResolve 0 (VErr 9); EActEnd 0; EStart 0 (VErr 9)]).
Proof. exists [LReenter; LRegister 0; LThen 0; LCtx 0; LReturn 0 (Failed 9); LCallComplete 0; LWatchDone 0; LPush 0; LTake; LAct; LActEnd; LStart 0]. eexists. vm_compute. reflexivity. Qed.
Print Assumptions C25_ctx_refuted.

(** C26 is false: a continuation runs in a goroutine of its own, while the actor's loop is
    inside a handler. *)
Theorem C26_refuted : exists sched s, run step init sched =
  Some (s, [EThen 0 0; EReturn 0 (Fine None 7); EAct 0; EResolve 0 (VRes 7); EActEnd 0; EHandler 0; EStart 0 (VRes 7); EHandlerEnd 0; EEnd 0]).
Proof. exists [LReenter; LRegister 0; LThen 0; LReturn 0 (Fine None 7); LCallComplete 0; LPush 0; LTake; LAct; LActEnd; LHandler; LStart 0; LHandlerEnd; LEnd 0]. eexists. vm_compute. reflexivity. Qed.
Print Assumptions C26_refuted.
(** What holds of C26: the re-entry actions, which store the outcome in the caller's
    wrapper, run inside the loop: none overlaps a handler or another action.
    Missing: the continuations given to Then. *)
Theorem C26_actions_partial : forall sched s evs, run step init sched = Some (s, evs) -> inside None evs <> None.
Proof. intros sched s evs H. rewrite (inside_ok _ _ _ H). discriminate. Qed.
Print Assumptions C26_actions_partial.
Example C26_actions_case : inside None [EHandler 0; EHandlerEnd 0; EAct 0; EResolve 0 (VRes 7); EActEnd 0; EHandler 1] = Some (Some (inl 1)) /\ inside None [EHandler 0; EAct 0] = None.
Proof. split; reflexivity. Qed.

(** C85 is false: a continuation that panics takes the process down: nothing happens any more. *)
Theorem C85_refuted : exists sched s, run step init sched = Some (s, [EThen 0 0; EReturn 0 (Fine None 7); EAct 0; EResolve 0 (VRes 7); EStart 0 (VRes 7); ECrash]) /\ forall l, step s l = None.
Proof. exists [LReenter; LRegister 0; LThen 0; LReturn 0 (Fine None 7); LCallComplete 0; LPush 0; LTake; LAct; LStart 0; LPanic 0]. eexists. split; [vm_compute; reflexivity|]. intros l. destruct l; reflexivity. Qed.
Print Assumptions C85_refuted.

(** C86 is false: thirty seconds have passed, and by itself the library never completes the
    future, however long it goes on: only the call or the caller's context can. *)
Theorem C86_refuted : exists sched s evs, run step init sched = Some (s, evs) /\ In (EThen 0 0) evs /\ In (EThirty 0) evs /\
  forall sched' s' evs', Forall library sched' -> run step s sched' = Some (s', evs') -> ~ exists v, In (EResolve 0 v) evs'.
Proof.
  exists [LReenter; LRegister 0; LThen 0; LThirty 0]. eexists _, _. split; [vm_compute; reflexivity|]. split; [now left|]. split; [right; now left|].
  intros sched' s' evs' Hl Hr (v & Hv).
  assert (H : run step init ([LReenter; LRegister 0; LThen 0; LThirty 0] ++ sched') = Some (s', [EThen 0 0; EThirty 0] ++ evs')) by (eapply run_app; [vm_compute; reflexivity|exact Hr]).
  apply in_split in Hv as (a & b & ->). rewrite app_assoc in H.
  assert (Hno : forall e, In e ([EThen 0 0; EThirty 0] ++ a) -> match e with EReturn _ _ | ECtx _ => False | _ => True end).
  { intros e He. apply in_app_or in He as [[<-|[<-|[]]]|He]; try exact I. eapply library_quiet; [exact Hl|exact Hr|]. apply in_or_app. now left. }
  destruct (C25_outcome _ _ _ _ _ _ _ H eq_refl) as [[_ X]|(o & X & _)]; exact (Hno _ X).
Qed.
Print Assumptions C86_refuted.
(** What holds of C86: nothing but the call's return or the end of the caller's own context
    completes it; and after either of them the library can complete it (C25_completes).
    Missing: the thirty seconds. *)
Theorem C86_own_context_partial : forall sched s evs c, run step init sched = Some (s, evs) -> ~ In ECrash evs -> In (ECtx c) evs ->
  (exists v, In (EResolve c v) evs) \/ can_resolve c s.
Proof. intros sched s evs c H Hc Hx. eapply C25_completes; eauto. Qed.
Print Assumptions C86_own_context_partial.
Example C86_own_context_case : exists s, run step init [LReenter; LRegister 0; LHandler; LCtx 0] = Some (s, [EHandler 0; ECtx 0]) /\ exists s', run step s [LWatchCtx 0; LWatchComplete 0] = Some (s', [EResolve 0 VCtx]).
Proof. eexists. split; [vm_compute; reflexivity|]. eexists. vm_compute. reflexivity. Qed.
