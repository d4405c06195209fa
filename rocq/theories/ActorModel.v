(** Model of one actor: /repo/core/actor/actor_runtime_impl.go, the update loop
    (lines 280-364), Received (172-190) and Exit (366-377), together with
    everybody who touches the actor: any number of goroutines calling Received,
    pub/sub forwarders pushing into the mailbox (lib/pubsub/ps_channel.go lines
    99-103), timer goroutines, goroutines pushing re-entry messages, the
    checkClose goroutine and callers of Exit.

    The two queues are the machines of MpscModel, driven step by step.  The
    loop's select picks any ready case: every case is a label.

    Simplifications: the time limit of checkClose (10 s) may expire at any
    moment; wait groups are unbounded integers (their negative value is the
    panic of sync.WaitGroup, an explicit crash here); what handlers, timer
    callbacks and re-entry actions do is not modelled beyond when they start and
    how they end; a wrapper is its event, its wait group and whether its original
    sender is this actor. *)
From Coq Require Import List ZArith Bool.
From Verif Require Import Machine MpscModel.
Import ListNotations.

(** The parts of msg.Wrapper used here: Req.Header.Event, the wait group of its
    context, and whether Req.Header.OrgActorID is this actor's id. *)
Record msg := mkMsg { mev : nat; mwg : nat; mself : bool }.
(** A queued message: its number (the Received call or forwarder that brought
    it) and the wrapper. *)
Definition qmsg := (nat * msg)%type.

(** Where a goroutine delivering a message is. *)
Inductive dstage :=
| Checked            (* Received: after line 180, closed was 0 *)
| Added              (* after line 186, wg.Add(1) *)
| Pushing (j : nat)  (* inside q.Push, its j-th call *)
| Returned.          (* Received returned nil *)
Record delivery := mkDel { dmsg : msg; dst : dstage }.

(** How a handler chain ends. *)
Inductive outcome := OK | Error | Panicked.

(** Where the update loop is. *)
Inductive loc :=
| Select
| TimerGot (t : nat)       (* line 305 done, before line 306 *)
| TimerRun (t : nat)       (* in Execute, line 316 *)
| InPop                    (* line 320 done, inside q.Pop *)
| Handle (m : qmsg)        (* in chain.Execute, line 339 *)
| HandleDone (m : qmsg)    (* in the deferred function, before line 335 *)
| InRPop                   (* line 348 done, inside reenterQueue.Pop *)
| Action (r : nat)         (* line 351 *)
| Stopped.                 (* line 361 *)

(** Where checkClose is, lines 281-301. *)
Inductive checker :=
| NoChk
| ChkQ        (* about to evaluate a.q.Empty() *)
| ChkR        (* a.q.Empty() was true, about to evaluate a.reenterQueue.Empty() *)
| ChkWait     (* in the select of lines 287-293 *)
| ChkClose    (* about to execute line 297 *)
| ChkEnd.

Record state := mkState {
  q : MpscModel.state qmsg; rq : MpscModel.state nat; closed : nat; closeCh : bool;
  shutdownCh : bool; timerChan : list nat; wg : nat -> Z; dels : list delivery;
  at_ : loc; chk : checker; exiting : nat; crashed : bool }.

(** Init, lines 52-71. *)
Definition init : state :=
  mkState MpscModel.init MpscModel.init 0 false false [] (fun _ => 0%Z) [] Select NoChk 0 false.

Inductive label :=
| LReceived (m : msg)   (* a call of Received: lines 174-184 *)
| LForward (m : msg)    (* a pub/sub forwarder starts to deliver m *)
| LAddWg (i : nat)      (* delivery i: mw.GetWg().Add(1) *)
| LPush (i : nat)       (* delivery i: enters q.Push, head swap *)
| LLinkD (i : nat)      (* delivery i: the link store *)
| LCountD (i : nat)     (* delivery i: the counter addition *)
| LSignalD (i : nat)    (* delivery i: the channel send; Received returns nil *)
| LTick (t : nat)       (* a timer goroutine: a.timerChan <- info *)
| LReenter (l : MpscModel.label nat) (* a step of reenterQueue.Push by some goroutine *)
| LTimerRecv            (* loop: case timerInfo := <-a.timerChan *)
| LTimerCheck           (* loop: line 306 *)
| LTimerEnd             (* loop: the callback ended, or panicked and was recovered *)
| LQ (l : MpscModel.label qmsg)      (* loop: receive from q.C or a step of q.Pop *)
| LHandled (o : outcome)             (* loop: the chain ended *)
| LDone                 (* loop: mw.GetWg().Done(), line 335 *)
| LR (l : MpscModel.label nat)       (* loop: receive from reenterQueue.C or a step of its Pop *)
| LActionEnd            (* loop: the re-entry action ended *)
| LShutdown             (* loop: case <-a.shutdownCh, lines 354-358 *)
| LCloseRecv            (* loop: case <-a.closeCh, lines 359-361 *)
| LChkQ | LChkR | LChkTick | LChkTimeout | LChkClose (* checkClose *)
| LExit                 (* a call of Exit: close(a.shutdownCh), line 368 *)
| LExitReturn           (* a pending Exit: <-a.closeCh, line 369, and return *).

Inductive event :=
| EEnter (m : qmsg)        (* the message took its place in the mailbox *)
| EAccepted (i : nat)      (* delivery i returned (Received: nil) *)
| ERejected (m : msg)      (* Received returned an error *)
| EAdd (g : nat)           (* wait group g was incremented *)
| EStart (m : qmsg)        (* the handler chain starts *)
| EEnd (m : qmsg) (o : outcome)
| ENoHandler (m : qmsg)    (* no handler for the event *)
| EDone (m : qmsg)         (* the message's wait group was decremented *)
| ETimerStart (t : nat) | ETimerEnd (t : nat)
| EActStart (r : nat) | EActEnd (r : nat)
| EExitReturned | EPanic.

Definition upd_wg (w : nat -> Z) (g : nat) (d : Z) : nat -> Z :=
  fun x => if Nat.eqb x g then (w x + d)%Z else w x.

Definition push_label {V} (l : MpscModel.label V) : bool :=
  match l with LSwap _ _ | LLink _ | LAdd _ | LSend _ => true | _ => false end.
Definition is_recv {V} (l : MpscModel.label V) : bool :=
  match l with LRecv => true | _ => false end.
Definition is_pop {V} (l : MpscModel.label V) : bool :=
  match l with LPop | LDec | LCSend => true | _ => false end.

Section Setters.
  Variable s : state.
  Definition set_q x := mkState x (rq s) (closed s) (closeCh s) (shutdownCh s) (timerChan s)
    (wg s) (dels s) (at_ s) (chk s) (exiting s) (crashed s).
  Definition set_rq x := mkState (q s) x (closed s) (closeCh s) (shutdownCh s) (timerChan s)
    (wg s) (dels s) (at_ s) (chk s) (exiting s) (crashed s).
  Definition set_closed x := mkState (q s) (rq s) x (closeCh s) (shutdownCh s) (timerChan s)
    (wg s) (dels s) (at_ s) (chk s) (exiting s) (crashed s).
  Definition set_closeCh x := mkState (q s) (rq s) (closed s) x (shutdownCh s) (timerChan s)
    (wg s) (dels s) (at_ s) (chk s) (exiting s) (crashed s).
  Definition set_shutdown x := mkState (q s) (rq s) (closed s) (closeCh s) x (timerChan s)
    (wg s) (dels s) (at_ s) (chk s) (exiting s) (crashed s).
  Definition set_timers x := mkState (q s) (rq s) (closed s) (closeCh s) (shutdownCh s) x
    (wg s) (dels s) (at_ s) (chk s) (exiting s) (crashed s).
  Definition set_wg x := mkState (q s) (rq s) (closed s) (closeCh s) (shutdownCh s) (timerChan s)
    x (dels s) (at_ s) (chk s) (exiting s) (crashed s).
  Definition set_dels x := mkState (q s) (rq s) (closed s) (closeCh s) (shutdownCh s) (timerChan s)
    (wg s) x (at_ s) (chk s) (exiting s) (crashed s).
  Definition set_at x := mkState (q s) (rq s) (closed s) (closeCh s) (shutdownCh s) (timerChan s)
    (wg s) (dels s) x (chk s) (exiting s) (crashed s).
  Definition set_chk x := mkState (q s) (rq s) (closed s) (closeCh s) (shutdownCh s) (timerChan s)
    (wg s) (dels s) (at_ s) x (exiting s) (crashed s).
  Definition set_exiting x := mkState (q s) (rq s) (closed s) (closeCh s) (shutdownCh s) (timerChan s)
    (wg s) (dels s) (at_ s) (chk s) x (crashed s).
  Definition crash := mkState (q s) (rq s) (closed s) (closeCh s) (shutdownCh s) (timerChan s)
    (wg s) (dels s) (at_ s) (chk s) (exiting s) true.
End Setters.

(** The capacity of timerChan, line 68. *)
Definition timer_cap : nat := 1024.

Section Step.
(** Which events have a handler chain (a.chains, line 338). *)
Variable registered : nat -> bool.

(** A step [l] of delivery [i] inside q.Push, after which it is at stage [to]. *)
Definition push_step (s : state) (i : nat) (l : MpscModel.label qmsg) (d : delivery)
  (to : dstage) (e : list event) : option (state * list event) :=
  match MpscModel.step (q s) l with
  | Some (q', _) => Some (set_dels (set_q s q') (upd (dels s) i (mkDel (dmsg d) to)), e)
  | None => None
  end.

Definition step (s : state) (l : label) : option (state * list event) :=
  if crashed s then None else
  match l with
  | LReceived m =>
    if mself m then Some (s, [ERejected m])                 (* lines 174-178 *)
    else match closed s with
    | O => Some (set_dels s (dels s ++ [mkDel m Checked]), [])
    | _ => Some (s, [ERejected m])                          (* lines 180-184 *)
    end
  | LForward m => Some (set_dels s (dels s ++ [mkDel m Checked]), [])
  | LAddWg i =>
    match nth_error (dels s) i with
    | Some (mkDel m Checked) =>
      Some (set_dels (set_wg s (upd_wg (wg s) (mwg m) 1)) (upd (dels s) i (mkDel m Added)),
            [EAdd (mwg m)])
    | _ => None
    end
  | LPush i =>
    match nth_error (dels s) i with
    | Some (mkDel m Added as d) =>
      let j := length (pushes (q s)) in
      push_step s i (LSwap i (i, m)) d (Pushing j) [EEnter (i, m)]
    | _ => None
    end
  | LLinkD i =>
    match nth_error (dels s) i with
    | Some (mkDel m (Pushing j) as d) => push_step s i (LLink j) d (Pushing j) []
    | _ => None
    end
  | LCountD i =>
    match nth_error (dels s) i with
    | Some (mkDel m (Pushing j) as d) => push_step s i (LAdd j) d (Pushing j) []
    | _ => None
    end
  | LSignalD i =>
    match nth_error (dels s) i with
    | Some (mkDel m (Pushing j) as d) => push_step s i (LSend j) d Returned [EAccepted i]
    | _ => None
    end
  | LTick t =>
    if length (timerChan s) <? timer_cap
    then Some (set_timers s (timerChan s ++ [t]), []) else None
  | LReenter l =>
    if push_label l then
      match MpscModel.step (rq s) l with
      | Some (rq', _) => Some (set_rq s rq', [])
      | None => None
      end
    else None
  | LTimerRecv =>
    match at_ s, timerChan s with
    | Select, t :: r => Some (set_at (set_timers s r) (TimerGot t), [])
    | _, _ => None
    end
  | LTimerCheck =>
    match at_ s with
    | TimerGot t =>
      match closed s with
      | O => Some (set_at s (TimerRun t), [ETimerStart t])
      | _ => Some (set_at s Select, [])
      end
    | _ => None
    end
  | LTimerEnd =>
    match at_ s with
    | TimerRun t => Some (set_at s Select, [ETimerEnd t])
    | _ => None
    end
  | LQ l =>
    match at_ s with
    | Select =>
      if is_recv l then
        match MpscModel.step (q s) l with
        | Some (q', _) => Some (set_at (set_q s q') InPop, [])
        | None => None
        end
      else None
    | InPop =>
      if is_pop l then
        match MpscModel.step (q s) l with
        | Some (q', [EPop None]) => Some (set_at (set_q s q') Select, [])   (* lines 324-327 *)
        | Some (q', [EPop (Some m)]) =>
          if registered (mev (snd m)) then Some (set_at (set_q s q') (Handle m), [EStart m])
          else Some (set_at (set_q s q') (HandleDone m), [ENoHandler m])    (* line 344 *)
        | Some (q', _) => Some (set_q s q', [])
        | None => None
        end
      else None
    | _ => None
    end
  | LHandled o =>
    match at_ s with
    | Handle m => Some (set_at s (HandleDone m), [EEnd m o])
    | _ => None
    end
  | LDone =>
    match at_ s with
    | HandleDone m =>
      if (wg s (mwg (snd m)) <=? 0)%Z then Some (crash s, [EPanic])
      else Some (set_at (set_wg s (upd_wg (wg s) (mwg (snd m)) (-1))) Select, [EDone m])
    | _ => None
    end
  | LR l =>
    match at_ s with
    | Select =>
      if is_recv l then
        match MpscModel.step (rq s) l with
        | Some (rq', _) => Some (set_at (set_rq s rq') InRPop, [])
        | None => None
        end
      else None
    | InRPop =>
      if is_pop l then
        match MpscModel.step (rq s) l with
        | Some (rq', [EPop None]) => Some (set_at (set_rq s rq') Select, [])
        | Some (rq', [EPop (Some r)]) => Some (set_at (set_rq s rq') (Action r), [EActStart r])
        | Some (rq', _) => Some (set_rq s rq', [])
        | None => None
        end
      else None
    | _ => None
    end
  | LActionEnd =>
    match at_ s with
    | Action r => Some (set_at s Select, [EActEnd r])
    | _ => None
    end
  | LShutdown =>
    match at_ s, shutdownCh s with
    | Select, true =>
      match closed s with
      | O => Some (set_chk (set_closed s 1) ChkQ, [])
      | _ => Some (s, [])
      end
    | _, _ => None
    end
  | LCloseRecv =>
    match at_ s, closeCh s with
    | Select, true => Some (set_at s Stopped, [])
    | _, _ => None
    end
  | LChkQ =>
    match chk s, Empty (q s) with
    | ChkQ, Some b => Some (set_chk s (if b then ChkR else ChkWait), [])
    | _, _ => None
    end
  | LChkR =>
    match chk s, Empty (rq s) with
    | ChkR, Some b => Some (set_chk s (if b then ChkClose else ChkWait), [])
    | _, _ => None
    end
  | LChkTick => match chk s with ChkWait => Some (set_chk s ChkQ, []) | _ => None end
  | LChkTimeout => match chk s with ChkWait => Some (set_chk s ChkClose, []) | _ => None end
  | LChkClose =>
    match chk s with
    | ChkClose =>
      if closed s =? 1 then
        if closeCh s then Some (crash s, [EPanic])  (* close of closed channel *)
        else Some (set_chk (set_closeCh (set_closed s 2) true) ChkEnd, [])
      else Some (set_chk s ChkEnd, [])
    | _ => None
    end
  | LExit =>
    if shutdownCh s then Some (crash s, [EPanic])   (* close of closed channel *)
    else Some (set_exiting (set_shutdown s true) (S (exiting s)), [])
  | LExitReturn =>
    match exiting s, closeCh s with
    | S n, true => Some (set_exiting s n, [EExitReturned])
    | _, _ => None
    end
  end.
End Step.
