(** Model of calls between the actors of one node: Call in
    /repo/core/actor/actor_runtime_impl.go lines 159-170, Call and localCall in
    /repo/core/node/system_impl.go lines 197-202 and 293-345, Received and the
    message case of the loop (actor_runtime_impl.go 172-190, 320-346), and the
    acceptor's Routing (core/node/system_acceptor.go 94-114) for headers.

    Messages are pointers to shared wrappers, as in the code: the header read at
    dispatch is whatever the wrapper contains then.

    Simplifications: reading the wait group's count and making the Done channel
    are one step; a mailbox is a FIFO list (the refinement of the queue is
    the subject of ActorModel); the header writes of one Call are one step; a
    wait group is one counter (the code keeps a sync.WaitGroup and a copy of its
    counter in lock-step); the handler's return and the Done that follows it are
    one step; an actor that has been closed is a flag; target resolution is not
    modelled here (SysModel), the target is a local actor id. *)
From Coq Require Import List String ZArith Bool.
From Verif Require Import Machine.
Import ListNotations.
Open Scope string_scope.
Open Scope list_scope.

(** router.Header, router/router.pb.go lines 29-40. *)
Record header := mkH {
  hID : string; hOrgID : string; hOrgTy : string; hPrevTy : string;
  hTgtID : string; hTgtTy : string; hEvent : string; hToken : string;
  hTime : Z; hCustom : list Z }.
(** router.Message. *)
Record message := mkMsg { mHeader : header; mBody : list Z }.

(** Runtime.Call, lines 161-167, by an actor with this id and type. *)
Definition runtime_stamp (id ty : string) (h : header) : header :=
  let h1 := if hOrgID h =? "" then
      mkH (hID h) id ty (hPrevTy h) (hTgtID h) (hTgtTy h) (hEvent h) (hToken h) (hTime h) (hCustom h)
    else h in
  mkH (hID h1) (hOrgID h1) (hOrgTy h1) ty (hTgtID h1) (hTgtTy h1) (hEvent h1) (hToken h1) (hTime h1) (hCustom h1).
(** NormalSystem.Call lines 199-201 and Send lines 365-367. *)
Definition system_stamp (target tty event : string) (h : header) : header :=
  mkH (hID h) (hOrgID h) (hOrgTy h) (hPrevTy h) target tty event (hToken h) (hTime h) (hCustom h).
(** Routing, lines 99-106: the receiving node stamps the previous actor type and
    calls with the target found in the header. *)
Definition routing_stamp (h : header) : header :=
  system_stamp (hTgtID h) (hTgtTy h) (hEvent h)
    (mkH (hID h) (hOrgID h) (hOrgTy h) "GrpcAcceptor" (hTgtID h) (hTgtTy h) (hEvent h) (hToken h) (hTime h) (hCustom h)).

Definition with_header (m : message) (h : header) : message := mkMsg h (mBody m).

(** One hop of a message: an actor calls (line 159-169), code outside any actor
    calls or sends through the system, or a node receives it from the wire. *)
Inductive hop :=
| ActorCall (id ty : string) (target tty event : string)
| SystemCall (target tty event : string)
| Remote.
Definition do_hop (h : hop) (m : message) : message :=
  with_header m
    match h with
    | ActorCall id ty target tty event => system_stamp target tty event (runtime_stamp id ty (mHeader m))
    | SystemCall target tty event => system_stamp target tty event (mHeader m)
    | Remote => routing_stamp (mHeader m)
    end.
Definition do_hops (hs : list hop) (m : message) : message := fold_left (fun m h => do_hop h m) hs m.

(** ** The machine *)

(** A wrapper: its request, the wait group of its context, and its field Done
    (a channel is named by the Call that made it; None is nil). *)
Record wrapper := mkW { wreq : message; wgroup : nat; wdone : option nat }.

(** Where a Call is. *)
Inductive tpc :=
| Stamped                 (* lines 199-201 done *)
| Counted                 (* lines 295-300 done *)
| Added                   (* Received: wait group incremented, not yet pushed *)
| Pushed                  (* root: Received has returned and ready is closed *)
| Waiting (ch : nat)      (* root: in the select of lines 329-340 on Done channel ch *)
| Ret.                    (* returned *)
(** The goroutine of a root call, lines 300-321. *)
Inductive gpc :=
| GNone                   (* not a root call *)
| GBlocked                (* waiting for ready *)
| GSelect                 (* in the select of lines 309-319 *)
| GClosing                (* about to close mw.Done, line 320 *)
| GEnded.
(** A Call: who makes it (an actor's running handler, or other code), the
    wrapper, the target actor and the event. The message it sends has the number
    of the Call. *)
Record thread := mkT { tby : option string; tw : nat; tto : string; tev : string; tst : tpc; tgo : gpc }.

Definition qm := (nat * nat)%type. (* message number, wrapper *)
(** [closedch]: the Done channels that have been closed. [crashed]: a goroutine
    panicked outside any recover. *)
Record state := mkState {
  heap : list wrapper; wgs : nat -> Z; box : string -> list qm; cur : string -> option qm;
  dead : string -> bool; threads : list thread; closedch : nat -> bool; crashed : bool }.

(** How a handler ends; [Failed]: an error, a panic, or no chain for the event
    (lines 329-346 of the loop treat them alike). *)
Inductive outcome := Fine | Failed.

Inductive label :=
| LNew (m : message) (g : nat)     (* a wrapper is built; contexts may share a wait group *)
| LCall (by_ : option string) (w : nat) (target tty ev : string)
| LCount (i : nat)                 (* lines 295-300 *)
| LReceived (i : nat)              (* Received up to the increment, or its error *)
| LPush (i : nat)                  (* the push; a nested Call returns nil, a root call closes ready *)
| LSelect (i : nat)                (* root: enters the select *)
| LPop (a : string)                (* the loop of a takes a message and dispatches it *)
| LFinish (a : string) (o : outcome) (* its handler ends; wait group decremented *)
| LWake (i : nat) (timeout : bool) (* root's goroutine: the wait group is 0, or 5 s have passed *)
| LCloseDone (i : nat)             (* line 320 *)
| LReturn (i : nat)                (* line 330 *)
| LCtx (i : nat)                   (* lines 332-339 *)
| LClose (a : string).             (* the actor starts closing *)

Inductive event :=
(** Call [i] is made by [by_] (whose handler is handling message [parent]), for
    the wrapper [w] with wait group [g], target actor and event; [org] is then the origin in the header. *)
| ECall (i : nat) (by_ : option string) (parent : option nat) (w g : nat) (target ev org : string)
| ESent (i : nat)                  (* the message of Call i is in the mailbox of its target *)
| EDispatch (a : string) (i : nat) (ev : string) (* a handles message i as event ev *)
| EHandled (i : nat) (o : outcome) (* its handler has ended *)
| EWake (i : nat) (timeout : bool)
| EReturn (i : nat) (ok : bool)    (* Call i returns nil / an error *)
| ERefused (i : nat) (self : bool). (* Received: ErrSelfCall / actor closed *)

Section Machine.
(** The type of an actor. *)
Variable aty : string -> string.

Definition active (t : thread) : bool := match tst t with Ret => false | _ => true end.
Definition by_actor (a : string) (t : thread) : bool :=
  match tby t with Some b => a =? b | None => false end.
(** The handler of [a] is inside a Call. *)
Definition in_call (a : string) (s : state) : bool :=
  existsb (fun t => by_actor a t && active t) (threads s).

Definition upd_f {X} (f : string -> X) (a : string) (x : X) : string -> X :=
  fun b => if b =? a then x else f b.
Definition upd_wg (w : nat -> Z) (g : nat) (d : Z) : nat -> Z :=
  fun x => if Nat.eqb x g then (w x + d)%Z else w x.
Definition set_pc (t : thread) (p : tpc) (g : gpc) : thread := mkT (tby t) (tw t) (tto t) (tev t) p g.
Definition with_threads (s : state) (l : list thread) : state :=
  mkState (heap s) (wgs s) (box s) (cur s) (dead s) l (closedch s) (crashed s).

(** Runtime.Call and the start of NormalSystem.Call. A handler makes one Call at
    a time; goroutines it starts are other code. *)
Definition start_call (s : state) (by_ : option string) (w : nat) (target tty ev : string)
  : option (state * list event) :=
  match nth_error (heap s) w with
  | None => None
  | Some wr =>
    let go (parent : option nat) (m : message) :=
      let i := List.length (threads s) in
      Some (mkState (upd (heap s) w (mkW m (wgroup wr) (wdone wr))) (wgs s) (box s) (cur s) (dead s)
              (threads s ++ [mkT by_ w target ev Stamped GNone]) (closedch s) (crashed s),
            [ECall i by_ parent w (wgroup wr) target ev (hOrgID (mHeader m))]) in
    match by_ with
    | None => go None (do_hop (SystemCall target tty ev) (wreq wr))
    | Some a =>
      match cur s a with
      | None => None
      | Some (n, _) =>
        if in_call a s then None
        else go (Some n) (do_hop (ActorCall a (aty a) target tty ev) (wreq wr))
      end
    end
  end.

(** The steps of Call [i], whose record is [t] and whose wrapper is [wr]. *)
Definition call_step (s : state) (l : label) (i : nat) (t : thread) (wr : wrapper)
  : option (state * list event) :=
  match l, tst t with
  | LCount _, Stamped =>
    if (wgs s (wgroup wr) =? 0)%Z then
      Some (mkState (upd (heap s) (tw t) (mkW (wreq wr) (wgroup wr) (Some i))) (wgs s) (box s) (cur s) (dead s)
              (upd (threads s) i (set_pc t Counted GBlocked)) (closedch s) (crashed s), [])
    else Some (with_threads s (upd (threads s) i (set_pc t Counted (tgo t))), [])
  | LReceived _, Counted =>
    let ready := match tgo t with GBlocked => GSelect | g => g end in   (* line 324 *)
    if negb (hOrgID (mHeader (wreq wr)) =? "") && (hOrgID (mHeader (wreq wr)) =? tto t) then (* lines 174-178 *)
      Some (with_threads s (upd (threads s) i (set_pc t Ret ready)), [ERefused i true; EReturn i false])
    else if dead s (tto t) then                                          (* lines 180-184 *)
      Some (with_threads s (upd (threads s) i (set_pc t Ret ready)), [ERefused i false; EReturn i false])
    else                                                                 (* line 186 *)
      Some (mkState (heap s) (upd_wg (wgs s) (wgroup wr) 1) (box s) (cur s) (dead s)
              (upd (threads s) i (set_pc t Added (tgo t))) (closedch s) (crashed s), [])
  | LPush _, Added =>                                                    (* lines 187, 327 *)
    match tgo t with
    | GBlocked =>
      Some (mkState (heap s) (wgs s) (upd_f (box s) (tto t) (box s (tto t) ++ [(i, tw t)])) (cur s) (dead s)
              (upd (threads s) i (set_pc t Pushed GSelect)) (closedch s) (crashed s), [ESent i])
    | g =>
      Some (mkState (heap s) (wgs s) (upd_f (box s) (tto t) (box s (tto t) ++ [(i, tw t)])) (cur s) (dead s)
              (upd (threads s) i (set_pc t Ret g)) (closedch s) (crashed s), [ESent i; EReturn i true])
    end
  | LSelect _, Pushed =>
    match wdone wr with
    | Some ch => Some (with_threads s (upd (threads s) i (set_pc t (Waiting ch) (tgo t))), [])
    | None => None
    end
  | LReturn _, Waiting ch =>
    if closedch s ch then Some (with_threads s (upd (threads s) i (set_pc t Ret (tgo t))), [EReturn i true])
    else None
  | LCtx _, Waiting _ =>
    Some (with_threads s (upd (threads s) i (set_pc t Ret (tgo t))), [EReturn i false])
  | LWake _ timeout, pc =>
    match tgo t with
    | GSelect =>
      if timeout || (wgs s (wgroup wr) =? 0)%Z
      then Some (with_threads s (upd (threads s) i (set_pc t pc GClosing)), [EWake i timeout])
      else None
    | _ => None
    end
  | LCloseDone _, pc =>
    match tgo t, wdone wr with
    | GClosing, Some ch =>
      if closedch s ch   (* close of closed channel panics *)
      then Some (mkState (heap s) (wgs s) (box s) (cur s) (dead s) (threads s) (closedch s) true, [])
      else Some (mkState (heap s) (wgs s) (box s) (cur s) (dead s) (upd (threads s) i (set_pc t pc GEnded))
                   (fun c => if Nat.eqb c ch then true else closedch s c) (crashed s), [])
    | _, _ => None
    end
  | _, _ => None
  end.

Definition on_call (s : state) (l : label) (i : nat) : option (state * list event) :=
  match nth_error (threads s) i with
  | Some t => match nth_error (heap s) (tw t) with Some wr => call_step s l i t wr | None => None end
  | None => None
  end.

Definition step (s : state) (l : label) : option (state * list event) :=
  if crashed s then None else
  match l with
  | LNew m g =>
    Some (mkState (heap s ++ [mkW m g None]) (wgs s) (box s) (cur s) (dead s) (threads s) (closedch s) false, [])
  | LCall by_ w target tty ev => start_call s by_ w target tty ev
  | LCount i | LReceived i | LPush i | LSelect i | LWake i _ | LCloseDone i | LReturn i | LCtx i => on_call s l i
  | LPop a =>
    match cur s a, box s a with
    | None, (n, w) :: r =>
      match nth_error (heap s) w with
      | Some wr =>
        Some (mkState (heap s) (wgs s) (upd_f (box s) a r) (upd_f (cur s) a (Some (n, w))) (dead s) (threads s)
                (closedch s) false,
              [EDispatch a n (hEvent (mHeader (wreq wr)))])
      | None => None
      end
    | _, _ => None
    end
  | LFinish a o =>
    match cur s a with
    | Some (n, w) =>
      if in_call a s then None
      else
        match nth_error (heap s) w with
        | Some wr =>
          Some (mkState (heap s) (upd_wg (wgs s) (wgroup wr) (-1)) (box s) (upd_f (cur s) a None) (dead s) (threads s)
                  (closedch s) false, [EHandled n o])
        | None => None
        end
    | None => None
    end
  | LClose a =>
    Some (mkState (heap s) (wgs s) (box s) (cur s) (upd_f (dead s) a true) (threads s) (closedch s) false, [])
  end.
End Machine.

Definition init : state :=
  mkState [] (fun _ => 0%Z) (fun _ => []) (fun _ => None) (fun _ => false) [] (fun _ => false) false.
