(** Model of the shutdown of a node: WaitClose, /repo/core/node/node_process_impl.go 59-94,
    and Exit of the system, system_impl.go 467-492, with the calls that may run beside it:
    Register and Unregister (system_impl.go 99-187), requests from other nodes
    (system_acceptor.go 73 and 89-114, lib/grpc/server.go 94-104) and the loops of the actors
    (core/actor/actor_runtime_impl.go 280-377).

    Actors are numbered in the order in which Register made them; every actor has an id of
    its own (two actors with one id are C35).  The map of actors is written under the lock
    and read without it by Exit (477); a write has a beginning and an end, and a read of the
    loop between the two stops the process, as the Go runtime may do (taken as certain here).
    The loop takes the entries in any order; an entry deleted before its turn is not taken,
    one added meanwhile may or may not be.  Exit of an actor is: close shutdownCh, which
    panics if that was done before and then ends the process; wait until the loop of the
    actor has ended, which may happen at any time after the close, or never.  GracefulStop
    returns only when no request is being served; requests may come in until then (that it
    refuses most of them earlier is not used).  Clear is one step here, its effect is C45 and
    C70.  Time passes in steps of one second.
    Not modelled: the parts of Register and Unregister that concern Redis; signals before
    Notify, which end the process; a panic in Stop or Clear; logging. *)
From Coq Require Import List Arith Bool.
From Verif Require Import Machine.
Import ListNotations.

(** An actor: shutdownCh is closed; closeCh is closed (its loop has ended). *)
Record actor := mkA { closing : bool; ended : bool }.
(** WaitClose, and within it Exit of the system. *)
Inductive mpc :=
| MWait                         (* node_process_impl.go 62 *)
| MAdd                          (* 71; system_impl.go 468-469 *)
| MStop                         (* 471: in GracefulStop *)
| MDone                         (* 474 *)
| MRange                        (* 477: before the loop *)
| MLoop (todo seen : list nat)  (* 477: before the next entry; [todo]: there from the beginning and not taken; [seen]: taken *)
| MClear                        (* 487 *)
| MFork                         (* node_process_impl.go 74-80 *)
| MSelect                       (* 83 *)
| MRet.
(** The goroutine of 480-484 for one actor. *)
Inductive xpc := XExit | XWait | XDone | XEnd.
(** The goroutine of node_process_impl.go 77-80. *)
Inductive wpc := WNone | WWait | WClosed.
(** Register from 146 on ([ins]) and Unregister from 162 on. *)
Inductive cpc :=
| CExit (a : nat)               (* 164: before close *)
| CWait (a : nat)               (* 164: waiting for the loop *)
| CLock (ins : bool) (a : nat)  (* 146, 167 *)
| CWrite (ins : bool) (a : nat) (* 147, 168 *)
| CDone.

Record state := mkS {
  port : bool;                  (* the node has a port, hence an acceptor *)
  actors : list actor; present : list nat; (* the map *)
  requests : list bool;         (* one for each request taken; true while it is served *)
  stopped : bool;               (* GracefulStop has returned *)
  calls : list cpc;
  signal : bool;                (* the channel of 60 holds a signal *)
  main : mpc; began : nat;      (* when the context of 67 was made *)
  wg : nat; exits : list (nat * xpc); waiter : wpc;
  now : nat; dead : bool }.
(** After Notify, 61. *)
Definition init (p : bool) : state := mkS p [] [] [] false [] false MWait 0 0 [] WNone 0 false.

Inductive label :=
| LSignal                       (* the process gets a signal *)
| LMain                         (* WaitClose goes on *)
| LNext (a : nat)               (* its loop takes the entry of actor a *)
| LGo (x : nat)                 (* goroutine x of the loop goes on *)
| LWaiter                       (* the goroutine of 77-80 goes on *)
| LReady | LTimeout             (* a case of the select, 84 and 86 *)
| LRegister | LUnregister (a : nat) (* a call begins *)
| LCall (j : nat)               (* call j goes on *)
| LRequest | LAnswer (r : nat)  (* a request comes in; request r is answered *)
| LLoop (a : nat)               (* the loop of actor a ends *)
| LTick.                        (* a second passes *)
Inductive cause := COverlap | CTwice (a : nat) | CNegative.
Inductive event :=
| VSignal | VBegin (t : nat)
| VRequest (r : nat) | VAnswer (r : nat)
| VMade (j a : nat)             (* Register, call j, has made actor a *)
| VUnregister (j a : nat)       (* Unregister, call j, has found actor a *)
| VPut (j a : nat) | VDel (j a : nat) (* call j has changed the map, which is its end *)
| VExit (shut : bool) (a : nat) (* Exit of actor a is called; [shut]: by the shutdown *)
| VEnded (a : nat)              (* the loop of actor a has ended *)
| VClear
| VReturn (t : nat) (ok : bool) (* WaitClose returns; ok: all actors have ended *)
| VCrash (c : cause).

Definition with_main (s : state) (m : mpc) : state :=
  mkS (port s) (actors s) (present s) (requests s) (stopped s) (calls s) (signal s) m (began s) (wg s) (exits s) (waiter s) (now s) (dead s).
Definition with_wg (s : state) (n : nat) : state :=
  mkS (port s) (actors s) (present s) (requests s) (stopped s) (calls s) (signal s) (main s) (began s) n (exits s) (waiter s) (now s) (dead s).
Definition with_calls (s : state) (c : list cpc) : state :=
  mkS (port s) (actors s) (present s) (requests s) (stopped s) c (signal s) (main s) (began s) (wg s) (exits s) (waiter s) (now s) (dead s).
Definition with_exits (s : state) (x : list (nat * xpc)) : state :=
  mkS (port s) (actors s) (present s) (requests s) (stopped s) (calls s) (signal s) (main s) (began s) (wg s) x (waiter s) (now s) (dead s).
Definition with_actors (s : state) (l : list actor) : state :=
  mkS (port s) l (present s) (requests s) (stopped s) (calls s) (signal s) (main s) (began s) (wg s) (exits s) (waiter s) (now s) (dead s).
Definition with_present (s : state) (l : list nat) : state :=
  mkS (port s) (actors s) l (requests s) (stopped s) (calls s) (signal s) (main s) (began s) (wg s) (exits s) (waiter s) (now s) (dead s).
Definition with_requests (s : state) (l : list bool) : state :=
  mkS (port s) (actors s) (present s) l (stopped s) (calls s) (signal s) (main s) (began s) (wg s) (exits s) (waiter s) (now s) (dead s).
Definition with_waiter (s : state) (w : wpc) : state :=
  mkS (port s) (actors s) (present s) (requests s) (stopped s) (calls s) (signal s) (main s) (began s) (wg s) (exits s) w (now s) (dead s).
Definition with_signal (s : state) (b : bool) : state :=
  mkS (port s) (actors s) (present s) (requests s) (stopped s) (calls s) b (main s) (began s) (wg s) (exits s) (waiter s) (now s) (dead s).
Definition with_began (s : state) (t : nat) : state :=
  mkS (port s) (actors s) (present s) (requests s) (stopped s) (calls s) (signal s) (main s) t (wg s) (exits s) (waiter s) (now s) (dead s).
Definition with_now (s : state) (t : nat) : state :=
  mkS (port s) (actors s) (present s) (requests s) (stopped s) (calls s) (signal s) (main s) (began s) (wg s) (exits s) (waiter s) t (dead s).
Definition with_stopped (s : state) : state :=
  mkS (port s) (actors s) (present s) (requests s) true (calls s) (signal s) (main s) (began s) (wg s) (exits s) (waiter s) (now s) (dead s).
Definition kill (s : state) : state :=
  mkS (port s) (actors s) (present s) (requests s) (stopped s) (calls s) (signal s) (main s) (began s) (wg s) (exits s) (waiter s) (now s) true.
Definition crash (s : state) (c : cause) : option (state * list event) := Some (kill s, [VCrash c]).

Definition writing (s : state) : bool := existsb (fun p => match p with CWrite _ _ => true | _ => false end) (calls s).
(** wait.Done(). *)
Definition done (s : state) (k : state -> state) (e : list event) : option (state * list event) :=
  match wg s with O => crash s CNegative | S n => Some (k (with_wg s n), e) end.
(** close(a.shutdownCh), actor_runtime_impl.go 368. *)
Definition shut (s : state) (a : nat) (by_shutdown : bool) (k : state -> state) : option (state * list event) :=
  match nth_error (actors s) a with
  | Some x => if closing x then crash s (CTwice a) else Some (k (with_actors s (upd (actors s) a (mkA true (ended x)))), [VExit by_shutdown a])
  | None => None
  end.
(** <-a.closeCh, 369. *)
Definition gone (s : state) (a : nat) (k : state -> state) : option (state * list event) :=
  match nth_error (actors s) a with
  | Some x => if ended x then Some (k s, []) else None
  | None => None
  end.
(** A deletion takes the entry from the list of the loop. *)
Definition drop (ins : bool) (a : nat) (m : mpc) : mpc :=
  match m with
  | MLoop todo seen => if ins then m else MLoop (remove Nat.eq_dec a todo) seen
  | _ => m
  end.
Definition limit : nat := 30.

Definition step (s : state) (l : label) : option (state * list event) :=
  if dead s then None else
  match l with
  | LSignal => Some (with_signal s true, [VSignal])
  | LMain =>
    match main s with
    | MWait => if signal s then Some (with_main (with_began (with_signal s false) (now s)) (if port s then MAdd else MRange), [VBegin (now s)]) else None
    | MAdd => Some (with_main (with_wg s (S (wg s))) MStop, [])
    | MStop => if existsb (fun b => b) (requests s) then None else Some (with_main (with_stopped s) MDone, [])
    | MDone => done s (fun s => with_main s MRange) []
    | MRange => Some (with_main s (MLoop (present s) []), [])
    | MLoop [] seen => if writing s then crash s COverlap else Some (with_main s MClear, [])
    | MLoop (_ :: _) _ => None
    | MClear => Some (with_main s MFork, [VClear])
    | MFork => Some (with_main (with_waiter s WWait) MSelect, [])
    | MSelect | MRet => None
    end
  | LNext a =>
    match main s with
    | MLoop todo seen =>
      if in_dec Nat.eq_dec a seen then None else
      if in_dec Nat.eq_dec a (present s) then
        if writing s then crash s COverlap else
        Some (with_main (with_exits (with_wg s (S (wg s))) (exits s ++ [(a, XExit)])) (MLoop (remove Nat.eq_dec a todo) (a :: seen)), [])
      else None
    | _ => None
    end
  | LGo x =>
    match nth_error (exits s) x with
    | Some (a, XExit) => shut s a true (fun s => with_exits s (upd (exits s) x (a, XWait)))
    | Some (a, XWait) => gone s a (fun s => with_exits s (upd (exits s) x (a, XDone)))
    | Some (a, XDone) => done s (fun s => with_exits s (upd (exits s) x (a, XEnd))) []
    | Some (_, XEnd) | None => None
    end
  | LWaiter =>
    match waiter s with
    | WWait => match wg s with O => Some (with_waiter s WClosed, []) | S _ => None end
    | _ => None
    end
  | LReady =>
    match main s, waiter s with
    | MSelect, WClosed => Some (with_main s MRet, [VReturn (now s) true])
    | _, _ => None
    end
  | LTimeout =>
    match main s with
    | MSelect => if Nat.leb (began s + limit) (now s) then Some (with_main s MRet, [VReturn (now s) false]) else None
    | _ => None
    end
  | LRegister =>
    let a := length (actors s) in
    Some (with_calls (with_actors s (actors s ++ [mkA false false])) (calls s ++ [CLock true a]), [VMade (length (calls s)) a])
  | LUnregister a =>
    if in_dec Nat.eq_dec a (present s) then if writing s then None else Some (with_calls s (calls s ++ [CExit a]), [VUnregister (length (calls s)) a]) else None
  | LCall j =>
    match nth_error (calls s) j with
    | Some (CExit a) => shut s a false (fun s => with_calls s (upd (calls s) j (CWait a)))
    | Some (CWait a) => gone s a (fun s => with_calls s (upd (calls s) j (CLock false a)))
    | Some (CLock ins a) => if writing s then None else Some (with_calls s (upd (calls s) j (CWrite ins a)), [])
    | Some (CWrite ins a) =>
      if writing (with_calls s (upd (calls s) j CDone)) then crash s COverlap else (* another write *)
      Some (with_main (with_present (with_calls s (upd (calls s) j CDone)) (if ins then a :: present s else remove Nat.eq_dec a (present s))) (drop ins a (main s)),
            [if ins then VPut j a else VDel j a])
    | Some CDone | None => None
    end
  | LRequest => if port s then if stopped s then None else Some (with_requests s (requests s ++ [true]), [VRequest (length (requests s))]) else None
  | LAnswer r =>
    match nth_error (requests s) r with
    | Some true => Some (with_requests s (upd (requests s) r false), [VAnswer r])
    | _ => None
    end
  | LLoop a =>
    match nth_error (actors s) a with
    | Some (mkA true false) => Some (with_actors s (upd (actors s) a (mkA true true)), [VEnded a])
    | _ => None
    end
  | LTick => Some (with_now s (S (now s)), [])
  end.
