(** Model of ReenterCall, /repo/core/actor/actor_runtime_impl.go lines 192-278, of the
    re-entry case of the loop (352-356) and of the futures they use
    (actor_reenter_impl.go 18-66), for one actor with any number of re-entrant calls.

    Each call has a goroutine that watches the caller's context (212-227), one that makes
    the call (229-245), one that pushes the re-entry action (248-275), and any number of
    goroutines running continuations given to Then.  A response and an error are numbers;
    Sys.Call (C32-C34) may return anything at any time.
    Simplified: Then and Complete hold a mutex throughout and are one step each; the re-entry
    queue is a FIFO list (proved of its implementation as C12 and C13); the action writes
    rmw.Res or rmw.Err and completes the future in one step; rmw.Err is nil before; the
    chained futures returned by Then are those of FutureModel and left out here; the loop's
    other work is a handler that begins and ends. *)
From Coq Require Import List Arith Bool.
From Verif Require Import Machine.
Import ListNotations.

(** What Sys.Call did: returned an error, or nil leaving Err and Res in the wrapper (233-243). *)
Inductive outcome := Failed (e : nat) | Fine (merr : option nat) (r : nat).
(** What a continuation finds: the caller's wrapper with a response, or an error; or the
    wrapper made for the context's error (218-221). *)
Inductive seen := VRes (r : nat) | VErr (e : nat) | VCtx.
(** The action, lines 252-271. *)
Definition action (o : outcome) : seen :=
  match o with
  | Failed e => VErr e
  | Fine (Some e) _ => VErr e
  | Fine None r => VRes r
  end.

Inductive wpc := WWait | WComplete | WGone.              (* 213-226: select; line 223; gone *)
Inductive kpc := KCalling | KComplete (o : outcome) | KGone. (* 235; 237-244; gone *)
Inductive bpc := BNone | BWaiting | BSpawned (o : outcome) | BPushed. (* the callback of line 248 *)
Record call := mkC { ctx : bool; thirty : bool; watch : wpc; caller : kpc; cf : option outcome; cb : bpc;
                     rf : option seen; ucbs : list nat }.
Inductive lpc := Idle | Handler (h : nat) | Action (c : nat) (o : outcome) | Acted (c : nat).
Inductive tpc := Spawned | Running | Ended.
Record task := mkT { tcb : nat; targ : seen; tst : tpc }.
Record state := mkS { calls : list call; rq : list (nat * outcome); loop : lpc; ncb : nat; nh : nat; tasks : list task; crashed : bool }.
Definition init : state := mkS [] [] Idle 0 0 [] false.

Inductive label :=
| LReenter                 (* 192-245: futures made, two goroutines started *)
| LRegister (c : nat)      (* 248-277: callFuture.Then; the future is returned *)
| LCtx (c : nat)           (* the caller's context ends *)
| LThirty (c : nat)        (* the thirty seconds of line 206 have passed *)
| LReturn (c : nat) (o : outcome) (* Sys.Call returns *)
| LCallComplete (c : nat)  (* 237-244 *)
| LWatchCtx (c : nat) | LWatchDone (c : nat) | LWatchComplete (c : nat)
| LPush (c : nat)          (* 274 *)
| LHandler | LHandlerEnd   (* the loop runs a handler *)
| LTake | LAct | LActEnd   (* the loop takes an action; its Complete; it returns *)
| LThen (c : nat)          (* the user's Then on the returned future *)
| LStart (t : nat) | LEnd (t : nat) | LPanic (t : nat). (* a continuation *)
Inductive event :=
| EReturn (c : nat) (o : outcome) | ECtx (c : nat) | EThirty (c : nat)
| EResolve (c : nat) (v : seen)
| EHandler (h : nat) | EHandlerEnd (h : nat) | EAct (c : nat) | EActEnd (c : nat)
| EThen (c k : nat) | EStart (k : nat) (v : seen) | EEnd (k : nat) | ECrash.

Definition set (s : state) (c : nat) (x : call) : state := mkS (upd (calls s) c x) (rq s) (loop s) (ncb s) (nh s) (tasks s) (crashed s).
Definition with_loop (s : state) (q : list (nat * outcome)) (l : lpc) : state := mkS (calls s) q l (ncb s) (nh s) (tasks s) (crashed s).
(** Complete on the returned future, actor_reenter_impl.go 42-57. *)
Definition complete (s : state) (c : nat) (x : call) (v : seen) : state * list event :=
  match rf x with
  | Some _ => (set s c x, [])
  | None => (mkS (upd (calls s) c (mkC (ctx x) (thirty x) (watch x) (caller x) (cf x) (cb x) (Some v) [])) (rq s) (loop s) (ncb s) (nh s)
                 (tasks s ++ map (fun k => mkT k v Spawned) (ucbs x)) (crashed s), [EResolve c v])
  end.

Definition on_call (s : state) (c : nat) (f : call -> option (state * list event)) : option (state * list event) :=
  match nth_error (calls s) c with Some x => f x | None => None end.

Definition step (s : state) (l : label) : option (state * list event) :=
  if crashed s then None else
  match l with
  | LReenter => (* called by a handler or other code of the actor *)
    Some (mkS (calls s ++ [mkC false false WWait KCalling None BNone None []]) (rq s) (loop s) (ncb s) (nh s) (tasks s) false, [])
  | LRegister c => on_call s c (fun x =>
      match cb x with
      | BNone => Some (set s c (mkC (ctx x) (thirty x) (watch x) (caller x) (cf x) (match cf x with Some o => BSpawned o | None => BWaiting end) (rf x) (ucbs x)), [])
      | _ => None
      end)
  | LCtx c => on_call s c (fun x => if ctx x then None else Some (set s c (mkC true (thirty x) (watch x) (caller x) (cf x) (cb x) (rf x) (ucbs x)), [ECtx c]))
  | LThirty c => on_call s c (fun x => if thirty x then None else Some (set s c (mkC (ctx x) true (watch x) (caller x) (cf x) (cb x) (rf x) (ucbs x)), [EThirty c]))
  | LReturn c o => on_call s c (fun x =>
      match caller x with
      | KCalling => Some (set s c (mkC (ctx x) (thirty x) (watch x) (KComplete o) (cf x) (cb x) (rf x) (ucbs x)), [EReturn c o])
      | _ => None
      end)
  | LCallComplete c => on_call s c (fun x =>
      match caller x with
      | KComplete o => (* only this goroutine completes callFuture *)
        Some (set s c (mkC (ctx x) (thirty x) (watch x) KGone (Some o) (match cb x with BWaiting => BSpawned o | b => b end) (rf x) (ucbs x)), [])
      | _ => None
      end)
  | LWatchCtx c => on_call s c (fun x =>
      match watch x with
      | WWait => if ctx x then Some (set s c (mkC (ctx x) (thirty x) WComplete (caller x) (cf x) (cb x) (rf x) (ucbs x)), []) else None
      | _ => None
      end)
  | LWatchDone c => on_call s c (fun x =>
      match watch x, cf x with
      | WWait, Some _ => Some (set s c (mkC (ctx x) (thirty x) WGone (caller x) (cf x) (cb x) (rf x) (ucbs x)), [])
      | _, _ => None
      end)
  | LWatchComplete c => on_call s c (fun x =>
      match watch x with
      | WComplete => Some (complete s c (mkC (ctx x) (thirty x) WGone (caller x) (cf x) (cb x) (rf x) (ucbs x)) VCtx)
      | _ => None
      end)
  | LPush c => on_call s c (fun x =>
      match cb x with
      | BSpawned o => Some (with_loop (set s c (mkC (ctx x) (thirty x) (watch x) (caller x) (cf x) BPushed (rf x) (ucbs x))) (rq s ++ [(c, o)]) (loop s), [])
      | _ => None
      end)
  | LHandler => match loop s with Idle => Some (mkS (calls s) (rq s) (Handler (nh s)) (ncb s) (S (nh s)) (tasks s) false, [EHandler (nh s)]) | _ => None end
  | LHandlerEnd => match loop s with Handler h => Some (with_loop s (rq s) Idle, [EHandlerEnd h]) | _ => None end
  | LTake => match loop s, rq s with Idle, (c, o) :: q => Some (with_loop s q (Action c o), [EAct c]) | _, _ => None end
  | LAct =>
    match loop s with
    | Action c o => on_call s c (fun x => Some (complete (with_loop s (rq s) (Acted c)) c x (action o)))
    | _ => None
    end
  | LActEnd => match loop s with Acted c => Some (with_loop s (rq s) Idle, [EActEnd c]) | _ => None end
  | LThen c => on_call s c (fun x =>
      match cb x with
      | BNone => None (* the future has not been returned yet *)
      | _ =>
        match rf x with
        | Some v => Some (mkS (calls s) (rq s) (loop s) (S (ncb s)) (nh s) (tasks s ++ [mkT (ncb s) v Spawned]) false, [EThen c (ncb s)])
        | None => Some (mkS (upd (calls s) c (mkC (ctx x) (thirty x) (watch x) (caller x) (cf x) (cb x) None (ucbs x ++ [ncb s]))) (rq s) (loop s) (S (ncb s)) (nh s) (tasks s) false, [EThen c (ncb s)])
        end
      end)
  | LStart t =>
    match nth_error (tasks s) t with
    | Some x => match tst x with Spawned => Some (mkS (calls s) (rq s) (loop s) (ncb s) (nh s) (upd (tasks s) t (mkT (tcb x) (targ x) Running)) false, [EStart (tcb x) (targ x)]) | _ => None end
    | None => None
    end
  | LEnd t =>
    match nth_error (tasks s) t with
    | Some x => match tst x with Running => Some (mkS (calls s) (rq s) (loop s) (ncb s) (nh s) (upd (tasks s) t (mkT (tcb x) (targ x) Ended)) false, [EEnd (tcb x)]) | _ => None end
    | None => None
    end
  | LPanic t => (* nobody recovers *)
    match nth_error (tasks s) t with
    | Some x => match tst x with Running => Some (mkS (calls s) (rq s) (loop s) (ncb s) (nh s) (tasks s) true, [ECrash]) | _ => None end
    | None => None
    end
  end.
