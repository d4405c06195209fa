(** Model of who uses the two maps of an actor: [chains] (event handlers) and [timers],
    /repo/core/actor/actor_runtime_impl.go 52-71 (Init), 81-87 (OnEvent), 95-126 (OnTimer),
    128-137 (CancelTimer), 145-157 (Sub), 280-364 (the loop) and 366-377 (Exit).

    Neither map has a lock.  A write has a beginning and an end; a look-up, a step of a range
    loop or another write that begins in between stops the process, as the Go runtime may do
    (taken as certain here); the process is not saved by a recover.
    Who runs code of the user: Init of the actor, after Runtime.Init has started the loop; the
    loop, in a handler or a timer callback; any other goroutine that holds the actor, such as
    the continuation of a re-entrant call (actor_reenter_impl.go 52, C26).  That code may make any
    calls.  A message comes from a Call once Register has put the actor into the map of the
    node (core/node/system_impl.go 141-148, after Init), or from a subscription as soon as Sub
    has reached line 152; that a closing actor refuses Calls (C21) is not used.  Events and channels are numbers.
    A timer may send at any time after it was made, also when it was cancelled (C27).
    Exit is called at most once (C23) and not before the actor is in the map of the node.
    Not modelled: the re-entry queue, which uses neither map; errors of Sub; the time of timers
    (TimerModel); the content of chains. *)
From Coq Require Import List Arith Bool.
From Verif Require Import Machine.
Import ListNotations.

Inductive which := Chains | Timers.
Inductive who := ByInit | ByLoop | ByExit | ByOther (n : nat).
Definition who_eqb (a b : who) : bool :=
  match a, b with
  | ByInit, ByInit | ByLoop, ByLoop | ByExit, ByExit => true
  | ByOther n, ByOther m => Nat.eqb n m
  | _, _ => false
  end.
(** The calls that code of the user makes.  CancelTimer of nil does nothing and is left out. *)
Inductive op := OnEvent (ev : nat) | Sub (channel : nat) | OnTimer | CancelTimer (t : nat).
Inductive pc :=
| Code                    (* code of the user, between two calls *)
| Look (ev : nat)         (* 82 *)
| Assign (ev : nat)       (* 85, before the write *)
| Assigning (ev : nat)    (* 85, in the write *)
| Arrive (ch : nat)       (* 152 *)
| Keep                    (* 101, before the write *)
| Keeping                 (* 101, in the write *)
| Delete (t : nat)        (* 136, before the write *)
| Deleting (t : nat)      (* 136, in the write *)
| Select                  (* the loop, 304 *)
| Find (ev : nat)         (* the loop, 338 *)
| Wait                    (* Exit, 369 *)
| Range (todo : list nat) (* Exit, 371: before the next entry; [todo]: there at the beginning *)
| XDelete (todo : list nat) (t : nat) | XDeleting (todo : list nat) (t : nat) (* Exit, 372: 136 *)
| None_ | Ended.          (* Exit not called; returned *)

Record state := mkS {
  chains : list nat; timers : list nat; made : nat;      (* timers are numbered *)
  writing_chains : bool; writing_timers : bool;           (* a write is under way *)
  at_ : who -> pc;
  ready : bool;                 (* Init has returned *)
  fed : bool;                   (* 152 was reached *)
  box : list nat;               (* events of the messages waiting *)
  shut : bool; closing : bool;  (* shutdownCh is closed; closed is not 0 *)
  over : bool;                  (* closeCh is closed *)
  dead : bool }.
(** After line 70. *)
Definition init : state :=
  mkS [] [] 0 false false (fun w => match w with ByLoop => Select | ByExit => None_ | _ => Code end)
    false false [] false false false false.

Inductive label :=
| LCall (w : who) (o : op)     (* code of the user makes a call *)
| LStep (w : who)              (* the next step of that call, or of 338 *)
| LReturn (w : who)            (* Init, the handler or the callback returns *)
| LMessage (ev : nat)          (* a message is pushed *)
| LPop                         (* 320-321 *)
| LTick (t : nat)              (* 305 *)
| LExit                        (* 368 *)
| LShut                        (* 354-357 *)
| LClose (forced : bool)       (* 286-299: the mailbox is empty, or ten seconds are over *)
| LLeave                       (* 359-361 *)
| LNext (t : option nat).      (* Exit: 369, or the next entry of 371, or its end *)

Inductive event :=
| VCall (w : who) (o : op)
| VReady                       (* Init has returned *)
| VBegin | VEnd                (* the loop begins and ends to run code of the user *)
| VExit | VExited              (* Exit is called, has returned *)
| VCrash (m : which).

Definition go (s : state) (w : who) (p : pc) : state :=
  mkS (chains s) (timers s) (made s) (writing_chains s) (writing_timers s)
    (fun v => if who_eqb v w then p else at_ s v) (ready s) (fed s) (box s) (shut s) (closing s) (over s) (dead s).
Definition set_maps (s : state) (c t : list nat) (n : nat) (wc wt : bool) : state :=
  mkS c t n wc wt (at_ s) (ready s) (fed s) (box s) (shut s) (closing s) (over s) (dead s).
Definition set_run (s : state) (r f : bool) (b : list nat) (sh cl ov : bool) : state :=
  mkS (chains s) (timers s) (made s) (writing_chains s) (writing_timers s) (at_ s) r f b sh cl ov (dead s).
Definition kill (s : state) : state :=
  mkS (chains s) (timers s) (made s) (writing_chains s) (writing_timers s) (at_ s) (ready s) (fed s) (box s) (shut s) (closing s) (over s) true.
Definition has (x : nat) (l : list nat) : bool := existsb (Nat.eqb x) l.
Definition drop (x : nat) (l : list nat) : list nat := filter (fun y => negb (Nat.eqb x y)) l.
Definition crash (s : state) (m : which) : option (state * list event) := Some (kill s, [VCrash m]).
Definition start (o : op) : pc :=
  match o with OnEvent ev => Look ev | Sub c => Arrive c | OnTimer => Keep | CancelTimer t => Delete t end.

(** One step of a call of the user's code, or of the look-up of the loop. *)
Definition step_call (s : state) (w : who) : option (state * list event) :=
  match at_ s w with
  | Look ev => if writing_chains s then crash s Chains
               else Some (go s w (if has ev (chains s) then Code else Assign ev), [])
  | Assign ev => if writing_chains s then crash s Chains
                 else Some (go (set_maps s (chains s) (timers s) (made s) true (writing_timers s)) w (Assigning ev), [])
  | Assigning ev => Some (go (set_maps s (ev :: chains s) (timers s) (made s) false (writing_timers s)) w Code, [])
  | Arrive c => Some (go (set_run s (ready s) true (box s) (shut s) (closing s) (over s)) w (Look c), [])
  | Keep => if writing_timers s then crash s Timers
            else Some (go (set_maps s (chains s) (timers s) (made s) (writing_chains s) true) w Keeping, [])
  | Keeping => Some (go (set_maps s (chains s) (made s :: timers s) (S (made s)) (writing_chains s) false) w Code, [])
  | Delete t => if writing_timers s then crash s Timers
                else Some (go (set_maps s (chains s) (timers s) (made s) (writing_chains s) true) w (Deleting t), [])
  | Deleting t => Some (go (set_maps s (chains s) (drop t (timers s)) (made s) (writing_chains s) false) w Code, [])
  | _ => None
  end.
Definition is_code (p : pc) : bool := match p with Code => true | _ => false end.
Definition is_select (p : pc) : bool := match p with Select => true | _ => false end.

Definition step (s : state) (l : label) : option (state * list event) :=
  if dead s then None else
  match l with
  | LCall w o => if is_code (at_ s w) then Some (go s w (start o), [VCall w o]) else None
  | LStep ByExit =>
    match at_ s ByExit with
    | XDelete todo t => if writing_timers s then crash s Timers
                        else Some (go (set_maps s (chains s) (timers s) (made s) (writing_chains s) true) ByExit (XDeleting todo t), [])
    | XDeleting todo t => Some (go (set_maps s (chains s) (drop t (timers s)) (made s) (writing_chains s) false) ByExit (Range todo), [])
    | _ => None
    end
  | LStep ByLoop =>
    match at_ s ByLoop with
    | Find ev =>                                                               (* 338 *)
      if writing_chains s then crash s Chains
      else if has ev (chains s) then Some (go s ByLoop Code, [VBegin]) else Some (go s ByLoop Select, [])
    | _ => step_call s ByLoop
    end
  | LStep w => step_call s w
  | LReturn ByInit =>
    if is_code (at_ s ByInit) then
      Some (go (set_run s true (fed s) (box s) (shut s) (closing s) (over s)) ByInit Ended, [VReady])
    else None
  | LReturn ByLoop => if is_code (at_ s ByLoop) then Some (go s ByLoop Select, [VEnd]) else None
  | LReturn _ => None
  | LMessage ev =>
    if ready s || fed s then
      Some (set_run s (ready s) (fed s) (box s ++ [ev]) (shut s) (closing s) (over s), [])
    else None
  | LPop =>
    match at_ s ByLoop, box s with
    | Select, ev :: b => Some (go (set_run s (ready s) (fed s) b (shut s) (closing s) (over s)) ByLoop (Find ev), [])
    | _, _ => None
    end
  | LTick t =>
    if is_select (at_ s ByLoop) && Nat.ltb t (made s) then
      if closing s then Some (s, []) else Some (go s ByLoop Code, [VBegin])    (* 306-308 *)
    else None
  | LExit =>
    match at_ s ByExit with
    | None_ => if ready s then Some (go (set_run s (ready s) (fed s) (box s) true (closing s) (over s)) ByExit Wait, [VExit]) else None
    | _ => None
    end
  | LShut =>
    if is_select (at_ s ByLoop) && shut s && negb (closing s) then
      Some (set_run s (ready s) (fed s) (box s) (shut s) true (over s), [])
    else None
  | LClose forced =>
    if closing s && negb (over s) && (forced || match box s with [] => true | _ => false end) then
      Some (set_run s (ready s) (fed s) (box s) (shut s) (closing s) true, [])
    else None
  | LLeave => if is_select (at_ s ByLoop) && over s then Some (go s ByLoop Ended, []) else None
  | LNext t =>
    match at_ s ByExit, t with
    | Wait, None => if over s then Some (go s ByExit (Range (timers s)), []) else None
    | Range todo, Some t =>
      if writing_timers s then crash s Timers
      else if has t (timers s) then Some (go s ByExit (XDelete todo t), []) else None
    | Range todo, None =>
      if writing_timers s then crash s Timers
      else if forallb (fun t => negb (has t (timers s))) todo then Some (go s ByExit Ended, [VExited]) else None
    | _, _ => None
    end
  end.
