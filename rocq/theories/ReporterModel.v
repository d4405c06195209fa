(** Model of the span reporter, /repo/lib/tracer/slow_reporter.go.

    Spans are numbers.  Every channel operation and every atomic operation is one step.  The
    sampler's decision is a function of the span (jaeger.ProbabilisticSampler compares the
    trace id with a bound); what the transport answers only changes metrics and is left out,
    except for when it is called.  Retain and Release count references in the jaeger
    library; only the calls are modelled, as events. *)
From Coq Require Import List Arith ZArith Bool.
From Verif Require Import Machine.
Import ListNotations.

(** reporterQueueItem, lines 34-38. *)
Inductive item := ISpan (sp : nat) | IClose.
(** processQueue, lines 121-170. *)
Inductive worker :=
| WWait                  (* 133: the select *)
| WGot (it : item)       (* 136-137: before the gauge is lowered *)
| WSample (sp : nat)     (* 148: the sampler *)
| WRelease (sp : nat)    (* 161 *)
| WFlush                 (* 164: the last flush *)
| WDone (notified : bool). (* 165-166: the wait group; then the goroutine ends *)
(** Report after the send, line 91; Close and sendCloseEvent, lines 99-115. *)
Inductive pc :=
| RBump                  (* 91: before the gauge is raised *)
| RDone
| CSwap                  (* 100 *)
| CPush                  (* 112: blocks while the queue is full *)
| CBump                  (* 113 *)
| CWait                  (* 114 *)
| CSender                (* 104 *)
| CDone.
Record state := mkS { cap : nat; queue : list item; gauge : Z; dropped : nat; closed : bool; work : worker; thr : list pc }.
(** NewSlowReporter, lines 57-84 ([cap] is 100). *)
Definition reporter (cap : nat) : state := mkS cap [] 0 0 false WWait [].

Inductive label :=
| LReport (sp : nat)     (* Report, 86-96: up to the end of its select *)
| LClose                 (* Close is called *)
| LStep (i : nat)        (* Report or Close goes on *)
| LTick                  (* 134-135 *)
| LWork.                 (* the worker goes on *)
Inductive event :=
| ERetain (sp : nat) | EQueued (sp : nat) | EDropped (sp : nat)
| EPushed (i : nat)      (* the close item is in the queue *)
| ESampled (sp : nat)    (* the sampler was asked *)
| EAppend (sp : nat) | ERelease (sp : nat) | EFlush | ESenderClose | EClosed (i : nat).

Section Reporter.
Variable sampled : nat -> bool.

Definition set (s : state) (i : nat) (p : pc) : state := mkS (cap s) (queue s) (gauge s) (dropped s) (closed s) (work s) (upd (thr s) i p).
Definition step (s : state) (l : label) : option (state * list event) :=
  match l with
  | LReport sp =>
    (* the value to send, and with it the call of Retain, is computed before the select chooses *)
    if length (queue s) <? cap s
    then Some (mkS (cap s) (queue s ++ [ISpan sp]) (gauge s) (dropped s) (closed s) (work s) (thr s ++ [RBump]), [ERetain sp; EQueued sp])
    else Some (mkS (cap s) (queue s) (gauge s) (S (dropped s)) (closed s) (work s) (thr s ++ [RDone]), [ERetain sp; EDropped sp])
  | LClose => Some (mkS (cap s) (queue s) (gauge s) (dropped s) (closed s) (work s) (thr s ++ [CSwap]), [])
  | LStep i =>
    match nth_error (thr s) i with
    | Some RBump => Some (mkS (cap s) (queue s) (gauge s + 1) (dropped s) (closed s) (work s) (upd (thr s) i RDone), [])
    | Some CSwap =>
      if closed s then Some (set s i CDone, [EClosed i])
      else Some (mkS (cap s) (queue s) (gauge s) (dropped s) true (work s) (upd (thr s) i CPush), [])
    | Some CPush =>
      if length (queue s) <? cap s
      then Some (mkS (cap s) (queue s ++ [IClose]) (gauge s) (dropped s) (closed s) (work s) (upd (thr s) i CBump), [EPushed i])
      else None
    | Some CBump => Some (mkS (cap s) (queue s) (gauge s + 1) (dropped s) (closed s) (work s) (upd (thr s) i CWait), [])
    | Some CWait => match work s with WDone true => Some (set s i CSender, []) | _ => None end
    | Some CSender => Some (set s i CDone, [ESenderClose; EClosed i])
    | _ => None
    end
  | LTick => match work s with WWait => Some (s, [EFlush]) | _ => None end
  | LWork =>
    let go w := mkS (cap s) (queue s) (gauge s) (dropped s) (closed s) w (thr s) in
    match work s with
    | WWait =>
      match queue s with
      | it :: q => Some (mkS (cap s) q (gauge s) (dropped s) (closed s) (WGot it) (thr s), [])
      | [] => None
      end
    | WGot it =>
      Some (mkS (cap s) (queue s) (gauge s - 1) (dropped s) (closed s)
              (match it with ISpan sp => WSample sp | IClose => WFlush end) (thr s), [])
    | WSample sp => Some (go (WRelease sp), ESampled sp :: (if sampled sp then [EAppend sp] else []))
    | WRelease sp => Some (go WWait, [ERelease sp])
    | WFlush => Some (go (WDone false), [EFlush])
    | WDone false => Some (go (WDone true), [])
    | WDone true => None
    end
  end.
End Reporter.
