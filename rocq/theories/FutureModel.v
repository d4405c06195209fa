(** Model of Future in /repo/core/actor/actor_reenter_impl.go lines 11-66.

    Any number of futures, goroutines calling Then and Complete, and goroutines
    spawned by them.  Then and Complete hold the mutex of their future for their
    whole body, so each is one step; a spawned goroutine is three steps: it
    starts the user's callback, the callback returns, and (for callbacks
    registered while the future was pending) it completes the chained future.
    What a callback does is not modelled: it may do anything, including calling
    Then and Complete, which are steps enabled at any moment.  A callback that
    panics would crash the process; that is not modelled. *)
From Coq Require Import List.
From Verif Require Import Machine.
Import ListNotations.

Section Future.
Context {W : Type}.

(** type Future, lines 11-16. A closed [done] channel is [result = Some _].  A
    callback is its number and the future that the closure of lines 34-37
    completes afterwards. *)
Record future := mkFuture { result : option W; callbacks : list (nat * nat) }.

Inductive tstage := Spawned | Running | Returned | Finished.
(** A goroutine created by a go statement: the callback it runs, its argument,
    the future it completes at the end (lines 36; none for line 29). *)
Record task := mkTask { tcb : nat; targ : W; tchild : option nat; tst : tstage }.

Record state := mkState { futures : list future; ncb : nat; tasks : list task }.
Definition init : state := mkState [] 0 [].

Inductive label :=
| LNew                        (* NewFuture, lines 18-22 *)
| LThen (f : nat)             (* Then, lines 24-40 *)
| LComplete (f : nat) (w : W) (* Complete, lines 42-57, called by the user *)
| LStart (t : nat)            (* goroutine t enters the user's callback *)
| LReturn (t : nat)           (* the callback returns *)
| LChain (t : nat)            (* goroutine t: newFuture.Complete(mw), line 36, or exit *).

Inductive event :=
| EThen (f k c : nat)          (* Then on f registered callback k and returned future c *)
| EComplete (f : nat) (w : W)  (* a call of Complete *)
| EStart (k : nat) (w : W)     (* callback k is called with w *)
| EReturn (k : nat)            (* callback k returned *)
| EFinish (k : nat)            (* its goroutine ended *).

(** IsCompleted, lines 59-66. *)
Definition IsCompleted (fu : future) : bool :=
  match result fu with Some _ => true | None => false end.

(** Complete, lines 42-57. *)
Definition complete (s : state) (f : nat) (w : W) : option state :=
  match nth_error (futures s) f with
  | None => None
  | Some fu =>
    if IsCompleted fu then Some s
    else Some (mkState (upd (futures s) f (mkFuture (Some w) [])) (ncb s)
                 (tasks s ++ map (fun kc => mkTask (fst kc) w (Some (snd kc)) Spawned)
                               (callbacks fu)))
  end.

Definition step (s : state) (l : label) : option (state * list event) :=
  match l with
  | LNew => Some (mkState (futures s ++ [mkFuture None []]) (ncb s) (tasks s), [])
  | LThen f =>
    match nth_error (futures s) f with
    | None => None
    | Some fu =>
      let k := ncb s in
      let c := length (futures s) in
      match result fu with
      | Some r => (* lines 28-31 *)
        Some (mkState (futures s ++ [mkFuture None []]) (S k)
                (tasks s ++ [mkTask k r None Spawned]), [EThen f k c])
      | None =>   (* lines 33-39 *)
        Some (mkState (upd (futures s) f (mkFuture None (callbacks fu ++ [(k, c)]))
                         ++ [mkFuture None []]) (S k) (tasks s), [EThen f k c])
      end
    end
  | LComplete f w =>
    match complete s f w with
    | Some s' => Some (s', [EComplete f w])
    | None => None
    end
  | LStart t =>
    match nth_error (tasks s) t with
    | Some ta =>
      match tst ta with
      | Spawned => Some (mkState (futures s) (ncb s)
          (upd (tasks s) t (mkTask (tcb ta) (targ ta) (tchild ta) Running)),
          [EStart (tcb ta) (targ ta)])
      | _ => None
      end
    | None => None
    end
  | LReturn t =>
    match nth_error (tasks s) t with
    | Some ta =>
      match tst ta with
      | Running => Some (mkState (futures s) (ncb s)
          (upd (tasks s) t (mkTask (tcb ta) (targ ta) (tchild ta) Returned)),
          [EReturn (tcb ta)])
      | _ => None
      end
    | None => None
    end
  | LChain t =>
    match nth_error (tasks s) t with
    | Some ta =>
      match tst ta with
      | Returned =>
        let s1 := mkState (futures s) (ncb s)
          (upd (tasks s) t (mkTask (tcb ta) (targ ta) (tchild ta) Finished)) in
        match tchild ta with
        | None => Some (s1, [EFinish (tcb ta)])
        | Some c =>
          match complete s1 c (targ ta) with
          | Some s2 => Some (s2, [EComplete c (targ ta); EFinish (tcb ta)])
          | None => None
          end
        end
      | _ => None
      end
    | None => None
    end
  end.
End Future.
Arguments state : clear implicits.
Arguments label : clear implicits.
Arguments event : clear implicits.
Arguments future : clear implicits.
Arguments task : clear implicits.
