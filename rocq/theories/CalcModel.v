(** Model of the events "reenter" and "chain" of the actors of the tests
    (/repo/tests/mock/mock_actor_a.go 33-50 and 86-104, mock_actor_b.go 33-44): a handler asks
    another actor for a number by ReenterCall and leaves continuations that work on a variable
    all of them share.

    The first part is what the message holds (MsgModel, and NestModel for what a call to
    another node does to it); the second is the handlers, their futures
    (core/actor/actor_reenter_impl.go) and the loop of the actor
    (core/actor/actor_runtime_impl.go 191-278, 320-353), for any number of messages.

    Simplified: the goroutine of the call, its future and the push to the queue are one step
    (LReturn), and the queue gives the actions in any order; FutureModel and ReenterModel have
    them step by step.  A continuation and the completion of the future it was registered with
    are one step: between the two, nothing but that future changes hands. *)
From Coq Require Import List ZArith Bool String.
From Verif Require Import Machine MsgModel NestModel.
Import ListNotations.
Open Scope Z_scope.
Open Scope list_scope.

(** "calculateVal" *)
Definition key : gostr := map Rune [99; 97; 108; 99; 117; 108; 97; 116; 101; 86; 97; 108].
(** int arithmetic. *)
Definition wrap64 (v : Z) : Z := (v + 2 ^ 63) mod 2 ^ 64 - 2 ^ 63.
(** int32(...), and what atomic.AddInt32 does. *)
Definition wrap32 (v : Z) : Z := (v + 2 ^ 31) mod 2 ^ 32 - 2 ^ 31.

(** mock_actor_a.go 37-38, 90-91. *)
Definition ask (b : builder) : option builder := WithCustomFields Req [(key, GInt Int 2)] b.
(** mock_actor_b.go 37-38: None where it panics or the language leaves the number open. *)
Definition clac (b : builder) : option builder :=
  match GetCustomField Req b key (TInt Int) with
  | Got (GInt _ v) => WithCustomFields Res [(key, GInt Int (wrap64 (v + 2)))] b
  | _ => None
  end.
(** ReenterCall to an actor on the own or another node, and actor_runtime_impl.go 268: the
    wrapper made by Swap has the same request and response; its error is another. *)
Definition asked (p : place) (b : builder) : option builder :=
  match ask b with
  | None => None
  | Some b1 =>
    match p with
    | Local => clac b1
    | Remote uid =>
      match hdr Req b1 with
      | Some h => match clac (arrive uid h b1) with Some b2 => Some (back b1 b2) | None => None end
      | None => None
      end
    end
  end.

(** "reenter" has one continuation, "chain" two. *)
Inductive kind := Reenter | Chain.
(** What the future is completed with: a wrapper whose response has that number (the handler's own
    response if the call failed, actor_runtime_impl.go 262-264: the error is not looked at), or
    the wrapper made when the context ends (218-221), which has no response. *)
Inductive outcome := Answer (v : Z) | Ended.
(** The call: under way; its action is in the queue; the action has run. *)
Inductive call_at := Calling | Queued (v : Z) | Acted.
(** The first continuation: not yet given to Then; registered; its goroutine has started; it has
    returned.  [linked]: the future that Then returned is completed after it (lines 33-39), not
    so if the future was completed already (28-31). *)
Inductive first_at := FNone | FWaits | FReady (o : outcome) (linked : bool) | FRan (linked : bool).
(** The second, given to Then of the future the first Then returned. *)
Inductive second_at := SNone | SWaits | SReady | SRan | SNever.
Record job := mkJ { what : kind; fut : option outcome; ret : call_at; first : first_at; second : second_at }.
(** The variable is RecenterCalcValue, line 19. *)
Record state := mkS { jobs : list job; running : option nat; value : Z; dead : bool }.
Definition init : state := mkS [] None 0 false.

Inductive label :=
| LBegin (k : kind)        (* the loop takes a message; the handler calls ReenterCall *)
| LThen                    (* the handler calls Then, 41 and 94 *)
| LThenThen                (* and again, 97 *)
| LEnd                     (* the handler returns *)
| LReturn (j : nat) (v : Z)(* the call has returned, its action is in the queue *)
| LAct (j : nat)           (* the loop runs the action *)
| LCtx (j : nat)           (* the context of the message ends, actor_runtime_impl.go 213-223 *)
| LFirst (j : nat)         (* the first continuation, 41-44 and 94-97 *)
| LSecond (j : nat)        (* the second, 97-99 *).
Inductive event := VBegin (j : nat) (k : kind) | VFirst (j : nat) (v : Z) | VSecond (j : nat) | VCrash.

Definition set (s : state) (j : nat) (x : job) : state := mkS (upd (jobs s) j x) (running s) (value s) (dead s).
(** Complete on the future of ReenterCall, actor_reenter_impl.go 42-57. *)
Definition complete (x : job) (o : outcome) (r : call_at) : job :=
  match fut x with
  | Some _ => mkJ (what x) (fut x) r (first x) (second x)
  | None => mkJ (what x) (Some o) r (match first x with FWaits => FReady o true | f => f end) (second x)
  end.
(** atomic.CompareAndSwapInt32(&RecenterCalcValue, 0, int32(val*2)) *)
Definition swap0 (cell v : Z) : Z := if cell =? 0 then wrap32 (wrap64 (v * 2)) else cell.
Definition finished_handler (x : job) : bool :=
  match first x, what x, second x with FNone, _, _ => false | _, Chain, SNone => false | _, _, _ => true end.

Definition step (s : state) (l : label) : option (state * list event) :=
  if dead s then None else
  match l with
  | LBegin k =>
    match running s with
    | None => Some (mkS (jobs s ++ [mkJ k None Calling FNone SNone]) (Some (List.length (jobs s))) (value s) false, [VBegin (List.length (jobs s)) k])
    | Some _ => None
    end
  | LThen =>
    match running s with
    | Some j => match nth_error (jobs s) j with
      | Some x => match first x with
        | FNone => Some (set s j (mkJ (what x) (fut x) (ret x) (match fut x with None => FWaits | Some o => FReady o false end) (second x)), [])
        | _ => None
        end
      | None => None
      end
    | None => None
    end
  | LThenThen =>
    match running s with
    | Some j => match nth_error (jobs s) j with
      | Some x =>
        match what x, second x with
        | Chain, SNone =>
          let to p := Some (set s j (mkJ (what x) (fut x) (ret x) (first x) p), []) in
          match first x with
          | FNone => None
          | FRan true => to SReady
          | FWaits | FReady _ true => to SWaits
          | FReady _ false | FRan false => to SNever
          end
        | _, _ => None
        end
      | None => None
      end
    | None => None
    end
  | LEnd =>
    match running s with
    | Some j => match nth_error (jobs s) j with
      | Some x => if finished_handler x then Some (mkS (jobs s) None (value s) false, []) else None
      | None => None
      end
    | None => None
    end
  | LReturn j v =>
    match nth_error (jobs s) j with
    | Some x => match ret x with Calling => Some (set s j (mkJ (what x) (fut x) (Queued v) (first x) (second x)), []) | _ => None end
    | None => None
    end
  | LAct j =>
    match running s, nth_error (jobs s) j with
    | None, Some x => match ret x with Queued v => Some (set s j (complete x (Answer v) Acted), []) | _ => None end
    | _, _ => None
    end
  | LCtx j =>
    match nth_error (jobs s) j with
    | Some x => match fut x with None => Some (set s j (complete x Ended (ret x)), []) | Some _ => None end
    | None => None
    end
  | LFirst j =>
    match nth_error (jobs s) j with
    | Some x =>
      match first x with
      | FReady (Answer v) k =>
        Some (mkS (upd (jobs s) j (mkJ (what x) (fut x) (ret x) (FRan k) (match second x, k with SWaits, true => SReady | p, _ => p end)))
                  (running s) (swap0 (value s) v) false, [VFirst j v])
      | FReady Ended _ => Some (mkS (jobs s) (running s) (value s) true, [VCrash])   (* GetResCustomMap dereferences the response, msg_custom_map.go 157 *)
      | _ => None
      end
    | None => None
    end
  | LSecond j =>
    match nth_error (jobs s) j with
    | Some x => match second x with
      | SReady => Some (mkS (upd (jobs s) j (mkJ (what x) (fut x) (ret x) (first x) SRan)) (running s) (wrap32 (value s + 10)) false, [VSecond j])
      | _ => None
      end
    | None => None
    end
  end.
