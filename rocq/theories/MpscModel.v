(** Model of /repo/lib/mpsc/mpsc.go: the multi-producer single-consumer queue.

    The queue is a state machine whose steps are the atomic actions of the code:
    the pointer swap, the pointer store and the counter addition of Push, the
    non-blocking channel send of setCount, and for the consumer the receive from
    C, the pointer load of Pop (with the consumer-private updates that follow
    it), the counter addition and the channel send.

    Simplifications: the counter is an unbounded integer (the code uses int32,
    so the model is faithful while fewer than 2^31 values are queued); node
    addresses are allocation numbers; values are never nil (Pop's nil is the
    explicit [None]); the Go memory model is sequentially consistent for the
    atomics used. *)
From Coq Require Import List ZArith Bool.
From Verif Require Import Machine.
Import ListNotations.

Section Mpsc.
Context {V : Type}.

(** type node, lines 14-17: next pointer (nil = None) and value. *)
Record node := mkNode { next : option nat; val : option V }.

(** Where the goroutine executing a Push call is (lines 39-49, 80-87). *)
Inductive stage :=
| Swapped          (* after line 43: head swapped, prev.next not yet stored *)
| Linked           (* after line 46 *)
| Added (c : Z)    (* after line 81, AddInt32 returned c *)
| Done.            (* returned *)

(** One Push call: who runs it, the node it allocated, the node it got from the
    swap, and its stage. *)
Record push := mkPush { owner : nat; pnode : nat; pprev : nat; pstage : stage }.

(** Where the consumer goroutine is. *)
Inductive cpc :=
| CIdle                  (* not inside Pop, nothing received *)
| CGot                   (* received from C, about to call Pop *)
| CPopped (v : V)        (* after lines 56-60 *)
| CAdded (c : Z) (v : V) (* after AddInt32(-1) of line 81 returned c *).

(** type Queue, lines 19-23, plus the goroutines. [heap] is the allocated
    nodes; [chan] the content of the channel C of capacity 1. *)
Record state := mkState {
  heap : list node; head : nat; tail : nat; chan : option Z; count : Z;
  pushes : list push; cons : cpc }.

(** New, lines 25-34. *)
Definition init : state := mkState [mkNode None None] 0 0 None 0 [] CIdle.

Inductive label :=
| LSwap (p : nat) (v : V) (* goroutine p calls Push(v): lines 40-43 *)
| LLink (i : nat)         (* the i-th Push: line 46 *)
| LAdd (i : nat)          (* the i-th Push: line 81 *)
| LSend (i : nat)         (* the i-th Push: lines 82-87, then return *)
| LRecv                   (* consumer: <-q.C *)
| LPop                    (* consumer: lines 55-60, or return nil *)
| LDec                    (* consumer: line 61, AddInt32 *)
| LCSend                  (* consumer: lines 82-87, then return v *).

(** What can be observed: a Push returning, a Pop returning. *)
Inductive event := EPushed (i : nat) | EPop (r : option V).

Definition in_flight (p : push) : bool :=
  match pstage p with Done => false | _ => true end.
Definition busy (pid : nat) (l : list push) : bool :=
  existsb (fun p => (owner p =? pid) && in_flight p) l.

Definition set_stage (p : push) (s : stage) : push :=
  mkPush (owner p) (pnode p) (pprev p) s.

(** select { case q.C <- count: default: }, guarded by count > 0. *)
Definition offer (c : Z) (ch : option Z) : option Z :=
  if (0 <? c)%Z then match ch with None => Some c | Some x => Some x end else ch.

Definition step (s : state) (l : label) : option (state * list event) :=
  match l with
  | LSwap p v =>
    (* a goroutine runs one Push at a time *)
    if busy p (pushes s) then None
    else let n := length (heap s) in
      Some (mkState (heap s ++ [mkNode None (Some v)]) n (tail s) (chan s) (count s)
              (pushes s ++ [mkPush p n (head s) Swapped]) (cons s), [])
  | LLink i =>
    match nth_error (pushes s) i with
    | Some pu =>
      match pstage pu, nth_error (heap s) (pprev pu) with
      | Swapped, Some nd =>
        Some (mkState (upd (heap s) (pprev pu) (mkNode (Some (pnode pu)) (val nd)))
                (head s) (tail s) (chan s) (count s)
                (upd (pushes s) i (set_stage pu Linked)) (cons s), [])
      | _, _ => None
      end
    | None => None
    end
  | LAdd i =>
    match nth_error (pushes s) i with
    | Some pu =>
      match pstage pu with
      | Linked => let c := (count s + 1)%Z in
        Some (mkState (heap s) (head s) (tail s) (chan s) c
                (upd (pushes s) i (set_stage pu (Added c))) (cons s), [])
      | _ => None
      end
    | None => None
    end
  | LSend i =>
    match nth_error (pushes s) i with
    | Some pu =>
      match pstage pu with
      | Added c =>
        Some (mkState (heap s) (head s) (tail s) (offer c (chan s)) (count s)
                (upd (pushes s) i (set_stage pu Done)) (cons s), [EPushed i])
      | _ => None
      end
    | None => None
    end
  | LRecv =>
    match cons s, chan s with
    | CIdle, Some _ =>
      Some (mkState (heap s) (head s) (tail s) None (count s) (pushes s) CGot, [])
    | _, _ => None
    end
  | LPop =>
    match cons s with
    | CIdle | CGot =>
      match nth_error (heap s) (tail s) with
      | Some tl =>
        match next tl with
        | None =>
          Some (mkState (heap s) (head s) (tail s) (chan s) (count s) (pushes s) CIdle,
                [EPop None])
        | Some n =>
          match nth_error (heap s) n with
          | Some nd =>
            match val nd with
            | Some v =>
              Some (mkState (upd (heap s) n (mkNode (next nd) None)) (head s) n
                      (chan s) (count s) (pushes s) (CPopped v), [])
            | None => None
            end
          | None => None
          end
        end
      | None => None
      end
    | _ => None
    end
  | LDec =>
    match cons s with
    | CPopped v => let c := (count s - 1)%Z in
      Some (mkState (heap s) (head s) (tail s) (chan s) c (pushes s) (CAdded c v), [])
    | _ => None
    end
  | LCSend =>
    match cons s with
    | CAdded c v =>
      Some (mkState (heap s) (head s) (tail s) (offer c (chan s)) (count s) (pushes s) CIdle,
            [EPop (Some v)])
    | _ => None
    end
  end.

(** Empty, lines 70-74 (None: the tail pointer dangles; shown impossible). *)
Definition Empty (s : state) : option bool :=
  match nth_error (heap s) (tail s) with
  | Some tl => Some (match next tl with None => true | Some _ => false end)
  | None => None
  end.
(** Count, lines 76-78. *)
Definition Count (s : state) : Z := count s.
End Mpsc.
Arguments state : clear implicits.
Arguments label : clear implicits.
Arguments event : clear implicits.
Arguments node : clear implicits.
Arguments cpc : clear implicits.
