(** Model of /repo/lib/unbounded/unbounded.go: a channel with a backlog.

    The state is the channel c of capacity 1, the backlog slice and the Put call
    that holds the mutex, if any.  Put is two steps when its non-blocking send
    fails, because a receive (which takes no lock) can happen between the failed
    send and the append; otherwise, and in Load, everything the lock protects
    happens at the single channel operation and is one step.  Len (lines 55-57,
    an unlocked read) is the length of the backlog. *)
From Coq Require Import List.
From Verif Require Import Machine.
Import ListNotations.

Section Unbounded.
Context {V : Type}.

(** type Unbounded, lines 9-14. [holder] is a Put that holds the mutex after
    its send failed (between lines 29 and 32), with its value. *)
Record state := mkState { chan : option V; backlog : list V; holder : option V }.

(** NewUnbounded, lines 17-19. *)
Definition init : state := mkState None [] None.

Inductive label :=
| LPut (v : V)      (* Put: lines 23-31, to the end if the send succeeds or the backlog is not empty *)
| LAppend           (* Put: lines 32-33 after a failed send *)
| LRecv (c : nat)   (* consumer c: <-b.Get() *)
| LLoad (c : nat)   (* consumer c: Load, lines 38-47 *).

Inductive event := ERecv (c : nat) (v : V).

Definition step (s : state) (l : label) : option (state * list event) :=
  match l with
  | LPut v =>
    match holder s with
    | Some _ => None (* mutex taken *)
    | None =>
      match backlog s, chan s with
      | [], None => Some (mkState (Some v) [] None, [])
      | [], Some c => Some (mkState (Some c) [] (Some v), [])
      | b, c => Some (mkState c (b ++ [v]) None, [])
      end
    end
  | LAppend =>
    match holder s with
    | Some v => Some (mkState (chan s) (backlog s ++ [v]) None, [])
    | None => None
    end
  | LRecv c =>
    match chan s with
    | Some v => Some (mkState None (backlog s) (holder s), [ERecv c v])
    | None => None
    end
  | LLoad c =>
    match holder s with
    | Some _ => None
    | None =>
      match backlog s, chan s with
      | v :: b, None => Some (mkState (Some v) b None, [])
      | _, _ => Some (s, [])
      end
    end
  end.

(** Len, lines 55-57. *)
Definition Len (s : state) : nat := length (backlog s).
End Unbounded.
Arguments state : clear implicits.
Arguments label : clear implicits.
Arguments event : clear implicits.
