(** Model of /repo/lib/warpwaitgroup/warpwaitgroup.go: a sync.WaitGroup with a copy of its counter.

    Any number of goroutines call Add, Done, Wait and Count.  Add and Done first change the copy
    and then the wait group, so they are two steps and more.  sync.WaitGroup itself is not in
    /repo; it is modelled step by step after Go 1.22 (sync/waitgroup.go): one 64 bit word holds
    the counter (int32) and the number of waiters and changes atomically; the last Done loads the
    word again, stores 0 and releases the waiters; a released waiter loads the word once more and
    panics unless it is 0.  Simplified: the final load, the store and the releases are one step;
    the number of waiters does not wrap at 2^32.  A panic ends the call it happens in and the
    others go on, as they do if someone recovers it. *)
From Coq Require Import List ZArith Bool Arith.
From Verif Require Import Machine.
Import ListNotations.
Open Scope Z_scope.

(** int32(x). *)
Definition int32 (x : Z) : Z := (x + 2 ^ 31) mod 2 ^ 32 - 2 ^ 31.

(** A call of Add or Done. *)
Inductive op :=
| Counted (d : Z)       (* the copy is changed, lines 17 and 26; sync's Add is to come *)
| Zeroing (k : nat)     (* sync's Add has made the counter 0 with k waiters; the store is to come *)
| Over
| Broken.

(** A call of Wait. *)
Inductive waiter :=
| Blocked               (* counted as a waiter, at the semaphore *)
| Woken                 (* through the semaphore; the last load is to come *)
| Returned
| WBroken.

(** type WrapWaitGroup, lines 9-13: [copy] is its own counter; [cnt] and [wait] are the word of
    the sync.WaitGroup and [sema] its semaphore. *)
Record state := mkState
  { copy : Z; cnt : Z; wait : nat; sema : nat; ops : list op; waiters : list waiter }.

(** The zero value, as made at /repo/router/msg/msg.go 58 and 73. *)
Definition init : state := mkState 0 0 0 0 [] [].

Inductive label :=
| LBegin (d : Z)     (* Add(d), line 17; Done, line 26, is LBegin (-1) *)
| LApply (i : nat)   (* call i: sync's Add up to its first return, lines 20 and 27 *)
| LZero (i : nat)    (* call i: the rest of sync's Add *)
| LWait              (* Wait, line 32, up to the semaphore *)
| LAcquire (j : nat) (* waiter j passes the semaphore *)
| LCheck (j : nat)   (* waiter j: the last load *)
| LCount             (* Count, line 37 *).

Inductive event :=
| EApplied (d : Z)   (* the wait group has got delta d *)
| ERet (i : nat)     (* call i has returned *)
| EPanic             (* a call has panicked *)
| EWaited (j : nat)  (* waiter j has returned *)
| ECount (c : Z)     (* what Count returned *).

Definition step (s : state) (l : label) : option (state * list event) :=
  match l with
  | LBegin d => Some (mkState (int32 (copy s + int32 d)) (cnt s) (wait s) (sema s) (ops s ++ [Counted d]) (waiters s), [])
  | LApply i =>
    match nth_error (ops s) i with
    | Some (Counted d) =>
      let v := int32 (cnt s + d) in
      let set o := mkState (copy s) v (wait s) (sema s) (upd (ops s) i o) (waiters s) in
      if v <? 0 then Some (set Broken, [EApplied d; EPanic])
      else if negb (Nat.eqb (wait s) 0) && (0 <? d) && (v =? int32 d) then Some (set Broken, [EApplied d; EPanic])
      else if (0 <? v) || Nat.eqb (wait s) 0 then Some (set Over, [EApplied d; ERet i])
      else Some (set (Zeroing (wait s)), [EApplied d])
    | _ => None
    end
  | LZero i =>
    match nth_error (ops s) i with
    | Some (Zeroing k) =>
      if (cnt s =? 0) && Nat.eqb (wait s) k
      then Some (mkState (copy s) 0 0 (sema s + k)%nat (upd (ops s) i Over) (waiters s), [ERet i])
      else Some (mkState (copy s) (cnt s) (wait s) (sema s) (upd (ops s) i Broken) (waiters s), [EPanic])
    | _ => None
    end
  | LWait =>
    if cnt s =? 0
    then Some (mkState (copy s) (cnt s) (wait s) (sema s) (ops s) (waiters s ++ [Returned]), [EWaited (length (waiters s))])
    else Some (mkState (copy s) (cnt s) (S (wait s)) (sema s) (ops s) (waiters s ++ [Blocked]), [])
  | LAcquire j =>
    match nth_error (waiters s) j, sema s with
    | Some Blocked, S n => Some (mkState (copy s) (cnt s) (wait s) n (ops s) (upd (waiters s) j Woken), [])
    | _, _ => None
    end
  | LCheck j =>
    match nth_error (waiters s) j with
    | Some Woken =>
      if (cnt s =? 0) && Nat.eqb (wait s) 0
      then Some (mkState (copy s) (cnt s) (wait s) (sema s) (ops s) (upd (waiters s) j Returned), [EWaited j])
      else Some (mkState (copy s) (cnt s) (wait s) (sema s) (ops s) (upd (waiters s) j WBroken), [EPanic])
    | _ => None
    end
  | LCount => Some (s, [ECount (copy s)])
  end.
