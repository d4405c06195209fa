(** Actors whose handlers stop other actors.

    A handler may call Unregister of its context (core/actor/actor_context_impl.go
    lines 60-67), which runs in the handler's goroutine, that is, in the loop of
    the actor, and waits inside Exit of the other actor (core/node/system_impl.go
    lines 154-187, core/actor/actor_runtime_impl.go lines 367-377).  This model
    has any number of actors of one node with their loops, each able to wait for
    another one.

    Simplified: Received tests [closed] and pushes in one step; an actor has one queue, of messages (timers and re-entry actions
    are in [ActorModel]); a handler is the list of the actors that it unregisters,
    one after the other, and does nothing else that blocks; the queue delivers what
    it contains ([MpscModel], [UnboundedModel]); ids are not used again after
    Unregister ([RegModel]); the commands to the address book come after Exit and
    are in [AddrModel]. *)
From Coq Require Import List Arith Bool.
From Verif Require Import Machine.
Import ListNotations.

(** Where the loop of an actor is (actor_runtime_impl.go lines 304-364): at its
    select; in a handler with these Unregister calls still to come; inside Exit of
    an actor, called from the handler (line 369), with these calls still to come
    after it; returned (line 361). *)
Inductive place := Idle | Runs (todo : list nat) | Waits (t : nat) (todo : list nat) | Left.

(** actor_runtime_impl.go lines 27-57: [shut], shutdownCh is closed; [closed], the
    field of this name: 0, 1 or 2, closeCh being closed exactly when it is 2 (lines
    297-300); [inmap], the actor is in actoridmap (system_impl.go lines 158-160). *)
Record actor := mkA { inmap : bool; shut : bool; closed : nat; box : list (list nat); at_ : place }.

(** The actors of the node, and the goroutines outside of all loops that are inside
    Exit, by the actor for which they wait ([None]: returned). *)
Record state := mkS { actors : list actor; outside : list (option nat) }.

Inductive label :=
| LSend (a : nat) (todo : list nat)  (* Received of a message whose handler unregisters these *)
| LPop (a : nat)                     (* the loop takes the next message *)
| LUnreg (a : nat)                   (* the handler calls Unregister *)
| LWake (a : nat)                    (* Exit, called from the handler, returns *)
| LDone (a : nat)                    (* the handler returns *)
| LShut (a : nat)                    (* the loop sees shutdownCh *)
| LClose (a : nat) (forced : bool)   (* checkClose closes closeCh *)
| LLeave (a : nat)                   (* the loop sees closeCh *)
| LExt (t : nat)                     (* Unregister from outside all loops *)
| LExtWake (i : nat).                (* Exit of such a call returns *)

Inductive event :=
| VRefused (a : nat)                 (* Received returned an error *)
| VCall (a t : nat)                  (* a handler of [a] called Unregister of [t] *)
| VReturn (a t : nat)                (* and it returned *)
| VPanic (a t : nat)                 (* and it panicked *)
| VExtCall (t : nat) | VExtReturn (t : nat).

Definition set (s : state) (a : nat) (x : actor) : state := mkS (upd (actors s) a x) (outside s).
Definition put (x : actor) (p : place) : actor := mkA (inmap x) (shut x) (closed x) (box x) p.
(** Exit, up to its wait: close(shutdownCh), actor_runtime_impl.go line 368. *)
Definition shutting (x : actor) : actor := mkA (inmap x) true (closed x) (box x) (at_ x).
(** After Exit: delete from actoridmap, system_impl.go lines 167-169. *)
Definition removed (x : actor) : actor := mkA false (shut x) (closed x) (box x) (at_ x).

Definition step (s : state) (l : label) : option (state * list event) :=
  match l with
  (* actor_runtime_impl.go lines 172-190 *)
  | LSend a todo =>
    match nth_error (actors s) a with
    | Some x =>
      if closed x =? 0 then Some (set s a (mkA (inmap x) (shut x) (closed x) (box x ++ [todo]) (at_ x)), [])
      else Some (s, [VRefused a])
    | None => None
    end
  (* lines 320-341 *)
  | LPop a =>
    match nth_error (actors s) a with
    | Some x =>
      match at_ x, box x with
      | Idle, todo :: r => Some (set s a (mkA (inmap x) (shut x) (closed x) r (Runs todo)), [])
      | _, _ => None
      end
    | None => None
    end
  (* system_impl.go lines 158-164 and actor_runtime_impl.go lines 368-369: an actor
     that is not in the map is not waited for; the second close of shutdownCh
     panics, which the loop recovers (lines 331-336) and the handler is over *)
  | LUnreg a =>
    match nth_error (actors s) a with
    | Some x =>
      match at_ x with
      | Runs (t :: r) =>
        match nth_error (actors s) t with
        | Some y =>
          if inmap y then
            if shut y then Some (set s a (put x Idle), [VCall a t; VPanic a t])
            else let s1 := set s t (shutting y) in
                 match nth_error (actors s1) a with
                 | Some x1 => Some (set s1 a (put x1 (Waits t r)), [VCall a t])
                 | None => None
                 end
          else Some (set s a (put x (Runs r)), [VCall a t; VReturn a t])
        | None => Some (set s a (put x (Runs r)), [VCall a t; VReturn a t])
        end
      | _ => None
      end
    | None => None
    end
  (* actor_runtime_impl.go line 369, system_impl.go lines 166-170 *)
  | LWake a =>
    match nth_error (actors s) a with
    | Some x =>
      match at_ x with
      | Waits t r =>
        match nth_error (actors s) t with
        | Some y =>
          if closed y =? 2 then
            let s1 := set s t (removed y) in
            match nth_error (actors s1) a with
            | Some x1 => Some (set s1 a (put x1 (Runs r)), [VReturn a t])
            | None => None
            end
          else None
        | None => None
        end
      | _ => None
      end
    | None => None
    end
  | LDone a =>
    match nth_error (actors s) a with
    | Some x => match at_ x with Runs [] => Some (set s a (put x Idle), []) | _ => None end
    | None => None
    end
  (* actor_runtime_impl.go lines 354-358 *)
  | LShut a =>
    match nth_error (actors s) a with
    | Some x =>
      match at_ x with
      | Idle => if shut x && (closed x =? 0) then Some (set s a (mkA (inmap x) (shut x) 1 (box x) (at_ x)), []) else None
      | _ => None
      end
    | None => None
    end
  (* lines 286-301: the queue is empty, or ten seconds are over *)
  | LClose a forced =>
    match nth_error (actors s) a with
    | Some x =>
      if (closed x =? 1) && (forced || match box x with [] => true | _ => false end)
      then Some (set s a (mkA (inmap x) (shut x) 2 (box x) (at_ x)), []) else None
    | None => None
    end
  (* lines 359-361 *)
  | LLeave a =>
    match nth_error (actors s) a with
    | Some x =>
      match at_ x with
      | Idle => if closed x =? 2 then Some (set s a (put x Left), []) else None
      | _ => None
      end
    | None => None
    end
  (* as LUnreg; a second close of shutdownCh out here ends the process and is no step *)
  | LExt t =>
    match nth_error (actors s) t with
    | Some y =>
      if inmap y && negb (shut y)
      then Some (mkS (upd (actors s) t (shutting y)) (outside s ++ [Some t]), [VExtCall t]) else None
    | None => None
    end
  | LExtWake i =>
    match nth_error (outside s) i with
    | Some (Some t) =>
      match nth_error (actors s) t with
      | Some y =>
        if closed y =? 2
        then Some (mkS (upd (actors s) t (removed y)) (upd (outside s) i None), [VExtReturn t]) else None
      | None => None
      end
    | _ => None
    end
  end.

(** [n] actors after their Init: no message, loops running (actor_runtime_impl.go
    lines 52-78). *)
Definition init (n : nat) : state := mkS (repeat (mkA true false 0 [] Idle) n) [].
