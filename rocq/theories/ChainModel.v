(** Model of /repo/core/actor/actor_chain.go: DefaultChain. *)
From Coq Require Import List.
Import ListNotations.

Section Chain.
(** [S]: everything a handler can read and change (the wrapper, the actor);
    [E]: errors; [P]: panic values. *)
Context {S E P : Type}.

(** How a handler ends: returns nil, returns an error, panics. *)
Inductive outcome := Nil | Err (e : E) | Panic (p : P).
(** type EventHandler: what it does to the state and how it ends. *)
Definition handler := S -> S * outcome.

(** type DefaultChain, lines 5-9. *)
Record chain := mkChain { Before : list handler; After : list handler; Handler : handler }.

(** A range loop that leaves at the first error, lines 14-19 and 26-31.  The
    list returned is the handlers that were called. *)
Fixpoint range (hs : list handler) (s : S) : S * outcome * list handler :=
  match hs with
  | [] => (s, Nil, [])
  | h :: rest =>
    match h s with
    | (s1, Nil) => let '(s2, o, called) := range rest s1 in (s2, o, h :: called)
    | (s1, o) => (s1, o, [h])
    end
  end.

(** Execute, lines 11-35. *)
Definition Execute (c : chain) (s : S) : S * outcome * list handler :=
  match range (Before c) s with
  | (s1, Nil, called1) =>
    match Handler c s1 with
    | (s2, Nil) =>
      let '(s3, o, called2) := range (After c) s2 in (s3, o, called1 ++ Handler c :: called2)
    | (s2, o) => (s2, o, called1 ++ [Handler c])
    end
  | (s1, o, called1) => (s1, o, called1)
  end.
End Chain.
Arguments outcome : clear implicits.
Arguments handler : clear implicits.
Arguments chain : clear implicits.
