(** Vocabulary for C155-C157. *)
From Coq Require Import List ZArith Bool.
From Verif Require Import DialModel.
Import ListNotations.
Open Scope Z_scope.

(** What the options for a field say, in order. *)
Definition conns_given (os : list opt) : list nat := flat_map (fun o => match o with WithClientConns l => l | _ => [] end) os.
Definition unary_given (os : list opt) : list interceptor := flat_map (fun o => match o with ClientAppendUnary l => l | _ => [] end) os.
Definition dials_given (os : list opt) : list dial_option := flat_map (fun o => match o with WithDialOptions l => l | _ => [] end) os.
(** [n] is what the last option for the number of calls says, 1024 if there is none. *)
Definition last_max (os : list opt) (n : Z) : Prop :=
  (exists a b, os = a ++ WithMaxConcurrentCalls n :: b /\ forall m, ~ In (WithMaxConcurrentCalls m) b) \/
  (n = 1024 /\ forall m, ~ In (WithMaxConcurrentCalls m) os).
(** [x] is what the last dial option for the credentials says, insecure if there is none. *)
Definition last_creds (ds : list dial_option) (x : credentials) : Prop :=
  (exists a b, ds = a ++ DCreds x :: b /\ forall y, ~ In (DCreds y) b) \/
  (x = Insecure /\ forall y, ~ In (DCreds y) ds).
(** An interceptor that notes that it begins (2n) and ends (2n+1). *)
Definition noting (n : nat) : interceptor := fun k r => let (es, b) := k r in (EUser (2 * n) :: es ++ [EUser (2 * n + 1)], b).

(** [j] is [k] with the interceptors around it, the first outermost. *)
Inductive nested (k : invoker) : list interceptor -> invoker -> Prop :=
| nested_none : nested k [] k
| nested_more i is j : nested k is j -> nested k (i :: is) (i j).

(** All that can be seen of a client: whether it can be built, how many calls it lets through,
    where Init connects to, and how a connection behaves. *)
Definition same_client (os os' : list opt) : Prop :=
  match build os, build os' with
  | None, None => True
  | Some p, Some q =>
    max_calls p = max_calls q /\ (forall up, init_conns p up = init_conns q up) /\
    creds (connection p) = creds (connection q) /\ others (connection p) = others (connection q) /\
    (forall wire r, invoke (connection p) wire r = invoke (connection q) wire r)
  | _, _ => False
  end.
(** The options that stand for nothing. *)
Definition idle (o : opt) : Prop :=
  match o with
  | WithClientPoolInitNum _ | WithClientPoolCapacity _ | WithClientPoolIdle _ | WithCallTimeout _ | ClientAppendStream _ => True
  | _ => False
  end.
