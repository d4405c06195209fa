(** Model of the Redis client's configuration (/repo/3rd/redis/client.go 13-52, client_opt.go
    12-107) and of GetCmdsByteSlice (client_utils.go 11-24).

    A configuration gives every field a number (durations in seconds; texts are numbers too).
    WithAddr carries what redis.ParseURL makes of its text: a whole configuration, or nothing
    when the text is no URL.  Whether the server answers Ping is an input.  go-redis fills in
    its own defaults for fields that are zero; that, and the commands, are not modelled.
    A client is the configuration it was built with (35 passes a pointer to that of the
    package; whether go-redis copies it is not modelled).  A build is one step. *)
From Coq Require Import List ZArith Bool.
Import ListNotations.
Local Open Scope Z_scope.

Inductive field := FAddr | FUser | FPassword | FDB | FRead | FWrite | FDial | FLife | FIdle | FMaxIdle | FMinIdle | FPool | FPoolTimeout | FTracer.
Definition field_eq (a b : field) : {a = b} + {a <> b}.
Proof. decide equality. Defined.
Definition conf := field -> Z.
Definition set (c : conf) (f : field) (z : Z) : conf := fun g => if field_eq g f then z else c g.
(** client.go 15-22. *)
Definition defaults : conf := fun f => match f with FRead | FWrite => 10 | FMinIdle => 128 | FPool => 1024 | _ => 0 end.
(** client_opt.go 20-107, one for each function. *)
Inductive opt :=
| WithAddr (url : option conf) | WithDomain (z : Z) | WithUsername (z : Z) | WithPassword (z : Z) | WithReadTimeOut (z : Z) | WithWriteTimeOut (z : Z)
| WithConnectTimeOut (z : Z) | WithIdleTimeout (z : Z) | WithMaxIdle (z : Z) | WithMinIdle (z : Z) | WithPoolSize (z : Z) | WithPoolTimeout (z : Z) | WithTracer (z : Z).
(** None: the panic of 24. *)
Definition apply (o : opt) (c : conf) : option conf :=
  match o with
  | WithAddr (Some p) => Some (set p FTracer (c FTracer)) (* 26: c.redisopt = *p; the tracer is beside redisopt *)
  | WithAddr None => None
  | WithDomain z => Some (set c FAddr z)
  | WithUsername z => Some (set c FUser z)
  | WithPassword z => Some (set c FPassword z)
  | WithReadTimeOut z => Some (set c FRead z)
  | WithWriteTimeOut z => Some (set c FWrite z)
  | WithConnectTimeOut z => Some (set c FLife z) (* 66: ConnMaxLifetime *)
  | WithIdleTimeout z => Some (set c FIdle z)
  | WithMaxIdle z => Some (set c FMaxIdle z)
  | WithMinIdle z => Some (set c FMinIdle z)
  | WithPoolSize z => Some (set c FPool z)
  | WithPoolTimeout z => Some (set c FPoolTimeout z)
  | WithTracer z => Some (set c FTracer z)
  end.
(** The package's variables: defaultClientConfig and client. *)
Record state := mkS { config : conf; client : option conf }.
Definition init : state := mkS defaults None.
Inductive outcome := Built (c : conf) | BadURL | NoAnswer.
(** client.go 27-29: the options change the package's configuration one after the other. *)
Fixpoint apply_all (os : list opt) (c : conf) : conf * bool :=
  match os with
  | [] => (c, true)
  | o :: r => match apply o c with Some c' => apply_all r c' | None => (c, false) end
  end.
(** client.go 25-44. *)
Definition build (s : state) (os : list opt) (answers : bool) : state * outcome :=
  match apply_all os (config s) with
  | (c, false) => (mkS c (client s), BadURL)
  | (c, true) => (mkS c (Some c), if answers then Built c else NoAnswer)
  end.
(** The builds of a process, in order. *)
Fixpoint builds (s : state) (l : list (list opt * bool)) : state * list outcome :=
  match l with
  | [] => (s, [])
  | (os, a) :: r => let (s1, x) := build s os a in let (s2, xs) := builds s1 r in (s2, x :: xs)
  end.

(** client_utils.go 11-24.  A command of a pipeline: a string command with its value or its
    error, or one of another type. *)
Inductive cmd := CVal (v : Z) | CErr (e : Z) | COther.
Inductive ret := Ret (vals : list Z) (err : option Z) | Panic.
Fixpoint get_cmds (cmds : list cmd) (bts : list Z) : ret :=
  match cmds with
  | [] => Ret bts None
  | COther :: _ => Panic                      (* 15: the type assertion *)
  | CErr _ :: _ => Ret bts None               (* 16-19: the err that is set is the loop's own *)
  | CVal v :: r => get_cmds r (bts ++ [v])
  end.
