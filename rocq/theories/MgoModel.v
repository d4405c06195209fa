(** Model of the manager of Mongo clients (/repo/3rd/mgo/mgr.go 14-78, mgr_opts.go 9-60) and of the tracing of its
    collections (/repo/3rd/mgo/collection.go 14-55 and the like).

    Names and addresses are numbers.  Whether a server answers is a parameter of each Build.  The
    calls are taken one after another: Build fills the map without the lock that Collection takes,
    so calls that overlap race, and are not modelled.  The time and pool settings, the driver and what
    an operation does in the database are not modelled. *)
From Coq Require Import List Bool Arith.
Import ListNotations.

Record conn := mkC { addr : nat; name : nat }.
Inductive opt := AppendConn (c : conn) | WithTracer (t : nat) | WithTimes.
Record parm := mkP { ptracer : option nat; conns : list conn }.
(** mgr_opts.go 26-60 *)
Definition apply (p : parm) (o : opt) : parm :=
  match o with
  | AppendConn c => if existsb (fun d => Nat.eqb (addr d) (addr c)) (conns p) then p else mkP (ptracer p) (conns p ++ [c])
  | WithTracer t => mkP (Some t) (conns p)
  | WithTimes => p
  end.
(** A client is known by its address; the map has the newest entry first. *)
Record mgr := mkM { clients : list (nat * nat); trc : option nat }.
Record state := mkS { ptr : option mgr; once : bool }.
Definition init : state := mkS None false.
Inductive event := Connected (a : nat) | Ping (a : nat) (ok : bool) | Begin (t : nat) | Done.
Inductive outcome := Ok | Client (a : nat) | Panic.
(** mgr.go 40-60: the clients of the connections in order, up to one whose server does not answer. *)
Fixpoint dial (up : nat -> bool) (cs : list conn) (m : list (nat * nat)) : list (nat * nat) * bool * list event :=
  match cs with
  | [] => (m, true, [])
  | c :: cs =>
    if up (addr c) then let '(m', ok, es) := dial up cs ((name c, addr c) :: m) in (m', ok, Connected (addr c) :: Ping (addr c) true :: es)
    else (m, false, [Connected (addr c); Ping (addr c) false])
  end.
(** mgr.go 27-64.  once.Do counts a call that panics as done. *)
Definition build (s : state) (os : list opt) (up : nat -> bool) : state * outcome * list event :=
  if once s then (s, Ok, []) else
  let p := fold_left apply os (mkP None []) in
  let '(m, ok, es) := dial up (conns p) [] in
  (mkS (Some (mkM m (ptracer p))) true, if ok then Ok else Panic, es).
Definition lookup (m : list (nat * nat)) (n : nat) : option nat := option_map snd (find (fun e => Nat.eqb (fst e) n) m).
(** An LCollection, mgr.go 75-77: its client; the tracer is not set. *)
Record coll := mkL { ltrc : option nat; cli : nat }.
(** mgr.go 66-78; None: a panic, of 72 or of a nil manager. *)
Definition collection (s : state) (n : nat) : option coll :=
  match ptr s with
  | None => None
  | Some m => match lookup (clients m) n with None => None | Some a => Some (mkL None a) end
  end.
(** An operation such as Find, collection.go 19-55: [span t] says whether the tracer gives a span. *)
Definition operate (span : nat -> bool) (c : coll) : list event :=
  match ltrc c with
  | None => [Done]
  | Some t => if span t then [Begin t; Done] else [Done]
  end.
Inductive call := Build (os : list opt) (up : nat -> bool) | Operate (n : nat) (span : nat -> bool).
Definition step (s : state) (c : call) : state * outcome * list event :=
  match c with
  | Build os up => build s os up
  | Operate n span => match collection s n with None => (s, Panic, []) | Some l => (s, Client (cli l), operate span l) end
  end.
Fixpoint calls (s : state) (cs : list call) : state * list (outcome * list event) :=
  match cs with
  | [] => (s, [])
  | c :: cs => let '(s1, o, es) := step s c in let '(s2, r) := calls s1 cs in (s2, (o, es) :: r)
  end.
