(** Model of the configuration of the tracer (/repo/lib/tracer/jaegertracing.go 39-127, opts.go
    10-79) and of the choice of spans to send (/repo/lib/tracer/slow_reporter.go 59-83, 139-161).

    Names are numbers, the empty one 0; durations are milliseconds.  A rate is a whole number of parts of
    [top], jaeger's largest random number; a trace id is a number from 0 to [top].
    jaeger: NewProbabilisticSampler gives no sampler for a rate below 0 or above 1, and samples
    the ids up to its rate; the constant sampler samples all traces unless its parameter is 0;
    a method of a missing sampler is a nil dereference; a probabilistic sampler of a bad rate
    makes NewTracer err, and so does an empty name of the service.  Other types of sampler, transports and their errors are not modelled; the queue
    and the counters are in ReporterModel. *)
From Coq Require Import List ZArith Bool.
Import ListNotations.
Local Open Scope Z_scope.

Definition factory := nat.
Inductive sampler := Const | Probabilistic.
Record parm := mkP { pname : nat; rate : Z; kind : sampler; slow_request : Z; slow_span : Z; factories : list (nat * factory) }.
(** opts.go 25-79; those for the transport do nothing here. *)
Inductive opt := WithServiceName (n : nat) | WithProbabilistic (r : Z) | WithSamplerType (k : sampler) | WithSlowRequest (ms : Z) | WithSlowSpan (ms : Z) | WithSpanFactory (fs : list (nat * factory)) | WithTransport.
Definition apply (p : parm) (o : opt) : parm :=
  match o with
  | WithServiceName n => mkP n (rate p) (kind p) (slow_request p) (slow_span p) (factories p)
  | WithProbabilistic r => mkP (pname p) r (kind p) (slow_request p) (slow_span p) (factories p)
  | WithSamplerType k => mkP (pname p) (rate p) k (slow_request p) (slow_span p) (factories p)
  | WithSlowRequest ms => mkP (pname p) (rate p) (kind p) ms (slow_span p) (factories p)
  | WithSlowSpan ms => mkP (pname p) (rate p) (kind p) (slow_request p) ms (factories p)
  | WithSpanFactory fs => mkP (pname p) (rate p) (kind p) (slow_request p) (slow_span p) (factories p ++ fs)
  | WithTransport => p
  end.
(** jaegertracing.go 73-77: a map; a name that is there stays. *)
Definition has (m : list (nat * factory)) (n : nat) : bool := existsb (fun f => Nat.eqb (fst f) n) m.
Definition import (fs : list (nat * factory)) : list (nat * factory) := fold_left (fun m f => if has m (fst f) then m else m ++ [f]) fs [].
(** NewProbabilisticSampler *)
Definition prob (top r : Z) : option Z := if (0 <=? r) && (r <=? top) then Some r else None.
Record tracer := mkT { table : list (nat * factory); decides : sampler; param : Z; reporter : option Z (* the sampler of slow_reporter.go 65, whose error is dropped *) }.
(** BuildWithOption, 39-96; None: the panic of 89.  The default name is "braid". *)
Definition build (top : Z) (os : list opt) : option tracer :=
  let p := fold_left apply os (mkP 1%nat top Const 200 50 []) in
  if Nat.eqb (pname p) 0 then None else
  match kind p, prob top (rate p) with
  | Probabilistic, None => None
  | _, r => Some (mkT (import (factories p)) (kind p) (rate p) r)
  end.
(** GetSpan, 114-127: the factory used; None: ErrFactoryNotExist. *)
Definition get_span (t : tracer) (n : nat) : option factory := option_map snd (find (fun f => Nat.eqb (fst f) n) (table t)).
(** A span that ends: its trace id and its duration.  jaeger reports it when its trace is
    sampled; the reporter samples once more (slow_reporter.go 148-152). *)
Inductive fate := Unsampled | Skipped | Sent | Crash.
Definition sampled (t : tracer) (id : Z) : bool := match decides t with Const => negb (param t =? 0) | Probabilistic => id <=? param t end.
Definition finish (t : tracer) (id duration : Z) : fate :=
  if negb (sampled t id) then Unsampled else
  match reporter t with
  | None => Crash
  | Some r => if id <=? r then Sent else Skipped
  end.
