(** Model of how a gRPC client is built and how it dials (/repo/lib/grpc/client_opt.go 10-95,
    client.go 37-73, 97-109).

    An invoker takes a request to a list of events and whether it fails; an interceptor is any
    function from the invoker that it wraps to an invoker; grpc_middleware.ChainUnaryClient wraps
    the invoker in the last one first.  grpc: the dial options are applied in the order given,
    WithUnaryInterceptor and the credentials replace what was there.  Other dial options are
    numbers.  Addresses are numbers; which dials succeed is an input.  Calls are in ClientModel,
    whose capacity and connections this gives. *)
From Coq Require Import List ZArith Bool.
Import ListNotations.
Open Scope Z_scope.

Inductive event := EWire (r : nat) | EUser (n : nat).
Definition invoker := nat -> list event * bool.
Definition interceptor := invoker -> invoker.
(** grpc_middleware.ChainUnaryClient *)
Definition chain (is : list interceptor) (k : invoker) : invoker := fold_right (fun i k => i k) k is.

Inductive credentials := Insecure | Secure (n : nat).
(** grpc.DialOption *)
Inductive dial_option := DCreds (c : credentials) | DUnary (i : interceptor) | DOther (n : nat).

(** ClientParm, client_opt.go 10-24 (times in nanoseconds). *)
Record parm := mkP
  { pool_init : Z; pool_capacity : Z; pool_idle : Z; max_calls : Z; call_timeout : Z;
    addresses : list nat; dial_options : list dial_option; unary : list interceptor; stream : list nat }.
(** DefaultClientParm, 26-34. *)
Definition defaults : parm := mkP 8 64 (100 * 10 ^ 9) 1024 (10 * 10 ^ 9) [] [] [] [].

(** The options, 40-95, one for each function. *)
Inductive opt :=
| WithClientPoolInitNum (n : Z) | WithClientPoolCapacity (n : Z) | WithClientPoolIdle (second : Z)
| WithClientConns (l : list nat) | WithMaxConcurrentCalls (n : Z) | WithCallTimeout (t : Z)
| WithDialOptions (l : list dial_option) | ClientAppendUnary (l : list interceptor) | ClientAppendStream (i : nat).
Definition apply (p : parm) (o : opt) : parm :=
  let 'mkP a b c m t l d u s := p in
  match o with
  | WithClientPoolInitNum n => mkP n b c m t l d u s
  | WithClientPoolCapacity n => mkP a n c m t l d u s
  | WithClientPoolIdle x => mkP a b (x * 10 ^ 9) m t l d u s
  | WithClientConns l' => mkP a b c m t (l ++ l') d u s
  | WithMaxConcurrentCalls n => mkP a b c n t l d u s
  | WithCallTimeout x => mkP a b c m x l d u s
  | WithDialOptions d' => mkP a b c m t l (d ++ d') u s
  | ClientAppendUnary u' => mkP a b c m t l d (u ++ u') s
  | ClientAppendStream i => mkP a b c m t l d u (s ++ [i])
  end.

(** BuildClientWithOption, client.go 37-49.  None: make panics on a negative size. *)
Definition build (os : list opt) : option parm :=
  let p := fold_left apply os defaults in
  if max_calls p <? 0 then None else Some p.

(** newconn, 58-64: the options of a dial. *)
Definition dialled (p : parm) : list dial_option :=
  [DCreds Insecure]
  ++ (match unary p with [] => [] | is => [DUnary (chain is)] end)
  ++ dial_options p.

(** What grpc makes of them: a connection. *)
Record conn := mkC { creds : option credentials; wraps : option interceptor; others : list nat }.
Definition dial_apply (c : conn) (d : dial_option) : conn :=
  match d with
  | DCreds x => mkC (Some x) (wraps c) (others c)
  | DUnary i => mkC (creds c) (Some i) (others c)
  | DOther n => mkC (creds c) (wraps c) (others c ++ [n])
  end.
Definition connection (p : parm) : conn := fold_left dial_apply (dialled p) (mkC None None []).

(** conn.Invoke: the request through the interceptor to the wire, which answers as it likes. *)
Definition invoke (c : conn) (wire : nat -> bool) : invoker :=
  let k := fun r => ([EWire r], wire r) in
  match wraps c with Some i => i k | None => k end.

(** Init, 97-109: the addresses are dialled in order; those that answer are kept (the last
    connection to an address stays). *)
Definition init_conns (p : parm) (up : nat -> bool) : list nat := filter up (addresses p).
