(** Model of how a server takes requests (/repo/lib/grpc/server.go 26-57, server_opt.go 18-51;
    /repo/core/node/system_acceptor.go 48-114).

    A handler takes a request to a list of events and an outcome.  An interceptor is any
    function from the handler that it wraps to a handler; grpc_middleware.ChainUnaryServer
    wraps the handler in the last one first.  gRPC: a panic that leaves the outermost
    interceptor ends the process.  What System.Call does is a parameter of the acceptor; it
    may panic.  Connections, listening, deadlines and streams (of which the service has none)
    are not modelled; decoding is in WireModel. *)
From Coq Require Import List Arith Bool.
Import ListNotations.

(** A request: RouteReq.Msg and its Header may be missing. *)
Record header := mkH { target : nat; event_name : nat }.
Record message := mkM { head : option header; payload : nat }.
Record request := mkR { msg : option message }.
Inductive event := ECall (m : message) (h : header) | ESpanStart | ESpanFinish | EUser (n : nat).
Inductive outcome := Answer (res : option nat) (err : bool) | Panicked.
Definition handler := request -> list event * outcome.
Definition interceptor := handler -> handler.
(** grpc_middleware.ChainUnaryServer *)
Definition chain (is : list interceptor) (h : handler) : handler := fold_right (fun i k => i k) h is.

(** ServerParm and its options, server_opt.go 7-51. *)
Record parm := mkP { listen : option nat; (* None: ":14222", server.go 29 *)  unary : list interceptor; stream : list interceptor; service : option handler; graceful : bool }.
Inductive opt := WithServerListen (a : nat) | WithServerGracefulStop | AppendUnary (is : list interceptor) | AppendStream (i : interceptor) | RegisterHandler (h : handler).
Definition apply (p : parm) (o : opt) : parm :=
  match o with
  | WithServerListen a => mkP (Some a) (unary p) (stream p) (service p) (graceful p)
  | WithServerGracefulStop => mkP (listen p) (unary p) (stream p) (service p) true
  | AppendUnary is => mkP (listen p) (unary p ++ is) (stream p) (service p) (graceful p)
  | AppendStream i => mkP (listen p) (unary p) (stream p ++ [i]) (service p) (graceful p)
  | RegisterHandler h => mkP (listen p) (unary p) (stream p) (Some h) (graceful p)
  end.
(** BuildServerWithOption, server.go 26-57, and Run, 78-91, which registers the handler: how
    the server answers a request and a stream.  None: the panic of 45. *)
Record server := mkS { answer : handler; answer_stream : handler; at_addr : option nat; waits : bool }.
Definition build (os : list opt) : option server :=
  let p := fold_left apply os (mkP None [] [] None false) in
  match service p with
  | None => None
  | Some h => Some (mkS (match unary p with [] => h | is => chain is h end) h (listen p) (graceful p)) (* 38-42: no option for streams *)
  end.

(** grpc_recovery.UnaryServerInterceptor with recoverHandler, system_acceptor.go 48-56. *)
Definition recovery : interceptor := fun h r => let (es, o) := h r in (es, match o with Panicked => Answer None true | _ => o end).
(** span.ServerInterceptor: the deferred Finish runs also on a panic. *)
Definition tracing : interceptor := fun h r => let (es, o) := h r in (ESpanStart :: es ++ [ESpanFinish], o).
(** Routing, 94-114. [call] is System.Call: what it leaves in Res, whether it errs; None: it
    panics. *)
Definition routing (call : message -> header -> option (nat * bool)) : handler := fun r =>
  match msg r with
  | None => ([], Panicked)                     (* 101: Req is nil *)
  | Some m =>
    match head m with
    | None => ([], Panicked)                   (* 101: Header is nil *)
    | Some h => ([ECall m h], match call m h with None => Panicked | Some (res, _) => Answer (Some res) false end)
    end
  end.
(** NewAcceptor, 58-87; [trac]: there is a tracer. *)
Definition acceptor (port : nat) (trac : bool) (call : message -> header -> option (nat * bool)) : option server :=
  let is := [recovery] ++ (if trac then [tracing] else []) in
  build [WithServerListen port; WithServerGracefulStop; RegisterHandler (routing call); AppendUnary is].
