(** Model of the tracing of calls: the span of System.Call and System.Send
    (/repo/core/node/system_impl.go 207-220 and 373-386, lib/span/span_call.go 50-98), of the
    client interceptor (lib/span/span_grpc.go 39-83, put in by system_impl.go 62-66) and of the
    server interceptor (span_grpc.go 86-113, put in by system_acceptor.go 65-68), for any number
    of calls on any number of nodes.

    A context is what opentracing.SpanFromContext finds in it: a span or none.  mw.Ctx is a
    field of the wrapper, which calls overwrite (210) and which
    handlers in other goroutines may share: it is read and written in two steps.  Spans
    are numbered in the order in which they start.  What a handler does between the steps is
    arbitrary: it may begin calls on any wrapper and build wrappers from the context of another
    (msg.NewBuilder(mw.Ctx)).  All nodes have a tracer; [factory]: the one for System.Call is
    registered (otherwise GetSpan errs and the call has no span of its own, 208-209).  A call
    may end at any moment after Begin (errors, time limits, panics: End is deferred).  The
    context that is handed to the remote call is read from the wrapper at that moment (274,
    440).  A request reaches the other node at most once; it may come too late or not at all.
    jaeger writes the client span into the metadata and reads it back (Inject, Extract);
    metadata with the same key set by the user, errors of Inject and Extract, tags and
    sampling are not modelled. *)
From Coq Require Import List Arith Bool.
From Verif Require Import Machine.
Import ListNotations.

(** One call of System.Call or System.Send, on wrapper [w]. *)
Inductive pc :=
| PEntry                        (* 207 *)
| PStarted                      (* 210: Begin has started the span, mw.Ctx is not yet written *)
| PBegun                        (* after Begin: resolution, local delivery *)
| PClient                       (* in the interceptor, span_grpc.go 62-82 *)
| PReturned                     (* back from the remote call *)
| PEnd.
Record call := mkC {
  w_of : nat;                   (* its wrapper *)
  own : option nat;             (* its span *)
  cli : option nat;             (* the span of the interceptor *)
  got : bool;                   (* its request has reached the other node *)
  at_ : pc }.
(** One request on the other node: its span, the call it comes from, running or not. *)
Record serve := mkV { sspan : nat; sfrom : nat; srun : bool }.
Record state := mkS {
  spans : nat;                  (* the number of spans started *)
  wrappers : list (option nat); (* mw.Ctx *)
  calls : list call;
  serves : list serve }.
Definition init : state := mkS 0 [] [] [].

Inductive kind := SCall (c : nat) | SClient (c : nat) | SServer (v : nat).
Inductive label :=
| LWrap (from : option nat)     (* a wrapper is built, with the context of another or a fresh one *)
| LCall (w : nat)               (* Call or Send begins *)
| LBegin (c : nat)              (* 208-210: Begin; the assignment of its result *)
| LRemote (c : nat)             (* the client interceptor, 51-62 *)
| LServe (c : nat)              (* the server interceptor of the other node, 92-109, and Routing's wrapper *)
| LServed (v : nat)             (* it ends, 108 *)
| LReply (c : nat)              (* the client interceptor ends, 62 *)
| LReturn (c : nat).            (* Call returns: the deferred End, 218 and 384 *)
Inductive event :=
| VWrap (w : nat) (from : option nat)
| VCall (c w : nat)
| VStart (k : nat) (parent : option nat) (what : kind)
| VSet (c k : nat)              (* the context of the wrapper of call c now holds span k *)
| VServe (v c w : nat)          (* request v comes from call c; its wrapper is w *)
| VFinish (k : nat) (what : kind)
| VServed (v : nat)
| VReply (c : nat)
| VReturn (c : nat).

Definition with_spans (s : state) (n : nat) : state := mkS n (wrappers s) (calls s) (serves s).
Definition with_wrappers (s : state) (l : list (option nat)) : state := mkS (spans s) l (calls s) (serves s).
Definition with_calls (s : state) (l : list call) : state := mkS (spans s) (wrappers s) l (serves s).
Definition with_serves (s : state) (l : list serve) : state := mkS (spans s) (wrappers s) (calls s) l.
Definition goto (s : state) (c : nat) (x : call) : state := with_calls s (upd (calls s) c x).

Definition step (factory : bool) (s : state) (l : label) : option (state * list event) :=
  match l with
  | LWrap None => Some (with_wrappers s (wrappers s ++ [None]), [VWrap (length (wrappers s)) None])
  | LWrap (Some w) =>
    match nth_error (wrappers s) w with
    | Some x => Some (with_wrappers s (wrappers s ++ [x]), [VWrap (length (wrappers s)) (Some w)])
    | None => None
    end
  | LCall w =>
    match nth_error (wrappers s) w with
    | Some _ => Some (with_calls s (calls s ++ [mkC w None None false PEntry]), [VCall (length (calls s)) w])
    | None => None
    end
  | LBegin c =>
    match nth_error (calls s) c with
    | Some (mkC w _ _ _ PEntry) =>
      if factory then
        match nth_error (wrappers s) w with
        | Some parent => (* span_call.go 57-62 *)
          let k := spans s in Some (goto (with_spans s (S (spans s))) c (mkC w (Some k) None false PStarted), [VStart k parent (SCall c)])
        | None => None
        end
      else Some (goto s c (mkC w None None false PBegun), [])
    | Some (mkC w (Some k) _ _ PStarted) => Some (goto (with_wrappers s (upd (wrappers s) w (Some k))) c (mkC w (Some k) None false PBegun), [VSet c k])
    | _ => None
    end
  | LRemote c =>
    match nth_error (calls s) c with
    | Some (mkC w o _ _ PBegun) =>
      match nth_error (wrappers s) w with
      | Some parent => let k := spans s in Some (goto (with_spans s (S (spans s))) c (mkC w o (Some k) false PClient), [VStart k parent (SClient c)])
      | None => None
      end
    | _ => None
    end
  | LServe c =>
    match nth_error (calls s) c with
    | Some (mkC w o (Some kc) false p) =>
      let k := spans s in let v := length (serves s) in
      Some (goto (with_serves (with_wrappers (with_spans s (S (spans s))) (wrappers s ++ [Some k])) (serves s ++ [mkV k c true])) c (mkC w o (Some kc) true p),
            [VStart k (Some kc) (SServer v); VServe v c (length (wrappers s))])
    | _ => None
    end
  | LServed v =>
    match nth_error (serves s) v with
    | Some (mkV k c true) => Some (with_serves s (upd (serves s) v (mkV k c false)), [VFinish k (SServer v); VServed v])
    | _ => None
    end
  | LReply c =>
    match nth_error (calls s) c with
    | Some (mkC w o (Some k) g PClient) => Some (goto s c (mkC w o (Some k) g PReturned), [VFinish k (SClient c); VReply c])
    | _ => None
    end
  | LReturn c =>
    match nth_error (calls s) c with
    | Some (mkC w o i g PBegun) | Some (mkC w o i g PReturned) =>
      match o with
      | Some k => Some (goto s c (mkC w o i g PEnd), [VFinish k (SCall c); VReturn c])
      | None => Some (goto s c (mkC w o i g PEnd), [VReturn c])
      end
    | _ => None
    end
  end.
