(** Model of the event "test_block" of the actors of the tests, which hands a number from one
    actor to the next (/repo/tests/mock/mock_actor_a.go 106-117, mock_actor_b.go 63-74,
    mock_actor_c.go 40-50), for actors on the same or on different nodes: the fields the
    handlers read and write (MsgModel), and what a local call (core/node/system_impl.go
    293-345) and a remote one (347-361, system_acceptor.go 92-114) do to the message.

    A call is followed to its end: each handler ends before the one it called is looked at
    (nothing follows the inner call in the code), calls that are refused or run out of time are
    in CallModel.  The routing fields of the header are in CallModel too; here only
    PrevActorType is set, by the acceptor.  Messages arrive as they were sent (C01).  A handler
    that panics is recovered (actor_runtime_impl.go 329-336) and the call goes on as if it had
    returned. *)
From Coq Require Import List ZArith Bool String.
From Verif Require Import MsgModel.
Import ListNotations.
Open Scope Z_scope.
Open Scope list_scope.

(** "randvalue" *)
Definition key : gostr := map Rune [114; 97; 110; 100; 118; 97; 108; 117; 101].
(** Addition of ints. *)
Definition plus1 (v : Z) : Z := (v + 1 + 2 ^ 63) mod 2 ^ 64 - 2 ^ 63.

(** One handler, up to its call: it reads the number from the request and puts the next one into
    the request (mocka 110-111, mockb 67-68) or the response (mockc 44-45). *)
Inductive ended :=
| Goes (b : builder)
| Stops (b : builder)   (* it panicked *)
| Open.                 (* the language leaves open which number it read *)
Definition handle (to : side) (b : builder) : ended :=
  match GetCustomField Req b key (TInt Int) with
  | Got (GInt _ v) => match WithCustomFields to [(key, GInt Int (plus1 v))] b with Some b' => Goes b' | None => Stops b end
  | Got _ | Panic => Stops b
  | Unspecified => Open
  end.

(** Where the actor that is called lives; a remote node gives the message it makes for the call
    an id (NewBuilder, system_acceptor.go:99). *)
Inductive place := Local | Remote (uid : string).
(** system_acceptor.go 99-101: the request is the one received, the response is new. *)
Definition from_acceptor (h : header) : header :=
  mkH (ID h) (Event h) (OrgActorID h) (OrgActorType h) (Token h) "GrpcAcceptor" (TargetActorID h) (TargetActorType h) (Timestamp h) (Custom h).
Definition arrive (uid : string) (h : header) (b : builder) : builder :=
  mkB (heap b ++ [from_acceptor h; newHeader uid]) (Some (List.length (heap b))) (Some (S (List.length (heap b)))) (reqBody b) [] false.
(** system_acceptor.go:112, system_impl.go:359: the response of the other node replaces the
    caller's. *)
Definition back (b b' : builder) : builder := mkB (heap b') (reqH b) (resH b') (reqBody b) (resBody b') (err b).

(** The actor that serves the event and those behind it: one that hands on for every place in the
    list, then the one that answers.  [None]: open, or a nil header. *)
Fixpoint serve (ps : list place) (b : builder) : option builder :=
  match ps with
  | [] => match handle Res b with Goes b' | Stops b' => Some b' | Open => None end
  | p :: r =>
    match handle Req b with
    | Goes b' =>
      match p with
      | Local => serve r b'
      | Remote uid =>
        match hdr Req b' with
        | Some h => match serve r (arrive uid h b') with Some b2 => Some (back b' b2) | None => None end
        | None => None
        end
      end
    | Stops b' => Some b'
    | Open => None
    end
  end.
(** System.Call of "test_block": the first actor lives at [p]. *)
Definition call (p : place) (ps : list place) (b : builder) : option builder :=
  match hdr Req b with
  | None => None (* system_impl.go:199 *)
  | Some h =>
    match p with
    | Local => serve ps b
    | Remote uid => match serve ps (arrive uid h b) with Some b2 => Some (back b b2) | None => None end
    end
  end.
(** The three actors of the code, each at its place. *)
Definition test_block (a b c : place) : builder -> option builder := call a [b; c].
