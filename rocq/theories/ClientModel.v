(** Model of the gRPC client, /repo/lib/grpc/client.go.

    Addresses, methods and connections are numbers; the transport's answers (whether a
    dial or an invocation succeeds) are chosen by the schedule.  The channel of slots is
    the number of tokens in it.  Every access to the channel or the connection map is one
    step.  Not modelled: closeconn, which nothing calls; backoff; the contents of calls. *)
From Coq Require Import List Arith Bool.
From Verif Require Import Machine.
Import ListNotations.

Inductive res := ROk | RAcquire | RNoConn | RBadOption | RDial | RInvoke.
(** Where a call is.  Call: lines 164-197. *)
Inductive pc :=
| QSelect (a : nat) (opts : bool)   (* 166: waiting for a slot or for the context *)
| QConn (a : nat) (opts : bool)     (* 173: getConn *)
| QOpts (c : nat) (opts : bool)     (* 178-185: are all options call options? *)
| QInvoke (c : nat)                 (* 187-196: in the transport *)
| QRelease (r : res)                (* 168: the deferred receive *)
| QDone (r : res)
(* CallWait: lines 130-162 *)
| WConn (a : nat) (opts : bool)     (* 134: getConn *)
| WDial (a : nat) (opts : bool)     (* 137: newconn *)
| WStore (a c : nat) (opts : bool)  (* 143: Store *)
| WOpts (c : nat) (opts : bool)     (* 146-154: an option of another type becomes a nil one *)
| WInvoke (c : nat)                 (* 156 *)
| WDone (r : res).
Record state := mkS { cap : nat; slots : nat; conns : list (nat * nat); dialed : nat; calls : list pc; crashed : bool }.

(** sync.Map *)
Fixpoint load (a : nat) (m : list (nat * nat)) : option nat :=
  match m with [] => None | (a', c) :: r => if a' =? a then Some c else load a r end.
Fixpoint save (a c : nat) (m : list (nat * nat)) : list (nat * nat) :=
  match m with [] => [(a, c)] | (a', c') :: r => if a' =? a then (a', c) :: r else (a', c') :: save a c r end.

(** BuildClientWithOption, lines 37-49, and Init, 97-109: the addresses that could be
    dialled. *)
Definition connect (s : state) (a : nat) : state :=
  mkS (cap s) (slots s) (save a (dialed s) (conns s)) (S (dialed s)) (calls s) (crashed s).
Definition client (n : nat) (addrs : list nat) : state := fold_left connect addrs (mkS n 0 [] 0 [] false).

Inductive label :=
| LCall (a : nat) (opts : bool) | LCallWait (a : nat) (opts : bool)
| LTake (i : nat) | LCancel (i : nat) | LConn (i : nat) | LOpts (i : nat) | LInvoked (i : nat) (ok : bool) | LRelease (i : nat)
| LDial (i : nat) (ok : bool) | LStore (i : nat).
Inductive event := EInvoke (i c : nat) | EReturn (i : nat) (r : res) | ECrash (i : nat).

Definition set (s : state) (i : nat) (p : pc) : state := mkS (cap s) (slots s) (conns s) (dialed s) (upd (calls s) i p) (crashed s).
Definition step (s : state) (l : label) : option (state * list event) :=
  if crashed s then None else
  match l with
  | LCall a o => Some (mkS (cap s) (slots s) (conns s) (dialed s) (calls s ++ [QSelect a o]) false, [])
  | LCallWait a o => Some (mkS (cap s) (slots s) (conns s) (dialed s) (calls s ++ [WConn a o]) false, [])
  | LTake i =>
    match nth_error (calls s) i with
    | Some (QSelect a o) =>
      if slots s <? cap s then Some (mkS (cap s) (S (slots s)) (conns s) (dialed s) (upd (calls s) i (QConn a o)) false, []) else None
    | _ => None
    end
  | LCancel i => match nth_error (calls s) i with Some (QSelect _ _) => Some (set s i (QDone RAcquire), [EReturn i RAcquire]) | _ => None end
  | LConn i =>
    match nth_error (calls s) i with
    | Some (QConn a o) => Some (set s i (match load a (conns s) with Some c => QOpts c o | None => QRelease RNoConn end), [])
    | Some (WConn a o) => Some (set s i (match load a (conns s) with Some c => WOpts c o | None => WDial a o end), [])
    | _ => None
    end
  | LOpts i =>
    match nth_error (calls s) i with
    | Some (QOpts c o) => if o then Some (set s i (QInvoke c), [EInvoke i c]) else Some (set s i (QRelease RBadOption), [])
    | Some (WOpts c o) =>
      if o then Some (set s i (WInvoke c), [EInvoke i c])
      else Some (mkS (cap s) (slots s) (conns s) (dialed s) (calls s) true, [ECrash i]) (* Invoke calls a method of the nil option *)
    | _ => None
    end
  | LInvoked i ok =>
    match nth_error (calls s) i with
    | Some (QInvoke _) => Some (set s i (QRelease (if ok then ROk else RInvoke)), [])
    | Some (WInvoke _) => let r := if ok then ROk else RInvoke in Some (set s i (WDone r), [EReturn i r])
    | _ => None
    end
  | LRelease i =>
    match nth_error (calls s) i with
    | Some (QRelease r) =>
      match slots s with
      | O => None
      | S n => Some (mkS (cap s) n (conns s) (dialed s) (upd (calls s) i (QDone r)) false, [EReturn i r])
      end
    | _ => None
    end
  | LDial i ok =>
    match nth_error (calls s) i with
    | Some (WDial a o) =>
      if ok then Some (mkS (cap s) (slots s) (conns s) (S (dialed s)) (upd (calls s) i (WStore a (dialed s) o)) false, [])
      else Some (set s i (WDone RDial), [EReturn i RDial])
    | _ => None
    end
  | LStore i =>
    match nth_error (calls s) i with
    | Some (WStore a c o) => Some (mkS (cap s) (slots s) (save a c (conns s)) (dialed s) (upd (calls s) i (WOpts c o)) false, [])
    | _ => None
    end
  end.
