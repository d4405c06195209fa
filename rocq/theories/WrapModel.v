(** Model of how message wrappers are made and what they share,
    /repo/router/msg/msg.go: NewBuilder 47-69, Swap 71-83, WithReqBody 104-107, WithResBody 115-118,
    Build 121-123, ToBuilder 125-133, GetWg 137-142; and of the context that a request from
    another node comes with, /repo/core/node/system_acceptor.go 97.

    Contexts, wrappers, messages and wait groups are objects, named by numbers in the order in
    which they are made.  Of a context only the wait group it carries is modelled; of a message
    only its body, which stands for any field that is written through a wrapper.
    Left out: headers given with WithReqHeader and WithResHeader (MsgModel); Err and Done; a
    nil wrapper (ToBuilder of it is NewBuilder of a context without a group). *)
From Coq Require Import List Arith.
From Verif Require Import Machine.
Import ListNotations.

Inductive side := Request | Reply.
Record wrapper := mkW { ctx : nat; req : nat; res : nat; codec : nat }.
Record state := mkS {
  ctxs : list (option nat);  (* the group a context carries *)
  groups : nat;              (* groups made *)
  wraps : list wrapper;
  msgs : list nat }.
Definition init : state := mkS [] 0 [] [].
(** The encoding of custom fields that 50-53 chooses. *)
Definition default_codec : nat := 0.

Inductive label :=
| LContext (from : option nat)                (* a context without a group, or one derived from another *)
| LRequest (from : option nat)                (* system_acceptor.go 97 *)
| LNew (c : nat) (options : list (nat -> nat)) (* NewBuilder; options change the encoding *)
| LSwap (n : nat)
| LSet (n : nat) (x : side) (v : nat)
| LGet (n : nat) (x : side)
| LWg (n : nat)
| LEncode (n : nat).                          (* custom fields are written *)
Inductive event :=
| VContext (c : nat) (from : option nat)
| VRequest (c : nat)
| VNew (n c c' : nat)   (* wrapper n, made from context c, has context c' *)
| VSwap (n m c' : nat)  (* wrapper n is the swapped m and has context c' *)
| VSet (n : nat) (x : side) (v : nat)
| VGot (n : nat) (x : side) (v : nat)
| VWg (n : nat) (g : option nat)
| VCodec (n : nat) (k : nat).

Definition message_of (w : wrapper) (x : side) : nat := match x with Request => req w | Reply => res w end.
(** ctx.Value(WaitGroupKey{}), inherited. *)
Definition carried (s : state) (from : option nat) : option (option nat) :=
  match from with None => Some None | Some p => nth_error (ctxs s) p end.

Definition step (s : state) (l : label) : option (state * list event) :=
  match l with
  | LContext from =>
    match carried s from with
    | Some g => Some (mkS (ctxs s ++ [g]) (groups s) (wraps s) (msgs s), [VContext (length (ctxs s)) from])
    | None => None
    end
  | LRequest from =>
    match carried s from with
    | Some _ => Some (mkS (ctxs s ++ [Some (groups s)]) (S (groups s)) (wraps s) (msgs s), [VRequest (length (ctxs s))])
    | None => None
    end
  | LNew c _ =>                                                              (* 47: opts is not used *)
    match nth_error (ctxs s) c with
    | Some g =>
      let (g', k) := match g with Some h => (h, groups s) | None => (groups s, S (groups s)) end in      (* 55-59 *)
      let i := length (msgs s) in
      Some (mkS (ctxs s ++ [Some g']) k (wraps s ++ [mkW (length (ctxs s)) i (S i) default_codec]) (msgs s ++ [0; 0]), (* 61-68 *)
            [VNew (length (wraps s)) c (length (ctxs s))])
    | None => None
    end
  | LSwap n =>
    match nth_error (wraps s) n with
    | Some w =>
      Some (mkS (ctxs s ++ [Some (groups s)]) (S (groups s)) (wraps s ++ [mkW (length (ctxs s)) (req w) (res w) (codec w)]) (msgs s), (* 73-82 *)
            [VSwap (length (wraps s)) n (length (ctxs s))])
    | None => None
    end
  | LSet n x v =>
    match nth_error (wraps s) n with
    | Some w => Some (mkS (ctxs s) (groups s) (wraps s) (upd (msgs s) (message_of w x) v), [VSet n x v])
    | None => None
    end
  | LGet n x =>
    match nth_error (wraps s) n with
    | Some w => match nth_error (msgs s) (message_of w x) with Some v => Some (s, [VGot n x v]) | None => None end
    | None => None
    end
  | LWg n =>
    match nth_error (wraps s) n with
    | Some w => match nth_error (ctxs s) (ctx w) with Some g => Some (s, [VWg n g]) | None => None end
    | None => None
    end
  | LEncode n =>
    match nth_error (wraps s) n with Some w => Some (s, [VCodec n (codec w)]) | None => None end
  end.
