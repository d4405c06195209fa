(** Model of /repo/lib/token/token.go on top of golang-jwt.

    golang-jwt is not in the repository.  What Create and Parse use of it is written down
    here, with its text encodings and its keyed hash as parameters of a section:
    - a token is header segment, claims segment and signature segment joined by dots;
    - ParseWithClaims fails unless there are three segments, the header names a known
      method, the claims decode and are Valid, and the method verifies the signature;
    - the HMAC methods compare the signature with the hash of the first two segments; the
      method "none" refuses a key of type []byte, and so do the asymmetric ones.
    JSON replaces bytes that are not valid UTF-8, as in MsgModel. *)
From Coq Require Import List ZArith Bool.
From Verif Require Import MsgModel.
Import ListNotations.
Open Scope Z_scope.

Definition text := list Z.
Definition dot : Z := 46.
(** The methods known to the library. *)
Inductive method := HS256 | HS384 | HS512 | NoneAlg | Asymmetric.
Definition is_hmac (a : method) : bool := match a with HS256 | HS384 | HS512 => true | _ => false end.

(** strings.Split(token, "."). *)
Fixpoint segments (s : text) : list text :=
  match s with
  | [] => [[]]
  | x :: r => if x =? dot then [] :: segments r else match segments r with [] => [[x]] | p :: q => (x :: p) :: q end
  end.

Section Token.
  (** Segments of a header naming a method, of claims with an entity id (as JSON text),
      and of signature bytes; and how they are read.  A header that names no known
      method, or claims that do not decode, read as None. *)
  Variables (header_seg : method -> text) (header_of : text -> option method).
  Variables (claims_seg : text -> text) (claims_of : text -> option text).
  Variables (sig_seg : text -> text) (sig_of : text -> option text).
  (** The keyed hash. *)
  Variable mac : method -> text -> text -> text.
  (** kTokenSignKey, lines 9-11. *)
  Variable key : text.

  (** Create, lines 29-44; [None] is the error. *)
  Definition Create (entityID : gostr) : option text :=
    match entityID with
    | [] => None
    | _ => let signed := header_seg HS256 ++ [dot] ++ claims_seg (enc_str entityID) in
           Some (signed ++ [dot] ++ sig_seg (mac HS256 key signed))
    end.
  Definition text_eq (a b : text) : bool := if list_eq_dec Z.eq_dec a b then true else false.
  (** SigningMethod.Verify with the key of keyFunc. *)
  Definition verify (a : method) (signed sig : text) : bool :=
    if is_hmac a then match sig_of sig with Some s => text_eq s (mac a key signed) | None => false end else false.
  (** Parse, lines 47-57, with Claims.Valid, lines 17-23. *)
  Definition Parse (token : text) : option gostr :=
    match segments token with
    | [h; c; s] =>
      match header_of h, claims_of c with
      | Some a, Some id =>
        match id with
        | [] => None
        | _ => if verify a (h ++ [dot] ++ c) s then Some (dec_str id) else None
        end
      | _, _ => None
      end
    | _ => None
    end.
End Token.
