(** More vocabulary for messages. *)
From Coq Require Import List ZArith Bool String.
From Coq Require Import SpecFloat.
From Verif Require Import MsgModel MsgSpec.
Import ListNotations.
Open Scope Z_scope.
Open Scope list_scope.

(** What a field that is not there reads as. *)
Definition nothing (t : gtype) : gval :=
  match t with
  | TBool => GBool false
  | TStr => GStr []
  | TInt k => GInt k 0
  | TF64 => GF64 (S754_zero false)
  | TAny | TArr | TMap => GNil
  end.
(** The integers of a type. *)
Definition width (k : kind) : Z :=
  match k with Int8 | Uint8 => 8 | Int16 | Uint16 => 16 | Int32 | Uint32 => 32 | Int | Int64 | Uint | Uint64 => 64 end.
Definition signed (k : kind) : bool := match k with Int | Int8 | Int16 | Int32 | Int64 => true | _ => false end.
Definition fits (k : kind) (z : Z) : Prop :=
  if signed k then - 2 ^ (width k - 1) <= z < 2 ^ (width k - 1) else 0 <= z < 2 ^ width k.
(** Values of a type. *)
Definition inhabits (v : gval) (t : gtype) : Prop :=
  match t with
  | TAny => True
  | TBool => exists b, v = GBool b
  | TStr => exists s, v = GStr s
  | TInt k => exists z, v = GInt k z /\ fits k z
  | TF64 => exists f, v = GF64 f
  | TArr => v = GNil \/ exists l, v = GArr l
  | TMap => v = GNil \/ exists m, v = GMap m
  end.

(** The body last given to a side. *)
Fixpoint last_body (s : side) (ops : list op) (d : list Z) : list Z :=
  match ops with
  | [] => d
  | OReqBody x :: r => last_body s r (match s with Req => x | Res => d end)
  | OResBody x :: r => last_body s r (match s with Req => d | Res => x end)
  | _ :: r => last_body s r d
  end.
Definition body (s : side) (b : builder) : list Z := match s with Req => reqBody b | Res => resBody b end.
