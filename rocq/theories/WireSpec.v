(** Specification vocabulary for the wire format, independent of the codec:
    the protobuf encoding rules (varints, tags, length-delimited fields), the
    proto3 merge rule and the grammar of well-formed fields. *)
From Coq Require Import List NArith ZArith.
From Coq.Strings Require Import Byte.
From Verif Require Import WireModel.
Import ListNotations.

(** Base-128 varint of [v], least significant group first.  The first argument
    bounds the number of bytes; [varint] gives it one unit per bit. *)
Fixpoint varint_n (k : nat) (v : N) : bytes :=
  match k with
  | O => []
  | S k' => if (v <? 128)%N then [n2b v]
            else n2b (128 + v mod 128)%N :: varint_n k' (v / 128)%N
  end.
Definition varint (v : N) : bytes := varint_n (S (N.to_nat (N.size v))) v.

(** Field [num] with wire type [wt]. *)
Definition tag (num wt : N) : bytes := varint (num * 8 + wt)%N.
Definition nlen (s : bytes) : N := N.of_nat (length s).
Definition delimited (num : N) (s : bytes) : bytes :=
  tag num 2 ++ varint (nlen s) ++ s.
(** proto3: default values are not transmitted; absent messages neither. *)
Definition f_bytes (num : N) (s : bytes) : bytes :=
  match s with [] => [] | _ => delimited num s end.
Definition f_int64 (num : N) (z : Z) : bytes :=
  if (z =? 0)%Z then [] else tag num 0 ++ varint (Z.to_N (z mod 2^64)%Z).
Definition f_message (num : N) (s : option bytes) : bytes :=
  match s with None => [] | Some s => delimited num s end.

(** router.proto: message Header/Message/routeReq/routeRes. *)
Definition header_chunks (h : Header) : list bytes :=
  [ f_bytes 1 (hID h); f_bytes 2 (hOrgActorID h); f_bytes 3 (hOrgActorType h);
    f_bytes 4 (hPrevActorType h); f_bytes 7 (hTargetActorID h);
    f_bytes 8 (hTargetActorType h); f_bytes 9 (hEvent h); f_bytes 10 (hToken h);
    f_int64 11 (hTimestamp h); f_bytes 12 (hCustom h) ].
Definition enc_header (h : Header) : bytes := concat (header_chunks h).
Definition enc_message (m : Message) : bytes :=
  f_message 1 (option_map enc_header (mHeader m)) ++ f_bytes 2 (mBody m).
Definition enc_routereq (m : RouteReq) : bytes :=
  f_message 1 (option_map enc_message (reqMsg m)).
Definition enc_routeres (m : RouteRes) : bytes :=
  f_message 2 (option_map enc_message (resMsg m)).

(** The values Go can hold: int64 timestamps. *)
Definition int64 (z : Z) : Prop := (- 2^63 <= z < 2^63)%Z.
Definition wf_header (h : Header) : Prop := int64 (hTimestamp h).
Definition wf_message (m : Message) : Prop :=
  match mHeader m with Some h => wf_header h | None => True end.
Definition wf_omessage (o : option Message) : Prop :=
  match o with Some m => wf_message m | None => True end.
(** Byte strings whose length is a Go int. *)
Definition fits (s : bytes) : Prop := (Z.of_nat (length s) < 2^63)%Z.

(** proto3 merge: later non-default scalars replace, messages merge. *)
Definition m_bytes (a b : bytes) : bytes := match b with [] => a | _ => b end.
Definition m_int (a b : Z) : Z := if (b =? 0)%Z then a else b.
Definition merge_header (a b : Header) : Header :=
  mkHeader (m_bytes (hID a) (hID b)) (m_bytes (hOrgActorID a) (hOrgActorID b))
    (m_bytes (hOrgActorType a) (hOrgActorType b))
    (m_bytes (hPrevActorType a) (hPrevActorType b))
    (m_bytes (hTargetActorID a) (hTargetActorID b))
    (m_bytes (hTargetActorType a) (hTargetActorType b))
    (m_bytes (hEvent a) (hEvent b)) (m_bytes (hToken a) (hToken b))
    (m_int (hTimestamp a) (hTimestamp b)) (m_bytes (hCustom a) (hCustom b)).
Definition m_opt {A} (merge : A -> A -> A) (a b : option A) : option A :=
  match a, b with
  | Some x, Some y => Some (merge x y)
  | Some x, None => Some x
  | None, o => o
  end.
Definition merge_message (a b : Message) : Message :=
  mkMessage (m_opt merge_header (mHeader a) (mHeader b)) (m_bytes (mBody a) (mBody b)).
Definition merge_routereq (a b : RouteReq) : RouteReq :=
  mkRouteReq (m_opt merge_message (reqMsg a) (reqMsg b)).
Definition merge_routeres (a b : RouteRes) : RouteRes :=
  mkRouteRes (m_opt merge_message (resMsg a) (resMsg b)).

(** Well-formed varints, canonical or not: at most ten bytes, continuation bit
    on all but the last, value taken modulo 2^64. *)
Inductive groups : bytes -> N -> Prop :=
| groups_last b : (Byte.to_N b < 128)%N -> groups [b] (Byte.to_N b)
| groups_more b s v : (128 <= Byte.to_N b)%N -> groups s v ->
    groups (b :: s) (Byte.to_N b - 128 + 128 * v)%N.
Definition is_varint (s : bytes) (v : N) : Prop :=
  exists w, groups s w /\ length s <= 10 /\ v = (w mod 2^64)%N.

(** Tag parts: the low three bits are the wire type; the rest, as a signed
    32-bit number, the field number. *)
Definition wiretype (w : N) : N := (w mod 8)%N.
Definition fieldnum (w : N) : Z :=
  let f := (Z.of_N (w / 8) mod 2^32)%Z in if (f <? 2^31)%Z then f else (f - 2^32)%Z.

(** Complete fields with tag value [w] (groups arbitrarily nested), and
    sequences of fields. *)
Inductive field : N -> bytes -> Prop :=
| field_varint w t v n : is_varint t w -> wiretype w = 0%N -> is_varint v n ->
    field w (t ++ v)
| field_fixed64 w t s : is_varint t w -> wiretype w = 1%N -> length s = 8 ->
    field w (t ++ s)
| field_delimited w t l n s : is_varint t w -> wiretype w = 2%N ->
    is_varint l n -> Z.of_N n = Z.of_nat (length s) -> fits s ->
    field w (t ++ l ++ s)
| field_fixed32 w t s : is_varint t w -> wiretype w = 5%N -> length s = 4 ->
    field w (t ++ s)
| field_group w t s w' t' : is_varint t w -> wiretype w = 3%N ->
    field_seq s -> is_varint t' w' -> wiretype w' = 4%N ->
    field w (t ++ s ++ t')
with field_seq : bytes -> Prop :=
| field_seq_nil : field_seq []
| field_seq_cons w s rest : field w s -> field_seq rest -> field_seq (s ++ rest).

(** A sequence of fields whose numbers are positive and not among [known]. *)
Inductive unknown_seq (known : list Z) : bytes -> Prop :=
| unknown_nil : unknown_seq known []
| unknown_cons w s rest : field w s -> (0 < fieldnum w)%Z ->
    ~ In (fieldnum w) known -> unknown_seq known rest ->
    unknown_seq known (s ++ rest).

(** [woven known chunks s]: [s] is the concatenation of [chunks] with unknown
    fields inserted before, between and after them. *)
Inductive woven (known : list Z) : list bytes -> bytes -> Prop :=
| woven_nil u : unknown_seq known u -> woven known [] u
| woven_cons u c cs s : unknown_seq known u -> woven known cs s ->
    woven known (c :: cs) (u ++ c ++ s).

Definition header_known : list Z := [1; 2; 3; 4; 7; 8; 9; 10; 11; 12]%Z.
Definition message_known : list Z := [1; 2]%Z.
Definition routereq_known : list Z := [1]%Z.
Definition routeres_known : list Z := [2]%Z.

(** Encodings with unknown fields inserted at every level of nesting. *)
Definition wire_header (h : Header) (s : bytes) : Prop :=
  woven header_known (header_chunks h) s.
Inductive wire_opt {A} (enc : A -> bytes -> Prop) : option A -> option bytes -> Prop :=
| wire_none : wire_opt enc None None
| wire_some a s : enc a s -> wire_opt enc (Some a) (Some s).
Definition wire_message (m : Message) (s : bytes) : Prop :=
  exists hs, wire_opt wire_header (mHeader m) hs /\
    woven message_known [f_message 1 hs; f_bytes 2 (mBody m)] s.
Definition wire_routereq (m : RouteReq) (s : bytes) : Prop :=
  exists ms, wire_opt wire_message (reqMsg m) ms /\
    woven routereq_known [f_message 1 ms] s.
Definition wire_routeres (m : RouteRes) (s : bytes) : Prop :=
  exists ms, wire_opt wire_message (resMsg m) ms /\
    woven routeres_known [f_message 2 ms] s.

(** Declared wire types. *)
Definition header_wiretype (f : Z) : N := if (f =? 11)%Z then 0%N else 2%N.

(** All fields of Message, RouteReq and RouteRes are length-delimited. *)
Definition two (_ : Z) : N := 2%N.

(** A tag that must be rejected: a stray end-group, an undefined wire type, a
    field number that is not positive, or a known field with a wire type other
    than the declared one. *)
Definition bad_tag_value (known : list Z) (declared : Z -> N) (w : N) : Prop :=
  wiretype w = 4%N \/ wiretype w = 6%N \/ wiretype w = 7%N \/ (fieldnum w <= 0)%Z \/
  (In (fieldnum w) known /\ wiretype w <> declared (fieldnum w)).

(** Size, Marshal, MarshalToSizedBuffer and MarshalTo agree: Marshal succeeds
    with as many bytes as Size says; into any buffer with room, the sized
    writer puts those bytes at the end and MarshalTo at the start, leaving the
    rest of the buffer alone, and both return Size. *)
Definition exact_writer (size : Z) (marshal : outcome bytes)
  (sized : bytes -> outcome (bytes * Z)) (to : bytes -> outcome (bytes * Z)) : Prop :=
  exists d, marshal = Ok d /\ size = Z.of_nat (length d) /\
    forall buf, (size <= Z.of_nat (length buf))%Z ->
      sized buf = Ok (firstn (length buf - length d) buf ++ d, size) /\
      to buf = Ok (d ++ skipn (length d) buf, size).
