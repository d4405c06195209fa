(** Model of the generated protobuf codec, /repo/router/router.pb.go.

    Bytes are the 256-element type [Byte.byte]; Go [string] and [[]byte] are
    both byte lists, so nil and empty slices are identified (simplification).
    Go [int] is a 64-bit two's complement integer: indices are [Z], every
    addition the code performs on an attacker-controlled length is wrapped.
    Reading or slicing outside a buffer is the explicit outcome [Panic];
    running out of the loop bound given to a Coq fixpoint is the explicit
    outcome [Fuel] (the theorems show that neither is reachable).
    When Unmarshal returns an error the Go code leaves the receiver partially
    filled; callers drop it, so the model returns the error alone. *)
From Coq Require Import List NArith ZArith Bool.
From Coq.Init Require Import Byte.
From Coq.Strings Require Import Byte.
Import ListNotations.

Definition bytes := list byte.

(** Go's conversions between uint64 and byte: uint64(b) and uint8(v). *)
Definition b2n (b : byte) : N := Byte.to_N b.
Definition n2b (n : N) : byte :=
  match Byte.of_N (n mod 256)%N with Some b => b | None => x00 end.

(** The errors of router.pb.go (ErrIntOverflowRouter, io.ErrUnexpectedEOF,
    ErrInvalidLengthRouter, ErrUnexpectedEndOfGroupRouter and the four
    fmt.Errorf messages of lines 734, 737, 742 and 1429). *)
Inductive werr :=
| EIntOverflow | EUnexpectedEOF | EInvalidLength | EUnexpectedEndOfGroup
| EEndGroupForNonGroup | EIllegalTag | EWrongWireType | EIllegalWireType.

Inductive outcome (A : Type) :=
| Ok (a : A) | Err (e : werr) | Panic | Fuel.
Arguments Ok {A} _. Arguments Err {A} _. Arguments Panic {A}. Arguments Fuel {A}.

Definition bind {A B} (x : outcome A) (k : A -> outcome B) : outcome B :=
  match x with Ok a => k a | Err e => Err e | Panic => Panic | Fuel => Fuel end.

Definition len (d : bytes) : Z := Z.of_nat (length d).

(** Go int arithmetic modulo 2^64, signed. *)
Definition wrap64 (z : Z) : Z := ((z + 2^63) mod 2^64 - 2^63)%Z.
(** uint64(z) for an int or int64 z, and int(n) for a uint64 n. *)
Definition u64_of (z : Z) : N := Z.to_N (z mod 2^64)%Z.
Definition i64_of (n : N) : Z := wrap64 (Z.of_N n).
(** int32(n) for a uint64 n. *)
Definition i32_of (n : N) : Z := ((Z.of_N n + 2^31) mod 2^32 - 2^31)%Z.

(** dAtA[i]: index expression, panics outside 0 <= i < len. *)
Definition at_ (d : bytes) (i : Z) : outcome byte :=
  if (i <? 0)%Z then Panic
  else match nth_error d (Z.to_nat i) with Some b => Ok b | None => Panic end.

(** dAtA[i:j]: slice expression; panics unless 0 <= i <= j <= len (the
    capacity beyond len is not used by the code). *)
Definition slice (d : bytes) (i j : Z) : outcome bytes :=
  if ((0 <=? i) && (i <=? j) && (j <=? len d))%Z
  then Ok (firstn (Z.to_nat (j - i)) (skipn (Z.to_nat i) d)) else Panic.

(** The varint loop, e.g. lines 717-730, 745-758, 1020-1033.  The int variants
    (byteLen, msglen, length, Timestamp) or the same bits into a signed
    variable; callers reinterpret the result with [i64_of].
    At most eleven iterations (shift = 0, 7, ..., 63, 70). *)
Fixpoint varint_loop (fuel : nat) (d : bytes) (i : Z) (shift acc : N)
  : outcome (N * Z) :=
  match fuel with
  | O => Fuel
  | S f =>
    if (64 <=? shift)%N then Err EIntOverflow
    else if (len d <=? i)%Z then Err EUnexpectedEOF
    else bind (at_ d i) (fun b =>
      let acc' := N.lor acc (N.shiftl (N.land (b2n b) 127) shift mod 2^64)%N in
      if (b2n b <? 128)%N then Ok (acc', (i + 1)%Z)
      else varint_loop f d (i + 1)%Z (shift + 7)%N acc')
  end.
Definition varint_at (d : bytes) (i : Z) : outcome (N * Z) :=
  varint_loop 11 d i 0 0.

(** Lines 1385-1396: skipping a varint without keeping its value (the code
    increments the index first and then reads index-1). *)
Fixpoint skip_varint_loop (fuel : nat) (d : bytes) (i : Z) (shift : N)
  : outcome Z :=
  match fuel with
  | O => Fuel
  | S f =>
    if (64 <=? shift)%N then Err EIntOverflow
    else if (len d <=? i)%Z then Err EUnexpectedEOF
    else bind (at_ d (i + 1 - 1)%Z) (fun b =>
      if (b2n b <? 128)%N then Ok (i + 1)%Z
      else skip_varint_loop f d (i + 1)%Z (shift + 7)%N)
  end.

(** skipRouter, lines 1362-1439. *)
Fixpoint skip_loop (fuel : nat) (d : bytes) (i : Z) (depth : nat) : outcome Z :=
  match fuel with
  | O => Fuel
  | S f =>
    if (i <? len d)%Z then
      bind (varint_at d i) (fun '(wire, i1) =>
        let finish (i2 : Z) (depth' : nat) :=
          if (i2 <? 0)%Z then Err EInvalidLength
          else match depth' with
               | O => Ok i2
               | S _ => skip_loop f d i2 depth'
               end in
        match N.land wire 7 with
        | 0%N => bind (skip_varint_loop 11 d i1 0) (fun i2 => finish i2 depth)
        | 1%N => finish (wrap64 (i1 + 8)) depth
        | 2%N => bind (varint_at d i1) (fun '(n, i2) =>
                   let length_ := i64_of n in
                   if (length_ <? 0)%Z then Err EInvalidLength
                   else finish (wrap64 (i2 + length_)) depth)
        | 3%N => finish i1 (S depth)
        | 4%N => match depth with
                 | O => Err EUnexpectedEndOfGroup
                 | S depth' => finish i1 depth'
                 end
        | 5%N => finish (wrap64 (i1 + 4)) depth
        | _ => Err EIllegalWireType
        end)
    else Err EUnexpectedEOF
  end.
Definition skipRouter (d : bytes) : outcome Z := skip_loop (S (length d)) d 0 0.

(** The length-delimited read shared by all string, bytes and message fields,
    e.g. lines 741-771, 1016-1048, 1100-1134: check the wire type, read the
    length, bounds checks, return the payload and the index after it. *)
Definition read_len (d : bytes) (i : Z) (wireType : N) : outcome (bytes * Z) :=
  if negb (wireType =? 2)%N then Err EWrongWireType
  else bind (varint_at d i) (fun '(n, i1) =>
    let intLen := i64_of n in
    if (intLen <? 0)%Z then Err EInvalidLength
    else
      let postIndex := wrap64 (i1 + intLen) in
      if (postIndex <? 0)%Z then Err EInvalidLength
      else if (len d <? postIndex)%Z then Err EUnexpectedEOF
      else bind (slice d i1 postIndex) (fun s => Ok (s, postIndex))).

(** The body shared by the four Unmarshal functions (Header 711-1069,
    Message 1070-1189, RouteReq 1190-1275, RouteRes 1276-1361), which are
    textually identical except for the switch on fieldNum.  [fields] is that
    switch: [None] selects its default branch (skip the field). *)
Section Loop.
  Context {M : Type}.
  Variable fields : Z -> N -> bytes -> Z -> M -> option (outcome (M * Z)).
  Fixpoint unmarshal_loop (fuel : nat) (d : bytes) (i : Z) (m : M) : outcome M :=
    match fuel with
    | O => Fuel
    | S f =>
      if (i <? len d)%Z then
        bind (varint_at d i) (fun '(wire, i1) =>
          let fieldNum := i32_of (N.shiftr wire 3) in
          let wireType := N.land wire 7 in
          if (wireType =? 4)%N then Err EEndGroupForNonGroup
          else if (fieldNum <=? 0)%Z then Err EIllegalTag
          else match fields fieldNum wireType d i1 m with
               | Some r => bind r (fun '(m', i2) => unmarshal_loop f d i2 m')
               | None =>
                 bind (slice d i (len d)) (fun rest =>
                 bind (skipRouter rest) (fun skippy =>
                   if ((skippy <? 0) || (wrap64 (i + skippy) <? 0))%Z
                   then Err EInvalidLength
                   else if (len d <? wrap64 (i + skippy))%Z then Err EUnexpectedEOF
                   else unmarshal_loop f d (wrap64 (i + skippy)) m))
               end)
      else if (len d <? i)%Z then Err EUnexpectedEOF   (* lines 1065-1067 *)
      else Ok m
    end.
  Definition unmarshal (m : M) (d : bytes) : outcome M :=
    unmarshal_loop (S (length d)) d 0 m.
End Loop.

(** type Header, lines 29-40. *)
Record Header := mkHeader {
  hID : bytes; hOrgActorID : bytes; hOrgActorType : bytes;
  hPrevActorType : bytes; hTargetActorID : bytes; hTargetActorType : bytes;
  hEvent : bytes; hToken : bytes; hTimestamp : Z; hCustom : bytes }.
Definition emptyHeader : Header :=
  mkHeader [] [] [] [] [] [] [] [] 0%Z [].

(** type Message (lines 146-149 region), RouteReq, RouteRes. *)
Record Message := mkMessage { mHeader : option Header; mBody : bytes }.
Definition emptyMessage : Message := mkMessage None [].
Record RouteReq := mkRouteReq { reqMsg : option Message }.
Record RouteRes := mkRouteRes { resMsg : option Message }.

Definition setID (m : Header) v := mkHeader v (hOrgActorID m) (hOrgActorType m) (hPrevActorType m) (hTargetActorID m) (hTargetActorType m) (hEvent m) (hToken m) (hTimestamp m) (hCustom m).
Definition setOrgActorID (m : Header) v := mkHeader (hID m) v (hOrgActorType m) (hPrevActorType m) (hTargetActorID m) (hTargetActorType m) (hEvent m) (hToken m) (hTimestamp m) (hCustom m).
Definition setOrgActorType (m : Header) v := mkHeader (hID m) (hOrgActorID m) v (hPrevActorType m) (hTargetActorID m) (hTargetActorType m) (hEvent m) (hToken m) (hTimestamp m) (hCustom m).
Definition setPrevActorType (m : Header) v := mkHeader (hID m) (hOrgActorID m) (hOrgActorType m) v (hTargetActorID m) (hTargetActorType m) (hEvent m) (hToken m) (hTimestamp m) (hCustom m).
Definition setTargetActorID (m : Header) v := mkHeader (hID m) (hOrgActorID m) (hOrgActorType m) (hPrevActorType m) v (hTargetActorType m) (hEvent m) (hToken m) (hTimestamp m) (hCustom m).
Definition setTargetActorType (m : Header) v := mkHeader (hID m) (hOrgActorID m) (hOrgActorType m) (hPrevActorType m) (hTargetActorID m) v (hEvent m) (hToken m) (hTimestamp m) (hCustom m).
Definition setEvent (m : Header) v := mkHeader (hID m) (hOrgActorID m) (hOrgActorType m) (hPrevActorType m) (hTargetActorID m) (hTargetActorType m) v (hToken m) (hTimestamp m) (hCustom m).
Definition setToken (m : Header) v := mkHeader (hID m) (hOrgActorID m) (hOrgActorType m) (hPrevActorType m) (hTargetActorID m) (hTargetActorType m) (hEvent m) v (hTimestamp m) (hCustom m).
Definition setTimestamp (m : Header) v := mkHeader (hID m) (hOrgActorID m) (hOrgActorType m) (hPrevActorType m) (hTargetActorID m) (hTargetActorType m) (hEvent m) (hToken m) v (hCustom m).
Definition setCustom (m : Header) v := mkHeader (hID m) (hOrgActorID m) (hOrgActorType m) (hPrevActorType m) (hTargetActorID m) (hTargetActorType m) (hEvent m) (hToken m) (hTimestamp m) v.

(** A string/bytes field: assign the payload (lines 770-771, 1044-1048). *)
Definition assign_len {M} (set : M -> bytes -> M) (d : bytes) (i : Z)
  (wireType : N) (m : M) : outcome (M * Z) :=
  bind (read_len d i wireType) (fun '(s, i2) => Ok (set m s, i2)).

(** The switch of Header.Unmarshal, lines 739-1062. *)
Definition header_fields (fieldNum : Z) (wireType : N) (d : bytes) (i : Z)
  (m : Header) : option (outcome (Header * Z)) :=
  match fieldNum with
  | 1%Z => Some (assign_len setID d i wireType m)
  | 2%Z => Some (assign_len setOrgActorID d i wireType m)
  | 3%Z => Some (assign_len setOrgActorType d i wireType m)
  | 4%Z => Some (assign_len setPrevActorType d i wireType m)
  | 7%Z => Some (assign_len setTargetActorID d i wireType m)
  | 8%Z => Some (assign_len setTargetActorType d i wireType m)
  | 9%Z => Some (assign_len setEvent d i wireType m)
  | 10%Z => Some (assign_len setToken d i wireType m)
  | 11%Z => Some (if negb (wireType =? 0)%N then Err EWrongWireType
                  else bind (varint_at d i) (fun '(v, i2) =>
                         Ok (setTimestamp m (i64_of v), i2)))
  | 12%Z => Some (assign_len setCustom d i wireType m)
  | _ => None
  end.
Definition Header_Unmarshal (m : Header) (d : bytes) : outcome Header :=
  unmarshal header_fields m d.

Definition header_or_new (o : option Header) : Header :=
  match o with Some h => h | None => emptyHeader end.

(** The switch of Message.Unmarshal, lines 1098-1182. *)
Definition message_fields (fieldNum : Z) (wireType : N) (d : bytes) (i : Z)
  (m : Message) : option (outcome (Message * Z)) :=
  match fieldNum with
  | 1%Z => Some (bind (read_len d i wireType) (fun '(s, i2) =>
             bind (Header_Unmarshal (header_or_new (mHeader m)) s) (fun h =>
               Ok (mkMessage (Some h) (mBody m), i2))))
  | 2%Z => Some (assign_len (fun m s => mkMessage (mHeader m) s) d i wireType m)
  | _ => None
  end.
Definition Message_Unmarshal (m : Message) (d : bytes) : outcome Message :=
  unmarshal message_fields m d.

Definition message_or_new (o : option Message) : Message :=
  match o with Some m => m | None => emptyMessage end.

(** The switch of RouteReq.Unmarshal, lines 1218-1268 (field 1). *)
Definition routereq_fields (fieldNum : Z) (wireType : N) (d : bytes) (i : Z)
  (m : RouteReq) : option (outcome (RouteReq * Z)) :=
  match fieldNum with
  | 1%Z => Some (bind (read_len d i wireType) (fun '(s, i2) =>
             bind (Message_Unmarshal (message_or_new (reqMsg m)) s) (fun x =>
               Ok (mkRouteReq (Some x), i2))))
  | _ => None
  end.
Definition RouteReq_Unmarshal (m : RouteReq) (d : bytes) : outcome RouteReq :=
  unmarshal routereq_fields m d.

(** The switch of RouteRes.Unmarshal, lines 1304-1354 (field 2). *)
Definition routeres_fields (fieldNum : Z) (wireType : N) (d : bytes) (i : Z)
  (m : RouteRes) : option (outcome (RouteRes * Z)) :=
  match fieldNum with
  | 2%Z => Some (bind (read_len d i wireType) (fun '(s, i2) =>
             bind (Message_Unmarshal (message_or_new (resMsg m)) s) (fun x =>
               Ok (mkRouteRes (Some x), i2))))
  | _ => None
  end.
Definition RouteRes_Unmarshal (m : RouteRes) (d : bytes) : outcome RouteRes :=
  unmarshal routeres_fields m d.

(** * Sizes *)

(** sovRouter, lines 705-707: (bits.Len64(x|1)+6)/7. *)
Definition sovRouter (x : N) : Z := (Z.of_N (N.size (N.lor x 1)) + 6) / 7.

(** One summand of Size for a string/bytes field, e.g. lines 620-623. *)
Definition size_len (s : bytes) : Z :=
  if (0 <? len s)%Z then (1 + len s + sovRouter (u64_of (len s)))%Z else 0%Z.

(** Header.Size, lines 614-660. *)
Definition Header_Size (m : Header) : Z :=
  (size_len (hID m) + size_len (hOrgActorID m) + size_len (hOrgActorType m)
   + size_len (hPrevActorType m) + size_len (hTargetActorID m)
   + size_len (hTargetActorType m) + size_len (hEvent m) + size_len (hToken m)
   + (if (hTimestamp m =? 0)%Z then 0 else 1 + sovRouter (u64_of (hTimestamp m)))
   + size_len (hCustom m))%Z.

(** A nested message summand, e.g. lines 668-671. *)
Definition size_msg (l : Z) : Z := (1 + l + sovRouter (u64_of l))%Z.

(** Message.Size, lines 662-677; RouteReq.Size 679-690; RouteRes.Size 692-703. *)
Definition Message_Size (m : Message) : Z :=
  ((match mHeader m with Some h => size_msg (Header_Size h) | None => 0 end)
   + size_len (mBody m))%Z.
Definition RouteReq_Size (m : RouteReq) : Z :=
  match reqMsg m with Some x => size_msg (Message_Size x) | None => 0%Z end.
Definition RouteRes_Size (m : RouteRes) : Z :=
  match resMsg m with Some x => size_msg (Message_Size x) | None => 0%Z end.

(** * Writers.  A buffer being filled backwards is its content and the current
    index [i]; every write checks the bounds and panics outside them. *)

(** dAtA[i] = b *)
Definition set_at (d : bytes) (i : Z) (b : byte) : outcome bytes :=
  if ((0 <=? i) && (i <? len d))%Z
  then Ok (firstn (Z.to_nat i) d ++ b :: skipn (S (Z.to_nat i)) d) else Panic.

(** copy(dAtA[i:], s): the slice expression panics outside 0 <= i <= len;
    copy truncates to the shorter operand. *)
Definition copy_at (d : bytes) (i : Z) (s : bytes) : outcome bytes :=
  if ((0 <=? i) && (i <=? len d))%Z
  then let room := skipn (Z.to_nat i) d in
       let n := Nat.min (length s) (length room) in
       Ok (firstn (Z.to_nat i) d ++ firstn n s ++ skipn n room)
  else Panic.

(** encodeVarintRouter, lines 603-613. *)
Fixpoint put_varint_loop (fuel : nat) (d : bytes) (offset : Z) (v : N)
  : outcome bytes :=
  match fuel with
  | O => Fuel
  | S f =>
    if (128 <=? v)%N
    then bind (set_at d offset (n2b (N.lor (N.land v 127) 128))) (fun d' =>
           put_varint_loop f d' (offset + 1)%Z (N.shiftr v 7))
    else set_at d offset (n2b v)
  end.
Definition encodeVarint (d : bytes) (offset : Z) (v : N) : outcome (bytes * Z) :=
  let base := (offset - sovRouter v)%Z in
  bind (put_varint_loop 11 d base v) (fun d' => Ok (d', base)).

(** i--; dAtA[i] = tag *)
Definition put_tag (tag : N) (st : bytes * Z) : outcome (bytes * Z) :=
  let '(d, i) := st in
  bind (set_at d (i - 1)%Z (n2b tag)) (fun d' => Ok (d', (i - 1)%Z)).

(** A string/bytes field, e.g. lines 420-426. *)
Definition put_len (tag : N) (s : bytes) (st : bytes * Z) : outcome (bytes * Z) :=
  let '(d, i) := st in
  if (0 <? len s)%Z then
    let i1 := (i - len s)%Z in
    bind (copy_at d i1 s) (fun d1 =>
    bind (encodeVarint d1 i1 (u64_of (len s))) (put_tag tag))
  else Ok (d, i).

(** Header.MarshalToSizedBuffer, lines 415-489: the new buffer contents and
    the returned count. *)
Definition Header_MarshalToSizedBuffer (m : Header) (dAtA : bytes)
  : outcome (bytes * Z) :=
  bind (put_len 0x62 (hCustom m) (dAtA, len dAtA)) (fun st =>
  bind (let '(d, i) := st in
        if (hTimestamp m =? 0)%Z then Ok (d, i)
        else bind (encodeVarint d i (u64_of (hTimestamp m))) (put_tag 0x58)) (fun st =>
  bind (put_len 0x52 (hToken m) st) (fun st =>
  bind (put_len 0x4a (hEvent m) st) (fun st =>
  bind (put_len 0x42 (hTargetActorType m) st) (fun st =>
  bind (put_len 0x3a (hTargetActorID m) st) (fun st =>
  bind (put_len 0x22 (hPrevActorType m) st) (fun st =>
  bind (put_len 0x1a (hOrgActorType m) st) (fun st =>
  bind (put_len 0x12 (hOrgActorID m) st) (fun st =>
  bind (put_len 0x0a (hID m) st) (fun '(d, i) =>
  Ok (d, (len dAtA - i)%Z))))))))))).

(** A nested message field, e.g. lines 518-529: the nested writer runs on the
    prefix dAtA[:i], which aliases the buffer. *)
Definition put_msg (tag : N) (w : bytes -> outcome (bytes * Z)) (st : bytes * Z)
  : outcome (bytes * Z) :=
  let '(d, i) := st in
  bind (slice d 0 i) (fun pre =>
  bind (w pre) (fun '(pre', size) =>
    let d1 := pre' ++ skipn (Z.to_nat i) d in
    let i1 := (i - size)%Z in
    bind (encodeVarint d1 i1 (u64_of size)) (put_tag tag))).

(** Message.MarshalToSizedBuffer, lines 506-531. *)
Definition Message_MarshalToSizedBuffer (m : Message) (dAtA : bytes)
  : outcome (bytes * Z) :=
  bind (put_len 0x12 (mBody m) (dAtA, len dAtA)) (fun st =>
  bind (match mHeader m with
        | Some h => put_msg 0x0a (Header_MarshalToSizedBuffer h) st
        | None => Ok st
        end) (fun '(d, i) =>
  Ok (d, (len dAtA - i)%Z))).

(** RouteReq.MarshalToSizedBuffer, lines 548-566. *)
Definition RouteReq_MarshalToSizedBuffer (m : RouteReq) (dAtA : bytes)
  : outcome (bytes * Z) :=
  bind (match reqMsg m with
        | Some x => put_msg 0x0a (Message_MarshalToSizedBuffer x) (dAtA, len dAtA)
        | None => Ok (dAtA, len dAtA)
        end) (fun '(d, i) => Ok (d, (len dAtA - i)%Z)).

(** RouteRes.MarshalToSizedBuffer, lines 583-601. *)
Definition RouteRes_MarshalToSizedBuffer (m : RouteRes) (dAtA : bytes)
  : outcome (bytes * Z) :=
  bind (match resMsg m with
        | Some x => put_msg 0x12 (Message_MarshalToSizedBuffer x) (dAtA, len dAtA)
        | None => Ok (dAtA, len dAtA)
        end) (fun '(d, i) => Ok (d, (len dAtA - i)%Z)).

(** Marshal (lines 400-408, 491-499, 533-541, 568-576): make a zeroed buffer
    of Size bytes, fill it, return dAtA[:n].  make panics on a negative size;
    sizes are sums of non-negative terms, modelled without overflow. *)
Definition marshal_with (size : Z) (w : bytes -> outcome (bytes * Z)) : outcome bytes :=
  bind (w (repeat x00 (Z.to_nat size))) (fun '(d, n) => slice d 0 n).
Definition Header_Marshal (m : Header) : outcome bytes :=
  marshal_with (Header_Size m) (Header_MarshalToSizedBuffer m).
Definition Message_Marshal (m : Message) : outcome bytes :=
  marshal_with (Message_Size m) (Message_MarshalToSizedBuffer m).
Definition RouteReq_Marshal (m : RouteReq) : outcome bytes :=
  marshal_with (RouteReq_Size m) (RouteReq_MarshalToSizedBuffer m).
Definition RouteRes_Marshal (m : RouteRes) : outcome bytes :=
  marshal_with (RouteRes_Size m) (RouteRes_MarshalToSizedBuffer m).

(** MarshalTo (lines 410-413 etc.): writes into dAtA[:size], which must exist. *)
Definition marshal_to_with (size : Z) (w : bytes -> outcome (bytes * Z)) (dAtA : bytes)
  : outcome (bytes * Z) :=
  bind (slice dAtA 0 size) (fun pre =>
  bind (w pre) (fun '(pre', n) => Ok (pre' ++ skipn (Z.to_nat size) dAtA, n))).
Definition Header_MarshalTo m d := marshal_to_with (Header_Size m) (Header_MarshalToSizedBuffer m) d.
Definition Message_MarshalTo m d := marshal_to_with (Message_Size m) (Message_MarshalToSizedBuffer m) d.
Definition RouteReq_MarshalTo m d := marshal_to_with (RouteReq_Size m) (RouteReq_MarshalToSizedBuffer m) d.
Definition RouteRes_MarshalTo m d := marshal_to_with (RouteRes_Size m) (RouteRes_MarshalToSizedBuffer m) d.

(** Smoke tests of the model. *)
Example header_rt :
  let h := mkHeader [x61] [] [x62;x63] [] [] [] [x65] [] (-1)%Z [x00] in
  bind (Header_Marshal h) (Header_Unmarshal emptyHeader) = Ok h.
Proof. vm_compute. reflexivity. Qed.
