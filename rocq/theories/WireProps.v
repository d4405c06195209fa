(** Theorems about the wire codec: properties C01 to C07. *)
From Coq Require Import List NArith ZArith Lia.
From Coq.Strings Require Import Byte.
From Verif Require Import WireModel WireSpec WireProofs WireDecode WireEncode WireFacts.
Import ListNotations.

(** A non-trivial value of each type for the examples: a negative timestamp, a
    body longer than one varint byte can count, empty and non-empty strings. *)
Definition ex_header : Header :=
  mkHeader [x61] [] [x62; x63] [] (repeat xff 200) [] [x65] [] (-1)%Z [x00].
Definition ex_message : Message := mkMessage (Some ex_header) (repeat x41 300).
Definition ex_req : RouteReq := mkRouteReq (Some ex_message).
Definition ex_res : RouteRes := mkRouteRes (Some ex_message).
Ltac small := vm_compute; repeat split; try (intros ?; discriminate); try reflexivity.

(** * C01: wire round trip *)
Theorem C01_header_round_trip : forall x : Header,
  wf_header x -> fits (enc_header x) ->
  exists d, Header_Marshal x = Ok d /\ Header_Unmarshal emptyHeader d = Ok x.
Proof. exact header_rt_all. Qed.
Print Assumptions C01_header_round_trip.

Example C01_header_round_trip_case : wf_header ex_header /\ fits (enc_header ex_header) /\
  bind (Header_Marshal ex_header) (Header_Unmarshal emptyHeader) = Ok ex_header.
Proof. small. Qed.

Theorem C01_message_round_trip : forall x : Message,
  wf_message x -> fits (enc_message x) ->
  exists d, Message_Marshal x = Ok d /\ Message_Unmarshal emptyMessage d = Ok x.
Proof. exact message_rt_all. Qed.
Print Assumptions C01_message_round_trip.

Example C01_message_round_trip_case : wf_message ex_message /\ fits (enc_message ex_message) /\
  bind (Message_Marshal ex_message) (Message_Unmarshal emptyMessage) = Ok ex_message.
Proof. small. Qed.

Theorem C01_routereq_round_trip : forall x : RouteReq,
  wf_omessage (reqMsg x) -> fits (enc_routereq x) ->
  exists d, RouteReq_Marshal x = Ok d /\ RouteReq_Unmarshal (mkRouteReq None) d = Ok x.
Proof. exact routereq_rt_all. Qed.
Print Assumptions C01_routereq_round_trip.

Example C01_routereq_round_trip_case : wf_omessage (reqMsg ex_req) /\ fits (enc_routereq ex_req) /\
  bind (RouteReq_Marshal ex_req) (RouteReq_Unmarshal (mkRouteReq None)) = Ok ex_req.
Proof. small. Qed.

Theorem C01_routeres_round_trip : forall x : RouteRes,
  wf_omessage (resMsg x) -> fits (enc_routeres x) ->
  exists d, RouteRes_Marshal x = Ok d /\ RouteRes_Unmarshal (mkRouteRes None) d = Ok x.
Proof. exact routeres_rt_all. Qed.
Print Assumptions C01_routeres_round_trip.

Example C01_routeres_round_trip_case : wf_omessage (resMsg ex_res) /\ fits (enc_routeres ex_res) /\
  bind (RouteRes_Marshal ex_res) (RouteRes_Unmarshal (mkRouteRes None)) = Ok ex_res.
Proof. small. Qed.

(** * C02: Size exact, no write outside the buffer, and the bytes are the protobuf encoding *)
Theorem C02_header_size_exact : forall x : Header,
  wf_header x -> fits (enc_header x) ->
  exact_writer (Header_Size x) (Header_Marshal x) (Header_MarshalToSizedBuffer x) (Header_MarshalTo x).
Proof. exact header_exact. Qed.
Print Assumptions C02_header_size_exact.

Theorem C02_header_format : forall x : Header,
  wf_header x -> fits (enc_header x) -> Header_Marshal x = Ok (enc_header x).
Proof. exact header_marshal. Qed.
Print Assumptions C02_header_format.

Theorem C02_message_size_exact : forall x : Message,
  wf_message x -> fits (enc_message x) ->
  exact_writer (Message_Size x) (Message_Marshal x) (Message_MarshalToSizedBuffer x) (Message_MarshalTo x).
Proof. exact message_exact. Qed.
Print Assumptions C02_message_size_exact.

Theorem C02_message_format : forall x : Message,
  wf_message x -> fits (enc_message x) -> Message_Marshal x = Ok (enc_message x).
Proof. exact message_marshal. Qed.
Print Assumptions C02_message_format.

Theorem C02_routereq_size_exact : forall x : RouteReq,
  wf_omessage (reqMsg x) -> fits (enc_routereq x) ->
  exact_writer (RouteReq_Size x) (RouteReq_Marshal x) (RouteReq_MarshalToSizedBuffer x) (RouteReq_MarshalTo x).
Proof. exact routereq_exact. Qed.
Print Assumptions C02_routereq_size_exact.

Theorem C02_routereq_format : forall x : RouteReq,
  wf_omessage (reqMsg x) -> fits (enc_routereq x) -> RouteReq_Marshal x = Ok (enc_routereq x).
Proof. exact routereq_marshal. Qed.
Print Assumptions C02_routereq_format.

Theorem C02_routeres_size_exact : forall x : RouteRes,
  wf_omessage (resMsg x) -> fits (enc_routeres x) ->
  exact_writer (RouteRes_Size x) (RouteRes_Marshal x) (RouteRes_MarshalToSizedBuffer x) (RouteRes_MarshalTo x).
Proof. exact routeres_exact. Qed.
Print Assumptions C02_routeres_size_exact.

Theorem C02_routeres_format : forall x : RouteRes,
  wf_omessage (resMsg x) -> fits (enc_routeres x) -> RouteRes_Marshal x = Ok (enc_routeres x).
Proof. exact routeres_marshal. Qed.
Print Assumptions C02_routeres_format.

Example C02_case : RouteReq_Size ex_req = 536%Z /\
  RouteReq_MarshalToSizedBuffer ex_req (repeat x07 539) =
    Ok ([x07; x07; x07] ++ enc_routereq ex_req, 536%Z).
Proof. vm_compute. split; reflexivity. Qed.

(** * C03: Unmarshal is total on hostile input *)
Theorem C03_header_total : forall (m : Header) (d : bytes), fits d ->
  (exists x, Header_Unmarshal m d = Ok x) \/ (exists e, Header_Unmarshal m d = Err e).
Proof. exact header_total. Qed.
Print Assumptions C03_header_total.

Theorem C03_message_total : forall (m : Message) (d : bytes), fits d ->
  (exists x, Message_Unmarshal m d = Ok x) \/ (exists e, Message_Unmarshal m d = Err e).
Proof. exact message_total. Qed.
Print Assumptions C03_message_total.

Theorem C03_routereq_total : forall (m : RouteReq) (d : bytes), fits d ->
  (exists x, RouteReq_Unmarshal m d = Ok x) \/ (exists e, RouteReq_Unmarshal m d = Err e).
Proof. exact routereq_total. Qed.
Print Assumptions C03_routereq_total.

Theorem C03_routeres_total : forall (m : RouteRes) (d : bytes), fits d ->
  (exists x, RouteRes_Unmarshal m d = Ok x) \/ (exists e, RouteRes_Unmarshal m d = Err e).
Proof. exact routeres_total. Qed.
Print Assumptions C03_routeres_total.

(** Hostile lengths: 2^63 - 1 in a known field, and in an unknown one. *)
Example C03_case :
  Header_Unmarshal emptyHeader
    [x0a; xff; xff; xff; xff; xff; xff; xff; xff; x7f] = Err EInvalidLength /\
  Header_Unmarshal emptyHeader
    [x6a; xff; xff; xff; xff; xff; xff; xff; xff; x7f] = Err EInvalidLength.
Proof. vm_compute. split; reflexivity. Qed.

(** * C04: unknown fields are ignored *)
Theorem C04_header_unknown_ignored : forall (x : Header) (s : bytes),
  wf_header x -> fits s -> wire_header x s -> Header_Unmarshal emptyHeader s = Ok x.
Proof. exact header_unknown. Qed.
Print Assumptions C04_header_unknown_ignored.

Theorem C04_header_unknown_inserted : forall (m : Header) (a : bytes) (m' : Header) (u b : bytes),
  fits (a ++ u ++ b) -> Header_Unmarshal m a = Ok m' -> unknown_seq header_known u ->
  forall x, Header_Unmarshal m (a ++ u ++ b) = Ok x <-> Header_Unmarshal m (a ++ b) = Ok x.
Proof. exact header_insert. Qed.
Print Assumptions C04_header_unknown_inserted.

Theorem C04_message_unknown_ignored : forall (x : Message) (s : bytes),
  wf_message x -> fits s -> wire_message x s -> Message_Unmarshal emptyMessage s = Ok x.
Proof. exact message_unknown. Qed.
Print Assumptions C04_message_unknown_ignored.

Theorem C04_message_unknown_inserted : forall (m : Message) (a : bytes) (m' : Message) (u b : bytes),
  fits (a ++ u ++ b) -> Message_Unmarshal m a = Ok m' -> unknown_seq message_known u ->
  forall x, Message_Unmarshal m (a ++ u ++ b) = Ok x <-> Message_Unmarshal m (a ++ b) = Ok x.
Proof. exact message_insert. Qed.
Print Assumptions C04_message_unknown_inserted.

Theorem C04_routereq_unknown_ignored : forall (x : RouteReq) (s : bytes),
  wf_omessage (reqMsg x) -> fits s -> wire_routereq x s -> RouteReq_Unmarshal (mkRouteReq None) s = Ok x.
Proof. exact routereq_unknown. Qed.
Print Assumptions C04_routereq_unknown_ignored.

Theorem C04_routereq_unknown_inserted : forall (m : RouteReq) (a : bytes) (m' : RouteReq) (u b : bytes),
  fits (a ++ u ++ b) -> RouteReq_Unmarshal m a = Ok m' -> unknown_seq routereq_known u ->
  forall x, RouteReq_Unmarshal m (a ++ u ++ b) = Ok x <-> RouteReq_Unmarshal m (a ++ b) = Ok x.
Proof. exact routereq_insert. Qed.
Print Assumptions C04_routereq_unknown_inserted.

Theorem C04_routeres_unknown_ignored : forall (x : RouteRes) (s : bytes),
  wf_omessage (resMsg x) -> fits s -> wire_routeres x s -> RouteRes_Unmarshal (mkRouteRes None) s = Ok x.
Proof. exact routeres_unknown. Qed.
Print Assumptions C04_routeres_unknown_ignored.

Theorem C04_routeres_unknown_inserted : forall (m : RouteRes) (a : bytes) (m' : RouteRes) (u b : bytes),
  fits (a ++ u ++ b) -> RouteRes_Unmarshal m a = Ok m' -> unknown_seq routeres_known u ->
  forall x, RouteRes_Unmarshal m (a ++ u ++ b) = Ok x <-> RouteRes_Unmarshal m (a ++ b) = Ok x.
Proof. exact routeres_insert. Qed.
Print Assumptions C04_routeres_unknown_inserted.

(** Field 5 as a group containing field 1 as a varint. *)
Example C04_case : unknown_seq header_known [x2b; x08; x07; x2c].
Proof. exact unknown_case. Qed.

(** * C05: last one wins, nested messages merge *)
Theorem C05_header_merge : forall a b : Header,
  wf_header a -> wf_header b -> fits (enc_header a ++ enc_header b) ->
  exists da db, Header_Marshal a = Ok da /\ Header_Marshal b = Ok db /\
    Header_Unmarshal emptyHeader (da ++ db) = Ok (merge_header a b).
Proof. exact header_merge2. Qed.
Print Assumptions C05_header_merge.

Theorem C05_header_concat : forall (m : Header) (a : bytes) (m' : Header) (b : bytes),
  fits (a ++ b) -> Header_Unmarshal m a = Ok m' ->
  forall x, Header_Unmarshal m (a ++ b) = Ok x <-> Header_Unmarshal m' b = Ok x.
Proof. exact header_concat. Qed.
Print Assumptions C05_header_concat.

Theorem C05_message_merge : forall a b : Message,
  wf_message a -> wf_message b -> fits (enc_message a ++ enc_message b) ->
  exists da db, Message_Marshal a = Ok da /\ Message_Marshal b = Ok db /\
    Message_Unmarshal emptyMessage (da ++ db) = Ok (merge_message a b).
Proof. exact message_merge2. Qed.
Print Assumptions C05_message_merge.

Theorem C05_message_concat : forall (m : Message) (a : bytes) (m' : Message) (b : bytes),
  fits (a ++ b) -> Message_Unmarshal m a = Ok m' ->
  forall x, Message_Unmarshal m (a ++ b) = Ok x <-> Message_Unmarshal m' b = Ok x.
Proof. exact message_concat. Qed.
Print Assumptions C05_message_concat.

Theorem C05_routereq_merge : forall a b : RouteReq,
  wf_omessage (reqMsg a) -> wf_omessage (reqMsg b) -> fits (enc_routereq a ++ enc_routereq b) ->
  exists da db, RouteReq_Marshal a = Ok da /\ RouteReq_Marshal b = Ok db /\
    RouteReq_Unmarshal (mkRouteReq None) (da ++ db) = Ok (merge_routereq a b).
Proof. exact routereq_merge2. Qed.
Print Assumptions C05_routereq_merge.

Theorem C05_routereq_concat : forall (m : RouteReq) (a : bytes) (m' : RouteReq) (b : bytes),
  fits (a ++ b) -> RouteReq_Unmarshal m a = Ok m' ->
  forall x, RouteReq_Unmarshal m (a ++ b) = Ok x <-> RouteReq_Unmarshal m' b = Ok x.
Proof. exact routereq_concat. Qed.
Print Assumptions C05_routereq_concat.

Theorem C05_routeres_merge : forall a b : RouteRes,
  wf_omessage (resMsg a) -> wf_omessage (resMsg b) -> fits (enc_routeres a ++ enc_routeres b) ->
  exists da db, RouteRes_Marshal a = Ok da /\ RouteRes_Marshal b = Ok db /\
    RouteRes_Unmarshal (mkRouteRes None) (da ++ db) = Ok (merge_routeres a b).
Proof. exact routeres_merge2. Qed.
Print Assumptions C05_routeres_merge.

Theorem C05_routeres_concat : forall (m : RouteRes) (a : bytes) (m' : RouteRes) (b : bytes),
  fits (a ++ b) -> RouteRes_Unmarshal m a = Ok m' ->
  forall x, RouteRes_Unmarshal m (a ++ b) = Ok x <-> RouteRes_Unmarshal m' b = Ok x.
Proof. exact routeres_concat. Qed.
Print Assumptions C05_routeres_concat.

Example C05_case :
  Message_Unmarshal emptyMessage
    (enc_message ex_message ++
     enc_message (mkMessage (Some (mkHeader [x62] [x63] [] [] [] [] [] [] 0%Z [])) [])) =
  Ok (mkMessage (Some (mkHeader [x62] [x63] [x62; x63] [] (repeat xff 200) [] [x65] [] (-1)%Z [x00]))
        (repeat x41 300)).
Proof. vm_compute. reflexivity. Qed.

(** * C06: truncated routing frames are rejected *)
Theorem C06_routereq_truncated : forall (x : RouteReq) (d : bytes) (r0 : RouteReq) (p q : bytes),
  wf_omessage (reqMsg x) -> fits (enc_routereq x) ->
  RouteReq_Marshal x = Ok d -> d = p ++ q -> p <> [] -> q <> [] ->
  exists e, RouteReq_Unmarshal r0 p = Err e.
Proof. exact routereq_truncated. Qed.
Print Assumptions C06_routereq_truncated.

Theorem C06_routeres_truncated : forall (x : RouteRes) (d : bytes) (r0 : RouteRes) (p q : bytes),
  wf_omessage (resMsg x) -> fits (enc_routeres x) ->
  RouteRes_Marshal x = Ok d -> d = p ++ q -> p <> [] -> q <> [] ->
  exists e, RouteRes_Unmarshal r0 p = Err e.
Proof. exact routeres_truncated. Qed.
Print Assumptions C06_routeres_truncated.

Example C06_case :
  RouteReq_Unmarshal (mkRouteReq None) (firstn 400 (enc_routereq ex_req)) = Err EUnexpectedEOF /\
  RouteReq_Unmarshal (mkRouteReq None) (firstn 2 (enc_routereq ex_req)) = Err EUnexpectedEOF.
Proof. vm_compute. split; reflexivity. Qed.

(** * C07: wire-type confusion is rejected *)
Theorem C07_header_bad_tag : forall (m : Header) (a : bytes) (m' : Header) (t : bytes) (w : N) (b : bytes),
  fits (a ++ t ++ b) -> Header_Unmarshal m a = Ok m' -> is_varint t w ->
  bad_tag_value header_known header_wiretype w ->
  exists e, Header_Unmarshal m (a ++ t ++ b) = Err e.
Proof. exact header_bad. Qed.
Print Assumptions C07_header_bad_tag.

Theorem C07_message_bad_tag : forall (m : Message) (a : bytes) (m' : Message) (t : bytes) (w : N) (b : bytes),
  fits (a ++ t ++ b) -> Message_Unmarshal m a = Ok m' -> is_varint t w ->
  bad_tag_value message_known two w ->
  exists e, Message_Unmarshal m (a ++ t ++ b) = Err e.
Proof. exact message_bad. Qed.
Print Assumptions C07_message_bad_tag.

Theorem C07_routereq_bad_tag : forall (m : RouteReq) (a : bytes) (m' : RouteReq) (t : bytes) (w : N) (b : bytes),
  fits (a ++ t ++ b) -> RouteReq_Unmarshal m a = Ok m' -> is_varint t w ->
  bad_tag_value routereq_known two w ->
  exists e, RouteReq_Unmarshal m (a ++ t ++ b) = Err e.
Proof. exact routereq_bad. Qed.
Print Assumptions C07_routereq_bad_tag.

Theorem C07_routeres_bad_tag : forall (m : RouteRes) (a : bytes) (m' : RouteRes) (t : bytes) (w : N) (b : bytes),
  fits (a ++ t ++ b) -> RouteRes_Unmarshal m a = Ok m' -> is_varint t w ->
  bad_tag_value routeres_known two w ->
  exists e, RouteRes_Unmarshal m (a ++ t ++ b) = Err e.
Proof. exact routeres_bad. Qed.
Print Assumptions C07_routeres_bad_tag.

Example C07_case :
  is_varint [x5a] 90 /\ bad_tag_value header_known header_wiretype 90 /\
  Header_Unmarshal emptyHeader (enc_header ex_header ++ [x5a] ++ [x01; x00]) = Err EWrongWireType.
Proof. exact bad_case. Qed.
