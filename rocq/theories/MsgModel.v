(** Model of the message builder and the custom fields, /repo/router/msg.

    Headers live in a heap, because WithResHeader (and WithReqHeader, when one of the
    two headers is nil) keeps the caller's pointer.  The bytes of Custom are modelled by
    what encoding/json makes of them (a document tree, or bytes that are no JSON object);
    encoding/json and msgpack are not in the repository and are described here:
    - a Go string is a list of runes and of bytes that are not valid UTF-8; Marshal
      writes U+FFFD for the latter;
    - Marshal writes integers exactly and finite floats so that they are read back
      exactly; Unmarshal into an interface makes every number the nearest float64 and
      fails when that is infinite;
    - a map is a list of its entries; Marshal sorts them, here they keep their order,
      which can only matter when two keys become equal in the document.
    Not modelled: float32 values, structs and other named types, contexts and wait
    groups (see ActorModel and CallModel), the logging in the getters. *)
From Coq Require Import List ZArith Bool String.
From Coq Require Import SpecFloat.
Import ListNotations.
Open Scope Z_scope.
Open Scope list_scope.

(** ** Values of type any *)
Inductive ch := Rune (c : Z) | Bad (b : Z).
Definition gostr := list ch.
Inductive kind := Int | Int8 | Int16 | Int32 | Int64 | Uint | Uint8 | Uint16 | Uint32 | Uint64.
Definition kmin (k : kind) : Z :=
  match k with Int | Int64 => - 2 ^ 63 | Int8 => - 2 ^ 7 | Int16 => - 2 ^ 15 | Int32 => - 2 ^ 31 | _ => 0 end.
Definition kmax (k : kind) : Z :=
  match k with
  | Int | Int64 => 2 ^ 63 - 1 | Int8 => 2 ^ 7 - 1 | Int16 => 2 ^ 15 - 1 | Int32 => 2 ^ 31 - 1
  | Uint | Uint64 => 2 ^ 64 - 1 | Uint8 => 2 ^ 8 - 1 | Uint16 => 2 ^ 16 - 1 | Uint32 => 2 ^ 32 - 1
  end.
Definition in_kind (k : kind) (z : Z) : bool := (kmin k <=? z) && (z <=? kmax k).
Inductive gval :=
| GNil | GBool (b : bool) | GStr (s : gostr) | GInt (k : kind) (z : Z) | GF64 (f : spec_float)
| GArr (l : list gval) | GMap (m : list (gostr * gval))
| GBad. (* a channel, a function, a complex number: Marshal fails *)

(** ** JSON documents *)
Inductive jval :=
| JNull | JBool (b : bool) | JStr (s : list Z) | JInt (z : Z) | JFlt (f : spec_float)
| JArr (l : list jval) | JObj (m : list (list Z * jval)).

Definition enc_str (s : gostr) : list Z := map (fun c => match c with Rune c => c | Bad _ => 65533 end) s.
Definition dec_str (s : list Z) : gostr := map Rune s.
Definition finite (f : spec_float) : bool := match f with S754_zero _ | S754_finite _ _ _ => true | _ => false end.

Section All.
  Context {A B : Type} (f : A -> option B).
  Fixpoint all (l : list A) : option (list B) :=
    match l with
    | [] => Some []
    | x :: r => match f x, all r with Some y, Some q => Some (y :: q) | _, _ => None end
    end.
End All.

(** json.Marshal *)
Fixpoint encode (v : gval) : option jval :=
  match v with
  | GNil => Some JNull
  | GBool b => Some (JBool b)
  | GStr s => Some (JStr (enc_str s))
  | GInt _ z => Some (JInt z)
  | GF64 f => if finite f then Some (JFlt f) else None
  | GArr l => option_map JArr (all encode l)
  | GMap m => option_map JObj (all (fun e => match encode (snd e) with Some j => Some (enc_str (fst e), j) | None => None end) m)
  | GBad => None
  end.

(** Go maps *)
Definition ch_eq (a b : ch) : bool :=
  match a, b with Rune x, Rune y => x =? y | Bad x, Bad y => x =? y | _, _ => false end.
Fixpoint str_eq (a b : gostr) : bool :=
  match a, b with [], [] => true | x :: p, y :: q => ch_eq x y && str_eq p q | _, _ => false end.
Definition gomap := list (gostr * gval).
Fixpoint mget (k : gostr) (m : gomap) : option gval :=
  match m with [] => None | (k', v) :: r => if str_eq k' k then Some v else mget k r end.
Fixpoint mset (k : gostr) (v : gval) (m : gomap) : gomap :=
  match m with [] => [(k, v)] | (k', v') :: r => if str_eq k' k then (k', v) :: r else (k', v') :: mset k v r end.
(** Assigning entries one after another: reading an object, or the loop over attrs. *)
Definition msets (l : list (gostr * gval)) (m : gomap) : gomap := fold_left (fun m e => mset (fst e) (snd e) m) l m.

(** The nearest float64 of an integer. *)
Definition to_f64 (z : Z) : spec_float := binary_normalize 53 1024 z 0 false.
Definition number (f : spec_float) : option gval := if finite f then Some (GF64 f) else None.

(** json.Unmarshal into an interface *)
Fixpoint decode (j : jval) : option gval :=
  match j with
  | JNull => Some GNil
  | JBool b => Some (GBool b)
  | JStr s => Some (GStr (dec_str s))
  | JInt z => number (to_f64 z)
  | JFlt f => number f
  | JArr l => option_map GArr (all decode l)
  | JObj m => option_map (fun l => GMap (msets l [])) (all (fun e => match decode (snd e) with Some v => Some (dec_str (fst e), v) | None => None end) m)
  end.

(** ** Headers and the builder *)
(** The field Custom: empty, a JSON document, or bytes that are not JSON. *)
Inductive custom := CEmpty | CJson (j : jval) | CBytes (b : list Z).
Record header := mkH {
  ID : string; Event : string; OrgActorID : string; OrgActorType : string; Token : string;
  PrevActorType : string; TargetActorID : string; TargetActorType : string; Timestamp : Z; Custom : custom }.
Definition setCustom (h : header) (c : custom) : header :=
  mkH (ID h) (Event h) (OrgActorID h) (OrgActorType h) (Token h) (PrevActorType h) (TargetActorID h) (TargetActorType h) (Timestamp h) c.
Definition newHeader (uid : string) : header := mkH uid "" "" "" "" "" "" "" 0 CEmpty.

Record builder := mkB { heap : list header; reqH : option nat; resH : option nat; reqBody : list Z; resBody : list Z; err : bool }.
Fixpoint put {A} (l : list A) (n : nat) (x : A) : list A :=
  match l, n with [], _ => [] | _ :: r, O => x :: r | y :: r, S m => y :: put r m x end.

(** NewBuilder and newMessage, msg.go 30-70, with a given uuid. *)
Definition NewBuilder (hp : list header) (uid : string) : builder :=
  mkB (hp ++ [newHeader uid; newHeader uid]) (Some (List.length hp)) (Some (S (List.length hp))) [] [] false.
(** WithReqHeader, msg.go 85-102.  [None] is a panic (a pointer out of the heap, which
    cannot happen). *)
Definition WithReqHeader (h : option nat) (b : builder) : option builder :=
  match reqH b, h with
  | Some r, Some p =>
    match nth_error (heap b) r, nth_error (heap b) p with
    | Some old, Some new =>
      Some (mkB (put (heap b) r (mkH (ID new) (Event new) (OrgActorID new) (OrgActorType new) (Token new) (PrevActorType new)
                                     (TargetActorID new) (TargetActorType new) (Timestamp old) (Custom new)))
                (reqH b) (resH b) (reqBody b) (resBody b) (err b))
    | _, _ => None
    end
  | _, _ => Some (mkB (heap b) h (resH b) (reqBody b) (resBody b) (err b))
  end.
(** WithResHeader, msg.go 110-113. *)
Definition WithResHeader (h : option nat) (b : builder) : builder := mkB (heap b) (reqH b) h (reqBody b) (resBody b) (err b).
(** WithReqBody and WithResBody, msg.go 104-107 and 115-118. *)
Definition WithReqBody (byt : list Z) (b : builder) : builder := mkB (heap b) (reqH b) (resH b) byt (resBody b) (err b).
Definition WithResBody (byt : list Z) (b : builder) : builder := mkB (heap b) (reqH b) (resH b) (reqBody b) byt (err b).

Inductive side := Req | Res.
Definition ptr (s : side) (b : builder) : option nat := match s with Req => reqH b | Res => resH b end.
Definition hdr (s : side) (b : builder) : option header := match ptr s b with Some p => nth_error (heap b) p | None => None end.
Definition store (b : builder) (p : nat) (h : header) : builder := mkB (put (heap b) p h) (reqH b) (resH b) (reqBody b) (resBody b) (err b).
Definition fail (b : builder) : builder := mkB (heap b) (reqH b) (resH b) (reqBody b) (resBody b) true.

(** WithReqCustomFieldsMap, msg_custom_map.go 34-44, and WithResCustomFieldsMap, 63-73.
    A nil map is [None]; [None] as result is the nil dereference of the header. *)
Definition WithCustomFieldsMap (s : side) (data : option gomap) (b : builder) : option builder :=
  match (match data with Some m => encode (GMap m) | None => Some JNull end) with
  | None => Some (fail b)
  | Some j =>
    match ptr s b, hdr s b with
    | Some p, Some h => Some (store b p (setCustom h (CJson j)))
    | _, _ => None
    end
  end.
(** Decode into a map: an error, or a map that is nil for the document null. *)
Definition read_map (c : custom) : option (option gomap) :=
  match c with
  | CJson JNull => Some None
  | CJson (JObj m) => match decode (JObj m) with Some (GMap d) => Some (Some d) | _ => None end
  | _ => None
  end.
(** WithReqCustomFields, msg_custom_map.go 10-32, and WithResCustomFields, 46-61.
    [None]: nil dereference of the header, or assignment to an entry of a nil map. *)
Definition WithCustomFields (s : side) (attrs : list (gostr * gval)) (b : builder) : option builder :=
  match hdr s b with
  | None => None
  | Some h =>
    match Custom h with
    | CEmpty => WithCustomFieldsMap s (Some (msets attrs [])) b
    | c =>
      match read_map c with
      | None => Some (fail b)
      | Some None => match attrs with [] => WithCustomFieldsMap s None b | _ => None end
      | Some (Some d) => WithCustomFieldsMap s (Some (msets attrs d)) b
      end
    end
  end.
(** WithReqCustomObject and WithResCustomObject, map_custom_object.go 5-26.  The argument
    is the result of msgpack.Marshal: bytes, or an error with nil bytes. *)
Definition WithCustomObject (s : side) (enc : option custom) (b : builder) : option builder :=
  match ptr s b, hdr s b with
  | Some p, Some h =>
    match enc with
    | Some c => Some (store b p (setCustom h c))
    | None => Some (store (fail b) p (setCustom h CEmpty))
    end
  | _, _ => None
  end.

(** ** Reading *)
(** The type parameter T. *)
Inductive gtype := TAny | TBool | TStr | TInt (k : kind) | TF64 | TArr | TMap.
Definition kind_eq (a b : kind) : bool :=
  match a, b with
  | Int, Int | Int8, Int8 | Int16, Int16 | Int32, Int32 | Int64, Int64
  | Uint, Uint | Uint8, Uint8 | Uint16, Uint16 | Uint32, Uint32 | Uint64, Uint64 => true
  | _, _ => false
  end.
Definition has_type (v : gval) (t : gtype) : bool :=
  match t, v with
  | TAny, GNil => false
  | TAny, _ => true
  | TBool, GBool _ | TStr, GStr _ | TF64, GF64 _ | TArr, GArr _ | TMap, GMap _ => true
  | TInt k, GInt k' _ => kind_eq k k'
  | _, _ => false
  end.
(** var zero T; the zero slice and map are nil. *)
Definition zero (t : gtype) : gval :=
  match t with TBool => GBool false | TStr => GStr [] | TInt k => GInt k 0 | TF64 => GF64 (S754_zero false) | _ => GNil end.
Inductive got := Got (v : gval) | Unspecified | Panic.
(** Conversion of a float64 to an integer type: towards zero; the language leaves the
    result open when it is out of range. *)
Definition trunc (f : spec_float) : option Z :=
  match f with
  | S754_zero _ => Some 0
  | S754_finite s m e => let z := if 0 <=? e then Zpos m * 2 ^ e else Zpos m / 2 ^ (- e) in Some (if s then - z else z)
  | _ => None
  end.
Definition conv (k : kind) (f : spec_float) : got :=
  match trunc f with Some z => if in_kind k z then Got (GInt k z) else Unspecified | None => Unspecified end.
(** GetReqCustomField, msg_custom_map.go 88-150, with GetReqCustomMap, 79-86; and the
    same for the response, 156-227.  There is no case for int8 and uint8. *)
Definition GetCustomField (s : side) (b : builder) (key : gostr) (t : gtype) : got :=
  match hdr s b with
  | None => Panic
  | Some h =>
    match read_map (Custom h) with
    | None | Some None => Got (zero t)
    | Some (Some data) =>
      match mget key data with
      | None => Got (zero t)
      | Some v =>
        if has_type v t then Got v
        else match t, v with
             | TInt Int8, _ | TInt Uint8, _ => Got (zero t)
             | TInt k, GF64 f => conv k f
             | _, _ => Got (zero t)
             end
      end
    end
  end.
