(** Vocabulary for the custom-field properties. *)
From Coq Require Import List ZArith Bool String.
From Coq Require Import SpecFloat.
From Verif Require Import MsgModel.
Import ListNotations.
Open Scope Z_scope.
Open Scope list_scope.

(** A string of valid UTF-8. *)
Definition valid (s : gostr) : Prop := forall c, In c s -> exists r, c = Rune r.

(** A value that Go's types allow: integers are within the range of their type. *)
Fixpoint typed (v : gval) : Prop :=
  match v with
  | GInt k z => in_kind k z = true
  | GArr l => fold_right (fun x P => typed x /\ P) True l
  | GMap m => NoDup (map fst m) /\ fold_right (fun e P => typed (snd e) /\ P) True m
  | _ => True
  end.
(** Values without integers: what JSON can express in Go's terms. *)
Fixpoint plain (v : gval) : Prop :=
  match v with
  | GNil | GBool _ => True
  | GStr s => valid s
  | GF64 f => finite f = true
  | GArr l => fold_right (fun x P => plain x /\ P) True l
  | GMap m => NoDup (map fst m) /\ fold_right (fun e P => (valid (fst e) /\ plain (snd e)) /\ P) True m
  | GInt _ _ | GBad => False
  end.
(** Values that JSON cannot express: channels, functions and the like, numbers that are none or
    infinite, and slices and maps with such a value inside. *)
Inductive unserialisable : gval -> Prop :=
| un_bad : unserialisable GBad
| un_nan : unserialisable (GF64 S754_nan)
| un_inf s : unserialisable (GF64 (S754_infinity s))
| un_arr x l : In x l -> unserialisable x -> unserialisable (GArr l)
| un_map k x m : In (k, x) m -> unserialisable x -> unserialisable (GMap m).
(** A text with the replacement character for every byte that is not UTF-8. *)
Definition repaired (s : gostr) : gostr := map (fun c => match c with Rune r => Rune r | Bad _ => Rune 65533 end) s.
(** An integer of a type with a conversion that float64 can hold, or a plain value. *)
Definition faithful (v : gval) : Prop :=
  match v with
  | GInt k z => k <> Int8 /\ k <> Uint8 /\ Z.abs z <= 2 ^ 53
  | _ => plain v
  end.
(** The type a value was stored with. *)
Definition type_of (v : gval) : gtype :=
  match v with GNil | GBad => TAny | GBool _ => TBool | GStr _ => TStr | GInt k _ => TInt k | GF64 _ => TF64 | GArr _ => TArr | GMap _ => TMap end.

(** The last value given to a key in a list of attributes. *)
Fixpoint last_of (k : gostr) (l : list (gostr * gval)) (d : option gval) : option gval :=
  match l with [] => d | (k', v) :: r => last_of k r (if str_eq k' k then Some v else d) end.

(** A sequence of calls of WithReqCustomFields or WithResCustomFields. *)
Fixpoint writes (s : side) (calls : list (list (gostr * gval))) (b : builder) : option builder :=
  match calls with
  | [] => Some b
  | a :: r => match WithCustomFields s a b with Some b' => writes s r b' | None => None end
  end.

(** Two headers agree but for Custom. *)
Definition same_but_custom (h h' : header) : Prop :=
  ID h = ID h' /\ Event h = Event h' /\ OrgActorID h = OrgActorID h' /\ OrgActorType h = OrgActorType h' /\ Token h = Token h' /\
  PrevActorType h = PrevActorType h' /\ TargetActorID h = TargetActorID h' /\ TargetActorType h = TargetActorType h' /\ Timestamp h = Timestamp h'.

(** All calls on a builder. *)
Inductive op :=
| OReqHeader (h : option nat) | OResHeader (h : option nat) | OReqBody (b : list Z) | OResBody (b : list Z)
| OFields (s : side) (attrs : list (gostr * gval)) | OFieldsMap (s : side) (m : option gomap) | OObject (s : side) (enc : option custom).
Definition apply (o : op) (b : builder) : option builder :=
  match o with
  | OReqHeader h => WithReqHeader h b
  | OResHeader h => Some (WithResHeader h b)
  | OReqBody x => Some (WithReqBody x b)
  | OResBody x => Some (WithResBody x b)
  | OFields s a => WithCustomFields s a b
  | OFieldsMap s m => WithCustomFieldsMap s m b
  | OObject s e => WithCustomObject s e b
  end.
Fixpoint apply_all (l : list op) (b : builder) : option builder :=
  match l with [] => Some b | o :: r => match apply o b with Some b' => apply_all r b' | None => None end end.
