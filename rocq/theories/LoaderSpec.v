(** Vocabulary for the properties of builders and loaders: what happened before, read off
    the events. *)
From Coq Require Import List ZArith Bool String.
From Verif Require Import Machine MsgModel MsgSpec LoaderModel.
Import ListNotations.
Open Scope nat_scope.
Open Scope list_scope.

(** The type for which builder [i] was asked from the loader. *)
Fixpoint type_in (evs : list event) (i : nat) : option gostr :=
  match evs with
  | [] => None
  | EBuilt ty (Some i') :: r => if Nat.eqb i i' then Some ty else type_in r i
  | _ :: r => type_in r i
  end.
Definition of_type (evs : list event) (ty : gostr) (i : nat) : bool := match type_in evs i with Some t => str_eq t ty | None => false end.
(** The value last set for option [k] through one of the builders [who]. *)
Fixpoint last_set (who : nat -> bool) (k : gostr) (evs : list event) (d : gostr) : gostr :=
  match evs with
  | [] => d
  | ESet _ i k' v :: r => last_set who k r (if who i && str_eq k' k then v else d)
  | _ :: r => last_set who k r d
  end.
(** The id and type last given to builder [i]. *)
Fixpoint last_id (i : nat) (evs : list event) (d : gostr) : gostr :=
  match evs with [] => d | ENamed i' id :: r => last_id i r (if Nat.eqb i i' then id else d) | _ :: r => last_id i r d end.
Fixpoint last_type (i : nat) (evs : list event) (d : gostr) : gostr :=
  match evs with [] => d | ETyped i' ty :: r => last_type i r (if Nat.eqb i i' then ty else d) | _ :: r => last_type i r d end.
(** Call number [j] has returned. *)
Definition ended (evs : list event) (j : nat) : Prop :=
  (exists i k v, In (ESet j i k v) evs) \/ (exists i k v, In (EGot j i k v) evs) \/ (exists i m, In (EWalked j i m) evs).

(** A factory as BuildActorFactory makes it (mock_factory.go 13-79): every constructor has
    an option map, and no two types share one. *)
Definition separate (f : list (gostr * ctor)) (m : list options) : Prop :=
  (forall ty c, find ty f = Some c -> exists r, c_opts c = Some r /\ r < List.length m) /\
  (forall ty ty' c c', find ty f = Some c -> find ty' f = Some c' -> c_opts c = c_opts c' -> ty = ty').
(** The options the factory gives a type. *)
Definition given (f : list (gostr * ctor)) (m : list options) (ty : gostr) : options :=
  match find ty f with Some c => match c_opts c with Some r => nth r m [] | None => [] end | None => [] end.

(** What GetOpt answers for a builder in a state where no call is under way. *)
Definition get_opt (s : state) (i : nat) (k : gostr) : gostr :=
  match nth_error (builders s) i with Some b => oget k (map_of s b) | None => [] end.
(** "_", "ActorID" and "ActorTy" by their code points. *)
Definition underscore : gostr := [Rune 95].
Definition actor_id_key : gostr := map Rune [65; 99; 116; 111; 114; 73; 68]%Z.
Definition actor_ty_key : gostr := map Rune [65; 99; 116; 111; 114; 84; 121]%Z.
(** Keys the loader itself uses. *)
Definition reserved (k : gostr) : Prop := k = actor_id_key \/ k = actor_ty_key.
