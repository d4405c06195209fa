(** Model of actor builders, /repo/core/actor/actor_build_impl.go, and of the loader, the
    factory and the two actors that create actors on demand which the repository ships
    with its tests, /repo/tests/mock.

    A builder is a copy of the constructor's struct (mock_loader.go:51-55), but a map in a
    Go struct is a reference: the options of all builders of one type are one map.  Option
    maps therefore live in a heap.  The calls that touch a map have a beginning and an end;
    when two of them touch one map at the same time and one of them writes, the runtime may
    stop the process ("concurrent map writes"): the model always does.
    Strings are those of MsgModel.  Not modelled: the constructors' Go functions (only
    whether Register is reached, with what), the rate limiter and the error returns of the
    address book in the picker, and how the messages travel (SysModel, CallModel). *)
From Coq Require Import List ZArith Bool String Ascii.
From Verif Require Import Machine MsgModel.
Import ListNotations.
Open Scope list_scope.

(** An ASCII literal. *)
Definition lit (s : string) : gostr := map (fun a => Rune (Z.of_N (N_of_ascii a))) (list_ascii_of_string s).
(** map[string]string; a missing key reads as the empty string. *)
Definition options := list (gostr * gostr).
Fixpoint oget (k : gostr) (m : options) : gostr :=
  match m with [] => [] | (k', v) :: r => if str_eq k' k then v else oget k r end.
Fixpoint oset (k v : gostr) (m : options) : options :=
  match m with [] => [(k, v)] | (k', v') :: r => if str_eq k' k then (k', v) :: r else (k', v') :: oset k v r end.

(** ActorConstructor, core/node.go; [c_opts] is the map, nil or its place in the heap. *)
Record ctor := mkC { c_id : gostr; c_name : gostr; c_weight : Z; c_limit : Z; c_unique : bool; c_dynamic : bool; c_opts : option nat }.
(** ActorLoaderBuilder, actor_build_impl.go 10-17. *)
Record builder := mkB { b_id : gostr; b_ty : gostr; b_weight : Z; b_limit : Z; b_unique : bool; b_opts : option nat }.
(** Calls that touch the options: WithOpt, GetOpt, and the loop of a caller over the map
    that GetOptions returned, which no lock covers. *)
Inductive op := OSet (k v : gostr) | OGet (k : gostr) | OWalk.
Record state := mkS { factory : list (gostr * ctor); maps : list options; builders : list builder; calls : list (option (nat * op)); crashed : bool }.

(** Get, mock_factory.go 81-87. *)
Fixpoint find (ty : gostr) (f : list (gostr * ctor)) : option ctor :=
  match f with [] => None | (k, c) :: r => if str_eq k ty then Some c else find ty r end.
(** Builder, mock_loader.go 45-58. *)
Definition fresh (c : ctor) : builder := mkB (c_id c) (c_name c) (c_weight c) (c_limit c) (c_unique c) (c_opts c).
Definition build (s : state) (ty : gostr) : option state :=
  match find ty (factory s) with
  | None => None
  | Some c => Some (mkS (factory s) (maps s) (builders s ++ [fresh c]) (calls s) (crashed s))
  end.
Definition set_builder (s : state) (i : nat) (b : builder) : state := mkS (factory s) (maps s) (upd (builders s) i b) (calls s) (crashed s).
(** WithID, actor_build_impl.go 19-25; [None] is the panic on the empty id. *)
Definition with_id (b : builder) (id : gostr) : option builder :=
  match id with [] => None | _ => Some (mkB id (b_ty b) (b_weight b) (b_limit b) (b_unique b) (b_opts b)) end.
(** WithType, 27-30. *)
Definition with_type (b : builder) (ty : gostr) : builder := mkB (b_id b) ty (b_weight b) (b_limit b) (b_unique b) (b_opts b).
(** The map a builder refers to. *)
Definition map_of (s : state) (b : builder) : options :=
  match b_opts b with Some r => match nth_error (maps s) r with Some m => m | None => [] end | None => [] end.
(** p.Options[key] = value, line 34; [None] is the panic of a nil map. *)
Definition put_opt (s : state) (b : builder) (k v : gostr) : option state :=
  match b_opts b with
  | Some r => match nth_error (maps s) r with
              | Some m => Some (mkS (factory s) (upd (maps s) r (oset k v m)) (builders s) (calls s) (crashed s))
              | None => None
              end
  | None => None
  end.

(** ** Builders used by any number of goroutines *)
Inductive label :=
| LBuild (ty : gostr) | LWithID (i : nat) (id : gostr) | LWithType (i : nat) (ty : gostr) | LInfo (i : nat)
| LBegin (i : nat) (o : op) | LEnd (j : nat).
Inductive event :=
| EBuilt (ty : gostr) (r : option nat)
| ENamed (i : nat) (id : gostr) | ETyped (i : nat) (ty : gostr)
| EInfo (i : nat) (id ty : gostr) (weight limit : Z) (unique : bool)
| EBegin (j i : nat) (o : op)
| ESet (j i : nat) (k v : gostr) | EGot (j i : nat) (k v : gostr) | EWalked (j i : nat) (m : options)
| EPanic (i : nat) | EFatal (i : nat) (o : op).

Definition is_set (o : op) : bool := match o with OSet _ _ => true | _ => false end.
(** The builder's own read-write lock, which WithOpt and GetOpt take (32-37, 65-69). *)
Definition lock_free (s : state) (i : nat) (o : op) : bool :=
  forallb (fun c => match c with
                    | Some (i', o') => negb (Nat.eqb i i') || match o, o' with
                                                              | OSet _ _, OSet _ _ | OSet _ _, OGet _ | OGet _, OSet _ _ => false
                                                              | _, _ => true
                                                              end
                    | None => true
                    end) (calls s).
(** Another call is in the same map, and one of the two writes. *)
Definition collides (s : state) (r : nat) (o : op) : bool :=
  existsb (fun c => match c with
                    | Some (i', o') => match nth_error (builders s) i' with
                                       | Some b' => match b_opts b' with Some r' => Nat.eqb r r' && (is_set o || is_set o') | None => false end
                                       | None => false
                                       end
                    | None => false
                    end) (calls s).
Definition add_call (s : state) (i : nat) (o : op) : state := mkS (factory s) (maps s) (builders s) (calls s ++ [Some (i, o)]) (crashed s).
Definition end_call (s : state) (j : nat) : state := mkS (factory s) (maps s) (builders s) (upd (calls s) j None) (crashed s).

Definition step (s : state) (l : label) : option (state * list event) :=
  if crashed s then None else
  match l with
  | LBuild ty =>
    match build s ty with
    | Some s' => Some (s', [EBuilt ty (Some (List.length (builders s)))])
    | None => Some (s, [EBuilt ty None])
    end
  | LWithID i id =>
    match nth_error (builders s) i with
    | Some b => match with_id b id with Some b' => Some (set_builder s i b', [ENamed i id]) | None => Some (s, [EPanic i]) end
    | None => None
    end
  | LWithType i ty =>
    match nth_error (builders s) i with Some b => Some (set_builder s i (with_type b ty), [ETyped i ty]) | None => None end
  | LInfo i => (* the getters, 39-57 *)
    match nth_error (builders s) i with
    | Some b => Some (s, [EInfo i (b_id b) (b_ty b) (b_weight b) (b_limit b) (b_unique b)])
    | None => None
    end
  | LBegin i o =>
    match nth_error (builders s) i with
    | Some b =>
      if lock_free s i o then
        match b_opts b with
        | None => (* a nil map is read as empty; the writer panics and keeps the lock, 33-35 *)
          Some (add_call s i o, EBegin (List.length (calls s)) i o :: (if is_set o then [EPanic i] else []))
        | Some r =>
          if collides s r o then Some (mkS (factory s) (maps s) (builders s) (calls s) true, [EFatal i o])
          else Some (add_call s i o, [EBegin (List.length (calls s)) i o])
        end
      else None
    | None => None
    end
  | LEnd j =>
    match nth_error (calls s) j with
    | Some (Some (i, o)) =>
      match nth_error (builders s) i with
      | Some b =>
        match o with
        | OSet k v => match put_opt s b k v with Some s' => Some (end_call s' j, [ESet j i k v]) | None => None end
        | OGet k => Some (end_call s j, [EGot j i k (oget k (map_of s b))])
        | OWalk => Some (end_call s j, [EWalked j i (map_of s b)])
        end
      | None => None
      end
    | _ => None
    end
  end.

(** A factory before anything was built: its constructors and their option maps. *)
Definition start (f : list (gostr * ctor)) (m : list options) : state := mkS f m [] [] false.

(** ** Creating an actor on demand *)
Definition KeyActorID : gostr := lit "ActorID".
Definition KeyActorTy : gostr := lit "ActorTy".
Definition attr (e : gostr * gostr) : gostr * gval := (fst e, GStr (snd e)).
(** Pick, mock_loader.go 21-42: the message it sends, for the options in the order of the
    loop over the map.  [None] would be a panic. *)
Fixpoint put_fields (l : list (gostr * gostr)) (m : MsgModel.builder) : option MsgModel.builder :=
  match l with
  | [] => Some m
  | e :: r => match WithCustomFields Req [attr e] m with Some m' => put_fields r m' | None => None end
  end.
Definition pick (opts : options) (id ty : gostr) (uid : string) : option MsgModel.builder :=
  put_fields (opts ++ [(KeyActorID, id); (KeyActorTy, ty)]) (NewBuilder [] uid).
(** The field of a string type. *)
Definition str_field (m : MsgModel.builder) (k : gostr) : gostr := match GetCustomField Req m k TStr with Got (GStr v) => v | _ => [] end.
(** The name of the new actor, actor_dynamic_picker.go:49. *)
Definition new_id (node ty uuid : gostr) : gostr := node ++ lit "_" ++ ty ++ lit "_" ++ uuid.
(** The handler of MockDynamicPick, actor_dynamic_picker.go 33-53, once a node is chosen:
    the message it passes on. *)
Definition picked (node uuid : gostr) (m : MsgModel.builder) : option MsgModel.builder :=
  WithCustomFields Req [attr (KeyActorID, new_id node (str_field m KeyActorTy) uuid)] m.
(** The handler of MockDynamicRegister, actor_dynamic_register.go 30-51, up to the call of
    Register on the builder numbered so; [order] is the order in which the loop over the
    fields meets them. *)
Inductive outcome := Registers (s : state) (i : nat) | Fails | Panics.
Fixpoint with_opts (s : state) (i : nat) (l : list (gostr * gval)) : outcome :=
  match l with
  | [] => Registers s i
  | (k, GStr v) :: r =>
    match nth_error (builders s) i with
    | Some b => match put_opt s b k v with Some s' => with_opts s' i r | None => Panics end
    | None => Panics
    end
  | _ => Panics (* v.(string), line 44 *)
  end.
Definition registers (s : state) (m : MsgModel.builder) (order : list (gostr * gval) -> list (gostr * gval)) : outcome :=
  match build s (str_field m KeyActorTy) with
  | None => Panics (* a nil builder *)
  | Some s1 =>
    let i := List.length (builders s) in
    match nth_error (builders s1) i with
    | None => Panics
    | Some b =>
      match with_id b (str_field m KeyActorID) with
      | None => Panics
      | Some b' =>
        match hdr Req m with
        | None => Panics
        | Some h =>
          match read_map (Custom h) with
          | None => Fails
          | Some None => Registers (set_builder s1 i b') i
          | Some (Some data) => with_opts (set_builder s1 i b') i (order data)
          end
        end
      end
    end
  end.

(** ** The actors every node starts with *)
(** AssignToNode, mock_loader.go 60-81: for the constructors in the order of GetActors
    (mock_factory.go 89-95) the id and type given to Register; what Register returns does
    not matter to the loop.  [None] is a panic.  Left out: an empty ID in the factory is
    replaced by the name (line 71), which only later builders of that type show. *)
Definition static_id (node : gostr) (c : ctor) : gostr := node ++ lit "_" ++ (match c_id c with [] => c_name c | x => x end).
Fixpoint assign (f : list (gostr * ctor)) (node : gostr) (l : list ctor) : option (list (gostr * gostr)) :=
  match l with
  | [] => Some []
  | c :: r =>
    if c_dynamic c then assign f node r
    else match find (c_name c) f with
         | None => None (* a nil builder *)
         | Some c' =>
           match with_id (fresh c') (static_id node c), assign f node r with
           | Some b, Some q => Some ((b_id b, b_ty b) :: q)
           | _, _ => None
           end
         end
  end.
