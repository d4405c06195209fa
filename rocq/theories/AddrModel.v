(** Model of the address book, /repo/core/addressbook/addressbook_impl.go, over a
    shared Redis store.

    The store is the four key families used (def/system_def.go lines 20-27):
    the hash of address records, one set per actor type, the hash of nodes, and
    one hash of weights per node (makeNodeKey, line 42).  Redis removes empty
    hashes and sets; here a missing key and an empty one are read alike.

    Simplifications: JSON is the identity on address records (so the Unmarshal
    error branches are not reached); "actor:"+type and "total_weight" are two
    constructors; counters are unbounded integers; Pipeline is not transactional
    (3rd/redis/client.go line 55), so every command is a step of its own and
    commands of different clients interleave; the read phase of Clear (lines
    326-343) is one step; the distributed lock of Clear is modelled in LockModel
    and not here. *)
From Coq Require Import List String ZArith Bool.
From Verif Require Import Machine.
Import ListNotations.
Open Scope string_scope.
Open Scope list_scope.

(** ** Redis hashes as association lists *)
Section Assoc.
Context {A : Type}.
Fixpoint aget (k : string) (l : list (string * A)) : option A :=
  match l with
  | [] => None
  | (x, v) :: r => if String.eqb k x then Some v else aget k r
  end.
Fixpoint aset (k : string) (v : A) (l : list (string * A)) : list (string * A) :=
  match l with
  | [] => [(k, v)]
  | (x, w) :: r => if String.eqb k x then (x, v) :: r else (x, w) :: aset k v r
  end.
Definition adel (k : string) (l : list (string * A)) : list (string * A) :=
  filter (fun p => negb (String.eqb k (fst p))) l.
End Assoc.

(** core.AddressInfo (core/addressbook.go lines 5-12); the endpoint stands for Ip
    and Port. *)
Record addr := mkAddr { a_node : string; a_id : string; a_ty : string; a_ep : nat }.
Definition addr_eqb (a b : addr) : bool :=
  String.eqb (a_node a) (a_node b) && String.eqb (a_id a) (a_id b) &&
  String.eqb (a_ty a) (a_ty b) && Nat.eqb (a_ep a) (a_ep b).

(** Fields of a node's hash. *)
Inductive field := FTotal | FType (ty : string).
Definition field_eqb (f g : field) : bool :=
  match f, g with
  | FTotal, FTotal => true
  | FType a, FType b => String.eqb a b
  | _, _ => false
  end.
Fixpoint fget (f : field) (l : list (field * Z)) : option Z :=
  match l with
  | [] => None
  | (g, v) :: r => if field_eqb f g then Some v else fget f r
  end.
(** HINCRBY: a missing field counts as 0. *)
Fixpoint fincr (f : field) (d : Z) (l : list (field * Z)) : list (field * Z) :=
  match l with
  | [] => [(f, d)]
  | (g, v) :: r => if field_eqb f g then (g, (v + d)%Z) :: r else (g, v) :: fincr f d r
  end.

Record store := mkStore {
  ids : list (string * addr);                  (* braid.addressbook.id *)
  tys : list (string * list addr);             (* braid.addressbook.ty.<type> *)
  nodes : list (string * nat);                 (* braid.addressbook.nodes: node -> endpoint *)
  nkeys : list (string * list (field * Z)) }.  (* {node:<id>} *)
Definition empty_store : store := mkStore [] [] [] [].

(** SMEMBERS and HGETALL of a node key. *)
Definition members (s : store) (ty : string) : list addr :=
  match aget ty (tys s) with Some l => l | None => [] end.
Definition fields (s : store) (n : string) : list (field * Z) :=
  match aget n (nkeys s) with Some l => l | None => [] end.

(** Set operations. *)
Definition sadd (a : addr) (l : list addr) : list addr :=
  if existsb (addr_eqb a) l then l else l ++ [a].
Definition srem (a : addr) (l : list addr) : list addr :=
  filter (fun b => negb (addr_eqb a b)) l.

(** The commands used. *)
Inductive cmd :=
| HSetId (id : string) (a : addr)
| HDelId (id : string)
| SAddTy (ty : string) (a : addr)
| SRemTy (ty : string) (a : addr)
| HSetNode (n : string) (ep : nat)
| HDelNode (n : string)
| HIncr (n : string) (f : field) (d : Z)
| DelNode (n : string).

Definition apply (s : store) (c : cmd) : store :=
  match c with
  | HSetId id a => mkStore (aset id a (ids s)) (tys s) (nodes s) (nkeys s)
  | HDelId id => mkStore (adel id (ids s)) (tys s) (nodes s) (nkeys s)
  | SAddTy ty a => mkStore (ids s) (aset ty (sadd a (members s ty)) (tys s)) (nodes s) (nkeys s)
  | SRemTy ty a => mkStore (ids s) (aset ty (srem a (members s ty)) (tys s)) (nodes s) (nkeys s)
  | HSetNode n ep => mkStore (ids s) (tys s) (aset n ep (nodes s)) (nkeys s)
  | HDelNode n => mkStore (ids s) (tys s) (adel n (nodes s)) (nkeys s)
  | HIncr n f d => mkStore (ids s) (tys s) (nodes s) (aset n (fincr f d (fields s n)) (nkeys s))
  | DelNode n => mkStore (ids s) (tys s) (nodes s) (adel n (nkeys s))
  end.
Definition apply_all (s : store) (cs : list cmd) : store := fold_left apply cs s.

(** Register, lines 74-84: the pipeline of node [n] with endpoint [ep]. *)
Definition reg_cmds (n : string) (ep : nat) (ty id : string) (w : Z) : list cmd :=
  let a := mkAddr n id ty ep in
  [ HSetId id a; SAddTy ty a; HSetNode n ep; HIncr n (FType ty) w; HIncr n FTotal w ].

(** Unregister, lines 115-122: the pipeline of node [n], [a] being the record read
    in line 104.  The weight is charged to [n], the node of this address book. *)
Definition unreg_cmds (n : string) (id : string) (a : addr) (w : Z) : list cmd :=
  [ HDelId id; SRemTy (a_ty a) a; HIncr n (FType (a_ty a)) (- w); HIncr n FTotal (- w) ].

(** Clear, lines 326-361: for every type field of the node's hash, remove those
    members of the type that live on this node; then the node's own keys. *)
Definition clear_members (n : string) (s : store) (ty : string) : list cmd :=
  flat_map (fun a => if String.eqb (a_node a) n then [SRemTy ty a; HDelId (a_id a)] else [])
    (members s ty).
Definition clear_cmds (n : string) (s : store) : list cmd :=
  flat_map (fun p => match fst p with FTotal => [] | FType ty => clear_members n s ty end)
    (fields s n)
  ++ [DelNode n; HDelNode n].

(** ** Lookups *)
Inductive result (A : Type) := Ok (a : A) | Err.
Arguments Ok {A} a.
Arguments Err {A}.

(** GetByID, lines 135-163: [idmap] is this address book's IDMap.  The local
    answer carries no actor type. *)
Definition GetByID (n : string) (ep : nat) (idmap : list string) (s : store) (id : string)
  : result addr :=
  if String.eqb id "" then Err
  else if existsb (String.eqb id) idmap then Ok (mkAddr n id "" ep)
  else match aget id (ids s) with Some a => Ok a | None => Err end.

(** GetByType, lines 166-183. *)
Definition GetByType (s : store) (ty : string) : result (list addr) := Ok (members s ty).

(** The largest Go int, lines 212 and 249. *)
Definition max_int : Z := (2 ^ 63 - 1)%Z.

(** GetWildcardActor, lines 191-236; [sample] is the answer of SRANDMEMBER key 10. *)
Fixpoint lowest (s : store) (sample : list addr) (best : option addr) (low : Z)
  : option addr * Z :=
  match sample with
  | [] => (best, low)
  | a :: r =>
    match fget FTotal (fields s (a_node a)) with
    | None => lowest s r best low
    | Some w => if (w <? low)%Z then lowest s r (Some a) w else lowest s r best low
    end
  end.
Definition GetWildcardActor (s : store) (sample : list addr) : result addr :=
  match sample with
  | [] => Err
  | _ =>
    match lowest s sample None max_int with
    | (Some a, low) => if (low =? max_int)%Z then Err else Ok a
    | (None, _) => Err
    end
  end.
(** What SRANDMEMBER key N may answer: N distinct members, all if there are fewer. *)
Definition pick_limit : nat := 10.
Definition sample_of (l sample : list addr) : Prop :=
  NoDup sample /\ incl sample l /\ List.length sample = Nat.min pick_limit (List.length l).

(** GetLowWeightNodeForActor, lines 239-299.  The two range loops over the map of
    lines 256 and 267 have orders of their own: [ord1] is the order in which the
    weights are asked for, [ord2] the one in which the answers are used.  A missing
    weight makes Exec fail (line 260: it returns the first command error). *)
Definition node_weight (s : store) (n : string) : option Z := fget FTotal (fields s n).
Fixpoint weights (s : store) (ord : list (string * nat)) : option (list Z) :=
  match ord with
  | [] => Some []
  | (n, _) :: r =>
    match node_weight s n, weights s r with
    | Some w, Some ws => Some (w :: ws)
    | _, _ => None
    end
  end.
Fixpoint lightest (ord : list (string * nat)) (ws : list Z) (best : option (string * nat)) (low : Z)
  : option (string * nat) :=
  match ord, ws with
  | p :: r, w :: ws' => if (w <? low)%Z then lightest r ws' (Some p) w else lightest r ws' best low
  | _, _ => best
  end.
Definition GetLowWeightNodeForActor (s : store) (ord1 ord2 : list (string * nat))
  : result (string * nat) :=
  match nodes s with
  | [] => Err
  | _ =>
    match weights s ord1 with
    | None => Err
    | Some ws =>
      match lightest ord2 ws None max_int with
      | Some (n, ep) => if String.eqb n "" then Err else Ok (n, ep)
      | None => Err
      end
    end
  end.

(** GetActorTypeCount, lines 302-316. *)
Definition GetActorTypeCount (s : store) (ty : string) : nat := List.length (members s ty).

(** ** The cluster: nodes running operations on the shared store *)
(** One node's process: its endpoint and its IDMap (lines 25-28). *)
Record proc := mkProc { p_ep : nat; p_ids : list string }.

Inductive op :=
| OReg (ty id : string) (w : Z)
| OUnreg (id : string) (a : addr) (w : Z)
| OClear.
(** An operation under way: its node and the commands not yet executed; None once
    it has returned, failed or died with its process. *)
Record thread := mkThread { t_node : string; t_op : op; t_todo : option (list cmd) }.

Record state := mkState { st : store; procs : list (string * proc); threads : list thread }.
Definition init : state := mkState empty_store [] [].

Inductive label :=
| LStart (n : string) (ep : nat)                 (* a process for node n starts: New, lines 33-40 *)
| LCrash (n : string)                            (* it dies *)
| LReg (n ty id : string) (w : Z)                (* Register up to the pipeline, lines 46-72 *)
| LUnreg (n id : string) (w : Z)                 (* Unregister up to the pipeline, lines 98-113 *)
| LClear (n : string)                            (* Clear up to the pipeline *)
| LCmd (t : nat)                                 (* Redis executes the next command of t *)
| LErr (t : nat)                                 (* Exec fails: the rest is not executed, the call errs *)
| LRet (t : nat).                                (* Exec succeeded; IDMap is updated; the call returns nil *)

Inductive event :=
| EReg (n : string) (ep : nat) (ty id : string) (w : Z)   (* a Register issues its pipeline *)
| EUnreg (n id : string) (a : addr) (w : Z)               (* an Unregister issues its pipeline *)
| EClear (n : string)                                     (* a Clear issues its pipeline *)
| ERefused (n id : string)                                (* a call returned an error at once *)
| EStart (n : string) (ep : nat)                          (* a process started *)
| EErr (t : nat)                                          (* operation t returned an error *)
| ERet (t : nat) (n : string) (o : op).                   (* operation t, of node n, returned nil *)

Definition kill (n : string) (t : thread) : thread :=
  if String.eqb (t_node t) n then mkThread (t_node t) (t_op t) None else t.
Definition idmap_add (id : string) (l : list string) : list string :=
  if existsb (String.eqb id) l then l else l ++ [id].
Definition idmap_del (id : string) (l : list string) : list string :=
  filter (fun x => negb (String.eqb id x)) l.
(** Lines 91-93, 125-129; Clear leaves IDMap alone. *)
Definition idmap_after (o : op) (l : list string) : list string :=
  match o with
  | OReg _ id _ => idmap_add id l
  | OUnreg id _ _ => idmap_del id l
  | OClear => l
  end.
Definition spawn (s : state) (t : thread) : state := mkState (st s) (procs s) (threads s ++ [t]).

Definition step (s : state) (l : label) : option (state * list event) :=
  match l with
  | LStart n ep =>
    match aget n (procs s) with
    | Some _ => None
    | None => Some (mkState (st s) (aset n (mkProc ep []) (procs s)) (threads s), [EStart n ep])
    end
  | LCrash n =>
    match aget n (procs s) with
    | None => None
    | Some _ => Some (mkState (st s) (adel n (procs s)) (map (kill n) (threads s)), [])
    end
  | LReg n ty id w =>
    match aget n (procs s) with
    | None => None
    | Some p =>
      if (String.eqb id "" || String.eqb ty "") || existsb (String.eqb id) (p_ids p)
      then Some (s, [ERefused n id])
      else Some (spawn s (mkThread n (OReg ty id w) (Some (reg_cmds n (p_ep p) ty id w))),
                 [EReg n (p_ep p) ty id w])
    end
  | LUnreg n id w =>
    match aget n (procs s) with
    | None => None
    | Some _ =>
      if String.eqb id "" then Some (s, [ERefused n id])
      else match aget id (ids (st s)) with
      | None => Some (s, [ERefused n id])
      | Some a => Some (spawn s (mkThread n (OUnreg id a w) (Some (unreg_cmds n id a w))),
                        [EUnreg n id a w])
      end
    end
  | LClear n =>
    match aget n (procs s) with
    | None => None
    | Some _ => Some (spawn s (mkThread n OClear (Some (clear_cmds n (st s)))), [EClear n])
    end
  | LCmd t =>
    match nth_error (threads s) t with
    | Some (mkThread n o (Some (c :: r))) =>
      Some (mkState (apply (st s) c) (procs s) (upd (threads s) t (mkThread n o (Some r))), [])
    | _ => None
    end
  | LErr t =>
    match nth_error (threads s) t with
    | Some (mkThread n o (Some _)) =>
      Some (mkState (st s) (procs s) (upd (threads s) t (mkThread n o None)), [EErr t])
    | _ => None
    end
  | LRet t =>
    match nth_error (threads s) t with
    | Some (mkThread n o (Some [])) =>
      match aget n (procs s) with
      | Some p =>
        Some (mkState (st s) (aset n (mkProc (p_ep p) (idmap_after o (p_ids p))) (procs s))
                (upd (threads s) t (mkThread n o None)), [ERet t n o])
      | None => None
      end
    | _ => None
    end
  end.
