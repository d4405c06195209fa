(** Vocabulary for the address book. *)
From Coq Require Import List String ZArith Bool Permutation.
From Verif Require Import Machine AddrModel.
Import ListNotations.
Open Scope string_scope.
Open Scope list_scope.

(** A registration: who registered what, with which weight. *)
Record reg := mkReg { r_node : string; r_ep : nat; r_ty : string; r_id : string; r_w : Z }.
Definition addr_of (r : reg) : addr := mkAddr (r_node r) (r_id r) (r_ty r) (r_ep r).

(** The registrations in force after a history of operations: Register adds one,
    Unregister removes the one with the id, Clear removes those of the node. *)
Definition after (L : list reg) (e : event) : list reg :=
  match e with
  | EReg n ep ty id w => L ++ [mkReg n ep ty id w]
  | EUnreg _ id _ _ => filter (fun r => negb (String.eqb (r_id r) id)) L
  | EClear n => filter (fun r => negb (String.eqb (r_node r) n)) L
  | _ => L
  end.
Definition live (evs : list event) : list reg := fold_left after evs [].

(** Sum of the weights of the registrations selected by [p]. *)
Fixpoint total (p : reg -> bool) (L : list reg) : Z :=
  match L with
  | [] => 0
  | r :: t => (if p r then r_w r else 0) + total p t
  end%Z.
Definition on_node (n : string) (r : reg) : bool := String.eqb (r_node r) n.
Definition of_type (ty : string) (r : reg) : bool := String.eqb (r_ty r) ty.

(** The number stored in a field of a node's hash, 0 if there is none. *)
Definition stored (s : store) (n : string) (f : field) : Z :=
  match fget f (fields s n) with Some z => z | None => 0%Z end.

(** The store says exactly what the registrations in force say. *)
Record consistent (s : store) (L : list reg) : Prop := {
  c_unique : NoDup (map r_id L);
  c_record : forall id a, aget id (ids s) = Some a <-> exists r, In r L /\ r_id r = id /\ a = addr_of r;
  c_member : forall ty a, In a (members s ty) <-> exists r, In r L /\ r_ty r = ty /\ a = addr_of r;
  c_set : forall ty, NoDup (members s ty);
  c_total : forall n, stored s n FTotal = total (on_node n) L;
  c_type : forall n ty, stored s n (FType ty) = total (fun r => on_node n r && of_type ty r) L;
  c_field : forall r, In r L -> exists z, fget (FType (r_ty r)) (fields s (r_node r)) = Some z;
  c_node : forall r, In r L -> exists ep, aget (r_node r) (nodes s) = Some ep;
  c_weight : forall n ep, aget n (nodes s) = Some ep -> exists z, fget FTotal (fields s n) = Some z }.

(** ** Executions in which nodes keep to their own records *)
Definition cmd_ids (c : cmd) : list string :=
  match c with
  | HSetId id _ | HDelId id => [id]
  | SAddTy _ a | SRemTy _ a => [a_id a]
  | _ => []
  end.
Definition mentions (id : string) (t : thread) : bool :=
  match t_todo t with
  | Some todo => existsb (fun c => existsb (String.eqb id) (cmd_ids c)) todo
  | None => false
  end.
Definition running (n : string) (t : thread) : bool :=
  match t_todo t with Some _ => String.eqb (t_node t) n | None => false end.
Definition clearing (n : string) (t : thread) : bool :=
  running n t && match t_op t with OClear => true | _ => false end.
(** The registrations in force are [L]; is [l] in order?
    - Register: no unfinished operation concerns this id, no Clear of this node is
      under way, and either this node refuses the id itself or it is not in force;
    - Unregister: likewise, and a record found is this node's, with this weight;
    - Clear: no other operation of this node is under way;
    - no crashes, no store failures. *)
Definition in_order (L : list reg) (s : state) (l : label) : bool :=
  match l with
  | LReg n _ id _ =>
    negb (existsb (mentions id) (threads s)) && negb (existsb (clearing n) (threads s)) &&
    (match aget n (procs s) with Some p => existsb (String.eqb id) (p_ids p) | None => false end ||
     negb (existsb (fun r => String.eqb (r_id r) id) L))
  | LUnreg n id w =>
    negb (existsb (mentions id) (threads s)) && negb (existsb (clearing n) (threads s)) &&
    (match aget id (ids (st s)) with None => true | Some _ => false end ||
     existsb (fun r => String.eqb (r_id r) id && on_node n r && Z.eqb (r_w r) w) L)
  | LClear n => negb (existsb (running n) (threads s))
  | LCrash _ | LErr _ => false
  | _ => true
  end.
(** The machine restricted to such steps, with the registrations in force. *)
Definition ostep (x : state * list reg) (l : label) : option ((state * list reg) * list event) :=
  let '(s, L) := x in
  if in_order L s l then
    match step s l with
    | Some (s', e) => Some ((s', fold_left after e L), e)
    | None => None
    end
  else None.
Definition orun (sched : list label) : option ((state * list reg) * list event) :=
  run ostep (init, []) sched.

(** Every operation has returned. *)
Definition at_rest (s : state) : Prop := forall t, In t (threads s) -> t_todo t = None.

(** Does node [n] hold id [id]: since its process started, is the last of its
    completed Register and Unregister calls on [id] a Register? *)
Definition hold_after (n id : string) (b : bool) (e : event) : bool :=
  match e with
  | EStart m _ => if String.eqb m n then false else b
  | ERet _ m (OReg _ i _) => if String.eqb m n && String.eqb i id then true else b
  | ERet _ m (OUnreg i _ _) => if String.eqb m n && String.eqb i id then false else b
  | _ => b
  end.
Definition holds (n id : string) (evs : list event) : bool := fold_left (hold_after n id) evs false.

(** Every member of a type set has its address record. *)
Definition members_have_records (s : store) : Prop :=
  forall ty a, In a (members s ty) -> aget (a_id a) (ids s) = Some a.
(** No node is charged less than its registrations with a surviving record weigh. *)
Definition not_undercharged (s : store) (L : list reg) : Prop :=
  forall n, (total (fun r => on_node n r &&
                match aget (r_id r) (ids s) with Some a => addr_eqb a (addr_of r) | None => false end) L
             <= stored s n FTotal)%Z.
