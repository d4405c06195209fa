(** Vocabulary for registering actors. *)
From Coq Require Import List String ZArith Bool.
From Verif Require Import Machine AddrModel RegModel.
Import ListNotations.
Open Scope string_scope.
Open Scope list_scope.

(** Actor number [k], on node [n], with id [id] and type [ty], runs. *)
Definition alive (s : state) (k : nat) (n id ty : string) : Prop :=
  exists x, nth_error (insts s) k = Some (mkInst n id ty x) /\ x <> Stopped.

(** Calls that have not returned. *)
Definition call_id (c : call) : string := match c_kind c with CReg b => b_id b | CUnreg id _ => id end.
Definition active (c : call) : bool := match c_pc c with PRet _ | PDead => false | _ => true end.
Definition reg_of_type (ty : string) (c : call) : bool :=
  match c_kind c with CReg b => String.eqb (b_ty b) ty | CUnreg _ _ => false end.
Definition busy_id (n id : string) (c : call) : bool :=
  active c && String.eqb (c_node c) n && String.eqb (call_id c) id.
Definition busy_type (ty : string) (c : call) : bool := active c && reg_of_type ty c.

(** Executions whose calls respect a discipline [ok]. *)
Definition filtered (ok : state -> label -> bool) (factory : string -> option Z) (s : state) (l : label) :=
  if ok s l then step factory s l else None.

(** (1) On each node, calls about one id do not overlap. *)
Definition serial_ids (s : state) (l : label) : bool :=
  match l with
  | LReg n b => negb (existsb (busy_id n (b_id b)) (calls s))
  | LUnreg n id _ => negb (existsb (busy_id n id) (calls s))
  | _ => true
  end.
(** (2) In the cluster, Register calls for type [ty] do not overlap. *)
Definition serial_type (ty : string) (s : state) (l : label) : bool :=
  match l with
  | LReg n b => negb (String.eqb (b_ty b) ty && existsb (busy_type ty) (calls s))
  | _ => true
  end.
(** (3) On each node, Register calls for type [ty] do not overlap. *)
Definition serial_type_node (ty : string) (s : state) (l : label) : bool :=
  match l with
  | LReg n b => negb (String.eqb (b_ty b) ty && existsb (fun c => busy_type ty c && String.eqb (c_node c) n) (calls s))
  | _ => true
  end.
(** (4) An id belongs to one node: no call about it is active anywhere when another
    starts, Register is not called while the actor runs on another node, and
    Unregister is not called on a node while the actor runs on another one. *)
Definition owned_ids (s : state) (l : label) : bool :=
  let elsewhere n id := existsb (fun i => String.eqb (i_id i) id && negb (String.eqb (i_node i) n) &&
                          match i_st i with Stopped => false | _ => true end) (insts s) in
  match l with
  | LReg n b => negb (existsb (fun c => active c && String.eqb (call_id c) (b_id b)) (calls s)) && negb (elsewhere n (b_id b))
  | LUnreg n id _ => negb (existsb (fun c => active c && String.eqb (call_id c) id) (calls s)) && negb (elsewhere n id)
  | _ => true
  end.

Definition both (a b : state -> label -> bool) (s : state) (l : label) : bool := a s l && b s l.

(** Every Register call for type [ty] satisfies [P]. *)
Definition all_regs (ty : string) (P : builder -> Prop) (sched : list label) : Prop :=
  forall n b, In (LReg n b) sched -> b_ty b = ty -> P b.

(** What call [t] did and how it returned, in order. *)
Definition of_call (t : nat) (e : event) : bool :=
  match e with
  | ECmd u _ | ERun u _ | EStop u _ | EFail u | EOk u | EErr u => Nat.eqb u t
  | ECall _ _ _ | EPanic _ => false
  end.
Definition own (t : nat) (evs : list event) : list event := filter (of_call t) evs.
