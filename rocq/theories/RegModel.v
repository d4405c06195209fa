(** Model of System.Register and System.Unregister,
    /repo/core/node/system_impl.go lines 99-187, for any number of nodes sharing
    one address-book store, split where other goroutines or nodes can get between.

    Simplifications: the address book is that of AddrModel (its store commands one
    by one); an actor is its node, id, type and whether it runs (its loop is
    ActorModel); the scan of actoridmap in lines 115-119, which takes no lock, is
    one step (in Go a concurrent map write can abort the process there); building
    and Init (lines 139-142) are one step; Exit's waiting always ends here
    (ActorModel shows when it does). *)
From Coq Require Import List String ZArith Bool.
From Verif Require Import Machine AddrModel.
Import ListNotations.
Open Scope string_scope.
Open Scope list_scope.

(** core.IActorBuilder as far as Register reads it. *)
Record builder := mkB {
  b_id : string; b_ty : string; b_w : Z;
  b_limit : Z;        (* GetGlobalQuantityLimit *)
  b_unique : bool;    (* GetNodeUnique *)
  b_ctor : bool }.    (* GetConstructor() != nil *)

(** An actor: Exit closes shutdownCh (a second Exit panics), then the loop ends. *)
Inductive istat := Running | Exiting | Stopped.
Record inst := mkInst { i_node : string; i_id : string; i_ty : string; i_st : istat }.
Definition set_st (i : inst) (x : istat) : inst := mkInst (i_node i) (i_id i) (i_ty i) x.

(** A node's process: endpoint, the address book's IDMap, actoridmap (id to actor). *)
Record node := mkNode { n_ep : nat; n_ids : list string; n_map : list (string * nat) }.

Inductive kind := CReg (b : builder) | CUnreg (id ty : string).
Inductive pc :=
| PCheck                  (* Register, line 105 *)
| PScan                   (* line 114 *)
| PCount                  (* line 122 *)
| PBook                   (* line 132: the checks of AddressBook.Register *)
| PPipe (cs : list cmd)   (* its pipeline *)
| PBuild                  (* line 138 *)
| PInsert (i : nat)       (* line 147 *)
| UMap                    (* Unregister, line 158 *)
| UExit (i : nat)         (* line 164, up to close(shutdownCh) *)
| UWait (i : nat)         (* line 164, <-closeCh *)
| UDel                    (* line 167 *)
| UFac                    (* line 173 *)
| UBook (w : Z)           (* line 178: AddressBook.Unregister reads the record *)
| UPipe (cs : list cmd)   (* its pipeline *)
| PRet (ok : bool)        (* returned; ok: no error *)
| PDead.                  (* the process died *)
Record call := mkCall { c_node : string; c_kind : kind; c_pc : pc }.

Record state := mkState { st : store; nds : list (string * node); insts : list inst; calls : list call }.
Definition init : state := mkState empty_store [] [] [].

Inductive label :=
| LStart (n : string) (ep : nat)
| LCrash (n : string)
| LReg (n : string) (b : builder)
| LUnreg (n id ty : string)
| LStep (t : nat)          (* call t takes its next step *)
| LFail (t : nat).         (* the store fails call t's command *)

Inductive event :=
| ECall (t : nat) (n : string) (k : kind)
| ECmd (t : nat) (c : cmd)      (* a store command of call t was executed *)
| ERun (t : nat) (i : nat)      (* call t started actor i *)
| EStop (t : nat) (i : nat)     (* actor i ended *)
| EFail (t : nat)               (* the store failed call t *)
| EOk (t : nat) | EErr (t : nat)(* call t returned *)
| EPanic (n : string).          (* the process of n died of a panic *)

Section Model.
(** factory.Get(ty).Weight; None for an unknown type (lines 173-178). *)
Variable factory : string -> option Z.

Definition goto (s : state) (t : nat) (c : call) (p : pc) : list call :=
  upd (calls s) t (mkCall (c_node c) (c_kind c) p).
Definition set_calls (s : state) (cs : list call) : state := mkState (st s) (nds s) (insts s) cs.
Definition set_node (s : state) (n : string) (x : node) : state :=
  mkState (st s) (aset n x (nds s)) (insts s) (calls s).

(** The process of [n] dies: its calls and actors with it. *)
Definition die (s : state) (n : string) : state :=
  mkState (st s) (adel n (nds s))
    (map (fun i => if String.eqb (i_node i) n then set_st i Stopped else i) (insts s))
    (map (fun c => if String.eqb (c_node c) n
                   then match c_pc c with PRet _ => c | _ => mkCall (c_node c) (c_kind c) PDead end
                   else c) (calls s)).

(** Register, lines 99-152. *)
Definition step_reg (s : state) (t : nat) (c : call) (nd : node) (b : builder)
  : option (state * list event) :=
  let go p := set_calls s (goto s t c p) in
  let err := Some (go (PRet false), [EErr t]) in
  match c_pc c with
  | PCheck =>
    match aget (b_id b) (n_map nd) with
    | Some _ => err
    | None => if Z.eqb (b_limit b) 0 then Some (go PBook, []) else Some (go PScan, [])
    end
  | PScan =>
    if b_unique b && existsb (fun p => match nth_error (insts s) (snd p) with
                                       | Some i => String.eqb (i_ty i) (b_ty b)
                                       | None => false end) (n_map nd)
    then err else Some (go PCount, [])
  | PCount =>
    if (b_limit b <=? Z.of_nat (GetActorTypeCount (st s) (b_ty b)))%Z then err else Some (go PBook, [])
  | PBook =>
    if (String.eqb (b_id b) "" || String.eqb (b_ty b) "") || existsb (String.eqb (b_id b)) (n_ids nd)
    then err
    else Some (go (PPipe (reg_cmds (c_node c) (n_ep nd) (b_ty b) (b_id b) (b_w b))), [])
  | PPipe (x :: r) =>
    Some (mkState (apply (st s) x) (nds s) (insts s) (goto s t c (PPipe r)), [ECmd t x])
  | PPipe [] =>
    Some (set_calls (set_node s (c_node c) (mkNode (n_ep nd) (idmap_add (b_id b) (n_ids nd)) (n_map nd)))
            (goto s t c PBuild), [])
  | PBuild =>
    if b_ctor b then
      let i := List.length (insts s) in
      Some (mkState (st s) (nds s) (insts s ++ [mkInst (c_node c) (b_id b) (b_ty b) Running])
              (goto s t c (PInsert i)), [ERun t i])
    else Some (die s (c_node c), [EPanic (c_node c)])
  | PInsert i =>
    Some (set_calls (set_node s (c_node c) (mkNode (n_ep nd) (n_ids nd) (aset (b_id b) i (n_map nd))))
            (goto s t c (PRet true)), [EOk t])
  | _ => None
  end.

(** Unregister, lines 154-187. *)
Definition step_unreg (s : state) (t : nat) (c : call) (nd : node) (id ty : string)
  : option (state * list event) :=
  let go p := set_calls s (goto s t c p) in
  let ok := Some (go (PRet true), [EOk t]) in
  match c_pc c with
  | UMap =>
    match aget id (n_map nd) with
    | Some i => Some (go (UExit i), [])
    | None => Some (go UFac, [])
    end
  | UExit i =>
    match nth_error (insts s) i with
    | Some x =>
      match i_st x with
      | Running => Some (mkState (st s) (nds s) (upd (insts s) i (set_st x Exiting)) (goto s t c (UWait i)), [])
      | _ => Some (die s (c_node c), [EPanic (c_node c)])
      end
    | None => None
    end
  | UWait i =>
    match nth_error (insts s) i with
    | Some x => Some (mkState (st s) (nds s) (upd (insts s) i (set_st x Stopped)) (goto s t c UDel), [EStop t i])
    | None => None
    end
  | UDel =>
    Some (set_calls (set_node s (c_node c) (mkNode (n_ep nd) (n_ids nd) (adel id (n_map nd)))) (goto s t c UFac), [])
  | UFac =>
    match factory ty with
    | None => Some (go (PRet false), [EErr t])
    | Some w => Some (go (UBook w), [])
    end
  | UBook w =>
    if String.eqb id "" then ok
    else match aget id (ids (st s)) with
         | None => ok
         | Some a => Some (go (UPipe (unreg_cmds (c_node c) id a w)), [])
         end
  | UPipe (x :: r) =>
    Some (mkState (apply (st s) x) (nds s) (insts s) (goto s t c (UPipe r)), [ECmd t x])
  | UPipe [] =>
    Some (set_calls (set_node s (c_node c) (mkNode (n_ep nd) (idmap_del id (n_ids nd)) (n_map nd)))
            (goto s t c (PRet true)), [EOk t])
  | _ => None
  end.

Definition step (s : state) (l : label) : option (state * list event) :=
  match l with
  | LStart n ep =>
    match aget n (nds s) with
    | Some _ => None
    | None => Some (set_node s n (mkNode ep [] []), [])
    end
  | LCrash n =>
    match aget n (nds s) with
    | None => None
    | Some _ => Some (die s n, [])
    end
  | LReg n b =>
    match aget n (nds s) with
    | None => None
    | Some _ =>
      let t := List.length (calls s) in
      if String.eqb (b_id b) "" || String.eqb (b_ty b) ""
      then Some (set_calls s (calls s ++ [mkCall n (CReg b) (PRet false)]), [ECall t n (CReg b); EErr t])
      else Some (set_calls s (calls s ++ [mkCall n (CReg b) PCheck]), [ECall t n (CReg b)])
    end
  | LUnreg n id ty =>
    match aget n (nds s) with
    | None => None
    | Some _ =>
      Some (set_calls s (calls s ++ [mkCall n (CUnreg id ty) UMap]), [ECall (List.length (calls s)) n (CUnreg id ty)])
    end
  | LStep t =>
    match nth_error (calls s) t with
    | None => None
    | Some c =>
      match aget (c_node c) (nds s) with
      | None => None
      | Some nd =>
        match c_kind c with
        | CReg b => step_reg s t c nd b
        | CUnreg id ty => step_unreg s t c nd id ty
        end
      end
    end
  | LFail t =>
    match nth_error (calls s) t with
    | None => None
    | Some c =>
      match c_pc c with
      | PCount | PPipe _ => Some (set_calls s (goto s t c (PRet false)), [EFail t; EErr t])
      | UBook _ | UPipe _ => Some (set_calls s (goto s t c (PRet true)), [EFail t; EOk t])  (* only logged, line 179 *)
      | _ => None
      end
    end
  end.
End Model.
