(** Model of target resolution: NormalSystem.Call and Send,
    /repo/core/node/system_impl.go lines 197-291, 347-361 and 363-445, and Routing
    (core/node/system_acceptor.go lines 94-114), on a cluster of nodes that register and
    unregister actors meanwhile (RegModel).

    Call and Send resolve their target by the same statements and differ in what they do
    with the actor found, which is not modelled here (CallModel): a message handed to an
    actor is delivered.  A request forwarded to another node enters Call there with the
    symbol, type and event of its header (Routing 103-106).
    Simplifications: the reads of one GetByID or GetWildcardActor are one step (they have
    no effect); tracing is left out; the removal of a stale record (lines 255-262) is the
    address book's Unregister, run by RegModel as a call that starts at [UBook]; a node is
    reached by its endpoint, which stands for ip and port. *)
From Coq Require Import List String ZArith Bool.
From Verif Require Import Machine AddrModel RegModel.
Import ListNotations.
Open Scope string_scope.
Open Scope list_scope.

(** Where a message is. *)
Inductive mpc :=
| MAt (n : string)                       (* entering Call on node n, line 197 *)
| MBook (n : string)                     (* not local: asks the address book, lines 256 and 289 *)
| MPicked (n : string) (r : result addr) (* '?': answered, lines 228-235 *)
| MInfo (n : string) (r : result addr)   (* lines 260-264 *)
| MClean (n : string) (t : nat)          (* line 265, in Unregister, which is call t *)
| MDone.
(** [m_hops] counts the node boundaries crossed. *)
Record msg := mkM { m_org : string; m_sym : string; m_ty : string; m_hops : nat; m_pc : mpc }.
Record sys := mkSys { reg : state; msgs : list msg }.
Definition sinit : sys := mkSys RegModel.init [].

Inductive slabel :=
| SReg (l : label)                        (* registering goes on *)
| SCall (n sym ty : string)               (* code on node n calls or sends *)
| SHop (m : nat)                          (* the next statement of message m *)
| SScan (m : nat) (id : option string)    (* lines 278-286: the actor the iteration finds *)
| SPick (m : nat) (sample : list addr)    (* lines 228, 289: the answer of SRANDMEMBER *)
| SBookErr (m : nat)                      (* the address book's read fails *)
| SForward (m : nat) (n : string)         (* line 274: the request arrives at node n *)
| SNetErr (m : nat).                      (* it does not *)
Inductive sevent :=
| EReg (e : event)
| ECalled (m : nat) (n sym ty : string)
| EDeliver (m : nat) (n : string) (k : nat)     (* handed to actor k on node n *)
| EForward (m : nat) (n n' : string)            (* sent from node n to node n' *)
| EClean (m : nat) (n id : string)              (* node n begins to remove the record of id *)
| EUndelivered (m : nat) (n : string) (ok : bool). (* it fails on node n; ok: the first caller gets nil *)

(** SRANDMEMBER key 10: distinct members, ten of them or all. *)
Fixpoint nodupb (l : list addr) : bool :=
  match l with [] => true | a :: r => negb (existsb (addr_eqb a) r) && nodupb r end.
Definition is_sample (l sample : list addr) : bool :=
  nodupb sample && forallb (fun a => existsb (addr_eqb a) l) sample &&
  Nat.eqb (List.length sample) (Nat.min pick_limit (List.length l)).

Definition of_type (r : state) (ty : string) (k : nat) : bool :=
  match nth_error (insts r) k with Some i => String.eqb (i_ty i) ty | None => false end.

Section Sys.
(** factory.Get(ty).Weight; None where Get returns nil. *)
Variable factory : string -> option Z.

Definition setm (s : sys) (m : nat) (x : msg) (p : mpc) : list msg :=
  upd (msgs s) m (mkM (m_org x) (m_sym x) (m_ty x) (m_hops x) p).
Definition goto_m (s : sys) (m : nat) (x : msg) (p : mpc) : sys := mkSys (reg s) (setm s m x p).
(** Messages on a node whose process has died are lost. *)
Definition at_node (p : mpc) : option string :=
  match p with MAt n | MBook n | MPicked n _ | MInfo n _ | MClean n _ => Some n | MDone => None end.
Definition lose (r : state) (x : msg) : msg :=
  match at_node (m_pc x) with
  | Some n => match aget n (nds r) with Some _ => x | None => mkM (m_org x) (m_sym x) (m_ty x) (m_hops x) MDone end
  | None => x
  end.
(** An error returned by Call on the caller's node reaches the caller; on another node
    Routing logs it and answers without one (108-113). *)
Definition swallowed (x : msg) : bool := negb (Nat.eqb (m_hops x) 0).

Definition hop (s : sys) (m : nat) (x : msg) (nd : node) (n : string) : option (sys * list sevent) :=
  let fail := Some (goto_m s m x MDone, [EUndelivered m n (swallowed x)]) in
  let deliver k := Some (goto_m s m x MDone, [EDeliver m n k]) in
  match m_pc x with
  | MAt _ =>
    if String.eqb (m_sym x) "" then fail                              (* 222-224 *)
    else if String.eqb (m_sym x) "?" || String.eqb (m_sym x) "~" then None
    else match aget (m_sym x) (n_map nd) with                         (* 247-253 *)
         | Some k => deliver k
         | None => Some (goto_m s m x (MBook n), [])
         end
  | MBook _ =>
    if String.eqb (m_sym x) "~" then None
    else Some (goto_m s m x (MInfo n (GetByID n (n_ep nd) (n_ids nd) (st (reg s)) (m_sym x))), []) (* 256 *)
  | MPicked _ r =>                                                    (* 228-235 *)
    match aget (match r with Ok a => a_id a | Err => "" end) (n_map nd) with
    | Some k => deliver k
    | None => Some (goto_m s m x (MInfo n r), [])
    end
  | MInfo _ Err => fail                                               (* 260-262 *)
  | MInfo _ (Ok a) =>
    if Nat.eqb (a_ep a) (n_ep nd) then                                (* 264 *)
      match factory (m_ty x) with
      | Some w =>
        Some (mkSys (set_calls (reg s) (calls (reg s) ++ [mkCall n (CUnreg (a_id a) (m_ty x)) (UBook w)]))
                    (setm s m x (MClean n (List.length (calls (reg s))))), [EClean m n (a_id a)])
      | None => (* nil dereference; behind the acceptor it is recovered and answered as an error *)
        if Nat.eqb (m_hops x) 0
        then Some (mkSys (die (reg s) n) (map (lose (die (reg s) n)) (setm s m x MDone)), [EReg (EPanic n)])
        else Some (goto_m s m x MDone, [EUndelivered m n (negb (Nat.eqb (m_hops x) 1))])
      end
    else None
  | MClean _ t =>                                                     (* 265-270: ErrSelfCall *)
    match nth_error (calls (reg s)) t with
    | Some c => match c_pc c with PRet _ => fail | _ => None end
    | None => None
    end
  | MDone => None
  end.

Definition on_msg (s : sys) (m : nat) (f : msg -> node -> string -> option (sys * list sevent)) : option (sys * list sevent) :=
  match nth_error (msgs s) m with
  | Some x =>
    match at_node (m_pc x) with
    | Some n => match aget n (nds (reg s)) with Some nd => f x nd n | None => None end
    | None => None
    end
  | None => None
  end.

Definition sstep (s : sys) (l : slabel) : option (sys * list sevent) :=
  match l with
  | SReg l =>
    match step factory (reg s) l with
    | Some (r, e) => Some (mkSys r (map (lose r) (msgs s)), map EReg e)
    | None => None
    end
  | SCall n sym ty =>
    match aget n (nds (reg s)) with
    | Some _ => Some (mkSys (reg s) (msgs s ++ [mkM n sym ty 0 (MAt n)]), [ECalled (List.length (msgs s)) n sym ty])
    | None => None
    end
  | SHop m => on_msg s m (fun x nd n => hop s m x nd n)
  | SScan m id => on_msg s m (fun x nd n =>
      match m_pc x with
      | MAt _ =>
        if String.eqb (m_sym x) "~" then
          match id with
          | Some i =>
            match aget i (n_map nd) with
            | Some k => if of_type (reg s) (m_ty x) k then Some (goto_m s m x MDone, [EDeliver m n k]) else None
            | None => None
            end
          | None => if existsb (fun p => of_type (reg s) (m_ty x) (snd p)) (n_map nd) then None
                    else Some (goto_m s m x (MBook n), [])
          end
        else None
      | _ => None
      end)
  | SPick m sample => on_msg s m (fun x nd n =>
      if is_sample (members (st (reg s)) (m_ty x)) sample then
        match m_pc x with
        | MAt _ => if String.eqb (m_sym x) "?" then Some (goto_m s m x (MPicked n (GetWildcardActor (st (reg s)) sample)), []) else None
        | MBook _ => if String.eqb (m_sym x) "~" then Some (goto_m s m x (MInfo n (GetWildcardActor (st (reg s)) sample)), []) else None
        | _ => None
        end
      else None)
  | SBookErr m => on_msg s m (fun x nd n =>
      match m_pc x with
      | MAt _ => if String.eqb (m_sym x) "?" then Some (goto_m s m x (MPicked n Err), []) else None
      | MBook _ => Some (goto_m s m x (MInfo n Err), [])
      | _ => None
      end)
  | SForward m n' => on_msg s m (fun x nd n =>
      match m_pc x, aget n' (nds (reg s)) with
      | MInfo _ (Ok a), Some nd' =>
        if negb (Nat.eqb (a_ep a) (n_ep nd)) && Nat.eqb (a_ep a) (n_ep nd')
        then Some (mkSys (reg s) (upd (msgs s) m (mkM (m_org x) (m_sym x) (m_ty x) (S (m_hops x)) (MAt n'))), [EForward m n n'])
        else None
      | _, _ => None
      end)
  | SNetErr m => on_msg s m (fun x nd n =>
      match m_pc x with
      | MInfo _ (Ok a) => if Nat.eqb (a_ep a) (n_ep nd) then None else Some (goto_m s m x MDone, [EUndelivered m n (swallowed x)])
      | _ => None
      end)
  end.
End Sys.
