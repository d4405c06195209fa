(** Model of the nodes of a process (/repo/core/node.go 19-82; /repo/core/node/node_process_impl.go 15-57;
    /repo/core/node/system_impl.go 46-89; the listening of /repo/lib/grpc/server.go 59-70).

    Texts, loaders, factories and tracers are numbers; the address of 25, "127.0.0.1", is [home].  The clients of Redis and of gRPC
    and what the loader does with the node are not modelled; calls are one after another.
    ShutModel has the rest of the closing of a node. *)
From Coq Require Import List Arith Bool.
Import ListNotations.

(** core/node.go 19-30 *)
Record parm := mkP { id : nat; weight : nat; ip : nat; port : nat; trac : option nat; loader : option nat; factory : option nat }.
(** core/node.go 35-82 *)
Inductive opt := WithServiceInfo (i p : nat) | WithID (n : nat) | WithWeight (w : nat) | WithLoader (l : option nat) | WithFactory (f : option nat) | WithIP (i : nat) | WithPort (p : nat) | WithTracer (t : option nat).
Definition apply (p : parm) (o : opt) : parm :=
  match o with
  | WithServiceInfo i q => mkP (id p) (weight p) i q (trac p) (loader p) (factory p)
  | WithID n => mkP n (weight p) (ip p) (port p) (trac p) (loader p) (factory p)
  | WithWeight w => mkP (id p) w (ip p) (port p) (trac p) (loader p) (factory p)
  | WithLoader l => mkP (id p) (weight p) (ip p) (port p) (trac p) l (factory p)
  | WithFactory f => mkP (id p) (weight p) (ip p) (port p) (trac p) (loader p) f
  | WithIP i => mkP (id p) (weight p) i (port p) (trac p) (loader p) (factory p)
  | WithPort q => mkP (id p) (weight p) (ip p) q (trac p) (loader p) (factory p)
  | WithTracer t => mkP (id p) (weight p) (ip p) (port p) t (loader p) (factory p)
  end.
Definition home : nat := 127.
(** A system, system_impl.go 24-42: what it tells the address book of itself, its loader, factory and tracer, and
    whether it has an acceptor. *)
Record system := mkSys { node_id : nat; node_ip : nat; node_port : nat; sys_trac : option nat; sys_loader : nat; sys_factory : nat; accepts : bool }.
Record node := mkN { np : parm; sys : system; open : bool }.
(** [nodes]: those built so far; [pcs]: node_process_impl.go 20. *)
Record state := mkS { nodes : list node; pcs : option nat }.
Definition init : state := mkS [] None.
Definition used (s : state) (p : nat) : bool := existsb (fun n => open n && Nat.eqb (port (np n)) p) (nodes s).
(** system_impl.go 46-89; None: a panic, of 59 or of 81.  [free]: the port can be listened at. *)
Definition build_system (free : nat -> bool) (p : parm) : option system :=
  match loader p, factory p with
  | Some l, Some f =>
    if Nat.eqb (port p) 0 then Some (mkSys (id p) (ip p) (port p) (trac p) l f false)
    else if free (port p) then Some (mkSys (id p) (ip p) (port p) (trac p) l f true) else None
  | _, _ => None
  end.
(** A Go interface value: nil, or a pointer of type *process, which may itself be nil. *)
Inductive iface := INil | IPtr (p : option nat).
Inductive result := Built (k : nat) | Panic | Assigned (l k : nat) | Got (i : iface) | Done.
(** [other q]: another process listens at [q]. *)
Inductive call := Build (os : list opt) (other : nat -> bool) | Init (k : nat) (os : list opt) | Get | Exit (k : nat).
Fixpoint close (l : list node) (k : nat) : list node :=
  match l, k with
  | [], _ => []
  | n :: l, 0 => mkN (np n) (sys n) false :: l
  | n :: l, S k => n :: close l k
  end.
(** node_process_impl.go 22-57 and, as far as the port goes, system_impl.go 467-475. *)
Definition step (s : state) (c : call) : state * result :=
  match c with
  | Build os other =>
    let p := fold_left apply os (mkP 0 0 home 0 None None None) in
    match build_system (fun q => negb (other q) && negb (used s q)) p with
    | None => (s, Panic)
    | Some y => (mkS (nodes s ++ [mkN p y (accepts y)]) (Some (length (nodes s))), Built (length (nodes s)))
    end
  | Init k os =>
    match nth_error (nodes s) k with
    | None => (s, Panic)
    | Some n => match loader (np n) with None => (s, Panic) | Some l => (s, Assigned l k) end
    end
  | Get => (s, Got (IPtr (pcs s)))
  | Exit k => (mkS (close (nodes s) k) (pcs s), Done)
  end.
Fixpoint calls (s : state) (cs : list call) : state * list result :=
  match cs with
  | [] => (s, [])
  | c :: cs => let '(s1, r) := step s c in let '(s2, rs) := calls s1 cs in (s2, r :: rs)
  end.
