(** Model of /repo/lib/pubsub/ps_mgr.go (the topics of one process) with the callers in
    /repo/core/node/system_impl.go 447-453, by any number of goroutines.

    Each access to the lock and to the map is one step.  newTopic (ps_topic.go 24-68) is one
    step here: it runs under the write lock and always returns a fresh object; what it does
    to the store is in PubsubModel. *)
From Coq Require Import List String Arith Bool.
From Verif Require Import Machine AddrModel.
Import ListNotations.
Open Scope string_scope.
Open Scope list_scope.

(** GetTopic, CreateTopic, GetOrCreateTopic, System.Pub with its event, System.Sub. *)
Inductive op := OGet | OCreate | OGetOrCreate | OPub (event : string) | OSub.
Inductive pc :=
| PRLock                  (* GetTopic, ps_mgr.go 32 *)
| PRead                   (* line 33 *)
| PRUnlock (r : option nat) (* line 34 *)
| PGot (r : option nat)   (* GetTopic has returned r *)
| PLock                   (* CreateTopic, line 42 *)
| PCheck                  (* lines 46-48 *)
| PMake                   (* line 50 *)
| PInsert (k : nat)       (* line 51 *)
| PUnlock (k : nat)       (* line 43 *)
| PMade (k : nat)         (* CreateTopic has returned k *)
| PDone.
Record thread := mkT { t_op : op; t_name : string; t_pc : pc }.
(** type Pubsub, lines 7-13: the map and the lock (the writer, or the number of readers);
    [made] counts the topics made. *)
Record state := mkState { tmap : list (string * nat); writer : option nat; readers : nat; made : nat; thrs : list thread }.
Definition init : state := mkState [] None 0 0 [].

Inductive label := LCall (o : op) (name : string) | LStep (i : nat).
Inductive event :=
| ECall (i : nat) (o : op) (name : string)
| EMake (i : nat) (name : string) (k : nat)    (* topic k made *)
| ERet (i : nat) (name : string) (k : nat)     (* the caller has the topic k *)
| ENil (i : nat) (name : string)               (* GetTopic returned nil *)
| EPubOn (i : nat) (name : string) (k : nat)   (* Pub goes on with topic k *)
| EErr (i : nat)                               (* Pub returned an error *)
| EPanic (i : nat)                             (* Pub used a nil topic *).

Definition goto (s : state) (i : nat) (x : thread) (p : pc) : list thread := upd (thrs s) i (mkT (t_op x) (t_name x) p).
Definition set_thrs (s : state) (l : list thread) : state := mkState (tmap s) (writer s) (readers s) (made s) l.

Definition step (s : state) (l : label) : option (state * list event) :=
  match l with
  | LCall o name => Some (set_thrs s (thrs s ++ [mkT o name (match o with OCreate => PLock | _ => PRLock end)]), [ECall (List.length (thrs s)) o name])
  | LStep i =>
    match nth_error (thrs s) i with
    | None => None
    | Some x =>
      match t_pc x with
      | PRLock => match writer s with Some _ => None | None => Some (mkState (tmap s) None (S (readers s)) (made s) (goto s i x PRead), []) end
      | PRead => Some (set_thrs s (goto s i x (PRUnlock (aget (t_name x) (tmap s)))), [])
      | PRUnlock r => Some (mkState (tmap s) (writer s) (pred (readers s)) (made s) (goto s i x (PGot r)), [])
      | PGot r =>
        match t_op x with
        | OGetOrCreate | OSub => (* ps_mgr.go 56-59 *)
          match r with Some k => Some (set_thrs s (goto s i x PDone), [ERet i (t_name x) k]) | None => Some (set_thrs s (goto s i x PLock), []) end
        | OPub ev => (* system_impl.go 448, ps_topic.go 72-77: a nil receiver is noticed only by rt.topic *)
          Some (set_thrs s (goto s i x PDone), [if ev =? "" then EErr i else match r with Some k => EPubOn i (t_name x) k | None => EPanic i end])
        | _ => Some (set_thrs s (goto s i x PDone), [match r with Some k => ERet i (t_name x) k | None => ENil i (t_name x) end])
        end
      | PLock => match writer s, readers s with None, 0 => Some (mkState (tmap s) (Some i) 0 (made s) (goto s i x PCheck), []) | _, _ => None end
      | PCheck => Some (set_thrs s (goto s i x (match aget (t_name x) (tmap s) with Some k => PUnlock k | None => PMake end)), [])
      | PMake => Some (mkState (tmap s) (writer s) (readers s) (S (made s)) (goto s i x (PInsert (made s))), [EMake i (t_name x) (made s)])
      | PInsert k => Some (mkState (aset (t_name x) k (tmap s)) (writer s) (readers s) (made s) (goto s i x (PUnlock k)), [])
      | PUnlock k => Some (mkState (tmap s) None (readers s) (made s) (goto s i x (PMade k)), [])
      | PMade k => Some (set_thrs s (goto s i x PDone), [ERet i (t_name x) k])
      | PDone => None
      end
    end
  end.
