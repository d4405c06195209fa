(** Vocabulary for the lock. *)
From Coq Require Import List String ZArith Bool.
From Verif Require Import Machine LockModel.
Import ListNotations.
Open Scope Z_scope.

(** Lock call [t] on key [tok] returned value [v] for a request sent at [sent]. *)
Definition returned (s : state) (t : nat) (tok v : string) (sent : Z) : Prop :=
  nth_error (calls s) t = Some (mkCall tok v (Got sent)).
(** It holds the lock: it got it, nobody executed Unlock with its value, and its
    lease, counted from when it sent the request, has not run out. *)
Definition holds (evs : list event) (s : state) (t : nat) (tok v : string) : Prop :=
  exists sent, returned s t tok v sent /\ now s <= sent + Expiry /\ ~ In (EUnlock tok v) evs.

(** The values drawn by the Lock calls of a schedule. *)
Fixpoint drawn (sched : list label) : list string :=
  match sched with
  | [] => []
  | LLock _ v :: r => v :: drawn r
  | _ :: r => drawn r
  end.

(** The steps call [t] takes itself. *)
Definition own (t : nat) (l : label) : bool :=
  match l with LSend u | LRecv u | LGiveUp u | LWake u => Nat.eqb u t | _ => false end.
Definition count (f : label -> bool) (sched : list label) : nat := List.length (filter f sched).
Definition sends (t : nat) (evs : list event) : nat :=
  List.length (filter (fun e => match e with ESend u => Nat.eqb u t | _ => false end) evs).
Definition finished (p : pc) : bool := match p with Got _ | Failed | Dead => true | _ => false end.
