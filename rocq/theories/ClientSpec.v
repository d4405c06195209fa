(** Vocabulary for C57, C78 and C79. *)
From Coq Require Import List Arith Bool.
From Verif Require Import Machine ClientModel.
Import ListNotations.

Definition count (f : pc -> bool) (s : state) : nat := length (filter f (calls s)).
(** In the transport, by Call and by CallWait. *)
Definition by_call (p : pc) : bool := match p with QInvoke _ => true | _ => false end.
Definition by_call_wait (p : pc) : bool := match p with WInvoke _ => true | _ => false end.
Definition in_transport (p : pc) : bool := by_call p || by_call_wait p.
(** A call that has returned. *)
Definition returned (p : pc) : bool := match p with QDone _ | WDone _ => true | _ => false end.
(** Calls that took a slot and have not returned. *)
Definition holds_slot (p : pc) : bool := match p with QConn _ _ | QOpts _ _ | QInvoke _ | QRelease _ => true | _ => false end.
Definition free (s : state) : nat := cap s - slots s.

(** Between the failed lookup of an address and the storing of its new connection. *)
Definition connecting (p : pc) (a : nat) : Prop := (exists o, p = WDial a o) \/ (exists c o, p = WStore a c o).
Definition one_at_a_time (s : state) : Prop := forall i j a p q,
  nth_error (calls s) i = Some p -> nth_error (calls s) j = Some q -> connecting p a -> connecting q a -> i = j.
(** All states on the way. *)
Definition always (P : state -> Prop) (s0 : state) (sched : list label) : Prop :=
  forall pre suf s evs, sched = pre ++ suf -> run step s0 pre = Some (s, evs) -> P s.
(** An open connection that no table entry and no call refers to. *)
Definition refers (p : pc) (c : nat) : Prop := exists a o, p = WStore a c o.
Definition lost (s : state) (c : nat) : Prop := c < dialed s /\ (forall a, load a (conns s) <> Some c) /\ (forall p, In p (calls s) -> ~ refers p c).

(** ** What the calls of a schedule asked for and got, for C94 and C95 *)
(** The addresses of the calls, in the order in which they were made. *)
Definition address (l : label) : list nat := match l with LCall a _ | LCallWait a _ => [a] | _ => [] end.
Definition called (sched : list label) : list nat := flat_map address sched.
(** The addresses of the connections, in the order in which they were opened: those of the
    configuration, then one for every dial by a call that succeeded. *)
Definition dials (addr : list nat) (l : label) : list nat :=
  match l with LDial i true => match nth_error addr i with Some a => [a] | None => [] end | _ => [] end.
Definition opened (addrs : list nat) (sched : list label) : list nat := addrs ++ flat_map (dials (called sched)) sched.
(** The events of one call, and the answers the transport gave it. *)
Definition of_call (i : nat) (e : event) : bool := match e with EInvoke j _ | EReturn j _ | ECrash j => j =? i end.
Definition own (i : nat) (evs : list event) : list event := filter (of_call i) evs.
Definition answer (i : nat) (l : label) : list bool := match l with LInvoked j ok => if j =? i then [ok] else [] | _ => [] end.
Definition answers (i : nat) (sched : list label) : list bool := flat_map (answer i) sched.
