(** Model of how actors made on demand are spread over the nodes: the picker
    (/repo/tests/mock/actor_dynamic_picker.go 33-53), the registering actor of each node
    (tests/mock/actor_dynamic_register.go 30-54) and the address book they share
    (core/addressbook/addressbook_impl.go 45-96, 239-299), over [AddrModel].

    There may be a picker on every node (tests/mock/mock_loader.go 33), and a call of a picker to its own node only leaves
    a message (core/node/system_impl.go 245-253, 293-345); so any number of registrations may be
    under way when the next node is chosen.  The commands of a registration are steps of their own.
    Simplified: the reads of GetLowWeightNodeForActor are one step; registrations of a
    node may overlap; the rate limiter (a delay), the limits of Register (a refusal, which
    may happen at will here) and the options are left out; actors are not unregistered and no
    process dies. *)
From Coq Require Import List String ZArith Bool.
From Verif Require Import Machine AddrModel.
Import ListNotations.
Open Scope string_scope.
Open Scope list_scope.

(** A registration: its message was sent; its commands not yet executed; Register returned an
    error; it returned nil. *)
Inductive stage := Sent | Under (todo : list cmd) | Refused | Placed.
Record job := mkJ { jnode : string; jep : nat; jty : string; jid : string; jat : stage }.
Record state := mkS { book : store; jobs : list job }.
Definition start (s : store) : state := mkS s [].

Inductive label :=
| LPick (ty uuid : string) (ord1 ord2 : list (string * nat)) (* a picker handles MockDynamicPick; the orders of the two loops over the nodes *)
| LBegin (j : nat)      (* Register passes its checks *)
| LRefuse (j : nat)     (* Register returns an error before the address book *)
| LCmd (j : nat)        (* Redis executes a command *)
| LDone (j : nat).      (* Register has returned *)
Inductive event :=
| VPick (j : nat) (ty id node : string)
| VNone (ty : string)                       (* no node was found *)
| VRefused (j : nat)
| VPlaced (j : nat) (ty id node : string).

(** [a] is [b] in another order. *)
Definition entry_eqb (x y : string * nat) : bool := String.eqb (fst x) (fst y) && Nat.eqb (snd x) (snd y).
Fixpoint take_out (x : string * nat) (l : list (string * nat)) : option (list (string * nat)) :=
  match l with
  | [] => None
  | y :: r => if entry_eqb x y then Some r else match take_out x r with Some r' => Some (y :: r') | None => None end
  end.
Fixpoint reordered (a b : list (string * nat)) : bool :=
  match a with
  | [] => match b with [] => true | _ => false end
  | x :: r => match take_out x b with Some b' => reordered r b' | None => false end
  end.
(** uuid.NewString: an id nobody has. *)
Definition fresh (s : state) (id : string) : bool :=
  match aget id (ids (book s)) with Some _ => false | None => true end &&
  forallb (fun x => negb (String.eqb id (jid x))) (jobs s).
Definition set (s : state) (j : nat) (x : job) (p : stage) : state :=
  mkS (book s) (upd (jobs s) j (mkJ (jnode x) (jep x) (jty x) (jid x) p)).

(** [weight]: of the actors of a type, core/actor.go, ActorConstructor. *)
Definition step (weight : string -> Z) (s : state) (l : label) : option (state * list event) :=
  match l with
  | LPick ty uuid ord1 ord2 =>
    if reordered ord1 (nodes (book s)) && reordered ord2 (nodes (book s)) then
      match GetLowWeightNodeForActor (book s) ord1 ord2 with
      | Err => Some (s, [VNone ty])
      | Ok (n, ep) =>
        let id := (n ++ "_" ++ ty ++ "_" ++ uuid)%string in                           (* picker 49 *)
        if fresh s id then Some (mkS (book s) (jobs s ++ [mkJ n ep ty id Sent]), [VPick (List.length (jobs s)) ty id n]) else None
      end
    else None
  | LBegin j =>
    match nth_error (jobs s) j with
    | Some x => match jat x with Sent => Some (set s j x (Under (reg_cmds (jnode x) (jep x) (jty x) (jid x) (weight (jty x)))), []) | _ => None end
    | None => None
    end
  | LRefuse j =>
    match nth_error (jobs s) j with
    | Some x => match jat x with Sent => Some (set s j x Refused, [VRefused j]) | _ => None end
    | None => None
    end
  | LCmd j =>
    match nth_error (jobs s) j with
    | Some x => match jat x with
      | Under (c :: r) => Some (set (mkS (apply (book s) c) (jobs s)) j x (Under r), [])
      | _ => None
      end
    | None => None
    end
  | LDone j =>
    match nth_error (jobs s) j with
    | Some x => match jat x with Under [] => Some (set s j x Placed, [VPlaced j (jty x) (jid x) (jnode x)]) | _ => None end
    | None => None
    end
  end.
