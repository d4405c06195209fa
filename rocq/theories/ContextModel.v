(** Model of the context of an actor (/repo/core/actor/actor_context_impl.go 105-111 and the
    look-ups of 15-101; set up by actor_runtime_impl.go 60-65).

    A context is its list of layers, the newest first (context.WithValue); the context given to
    Init is a list of layers as well.  Keys of the user cannot be equal to systemKey{} and
    actorKey{}, whose types are private.  WithValue reads the field ctx, builds a layer and
    writes the field: two steps, which handlers, timers and goroutines of futures of one actor
    may interleave.  Values are numbers; the system is set (Sys is not nil).  What the
    methods do with the system and the actor after the look-up is in other models. *)
From Coq Require Import List Arith Bool.
From Verif Require Import Machine.
Import ListNotations.

Inductive key := KSystem | KActor | KUser (n : nat).
Definition key_eq (a b : key) : {a = b} + {a <> b}.
Proof. decide equality. apply Nat.eq_dec. Defined.
Definition ctx := list (key * nat).
(** context.Value: the newest layer with the key. *)
Fixpoint value (c : ctx) (k : key) : option nat :=
  match c with
  | [] => None
  | (k', v) :: c' => if key_eq k' k then Some v else value c' k
  end.
(** The number of layers that it looks at. *)
Fixpoint looks (c : ctx) (k : key) : nat :=
  match c with
  | [] => 0
  | (k', _) :: c' => if key_eq k' k then 1 else S (looks c' k)
  end.

Record state := mkS {
  cur : ctx;                    (* actorContext.ctx *)
  pending : list (option ctx) }. (* the contexts built by calls of WithValue that have not yet written *)
(** actor_runtime_impl.go 60-65. *)
Definition init (base : ctx) (sys act : nat) : state := mkS ((KActor, act) :: (KSystem, sys) :: base) [].
Inductive label :=
| LWith (k : option nat) (v : nat) (* 106: reads ac.ctx and builds the layer; None: a nil key or one that cannot be compared *)
| LWrite (i : nat)              (* 106: the assignment *)
| LGet (k : nat)                (* 109-111 *)
| LSystem                       (* 87-94 and the other look-ups of systemKey{} *)
| LActor.                       (* 15-22 and the other look-ups of actorKey{} *)
Inductive event :=
| VWith (i k v : nat)           (* call i of WithValue begins *)
| VSet (i : nat)                (* and returns *)
| VPanic                        (* WithValue panics on its key *)
| VGot (k : nat) (x : option nat)
| VSystem (x : option nat)      (* None: the panic of 89 *)
| VActor (x : option nat).
Definition step (s : state) (l : label) : option (state * list event) :=
  match l with
  | LWith (Some k) v => Some (mkS (cur s) (pending s ++ [Some ((KUser k, v) :: cur s)]), [VWith (length (pending s)) k v])
  | LWith None _ => Some (s, [VPanic])
  | LWrite i =>
    match nth_error (pending s) i with
    | Some (Some c) => Some (mkS c (upd (pending s) i None), [VSet i])
    | _ => None
    end
  | LGet k => Some (s, [VGot k (value (cur s) (KUser k))])
  | LSystem => Some (s, [VSystem (value (cur s) KSystem)])
  | LActor => Some (s, [VActor (value (cur s) KActor)])
  end.
