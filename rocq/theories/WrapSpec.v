(** Vocabulary for C166 to C168. *)
From Coq Require Import List.
From Verif Require Import WrapModel.
Import ListNotations.

(** Context [c] carries no wait group: it was made without one, or below such a context. *)
Inductive bare (x : list event) : nat -> Prop :=
| bare_here c : In (VContext c None) x -> bare x c
| bare_below c p : In (VContext c (Some p)) x -> bare x p -> bare x c.
(** Context [c] belongs to the call tree that begins with context [r]: [r] came with a request
    from another node, with a swapped wrapper or with a wrapper made from a context without a
    group; the others were made below, or with a wrapper made from one. *)
Inductive tree (x : list event) : nat -> nat -> Prop :=
| tree_request c : In (VRequest c) x -> tree x c c
| tree_swap n m c : In (VSwap n m c) x -> tree x c c
| tree_first n c c' : In (VNew n c c') x -> bare x c -> tree x c' c'
| tree_new n c c' r : In (VNew n c c') x -> tree x c r -> tree x c' r
| tree_below c p r : In (VContext c (Some p)) x -> tree x p r -> tree x c r.
(** Wrapper [n] has context [c]. *)
Definition context_of (x : list event) (n c : nat) : Prop := exists k, In (VNew n k c) x \/ In (VSwap n k c) x.
(** Wrapper [n] is wrapper [o], made by NewBuilder, swapped any number of times. *)
Inductive swapped (x : list event) : nat -> nat -> Prop :=
| swapped_not n c c' : In (VNew n c c') x -> swapped x n n
| swapped_once n m c o : In (VSwap n m c) x -> swapped x m o -> swapped x n o.
Definition akin (x : list event) (m n : nat) : Prop := exists o, swapped x m o /\ swapped x n o.
(** The value last written through a wrapper akin to [n]; a new message is empty. *)
Definition last_set (x : list event) (n : nat) (d : side) (v : nat) : Prop :=
  (exists a m b, x = a ++ VSet m d v :: b /\ akin x m n /\ forall m' v', akin x m' n -> ~ In (VSet m' d v') b) \/
  (v = 0 /\ forall m' v', akin x m' n -> ~ In (VSet m' d v') x).
(** The same call, but for the options given to NewBuilder. *)
Inductive but_options : label -> label -> Prop :=
| but_same l : but_options l l
| but_new c o o' : but_options (LNew c o) (LNew c o').
