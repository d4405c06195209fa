(** Vocabulary for C136-C138. *)
From Coq Require Import List ZArith Bool.
From Verif Require Import TracerModel.
Import ListNotations.
Local Open Scope Z_scope.

(** The factories that the options give, in order. *)
Definition given (os : list opt) : list (nat * factory) := flat_map (fun o => match o with WithSpanFactory fs => fs | _ => [] end) os.
(** [f] is the first of [l] with name [n]. *)
Definition first_of (l : list (nat * factory)) (n : nat) (f : factory) : Prop := exists a b, l = a ++ (n, f) :: b /\ ~ In n (map fst a).
(** [v] is the value of the last option of a kind, or [d]. *)
Definition last_of {A} (pick : opt -> option A) (os : list opt) (d v : A) : Prop :=
  (exists a x b, os = a ++ x :: b /\ pick x = Some v /\ forall y, In y b -> pick y = None) \/ ((forall y, In y os -> pick y = None) /\ v = d).
Definition rate_opt (o : opt) := match o with WithProbabilistic r => Some r | _ => None end.
Definition kind_opt (o : opt) := match o with WithSamplerType k => Some k | _ => None end.
Definition slow_opt (o : opt) := match o with WithSlowSpan ms => Some ms | _ => None end.
Definition name_opt (o : opt) := match o with WithServiceName n => Some n | _ => None end.
