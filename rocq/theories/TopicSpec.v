(** Vocabulary of the topic manager properties. *)
From Coq Require Import List String Arith Bool.
From Verif Require Import TopicModel.
Import ListNotations.

(** How many topics have been made for a name. *)
Definition makes (name : string) (evs : list event) : nat := List.length (filter (fun e => match e with EMake _ n _ => String.eqb n name | _ => false end) evs).
(** Every call has returned. *)
Definition quiescent (s : state) : Prop := forall i x, nth_error (thrs s) i = Some x -> t_pc x = PDone.
Definition is_step (l : label) : Prop := match l with LStep _ => True | LCall _ _ => False end.
