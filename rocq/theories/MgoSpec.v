(** Vocabulary for C139-C141. *)
From Coq Require Import List Bool Arith.
From Verif Require Import MgoModel.
Import ListNotations.

(** The connections that the options ask for, in order. *)
Definition asked (os : list opt) : list conn := flat_map (fun o => match o with AppendConn c => [c] | _ => [] end) os.
(** [c] is asked for, and is the first at its address. *)
Definition first_at (l : list conn) (c : conn) : Prop := exists a b, l = a ++ c :: b /\ ~ In (addr c) (map addr a).
(** A use of the database [n] reaches the server at [a]; it fails. *)
Definition reaches (s : state) (n a : nat) : Prop := forall span, snd (fst (step s (Operate n span))) = Client a.
Definition fails (s : state) (n : nat) : Prop := forall span, snd (fst (step s (Operate n span))) = Panic.
