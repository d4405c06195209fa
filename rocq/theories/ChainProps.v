(** C16: handler chains. *)
From Coq Require Import List.
From Verif Require Import ChainModel ChainSpec ChainProofs.
Import ListNotations.

(** Execute returns nil exactly when all handlers, called in order, return nil;
    then all of them were called, and the state is the one the last one left. *)
Theorem C16_nil_iff_all_ran : forall S E P (c : chain S E P) s s' called,
  Execute c s = (s', Nil, called) <-> called = in_order c /\ all_nil (in_order c) s s'.
Proof. exact @execute_nil. Qed.
Print Assumptions C16_nil_iff_all_ran.

(** Otherwise the handlers called are a non-empty initial segment of the chain,
    all but the last of them returned nil, and Execute ends the way the last one
    ended (that error, that panic), leaving its state. *)
Theorem C16_stops_at_first_failure : forall S E P (c : chain S E P) s s' o called,
  Execute c s = (s', o, called) -> o <> Nil ->
  exists pre h post s1, in_order c = pre ++ h :: post /\ called = pre ++ [h] /\
    all_nil pre s s1 /\ h s1 = (s', o).
Proof. exact @execute_stop. Qed.
Print Assumptions C16_stops_at_first_failure.

(** Handlers that append their number to a log. *)
Definition logs (n : nat) (o : outcome nat nat) : handler (list nat) nat nat :=
  fun s => (s ++ [n], o).
Example C16_nil_case :
  fst (Execute (mkChain [logs 1 Nil; logs 2 Nil] [logs 4 Nil] (logs 3 Nil)) []) =
  ([1; 2; 3; 4], Nil).
Proof. reflexivity. Qed.
Example C16_stop_case :
  fst (Execute (mkChain [logs 1 Nil; logs 2 (Err 9)] [logs 4 Nil] (logs 3 Nil)) []) = ([1; 2], Err 9) /\
  fst (Execute (mkChain [logs 1 Nil] [logs 4 (Panic 5); logs 6 Nil] (logs 3 Nil)) []) = ([1; 3; 4], Panic 5).
Proof. split; reflexivity. Qed.
