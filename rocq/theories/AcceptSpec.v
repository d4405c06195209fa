(** Vocabulary for C133-C135. *)
From Coq Require Import List Arith Bool.
From Verif Require Import AcceptModel.
Import ListNotations.

(** The interceptors of the options, in the order given. *)
Definition given (os : list opt) : list interceptor := flat_map (fun o => match o with AppendUnary is => is | _ => [] end) os.
Definition given_stream (os : list opt) : list interceptor := flat_map (fun o => match o with AppendStream i => [i] | _ => [] end) os.
(** [h] is the last handler registered. *)
Definition last_handler (os : list opt) (h : handler) : Prop := exists a b, os = a ++ RegisterHandler h :: b /\ forall h', ~ In (RegisterHandler h') b.
(** An interceptor that notes that it begins (2n) and ends (2n+1). *)
Definition noting (n : nat) : interceptor := fun h r => let (es, o) := h r in (EUser (2 * n) :: es ++ [EUser (2 * n + 1)], o).
Definition well_formed (r : request) (m : message) (h : header) : Prop := msg r = Some m /\ head m = Some h.
