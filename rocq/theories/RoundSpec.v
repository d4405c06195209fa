(** Vocabulary for the theorems about a round of a task. *)
From Coq Require Import List Bool.
From Verif Require Import RoundModel.
Import ListNotations.

Section Spec.
Context {U E P : Type}.

(** The place of an event in a round. *)
Definition rank (e : event E P) : nat :=
  match e with
  | EBefore _ => 0 | EFunc _ => 1 | EExc (Plain _) _ => 2 | EAfter _ => 3 | EExc (FromPanic _) _ => 4
  end.

(** One of the user's functions has panicked with p (the exception handler counts where it is
    given an error). *)
Definition panicked (evs : list (event E P)) (p : P) : Prop :=
  In (EBefore (Panics p)) evs \/ In (EFunc (Panics p)) evs \/ In (EAfter (Panics p)) evs \/
  exists e, In (EExc (Plain e) (Some p)) evs.

Definition ran (evs : list (event E P)) : Prop := exists o, In (EFunc o) evs.

Definition has_exc (t : task U E P) : Prop := exists s x, svc t = Some s /\ exc s = Some x.
Definition has_before (t : task U E P) (f : @func U E P) : Prop := exists s, svc t = Some s /\ before s = Some f.
Definition has_after (t : task U E P) : Prop := exists s f, svc t = Some s /\ after s = Some f.

(** An exception handler that does not panic. *)
Definition calm (x : @exc_func U E P) : Prop := forall c e, snd (x c e) = None.
End Spec.
