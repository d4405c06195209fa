(** Schedules of a state machine, shared by the concurrent models.

    A machine is a function [step : state -> label -> option (state * events)];
    [None] means that the step is not enabled.  [run step s sched] executes the
    labels of [sched] in order; "for all interleavings" is quantification over
    [sched]. *)
From Coq Require Import List Arith Lia.
Import ListNotations.

(** Replacing the i-th element of a list. *)
Fixpoint upd {A} (l : list A) (i : nat) (x : A) : list A :=
  match l, i with
  | [], _ => []
  | _ :: t, O => x :: t
  | a :: t, S j => a :: upd t j x
  end.

Section Upd.
  Context {A : Type}.
  Lemma upd_length (l : list A) i x : length (upd l i x) = length l.
  Proof. revert i; induction l; intros []; simpl; auto. Qed.
  Lemma nth_upd_eq (l : list A) i x : i < length l -> nth_error (upd l i x) i = Some x.
  Proof. revert i; induction l; intros [] H; simpl in *; try lia; auto. apply IHl. lia. Qed.
  Lemma nth_upd_neq (l : list A) i j x : i <> j -> nth_error (upd l i x) j = nth_error l j.
  Proof. revert i j; induction l; intros [] [] H; simpl; auto; try lia. Qed.
  Lemma nth_upd (l : list A) i j x : i < length l ->
    nth_error (upd l i x) j = if Nat.eqb i j then Some x else nth_error l j.
  Proof.
    intros H. destruct (Nat.eqb_spec i j) as [->|Hn]; [now apply nth_upd_eq|now apply nth_upd_neq].
  Qed.
  Lemma in_upd (l : list A) i x y : In y (upd l i x) -> y = x \/ In y l.
  Proof. revert i; induction l; intros [] H; simpl in *; intuition. apply IHl in H0. tauto. Qed.
  Lemma in_upd_other (l : list A) i x y z : nth_error l i = Some z -> In y l -> y = z \/ In y (upd l i x).
  Proof.
    revert i; induction l; intros [] Hn H; simpl in *; try discriminate.
    - inversion Hn; subst. intuition.
    - destruct H; [subst; intuition|]. destruct (IHl _ Hn H); auto.
  Qed.
  Lemma in_upd_new (l : list A) i x : i < length l -> In x (upd l i x).
  Proof. intros. eapply nth_error_In. now apply nth_upd_eq. Qed.
End Upd.

Section Machine.
Context {S L E : Type} (step : S -> L -> option (S * list E)).

Fixpoint run (s : S) (sched : list L) : option (S * list E) :=
  match sched with
  | [] => Some (s, [])
  | l :: rest =>
    match step s l with
    | None => None
    | Some (s1, e1) =>
      match run s1 rest with
      | None => None
      | Some (s2, e2) => Some (s2, e1 ++ e2)
      end
    end
  end.

Lemma run_app_inv a : forall b s s2 e, run s (a ++ b) = Some (s2, e) ->
  exists s1 e1 e2, run s a = Some (s1, e1) /\ run s1 b = Some (s2, e2) /\ e = e1 ++ e2.
Proof.
  induction a as [|l a IH]; intros b s s2 e H; cbn [run app] in *.
  - exists s, [], e. auto.
  - destruct (step s l) as [[t f]|]; [|discriminate].
    destruct (run t (a ++ b)) as [[t2 f2]|] eqn:E1; [|discriminate]. injection H as <- <-.
    destruct (IH _ _ _ _ E1) as (s1 & e1 & e2 & H1 & H2 & ->). rewrite H1.
    exists s1, (f ++ e1), e2. rewrite app_assoc. auto.
Qed.

Lemma run_app a : forall b s s1 e1 s2 e2, run s a = Some (s1, e1) -> run s1 b = Some (s2, e2) ->
  run s (a ++ b) = Some (s2, e1 ++ e2).
Proof.
  induction a as [|l a IH]; intros b s s1 e1 s2 e2 Ha Hb; cbn [run app] in *.
  - injection Ha as <- <-. exact Hb.
  - destruct (step s l) as [[t f]|]; [|discriminate].
    destruct (run t a) as [[t2 f2]|] eqn:E1; [|discriminate]. injection Ha as <- <-.
    rewrite (IH _ _ _ _ _ _ E1 Hb). now rewrite app_assoc.
Qed.

Lemma run_one s l s' e : step s l = Some (s', e) -> run s [l] = Some (s', e).
Proof. intros H. cbn [run]. rewrite H. now rewrite app_nil_r. Qed.

Lemma run_one_inv s l s' e : run s [l] = Some (s', e) -> step s l = Some (s', e).
Proof.
  cbn [run]. destruct (step s l) as [[t f]|]; [|discriminate]. rewrite app_nil_r. auto.
Qed.

(** Invariants of reachable states that may mention the schedule so far and the
    events so far. *)
Lemma run_inv (init : S) (I : list L -> list E -> S -> Prop) :
  I [] [] init ->
  (forall sched evs s l s' e, run init sched = Some (s, evs) -> I sched evs s ->
     step s l = Some (s', e) -> I (sched ++ [l]) (evs ++ e) s') ->
  forall sched s evs, run init sched = Some (s, evs) -> I sched evs s.
Proof.
  intros H0 HS sched. induction sched as [|l sched IH] using rev_ind; intros s evs H.
  - injection H as <- <-. exact H0.
  - apply run_app_inv in H as (s1 & e1 & e2 & H1 & H2 & ->). apply run_one_inv in H2.
    eapply HS; eauto.
Qed.

(** Invariants of states only. *)
Lemma run_inv_state (I : S -> Prop) :
  (forall s l s' e, I s -> step s l = Some (s', e) -> I s') ->
  forall sched s s' evs, I s -> run s sched = Some (s', evs) -> I s'.
Proof.
  intros HS sched. induction sched as [|l r IH]; intros s s' evs HI H; cbn [run] in H.
  - injection H as <- <-. exact HI.
  - destruct (step s l) as [[t f]|] eqn:E1; [|discriminate].
    destruct (run t r) as [[t2 f2]|] eqn:E2; [|discriminate]. injection H as <- <-.
    eapply IH; [|exact E2]. eapply HS; eauto.
Qed.
End Machine.
