(** C152-C154: a round of a task of the timer service. *)
From Coq Require Import List Bool Arith Lia Sorted.
From Verif Require Import RoundModel RoundSpec.
Import ListNotations.

(** The cases of a round. *)
Ltac split_round :=
  unfold round, work, report, finish, recovered, and_then in *; intros;
  repeat match goal with
    | H : context [match ?x with _ => _ end] |- _ =>
      match x with context [match _ with _ => _ end] => fail 1 | _ => destruct x eqn:? end
    | H : (_, _, _) = (_, _, _) |- _ => injection H as <- <- <-
    end; subst; cbn [app] in *.
Ltac ins := cbn [In] in *; repeat match goal with H : _ \/ _ |- _ => destruct H end; try contradiction; try discriminate.

Ltac evs := repeat match goal with Q : @eq (event _ _) _ _ |- _ => inversion Q; subst; clear Q end.

(** A service whose handlers write down their turns: the context counts calls; the function
    fails with 7 on its second call and panics with 9 on its third. *)
Definition count (c : @context nat) : @context nat := (fst c, S (snd c)).
Definition ex_exc : @exc_func nat nat nat := fun c _ => (c, None).
Definition ex_task : task nat nat nat :=
  mkTask (Some (mkService (Some ex_exc) (Some (fun c => (c, Fine))) (Some (fun c => (c, Fine)))))
    (fun c => (count c, match snd c with 1 => Fails 7 | 2 => Panics 9 | _ => Fine end)).

(** ** C152 *)
(** In every round the begin handler comes first, then the task's function, then the exception
    handler for its error, then the end handler, then the exception handler for a panic; each at
    most once. *)
Theorem C152_order : forall U E P (t : task U E P) c c' evs r,
  round t c = (c', evs, r) -> StronglySorted lt (map rank evs).
Proof. intros U E P t c c' evs r H. split_round; cbn [map rank]; repeat constructor. Qed.
Print Assumptions C152_order.
Example C152_order_case :
  round ex_task (false, 1) = ((false, 2), [EBefore Fine; EFunc (Fails 7); EExc (Plain 7) None; EAfter Fine], Through).
Proof. reflexivity. Qed.

(** The begin handler runs in every round, the end handler in every round that does not panic. *)
Theorem C152_around : forall U E P (t : task U E P) c c' evs r,
  round t c = (c', evs, r) ->
  (forall f, has_before t f -> In (EBefore (snd (f c))) evs) /\
  (has_after t -> r = Through -> exists o, In (EAfter o) evs).
Proof.
  intros U E P t c c' evs r H. split.
  - intros f (s & S & B). unfold round in H. rewrite S, B in H. destruct (f c) as [c1 o] eqn:F. cbn [snd].
    unfold and_then in H. destruct (match o with Panics p => recovered t c1 p | _ => work t c1 end) as [[? ?] ?].
    injection H as <- <- <-. left. reflexivity.
  - intros (s & f & S & A) Hr. split_round; try discriminate.
    all: try congruence. all: eexists; cbn [In]; eauto 12.
Qed.
Print Assumptions C152_around.
Example C152_around_case : exists f, has_before ex_task f /\ has_after ex_task.
Proof. eexists. split; [eexists; split; reflexivity|]. do 2 eexists. split; reflexivity. Qed.

(** The exception handler is given exactly the error that the function has returned. *)
Theorem C152_errors : forall U E P (t : task U E P) c c' evs r e,
  round t c = (c', evs, r) -> has_exc t ->
  (In (EFunc (Fails e)) evs <-> exists q, In (EExc (Plain e) q) evs).
Proof.
  intros U E P t c c' evs r e H (s & x & S & X). split_round; try congruence; split; intros Q; try (destruct Q as (q & Q)); ins.
  all: try match goal with Q : EFunc _ = EFunc _ |- _ => injection Q as Q; try discriminate Q end.
  all: try match goal with Q : EExc _ _ = EExc _ _ |- _ => injection Q as ?; try discriminate; subst end.
  all: subst.
  all: try (eexists; cbn [In]; eauto 8; fail). all: cbn [In]; eauto 8.
Qed.
Print Assumptions C152_errors.
Example C152_errors_case : has_exc ex_task /\ In (EFunc (Fails 7)) (snd (fst (round ex_task (false, 1)))).
Proof. split; [do 2 eexists; split; reflexivity|cbn; auto]. Qed.

(** A round is restarted exactly if something has panicked and the process lives, and the
    exception handler is told what. *)
Theorem C152_panics : forall U E P (t : task U E P) c c' evs r,
  round t c = (c', evs, r) ->
  (r <> Through <-> exists p, panicked evs p) /\
  (has_exc t -> forall p, panicked evs p <-> exists q, In (EExc (FromPanic p) q) evs).
Proof.
  intros U E P t c c' evs r H. unfold panicked. split.
  - split_round; split; intros Q; try congruence; try discriminate.
    all: try (destruct Q as (? & [Q|[Q|[Q|(? & Q)]]]); ins; try congruence; fail).
    all: eexists; cbn [In]; eauto 12.
  - intros (s & x & S & X). split_round; try congruence; split; intros Q.
    all: try (destruct Q as [Q|[Q|[Q|(? & Q)]]]; ins; try congruence; fail).
    all: try (destruct Q as (? & Q); ins; try congruence; fail).
    all: try (destruct Q as (? & Q)); try (destruct Q as [Q|[Q|[Q|(? & Q)]]]); ins; evs.
    all: try (eexists; cbn [In]; eauto 12; fail). all: cbn [In]; eauto 12.
Qed.
Print Assumptions C152_panics.
Example C152_panics_case :
  round ex_task (false, 2) = ((false, 3), [EBefore Fine; EFunc (Panics 9); EExc (FromPanic 9) None], Restarted).
Proof. reflexivity. Qed.

(** ** C153 *)
(** The task's function runs exactly in the rounds in which the flag is off after the begin
    handler, and the begin handler has not panicked. *)
Theorem C153_exactly : forall U E P (t : task U E P) c c' evs r f,
  has_before t f -> round t c = (c', evs, r) ->
  (ran evs <-> fst (fst (f c)) = false /\ forall p, snd (f c) <> Panics p).
Proof.
  intros U E P t c c' evs r f (s & S & B) H. unfold ran. unfold round in H. rewrite S, B in H. destruct (f c) as [c1 o] eqn:F. cbn [fst snd].
  assert (K : forall x y z, recovered t c1 x = (c', y, z) -> ~ exists o, In (EFunc o) y).
  { intros x y z R (o0 & Q). unfold recovered in R. split_round; ins. }
  assert (W : forall y z, finish t c1 = (c', y, z) -> ~ exists o, In (EFunc o) y).
  { intros y z R (o0 & Q). split_round; ins. }
  destruct o as [|e|p].
  3: { unfold and_then in H. destruct (recovered t c1 p) as [[c2 y] z] eqn:R. injection H as <- <- <-. split.
    - intros (o & [Q|Q]); [discriminate|]. exfalso. eapply K; eauto.
    - intros (_ & N). exfalso. eapply N. reflexivity. }
  all: unfold work, and_then in H; destruct (fst c1) eqn:I.
  all: try (destruct (finish t c1) as [[c2 y] z] eqn:R; injection H as <- <- <-; split; [intros (o & [Q|Q]); [discriminate|exfalso; eapply W; eauto]|intros (N & _); discriminate]).
  all: destruct (fn t c1) as [c2 o] eqn:G; destruct (match o with Fine => finish t c2 | Fails e => report t c2 e | Panics p => recovered t c2 p end) as [[c3 y] z];
    injection H as <- <- <-; split; [intros _; split; [reflexivity|discriminate]|intros _; exists o; cbn; auto].
Qed.
Print Assumptions C153_exactly.
(** A begin handler that ends every other round. *)
Definition alternate : @func nat nat nat := fun c => ((Nat.odd (snd c), S (snd c)), Fine).
Definition ex_alt : task nat nat nat := mkTask (Some (mkService (Some ex_exc) (Some alternate) None)) (fun c => (c, Fine)).
Example C153_exactly_case :
  has_before ex_alt alternate /\ rounds ex_alt (fun _ c => c) 3 (false, 0) = [[EBefore Fine; EFunc Fine]; [EBefore Fine]; [EBefore Fine; EFunc Fine]].
Proof. split; [eexists; split; reflexivity|reflexivity]. Qed.

(** Claimed: the flag ends the round in which it is set (timer.go 30), and the next round runs the
    function again.  False: nobody resets it; set in one round it ends all later ones. *)
Definition once : @func nat nat nat := fun c => (((fst c || Nat.eqb (snd c) 0)%bool, S (snd c)), Fine).
Definition ex_once : task nat nat nat := mkTask (Some (mkService (Some ex_exc) (Some once) None)) (fun c => (c, Fine)).
Theorem C153_refuted : exists t : task nat nat nat, exists f,
  has_before t f /\
  (forall b n, 0 < n -> f (b, n) = ((b, S n), Fine)) /\ (* only in the first round does it set the flag *)
  forall n, Forall (fun evs => ~ ran evs) (rounds t (fun _ c => c) n (false, 0)).
Proof.
  exists ex_once, once. split; [eexists; split; reflexivity|]. split.
  - intros b [|n] H; [lia|]. unfold once. cbn. rewrite orb_false_r. reflexivity.
  - assert (G : forall n k, Forall (fun evs => ~ ran evs) (rounds ex_once (fun _ c => c) n (true, k))).
    { induction n; intros k; cbn; constructor; auto. intros (o & [Q|[]]). discriminate. }
    intros [|n]; cbn; constructor; auto. intros (o & [Q|[]]). discriminate.
Qed.
Print Assumptions C153_refuted.

(** Proved: without a begin handler, as long as nobody sets the flag, every round runs the
    function.  Missing: a flag set once. *)
Theorem C153_off_partial : forall U E P (t : task U E P) (between : nat -> @context U -> @context U),
  (forall f, ~ has_before t f) ->
  (forall c, fst (fst (fn t c)) = fst c) ->
  (forall s x c e, svc t = Some s -> exc s = Some x -> fst (fst (x c e)) = fst c) ->
  (forall s f c, svc t = Some s -> after s = Some f -> fst (fst (f c)) = fst c) ->
  (forall n c, fst (between n c) = fst c) ->
  forall n c, fst c = false -> Forall ran (rounds t between n c).
Proof.
  intros U E P t between NB F X A B n. induction n as [|n IH]; intros c C; cbn [rounds]; [constructor|].
  rewrite <- (B (S n) c) in C. generalize dependent (between (S n) c). intros c1 C.
  destruct (round t c1) as [[c2 evs] r] eqn:R.
  assert (fst c2 = false /\ ran evs) as (C2 & Ra).
  { assert (R' : round t c1 = work t c1).
    { unfold round. destruct (svc t) as [s|] eqn:S; [|reflexivity]. destruct (before s) as [f|] eqn:Bf; [|reflexivity]. exfalso. apply (NB f). exists s. auto. }
    rewrite R' in R. unfold work in R. rewrite C in R. pose proof (F c1) as F1. destruct (fn t c1) as [c3 o]. cbn in F1. rewrite C in F1.
    unfold and_then in R. destruct (match o with Fine => finish t c3 | Fails e => report t c3 e | Panics p => recovered t c3 p end) as [[c4 y] z] eqn:Q.
    injection R as <- <- <-. split; [|exists o; cbn; auto].
    assert (KR : forall c p c' y z, recovered t c p = (c', y, z) -> fst c' = fst c).
    { intros k p k' y0 z0 K. unfold recovered in K. destruct (svc t) as [s|] eqn:S; [|congruence]. destruct (exc s) as [x|] eqn:Ex; [|congruence].
      pose proof (X s x k (FromPanic p) eq_refl Ex) as X1. destruct (x k (FromPanic p)). cbn in X1. congruence. }
    assert (KF : forall c c' y z, finish t c = (c', y, z) -> fst c' = fst c).
    { intros k k' y0 z0 K. unfold finish in K. destruct (svc t) as [s|] eqn:S; [|congruence]. destruct (after s) as [f|] eqn:Af; [|congruence].
      pose proof (A s f k eq_refl Af) as A1. destruct (f k) as [k1 o1]. cbn in A1. unfold and_then in K.
      destruct o1; [congruence|congruence|]. destruct (recovered t k1 p) as [[k2 y2] z2] eqn:Rc. apply KR in Rc. congruence. }
    destruct o as [|e|p].
    - apply KF in Q. congruence.
    - unfold report in Q. destruct (svc t) as [s|] eqn:S; [|apply KF in Q; congruence]. destruct (exc s) as [x|] eqn:Ex; [|apply KF in Q; congruence].
      pose proof (X s x c3 (Plain e) eq_refl Ex) as X1. destruct (x c3 (Plain e)) as [k q]. cbn in X1. unfold and_then in Q.
      destruct q as [p|].
      + destruct (recovered t k p) as [[k2 y2] z2] eqn:Rc. apply KR in Rc. congruence.
      + destruct (finish t k) as [[k2 y2] z2] eqn:Rc. apply KF in Rc. congruence.
    - apply KR in Q. congruence. }
  constructor; [exact Ra|]. destruct r; auto.
Qed.
Print Assumptions C153_off_partial.
Definition ex_plain : task nat nat nat :=
  mkTask (Some (mkService (Some ex_exc) None (Some (fun c => (count c, Fine)))))
    (fun c => (count c, if Nat.even (snd c) then Fails 7 else Panics 9)).
Example C153_off_case :
  (forall f, ~ has_before ex_plain f) /\ (forall c, fst (fst (fn ex_plain c)) = fst c) /\
  (forall s x c e, svc ex_plain = Some s -> exc s = Some x -> fst (fst (x c e)) = fst c) /\
  (forall s f c, svc ex_plain = Some s -> after s = Some f -> fst (fst (f c)) = fst c) /\
  rounds ex_plain (fun _ c => c) 2 (false, 0) =
    [[EFunc (Fails 7); EExc (Plain 7) None; EAfter Fine]; [EFunc (Fails 7); EExc (Plain 7) None; EAfter Fine]].
Proof. split; [intros f (s & S & B); injection S as <-; discriminate|]. split; [reflexivity|]. split; [|split; [|reflexivity]].
  - intros s x c e S X. injection S as <-. injection X as <-. reflexivity.
  - intros s f c S A. injection S as <-. injection A as <-. reflexivity.
Qed.

(** ** C154 *)
(** Claimed: a panic in a function of a task does not end the process.  False for a task that is
    in no service, and when the exception handler panics on being told. *)
Theorem C154_alone_refuted : exists (t : task nat nat nat) c c' evs,
  svc t = None /\ round t c = (c', evs, Died).
Proof. exists (mkTask None (fun c => (c, Panics 1))), (false, 0). do 2 eexists. split; reflexivity. Qed.
Print Assumptions C154_alone_refuted.
Theorem C154_handler_refuted : exists (t : task nat nat nat) c c' evs,
  has_exc t /\ (forall c p, snd (fn t c) <> Panics p) /\ round t c = (c', evs, Died).
Proof.
  exists (mkTask (Some (mkService (Some (fun c _ => (c, Some 2))) None None)) (fun c => (c, Fails 1))), (false, 0).
  do 2 eexists. split; [do 2 eexists; split; reflexivity|]. split; [intros c p; discriminate|reflexivity].
Qed.
Print Assumptions C154_handler_refuted.
(** Exactly: the process ends when something has panicked and the task is in no service, or the
    exception handler panics on being told of a panic. *)
Theorem C154_exactly_partial : forall U E P (t : task U E P) c c' evs r,
  round t c = (c', evs, r) ->
  (r = Died <-> (svc t = None /\ exists p, panicked evs p) \/ exists p q, In (EExc (FromPanic p) (Some q)) evs).
Proof.
  intros U E P t c c' evs r H. unfold panicked. split_round; split; intros Q; try discriminate; try congruence.
  all: try (left; split; [auto; fail|]; eexists; cbn [In]; eauto 12; fail).
  all: try (right; do 2 eexists; cbn [In]; eauto 12; fail).
  all: exfalso; destruct Q as [(Q & ? & [R|[R|[R|(? & R)]]])|(? & ? & R)]; ins; try congruence.
Qed.
Print Assumptions C154_exactly_partial.
Example C154_exactly_case :
  round (mkTask (Some (mkService (Some (fun c _ => (c, Some 2))) None None)) (fun c => (c, Fails 1)) : task nat nat nat) (false, 0)
  = ((false, 0), [EFunc (Fails 1); EExc (Plain 1) (Some 2); EExc (FromPanic 2) (Some 2)], Died).
Proof. reflexivity. Qed.
(** In particular tasks of a service whose exception handler does not panic never end the process. *)
Theorem C154_calm_partial : forall U E P (t : task U E P) s c c' evs r,
  svc t = Some s -> (forall x, exc s = Some x -> calm x) -> round t c = (c', evs, r) -> r <> Died.
Proof.
  intros U E P t s c c' evs r S X H D. unfold calm in X. split_round; try discriminate; try congruence.
  all: match goal with S1 : Some _ = Some _ |- _ => injection S1 as -> | _ => idtac end.
  all: try match goal with Q : exc ?a = Some ?x, R : ?x ?k ?v = (_, Some _) |- _ => let Y := fresh in assert (Y := X x); (rewrite <- Q in Y || idtac); specialize (Y eq_refl k v); rewrite R in Y; discriminate Y end.
Qed.
Print Assumptions C154_calm_partial.
Example C154_calm_case : exists s, svc ex_task = Some s /\ (forall x, exc s = Some x -> calm x) /\ snd (round ex_task (false, 2)) = Restarted.
Proof. eexists. split; [reflexivity|]. split; [|reflexivity]. intros x Q. injection Q as <-. intros c e. reflexivity. Qed.
