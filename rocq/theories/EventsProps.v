(** C24 and C64: handler registration and subscription. *)
From Coq Require Import List String Bool.
From Verif Require Import EventsModel.
Import ListNotations.
Open Scope string_scope.

(** Specification: the registrations a history contains for an event, in order. *)
Fixpoint registrations {C} (os : list (op C)) (ev : string) : list C :=
  match os with
  | [] => []
  | OpOnEvent e c :: r => (if String.eqb e ev then [c] else []) ++ registrations r ev
  | OpSub ch c :: r => (if String.eqb ch ev then [c] else []) ++ registrations r ev
  end.

Lemma registrations_app {C} (a b : list (op C)) ev :
  registrations (a ++ b) ev = (registrations a ev ++ registrations b ev)%list.
Proof. induction a as [|[e c|e c] a IH]; cbn; auto; rewrite IH; now rewrite app_assoc. Qed.

Lemma exec_spec {C} (m : chains C) o : forall ev,
  fst (exec m o) ev = match m ev with Some c => Some c | None => hd_error (registrations [o] ev) end.
Proof.
  intros ev. destruct o as [e c|e c]; cbn; unfold OnEvent; destruct (m e) eqn:E; cbn;
  destruct (String.eqb_spec ev e) as [->|Hn]; try rewrite E; auto; rewrite ?String.eqb_refl; auto;
  destruct (String.eqb_spec e ev); try congruence; cbn; destruct (m ev); auto.
Qed.
Lemma execs_spec {C} (os : list (op C)) : forall m ev,
  fst (execs m os) ev = match m ev with Some c => Some c | None => hd_error (registrations os ev) end.
Proof.
  induction os as [|o os IH]; intros m ev; cbn [execs].
  - cbn. now destruct (m ev).
  - change (o :: os) with ([o] ++ os)%list. rewrite registrations_app.
    pose proof (exec_spec m o ev) as H. destruct (exec m o) as [m1 b]. cbn [fst] in H.
    specialize (IH m1 ev). destruct (execs m1 os) as [m2 bs]. cbn [fst] in IH |- *. rewrite IH, H.
    destruct (m ev); auto. destruct (registrations [o] ev); auto.
Qed.

(** ** C24 *)
(** Dispatch uses the first chain registered for the event. *)
Theorem C24_dispatch_first : forall C (os : list (op C)) ev,
  dispatch (fst (execs empty os)) ev = hd_error (registrations os ev).
Proof. intros. unfold dispatch. now rewrite execs_spec. Qed.
Print Assumptions C24_dispatch_first.
(** A registration is accepted exactly when the event has none yet, and a
    rejected one changes no event's handler. *)
Theorem C24_accepted_iff_new : forall C (os : list (op C)) ev c,
  let m := fst (execs empty os) in
  (snd (OnEvent m ev c) = true <-> registrations os ev = []) /\
  (snd (OnEvent m ev c) = false -> forall e, dispatch (fst (OnEvent m ev c)) e = dispatch m e).
Proof.
  intros C os ev c m. pose proof (execs_spec os empty ev) as H. fold m in H. cbn in H.
  unfold OnEvent. destruct (m ev) eqn:E; cbn; split; auto.
  - split; [discriminate|]. intros Hr. rewrite Hr in H. discriminate.
  - destruct (registrations os ev); [tauto|discriminate].
  - discriminate.
Qed.
Print Assumptions C24_accepted_iff_new.
(** An accepted one changes that event only. *)
Theorem C24_accepted_changes_one : forall C (m : chains C) ev c e,
  snd (OnEvent m ev c) = true ->
  dispatch (fst (OnEvent m ev c)) e = if String.eqb e ev then Some c else dispatch m e.
Proof.
  intros C m ev c e. unfold OnEvent. destruct (m ev); [discriminate|]. reflexivity.
Qed.
Print Assumptions C24_accepted_changes_one.
Definition ex_ops : list (op nat) :=
  [OpOnEvent "login" 1; OpOnEvent "logout" 2; OpOnEvent "login" 3; OpSub "news" 4].
Example C24_case : snd (execs empty ex_ops) = [true; true; false; true] /\
  map (dispatch (fst (execs empty ex_ops))) ["login"; "logout"; "news"; "x"] = [Some 1; Some 2; Some 4; None].
Proof. split; reflexivity. Qed.

(** ** C64 *)
(** False: Sub registers the callback under the name of the channel, but a
    message is dispatched by the event it was published with; and when the
    channel name is already an event of the actor, Sub returns nil without
    installing the callback. *)
Theorem C64_sub_callback_sees_messages_refuted :
  (exists (channel event : string) (cb : nat),
     snd (Sub empty channel cb) = true /\ dispatch (fst (Sub empty channel cb)) event = None) /\
  (exists (os : list (op nat)) (channel : string) (cb : nat) m,
     m = fst (execs empty os) /\ snd (Sub m channel cb) = true /\
     dispatch (fst (Sub m channel cb)) channel <> Some cb).
Proof.
  split.
  - exists "actor-1", "offline-mail", 7. split; reflexivity.
  - exists [OpOnEvent "actor-1" 1], "actor-1", 7. eexists. repeat split. discriminate.
Qed.
Print Assumptions C64_sub_callback_sees_messages_refuted.
(** What holds: if the channel's name was not registered before, every later
    message whose event is the name of the channel goes to the callback, whatever
    is registered afterwards; messages with other events are dispatched as if
    there were no subscription. *)
Theorem C64_sub_callback_partial : forall C (before after : list (op C)) channel cb,
  registrations before channel = [] ->
  dispatch (fst (execs empty (before ++ OpSub channel cb :: after))) channel = Some cb /\
  (forall ev, ev <> channel ->
     dispatch (fst (execs empty (before ++ OpSub channel cb :: after))) ev =
     dispatch (fst (execs empty (before ++ after))) ev).
Proof.
  intros C before after channel cb H. unfold dispatch. split.
  - rewrite execs_spec, registrations_app, H. cbn. rewrite String.eqb_refl. reflexivity.
  - intros ev Hne. rewrite !execs_spec, !registrations_app. cbn.
    destruct (String.eqb_spec channel ev); [congruence|]. reflexivity.
Qed.
Print Assumptions C64_sub_callback_partial.
Example C64_partial_case : registrations [OpOnEvent "login" 1] "news" = [] /\
  dispatch (fst (execs empty ([OpOnEvent "login" 1] ++ OpSub "news" 4 :: [OpOnEvent "news" 5]))) "news" = Some 4.
Proof. split; reflexivity. Qed.
