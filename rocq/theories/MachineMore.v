(** More about runs: the step an event comes from. *)
From Coq Require Import List Arith Lia.
From Verif Require Import Machine.
Import ListNotations.

Lemma app_split {A} (x : A) a b c d : a ++ b = c ++ x :: d -> (exists b1, b = b1 ++ x :: d /\ c = a ++ b1) \/ (exists d1, a = c ++ x :: d1 /\ d = d1 ++ b).
Proof.
  revert c. induction a as [|y a IH]; intros c H; [left; exists c; auto|].
  destruct c as [|z c]; cbn in H; injection H as -> H; [right; exists a; auto|].
  destruct (IH c H) as [(b1 & -> & ->)|(d1 & -> & ->)]; [left; exists b1; auto|right; exists d1; auto].
Qed.
Lemma run_split {S L E : Type} (step : S -> L -> option (S * list E)) s0 sched s evs pre x post :
  run step s0 sched = Some (s, evs) -> evs = pre ++ x :: post ->
  exists a l c t t' e1 p q e2, sched = a ++ l :: c /\ run step s0 a = Some (t, e1) /\ step t l = Some (t', p ++ x :: q) /\ run step t' c = Some (s, e2) /\ pre = e1 ++ p /\ post = q ++ e2.
Proof.
  revert s evs post. induction sched as [|l sched IH] using rev_ind; intros s evs post H Eq.
  - injection H as <- <-. destruct pre; discriminate.
  - apply run_app_inv in H as (t & e1 & e2 & H1 & H2 & ->). pose proof (run_one_inv _ _ _ _ _ H2) as H3.
    apply app_split in Eq as [(b1 & -> & ->)|(d1 & -> & ->)].
    + exists sched, l, [], t, s, e1, b1, post, []. rewrite app_nil_r. repeat split; auto.
    + destruct (IH _ _ _ H1 eq_refl) as (a & l' & c & u & u' & f1 & p & q & f2 & -> & Q2 & Q3 & Q4 & -> & ->).
      exists a, l', (c ++ [l]), u, u', f1, p, q, (f2 ++ e2). rewrite <- !app_assoc. repeat split; auto. eapply run_app; eauto.
Qed.
Lemma in_single {A} (x y : A) p q : [x] = p ++ y :: q -> p = [] /\ q = [] /\ x = y.
Proof. destruct p as [|a [|b p]]; intros H; try discriminate; injection H as -> ->; auto. Qed.
