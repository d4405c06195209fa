From Coq Require Import List.
From Verif Require Import ChainModel ChainSpec.
Import ListNotations.

Section P.
Context {S E P : Type}.
Implicit Types (hs : list (handler S E P)) (c : chain S E P).

Lemma all_nil_app hs1 : forall hs2 s s2, all_nil (hs1 ++ hs2) s s2 <->
  exists s1, all_nil hs1 s s1 /\ all_nil hs2 s1 s2.
Proof.
  induction hs1 as [|h hs1 IH]; intros; cbn; split.
  - intros H. exists s. split; [constructor|auto].
  - intros (s1 & H1 & H2). inversion H1; subst. exact H2.
  - intros H. inversion H as [|? ? ? s1 ? Hh Hr]; subst. apply IH in Hr as (t & Ht1 & Ht2).
    exists t. split; auto. econstructor; eauto.
  - intros (t & H1 & H2). inversion H1; subst. econstructor; eauto. apply IH. eauto.
Qed.
Lemma range_nil hs : forall s s' called, range hs s = (s', Nil, called) <->
  called = hs /\ all_nil hs s s'.
Proof.
  induction hs as [|h hs IH]; intros s s' called; cbn; split.
  - intros H. injection H as <- <-. split; auto. constructor.
  - intros [-> H]. inversion H; subst. reflexivity.
  - destruct (h s) as [s1 [| |]] eqn:Eh; try discriminate.
    destruct (range hs s1) as [[s2 o] cl] eqn:Er. intros H. injection H as <- -> <-.
    apply IH in Er as [-> Hn]. split; auto. econstructor; eauto.
  - intros [-> H]. inversion H as [|? ? ? s1 ? Hh Hrest]; subst. rewrite Hh.
    destruct (range hs s1) as [[s2 o] cl] eqn:Er.
    assert (Hr : range hs s1 = (s', Nil, hs)) by (apply IH; auto). rewrite Hr in Er.
    injection Er as <- <- <-. reflexivity.
Qed.
Lemma range_stop hs : forall s s' o called, range hs s = (s', o, called) -> o <> Nil ->
  exists pre h post s1, hs = pre ++ h :: post /\ called = pre ++ [h] /\
    all_nil pre s s1 /\ h s1 = (s', o).
Proof.
  induction hs as [|h hs IH]; intros s s' o called; cbn.
  - intros H Hn. injection H as <- <- <-. congruence.
  - destruct (h s) as [s1 o1] eqn:Eh. destruct o1.
    + destruct (range hs s1) as [[s2 o2] cl] eqn:Er. intros H Hn. injection H as <- <- <-.
      destruct (IH _ _ _ _ Er Hn) as (pre & h' & post & t & -> & -> & Ha & Hh).
      exists (h :: pre), h', post, t. repeat split; auto. econstructor; eauto.
    + intros H Hn. injection H as <- <- <-. exists [], h, hs, s. repeat split; auto. constructor.
    + intros H Hn. injection H as <- <- <-. exists [], h, hs, s. repeat split; auto. constructor.
Qed.

Lemma execute_range c s : Execute c s = range (in_order c) s.
Proof.
  unfold Execute, in_order. generalize (Before c) as b. intros b. revert s.
  induction b as [|h b IH]; intros s; cbn.
  - destruct (Handler c s) as [s1 [| |]]; reflexivity.
  - destruct (h s) as [s1 [| |]]; auto. rewrite <- IH.
    destruct (range b s1) as [[s2 o] cl]. destruct o; auto.
    destruct (Handler c s2) as [s3 [| |]]; auto.
    destruct (range (After c) s3) as [[s4 o4] cl4]. reflexivity.
Qed.

Lemma execute_nil c s s' called : Execute c s = (s', Nil, called) <->
  called = in_order c /\ all_nil (in_order c) s s'.
Proof. rewrite execute_range. apply range_nil. Qed.
Lemma execute_stop c s s' o called : Execute c s = (s', o, called) -> o <> Nil ->
  exists pre h post s1, in_order c = pre ++ h :: post /\ called = pre ++ [h] /\
    all_nil pre s s1 /\ h s1 = (s', o).
Proof. rewrite execute_range. apply range_stop. Qed.
End P.
