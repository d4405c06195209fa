(** C85: exactly when a re-entrant call can take the process down. *)
From Coq Require Import List Arith Bool Lia.
From Verif Require Import Machine MachineMore ClientProofs ReenterModel ReenterSpec ReenterProofs ReenterLive.
Import ListNotations.

Definition nend (k : nat) (evs : list event) : nat := sumw (fun e => match e with EEnd j => eq1 k j | _ => 0 end) evs.
Definition over (k : nat) (ts : list task) : nat := sumw (fun x => match tst x with Ended => eq1 k (tcb x) | _ => 0 end) ts.
Lemma end_step evs s l s' e k : nend k evs = over k (tasks s) -> step s l = Some (s', e) -> nend k (evs ++ e) = over k (tasks s').
Proof.
  unfold nend, over. intros A H. rewrite sumw_app.
  destruct l as [|u|u|u|u o|u|u|u|u|u| | | | | |u|u|u|u]; inv_step H; injection H as <- <-; cbn [calls tasks ncb set with_loop sumw].
  all: rewrite ?sumw_app, ?sumw_map; cbn [sumw tst tcb]; try lia.
  all: try (match goal with |- context [sumw ?g (upd (tasks ?s0) ?i ?y)] => pose proof (sumw_upd g _ _ _ y En) as U; cbn [tcb tst] in U; rewrite ?Et in U end; lia).
  all: assert (Z : forall l : list nat, sumw (fun _ : nat => 0) l = 0) by (clear; induction l; auto); rewrite Z; lia.
Qed.
Lemma end_reach sched s evs k : run step init sched = Some (s, evs) -> nend k evs = over k (tasks s).
Proof.
  apply (run_inv step init (fun _ evs s => nend k evs = over k (tasks s))); [reflexivity|]. intros. eapply end_step; eauto.
Qed.
Lemma nend_in k evs : In (EEnd k) evs <-> 0 < nend k evs.
Proof.
  unfold nend. induction evs as [|e r IH]; cbn; [split; [intros []|lia]|]. rewrite IH. clear IH. unfold eq1.
  destruct e; try (split; [intros [X|X]; [discriminate X|lia]|intros X; right; lia]). destruct (Nat.eqb_spec k0 k) as [->|N]; split; [lia|auto|intros [X|X]; [congruence|lia]|intros X; right; lia].
Qed.
Lemma nstart_in k evs v : In (EStart k v) evs -> 0 < nstart k evs.
Proof. unfold nstart. induction evs as [|e r IH]; [intros []|]. intros [->|X]; cbn; [unfold eq1; rewrite Nat.eqb_refl; lia|]. specialize (IH X). lia. Qed.
Lemma two k ts : forall i j x y, nth_error ts i = Some x -> nth_error ts j = Some y -> tcb x = k -> tcb y = k -> as_task k ts <= 1 -> i = j.
Proof.
  unfold as_task. induction ts as [|a ts IH]; intros [|i] [|j] x y Hx Hy Ex Ey H; try discriminate; cbn in *; [reflexivity| | |].
  - injection Hx as ->. apply (sumw_nth (fun x => eq1 k (tcb x))) in Hy. unfold eq1 in *. rewrite Ex, Ey, Nat.eqb_refl in *. lia.
  - injection Hy as ->. apply (sumw_nth (fun x => eq1 k (tcb x))) in Hx. unfold eq1 in *. rewrite Ex, Ey, Nat.eqb_refl in *. lia.
  - f_equal. eapply IH; eauto. lia.
Qed.

(** C85.  What holds of it: nothing but a continuation that is running can take the process down,
    and each that is running can.  Missing: that it cannot. *)
Theorem C85_exactly_partial : forall sched s evs, run step init sched = Some (s, evs) -> ~ In ECrash evs ->
  (exists l s' e, step s l = Some (s', e) /\ In ECrash e) <-> (exists k v, In (EStart k v) evs /\ ~ In (EEnd k) evs).
Proof.
  intros sched s evs H Hc. destruct (reach_N _ _ _ H) as (A & B & _).
  assert (Hc' : crashed s = false). { rewrite (crashed_in _ _ _ H). apply not_true_iff_false. intros X. apply existsb_exists in X as (x & X & Y). destruct x; try discriminate. contradiction. }
  assert (One : forall k, as_task k (tasks s) <= 1) by (intros k; destruct (A k) as (A1 & _ & A3); destruct (k <? ncb s); lia).
  split.
  - intros (l & s' & e & St & I). destruct l as [|u|u|u|u o|u|u|u|u|u| | | | | |u|u|u|u]; inv_step St; injection St as <- <-; cbn in I; repeat destruct I as [I|I]; try discriminate; try contradiction.
    exists (tcb x), (targ x). split; [apply (B _ _ En); congruence|]. rewrite nend_in, (end_reach _ _ _ _ H). unfold over. intros P. apply sumw_pos in P as (j & y & Hy & P).
    destruct (tst y) eqn:Ey; try lia. unfold eq1 in P. destruct (Nat.eqb_spec (tcb y) (tcb x)) as [E|]; [|lia]. rewrite (two _ _ _ _ _ _ En Hy eq_refl E (One _)) in En. congruence.
  - intros (k & v & I & N). apply nstart_in in I. destruct (A k) as (_ & A2 & _). rewrite A2 in I. rewrite nend_in, (end_reach _ _ _ _ H) in N. unfold begun in I. apply sumw_pos in I as (t & x & Hx & P). unfold over in N.
    assert (Et : tst x = Running). { apply (sumw_nth (fun x => match tst x with Ended => eq1 k (tcb x) | _ => 0 end)) in Hx. destruct (tst x); [lia|reflexivity|lia]. }
    exists (LPanic t). eexists _, _. unfold step. rewrite Hc', Hx, Et. split; [reflexivity|]. left. reflexivity.
Qed.
Print Assumptions C85_exactly_partial.
(** In a history: the crash is the last that happens, and a continuation was running. *)
Theorem C85_crash_partial : forall sched s evs a b, run step init sched = Some (s, evs) -> evs = a ++ ECrash :: b -> b = [] /\ exists c k v, In (EThen c k) a /\ In (EStart k v) a /\ ~ In (EEnd k) a.
Proof.
  intros sched s evs a b H E. destruct (run_split _ _ _ _ _ _ _ _ H E) as (p & l & q & t & t' & e1 & p1 & q1 & e2 & _ & R & St & R2 & -> & ->).
  assert (S1 : p1 = [] /\ q1 = [] /\ crashed t = false /\ crashed t' = true).
  { assert (I : In ECrash (p1 ++ ECrash :: q1)) by apply in_elt. remember (p1 ++ ECrash :: q1) as e eqn:Eq. clear - St I Eq. destruct l as [|u|u|u|u o|u|u|u|u|u| | | | | |u|u|u|u]; inv_step St; injection St as <- <-; cbn in I; repeat destruct I as [I|I]; try discriminate; try contradiction. apply in_single in Eq as (-> & -> & _). auto. }
  destruct S1 as (-> & -> & C1 & C2). rewrite app_nil_r. cbn in St |- *.
  assert (e2 = []) as -> by (destruct q as [|l' q]; [injection R2 as _ <-; reflexivity|]; cbn [run] in R2; unfold step in R2; rewrite C2 in R2; discriminate).
  split; [reflexivity|]. assert (N : ~ In ECrash e1). { intros X. rewrite (crashed_in _ _ _ R) in C1. assert (existsb (fun e => match e with ECrash => true | _ => false end) e1 = true) by (apply existsb_exists; exists ECrash; auto). congruence. }
  destruct (proj1 (C85_exactly_partial _ _ _ R N)) as (k & v & X & Y); [exists l, t', [ECrash]; split; [exact St|left; reflexivity]|].
  destruct (reach_T _ _ _ R) as (_ & _ & _ & _ & T5). destruct (T5 _ _ X) as (c & Z & _). exists c, k, v. auto.
Qed.
Print Assumptions C85_crash_partial.
Example C85_exactly_case : exists s evs, run step init [LReenter; LRegister 0; LThen 0; LThen 0; LReturn 0 (Fine None 7); LCallComplete 0; LPush 0; LTake; LAct; LStart 0; LEnd 0; LStart 1] = Some (s, evs) /\
  In (EStart 0 (VRes 7)) evs /\ In (EEnd 0) evs /\ In (EStart 1 (VRes 7)) evs /\ ~ In (EEnd 1) evs /\ step s (LPanic 0) = None /\ exists s', step s (LPanic 1) = Some (s', [ECrash]).
Proof. eexists _, _. split; [vm_compute; reflexivity|]. repeat split; try (cbn; tauto); [cbn; intuition discriminate|eexists; reflexivity]. Qed.
