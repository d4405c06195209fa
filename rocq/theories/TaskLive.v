(** Proofs about tasks that go on running: C97. *)
From Coq Require Import List Arith Bool Lia.
From Verif Require Import Machine ClientProofs TaskModel TaskSpec.
From Verif Require ReporterProofs.
Import ListNotations.

Definition ticks_on (s : state) (k : nat) : Prop := exists f, nth_error (ticks s) k = Some (mkTk true f).
(** While the task is running, some loop will serve a ticker that runs. *)
Definition busy (s : state) : Prop :=
  (exists i, nth_error (loops s) i = Some PDue) \/
  exists k, cur s = Some k /\ ticks_on s k /\
    exists i, nth_error (loops s) i = Some PHandle \/ nth_error (loops s) i = Some PEval \/ exists k', nth_error (loops s) i = Some (PBlock k') /\ ticks_on s k'.
Definition V (s : state) : Prop := st s = TRun -> busy s.

Lemma upd_split {A} (l : list A) u (y z : A) t x : nth_error l u = Some z -> nth_error l t = Some x -> (u = t /\ z = x) \/ (u <> t /\ nth_error (upd l u y) t = Some x).
Proof. intros Hu Ht. destruct (Nat.eq_dec u t) as [->|N]; [left; split; congruence|right; split; [exact N|now rewrite nth_upd_neq]]. Qed.
Lemma nth_snoc {A} (l : list A) x t y : nth_error l t = Some y -> nth_error (l ++ [x]) t = Some y.
Proof. intros H. rewrite nth_error_app1; [exact H|]. apply nth_error_Some. congruence. Qed.
Lemma nth_last {A} (l : list A) x : nth_error (l ++ [x]) (length l) = Some x.
Proof. rewrite nth_error_app2, Nat.sub_diag by lia. reflexivity. Qed.
Lemma on_upd s k r f k' : nth_error (ticks s) k = Some (mkTk r f) -> ticks_on s k' -> forall f', exists g, nth_error (upd (ticks s) k (mkTk r f')) k' = Some (mkTk true g).
Proof.
  intros H (g & Hg) f'. destruct (Nat.eq_dec k k') as [->|N].
  - assert (r = true) as -> by congruence. exists f'. now apply nth_upd_same with (x := mkTk true f).
  - exists g. now rewrite nth_upd_neq.
Qed.

Lemma V_step s l s' e : V s -> step s l = Some (s', e) -> V s'.
Proof.
  intros HV H. unfold step in H. destruct (crashed s); [discriminate|]. destruct l as [| |i|i p|i|i|k].
  - destruct (negb (isrun s)); [injection H as <- <-; exact HV|]. destruct (st s) eqn:Es; injection H as <- <-; try exact HV; intros _; left; exists (length (loops s)); apply nth_last.
  - destruct (negb (isrun s)); [injection H as <- <-; exact HV|]. destruct (st s) eqn:Es; try (injection H as <- <-; exact HV).
    destruct (cur s) as [k|]; [|injection H as <- <-; exact HV]. destruct (nth_error (ticks s) k); [|discriminate]. injection H as <- <-. intros X; discriminate X.
  - destruct (nth_error (loops s) i) as [[| | |]|] eqn:E; try discriminate. injection H as <- <-. intros _. right. exists (length (ticks s)). cbn. split; [reflexivity|].
    split; [exists false; apply nth_last|]. exists i. left. now apply nth_upd_same with (x := PDue).
  - destruct (nth_error (loops s) i) as [[| | |]|] eqn:E; try discriminate.
    assert (K : forall t, V (mkS (isrun s) (service s) (st s) (cur s) (ticks s) (upd (loops s) i PEval ++ t) (crashed s))).
    { intros t HR. destruct (HV HR) as [(j & Hj)|(k & Hk & Ht & j & Hj)].
      - left. exists j. cbn. rewrite nth_error_app1; [|apply nth_error_Some; destruct (upd_split _ i PEval _ _ _ E Hj) as [[_ ?]|[_ ?]]; congruence].
        destruct (upd_split _ i PEval _ _ _ E Hj) as [[_ ?]|[_ ?]]; congruence.
      - right. exists k. cbn. split; [exact Hk|]. split; [exact Ht|]. exists i. right. left. rewrite nth_error_app1; [now apply nth_upd_same with (x := PHandle)|]. rewrite upd_length. apply nth_error_Some. congruence. }
    destruct p; [destruct (service s) eqn:Sv; injection H as <- <-; [apply K|exact HV]|injection H as <- <-].
    specialize (K []). rewrite app_nil_r in K. exact K.
  - destruct (nth_error (loops s) i) as [[| | |]|] eqn:E; try discriminate. destruct (cur s) as [k|] eqn:Ec; [|discriminate]. injection H as <- <-. intros HR.
    destruct (HV HR) as [(j & Hj)|(k' & Hk & Ht & j & Hj)].
    + left. exists j. cbn. destruct (upd_split _ i (PBlock k) _ _ _ E Hj) as [[_ ?]|[_ ?]]; congruence.
    + right. exists k. rewrite Ec in Hk. injection Hk as <-. cbn. split; [exact Ec|]. split; [exact Ht|]. exists i. right. right. exists k. split; [now apply nth_upd_same with (x := PEval)|exact Ht].
  - destruct (nth_error (loops s) i) as [[| | |k]|] eqn:E; try discriminate. destruct (nth_error (ticks s) k) as [[r [|]]|] eqn:Et; try discriminate. injection H as <- <-. intros HR.
    destruct (HV HR) as [(j & Hj)|(k' & Hk & Ht & j & Hj)].
    + left. exists j. cbn. destruct (upd_split _ i PHandle _ _ _ E Hj) as [[_ ?]|[_ ?]]; congruence.
    + right. exists k'. cbn. split; [exact Hk|]. split; [exact (on_upd _ _ _ _ _ Et Ht false)|]. exists i. left. now apply nth_upd_same with (x := PBlock k).
  - destruct (nth_error (ticks s) k) as [[[|] f]|] eqn:Et; try discriminate. injection H as <- <-. intros HR.
    destruct (HV HR) as [?|(k' & Hk & Ht & j & Hj)]; [left; assumption|]. right. exists k'. cbn. split; [exact Hk|]. split; [exact (on_upd _ _ _ _ _ Et Ht true)|]. exists j.
    destruct Hj as [?|[?|(q & A & B)]]; auto. right. right. exists q. split; [exact A|exact (on_upd _ _ _ _ _ Et B true)].
Qed.
(** What the history says about the state. *)
Lemma running_step s l s' e : step s l = Some (s', e) ->
  (In EStarted e -> e = [EStarted] /\ st s' = TRun) /\ (~ In EStarted e -> ~ In EStopped e -> st s' = st s) /\ (crashed s' = true -> In ECrash e).
Proof.
  intros H. unfold step in H. destruct (crashed s) eqn:Hc; [discriminate|].
  destruct l; repeat match type of H with
    | context [match ?x with _ => _ end] => destruct x eqn:?; try discriminate H
    | context [if ?x then _ else _] => destruct x eqn:?; try discriminate H end; injection H as <- <-; cbn;
  repeat split; auto; try congruence; try tauto; intuition (try discriminate; auto); exfalso; auto.
Qed.
Lemma running_st b1 b2 sched s evs : run step (task b1 b2) sched = Some (s, evs) -> V s /\ (running_task evs -> st s = TRun) /\ (crashed s = true -> In ECrash evs).
Proof.
  intros H. refine (run_inv step (task b1 b2) (fun _ evs s => V s /\ (running_task evs -> st s = TRun) /\ (crashed s = true -> In ECrash evs)) _ _ sched s evs H).
  - split; [intros X; discriminate X|]. split; [|discriminate]. intros (a & b & X & _). destruct a; discriminate.
  - intros sc ev s0 l s' e _ (A & B & C) Hs. split; [eapply V_step; eassumption|]. destruct (running_step _ _ _ _ Hs) as (P & Q & R). split.
    + intros (a & b & X & Hb). assert (D : In EStarted e \/ ~ In EStarted e) by (destruct (in_dec (fun x y : event => ltac:(decide equality; apply Nat.eq_dec)) EStarted e); auto).
      destruct D as [D|D]; [apply P, D|]. destruct (app_eq_app _ _ _ _ X) as (w & [[E1 E2]|[E1 E2]]).
      * (* the start lies in the earlier part *) destruct w as [|y w]; cbn in E2; [exfalso; apply D; rewrite <- E2; now left|]. injection E2 as <- E2.
        rewrite Q; [apply B; exists a, w; split; [exact E1|]|exact D|]; intros F; apply Hb; rewrite E2; apply in_or_app; auto.
      * exfalso. apply D. rewrite E2. apply in_or_app. right. now left.
    + intros X. apply in_or_app. right. exact (R X).
Qed.

Lemma count_app f a b : count_ev f (a ++ b) = count_ev f a + count_ev f b.
Proof. unfold count_ev. rewrite filter_app, app_length. reflexivity. Qed.
(** One more run of the handler. *)
Definition runs_on (s : state) : Prop := exists sched s' evs, run step s sched = Some (s', evs) /\ Forall loop_work sched /\ 1 <= count_ev began evs /\ V s' /\ st s' = TRun /\ crashed s' = false.
Lemma run_on_step s l s1 e1 : step s l = Some (s1, e1) -> loop_work l -> runs_on s1 -> runs_on s.
Proof.
  intros H Hl (sc & s' & ev & R & F & N & K). exists (l :: sc), s', (e1 ++ ev). split; [cbn [run]; rewrite H, R; reflexivity|]. split; [now constructor|]. split; [rewrite count_app; lia|exact K].
Qed.
Lemma run_on_begin s l s1 i : step s l = Some (s1, [EBegin i]) -> loop_work l -> V s -> st s1 = TRun -> crashed s1 = false -> runs_on s.
Proof.
  intros H Hl HV Ht Hc. exists [l], s1, [EBegin i]. split; [cbn [run]; rewrite H; reflexivity|]. split; [repeat constructor; exact Hl|]. split; [cbn; lia|]. split; [eapply V_step; eassumption|auto].
Qed.
Lemma on_block s i k f : V s -> st s = TRun -> crashed s = false -> nth_error (loops s) i = Some (PBlock k) -> nth_error (ticks s) k = Some (mkTk true f) -> runs_on s.
Proof.
  intros HV Ht Hc Hl Hk. assert (H1 : step s (LTick k) = Some (with_ticks s (upd (ticks s) k (mkTk true true)), [])) by (unfold step; rewrite Hc, Hk; reflexivity).
  eapply run_on_step; [exact H1|exact I|]. eapply (run_on_begin _ (LRecv i)); [|exact I|eapply V_step; eassumption| |].
  - unfold step. cbn. rewrite Hc, Hl, (nth_upd_same _ _ _ _ Hk). reflexivity.
  - exact Ht.
  - exact Hc.
Qed.
Lemma on_eval s i k f : V s -> st s = TRun -> crashed s = false -> nth_error (loops s) i = Some PEval -> cur s = Some k -> nth_error (ticks s) k = Some (mkTk true f) -> runs_on s.
Proof.
  intros HV Ht Hc Hl Hq Hk. assert (H1 : step s (LEval i) = Some (set s i (PBlock k), [])) by (unfold step; rewrite Hc, Hl, Hq; reflexivity).
  eapply run_on_step; [exact H1|exact I|]. eapply (on_block _ i k); [eapply V_step; eassumption|exact Ht|exact Hc|exact (nth_upd_same _ _ _ _ Hl)|exact Hk].
Qed.
Lemma busy_runs s : V s -> st s = TRun -> crashed s = false -> runs_on s.
Proof.
  intros HV Ht Hc. destruct (HV Ht) as [(i & Hi)|(k & Hk & (f & Hf) & i & [Hi|[Hi|(k' & Hi & f' & Hf')]])].
  - eapply (run_on_begin _ (LFire i)); [unfold step; rewrite Hc, Hi; reflexivity|exact I|exact HV|exact Ht|reflexivity].
  - assert (H1 : step s (LEnd i false) = Some (set s i PEval, [EEnd i])) by (unfold step; rewrite Hc, Hi; reflexivity).
    eapply run_on_step; [exact H1|exact I|]. eapply (on_eval _ i k); [eapply V_step; eassumption|exact Ht|exact Hc|exact (nth_upd_same _ _ _ _ Hi)|exact Hk|exact Hf].
  - eapply on_eval; eassumption.
  - eapply on_block; eassumption.
Qed.
Lemma runs_again b1 b2 sched s evs m : run step (task b1 b2) sched = Some (s, evs) -> running_task evs -> ~ In ECrash evs ->
  exists sched' s' evs', run step s sched' = Some (s', evs') /\ Forall loop_work sched' /\ m <= count_ev began evs'.
Proof.
  intros H Hr Hn. destruct (running_st _ _ _ _ _ H) as (A & B & C). specialize (B Hr). assert (Hc : crashed s = false) by (destruct (crashed s); [destruct (Hn (C eq_refl))|reflexivity]).
  clear H Hr Hn C sched evs. revert s A B Hc. induction m as [|m IH]; intros s A B Hc.
  - exists [], s, []. repeat split; auto; lia.
  - destruct (busy_runs s A B Hc) as (sc & s1 & ev & R & F & N & V1 & T1 & C1). destruct (IH s1 V1 T1 C1) as (sc2 & s2 & ev2 & R2 & F2 & N2).
    exists (sc ++ sc2), s2, (ev ++ ev2). split; [exact (run_app _ _ _ _ _ _ _ _ R R2)|]. split; [apply Forall_app; auto|rewrite count_app; lia].
Qed.
