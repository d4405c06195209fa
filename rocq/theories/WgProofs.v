(** Proofs about the wait group. *)
From Coq Require Import List ZArith Bool Arith Lia.
From Verif Require Import Machine MachineMore WgModel WgSpec.
Import ListNotations.
Open Scope Z_scope.

Lemma int32_mod x : (int32 x - x) mod 2 ^ 32 = 0.
Proof.
  unfold int32. rewrite (Z.mod_eq (x + 2 ^ 31)) by lia.
  replace (x + 2 ^ 31 - 2 ^ 32 * ((x + 2 ^ 31) / 2 ^ 32) - 2 ^ 31 - x) with ((- ((x + 2 ^ 31) / 2 ^ 32)) * 2 ^ 32) by ring.
  apply Z.mod_mul. lia.
Qed.

Lemma int32_eq x y : (x - y) mod 2 ^ 32 = 0 -> int32 x = int32 y.
Proof.
  intros H. unfold int32. f_equal. apply Z.mod_divide in H; [|lia]. destruct H as (k & H).
  replace (x + 2 ^ 31) with (y + 2 ^ 31 + k * 2 ^ 32) by lia. apply Z.mod_add. lia.
Qed.

Lemma int32_l x y : int32 (int32 x + y) = int32 (x + y).
Proof. apply int32_eq. replace (int32 x + y - (x + y)) with (int32 x - x) by ring. apply int32_mod. Qed.

Lemma int32_r x y : int32 (x + int32 y) = int32 (x + y).
Proof. rewrite Z.add_comm, int32_l, Z.add_comm. reflexivity. Qed.

Lemma int32_idem x : int32 (int32 x) = int32 x.
Proof. pose proof (int32_l x 0) as H. rewrite !Z.add_0_r in H. exact H. Qed.

Lemma int32_id x : - 2 ^ 31 <= x < 2 ^ 31 -> int32 x = x.
Proof. intros H. unfold int32. rewrite Z.mod_small by lia. lia. Qed.

Lemma applied_app a b : applied (a ++ b) = applied a + applied b.
Proof. induction a as [|[]]; cbn; lia. Qed.
Lemma begun_app a b : begun (a ++ b) = begun a + begun b.
Proof. induction a as [|[]]; cbn; lia. Qed.

Fixpoint pend (os : list op) : Z :=
  match os with [] => 0 | Counted d :: r => d + pend r | _ :: r => pend r end.
Definition pd (o : op) : Z := match o with Counted d => d | _ => 0 end.
Lemma pend_cons o os : pend (o :: os) = pd o + pend os.
Proof. destruct o; reflexivity. Qed.
Lemma pend_app a b : pend (a ++ b) = pend a + pend b.
Proof. induction a; [reflexivity|]. rewrite <- app_comm_cons, !pend_cons. lia. Qed.
Lemma pend_upd os : forall i o o', nth_error os i = Some o -> pend (upd os i o') = pend os - pd o + pd o'.
Proof.
  induction os as [|a os IH]; intros [|i] o o' H; cbn [nth_error] in H; try discriminate.
  - injection H as ->. cbn [upd]. rewrite !pend_cons. lia.
  - cbn [upd]. rewrite !pend_cons, (IH _ _ o' H). lia.
Qed.

Definition blk (w : waiter) : nat := match w with Blocked => 1 | _ => 0 end.
Fixpoint nblk (ws : list waiter) : nat := match ws with [] => 0 | w :: r => blk w + nblk r end.
Lemma nblk_app a b : nblk (a ++ b) = (nblk a + nblk b)%nat.
Proof. induction a; cbn; lia. Qed.
Lemma nblk_upd ws : forall i w w', nth_error ws i = Some w -> (nblk (upd ws i w') + blk w = nblk ws + blk w')%nat.
Proof.
  induction ws as [|a ws IH]; intros [|i] w w' H; cbn in H; try discriminate.
  - injection H as ->. cbn. lia.
  - cbn. specialize (IH _ _ w' H). lia.
Qed.
Lemma nblk_some ws : (0 < nblk ws)%nat -> exists j, nth_error ws j = Some Blocked.
Proof.
  induction ws as [|a ws IH]; cbn; [lia|]. intros H. destruct a.
  all: try (destruct IH as (j & J); [cbn in H; lia|exists (S j); exact J]). exists O. reflexivity.
Qed.
Lemma nblk_ge ws j : nth_error ws j = Some Blocked -> (0 < nblk ws)%nat.
Proof. revert j; induction ws as [|a ws IH]; intros [|j] H; cbn in *; try discriminate; [injection H as ->; cbn; lia|specialize (IH _ H); lia]. Qed.

(** The steps, one case each. *)
Inductive move (s : state) : label -> state -> list event -> Prop :=
| MBegin d : move s (LBegin d) (mkState (int32 (copy s + int32 d)) (cnt s) (wait s) (sema s) (ops s ++ [Counted d]) (waiters s)) []
| MNeg i d : nth_error (ops s) i = Some (Counted d) -> int32 (cnt s + d) < 0 ->
    move s (LApply i) (mkState (copy s) (int32 (cnt s + d)) (wait s) (sema s) (upd (ops s) i Broken) (waiters s)) [EApplied d; EPanic]
| MMis i d : nth_error (ops s) i = Some (Counted d) -> 0 <= int32 (cnt s + d) -> (0 < wait s)%nat -> 0 < d -> int32 (cnt s + d) = int32 d ->
    move s (LApply i) (mkState (copy s) (int32 (cnt s + d)) (wait s) (sema s) (upd (ops s) i Broken) (waiters s)) [EApplied d; EPanic]
| MAdd i d : nth_error (ops s) i = Some (Counted d) -> 0 <= int32 (cnt s + d) -> 0 < int32 (cnt s + d) \/ wait s = O ->
    move s (LApply i) (mkState (copy s) (int32 (cnt s + d)) (wait s) (sema s) (upd (ops s) i Over) (waiters s)) [EApplied d; ERet i]
| MLast i d : nth_error (ops s) i = Some (Counted d) -> int32 (cnt s + d) = 0 -> (0 < wait s)%nat ->
    move s (LApply i) (mkState (copy s) (int32 (cnt s + d)) (wait s) (sema s) (upd (ops s) i (Zeroing (wait s))) (waiters s)) [EApplied d]
| MZero i : nth_error (ops s) i = Some (Zeroing (wait s)) -> cnt s = 0 ->
    move s (LZero i) (mkState (copy s) 0 0 (sema s + wait s)%nat (upd (ops s) i Over) (waiters s)) [ERet i]
| MZeroBad i k : nth_error (ops s) i = Some (Zeroing k) -> cnt s <> 0 \/ wait s <> k ->
    move s (LZero i) (mkState (copy s) (cnt s) (wait s) (sema s) (upd (ops s) i Broken) (waiters s)) [EPanic]
| MFree : cnt s = 0 ->
    move s LWait (mkState (copy s) (cnt s) (wait s) (sema s) (ops s) (waiters s ++ [Returned])) [EWaited (length (waiters s))]
| MBlock : cnt s <> 0 ->
    move s LWait (mkState (copy s) (cnt s) (S (wait s)) (sema s) (ops s) (waiters s ++ [Blocked])) []
| MAcquire j n : nth_error (waiters s) j = Some Blocked -> sema s = S n ->
    move s (LAcquire j) (mkState (copy s) (cnt s) (wait s) n (ops s) (upd (waiters s) j Woken)) []
| MCheck j : nth_error (waiters s) j = Some Woken -> cnt s = 0 -> wait s = O ->
    move s (LCheck j) (mkState (copy s) (cnt s) (wait s) (sema s) (ops s) (upd (waiters s) j Returned)) [EWaited j]
| MCheckBad j : nth_error (waiters s) j = Some Woken -> cnt s <> 0 \/ wait s <> O ->
    move s (LCheck j) (mkState (copy s) (cnt s) (wait s) (sema s) (ops s) (upd (waiters s) j WBroken)) [EPanic]
| MCount : move s LCount s [ECount (copy s)].

Lemma step_move s l s' e : step s l = Some (s', e) -> move s l s' e.
Proof.
  destruct l as [d|i|i| |j|j|]; cbn [step]; intros H.
  - injection H as <- <-. constructor.
  - destruct (nth_error (ops s) i) as [[d|k| |]|] eqn:E; try discriminate.
    destruct (Z.ltb_spec (int32 (cnt s + d)) 0). { injection H as <- <-. now constructor. }
    destruct (negb (Nat.eqb (wait s) 0) && (0 <? d) && (int32 (cnt s + d) =? int32 d)) eqn:M.
    { injection H as <- <-. apply andb_true_iff in M as (M & M3). apply andb_true_iff in M as (M1 & M2).
      apply negb_true_iff, Nat.eqb_neq in M1. apply Z.ltb_lt in M2. apply Z.eqb_eq in M3. apply MMis; auto; lia. }
    destruct ((0 <? int32 (cnt s + d)) || Nat.eqb (wait s) 0) eqn:M4; injection H as <- <-.
    + apply orb_true_iff in M4 as [M4|M4]; [apply Z.ltb_lt in M4|apply Nat.eqb_eq in M4]; apply MAdd; auto; lia.
    + apply orb_false_iff in M4 as (M4 & M5). apply Z.ltb_ge in M4. apply Nat.eqb_neq in M5. apply MLast; auto; lia.
  - destruct (nth_error (ops s) i) as [[d|k| |]|] eqn:E; try discriminate.
    destruct ((cnt s =? 0) && Nat.eqb (wait s) k) eqn:M; injection H as <- <-.
    + apply andb_true_iff in M as (M1 & M2). apply Z.eqb_eq in M1. apply Nat.eqb_eq in M2. subst k. now apply MZero.
    + apply MZeroBad with k; auto. apply andb_false_iff in M as [M|M]; [apply Z.eqb_neq in M|apply Nat.eqb_neq in M]; auto.
  - destruct (Z.eqb_spec (cnt s) 0); injection H as <- <-; now constructor.
  - destruct (nth_error (waiters s) j) as [[]|] eqn:E; try discriminate. destruct (sema s) eqn:Q; try discriminate.
    injection H as <- <-. now constructor.
  - destruct (nth_error (waiters s) j) as [[]|] eqn:E; try discriminate.
    destruct ((cnt s =? 0) && Nat.eqb (wait s) 0) eqn:M; injection H as <- <-.
    + apply andb_true_iff in M as (M1 & M2). apply Z.eqb_eq in M1. apply Nat.eqb_eq in M2. now apply MCheck.
    + apply MCheckBad; auto. apply andb_false_iff in M as [M|M]; [apply Z.eqb_neq in M|apply Nat.eqb_neq in M]; auto.
  - injection H as <- <-. constructor.
Qed.

(** What holds always. *)
Record Inv (sched : list label) (evs : list event) (s : state) : Prop := {
  i_copy : copy s = int32 (begun sched);
  i_cnt : cnt s = int32 (applied evs);
  i_pend : begun sched = applied evs + pend (ops s);
  i_blk : nblk (waiters s) = (wait s + sema s)%nat;
  i_zero : cnt s = 0 -> (0 < wait s)%nat -> exists i, nth_error (ops s) i = Some (Zeroing (wait s))
}.

Lemma upd_zeroing os i o o' k : nth_error os i = Some o -> o <> Zeroing k ->
  (exists j, nth_error os j = Some (Zeroing k)) -> exists j, nth_error (upd os i o') j = Some (Zeroing k).
Proof.
  intros H N (j & J). exists j. rewrite nth_upd_neq; [exact J|]. intros ->. congruence.
Qed.
Lemma upd_new os i o o' : nth_error os i = Some o -> nth_error (upd os i o') i = Some (o' : op).
Proof. intros H. apply nth_upd_eq. apply nth_error_Some. congruence. Qed.

Lemma inv_step sched evs s l s' e : Inv sched evs s -> step s l = Some (s', e) -> Inv (sched ++ [l]) (evs ++ e) s'.
Proof.
  intros [C N P B Z] H. apply step_move in H.
  destruct H as [d|i d O G|i d O G W D Q|i d O G W|i d O G W|i O G|i k O G|G|G|j n O G|j O G W|j O G|].
  all: constructor; rewrite ?begun_app, ?applied_app; cbn [copy cnt wait sema ops waiters begun applied].
  all: rewrite ?Z.add_0_r, ?Z.add_0_l; auto.
  all: rewrite ?nblk_app; cbn [nblk blk].
  - rewrite C, int32_l, int32_r. reflexivity.
  - rewrite pend_app. cbn. lia.
  - intros A1 A2. destruct (Z A1 A2) as (i & I). exists i. rewrite nth_error_app1; [exact I|]. apply nth_error_Some. congruence.
  - rewrite N, int32_l. reflexivity.
  - rewrite (pend_upd _ _ _ _ O). cbn. lia.
  - lia.
  - rewrite N, int32_l. reflexivity.
  - rewrite (pend_upd _ _ _ _ O). cbn. lia.
  - intros A1 A2. apply upd_zeroing with (Counted d); auto; [discriminate|]. apply Z; auto.
    rewrite A1 in Q. rewrite <- int32_r, <- Q, Z.add_0_r, N, int32_idem in A1. rewrite N. exact A1.
  - rewrite N, int32_l. reflexivity.
  - rewrite (pend_upd _ _ _ _ O). cbn. lia.
  - intros A1 A2. lia.
  - rewrite N, int32_l. reflexivity.
  - rewrite (pend_upd _ _ _ _ O). cbn. lia.
  - intros _ _. exists i. eapply upd_new; eauto.
  - rewrite <- N. auto.
  - rewrite (pend_upd _ _ _ _ O). cbn. lia.
  - lia.
  - lia.
  - rewrite (pend_upd _ _ _ _ O). cbn. lia.
  - intros A1 A2. apply upd_zeroing with (Zeroing k); auto. intros Q. injection Q as ->. tauto.
  - lia.
  - lia.
  - intros A1 A2. contradiction.
  - pose proof (nblk_upd _ _ _ Woken O) as U. cbn in U. lia.
  - pose proof (nblk_upd _ _ _ Returned O) as U. cbn in U. lia.
  - pose proof (nblk_upd _ _ _ WBroken O) as U. cbn in U. lia.
Qed.

Lemma inv_reach : forall sched s evs, run step init sched = Some (s, evs) -> Inv sched evs s.
Proof.
  intros sched. induction sched as [|l sched IH] using rev_ind; intros s evs H.
  - cbn in H. injection H as <- <-. constructor; cbn; auto; lia.
  - apply run_app_inv in H as (s1 & e1 & e2 & H1 & H2 & ->). apply run_one_inv in H2. eapply inv_step; eauto.
Qed.

Lemma pend_rest os : (forall d, ~ In (Counted d) os) -> pend os = 0.
Proof.
  induction os as [|o os IH]; intros H; [reflexivity|]. rewrite pend_cons, IH by (intros d Hd; apply (H d); right; exact Hd).
  destruct o; try reflexivity. exfalso. apply (H d). left. reflexivity.
Qed.

(** What holds while the rules are kept. *)
Record Good (s : state) : Prop := {
  g_cnt : 0 <= cnt s < 2 ^ 31;
  g_zero : forall i k, nth_error (ops s) i = Some (Zeroing k) -> cnt s = 0 /\ wait s = k /\ (0 < k)%nat;
  g_one : forall i j k k', nth_error (ops s) i = Some (Zeroing k) -> nth_error (ops s) j = Some (Zeroing k') -> i = j;
  g_blk : nblk (waiters s) = (wait s + sema s)%nat;
  g_open : (0 < sema s)%nat \/ (exists j, nth_error (waiters s) j = Some Woken) -> cnt s = 0 /\ wait s = O
}.

Lemma upd_inv_z os i o o' j k : nth_error os i = Some o -> nth_error (upd os i o') j = Some (Zeroing k) ->
  (j = i /\ o' = Zeroing k) \/ (j <> i /\ nth_error os j = Some (Zeroing k)).
Proof.
  intros H J. rewrite nth_upd in J by (apply nth_error_Some; congruence).
  destruct (Nat.eqb_spec i j); [left; split; congruence|right; auto].
Qed.

Lemma snoc_inv A (l : list A) x i y : nth_error (l ++ [x]) i = Some y -> nth_error l i = Some y \/ x = y.
Proof.
  intros H. destruct (Nat.lt_ge_cases i (length l)) as [L|L].
  - rewrite nth_error_app1 in H by exact L. auto.
  - rewrite nth_error_app2 in H by exact L. destruct (i - length l)%nat as [|[|]]; cbn in H; try discriminate. injection H as ->. auto.
Qed.

Lemma woken_upd ws i w w' j : nth_error ws i = Some w -> w' <> Woken -> nth_error (upd ws i w') j = Some Woken -> nth_error ws j = Some Woken.
Proof.
  intros H N J. rewrite nth_upd in J by (apply nth_error_Some; congruence). destruct (Nat.eqb_spec i j); congruence.
Qed.

Lemma good_step s l s' e : Good s -> obeys s l -> step s l = Some (s', e) -> Good s' /\ ~ In EPanic e.
Proof.
  intros [G Z1 Z2 B W] R H. apply step_move in H.
  assert (NW : (forall j, ~ waiting s j) -> wait s = O /\ sema s = O /\ forall j, nth_error (waiters s) j <> Some Woken).
  { intros N. assert (nblk (waiters s) = O) as E.
    { destruct (nblk (waiters s)) eqn:E; [reflexivity|]. destruct (nblk_some (waiters s)) as (j & J); [lia|]. exfalso. apply (N j). left. exact J. }
    split; [lia|split; [lia|]]. intros j J. apply (N j). right. exact J. }
  destruct H as [d|i d O Q|i d O Q V D Y|i d O Q V|i d O Q V|i O Q|i k O Q|Q|Q|j n O Q|j O Q V|j O Q|].
  2-5: destruct (R d O) as (R1 & R2 & R3).
  2-5: rewrite (int32_id (cnt s + d)) in * by lia.
  - split; [|intros []]. constructor; cbn [copy cnt wait sema ops waiters]; auto.
    + intros i k H. apply snoc_inv in H. destruct H as [H|H]; [eauto|discriminate].
    + intros i j k k' H1 H2. apply snoc_inv in H1, H2. destruct H1, H2; try discriminate. eauto.
  - lia.
  - exfalso. rewrite int32_id in Y by lia. destruct NW as (N & _); [apply R3; lia|lia].
  - split; [|intros [X|[X|[]]]; discriminate].
    assert (NZ : forall j k, nth_error (ops s) j <> Some (Zeroing k)).
    { intros j k J. destruct (Z1 _ _ J) as (A1 & A2 & A3). destruct (NW (R3 A1)) as (N & _). lia. }
    constructor; cbn [copy cnt wait sema ops waiters]; auto.
    + intros j k H. destruct (upd_inv_z _ _ _ _ _ _ O H) as [(_ & X)|(_ & X)]; [discriminate|destruct (NZ _ _ X)].
    + intros j j' k k' H. destruct (upd_inv_z _ _ _ _ _ _ O H) as [(_ & X)|(_ & X)]; [discriminate|destruct (NZ _ _ X)].
    + intros H. destruct (W H) as (A1 & A2). destruct (NW (R3 A1)) as (_ & N2 & N3). destruct H as [H|(j & H)]; [lia|destruct (N3 _ H)].
  - split; [|intros [X|[]]; discriminate].
    assert (NZ : forall j k, nth_error (ops s) j <> Some (Zeroing k)).
    { intros j k J. destruct (Z1 _ _ J) as (A1 & A2 & A3). destruct (NW (R3 A1)) as (N & _). lia. }
    constructor; cbn [copy cnt wait sema ops waiters]; auto.
    + intros j k H. destruct (upd_inv_z _ _ _ _ _ _ O H) as [(_ & X)|(_ & X)]; [injection X as <-; auto|destruct (NZ _ _ X)].
    + intros j j' k k' H H'. destruct (upd_inv_z _ _ _ _ _ _ O H) as [(X & _)|(_ & X)]; [|destruct (NZ _ _ X)].
      destruct (upd_inv_z _ _ _ _ _ _ O H') as [(X' & _)|(_ & X')]; [congruence|destruct (NZ _ _ X')].
    + intros H. destruct (W H) as (A1 & A2). lia.
  - split; [|intros [X|[]]; discriminate].
    assert (NZ : forall j k, j <> i -> nth_error (ops s) j <> Some (Zeroing k)) by (intros j k Hj J; apply Hj; eapply Z2; eauto).
    constructor; cbn [copy cnt wait sema ops waiters]; auto; try lia.
    + intros j k H. destruct (upd_inv_z _ _ _ _ _ _ O H) as [(_ & X)|(X & Y)]; [discriminate|destruct (NZ _ _ X Y)].
    + intros j j' k k' H. destruct (upd_inv_z _ _ _ _ _ _ O H) as [(_ & X)|(X & Y)]; [discriminate|destruct (NZ _ _ X Y)].
  - exfalso. destruct (Z1 _ _ O) as (A1 & A2 & _). tauto.
  - split; [|intros [X|[]]; discriminate]. constructor; cbn [copy cnt wait sema ops waiters]; auto.
    + rewrite nblk_app. cbn. lia.
    + intros [H|(j & H)]; [auto|]. apply snoc_inv in H. destruct H as [H|H]; [|discriminate]. apply W. eauto.
  - split; [|intros []]. assert (NH : ~ ((0 < sema s)%nat \/ (exists j, nth_error (waiters s) j = Some Woken))) by (intros H; apply W in H; tauto).
    constructor; cbn [copy cnt wait sema ops waiters]; auto.
    + intros i k H. destruct (Z1 _ _ H). contradiction.
    + rewrite nblk_app. cbn. lia.
    + intros [H|(j & H)]; [tauto|]. apply snoc_inv in H. destruct H as [H|H]; [|discriminate]. exfalso. apply NH. eauto.
  - split; [|intros []]. assert (A : cnt s = 0 /\ wait s = 0%nat) by (apply W; left; lia).
    constructor; cbn [copy cnt wait sema ops waiters]; auto.
    pose proof (nblk_upd _ _ _ Woken O) as U. cbn in U. lia.
  - split; [|intros [X|[]]; discriminate]. constructor; cbn [copy cnt wait sema ops waiters]; auto.
    pose proof (nblk_upd _ _ _ Returned O) as U. cbn in U. lia.
  - exfalso. destruct W as (A1 & A2); [eauto|tauto].
  - split; [|intros [X|[]]; discriminate]. constructor; auto.
Qed.

Lemma good_run : forall sched s evs, rules_kept sched -> run step init sched = Some (s, evs) -> Good s /\ ~ In EPanic evs.
Proof.
  intros sched. induction sched as [|l sched IH] using rev_ind; intros s evs R H.
  - cbn in H. injection H as <- <-. split; [|intros []]. constructor; cbn; auto; try lia.
    + intros [|i] k H; discriminate.
    + intros [|i] j k k' H; discriminate.
  - apply run_app_inv in H as (s1 & e1 & e2 & H1 & H2 & ->). apply run_one_inv in H2.
    destruct (IH s1 e1) as (G & N); auto.
    { intros b l' a s0 e0 E0 H0. eapply (R b l' (a ++ [l])); eauto. rewrite E0, <- app_assoc. reflexivity. }
    assert (O : obeys s1 l) by (eapply (R sched l []); eauto).
    destruct (good_step _ _ _ _ G O H2) as (G' & N'). split; [exact G'|].
    intros X. apply in_app_or in X. tauto.
Qed.
