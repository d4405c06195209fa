(** Proofs about the continuations of re-entrant calls: each runs, and once. *)
From Coq Require Import List Arith Bool Lia.
From Verif Require Import Machine ClientProofs ReenterModel ReenterSpec ReenterProofs.
Import ListNotations.

Fixpoint sumw {A} (g : A -> nat) (l : list A) : nat := match l with [] => 0 | x :: r => g x + sumw g r end.
Lemma sumw_app {A} (g : A -> nat) a b : sumw g (a ++ b) = sumw g a + sumw g b.
Proof. induction a as [|x a IH]; cbn; [reflexivity|lia]. Qed.
Lemma sumw_upd {A} (g : A -> nat) l : forall i x y, nth_error l i = Some x -> sumw g (upd l i y) + g x = sumw g l + g y.
Proof. induction l as [|a l IH]; intros [|i] x y H; try discriminate; cbn in *; [injection H as ->; lia|]. specialize (IH _ _ y H). lia. Qed.
Lemma sumw_pos {A} (g : A -> nat) l : 0 < sumw g l -> exists i x, nth_error l i = Some x /\ 0 < g x.
Proof.
  induction l as [|a l IH]; cbn; [lia|]. intros H. destruct (Nat.eq_dec (g a) 0) as [E|E]; [|exists 0, a; cbn; split; [reflexivity|lia]].
  destruct IH as (i & x & A1 & A2); [lia|]. exists (S i), x. auto.
Qed.
Lemma sumw_nth {A} (g : A -> nat) l : forall i x, nth_error l i = Some x -> g x <= sumw g l.
Proof. induction l as [|a l IH]; intros [|i] x H; try discriminate; cbn in *; [injection H as ->; lia|]. specialize (IH _ _ H). lia. Qed.
Lemma sumw_map {A B} (g : B -> nat) (f : A -> B) l : sumw g (map f l) = sumw (fun x => g (f x)) l.
Proof. induction l; cbn; congruence. Qed.
Lemma sumw_ext {A} (g h : A -> nat) l : (forall x, g x = h x) -> sumw g l = sumw h l.
Proof. intros H. induction l; cbn; congruence. Qed.

Definition eq1 (k j : nat) : nat := if j =? k then 1 else 0.
Definition nthen (k : nat) (evs : list event) : nat := sumw (fun e => match e with EThen _ j => eq1 k j | _ => 0 end) evs.
Definition nstart (k : nat) (evs : list event) : nat := sumw (fun e => match e with EStart j _ => eq1 k j | _ => 0 end) evs.
Definition held (k : nat) (cs : list call) : nat := sumw (fun x => sumw (eq1 k) (ucbs x)) cs.
Definition as_task (k : nat) (ts : list task) : nat := sumw (fun x => eq1 k (tcb x)) ts.
Definition begun (k : nat) (ts : list task) : nat := sumw (fun x => match tst x with Spawned => 0 | _ => eq1 k (tcb x) end) ts.

Definition N (evs : list event) (s : state) : Prop :=
  (forall k, nthen k evs = held k (calls s) + as_task k (tasks s) /\ nstart k evs = begun k (tasks s) /\ nthen k evs = (if k <? ncb s then 1 else 0)) /\
  (forall t x, nth_error (tasks s) t = Some x -> tst x <> Spawned -> In (EStart (tcb x) (targ x)) evs) /\
  (forall c x, nth_error (calls s) c = Some x -> rf x <> None -> ucbs x = []).

Lemma N_step evs s l s' e : N evs s -> step s l = Some (s', e) -> N (evs ++ e) s'.
Proof.
  intros (A & B & C) H. unfold N. split; [|split].
  - intros k. destruct (A k) as (A1 & A2 & A3). unfold nthen, nstart, held, as_task, begun in *. rewrite !sumw_app.
    destruct l as [|u|u|u|u o|u|u|u|u|u| | | | | |u|u|u|u]; inv_step H; injection H as <- <-; cbn [calls tasks ncb set with_loop sumw].
    all: rewrite ?sumw_app; cbn [sumw ucbs app]; try (repeat split; lia).
    all: try (match goal with |- context [sumw ?g (upd (calls _) ?i ?y)] => pose proof (sumw_upd g _ _ _ y En) as U; cbn [ucbs] in U; rewrite ?sumw_app in U; cbn [sumw] in U end).
    all: try (match goal with |- context [map ?f (ucbs ?x)] => rewrite !(sumw_map _ f); cbn [tst tcb ucbs] in *; rewrite ?(sumw_ext (fun _ => 0) (fun _ => 0)) in * by reflexivity;
       assert (Z : sumw (fun _ : nat => 0) (ucbs x) = 0) by (clear; induction (ucbs x); auto); rewrite ?Z end).
    all: try (repeat split; lia).
    all: try (match goal with |- context [sumw (fun j : nat => eq1 ?k0 j) ?l] => change (sumw (fun j : nat => eq1 k0 j) l) with (sumw (eq1 k0) l) end; repeat split; lia).
    all: cbn [tcb tst] in *.
    all: try (repeat match goal with |- context [sumw ?g (upd (tasks ?s0) ?i ?y)] => lazymatch goal with Q : sumw g (upd (tasks s0) i y) + _ = _ |- _ => fail | _ => pose proof (sumw_upd g _ _ _ y En) end end; cbn [tcb tst] in *; rewrite ?Et in *).
    all: try (repeat split; lia).
    all: assert (F : (if k <? S (ncb s) then 1 else 0) = (if k <? ncb s then 1 else 0) + eq1 k (ncb s)) by (unfold eq1; destruct (Nat.ltb_spec k (S (ncb s))), (Nat.ltb_spec k (ncb s)), (Nat.eqb_spec (ncb s) k); lia).
    all: repeat split; lia.
  - intros t x Hx Ht. rewrite in_app_iff. assert (Hold : nth_error (tasks s) t = Some x -> In (EStart (tcb x) (targ x)) evs \/ In (EStart (tcb x) (targ x)) e) by (intros Y; left; eauto).
    destruct l as [|u|u|u|u o|u|u|u|u|u| | | | | |u|u|u|u]; inv_step H; injection H as <- <-; cbn [tasks set with_loop] in Hx; try (exact (Hold Hx)).
    all: try (destruct (Nat.lt_ge_cases t (length (tasks s))) as [Hl|Hl]; [rewrite nth_error_app1 in Hx by exact Hl; exact (Hold Hx)|];
      rewrite nth_error_app2 in Hx by exact Hl; apply nth_error_In in Hx; try (apply in_map_iff in Hx as (k & <- & Hk)); try (destruct Hx as [<-|[]]); cbn in Ht; congruence).
    all: apply upd_inv in Hx as [[-> ->]|[_ Hx]]; [|exact (Hold Hx)]; cbn; first [right; left; reflexivity|left; apply (B _ _ En); congruence].
  - intros c x Hx Hr. destruct l as [|u|u|u|u o|u|u|u|u|u| | | | | |u|u|u|u]; inv_step H; injection H as <- <-; cbn [calls set with_loop] in Hx; try (exact (C _ _ Hx Hr)).
    all: try (apply snoc_inv in Hx as [Hx|[-> ->]]; [exact (C _ _ Hx Hr)|reflexivity]).
    all: apply upd_inv in Hx as [[-> ->]|[_ Hx]]; [|exact (C _ _ Hx Hr)]; cbn in *; try reflexivity; try congruence; try (apply (C _ _ En); congruence).
Qed.
Lemma reach_N sched s evs : run step init sched = Some (s, evs) -> N evs s.
Proof.
  apply (run_inv step init (fun _ evs s => N evs s)).
  - split; [intros k; repeat split; reflexivity|]. split; intros c x X; destruct c; discriminate.
  - intros ? ? ? ? ? ? _. apply N_step.
Qed.
Lemma start_once sched s evs k : run step init sched = Some (s, evs) -> nstart k evs <= 1.
Proof.
  intros H. destruct (reach_N _ _ _ H) as (A & _). destruct (A k) as (A1 & A2 & A3). unfold as_task, begun in *.
  assert (L : forall ts, sumw (fun x => match tst x with Spawned => 0 | _ => eq1 k (tcb x) end) ts <= sumw (fun x => eq1 k (tcb x)) ts) by (clear; induction ts as [|x ts IH]; cbn; [lia|]; destruct (tst x); lia).
  specialize (L (tasks s)). destruct (k <? ncb s); lia.
Qed.
Lemma nthen_in k evs c : In (EThen c k) evs -> 0 < nthen k evs.
Proof. unfold nthen. induction evs as [|e r IH]; [intros []|]. intros [->|X]; cbn; [unfold eq1; rewrite Nat.eqb_refl; lia|]. specialize (IH X). lia. Qed.
Lemma continuation_runs sched s evs c k v : run step init sched = Some (s, evs) -> crashed s = false -> In (EThen c k) evs -> In (EResolve c v) evs ->
  In (EStart k v) evs \/ exists t s', step s (LStart t) = Some (s', [EStart k v]).
Proof.
  intros H Hc Ht Hr. destruct (reach_N _ _ _ H) as (A & B & C). destruct (A k) as (A1 & A2 & A3). pose proof (nthen_in _ _ _ Ht) as Hp.
  destruct (reach _ _ _ H) as (_ & HH). destruct (reach_T _ _ _ H) as (T1 & T2 & T3 & T4 & T5).
  destruct (Nat.eq_dec (as_task k (tasks s)) 0) as [E|E].
  - exfalso. destruct (sumw_pos (fun x => sumw (eq1 k) (ucbs x)) (calls s)) as (d & x & Hx & G); [unfold held in A1; lia|].
    apply sumw_pos in G as (j & y & Hy & G). unfold eq1 in G. destruct (Nat.eqb_spec y k) as [->|]; [|lia]. apply nth_error_In in Hy.
    pose proof (T1 _ _ _ Hx Hy) as X. rewrite (T4 _ _ _ X Ht) in Hx. destruct (HH c) as (_ & _ & R & R2 & _). rewrite (getc_some _ _ _ Hx) in R, R2.
    rewrite (C _ _ Hx) in Hy; [destruct Hy|]. pose proof (nres_in _ _ _ Hr). intros Q. rewrite Q in R2. lia.
  - destruct (sumw_pos (fun x => eq1 k (tcb x)) (tasks s)) as (t & x & Hx & G); [unfold as_task in E; lia|]. unfold eq1 in G. destruct (Nat.eqb_spec (tcb x) k) as [<-|]; [|lia].
    destruct (T2 _ _ Hx) as (d & D1 & D2). rewrite (T4 _ _ _ D1 Ht) in D2. rewrite (same_value _ _ _ _ _ _ H Hr D2) in *.
    destruct (tst x) eqn:Et; [right|left; apply (B _ _ Hx); congruence|left; apply (B _ _ Hx); congruence].
    exists t. eexists. unfold step. rewrite Hc, Hx, Et. reflexivity.
Qed.
Lemma starts_nstart k evs : starts k evs = nstart k evs.
Proof. unfold starts, nstart. induction evs as [|e r IH]; [reflexivity|]. cbn. destruct e; auto. unfold eq1. destruct (_ =? _); cbn; rewrite IH; reflexivity. Qed.
