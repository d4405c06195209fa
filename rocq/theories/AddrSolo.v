(** One operation running while nothing else does. *)
From Coq Require Import List String ZArith Bool Permutation Lia.
From Verif Require Import Machine AddrModel AddrSpec AddrProofs AddrInv AddrRun AddrFacts AddrCrash.
Import ListNotations.
Open Scope string_scope.
Open Scope list_scope.

Lemma nth_upd_same {A} (l : list A) t x y : nth_error l t = Some y -> nth_error (upd l t x) t = Some x.
Proof. revert t. induction l as [|a l IH]; intros [|t] H; cbn in *; try discriminate; auto. Qed.

Lemma solo t n o k : forall s cs s' e, nth_error (threads s) t = Some (mkThread n o (Some cs)) ->
  run step s (repeat (LCmd t) k) = Some (s', e) ->
  st s' = apply_all (st s) (firstn k cs) /\ k <= List.length cs /\ procs s' = procs s /\ e = [] /\
  nth_error (threads s') t = Some (mkThread n o (Some (skipn k cs))) /\ List.length (threads s') = List.length (threads s).
Proof.
  induction k as [|k IH]; intros s cs s' e Ht H; cbn [repeat run] in H.
  - injection H as <- <-. cbn. repeat split; auto. lia.
  - cbn [step] in H. rewrite Ht in H. destruct cs as [|c cs]; [discriminate|].
    match type of H with context [run step ?x _] => set (s1 := x) in * end.
    destruct (run step s1 (repeat (LCmd t) k)) as [[z f]|] eqn:E; [|discriminate]. injection H as <- <-.
    apply (IH s1 cs) in E as (A & B & C & D & F & G).
    + rewrite A, C, D, F, G. cbn. repeat split; auto; [lia|]. now rewrite upd_length.
    + unfold s1. cbn. eapply nth_upd_same; eauto.
Qed.

(** Starting an operation and running [k] of its commands. *)
Definition start_and (l : label) (s : state) (k : nat) : list label := l :: repeat (LCmd (List.length (threads s))) k.

Lemma solo_start s l n o cs e0 k s' e : step s l = Some (spawn s (mkThread n o (Some cs)), e0) ->
  run step s (start_and l s k) = Some (s', e) ->
  st s' = apply_all (st s) (firstn k cs) /\ k <= List.length cs /\ procs s' = procs s /\ e = e0 /\
  nth_error (threads s') (List.length (threads s)) = Some (mkThread n o (Some (skipn k cs))) /\
  List.length (threads s') = S (List.length (threads s)).
Proof.
  intros Hl H. unfold start_and in H. cbn [run] in H. rewrite Hl in H.
  destruct (run step (spawn s _) (repeat _ k)) as [[z f]|] eqn:E; [|discriminate]. injection H as <- <-.
  apply (solo _ n o k _ cs) in E as (A & B & C & D & F & G).
  - subst f. rewrite app_nil_r. repeat split; auto. rewrite G. unfold spawn. cbn. rewrite app_length. cbn. lia.
  - unfold spawn. cbn. rewrite nth_error_app2 by lia. now rewrite Nat.sub_diag.
Qed.

Lemma run_snoc s sched l s' e : run step s (sched ++ [l]) = Some (s', e) ->
  exists s1 e1 e2, run step s sched = Some (s1, e1) /\ step s1 l = Some (s', e2) /\ e = e1 ++ e2.
Proof.
  revert s e. induction sched as [|x sched IH]; intros s e H; cbn [app run] in *.
  - destruct (step s l) as [[z f]|] eqn:E; [|discriminate]. injection H as <- <-.
    exists s, [], f. rewrite app_nil_r. auto.
  - destruct (step s x) as [[z f]|]; [|discriminate]. destruct (run step z (sched ++ [l])) as [[y g]|] eqn:E; [|discriminate].
    injection H as <- <-. apply IH in E as (s1 & e1 & e2 & A & B & ->). rewrite A. exists s1, (f ++ e1), e2.
    rewrite app_assoc. auto.
Qed.
Lemma run_app s a b s' e : run step s (a ++ b) = Some (s', e) ->
  exists s1 e1 e2, run step s a = Some (s1, e1) /\ run step s1 b = Some (s', e2) /\ e = e1 ++ e2.
Proof.
  revert s e. induction a as [|x a IH]; intros s e H; cbn [app run] in *.
  - exists s, [], e. auto.
  - destruct (step s x) as [[z f]|]; [|discriminate]. destruct (run step z (a ++ b)) as [[y g]|] eqn:E; [|discriminate].
    injection H as <- <-. apply IH in E as (s1 & e1 & e2 & A & B & ->). rewrite A. exists s1, (f ++ e1), e2.
    rewrite app_assoc. auto.
Qed.

(** A Clear from beginning to end. *)
Definition full_clear (n : string) (s : state) (k : nat) : list label :=
  start_and (LClear n) s k ++ [LRet (List.length (threads s))].
Lemma clear_store s n k s' e : run step s (full_clear n s k) = Some (s', e) ->
  st s' = apply_all (st s) (clear_cmds n (st s)).
Proof.
  intros H. unfold full_clear in H. apply run_snoc in H as (s1 & e1 & e2 & A & B & _).
  assert (Hp : exists p, aget n (procs s) = Some p).
  { unfold start_and in A. cbn [run step] in A. destruct (aget n (procs s)) as [p|]; [eauto|discriminate]. }
  destruct Hp as [p Hp].
  assert (Hs : step s (LClear n) = Some (spawn s (mkThread n OClear (Some (clear_cmds n (st s)))), [EClear n])) by (cbn; now rewrite Hp).
  destruct (solo_start _ _ _ _ _ _ _ _ _ Hs A) as (S1 & S2 & S3 & _ & S5 & _).
  cbn [step] in B. rewrite S5 in B. destruct (skipn k (clear_cmds n (st s))) eqn:Es; [|discriminate].
  rewrite S3, Hp in B. injection B as <- <-. cbn [st].
  assert (Hk : firstn k (clear_cmds n (st s)) = clear_cmds n (st s)).
  { rewrite <- (firstn_skipn k (clear_cmds n (st s))) at 2. now rewrite Es, app_nil_r. }
  now rewrite S1, Hk.
Qed.

(** Register or Unregister cut short by a crash after [k] commands. *)
Definition cut (l : label) (n : string) (s : state) (k : nat) : list label := start_and l s k ++ [LCrash n].

Lemma cut_register s n ep ty id w k s' e : run step s (cut (LReg n ty id w) n s k) = Some (s', EReg n ep ty id w :: e) ->
  st s' = apply_all (st s) (firstn k (reg_cmds n ep ty id w)).
Proof.
  intros H. unfold cut in H. apply run_snoc in H as (s1 & e1 & e2 & A & B & Ee).
  cbn [step] in B. destruct (aget n (procs s1)) as [q1|]; [|discriminate]. injection B as <- <-. cbn [st].
  rewrite app_nil_r in Ee. subst e1.
  destruct (step s (LReg n ty id w)) as [[z f]|] eqn:El; [|unfold start_and in A; cbn [run] in A; rewrite El in A; discriminate].
  pose proof El as El'. cbn [step] in El'. destruct (aget n (procs s)) as [p|]; [|discriminate].
  destruct ((String.eqb id "" || String.eqb ty "") || existsb (String.eqb id) (p_ids p)).
  - injection El' as <- <-. exfalso. unfold start_and in A. cbn [run] in A. rewrite El in A.
    destruct (run step s (repeat _ k)) as [[z g]|]; discriminate.
  - injection El' as <- <-. destruct (solo_start _ _ _ _ _ _ _ _ _ El A) as (S1 & S2 & S3 & S4 & _).
    injection S4 as -> _. exact S1.
Qed.
Lemma cut_unregister s L r k s' e : consistent (st s) L -> In r L -> r_id r <> "" ->
  run step s (cut (LUnreg (r_node r) (r_id r) (r_w r)) (r_node r) s k) = Some (s', e) ->
  st s' = apply_all (st s) (firstn k (unreg_cmds (r_node r) (r_id r) (addr_of r) (r_w r))).
Proof.
  intros HC Hr Hne H. unfold cut in H. apply run_snoc in H as (s1 & e1 & e2 & A & B & ->).
  cbn [step] in B. destruct (aget (r_node r) (procs s1)) as [q1|]; [|discriminate]. injection B as <- <-. cbn [st].
  destruct (step s (LUnreg (r_node r) (r_id r) (r_w r))) as [[z f]|] eqn:El; [|unfold start_and in A; cbn [run] in A; rewrite El in A; discriminate].
  pose proof El as El'. cbn [step] in El'. destruct (aget (r_node r) (procs s)) as [p0|]; [|discriminate].
  destruct (String.eqb_spec (r_id r) ""); [contradiction|].
  rewrite (proj2 (c_record _ _ HC (r_id r) (addr_of r))) in El' by eauto.
  injection El' as <- <-. destruct (solo_start _ _ _ _ _ _ _ _ _ El A) as (S1 & _). exact S1.
Qed.

(** A complete Unregister, from whatever state. *)
Lemma unregister_store s n id w k s' e : run step s (start_and (LUnreg n id w) s k ++ [LRet (List.length (threads s))]) = Some (s', e) ->
  exists a, aget id (ids (st s)) = Some a /\ st s' = apply_all (st s) (unreg_cmds n id a w).
Proof.
  intros H. apply run_snoc in H as (s1 & e1 & e2 & A & B & _).
  destruct (step s (LUnreg n id w)) as [[z f]|] eqn:El; [|unfold start_and in A; cbn [run] in A; rewrite El in A; discriminate].
  pose proof El as El'. cbn [step] in El'. destruct (aget n (procs s)) as [p|] eqn:Hp; [|discriminate].
  assert (Hbad : forall f, step s (LUnreg n id w) = Some (s, f) -> False).
  { intros g Eg. unfold start_and in A. cbn [run] in A. rewrite Eg in A. destruct k as [|k].
    - cbn [repeat run] in A. injection A as <- <-. cbn [step] in B. rewrite (proj2 (nth_error_None (threads s) _)) in B by lia. discriminate.
    - cbn [repeat run step] in A. rewrite (proj2 (nth_error_None (threads s) _)) in A by lia. discriminate. }
  destruct (String.eqb id ""); [injection El' as <- <-; destruct (Hbad _ El)|].
  destruct (aget id (ids (st s))) as [a|]; [|injection El' as <- <-; destruct (Hbad _ El)].
  injection El' as <- <-. exists a. split; [reflexivity|].
  destruct (solo_start _ _ _ _ _ _ _ _ _ El A) as (S1 & S2 & S3 & _ & S5 & _).
  cbn [step] in B. rewrite S5 in B. destruct (skipn k (unreg_cmds n id a w)) eqn:Es; [|discriminate].
  rewrite S3, Hp in B. injection B as <- <-. cbn [st].
  assert (Hk : firstn k (unreg_cmds n id a w) = unreg_cmds n id a w).
  { rewrite <- (firstn_skipn k (unreg_cmds n id a w)) at 2. now rewrite Es, app_nil_r. }
  now rewrite S1, Hk.
Qed.
