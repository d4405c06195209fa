(** C73 and C74: what does hold of leases and of the attempts after a crash. *)
From Coq Require Import List String ZArith Bool Lia.
From Verif Require Import Machine MachineMore AddrModel AddrProofs LockModel LockSpec LockProofs.
Import ListNotations.
Open Scope string_scope.
Open Scope list_scope.
Open Scope Z_scope.

Lemma step_time s l s' e : step s l = Some (s', e) -> now s <= now s'.
Proof.
  destruct l as [d|tok v|t|t|k dl|k|t|t|t|t|tok v|tok v ex]; cbn [step]; intros H.
  - destruct (Z.ltb_spec 0 d); [|discriminate]. injection H as <- _. cbn. lia.
  - destruct (String.eqb tok ""); injection H as <- _; cbn; lia.
  - destruct (nth_error (calls s) t) as [c|]; [|discriminate]. destruct (c_pc c); try discriminate. injection H as <- _. cbn. lia.
  - destruct (nth_error (calls s) t) as [c|]; [|discriminate]. destruct (c_pc c); try discriminate. injection H as <- _. cbn. lia.
  - destruct (nth_error (flight s) k) as [[t i]|]; [|discriminate]. destruct (nth_error (calls s) t); [|discriminate]. injection H as <- _. cbn. lia.
  - destruct (nth_error (flight s) k) as [[t i]|]; [|discriminate]. injection H as <- _. cbn. lia.
  - destruct (nth_error (calls s) t) as [c|]; [|discriminate]. destruct (c_pc c) as [| |i sent [|]| | | |]; try discriminate; injection H as <- _; cbn; lia.
  - destruct (nth_error (calls s) t) as [c|]; [|discriminate]. destruct (c_pc c); try discriminate; injection H as <- _; cbn; lia.
  - destruct (nth_error (calls s) t) as [c|]; [|discriminate]. destruct (c_pc c); try discriminate. destruct (until <=? now s); [|discriminate]. destruct (Nat.ltb (S i) Tries); injection H as <- _; cbn; lia.
  - destruct (nth_error (calls s) t) as [c|]; [|discriminate]. injection H as <- _. cbn. lia.
  - destruct (String.eqb v ""); [injection H as <- _; lia|]. destruct (del_script s tok v). injection H as <- _. cbn. lia.
  - destruct (String.eqb v ""); [injection H as <- _; lia|]. destruct ex; injection H as <- _; cbn; lia.
Qed.
(** A grant happens in the step of the server that finds no live key. *)
Lemma grant_step s l s' e tok v x : step s l = Some (s', e) -> In (EGrant tok v x) e -> e = [EGrant tok v x] /\ x = now s /\ live s tok = None /\ aget tok (db s') = Some (v, x + Expiry) /\ now s' = now s.
Proof.
  destruct l as [d|tk w|t|t|k dl|k|t|t|t|t|tk w|tk w ex]; cbn [step]; intros H I.
  all: try (destruct (nth_error (calls s) t) as [c|]; [|discriminate]).
  - destruct (0 <? d); [|discriminate]. injection H as _ <-. destruct I.
  - destruct (String.eqb tk ""); injection H as _ <-; cbn in I; intuition discriminate.
  - destruct (c_pc c); try discriminate. injection H as _ <-. cbn in I. intuition discriminate.
  - destruct (c_pc c); try discriminate. injection H as _ <-. destruct I.
  - destruct (nth_error (flight s) k) as [[t i]|]; [|discriminate]. destruct (nth_error (calls s) t) as [c|]; [|discriminate]. injection H as <- <-.
    destruct (live s (c_tok c)) eqn:L; [destruct I|]. destruct I as [I|[]]. injection I as <- <- <-. cbn [now db]. rewrite aget_aset, String.eqb_refl. auto.
  - destruct (nth_error (flight s) k) as [[t i]|]; [|discriminate]. injection H as _ <-. destruct I.
  - destruct (c_pc c) as [| |i sent [|]| | | |]; try discriminate; injection H as _ <-; cbn in I; intuition discriminate.
  - destruct (c_pc c); try discriminate; injection H as _ <-; destruct I.
  - destruct (c_pc c); try discriminate. destruct (until <=? now s); [|discriminate]. destruct (Nat.ltb (S i) Tries); injection H as _ <-; cbn in I; intuition discriminate.
  - injection H as _ <-. destruct I.
  - destruct (String.eqb w ""); [injection H as _ <-|destruct (del_script s tk w); injection H as _ <-]; cbn in I; intuition discriminate.
  - destruct (String.eqb w ""); [injection H as _ <-|destruct ex; injection H as _ <-]; cbn in I; intuition discriminate.
Qed.
(** Within its lease a key stays unless it is unlocked. *)
Lemma key_step s l s' e tok v X : step s l = Some (s', e) -> aget tok (db s) = Some (v, X) -> now s <= X -> ~ In (EUnlock tok v) e -> aget tok (db s') = Some (v, X).
Proof.
  destruct l as [d|tk w|t|t|k dl|k|t|t|t|t|tk w|tk w ex]; cbn [step]; intros H A N U.
  all: try (destruct (nth_error (calls s) t) as [c|]; [|discriminate]).
  - destruct (0 <? d); [|discriminate]. injection H as <- _. exact A.
  - destruct (String.eqb tk ""); injection H as <- _; exact A.
  - destruct (c_pc c); try discriminate. injection H as <- _. exact A.
  - destruct (c_pc c); try discriminate. injection H as <- _. exact A.
  - destruct (nth_error (flight s) k) as [[t i]|]; [|discriminate]. destruct (nth_error (calls s) t) as [c|]; [|discriminate]. injection H as <- _. cbn [db].
    destruct (live s (c_tok c)) eqn:L; [exact A|]. rewrite aget_aset. destruct (String.eqb_spec tok (c_tok c)) as [->|]; [|exact A]. unfold live in L. rewrite A in L. destruct (Z.ltb_spec X (now s)); [lia|discriminate].
  - destruct (nth_error (flight s) k) as [[t i]|]; [|discriminate]. injection H as <- _. exact A.
  - destruct (c_pc c) as [| |i sent [|]| | | |]; try discriminate; injection H as <- _; exact A.
  - destruct (c_pc c); try discriminate; injection H as <- _; exact A.
  - destruct (c_pc c); try discriminate. destruct (until <=? now s); [|discriminate]. destruct (Nat.ltb (S i) Tries); injection H as <- _; exact A.
  - injection H as <- _. exact A.
  - destruct (String.eqb w ""); [injection H as <- _; exact A|]. destruct (del_script s tk w) as [d0 ok] eqn:D. injection H as <- <-. cbn [db]. replace d0 with (fst (del_script s tk w)) by (rewrite D; reflexivity). apply del_other; auto. destruct (String.string_dec tok tk) as [->|]; [|auto]. right. intros ->. apply U. left. reflexivity.
  - destruct (String.eqb w ""); [injection H as <- _; exact A|]. destruct ex; injection H as <- <-; [|exact A]. cbn [db]. apply del_other; auto. destruct (String.string_dec tok tk) as [->|]; [|auto]. right. intros ->. apply U. left. reflexivity.
Qed.
Lemma keep tok v X : forall sched s s' evs, run step s sched = Some (s', evs) -> X < now s \/ aget tok (db s) = Some (v, X) -> ~ In (EUnlock tok v) evs -> forall v' x', In (EGrant tok v' x') evs -> X < x'.
Proof.
  induction sched as [|l sched IH]; intros s s' evs H K U v' x' I; [injection H as <- <-; destruct I|].
  change (l :: sched) with ([l] ++ sched) in H. apply run_app_inv in H as (t & e1 & e2 & H1 & H2 & ->). apply run_one_inv in H1. rewrite in_app_iff in U.
  assert (K' : X < now t \/ aget tok (db t) = Some (v, X)).
  { pose proof (step_time _ _ _ _ H1). destruct K as [K|K]; [left; lia|]. destruct (Z.lt_ge_cases X (now s)); [left; lia|]. right. eapply key_step; eauto. }
  apply in_app_iff in I as [I|I].
  - destruct (grant_step _ _ _ _ _ _ _ H1 I) as (_ & -> & L & _). destruct K as [K|K]; [exact K|]. unfold live in L. rewrite K in L. destruct (Z.ltb_spec X (now s)); [assumption|discriminate].
  - eapply (IH t); eauto.
Qed.

(** C73.  What holds of it: a lock that was granted and not unlocked is not granted again, to anyone,
    before ten seconds have passed. *)
Theorem C73_grants_partial : forall sched s evs a tok v x b v' x' c, run step init sched = Some (s, evs) -> evs = a ++ EGrant tok v x :: b ++ EGrant tok v' x' :: c -> ~ In (EUnlock tok v) b -> x + 10000 < x'.
Proof.
  intros sched s evs a tok v x b v' x' c H E U. destruct (run_split _ _ _ _ _ _ _ _ H E) as (p & l & q & t & t' & e1 & p1 & q1 & e2 & _ & _ & St & R & _ & P).
  assert (In (EGrant tok v x) (p1 ++ EGrant tok v x :: q1)) as I by apply in_elt. destruct (grant_step _ _ _ _ _ _ _ St I) as (Eq & -> & _ & A & _). symmetry in Eq. apply in_single in Eq as (-> & -> & _). cbn in P. symmetry in P.
  destruct (run_split _ _ _ _ _ _ _ _ R P) as (p' & l' & q' & u & u' & f1 & p1 & q1 & f2 & _ & R1 & St' & _ & -> & _).
  assert (In (EGrant tok v' x') (p1 ++ EGrant tok v' x' :: q1)) as I' by apply in_elt. destruct (grant_step _ _ _ _ _ _ _ St' I') as (Eq & -> & _). symmetry in Eq. apply in_single in Eq as (-> & -> & _). rewrite app_nil_r in U.
  change 10000 with Expiry. assert (R2 : run step t' (p' ++ [l']) = Some (u', f1 ++ [EGrant tok v' (now u)])) by (eapply run_app; [exact R1|cbn in *; rewrite St'; reflexivity]).
  eapply (keep tok v (now t + Expiry) _ _ _ _ R2); [right; exact A| |apply in_elt]. rewrite in_app_iff. intros [X|[X|[]]]; [exact (U X)|discriminate X].
Qed.
Print Assumptions C73_grants_partial.
Example C73_grants_case : exists s evs, run step init [LLock "n1" "v1"; LSend 0; LExec 0 true; LRecv 0; LTick 10001; LLock "n1" "v2"; LSend 1; LExec 0 true; LRecv 1] = Some (s, evs) /\
  evs = [ELock 0 "n1" "v1"; ESend 0] ++ EGrant "n1" "v1" 0 :: [EGot 0; ELock 1 "n1" "v2"; ESend 1] ++ EGrant "n1" "v2" 10001 :: [EGot 1].
Proof. do 2 eexists. split; [vm_compute; reflexivity|reflexivity]. Qed.

(** The attempts of a call that began at [T]. *)
Definition paced (T : Z) (n : Z) (p : pc) : Prop :=
  match p with
  | Try i => T + 700 * Z.of_nat i <= n
  | Wait i x | Ans i x _ => T + 700 * Z.of_nat i <= x /\ x <= n
  | Sleep i u => T + 700 * (Z.of_nat i + 1) <= u
  | _ => True
  end.
Definition Paced (T : Z) (t : nat) (tok v : string) (s : state) : Prop := exists p, nth_error (calls s) t = Some (mkCall tok v p) /\ paced T (now s) p.
Lemma paced_later T n m p : paced T n p -> n <= m -> paced T m p.
Proof. destruct p; cbn; intros; intuition lia. Qed.
Lemma paced_set T t tok v s u c p' d f n : Paced T t tok v s -> nth_error (calls s) u = Some c -> now s <= n -> (u = t -> paced T (now s) (c_pc c) -> paced T n p') -> Paced T t tok v (mkState n d (upd (calls s) u (mkCall (c_tok c) (c_val c) p')) f).
Proof.
  intros (p & Hp & P) Hc L K. destruct (Nat.eq_dec u t) as [->|D].
  - rewrite Hp in Hc. injection Hc as <-. exists p'. cbn [calls now c_tok c_val]. split; [rewrite nth_upd by (apply nth_error_Some; congruence); rewrite Nat.eqb_refl; reflexivity|]. apply K; auto.
  - exists p. cbn [calls now]. split; [rewrite nth_upd by (apply nth_error_Some; congruence); rewrite (proj2 (Nat.eqb_neq u t) D); exact Hp|]. eapply paced_later; eauto.
Qed.
Lemma paced_same T t tok v s d f n : Paced T t tok v s -> now s <= n -> Paced T t tok v (mkState n d (calls s) f).
Proof. intros (p & Hp & P) L. exists p. split; [exact Hp|]. eapply paced_later; eauto. Qed.
Lemma paced_step T t tok v s l s' e : Paced T t tok v s -> step s l = Some (s', e) -> Paced T t tok v s'.
Proof.
  intros Q H. destruct l as [d|tk w|u|u|k dl|k|u|u|u|u|tk w|tk w ex]; cbn [step] in H.
  all: try (destruct (nth_error (calls s) u) as [c|] eqn:Hc; [|discriminate]).
  - destruct (Z.ltb_spec 0 d); [|discriminate]. injection H as <- _. apply paced_same; [exact Q|lia].
  - assert (G : forall p, Paced T t tok v (with_calls s (calls s ++ [mkCall tk w p]))).
    { intros p. destruct Q as (q & Hq & P). exists q. split; [|exact P]. cbn [calls with_calls]. rewrite nth_error_app1; [exact Hq|]. apply nth_error_Some. congruence. }
    destruct (String.eqb tk ""); injection H as <- _; apply G.
  - destruct (c_pc c) eqn:Hp; try discriminate. injection H as <- _. eapply paced_set; eauto; [lia|]. rewrite Hp. unfold paced. lia.
  - destruct (c_pc c) eqn:Hp; try discriminate. injection H as <- _. apply paced_same; [exact Q|lia].
  - destruct (nth_error (flight s) k) as [[u i]|]; [|discriminate]. destruct (nth_error (calls s) u) as [c|] eqn:Hc; [|discriminate]. injection H as <- _.
    destruct (c_pc c) as [|j sent| | | | |] eqn:Hp; try (apply paced_same; [exact Q|lia]). destruct (dl && Nat.eqb i j) eqn:D; [|apply paced_same; [exact Q|lia]]. apply andb_prop in D as [_ D]. apply Nat.eqb_eq in D. subst j. eapply paced_set; eauto; [lia|]. rewrite Hp. unfold paced. auto.
  - destruct (nth_error (flight s) k) as [[u i]|]; [|discriminate]. injection H as <- _. apply paced_same; [exact Q|lia].
  - destruct (c_pc c) as [| |i sent [|]| | | |] eqn:Hp; try discriminate; injection H as <- _; unfold with_calls, set_pc; eapply paced_set; eauto; try lia; rewrite Hp; unfold paced; auto. unfold Delay. lia.
  - destruct (c_pc c) eqn:Hp; try discriminate; injection H as <- _; unfold with_calls, set_pc; eapply paced_set; eauto; try lia; rewrite Hp; unfold paced, Delay; lia.
  - destruct (c_pc c) eqn:Hp; try discriminate. destruct (Z.leb_spec until (now s)); [|discriminate]. destruct (Nat.ltb (S i) Tries); injection H as <- _; unfold with_calls, set_pc; eapply paced_set; eauto; try lia; rewrite Hp; unfold paced; [|auto]. lia.
  - injection H as <- _. unfold with_calls, set_pc. eapply paced_set; eauto; [lia|]. cbn. auto.
  - destruct (String.eqb w ""); [injection H as <- _; exact Q|]. destruct (del_script s tk w). injection H as <- _. apply paced_same; [exact Q|lia].
  - destruct (String.eqb w ""); [injection H as <- _; exact Q|]. destruct ex; injection H as <- _; [|exact Q]. apply paced_same; [exact Q|lia].
Qed.
Lemma paced_run T t tok v : forall sched s s' evs, run step s sched = Some (s', evs) -> Paced T t tok v s -> Paced T t tok v s'.
Proof.
  induction sched as [|l sched IH]; intros s s' evs H Q; [injection H as <- _; exact Q|].
  change (l :: sched) with ([l] ++ sched) in H. apply run_app_inv in H as (m & e1 & e2 & H1 & H2 & _). apply run_one_inv in H1. eapply IH; [exact H2|]. eapply paced_step; eauto.
Qed.

(** C74.  What holds of it: a Lock that begins no earlier than 2.1 seconds before the end of the last
    lease gets the lock at its fourth attempt at the latest, when that request arrives and is answered. *)
Theorem C74_late_enough_partial : forall pre s0 e0 tok v post s1 e1 k sent,
  run step init pre = Some (s0, e0) -> tok <> "" -> run step s0 (LLock tok v :: post) = Some (s1, e1) ->
  let t := List.length (calls s0) in
  nth_error (calls s1) t = Some (mkCall tok v (Wait 3 sent)) -> nth_error (flight s1) k = Some (t, 3%nat) ->
  (forall w x, In (EGrant tok w x) (e0 ++ e1) -> x + 10000 < now s0 + 2100) ->
  exists s2 e2, run step s1 [LExec k true; LRecv t] = Some (s2, e2) /\ In (EGot t) e2 /\ live s2 tok = Some v.
Proof.
  intros pre s0 e0 tok v post s1 e1 k sent H0 Hne H1 t Hc Hf Hg.
  assert (Q : Paced (now s0) t tok v s1).
  { change (LLock tok v :: post) with ([LLock tok v] ++ post) in H1. apply run_app_inv in H1 as (m & f1 & f2 & A & B & _). apply run_one_inv in A. eapply paced_run; [exact B|]. cbn in A. destruct (String.eqb_spec tok ""); [contradiction|]. injection A as <- _. exists (Try 0). cbn [calls with_calls now]. split; [rewrite nth_error_app2, PeanoNat.Nat.sub_diag by (unfold t; lia); reflexivity|]. unfold paced. lia. }
  destruct Q as (p & Hp & P). rewrite Hc in Hp. injection Hp as <-. unfold paced in P.
  assert (R : run step init (pre ++ LLock tok v :: post) = Some (s1, e0 ++ e1)) by (eapply run_app; eauto).
  destruct (free_after_lease _ _ _ k true t 3 _ R Hf Hc) as (s2 & St & L); [cbn [c_tok]; intros w x I; specialize (Hg w x I); unfold Expiry; lia|]. cbn [c_tok c_val] in *.
  assert (A : nth_error (calls s2) t = Some (mkCall tok v (Ans 3 sent true))).
  { cbn [step] in St. rewrite Hf, Hc in St. cbn [c_pc c_tok c_val] in St. destruct (live s1 tok); [discriminate|]. injection St as <-. cbn [calls andb Nat.eqb]. unfold set_pc. cbn [c_tok c_val]. rewrite nth_upd by (apply nth_error_Some; congruence). rewrite PeanoNat.Nat.eqb_refl. reflexivity. }
  cbn [run]. rewrite St. cbn [step]. rewrite A. cbn [c_pc]. eexists _, _. split; [reflexivity|]. split; [right; left; reflexivity|]. exact L.
Qed.
Print Assumptions C74_late_enough_partial.
Example C74_late_enough_case : exists s0 e0 s1 e1, run step init [LLock "n1" "v1"; LSend 0; LExec 0 true; LRecv 0; LCrash 0; LTick 7901] = Some (s0, e0) /\
  run step s0 (LLock "n1" "v2" :: [LSend 1; LExec 0 true; LRecv 1; LTick 700; LWake 1; LSend 1; LExec 0 true; LRecv 1; LTick 700; LWake 1; LSend 1; LExec 0 true; LRecv 1; LTick 700; LWake 1; LSend 1]) = Some (s1, e1) /\
  nth_error (calls s1) 1 = Some (mkCall "n1" "v2" (Wait 3 10001)) /\ nth_error (flight s1) 0 = Some (1%nat, 3%nat) /\ filter (fun e => match e with EGrant _ _ _ => true | _ => false end) (e0 ++ e1) = [EGrant "n1" "v1" 0].
Proof. do 4 eexists. split; [vm_compute; reflexivity|]. split; [vm_compute; reflexivity|]. repeat split. Qed.
