(** C119-C121: the context of an actor. *)
From Coq Require Import List Arith Bool Lia.
From Verif Require Import Machine MachineMore ContextModel ContextSpec ContextProofs.
Import ListNotations.

(** ** C119: GetValue gives the value last set with WithValue *)
(** The full claim needs that no two calls of WithValue overlap. *)
Theorem C119_latest_partial : forall base sys act sched s evs, run step (init base sys act) sched = Some (s, evs) -> forall a k x b, evs = a ++ VGot k x :: b -> serial a ->
  latest base a k x /\ forall y, latest base a k y -> y = x.
Proof.
  intros base sys act sched s evs R a k x b E SE. destruct (run_split _ _ _ _ _ _ _ _ R E) as (x1 & l & y & t & t' & e1 & q1 & q2 & e2 & -> & H1 & H2 & H3 & -> & ->).
  destruct (get_step _ _ _ _ _ _ _ H2) as [-> ->]. rewrite app_nil_r in *. destruct (ser_all _ _ _ _ _ _ H1 SE) as [A _].
  split; [apply A|]. intros z Z. eapply latest_one; eauto.
Qed.
Print Assumptions C119_latest_partial.
(** With overlap too: the call that returned last is seen. *)
Theorem C119_last : forall base sys act sched s evs, run step (init base sys act) sched = Some (s, evs) -> forall a i b k v x c,
  evs = a ++ VSet i :: b ++ VGot k x :: c -> In (VWith i k v) a -> (forall j, ~ In (VSet j) b) -> x = Some v.
Proof.
  intros base sys act sched s evs R a i b k v x c E I N.
  destruct (run_split _ _ _ _ _ _ _ _ R E) as (x1 & l & y & t & t' & e1 & q1 & q2 & e2 & -> & H1 & H2 & H3 & EA & EB).
  destruct (inv_all _ _ _ _ _ _ H1) as (_ & _ & ONE & _ & P).
  assert (Q : q1 = [] /\ q2 = [] /\ value (cur t') (KUser k) = Some v).
  { remember (q1 ++ VSet i :: q2) as e eqn:Q. revert Q. moves H2; intros Q; symmetry in Q; destruct q1 as [|z [|z' q1]]; try discriminate Q; injection Q; intros; subst; try discriminate.
    rewrite app_nil_r in I. destruct (P _ _ H) as (k1 & v1 & c' & -> & _ & J). destruct (ONE _ _ _ _ _ I J) as [<- <-]. cbn [value cur]. destruct (key_eq (KUser k) (KUser k)) as [_|X]; [auto|destruct X; reflexivity]. }
  destruct Q as (-> & -> & V). cbn in EB. clear EA.
  assert (R1 : run step (init base sys act) (x1 ++ [l]) = Some (t', e1 ++ [VSet i])) by (eapply run_app; [exact H1|cbn; cbn in H2; rewrite H2; reflexivity]).
  symmetry in EB. destruct (run_split _ _ _ _ _ _ _ _ H3 EB) as (x2 & l2 & y2 & u & u' & e3 & q1 & q2 & e4 & -> & H4 & H5 & H6 & -> & ->).
  destruct (get_step _ _ _ _ _ _ _ H5) as [-> ->]. rewrite app_nil_r in N. rewrite (cur_stays _ _ _ _ _ _ _ _ _ R1 H4 N). exact V.
Qed.
Print Assumptions C119_last.
(** And what is seen was set for that key, or was there from the start. *)
Theorem C119_some : forall base sys act sched s evs, run step (init base sys act) sched = Some (s, evs) -> forall a k x b, evs = a ++ VGot k x :: b ->
  (exists i v, x = Some v /\ In (VWith i k v) a) \/ x = value base (KUser k).
Proof.
  intros base sys act sched s evs R a k x b E. destruct (run_split _ _ _ _ _ _ _ _ R E) as (x1 & l & y & t & t' & e1 & q1 & q2 & e2 & -> & H1 & H2 & H3 & -> & ->).
  destruct (get_step _ _ _ _ _ _ _ H2) as [-> ->]. rewrite app_nil_r. destruct (inv_all _ _ _ _ _ _ H1) as (A & _). destruct (value_above _ _ _ _ _ A) as (_ & _ & V).
  destruct (V k) as [(i & v & V1 & V2)|V1]; [left; exists i, v; auto|right; exact V1].
Qed.
Print Assumptions C119_some.
(** The full claim is false: of two calls for different keys that overlap, one is lost. *)
Theorem C119_refuted : exists sched s evs, run step (init [] 1 2) sched = Some (s, evs) /\ In (VWith 0 7 70) evs /\ In (VSet 0) evs /\ (forall i v, In (VWith i 7 v) evs -> i = 0) /\ exists a, evs = a ++ [VGot 7 None].
Proof.
  exists [LWith (Some 7) 70; LWith (Some 8) 80; LWrite 0; LWrite 1; LGet 7]. eexists _, _. split; [vm_compute; reflexivity|]. split; [cbn; auto|]. split; [cbn; auto|]. split; [cbn; intros i v; intuition congruence|].
  eexists [_; _; _; _]. reflexivity.
Qed.
Print Assumptions C119_refuted.
Example C119_case : exists s evs, run step (init [(KUser 3, 30)] 1 2) [LGet 3; LWith (Some 7) 70; LWrite 0; LWith (Some 3) 31; LWrite 1; LGet 7; LGet 3] = Some (s, evs) /\
  serial evs /\ evs = [VGot 3 (Some 30); VWith 0 7 70; VSet 0; VWith 1 3 31; VSet 1; VGot 7 (Some 70); VGot 3 (Some 31)].
Proof.
  eexists _, _. split; [vm_compute; reflexivity|]. split; [|reflexivity]. intros a i k v b j c E N.
  repeat (destruct a as [|? a]; cbn in E; try discriminate E; injection E; clear E; intros E; intros; subst; try discriminate);
  repeat (destruct b as [|? b]; cbn in E; try discriminate E; injection E; clear E; intros E; intros; subst; try discriminate); cbn; auto; try (destruct N; reflexivity).
Qed.

(** ** C120: the context always leads to its actor and its system *)
Theorem C120_own : forall base sys act sched s evs, run step (init base sys act) sched = Some (s, evs) ->
  (forall x, In (VSystem x) evs -> x = Some sys) /\ (forall x, In (VActor x) evs -> x = Some act).
Proof.
  intros base sys act sched s evs R. split; intros x I; apply in_split in I as (a & b & E); destruct (run_split _ _ _ _ _ _ _ _ R E) as (x1 & l & y & t & t' & e1 & q1 & q2 & e2 & -> & H1 & H2 & H3 & -> & ->);
  destruct (inv_all _ _ _ _ _ _ H1) as (A & _); destruct (value_above _ _ _ _ _ A) as (V1 & V2 & _).
  - remember (q1 ++ VSystem x :: q2) as e eqn:Q. revert Q. moves H2; intros Q; symmetry in Q; destruct q1 as [|z [|z' q1]]; try discriminate Q; injection Q; intros; subst; try discriminate. exact V1.
  - remember (q1 ++ VActor x :: q2) as e eqn:Q. revert Q. moves H2; intros Q; symmetry in Q; destruct q1 as [|z [|z' q1]]; try discriminate Q; injection Q; intros; subst; try discriminate. exact V2.
Qed.
Print Assumptions C120_own.
(** Also when Init is given the context of another actor (5 and 6). *)
Example C120_case : exists s evs, run step (init [(KActor, 5); (KSystem, 6)] 1 2) [LWith (Some 0) 9; LWith (Some 1) 8; LWrite 1; LWrite 0; LSystem; LActor] = Some (s, evs) /\ In (VSystem (Some 1)) evs /\ In (VActor (Some 2)) evs.
Proof. eexists _, _. split; [vm_compute; reflexivity|]. cbn. auto 10. Qed.

(** ** C121: reading a value does not get slower with the number of times values were set *)
(** False: every WithValue adds a layer for good; after [n] values for one key a look-up of
    another passes all of them. *)
Fixpoint again (n : nat) : list label := match n with O => [] | S m => again m ++ [LWith (Some 0) m; LWrite m] end.
Lemma again_run n : exists s evs, run step (init [] 1 2) (again n) = Some (s, evs) /\ length (pending s) = n /\ cur s = map (fun m => (KUser 0, m)) (rev (seq 0 n)) ++ [(KActor, 2); (KSystem, 1)].
Proof.
  induction n as [|n (s & evs & R & L & C)]; [eexists _, _; split; [reflexivity|split; reflexivity]|].
  assert (ST : run step s [LWith (Some 0) n; LWrite n] = Some (mkS ((KUser 0, n) :: cur s) (upd (pending s ++ [Some ((KUser 0, n) :: cur s)]) n None), [VWith (length (pending s)) 0 n; VSet n])).
  { cbn. rewrite nth_error_app2 by lia. replace (n - length (pending s)) with 0 by lia. reflexivity. }
  eexists _, _. cbn [again]. split; [eapply run_app; [exact R|exact ST]|]. cbn [pending cur]. split.
  - rewrite upd_length, app_length, L. cbn. lia.
  - rewrite seq_S, rev_app_distr, C. reflexivity.
Qed.
Theorem C121_refuted : forall n, exists sched s evs, run step (init [] 1 2) sched = Some (s, evs) /\ (forall i k v, In (VWith i k v) evs -> k = 0) /\ n < looks (cur s) KSystem.
Proof.
  intros n. destruct (again_run n) as (s & evs & R & _ & C). exists (again n), s, evs. split; [exact R|]. split.
  - clear C. revert s evs R. induction n as [|n IH]; intros s evs R i k v I; cbn [again] in R.
    + injection R as _ <-. destruct I.
    + apply run_app_inv in R as (t & e1 & e2 & R1 & R2 & ->). apply in_app_iff in I as [I|I]; [eapply IH; eauto|].
      cbn in R2. destruct (nth_error (pending t ++ [Some ((KUser 0, n) :: cur t)]) n) as [[c|]|]; try discriminate. injection R2 as _ <-. destruct I as [I|[I|[]]]; [injection I; auto|discriminate].
  - rewrite C. assert (Q : forall l, looks (map (fun m => (KUser 0, m)) l ++ [(KActor, 2); (KSystem, 1)]) KSystem = length l + 2).
    { induction l as [|z l IH]; [reflexivity|]. cbn [map app looks]. destruct (key_eq (KUser 0) KSystem); [discriminate|]. rewrite IH. reflexivity. }
    rewrite Q, rev_length, seq_length. lia.
Qed.
Print Assumptions C121_refuted.
(** What holds: the cost of a look-up is at most the number of calls of WithValue so far and
    the layers at the start. *)
Theorem C121_bound_partial : forall base sys act sched s evs, run step (init base sys act) sched = Some (s, evs) -> forall k,
  looks (cur s) k <= length (filter (fun e => match e with VWith _ _ _ => true | _ => false end) evs) + length base + 2.
Proof.
  intros base sys act sched s evs R k.
  assert (D : length (cur s) <= length (pending s) + length base + 2 /\ (forall i c, nth_error (pending s) i = Some (Some c) -> length c <= length (pending s) + length base + 2) /\
    length (pending s) = length (filter (fun e => match e with VWith _ _ _ => true | _ => false end) evs)).
  { apply (run_inv step (init base sys act) (fun _ evs s => length (cur s) <= length (pending s) + length base + 2 /\ (forall i c, nth_error (pending s) i = Some (Some c) -> length c <= length (pending s) + length base + 2) /\
    length (pending s) = length (filter (fun e => match e with VWith _ _ _ => true | _ => false end) evs))) with (sched := sched); [| |exact R].
    { split; [cbn; lia|split; [intros [|i]; discriminate|reflexivity]]. }
    clear. intros sched evs s l s' e _ (A & B & C) H. moves H; rewrite filter_app, app_length, <- C; cbn [filter length pending cur]; repeat split; rewrite ?upd_length, ?app_length; cbn [length]; try lia; auto.
    - intros i c N. apply snoc_case in N as [N|[-> N]]; [apply B in N; lia|injection N as ->; cbn; lia].
    - exact (B _ _ H0).
    - intros j c0 N. apply upd_case in N as [[_ N]|[_ N]]; [discriminate|apply B in N; lia|exact (some_lt _ _ _ H0)]. }
  destruct D as (D & _ & E). rewrite <- E. enough (looks (cur s) k <= length (cur s)) by lia.
  clear. induction (cur s) as [|[k1 v] c IH]; cbn [looks length]; [lia|]. destruct (key_eq k1 k); lia.
Qed.
Print Assumptions C121_bound_partial.
Example C121_case : exists s evs, run step (init [] 1 2) (again 3) = Some (s, evs) /\ looks (cur s) KSystem = 5.
Proof. eexists _, _. split; vm_compute; reflexivity. Qed.
