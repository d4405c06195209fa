(** Properties C35-C37, C63, C71, C72, C92 and C93: registering actors on nodes. *)
From Coq Require Import List String ZArith Bool Lia.
From Verif Require Import Machine AddrModel AddrSpec AddrProofs RegModel RegSpec RegProofs RegLimits RegLive RegSafe RegTrace.
Import ListNotations.
Open Scope string_scope.
Open Scope list_scope.

Definition fac (ty : string) : option Z := if String.eqb ty "gate" then Some 2%Z else None.
Definition gate (id : string) (limit : Z) (unique : bool) : builder := mkB id "gate" 2 limit unique true.
Definition steps (t k : nat) : list label := repeat (LStep t) k.

Ltac in_list := first [left; reflexivity | right; in_list].

(** ** C35 *)
(** False when two Register calls with one id overlap on a node: both pass the two
    checks before either is recorded, both succeed, and two actors with that id run. *)
Definition dup_sched : list label :=
  [LStart "A" 1; LReg "A" (gate "g1" 0 false); LReg "A" (gate "g1" 0 false)] ++ steps 0 2 ++ steps 1 2 ++ steps 0 8 ++ steps 1 8.
Theorem C35_one_actor_per_id_refuted : exists sched s evs,
  run (step fac) init sched = Some (s, evs) /\ In (EOk 0) evs /\ In (EOk 1) evs /\
  alive s 0 "A" "g1" "gate" /\ alive s 1 "A" "g1" "gate".
Proof.
  exists dup_sched. destruct (run (step fac) init dup_sched) as [[s e]|] eqn:E; [|vm_compute in E; discriminate].
  vm_compute in E. injection E as <- <-. eexists _, _. split; [reflexivity|].
  split; [in_list|]. split; [in_list|].
  split; exists Running; (split; [reflexivity|discriminate]).
Qed.
Print Assumptions C35_one_actor_per_id_refuted.
(** "Leaves no trace" is false when the store fails between the pipelined commands. *)
Theorem C35_failed_register_leaves_nothing_refuted : exists sched s evs,
  run (step fac) init sched = Some (s, evs) /\ In (EErr 0) evs /\ insts s = [] /\
  aget "g1" (ids (st s)) = Some (mkAddr "A" "g1" "gate" 1).
Proof.
  exists ([LStart "A" 1; LReg "A" (gate "g1" 0 false)] ++ steps 0 3 ++ [LFail 0]).
  destruct (run (step fac) init ([LStart "A" 1; LReg "A" (gate "g1" 0 false)] ++ steps 0 3 ++ [LFail 0])) as [[s e]|] eqn:E; [|vm_compute in E; discriminate].
  vm_compute in E. injection E as <- <-. eexists _, _. split; [reflexivity|]. split; [in_list|]. split; reflexivity.
Qed.
Print Assumptions C35_failed_register_leaves_nothing_refuted.

(** What holds, for all executions: if on each node the calls about one id do not
    overlap, at most one actor with that id runs there.  Missing: overlapping calls. *)
Theorem C35_one_actor_per_id_partial : forall factory sched s evs k k' n id ty ty',
  run (filtered serial_ids factory) init sched = Some (s, evs) ->
  alive s k n id ty -> alive s k' n id ty' -> k = k'.
Proof. intros factory sched s evs k k' n id ty ty' H. exact (unique_alive _ _ _ _ _ _ _ (inv1_run _ _ _ _ H)). Qed.
Print Assumptions C35_one_actor_per_id_partial.
(** For all interleavings: a Register call that returns an error without a store
    failure executed no store command and started no actor. *)
Theorem C35_failed_register_no_trace : forall factory sched s evs t c b,
  run (step factory) init sched = Some (s, evs) -> nth_error (calls s) t = Some c -> c_kind c = CReg b ->
  In (EErr t) evs -> ~ In (EFail t) evs ->
  (forall x, ~ In (ECmd t x) evs) /\ (forall i, ~ In (ERun t i) evs).
Proof. exact failed_no_trace. Qed.
Print Assumptions C35_failed_register_no_trace.
Definition ex35 : list label :=
  [LStart "A" 1; LReg "A" (gate "g1" 0 false)] ++ steps 0 10 ++ [LReg "A" (gate "g1" 0 false)] ++ steps 1 1 ++
  [LUnreg "A" "g1" "gate"] ++ steps 2 11 ++ [LReg "A" (gate "g1" 0 false)] ++ steps 3 10.
Example C35_case : exists s evs, run (filtered serial_ids fac) init ex35 = Some (s, evs) /\
  alive s 1 "A" "g1" "gate" /\ In (EErr 1) evs /\ List.length (insts s) = 2.
Proof.
  destruct (run (filtered serial_ids fac) init ex35) as [[s e]|] eqn:E; [|vm_compute in E; discriminate].
  vm_compute in E. injection E as <- <-. eexists _, _. split; [reflexivity|].
  split; [exists Running; split; [reflexivity|discriminate]|]. split; [in_list|reflexivity].
Qed.

(** ** C36 *)
(** False when two registrations overlap: both nodes read count 0 under limit 1. *)
Definition over_sched : list label :=
  [LStart "A" 1; LStart "B" 2; LReg "A" (gate "g1" 1 false); LReg "B" (gate "g2" 1 false)] ++ steps 0 3 ++ steps 1 3 ++ steps 0 9 ++ steps 1 9.
Theorem C36_limit_refuted : exists sched s evs,
  run (step fac) init sched = Some (s, evs) /\ all_regs "gate" (fun b => b_limit b = 1%Z) sched /\
  List.length (members (st s) "gate") = 2 /\ alive s 0 "A" "g1" "gate" /\ alive s 1 "B" "g2" "gate".
Proof.
  exists over_sched. destruct (run (step fac) init over_sched) as [[s e]|] eqn:E; [|vm_compute in E; discriminate].
  vm_compute in E. injection E as <- <-. eexists _, _. split; [reflexivity|]. split.
  { intros n b Hb _. unfold over_sched in Hb. repeat (apply in_app_or in Hb as [Hb|Hb]);
      try (apply repeat_spec in Hb; discriminate). repeat destruct Hb as [Hb|Hb]; try discriminate; try contradiction; injection Hb as _ <-; reflexivity. }
  split; [reflexivity|]. split; exists Running; (split; [reflexivity|discriminate]).
Qed.
Print Assumptions C36_limit_refuted.
(** What holds: if Register calls for the type do not overlap in the cluster, the
    address book never lists more than L actors of it, whatever Unregister calls,
    store failures and crashes happen.  Missing: overlapping registrations. *)
Theorem C36_limit_partial : forall factory T L sched s evs, (0 < L)%Z ->
  run (filtered (serial_type T) factory) init sched = Some (s, evs) ->
  all_regs T (fun b => b_limit b = L) sched ->
  (Z.of_nat (List.length (members (st s) T)) <= L)%Z.
Proof.
  intros factory T L sched s evs HL H Hall. pose proof (inv2_run factory T L HL sched s evs H Hall) as HI.
  exact (j_cnt _ _ _ HI).
Qed.
Print Assumptions C36_limit_partial.
(** And no more than L of its actors run, if also ids are used by one node at a time. *)
Theorem C36_running_limit_partial : forall factory T L sched s evs, (0 < L)%Z ->
  run (filtered (both owned_ids (serial_type T)) factory) init sched = Some (s, evs) ->
  all_regs T (fun b => b_limit b = L) sched ->
  (Z.of_nat (List.length (filter (fun i => String.eqb (i_ty i) T && match i_st i with Stopped => false | _ => true end) (insts s))) <= L)%Z.
Proof.
  intros factory T L sched s evs HL H Hall.
  assert (H2 : run (filtered (serial_type T) factory) init sched = Some (s, evs)).
  { eapply filtered_weaken; [|exact H]. intros s0 l0 HH. unfold both in HH. now apply andb_true_iff in HH as [_ HH]. }
  assert (H4 : run (filtered owned_ids factory) init sched = Some (s, evs)).
  { eapply filtered_weaken; [|exact H]. intros s0 l0 HH. unfold both in HH. now apply andb_true_iff in HH as [HH _]. }
  pose proof (C36_limit_partial factory T L sched s evs HL H2 Hall) as A. apply inv4_run in H4 as [_ H4].
  pose proof (running_le s T H4) as B. lia.
Qed.
Print Assumptions C36_running_limit_partial.
Definition ex36 : list label :=
  [LStart "A" 1; LStart "B" 2; LReg "A" (gate "g1" 1 false)] ++ steps 0 12 ++ [LReg "B" (gate "g2" 1 false)] ++ steps 1 3 ++
  [LUnreg "A" "g1" "gate"] ++ steps 2 9 ++ [LReg "B" (gate "g2" 1 false)] ++ steps 3 1 ++ steps 2 2 ++ steps 3 11.
Example C36_case : exists s evs, run (filtered (both owned_ids (serial_type "gate")) fac) init ex36 = Some (s, evs) /\
  In (EErr 1) evs /\ In (EOk 3) evs /\ List.length (members (st s) "gate") = 1 /\ alive s 1 "B" "g2" "gate".
Proof.
  destruct (run (filtered (both owned_ids (serial_type "gate")) fac) init ex36) as [[s e]|] eqn:E; [|vm_compute in E; discriminate].
  vm_compute in E. injection E as <- <-. eexists _, _. split; [reflexivity|].
  split; [in_list|]. split; [in_list|]. split; [reflexivity|].
  exists Running; split; [reflexivity|discriminate].
Qed.

(** ** C37 *)
(** False even for calls one after another: without a global limit the NodeUnique
    setting is never read. *)
Theorem C37_node_unique_refuted : exists sched s evs,
  run (filtered (both serial_ids (serial_type_node "gate")) fac) init sched = Some (s, evs) /\
  all_regs "gate" (fun b => b_unique b = true) sched /\
  alive s 0 "A" "g1" "gate" /\ alive s 1 "A" "g2" "gate".
Proof.
  set (sched := [LStart "A" 1; LReg "A" (gate "g1" 0 true)] ++ steps 0 10 ++ [LReg "A" (gate "g2" 0 true)] ++ steps 1 10).
  exists sched. destruct (run (filtered (both serial_ids (serial_type_node "gate")) fac) init sched) as [[s e]|] eqn:E; [|vm_compute in E; discriminate].
  vm_compute in E. injection E as <- <-. eexists _, _. split; [reflexivity|]. split.
  { intros n b Hb _. unfold sched in Hb. repeat (apply in_app_or in Hb as [Hb|Hb]);
      try (apply repeat_spec in Hb; discriminate); repeat destruct Hb as [Hb|Hb]; try discriminate; try contradiction; injection Hb as _ <-; reflexivity. }
  split; exists Running; (split; [reflexivity|discriminate]).
Qed.
Print Assumptions C37_node_unique_refuted.
(** What holds: if every registration of the type also carries a global limit and on
    each node the calls for one type, and about one id, do not overlap. *)
Theorem C37_node_unique_partial : forall factory T sched s evs k k' n id id',
  run (filtered (both serial_ids (serial_type_node T)) factory) init sched = Some (s, evs) ->
  all_regs T (fun b => b_limit b <> 0%Z /\ b_unique b = true) sched ->
  alive s k n id T -> alive s k' n id' T -> k = k'.
Proof. intros factory T sched s evs k k' n id id' H Hall. exact (u_uniq _ _ (inv3_run factory T sched s evs H Hall) k k' n id id'). Qed.
Print Assumptions C37_node_unique_partial.
Definition ex37 : list label :=
  [LStart "A" 1; LReg "A" (gate "g1" 5 true)] ++ steps 0 12 ++ [LReg "A" (gate "g2" 5 true)] ++ steps 1 2 ++
  [LStart "B" 2; LReg "B" (gate "g2" 5 true)] ++ steps 2 12.
Example C37_case : exists s evs, run (filtered (both serial_ids (serial_type_node "gate")) fac) init ex37 = Some (s, evs) /\
  In (EErr 1) evs /\ alive s 0 "A" "g1" "gate" /\ alive s 1 "B" "g2" "gate".
Proof.
  destruct (run (filtered (both serial_ids (serial_type_node "gate")) fac) init ex37) as [[s e]|] eqn:E; [|vm_compute in E; discriminate].
  vm_compute in E. injection E as <- <-. eexists _, _. split; [reflexivity|].
  split; [in_list|]. split; exists Running; (split; [reflexivity|discriminate]).
Qed.

(** ** C63 *)
Theorem C63_cluster_unique_refuted : exists sched s evs,
  run (filtered serial_ids fac) init sched = Some (s, evs) /\ In (EOk 0) evs /\ In (EOk 1) evs /\
  alive s 0 "A" "g1" "gate" /\ alive s 1 "B" "g1" "gate" /\
  aget "g1" (ids (st s)) = Some (mkAddr "B" "g1" "gate" 2).
Proof.
  set (sched := [LStart "A" 1; LStart "B" 2; LReg "A" (gate "g1" 0 false)] ++ steps 0 10 ++ [LReg "B" (gate "g1" 0 false)] ++ steps 1 10).
  exists sched. destruct (run (filtered serial_ids fac) init sched) as [[s e]|] eqn:E; [|vm_compute in E; discriminate].
  vm_compute in E. injection E as <- <-. eexists _, _. split; [reflexivity|].
  split; [in_list|]. split; [in_list|].
  split; [exists Running; split; [reflexivity|discriminate]|]. split; [exists Running; split; [reflexivity|discriminate]|]. reflexivity.
Qed.
Print Assumptions C63_cluster_unique_refuted.

(** In every reachable or unreachable state: a node that does not itself hold the id
    registers it, whatever the address book says about it, and takes over its record. *)
Lemma nth_last {A} (l : list A) x : nth_error (l ++ [x]) (List.length l) = Some x.
Proof. rewrite nth_error_app2, Nat.sub_diag by lia. reflexivity. Qed.
Lemma upd_last {A} (l : list A) x y : upd (l ++ [x]) (List.length l) y = l ++ [y].
Proof. induction l as [|a l IH]; cbn; [reflexivity|now rewrite IH]. Qed.
Lemma step_last factory s0 nds0 insts0 cs n k p nd : aget n nds0 = Some nd ->
  step factory (mkState s0 nds0 insts0 (cs ++ [mkCall n k p])) (LStep (List.length cs)) =
  match k with
  | CReg b => step_reg (mkState s0 nds0 insts0 (cs ++ [mkCall n k p])) (List.length cs) (mkCall n k p) nd b
  | CUnreg id ty => step_unreg factory (mkState s0 nds0 insts0 (cs ++ [mkCall n k p])) (List.length cs) (mkCall n k p) nd id ty
  end.
Proof. intros H. cbn. rewrite nth_last. cbn. rewrite H. reflexivity. Qed.
Lemma step_call factory s0 nds0 insts0 cs n b nd : aget n nds0 = Some nd ->
  String.eqb (b_id b) "" || String.eqb (b_ty b) "" = false ->
  step factory (mkState s0 nds0 insts0 cs) (LReg n b) =
  Some (mkState s0 nds0 insts0 (cs ++ [mkCall n (CReg b) PCheck]), [ECall (List.length cs) n (CReg b)]).
Proof. intros H E. cbn. rewrite H, E. reflexivity. Qed.
Lemma register_takes factory s n nd b : aget n (nds s) = Some nd -> b_id b <> "" -> b_ty b <> "" ->
  b_limit b = 0%Z -> b_ctor b = true -> aget (b_id b) (n_map nd) = None -> ~ In (b_id b) (n_ids nd) ->
  let t := List.length (calls s) in
  exists s' evs, run (step factory) s (LReg n b :: repeat (LStep t) 10) = Some (s', evs) /\ In (EOk t) evs /\
    alive s' (List.length (insts s)) n (b_id b) (b_ty b) /\
    rec (st s') (b_id b) = Some (mkAddr n (b_id b) (b_ty b) (n_ep nd)).
Proof.
  intros Hn Hid Hty Hl Hct Hm Hids t. destruct s as [s0 nds0 insts0 cs]. cbn [nds calls insts] in *.
  assert (Hne : String.eqb (b_id b) "" || String.eqb (b_ty b) "" = false).
  { apply String.eqb_neq in Hid, Hty. now rewrite Hid, Hty. }
  assert (Hno : existsb (String.eqb (b_id b)) (n_ids nd) = false).
  { destruct (existsb _ _) eqn:E; [|reflexivity]. apply existsb_exists in E as (x & Hx & Ex). apply String.eqb_eq in Ex. now subst. }
  set (nds1 := aset n (mkNode (n_ep nd) (idmap_add (b_id b) (n_ids nd)) (n_map nd)) nds0).
  assert (Hn1 : aget n nds1 = Some (mkNode (n_ep nd) (idmap_add (b_id b) (n_ids nd)) (n_map nd))).
  { unfold nds1. rewrite aget_aset, String.eqb_refl. reflexivity. }
  eexists _, _. split.
  - subst t. cbn [repeat run]. rewrite (step_call _ _ _ _ _ _ _ _ Hn Hne).
    rewrite (step_last _ _ _ _ _ _ _ _ _ Hn). unfold step_reg at 1. cbn [c_pc]. rewrite Hm, Hl. cbn [Z.eqb]. unfold set_calls, goto. cbn [calls st nds insts c_node c_kind]. rewrite upd_last.
    rewrite (step_last _ _ _ _ _ _ _ _ _ Hn). unfold step_reg at 1. cbn [c_pc]. rewrite Hne, Hno. cbn [orb]. unfold set_calls, goto. cbn [calls st nds insts c_node c_kind]. rewrite upd_last.
    unfold reg_cmds.
    do 5 (rewrite (step_last _ _ _ _ _ _ _ _ _ Hn); unfold step_reg at 1; cbn [c_pc]; unfold set_calls, goto; cbn [calls st nds insts c_node c_kind]; rewrite upd_last).
    rewrite (step_last _ _ _ _ _ _ _ _ _ Hn). unfold step_reg at 1. cbn [c_pc]. unfold set_calls, goto, set_node. cbn [calls st nds insts c_node c_kind]. rewrite upd_last. fold nds1.
    rewrite (step_last _ _ _ _ _ _ _ _ _ Hn1). unfold step_reg at 1. cbn [c_pc]. rewrite Hct. unfold set_calls, goto, set_node. cbn [calls st nds insts c_node c_kind]. rewrite upd_last.
    rewrite (step_last _ _ _ _ _ _ _ _ _ Hn1). unfold step_reg at 1. cbn [c_pc]. unfold set_calls, goto, set_node. cbn [calls st nds insts c_node c_kind]. rewrite upd_last.
    reflexivity.
  - split; [in_list|]. split.
    + exists Running. split; [|discriminate]. cbn [insts]. apply nth_last.
    + cbn [st]. rewrite !rec_apply. cbn. rewrite ?String.eqb_refl. reflexivity.
Qed.
Theorem C63_register_never_refused : forall factory s n nd b,
  aget n (nds s) = Some nd -> b_id b <> "" -> b_ty b <> "" -> b_limit b = 0%Z -> b_ctor b = true ->
  aget (b_id b) (n_map nd) = None -> ~ In (b_id b) (n_ids nd) ->
  let t := List.length (calls s) in
  exists s' evs, run (step factory) s (LReg n b :: repeat (LStep t) 10) = Some (s', evs) /\ In (EOk t) evs /\
    alive s' (List.length (insts s)) n (b_id b) (b_ty b) /\
    rec (st s') (b_id b) = Some (mkAddr n (b_id b) (b_ty b) (n_ep nd)).
Proof. exact register_takes. Qed.
Print Assumptions C63_register_never_refused.
(** While no id is registered or unregistered on a node other than the one that runs
    it, and calls about one id do not overlap, an id has one actor in the cluster. *)
Theorem C63_cluster_unique_partial : forall factory sched s evs k k' n n' id ty ty',
  run (filtered owned_ids factory) init sched = Some (s, evs) ->
  alive s k n id ty -> alive s k' n' id ty' -> k = k'.
Proof. intros factory sched s evs k k' n n' id ty ty' H. apply inv4_run in H as [_ H]. exact (o_two _ H k k' n n' id ty ty'). Qed.
Print Assumptions C63_cluster_unique_partial.
Example C63_case : exists s evs, run (filtered owned_ids fac) init ex36 = Some (s, evs) /\ alive s 1 "B" "g2" "gate".
Proof.
  destruct (run (filtered owned_ids fac) init ex36) as [[s e]|] eqn:E; [|vm_compute in E; discriminate].
  vm_compute in E. injection E as <- <-. eexists _, _. split; [reflexivity|]. exists Running; split; [reflexivity|discriminate].
Qed.

(** ** C71 *)
(** Unregister on a node that never had the actor removes another node's record,
    while the actor goes on running there. *)
Theorem C71_foreign_unregister_harmless_refuted : exists sched s evs,
  run (filtered serial_ids fac) init sched = Some (s, evs) /\ In (EOk 0) evs /\ In (EOk 1) evs /\
  alive s 0 "A" "g1" "gate" /\ aget "g1" (ids (st s)) = None /\ members (st s) "gate" = [].
Proof.
  set (sched := [LStart "A" 1; LStart "B" 2; LReg "A" (gate "g1" 0 false)] ++ steps 0 10 ++ [LUnreg "B" "g1" "gate"] ++ steps 1 8).
  exists sched. destruct (run (filtered serial_ids fac) init sched) as [[s e]|] eqn:E; [|vm_compute in E; discriminate].
  vm_compute in E. injection E as <- <-. eexists _, _. split; [reflexivity|].
  split; [in_list|]. split; [in_list|].
  split; [exists Running; split; [reflexivity|discriminate]|]. split; reflexivity.
Qed.
Print Assumptions C71_foreign_unregister_harmless_refuted.
(** Under the discipline that only the owning node's process names an id, every
    running actor is listed under its type, with its own node. *)
Theorem C71_running_actors_listed_partial : forall factory sched s evs k n id ty,
  run (filtered owned_ids factory) init sched = Some (s, evs) -> alive s k n id ty ->
  exists ep, In (mkAddr n id ty ep) (members (st s) ty).
Proof. intros factory sched s evs k n id ty H. apply inv4_run in H as [_ H]. exact (o_mem _ H k n id ty). Qed.
Print Assumptions C71_running_actors_listed_partial.

(** ** C72 *)
(** Two overlapping Unregister calls for one actor close its shutdown channel twice:
    the process dies. *)
Theorem C72_overlapping_unregister_safe_refuted : exists sched s evs,
  run (step fac) init sched = Some (s, evs) /\ In (EPanic "A") evs /\ aget "A" (nds s) = None.
Proof.
  set (sched := [LStart "A" 1; LReg "A" (gate "g1" 0 false)] ++ steps 0 10 ++ [LUnreg "A" "g1" "gate"; LUnreg "A" "g1" "gate"] ++ steps 1 2 ++ steps 2 2).
  exists sched. destruct (run (step fac) init sched) as [[s e]|] eqn:E; [|vm_compute in E; discriminate].
  vm_compute in E. injection E as <- <-. eexists _, _. split; [reflexivity|]. split; [in_list|reflexivity].
Qed.
Print Assumptions C72_overlapping_unregister_safe_refuted.
(** What holds: no process dies of a panic if on each node calls about one id do not
    overlap and every builder has a constructor.  Missing: overlapping calls. *)
Theorem C72_no_panic_partial : forall factory sched s evs,
  run (filtered serial_ids factory) init sched = Some (s, evs) ->
  (forall n b, In (LReg n b) sched -> b_ctor b = true) -> forall n, ~ In (EPanic n) evs.
Proof. exact no_panic. Qed.
Print Assumptions C72_no_panic_partial.
Example C72_case : exists s evs, run (filtered serial_ids fac) init ex35 = Some (s, evs) /\ In (EStop 2 0) evs /\ (forall n b, In (LReg n b) ex35 -> b_ctor b = true).
Proof.
  destruct (run (filtered serial_ids fac) init ex35) as [[s e]|] eqn:E; [|vm_compute in E; discriminate].
  vm_compute in E. injection E as <- <-. eexists _, _. split; [reflexivity|]. split; [in_list|].
  intros n b Hb. unfold ex35 in Hb. repeat (apply in_app_or in Hb as [Hb|Hb]);
    try (apply repeat_spec in Hb; discriminate); repeat destruct Hb as [Hb|Hb]; try discriminate; try contradiction; injection Hb as _ <-; reflexivity.
Qed.

(** ** C92 *)
(** For all interleavings, store failures and crashes: a Register call that returned
    without error wrote the five entries of the address book, in this order, started
    exactly one actor, with its node, id and type, and did nothing else. *)
Theorem C92_register_success : forall factory sched s evs t n b p,
  run (step factory) init sched = Some (s, evs) -> nth_error (calls s) t = Some (mkCall n (CReg b) p) -> In (EOk t) evs ->
  exists ep i x, let a := mkAddr n (b_id b) (b_ty b) ep in
    own t evs = [ECmd t (HSetId (b_id b) a); ECmd t (SAddTy (b_ty b) a); ECmd t (HSetNode n ep);
                 ECmd t (HIncr n (FType (b_ty b)) (b_w b)); ECmd t (HIncr n FTotal (b_w b)); ERun t i; EOk t] /\
    nth_error (insts s) i = Some (mkInst n (b_id b) (b_ty b) x).
Proof.
  intros factory sched s evs t n b p H Hc Hok. destruct (register_success _ _ _ _ _ _ _ _ H Hc Hok) as (ep & i & A & x & B).
  exists ep, i, x. split; [exact A|exact B].
Qed.
Print Assumptions C92_register_success.
(** When it returns, that actor runs and the node's table names it by the id. *)
Theorem C92_registered_runs : forall factory sched s evs l s' e t n b p,
  run (step factory) init sched = Some (s, evs) -> step factory s l = Some (s', e) -> In (EOk t) e ->
  nth_error (calls s') t = Some (mkCall n (CReg b) p) ->
  exists i nd, In (ERun t i) evs /\ nth_error (insts s') i = Some (mkInst n (b_id b) (b_ty b) Running) /\
    aget n (nds s') = Some nd /\ aget (b_id b) (n_map nd) = Some i.
Proof.
  intros factory sched s evs l s' e t n b p H Hl He Hc.
  destruct (register_returns _ _ _ _ _ _ _ _ _ _ _ H Hl He Hc) as (i & nd & A & B & C & D). exists i, nd. auto.
Qed.
Print Assumptions C92_registered_runs.
Definition ex92 : list label := [LStart "A" 1; LReg "A" (gate "g1" 0 false); LReg "A" (gate "g2" 0 false)] ++ steps 0 5 ++ steps 1 4 ++ steps 0 4 ++ steps 1 4.
Example C92_case : exists s evs s' e, run (step fac) init ex92 = Some (s, evs) /\ step fac s (LStep 0) = Some (s', e) /\ In (EOk 0) e /\
  nth_error (calls s') 0 = Some (mkCall "A" (CReg (gate "g1" 0 false)) (PRet true)).
Proof.
  destruct (run (step fac) init ex92) as [[s e]|] eqn:E; [|vm_compute in E; discriminate].
  vm_compute in E. injection E as <- <-. eexists _, _, _, _. split; [reflexivity|]. split; [vm_compute; reflexivity|]. split; [left; reflexivity|reflexivity].
Qed.

(** ** C93 *)
(** For all interleavings: an Unregister call that returns without error and without
    a store failure ended at most one actor, and either there is no record of the id
    when it returns, or it removed the record, an entry [a] that a Register call wrote
    for that id from the type's set, and the weight of the named type from the calling
    node's counters. *)
Theorem C93_unregister_success : forall factory sched s evs l s' e t n id ty p,
  run (step factory) init sched = Some (s, evs) -> step factory s l = Some (s', e) -> In (EOk t) e -> ~ In (EFail t) e ->
  nth_error (calls s') t = Some (mkCall n (CUnreg id ty) p) ->
  exists stopped, (stopped = [] \/ exists i, stopped = [EStop t i]) /\
    ((own t (evs ++ e) = stopped ++ [EOk t] /\ (id = "" \/ aget id (ids (st s')) = None)) \/
     exists w a, factory ty = Some w /\ (exists u, In (ECmd u (HSetId id a)) evs) /\
       own t (evs ++ e) = stopped ++ [ECmd t (HDelId id); ECmd t (SRemTy (a_ty a) a); ECmd t (HIncr n (FType (a_ty a)) (- w));
                                      ECmd t (HIncr n FTotal (- w)); EOk t]).
Proof.
  intros factory sched s evs l s' e t n id ty p H Hl Hok Hf Hc. destruct (unregister_returns _ _ _ _ _ _ _ _ _ _ _ _ H Hl Hok Hf Hc) as (h0 & A & B).
  exists h0. split; [exact A|]. destruct B as [B|(w & a & C & W & B)]; [auto|]. right. exists w, a. split; [exact C|]. split; [exact W|exact B].
Qed.
Print Assumptions C93_unregister_success.
(** "When Unregister has returned, no actor with that id runs on the node" is false
    after two overlapping Register calls: only one of the two actors is ended. *)
Theorem C93_unregister_ends_refuted : exists sched s evs,
  run (step fac) init sched = Some (s, evs) /\ In (EOk 2) evs /\
  nth_error (calls s) 2 = Some (mkCall "A" (CUnreg "g1" "gate") (PRet true)) /\ alive s 0 "A" "g1" "gate".
Proof.
  exists (dup_sched ++ [LUnreg "A" "g1" "gate"] ++ steps 2 11).
  destruct (run (step fac) init (dup_sched ++ [LUnreg "A" "g1" "gate"] ++ steps 2 11)) as [[s e]|] eqn:E; [|vm_compute in E; discriminate].
  vm_compute in E. injection E as <- <-. eexists _, _. split; [reflexivity|]. split; [in_list|]. split; [reflexivity|].
  exists Running. split; [reflexivity|discriminate].
Qed.
Print Assumptions C93_unregister_ends_refuted.
(** What holds: if on each node calls about one id do not overlap, no actor with the
    id runs on the node when Unregister returns, with or without an error and
    whatever the store does.  Missing: overlapping calls. *)
Theorem C93_unregister_ends_partial : forall factory sched s evs l s' e t n id ty p,
  run (filtered serial_ids factory) init sched = Some (s, evs) -> filtered serial_ids factory s l = Some (s', e) ->
  In (EOk t) e \/ In (EErr t) e -> nth_error (calls s') t = Some (mkCall n (CUnreg id ty) p) ->
  forall k ty', ~ alive s' k n id ty'.
Proof. exact unregister_ends. Qed.
Print Assumptions C93_unregister_ends_partial.
Definition ex93 : list label := [LStart "A" 1; LReg "A" (gate "g1" 0 false)] ++ steps 0 10 ++ [LUnreg "A" "g1" "gate"] ++ steps 1 10.
Example C93_case : exists s evs s' e, run (filtered serial_ids fac) init ex93 = Some (s, evs) /\ filtered serial_ids fac s (LStep 1) = Some (s', e) /\ In (EOk 1) e /\
  In (EStop 1 0) evs /\ nth_error (calls s') 1 = Some (mkCall "A" (CUnreg "g1" "gate") (PRet true)).
Proof.
  destruct (run (filtered serial_ids fac) init ex93) as [[s e]|] eqn:E; [|vm_compute in E; discriminate].
  vm_compute in E. injection E as <- <-. eexists _, _, _, _. split; [reflexivity|]. split; [vm_compute; reflexivity|]. split; [left; reflexivity|].
  split; [in_list|reflexivity].
Qed.
