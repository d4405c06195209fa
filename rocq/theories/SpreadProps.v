(** C179 and C180: actors made on demand are spread over the nodes.
    Model: [SpreadModel].  Vocabulary: [SpreadSpec].  Invariants: [SpreadProofs]. *)
From Coq Require Import List String ZArith Bool Arith Lia.
From Verif Require Import Machine MachineMore AddrModel AddrSpec AddrProofs SpreadModel SpreadSpec SpreadProofs.
Import ListNotations.
Open Scope string_scope.
Open Scope list_scope.

(** Two nodes with an actor of weight 1 each. *)
Definition two : store := apply_all empty_store (reg_cmds "n1" 1 "gate" "g1" 1 ++ reg_cmds "n2" 2 "gate" "g2" 1).
Definition order12 : list (string * nat) := [("n1", 1); ("n2", 2)].
Definition order21 : list (string * nat) := [("n2", 2); ("n1", 1)].
Definition registration (j : nat) : list label := [LBegin j; LCmd j; LCmd j; LCmd j; LCmd j; LCmd j; LDone j].

(** ** C179  Nodes stay level *)

(** False, one: the two loops over the nodes have different orders, and the heavier node is
    taken for the lighter one, time and again, although every registration is over before the next choice. *)
Theorem C179_orders_refuted : exists sched s evs, run (step (fun _ => 1%Z)) (start two) sched = Some (s, evs) /\
  even two 0 /\ one_at_a_time evs /\ weighs (book s) "n1" 4 /\ weighs (book s) "n2" 1.
Proof.
  exists (LPick "chat" "u" order21 order12 :: registration 0 ++ LPick "chat" "v" order21 order12 :: registration 1 ++ LPick "chat" "w" order21 order12 :: registration 2).
  eexists _, _. split; [vm_compute; reflexivity|]. split; [|split; [|split; vm_compute; reflexivity]].
  - intros n m e f a b Hn Hm A B. vm_compute in Hn, Hm.
    destruct Hn as [Hn|[Hn|[]]], Hm as [Hm|[Hm|[]]]; injection Hn as <- <-; injection Hm as <- <-; vm_compute in A, B; injection A as <-; injection B as <-; lia.
  - intros x j ty id n y E i (t & d & m & P). unfold finished.
    destruct x as [|v1 [|v2 [|v3 [|v4 [|v5 [|v6 [|v7 x]]]]]]]; cbn in E; try (injection E; intros; subst; cbn in *);
      try discriminate; try (destruct x; discriminate); try tauto;
      repeat match goal with H : _ \/ _ |- _ => destruct H end; try discriminate; try tauto;
      match goal with H : VPick _ _ _ _ = VPick _ _ _ _ |- _ => injection H; intros; subst end; right; repeat eexists; cbn; eauto 8.
Qed.
Print Assumptions C179_orders_refuted.
(** False, two: several nodes are chosen before the first registration has reached the address book. *)
Theorem C179_overlap_refuted : exists sched s evs, run (step (fun _ => 1%Z)) (start two) sched = Some (s, evs) /\
  even two 0 /\ Forall same_order sched /\ weighs (book s) "n1" 4 /\ weighs (book s) "n2" 1.
Proof.
  exists ([LPick "chat" "u" order12 order12; LPick "chat" "v" order12 order12; LPick "chat" "w" order12 order12] ++ registration 0 ++ registration 1 ++ registration 2).
  eexists _, _. split; [vm_compute; reflexivity|]. split; [|split; [|split; vm_compute; reflexivity]].
  - intros n m e f a b Hn Hm A B. vm_compute in Hn, Hm.
    destruct Hn as [Hn|[Hn|[]]], Hm as [Hm|[Hm|[]]]; injection Hn as <- <-; injection Hm as <- <-; vm_compute in A, B; injection A as <-; injection B as <-; lia.
  - repeat constructor.
Qed.
Print Assumptions C179_overlap_refuted.

(** When the loops agree and registrations do not overlap with choices: nodes that differ by at most [d], no less than
    the weight of any actor, go on to do so, at every moment.  Missing: the two cases above. *)
Theorem C179_even_partial weight s0 sched s evs d :
  run (step weight) (start s0) sched = Some (s, evs) -> NoDup (map fst (nodes s0)) -> (forall ty, (0 <= weight ty <= d)%Z) ->
  Forall same_order sched -> one_at_a_time evs -> even s0 d -> even (book s) d.
Proof. intros H ND HW SO OT HE. apply (l_even d s). eapply level_run; eauto. lia. Qed.
Print Assumptions C179_even_partial.
(** The nodes themselves stay the same. *)
Theorem C179_nodes weight s0 sched s evs : run (step weight) (start s0) sched = Some (s, evs) -> NoDup (map fst (nodes s0)) -> nodes (book s) = nodes s0.
Proof. intros H ND. apply (b_nodes weight s0 evs s). eapply base_run; eauto. Qed.
Print Assumptions C179_nodes.
(** Actors of weights 2 and 1; the third goes to the second node again. *)
Definition kinds (ty : string) : Z := if String.eqb ty "big" then 2 else 1.
Example C179_case : exists s evs,
  run (step kinds) (start two) (LPick "big" "u" order12 order12 :: registration 0 ++ LPick "chat" "v" order21 order21 :: registration 1 ++ [LPick "big" "w" order12 order12; LRefuse 2])
    = Some (s, evs) /\
  evs = [VPick 0 "big" "n1_big_u" "n1"; VPlaced 0 "big" "n1_big_u" "n1"; VPick 1 "chat" "n2_chat_v" "n2"; VPlaced 1 "chat" "n2_chat_v" "n2"; VPick 2 "big" "n2_big_w" "n2"; VRefused 2] /\
  weighs (book s) "n1" 3 /\ weighs (book s) "n2" 2 /\ NoDup (map fst (nodes two)).
Proof. eexists _, _. split; [vm_compute; reflexivity|]. repeat split; try (vm_compute; reflexivity). vm_compute. repeat constructor; cbn; intuition discriminate. Qed.

(** ** C180  What is picked is registered, once, where it was picked *)

(** Whatever overlaps, an actor whose registration returned is found by its id and by its type, on the node that was picked for it. *)
Theorem C180_found weight s0 sched s evs j ty id n : run (step weight) (start s0) sched = Some (s, evs) -> NoDup (map fst (nodes s0)) ->
  In (VPlaced j ty id n) evs -> In (VPick j ty id n) evs /\
  exists ep, In (n, ep) (nodes s0) /\ aget id (ids (book s)) = Some (mkAddr n id ty ep) /\ In (mkAddr n id ty ep) (members (book s) ty).
Proof.
  intros H ND K. pose proof (base_run weight _ _ _ _ ND H) as B. pose proof (recs_run weight _ _ _ _ ND H) as R.
  destruct (b_placed _ _ _ _ B _ _ _ _ K) as (y & Y & A & <- & <- & <-). split.
  - assert (P : picked evs j) by (apply (b_pick _ _ _ _ B); eapply nth_len; eauto). destruct P as (t & i & m & P).
    destruct (b_vpick _ _ _ _ B _ _ _ _ P) as (z & Z & <- & <- & <-). assert (z = y) as -> by congruence. exact P.
  - exists (jep y). split; [eapply (b_listed _ _ _ _ B); eauto|]. split.
    + apply (r_rec _ R _ _ Y). rewrite A. cbn. lia.
    + apply (r_mem _ R _ _ Y). rewrite A. cbn. lia.
Qed.
Print Assumptions C180_found.
(** A choice leads to one registration at most, which ends once. *)
Theorem C180_once weight s0 sched s evs x y j ty id n : run (step weight) (start s0) sched = Some (s, evs) -> NoDup (map fst (nodes s0)) ->
  evs = x ++ VPlaced j ty id n :: y -> ~ finished x j /\ ~ finished y j.
Proof.
  intros H ND E. destruct (run_split _ _ _ _ _ _ _ _ H E) as (a & l & c & t & t' & e1 & p & q & e2 & -> & H1 & H2 & H3 & -> & ->).
  pose proof (base_run weight _ _ _ _ ND H1) as B. pose proof (step_change _ _ _ _ _ H2) as C.
  assert (Q : p = [] /\ q = [] /\ exists z, nth_error (jobs t) j = Some z /\ jat z = Under []).
  { inversion C as [ty' u o1 o2 m ep id' El Pa Pb G F E1 E2|ty' E1 E2|j' z st b e N M E1 E2].
    - symmetry in E2. destruct p as [|? [|? p]]; discriminate.
    - symmetry in E2. destruct p as [|? [|? p]]; discriminate.
    - inversion M as [b1 S1 S2 S3 S4 S5|b1 S1 S2 S3 S4 S5|k r b1 S1 S2 S3 S4 S5|b1 S1 S2 S3 S4 S5]; subst e;
        try (destruct p as [|? [|? p]]; discriminate S5). apply in_single in S5 as (-> & -> & S5). injection S5 as <- _ _ _. eauto 6. }
  destruct Q as (-> & -> & z & N & A). rewrite app_nil_r. split.
  - intros K. apply (b_fin _ _ _ _ B _ _ N) in K. rewrite A in K. destruct K; discriminate.
  - cbn [app]. intros K.
    (* any later end would find the registration over *)
    assert (exists v, In v e2 /\ (v = VRefused j \/ exists t i m, v = VPlaced j t i m)) as (v & V1 & V2).
    { destruct K as [K|(t1 & i1 & m1 & K)]; eexists; (split; [exact K|]); eauto 6. }
    apply in_split in V1 as (f1 & f2 & V1). destruct (run_split _ _ _ _ _ _ _ _ H3 V1) as (a' & l' & c' & u & u' & g1 & p' & q' & g2 & -> & G1 & G2 & G3 & -> & ->).
    assert (R : run (step weight) (start s0) (a ++ l :: a') = Some (u, e1 ++ [VPlaced j ty id n] ++ g1)).
    { eapply run_app; [exact H1|]. cbn [run]. rewrite H2, G1. reflexivity. }
    pose proof (base_run weight _ _ _ _ ND R) as B'.
    assert (F : finished (e1 ++ [VPlaced j ty id n] ++ g1) j) by (right; exists ty, id, n; apply in_or_app; right; now left).
    pose proof (step_change _ _ _ _ _ G2) as C'.
    assert (Q : exists z, nth_error (jobs u) j = Some z /\ jat z <> Refused /\ jat z <> Placed).
    { inversion C' as [ty' w o1 o2 m ep id' El Pa Pb G F' E1 E2|ty' E1 E2|j' z' st b e N' M E1 E2].
      - symmetry in E2. destruct p' as [|? [|? p']]; try discriminate. injection E2 as V _; subst v; destruct V2 as [V2|(? & ? & ? & V2)]; discriminate.
      - symmetry in E2. destruct p' as [|? [|? p']]; try discriminate. injection E2 as V _; subst v; destruct V2 as [V2|(? & ? & ? & V2)]; discriminate.
      - inversion M as [b1 S1 S2 S3 S4 S5|b1 S1 S2 S3 S4 S5|k r b1 S1 S2 S3 S4 S5|b1 S1 S2 S3 S4 S5]; subst e;
          try (destruct p' as [|? [|? p']]; discriminate S5); apply in_single in S5 as (-> & -> & S5); subst v;
          (destruct V2 as [V2|(? & ? & ? & V2)]; [try discriminate|try discriminate]; injection V2; intros; subst j';
           exists z'; split; [exact N'|]; rewrite <- S1; split; discriminate). }
    destruct Q as (z2 & N2 & A2 & A3). apply (b_fin _ _ _ _ B' _ _ N2) in F. tauto.
Qed.
Print Assumptions C180_once.
(** When all is over, the weight of a node is what it was and the weights of the actors placed there, whatever overlapped. *)
Theorem C180_weight weight s0 sched s evs n : run (step weight) (start s0) sched = Some (s, evs) -> NoDup (map fst (nodes s0)) ->
  (forall j, picked evs j -> finished evs j) -> stored (book s) n FTotal = (stored s0 n FTotal + placed_on weight n evs)%Z.
Proof.
  intros H ND K. destruct (weights_run weight _ _ _ _ n ND H) as [-> ->]. f_equal. apply total_same. intros y Y. apply In_nth_error in Y as [j Y].
  pose proof (base_run weight _ _ _ _ ND H) as B. assert (F : finished evs j) by (apply K, (b_pick _ _ _ _ B); eapply nth_len; eauto).
  apply (b_fin _ _ _ _ B _ _ Y) in F. unfold charged, settled. destruct F as [->| ->]; cbn; [now rewrite andb_false_r|now rewrite andb_true_r].
Qed.
Print Assumptions C180_weight.
(** Two registrations interleaved. *)
Example C180_case : exists s evs,
  run (step kinds) (start two) ([LPick "big" "u" order12 order12; LPick "big" "v" order21 order12; LBegin 1; LBegin 0; LCmd 1; LCmd 0; LCmd 0; LCmd 1; LCmd 0; LCmd 1; LCmd 1; LCmd 0; LCmd 0; LCmd 1; LDone 0; LDone 1])
    = Some (s, evs) /\
  evs = [VPick 0 "big" "n1_big_u" "n1"; VPick 1 "big" "n1_big_v" "n1"; VPlaced 0 "big" "n1_big_u" "n1"; VPlaced 1 "big" "n1_big_v" "n1"] /\
  placed_on kinds "n1" evs = 4%Z /\ stored (book s) "n1" FTotal = 5%Z.
Proof. eexists _, _. split; [vm_compute; reflexivity|]. split; [reflexivity|]. split; vm_compute; reflexivity. Qed.
