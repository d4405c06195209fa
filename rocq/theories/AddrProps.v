(** C38-C45, C70: the address book. *)
From Coq Require Import List String ZArith Bool Permutation Lia.
From Verif Require Import Machine AddrModel AddrSpec AddrProofs AddrInv AddrRun AddrFacts AddrCrash AddrSolo.
Import ListNotations.
Open Scope string_scope.
Open Scope list_scope.

(** ** C38 *)
(** Whatever the interleaving of store commands, once every operation has
    returned the store says exactly what the registrations in force say. *)
Theorem C38_records_agree : forall sched s L evs,
  orun sched = Some ((s, L), evs) -> at_rest s -> consistent (st s) (live evs).
Proof. exact orderly_consistent. Qed.
Print Assumptions C38_records_agree.
(** Such executions are executions of the cluster. *)
Theorem C38_orderly_is_execution : forall sched s L evs,
  orun sched = Some ((s, L), evs) -> run step init sched = Some (s, evs).
Proof. exact orderly_is_run. Qed.
Print Assumptions C38_orderly_is_execution.
(** Hence a lookup by type answers the live actors of the type, and their number. *)
Lemma C38_type_l sched s L evs ty : orun sched = Some ((s, L), evs) -> at_rest s ->
  GetActorTypeCount (st s) ty = List.length (filter (of_type ty) (live evs)) /\
  exists l, GetByType (st s) ty = Ok l /\
    forall a, In a l <-> exists r, In r (live evs) /\ r_ty r = ty /\ a = addr_of r.
Proof.
  intros H R. pose proof (orderly_consistent _ _ _ _ H R) as HC.
  split; [now apply type_count|now apply by_type].
Qed.
Theorem C38_lookup_by_type : forall sched s L evs ty, orun sched = Some ((s, L), evs) -> at_rest s ->
  GetActorTypeCount (st s) ty = List.length (filter (of_type ty) (live evs)) /\
  exists l, GetByType (st s) ty = Ok l /\
    forall a, In a l <-> exists r, In r (live evs) /\ r_ty r = ty /\ a = addr_of r.
Proof. exact C38_type_l. Qed.
Print Assumptions C38_lookup_by_type.

(** Two nodes, three registrations with their commands interleaved, one
    unregistration overlapping another registration. *)
Definition ex_sched : list label :=
  [LStart "n1" 10; LStart "n2" 20; LReg "n1" "gate" "g1" 3; LReg "n2" "gate" "g2" 5; LReg "n1" "chat" "c1" 2;
   LCmd 0; LCmd 1; LCmd 2; LCmd 1; LCmd 0; LCmd 2; LCmd 2; LCmd 1; LCmd 0; LCmd 0; LCmd 1; LCmd 2; LCmd 1; LCmd 2; LCmd 0;
   LRet 2; LRet 0; LRet 1;
   LUnreg "n1" "g1" 3; LCmd 3; LReg "n2" "chat" "c2" 7; LCmd 4; LCmd 3; LCmd 3; LCmd 4; LCmd 4; LCmd 4; LCmd 3; LCmd 4;
   LRet 4; LRet 3]%Z.
Definition ex_final : state * list reg := 
  match orun ex_sched with Some (x, _) => x | None => (init, []) end.
Lemma ex_runs : exists evs, orun ex_sched = Some (ex_final, evs).
Proof. unfold ex_final. destruct (orun ex_sched) as [[x e]|] eqn:E; [eauto|vm_compute in E; discriminate]. Qed.
Lemma ex_rest : at_rest (fst ex_final).
Proof. intros t Ht. vm_compute in Ht. repeat destruct Ht as [<-|Ht]; try reflexivity. contradiction. Qed.
Example C38_case : (exists evs, orun ex_sched = Some (ex_final, evs)) /\ at_rest (fst ex_final) /\
  snd ex_final = [mkReg "n2" 20 "gate" "g2" 5; mkReg "n1" 10 "chat" "c1" 2; mkReg "n2" 20 "chat" "c2" 7]%Z /\
  stored (st (fst ex_final)) "n1" FTotal = 2%Z /\ stored (st (fst ex_final)) "n2" FTotal = 12%Z /\
  members (st (fst ex_final)) "gate" = [mkAddr "n2" "g2" "gate" 20].
Proof. split; [exact ex_runs|]. split; [exact ex_rest|]. repeat split; vm_compute; reflexivity. Qed.
Lemma ex_consistent : consistent (st (fst ex_final)) (snd ex_final).
Proof.
  destruct ex_runs as [evs He]. destruct ex_final as [s L] eqn:E. cbn [fst snd].
  assert (HL : L = live evs).
  { assert (Hx : orun ex_sched = Some ((s, L), evs)) by exact He. clear -Hx.
    vm_compute in Hx. injection Hx as _ <- <-. reflexivity. }
  rewrite HL. apply (orderly_consistent _ _ _ _ He). pose proof ex_rest as Hr. now rewrite E in Hr.
Qed.

(** ** C39 *)
(** False: when a node removes the record of an actor of another node, the host
    keeps the weight and the remover is charged. *)
Definition stale_sched : list label :=
  ([LStart "A" 1; LStart "B" 2; LReg "A" "gate" "g1" 3] ++ repeat (LCmd 0) 5 ++ [LRet 0] ++
   [LUnreg "B" "g1" 3] ++ repeat (LCmd 1) 4 ++ [LRet 1])%Z.
Theorem C39_owner_restored_refuted : exists sched s evs, run step init sched = Some (s, evs) /\ at_rest s /\
  aget "g1" (ids (st s)) = None /\ stored (st s) "A" FTotal = 3%Z /\ stored (st s) "B" FTotal = (-3)%Z.
Proof.
  exists stale_sched. destruct (run step init stale_sched) as [[s e]|] eqn:E; [|vm_compute in E; discriminate].
  exists s, e. vm_compute in E. injection E as <- <-. split; [reflexivity|].
  split; [intros t Ht; repeat destruct Ht as [<-|Ht]; try reflexivity; contradiction|]. repeat split.
Qed.
Print Assumptions C39_owner_restored_refuted.
(** What holds in every state: exactly the two counters of the calling node change. *)
Lemma C39_caller s n id w k s' e :
  run step s (start_and (LUnreg n id w) s k ++ [LRet (List.length (threads s))]) = Some (s', e) ->
  exists a, aget id (ids (st s)) = Some a /\ aget id (ids (st s')) = None /\
  forall m f, stored (st s') m f =
    (stored (st s) m f - if String.eqb m n && (field_eqb f FTotal || field_eqb f (FType (a_ty a))) then w else 0)%Z.
Proof.
  intros H. apply unregister_store in H as (a & A & ->). exists a. split; [exact A|]. split.
  - change (rec (apply_all (st s) (unreg_cmds n id a w)) id = None). unfold apply_all, unreg_cmds. cbn [fold_left].
    rewrite !rec_apply, String.eqb_refl. reflexivity.
  - intros m f. rewrite unreg_stored. destruct (String.eqb m n && _); lia.
Qed.
Theorem C39_caller_charged : forall s n id w k s' e,
  run step s (start_and (LUnreg n id w) s k ++ [LRet (List.length (threads s))]) = Some (s', e) ->
  exists a, aget id (ids (st s)) = Some a /\ aget id (ids (st s')) = None /\
  forall m f, stored (st s') m f =
    (stored (st s) m f - if String.eqb m n && (field_eqb f FTotal || field_eqb f (FType (a_ty a))) then w else 0)%Z.
Proof. exact C39_caller. Qed.
Print Assumptions C39_caller_charged.
(** So the claim holds when the caller hosts the actor.  Missing: removals by others. *)
Lemma C39_owner s n id w k s' e a :
  run step s (start_and (LUnreg n id w) s k ++ [LRet (List.length (threads s))]) = Some (s', e) ->
  aget id (ids (st s)) = Some a -> a_node a = n ->
  stored (st s') (a_node a) FTotal = (stored (st s) (a_node a) FTotal - w)%Z /\
  forall m f, m <> a_node a -> stored (st s') m f = stored (st s) m f.
Proof.
  intros H Ha <-. apply C39_caller in H as (b & B & _ & F). rewrite Ha in B. injection B as <-. split.
  - rewrite F, String.eqb_refl. reflexivity.
  - intros m f Hm. rewrite F. destruct (String.eqb_spec m (a_node a)); [contradiction|]. cbn. lia.
Qed.
Theorem C39_owner_charged_partial : forall s n id w k s' e a,
  run step s (start_and (LUnreg n id w) s k ++ [LRet (List.length (threads s))]) = Some (s', e) ->
  aget id (ids (st s)) = Some a -> a_node a = n ->
  stored (st s') (a_node a) FTotal = (stored (st s) (a_node a) FTotal - w)%Z /\
  forall m f, m <> a_node a -> stored (st s') m f = stored (st s) m f.
Proof. exact C39_owner. Qed.
Print Assumptions C39_owner_charged_partial.
Example C39_case : exists s' e,
  run step (fst ex_final) (start_and (LUnreg "n2" "g2" 5) (fst ex_final) 4 ++ [LRet (List.length (threads (fst ex_final)))]) = Some (s', e) /\
  stored (st s') "n2" FTotal = 7%Z /\ stored (st s') "n1" FTotal = 2%Z.
Proof. eexists _, _. split; [vm_compute; reflexivity|]. split; vm_compute; reflexivity. Qed.

(** ** C40 *)
(** False in both halves: Unregister deletes the record before the membership, and
    Register writes the record before the weight. *)
Theorem C40_member_without_record_refuted : exists sched s evs,
  run step init sched = Some (s, evs) /\ ~ members_have_records (st s).
Proof.
  exists ([LStart "A" 1; LReg "A" "gate" "g1" 3] ++ repeat (LCmd 0) 5 ++ [LRet 0; LUnreg "A" "g1" 3; LCmd 1; LCrash "A"])%Z.
  eexists _, _. split; [vm_compute; reflexivity|]. intros H.
  specialize (H "gate" (mkAddr "A" "g1" "gate" 1) (or_introl eq_refl)). vm_compute in H. discriminate.
Qed.
Print Assumptions C40_member_without_record_refuted.
Theorem C40_undercharged_refuted : exists sched s evs,
  run step init sched = Some (s, evs) /\ ~ not_undercharged (st s) (live evs).
Proof.
  exists [LStart "A" 1; LReg "A" "gate" "g1" 3; LCmd 0; LCmd 0; LCrash "A"]%Z.
  eexists _, _. split; [vm_compute; reflexivity|]. intros H. specialize (H "A"). vm_compute in H. apply H. reflexivity.
Qed.
Print Assumptions C40_undercharged_refuted.
(** What survives.  A crash of Register after any number of commands leaves every
    member with its record; the weight is charged only if all five commands were
    executed. *)
Lemma C40_register s L n ep ty id w k s' e : consistent (st s) L -> (forall r, In r L -> r_id r <> id) ->
  run step s (cut (LReg n ty id w) n s k) = Some (s', EReg n ep ty id w :: e) ->
  members_have_records (st s') /\
  forall m, stored (st s') m FTotal = (total (on_node m) L + if String.eqb m n && Nat.leb 5 k then w else 0)%Z.
Proof.
  intros HC Hid H. apply cut_register in H. rewrite H. split; [now apply register_crash_records with L|].
  intros m. now apply register_crash_weight.
Qed.
Theorem C40_register_cut_partial : forall s L n ep ty id w k s' e, consistent (st s) L -> (forall r, In r L -> r_id r <> id) ->
  run step s (cut (LReg n ty id w) n s k) = Some (s', EReg n ep ty id w :: e) ->
  members_have_records (st s') /\
  forall m, stored (st s') m FTotal = (total (on_node m) L + if String.eqb m n && Nat.leb 5 k then w else 0)%Z.
Proof. exact C40_register. Qed.
Print Assumptions C40_register_cut_partial.
(** A crash of the owner's Unregister after any number of commands charges no node
    less than its surviving records weigh. *)
Lemma C40_unregister s L r k s' e : consistent (st s) L -> In r L -> r_id r <> "" ->
  (forall q, In q L -> (0 <= r_w q)%Z) ->
  run step s (cut (LUnreg (r_node r) (r_id r) (r_w r)) (r_node r) s k) = Some (s', e) ->
  not_undercharged (st s') L.
Proof. intros HC Hr Hne Hw H. apply cut_unregister with (L := L) in H; auto. rewrite H. now apply unregister_crash_charged. Qed.
Theorem C40_unregister_cut_partial : forall s L r k s' e, consistent (st s) L -> In r L -> r_id r <> "" ->
  (forall q, In q L -> (0 <= r_w q)%Z) ->
  run step s (cut (LUnreg (r_node r) (r_id r) (r_w r)) (r_node r) s k) = Some (s', e) ->
  not_undercharged (st s') L.
Proof. exact C40_unregister. Qed.
Print Assumptions C40_unregister_cut_partial.
Example C40_case : consistent (st (fst ex_final)) (snd ex_final) /\
  (exists s' e, run step (fst ex_final) (cut (LReg "n1" "chat" "c3" 4) "n1" (fst ex_final) 3) = Some (s', EReg "n1" 10 "chat" "c3" 4 :: e) /\
     stored (st s') "n1" FTotal = 2%Z) /\
  (exists s' e, run step (fst ex_final) (cut (LUnreg "n2" "g2" 5) "n2" (fst ex_final) 2) = Some (s', e) /\
     stored (st s') "n2" FTotal = 12%Z).
Proof.
  split; [exact ex_consistent|].
  split; eexists _, _; (split; [vm_compute; reflexivity|vm_compute; reflexivity]).
Qed.

(** ** C41 *)
Theorem C41_lookup_by_id : forall sched s evs n p id,
  run step init sched = Some (s, evs) -> aget n (procs s) = Some p ->
  (id = "" -> GetByID n (p_ep p) (p_ids p) (st s) id = Err) /\
  (id <> "" -> holds n id evs = true -> GetByID n (p_ep p) (p_ids p) (st s) id = Ok (mkAddr n id "" (p_ep p))) /\
  (id <> "" -> holds n id evs = false -> forall a,
     GetByID n (p_ep p) (p_ids p) (st s) id = Ok a <-> aget id (ids (st s)) = Some a) /\
  (id <> "" -> holds n id evs = false ->
     GetByID n (p_ep p) (p_ids p) (st s) id = Err <-> aget id (ids (st s)) = None).
Proof. exact lookup. Qed.
Print Assumptions C41_lookup_by_id.
Example C41_case : exists s evs p, run step init ex_sched = Some (s, evs) /\ aget "n1" (procs s) = Some p /\
  holds "n1" "c1" evs = true /\ holds "n1" "g1" evs = false /\ holds "n1" "g2" evs = false /\
  GetByID "n1" (p_ep p) (p_ids p) (st s) "c1" = Ok (mkAddr "n1" "c1" "" 10) /\
  GetByID "n1" (p_ep p) (p_ids p) (st s) "g1" = Err /\
  GetByID "n1" (p_ep p) (p_ids p) (st s) "g2" = Ok (mkAddr "n2" "g2" "gate" 20).
Proof.
  destruct (run step init ex_sched) as [[s e]|] eqn:E; [|vm_compute in E; discriminate].
  vm_compute in E. injection E as <- <-. eexists _, _, _. split; [reflexivity|]. split; [vm_compute; reflexivity|].
  repeat split; vm_compute; reflexivity.
Qed.

(** ** C42 *)
Theorem C42_wildcard_least_loaded : forall s sample a, GetWildcardActor s sample = Ok a ->
  In a sample /\ exists w, node_weight s (a_node a) = Some w /\
    forall b v, In b sample -> node_weight s (a_node b) = Some v -> (w <= v)%Z.
Proof. exact wildcard_least. Qed.
Print Assumptions C42_wildcard_least_loaded.
Theorem C42_wildcard_error : forall s sample, GetWildcardActor s sample = Err <->
  (forall b v, In b sample -> node_weight s (a_node b) = Some v -> (2 ^ 63 - 1 <= v)%Z).
Proof. exact wildcard_err. Qed.
Print Assumptions C42_wildcard_error.
(** The sample is drawn from the type's members; with at most ten of them the
    answer is least loaded among all, and of the requested type. *)
Lemma C42_all s L ty sample a : consistent s L -> sample_of (members s ty) sample -> GetWildcardActor s sample = Ok a ->
  (exists r, In r L /\ r_ty r = ty /\ a = addr_of r) /\
  (List.length (members s ty) <= 10 -> forall r, In r L -> r_ty r = ty ->
     (total (on_node (a_node a)) L <= total (on_node (r_node r)) L)%Z).
Proof.
  intros HC HS H. apply wildcard_least in H as (A & w & W & B). split.
  - apply (c_member _ _ HC). now apply HS.
  - intros Hle r Hr Ht. assert (Hm : In (addr_of r) (members s ty)) by (apply (c_member _ _ HC); eauto).
    pose proof (small_sample _ _ (c_set _ _ HC ty) HS Hle _ Hm) as Hin.
    destruct (c_node _ _ HC r Hr) as [ep Hep]. destruct (c_weight _ _ HC _ _ Hep) as [v Hv].
    pose proof (B _ v Hin Hv) as Hwv.
    rewrite <- !(c_total _ _ HC). unfold stored. unfold node_weight in W. now rewrite W, Hv.
Qed.
Theorem C42_wildcard_global : forall s L ty sample a,
  consistent s L -> sample_of (members s ty) sample -> GetWildcardActor s sample = Ok a ->
  (exists r, In r L /\ r_ty r = ty /\ a = addr_of r) /\
  (List.length (members s ty) <= 10 -> forall r, In r L -> r_ty r = ty ->
     (total (on_node (a_node a)) L <= total (on_node (r_node r)) L)%Z).
Proof. exact C42_all. Qed.
Print Assumptions C42_wildcard_global.
Example C42_case : let s := st (fst ex_final) in
  consistent s (snd ex_final) /\ sample_of (members s "chat") [mkAddr "n2" "c2" "chat" 20; mkAddr "n1" "c1" "chat" 10] /\
  GetWildcardActor s [mkAddr "n2" "c2" "chat" 20; mkAddr "n1" "c1" "chat" 10] = Ok (mkAddr "n1" "c1" "chat" 10) /\
  GetWildcardActor s [] = Err.
Proof.
  split; [exact ex_consistent|]. split; [|split; vm_compute; reflexivity]. split; [|split].
  - repeat constructor; cbn; intuition discriminate.
  - intros a [<-|[<-|[]]]; vm_compute; auto.
  - vm_compute. reflexivity.
Qed.

(** ** C43 *)
(** False: the two loops over the map may use different orders, and the weight of
    one node is then taken for that of another. *)
Theorem C43_lightest_node_refuted : exists s L ord1 ord2 n ep m, consistent s L /\
  Permutation ord1 (nodes s) /\ Permutation ord2 (nodes s) /\
  GetLowWeightNodeForActor s ord1 ord2 = Ok (n, ep) /\
  (exists r, In r L /\ r_node r = m) /\ (total (on_node m) L < total (on_node n) L)%Z.
Proof.
  exists (st (fst ex_final)), (snd ex_final), [("n1", 10); ("n2", 20)], [("n2", 20); ("n1", 10)], "n2", 20, "n1".
  split; [exact ex_consistent|]. split; [|split; [|split; [|split]]].
  - vm_compute. apply Permutation_refl.
  - vm_compute. apply perm_swap.
  - vm_compute. reflexivity.
  - exists (mkReg "n1" 10 "chat" "c1" 2). split; [vm_compute; auto|reflexivity].
  - vm_compute. reflexivity.
Qed.
Print Assumptions C43_lightest_node_refuted.
(** It holds when the orders agree (missing: different orders), and the answer is
    a registered node in any case. *)
Theorem C43_lightest_node_partial : forall s ord n ep, Permutation ord (nodes s) ->
  GetLowWeightNodeForActor s ord ord = Ok (n, ep) ->
  In (n, ep) (nodes s) /\ exists w, node_weight s n = Some w /\
    forall m e v, In (m, e) (nodes s) -> node_weight s m = Some v -> (w <= v)%Z.
Proof. exact low_weight_same_order. Qed.
Print Assumptions C43_lightest_node_partial.
Theorem C43_node_registered : forall s ord1 ord2 n ep, Permutation ord2 (nodes s) ->
  GetLowWeightNodeForActor s ord1 ord2 = Ok (n, ep) -> In (n, ep) (nodes s).
Proof. exact low_weight_registered. Qed.
Print Assumptions C43_node_registered.
Example C43_case : GetLowWeightNodeForActor (st (fst ex_final)) [("n2", 20); ("n1", 10)] [("n2", 20); ("n1", 10)] = Ok ("n1", 10).
Proof. vm_compute. reflexivity. Qed.

(** ** C44 *)
Lemma C44_l s L n k s' e : consistent (st s) L -> run step s (full_clear n s k) = Some (s', e) ->
  (forall ty a, In a (members (st s') ty) -> a_node a <> n) /\
  (forall id a, aget id (ids (st s')) = Some a -> a_node a <> n) /\
  aget n (nodes (st s')) = None /\ (forall f, fget f (fields (st s') n) = None) /\
  (forall ty a, a_node a <> n -> (In a (members (st s') ty) <-> In a (members (st s) ty))) /\
  (forall id a, a_node a <> n -> (aget id (ids (st s')) = Some a <-> aget id (ids (st s)) = Some a)) /\
  (forall m, m <> n -> aget m (nodes (st s')) = aget m (nodes (st s))) /\
  (forall m f, m <> n -> fget f (fields (st s') m) = fget f (fields (st s) m)) /\
  consistent (st s') (filter (fun r => negb (String.eqb (r_node r) n)) L).
Proof. intros HC H. apply clear_store in H. rewrite H. now apply clear_exact. Qed.
Theorem C44_clear_exact : forall s L n k s' e,
  consistent (st s) L -> run step s (full_clear n s k) = Some (s', e) ->
  (forall ty a, In a (members (st s') ty) -> a_node a <> n) /\
  (forall id a, aget id (ids (st s')) = Some a -> a_node a <> n) /\
  aget n (nodes (st s')) = None /\ (forall f, fget f (fields (st s') n) = None) /\
  (forall ty a, a_node a <> n -> (In a (members (st s') ty) <-> In a (members (st s) ty))) /\
  (forall id a, a_node a <> n -> (aget id (ids (st s')) = Some a <-> aget id (ids (st s)) = Some a)) /\
  (forall m, m <> n -> aget m (nodes (st s')) = aget m (nodes (st s))) /\
  (forall m f, m <> n -> fget f (fields (st s') m) = fget f (fields (st s) m)) /\
  consistent (st s') (filter (fun r => negb (String.eqb (r_node r) n)) L).
Proof. exact C44_l. Qed.
Print Assumptions C44_clear_exact.
Example C44_case : consistent (st (fst ex_final)) (snd ex_final) /\
  exists k s' e, run step (fst ex_final) (full_clear "n2" (fst ex_final) k) = Some (s', e) /\
  ids (st (fst ex_final)) = [("g2", mkAddr "n2" "g2" "gate" 20); ("c1", mkAddr "n1" "c1" "chat" 10); ("c2", mkAddr "n2" "c2" "chat" 20)] /\
  ids (st s') = [("c1", mkAddr "n1" "c1" "chat" 10)].
Proof.
  split; [exact ex_consistent|]. exists 6. eexists _, _. split; [vm_compute; reflexivity|]. split; vm_compute; reflexivity.
Qed.

(** ** C45 *)
(** False, in every execution: an id held before Clear is refused after it, and
    lookups of the node still answer from the old registration. *)
Lemma C45_refused_l sched s evs n p id ty w t : run step init sched = Some (s, evs) -> aget n (procs s) = Some p ->
  holds n id evs = true -> In (ERet t n OClear) evs -> id <> "" ->
  step s (LReg n ty id w) = Some (s, [ERefused n id]) /\
  GetByID n (p_ep p) (p_ids p) (st s) id = Ok (mkAddr n id "" (p_ep p)).
Proof.
  intros H Hp Hh _ Hi. split.
  - cbn. rewrite Hp, (idmap_holds _ _ _ H _ _ _ Hp), Hh, orb_true_r. reflexivity.
  - unfold GetByID. rewrite (idmap_holds _ _ _ H _ _ _ Hp), Hh. destruct (String.eqb_spec id ""); [contradiction|reflexivity].
Qed.
Theorem C45_refused_after_clear : forall sched s evs n p id ty w t,
  run step init sched = Some (s, evs) -> aget n (procs s) = Some p ->
  holds n id evs = true -> In (ERet t n OClear) evs -> id <> "" ->
  step s (LReg n ty id w) = Some (s, [ERefused n id]) /\
  GetByID n (p_ep p) (p_ids p) (st s) id = Ok (mkAddr n id "" (p_ep p)).
Proof. exact C45_refused_l. Qed.
Print Assumptions C45_refused_after_clear.
Definition cleared_sched : list label :=
  ([LStart "A" 1; LReg "A" "gate" "g1" 3] ++ repeat (LCmd 0) 5 ++ [LRet 0; LClear "A"] ++ repeat (LCmd 1) 4 ++ [LRet 1])%Z.
Theorem C45_reregister_refuted : exists sched s evs p, run step init sched = Some (s, evs) /\ at_rest s /\
  aget "A" (procs s) = Some p /\ (exists evs0, evs = evs0 ++ [EClear "A"; ERet 1 "A" OClear]) /\
  ids (st s) = [] /\ step s (LReg "A" "gate" "g1" 3) = Some (s, [ERefused "A" "g1"]) /\
  GetByID "A" (p_ep p) (p_ids p) (st s) "g1" = Ok (mkAddr "A" "g1" "" 1).
Proof.
  exists cleared_sched. destruct (run step init cleared_sched) as [[s e]|] eqn:E; [|vm_compute in E; discriminate].
  vm_compute in E. injection E as <- <-. eexists _, _, (mkProc 1 ["g1"]). split; [reflexivity|].
  split; [intros t Ht; repeat destruct Ht as [<-|Ht]; try reflexivity; contradiction|].
  split; [reflexivity|]. split; [eexists [_; _; _]; reflexivity|]. split; [reflexivity|]. split; vm_compute; reflexivity.
Qed.
Print Assumptions C45_reregister_refuted.
(** What holds: an id the process does not hold (never registered by it, or
    unregistered, or the process is new) is accepted.  Missing: held ids. *)
Lemma C45_fresh sched s evs n p id ty w : run step init sched = Some (s, evs) -> aget n (procs s) = Some p ->
  holds n id evs = false -> id <> "" -> ty <> "" ->
  exists s', step s (LReg n ty id w) = Some (s', [EReg n (p_ep p) ty id w]).
Proof.
  intros H Hp Hh Hi Ht. cbn. rewrite Hp, (idmap_holds _ _ _ H _ _ _ Hp), Hh.
  destruct (String.eqb_spec id ""); [contradiction|]. destruct (String.eqb_spec ty ""); [contradiction|]. cbn. eauto.
Qed.
Theorem C45_reregister_partial : forall sched s evs n p id ty w,
  run step init sched = Some (s, evs) -> aget n (procs s) = Some p ->
  holds n id evs = false -> id <> "" -> ty <> "" ->
  exists s', step s (LReg n ty id w) = Some (s', [EReg n (p_ep p) ty id w]).
Proof. exact C45_fresh. Qed.
Print Assumptions C45_reregister_partial.
Example C45_case : exists s evs p, run step init (cleared_sched ++ [LCrash "A"; LStart "A" 1]) = Some (s, evs) /\
  aget "A" (procs s) = Some p /\ holds "A" "g1" evs = false.
Proof.
  destruct (run step init (cleared_sched ++ [LCrash "A"; LStart "A" 1])) as [[s e]|] eqn:E; [|vm_compute in E; discriminate].
  vm_compute in E. injection E as <- <-. eexists _, _, _. split; [reflexivity|]. split; vm_compute; reflexivity.
Qed.

(** ** C70 *)
(** False: a Register that died after writing the address record but before the
    type counter is invisible to Clear; the record of the dead actor stays. *)
Definition orphan_sched : list label :=
  ([LStart "A" 1; LReg "A" "gate" "g1" 3; LCmd 0; LCmd 0; LCmd 0; LCrash "A"; LStart "A" 1; LClear "A"] ++
   repeat (LCmd 1) 2 ++ [LRet 1])%Z.
Theorem C70_clear_repairs_refuted : exists sched s evs, run step init sched = Some (s, evs) /\ at_rest s /\
  (exists evs0, evs = evs0 ++ [EClear "A"; ERet 1 "A" OClear]) /\
  aget "g1" (ids (st s)) = Some (mkAddr "A" "g1" "gate" 1) /\ members (st s) "gate" = [mkAddr "A" "g1" "gate" 1].
Proof.
  exists orphan_sched. destruct (run step init orphan_sched) as [[s e]|] eqn:E; [|vm_compute in E; discriminate].
  vm_compute in E. injection E as <- <-. eexists _, _. split; [reflexivity|].
  split; [intros t Ht; repeat destruct Ht as [<-|Ht]; try reflexivity; contradiction|].
  split; [eexists [_; _; _]; reflexivity|]. split; reflexivity.
Qed.
Print Assumptions C70_clear_repairs_refuted.
(** A crash in Unregister is always repaired by the next process's Clear. *)
Lemma C70_unreg s L r k s1 e1 ep s2 e2 k' s3 e3 : consistent (st s) L -> In r L -> r_id r <> "" ->
  run step s (cut (LUnreg (r_node r) (r_id r) (r_w r)) (r_node r) s k) = Some (s1, e1) ->
  step s1 (LStart (r_node r) ep) = Some (s2, e2) -> run step s2 (full_clear (r_node r) s2 k') = Some (s3, e3) ->
  consistent (st s3) (filter (fun q => negb (String.eqb (r_node q) (r_node r))) L).
Proof.
  intros HC Hr Hne H1 H2 H3. apply cut_unregister with (L := L) in H1; auto. apply clear_store in H3.
  assert (E : st s2 = st s1).
  { cbn [step] in H2. destruct (aget (r_node r) (procs s1)); [discriminate|]. now injection H2 as <- <-. }
  rewrite H3, E, H1. now apply (clear_after_unregister (st s) L r k).
Qed.
Theorem C70_clear_after_unregister_crash : forall s L r k s1 e1 ep s2 e2 k' s3 e3,
  consistent (st s) L -> In r L -> r_id r <> "" ->
  run step s (cut (LUnreg (r_node r) (r_id r) (r_w r)) (r_node r) s k) = Some (s1, e1) ->
  step s1 (LStart (r_node r) ep) = Some (s2, e2) -> run step s2 (full_clear (r_node r) s2 k') = Some (s3, e3) ->
  consistent (st s3) (filter (fun q => negb (String.eqb (r_node q) (r_node r))) L).
Proof. exact C70_unreg. Qed.
Print Assumptions C70_clear_after_unregister_crash.
(** A crash in Register is repaired if no or at least four commands were executed,
    or at least two and the node has a counter for the type.  Missing: the rest. *)
Lemma C70_reg s L n ep0 ty id w k s1 e1 ep s2 e2 k' s3 e3 : consistent (st s) L ->
  (forall r, In r L -> r_id r <> id) ->
  k = 0 \/ 4 <= k \/ (2 <= k /\ exists r, In r L /\ r_node r = n /\ r_ty r = ty) ->
  run step s (cut (LReg n ty id w) n s k) = Some (s1, EReg n ep0 ty id w :: e1) ->
  step s1 (LStart n ep) = Some (s2, e2) -> run step s2 (full_clear n s2 k') = Some (s3, e3) ->
  consistent (st s3) (filter (fun q => negb (String.eqb (r_node q) n)) L).
Proof.
  intros HC Hid Hk H1 H2 H3. apply cut_register in H1. apply clear_store in H3.
  assert (E : st s2 = st s1).
  { cbn [step] in H2. destruct (aget n (procs s1)); [discriminate|]. now injection H2 as <- <-. }
  rewrite H3, E, H1. apply (clear_after_register (st s) L); auto.
  destruct Hk as [Hk|[Hk|[Hk (r & R1 & <- & <-)]]]; [left; auto|right; left; auto|right; right; split; [exact Hk|]].
  now apply (c_field _ _ HC).
Qed.
Theorem C70_clear_after_register_crash_partial : forall s L n ep0 ty id w k s1 e1 ep s2 e2 k' s3 e3,
  consistent (st s) L -> (forall r, In r L -> r_id r <> id) ->
  k = 0 \/ 4 <= k \/ (2 <= k /\ exists r, In r L /\ r_node r = n /\ r_ty r = ty) ->
  run step s (cut (LReg n ty id w) n s k) = Some (s1, EReg n ep0 ty id w :: e1) ->
  step s1 (LStart n ep) = Some (s2, e2) -> run step s2 (full_clear n s2 k') = Some (s3, e3) ->
  consistent (st s3) (filter (fun q => negb (String.eqb (r_node q) n)) L).
Proof. exact C70_reg. Qed.
Print Assumptions C70_clear_after_register_crash_partial.
Example C70_case : consistent (st (fst ex_final)) (snd ex_final) /\
  exists s1 e1 s2 e2 s3 e3 k',
  run step (fst ex_final) (cut (LUnreg "n2" "g2" 5) "n2" (fst ex_final) 1) = Some (s1, e1) /\
  step s1 (LStart "n2" 20) = Some (s2, e2) /\ run step s2 (full_clear "n2" s2 k') = Some (s3, e3) /\
  members (st s1) "gate" = [mkAddr "n2" "g2" "gate" 20] /\ members (st s3) "gate" = [].
Proof.
  split; [exact ex_consistent|]. eexists _, _, _, _, _, _, 6. split; [vm_compute; reflexivity|].
  split; [vm_compute; reflexivity|]. split; [vm_compute; reflexivity|]. split; vm_compute; reflexivity.
Qed.
