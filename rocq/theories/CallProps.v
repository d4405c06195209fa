(** C30, C31, C33, C34, C66, C68: calls between the actors of a node.  [aty]
    gives the type of an actor. *)
From Coq Require Import List String ZArith Bool.
From Verif Require Import Machine CallModel CallSpec CallProofs CallTrace CallMain CallLive.
Import ListNotations.
Open Scope string_scope.
Open Scope list_scope.

(** ** C30 *)
Definition h0 : header := mkH "uid-1" "" "" "" "" "" "" "tok" 7 [1; 2]%Z.
Definition m0 : message := mkMsg h0 [9]%Z.
Definition c1 : acall := mkC "a-1" "A" "b-1" "B" "ask".
Definition c2 : acall := mkC "b-1" "B" "c-1" "C" "fwd".

(** The origin is the first actor of the chain (unless the message already had
    one), whatever the rest of the chain does, including passing through other
    nodes. *)
Lemma C30_org c hs m : cid c <> "" -> 
  origin (do_hops (hop_of c :: hs) m) = if hOrgID (mHeader m) =? "" then (cid c, cty c) else origin m.
Proof.
  intros Hc. change (do_hops (hop_of c :: hs) m) with (do_hops hs (do_hop (hop_of c) m)).
  destruct (String.eqb_spec (hOrgID (mHeader m)) "") as [E|E].
  - assert (Ho := hop_first c m E). rewrite hops_org; [exact Ho|]. apply (f_equal fst) in Ho. cbn [fst] in Ho.
    change (fst (origin (do_hop (hop_of c) m))) with (hOrgID (mHeader (do_hop (hop_of c) m))) in Ho. now rewrite Ho.
  - assert (Ho := hop_org (hop_of c) m E). rewrite hops_org; [exact Ho|]. apply (f_equal fst) in Ho.
    change (fst (origin (do_hop (hop_of c) m))) with (hOrgID (mHeader (do_hop (hop_of c) m))) in Ho. now rewrite Ho.
Qed.
Theorem C30_origin_is_first_sender : forall c hs m, cid c <> "" ->
  (hOrgID (mHeader (do_hops (hop_of c :: hs) m)), hOrgTy (mHeader (do_hops (hop_of c :: hs) m))) =
  if hOrgID (mHeader m) =? "" then (cid c, cty c) else (hOrgID (mHeader m), hOrgTy (mHeader m)).
Proof. exact C30_org. Qed.
Print Assumptions C30_origin_is_first_sender.
Example C30_origin_case : cid c1 <> "" /\
  hOrgID (mHeader (do_hops [hop_of c1; Remote; hop_of c2; SystemCall "x" "X" "e"] m0)) = "a-1".
Proof. split; [discriminate|vm_compute; reflexivity]. Qed.

(** The latest hop's sender type, event and target are in the header. *)
Lemma C30_last hs c m : let h := mHeader (do_hops (hs ++ [hop_of c]) m) in
  hPrevTy h = cty c /\ hEvent h = cev c /\ hTgtID h = ctgt c /\ hTgtTy h = ctty c.
Proof. cbn zeta. rewrite hops_snoc. cbn. auto. Qed.
Theorem C30_latest_hop : forall hs c m, let h := mHeader (do_hops (hs ++ [hop_of c]) m) in
  hPrevTy h = cty c /\ hEvent h = cev c /\ hTgtID h = ctgt c /\ hTgtTy h = ctty c.
Proof. exact C30_last. Qed.
Print Assumptions C30_latest_hop.
(** A call or send from outside the actors names event and target, and no sender: the types of the
    senders before stay. *)
Theorem C30_latest_system : forall hs target tty event m,
  let h := mHeader (do_hops (hs ++ [SystemCall target tty event]) m) in
  hEvent h = event /\ hTgtID h = target /\ hTgtTy h = tty /\
  hPrevTy h = hPrevTy (mHeader (do_hops hs m)) /\ hOrgID h = hOrgID (mHeader (do_hops hs m)) /\ hOrgTy h = hOrgTy (mHeader (do_hops hs m)).
Proof. intros hs target tty event m. cbn zeta. rewrite hops_snoc. cbn. repeat split. Qed.
Print Assumptions C30_latest_system.
Example C30_latest_system_case : do_hops [hop_of c1; SystemCall "c-1" "C" "fwd"] m0 =
  mkMsg (mkH "uid-1" "a-1" "A" "A" "c-1" "C" "fwd" "tok" 7 [1; 2]%Z) [9]%Z.
Proof. vm_compute. reflexivity. Qed.
(** Nothing else changes. *)
Theorem C30_rest_unchanged : forall hs m, payload (do_hops hs m) = payload m.
Proof. exact hops_payload. Qed.
Print Assumptions C30_rest_unchanged.
Example C30_case : do_hops [hop_of c1; hop_of c2] m0 =
  mkMsg (mkH "uid-1" "a-1" "A" "B" "c-1" "C" "fwd" "tok" 7 [1; 2]%Z) [9]%Z.
Proof. vm_compute. reflexivity. Qed.
(** False across nodes: the receiving node replaces the type of the preceding
    actor by "GrpcAcceptor". *)
Theorem C30_previous_actor_remote_refuted : exists c m, cid c <> "" /\
  hPrevTy (mHeader (do_hops [hop_of c; Remote] m)) <> cty c.
Proof. exists c1, m0. split; vm_compute; discriminate. Qed.
Print Assumptions C30_previous_actor_remote_refuted.
(** The event and the target do survive any number of node boundaries. *)
Lemma C30_remote hs c k m : let h := mHeader (do_hops (hs ++ hop_of c :: repeat Remote k) m) in
  hEvent h = cev c /\ hTgtID h = ctgt c /\ hTgtTy h = ctty c.
Proof.
  induction k as [|k IH]; cbn zeta in *.
  - cbn [repeat]. destruct (C30_last hs c m) as (_ & H). exact H.
  - replace (hs ++ hop_of c :: repeat Remote (S k)) with ((hs ++ hop_of c :: repeat Remote k) ++ [Remote]).
    + rewrite hops_snoc. exact IH.
    + rewrite <- app_assoc. cbn [app]. do 2 f_equal. rewrite <- repeat_cons. reflexivity.
Qed.
Theorem C30_latest_hop_remote_partial : forall hs c k m,
  let h := mHeader (do_hops (hs ++ hop_of c :: repeat Remote k) m) in
  hEvent h = cev c /\ hTgtID h = ctgt c /\ hTgtTy h = ctty c.
Proof. exact C30_remote. Qed.
Print Assumptions C30_latest_hop_remote_partial.

(** ** A call tree *)
Ltac find_in := first [left; reflexivity | right; find_in].
Ltac not_in H := repeat (destruct H as [H|H]; [discriminate H|]); exact H.
Definition ty (a : string) : string := "T".
(** Outside code calls [a]; its handler calls [b] with the same wrapper and [c]
    with a wrapper made from the same context; [b]'s handler calls [a], which is
    refused because [a] is the origin. *)
Definition enter_ i := [LCount i; LReceived i; LPush i].
Definition tree_sched : list label :=
  [LNew m0 5; LNew m0 5; LCall None 0 "a" "T" "go"] ++ enter_ 0 ++ [LSelect 0; LPop "a"]
  ++ [LCall (Some "a") 0 "b" "T" "one"] ++ enter_ 1
  ++ [LCall (Some "a") 1 "c" "T" "two"] ++ enter_ 2
  ++ [LPop "b"; LFinish "a" Fine]
  ++ [LCall (Some "b") 0 "a" "T" "back"; LCount 3; LReceived 3]
  ++ [LFinish "b" Fine; LPop "c"; LFinish "c" Failed]
  ++ [LWake 0 false; LCloseDone 0; LReturn 0].
Definition tree_evs : list event :=
  match run (step ty) init tree_sched with Some (_, e) => e | None => [] end.
Definition tree_end : state :=
  match run (step ty) init tree_sched with Some (s, _) => s | None => init end.
Example tree_run : run (step ty) init tree_sched = Some (tree_end, tree_evs) /\
  tree_evs = [ECall 0 None None 0 5 "a" "go" ""; ESent 0; EDispatch "a" 0 "go";
    ECall 1 (Some "a") (Some 0) 0 5 "b" "one" "a"; ESent 1; EReturn 1 true;
    ECall 2 (Some "a") (Some 0) 1 5 "c" "two" "a"; ESent 2; EReturn 2 true;
    EDispatch "b" 1 "one"; EHandled 0 Fine;
    ECall 3 (Some "b") (Some 1) 0 5 "a" "back" "a"; ERefused 3 true; EReturn 3 false;
    EHandled 1 Fine; EDispatch "c" 2 "two"; EHandled 2 Failed;
    EWake 0 false; EReturn 0 true].
Proof. vm_compute. auto. Qed.

(** ** C31 *)
(** A call whose message originates from its target is never delivered and
    never succeeds ... *)
Theorem C31_never_delivered : forall aty sched s evs i b p w g target ev,
  run (step aty) init sched = Some (s, evs) ->
  In (ECall i b p w g target ev target) evs -> target <> "" ->
  ~ In (ESent i) evs /\ ~ In (EReturn i true) evs.
Proof. exact self_refused. Qed.
Print Assumptions C31_never_delivered.
(** ... and while it has not returned, its own next steps refuse it, without
    waiting for anything, without touching any mailbox or wait group. *)
Theorem C31_refused_at_once : forall aty sched s evs i b p w g target ev,
  run (step aty) init sched = Some (s, evs) -> crashed s = false ->
  In (ECall i b p w g target ev target) evs -> target <> "" -> (forall ok, ~ In (EReturn i ok) evs) ->
  exists ls s', forallb (own i) ls = true /\ run (step aty) s ls = Some (s', [ERefused i true; EReturn i false]) /\
    wgs s' = wgs s /\ box s' = box s.
Proof. exact self_finishes. Qed.
Print Assumptions C31_refused_at_once.
Example C31_case : In (ECall 3 (Some "b") (Some 1) 0 5 "a" "back" "a") tree_evs /\
  exists s evs, run (step ty) init (firstn 19 tree_sched) = Some (s, evs) /\ crashed s = false /\
    In (ECall 3 (Some "b") (Some 1) 0 5 "a" "back" "a") evs /\ forall ok, ~ In (EReturn 3 ok) evs.
Proof.
  split; [vm_compute; find_in|]. vm_compute. do 2 eexists. split; [reflexivity|]. split; [reflexivity|].
  split; [find_in|]. intros ok H. repeat (destruct H as [H|H]; [discriminate H|]). exact H.
Qed.

(** ** C33 *)
(** When a call made outside any handler returns nil and its internal timeout
    has not fired, its own message and everything below it has been handled.
    [sole_root]: nobody else uses the context for calls of their own. *)
Theorem C33_root_waits_for_tree : forall aty sched s evs i g pre post par w target ev org,
  run (step aty) init sched = Some (s, evs) ->
  evs = pre ++ EReturn i true :: post -> In (ECall i None par w g target ev org) evs ->
  sole_root evs g i -> ~ In (EWake i true) evs ->
  handled pre i /\ forall j, in_tree evs g i j -> In (ESent j) evs -> handled pre j.
Proof. exact root_waits. Qed.
Print Assumptions C33_root_waits_for_tree.
Example C33_case : sole_root tree_evs 5 0 /\ ~ In (EWake 0 true) tree_evs /\
  in_tree tree_evs 5 0 1 /\ in_tree tree_evs 5 0 2 /\ In (ESent 1) tree_evs /\ In (ESent 2) tree_evs.
Proof.
  assert (U0 : uses tree_evs 0 5) by (exists None, None, 0, "a", "go", ""; vm_compute; find_in).
  assert (U1 : uses tree_evs 1 5) by (exists (Some "a"), (Some 0), 0, "b", "one", "a"; vm_compute; find_in).
  assert (U2 : uses tree_evs 2 5) by (exists (Some "a"), (Some 0), 1, "c", "two", "a"; vm_compute; find_in).
  assert (U3 : uses tree_evs 3 5) by (exists (Some "b"), (Some 1), 0, "a", "back", "a"; vm_compute; find_in).
  assert (M1 : made_by tree_evs 1 0) by (exists (Some "a"), 0, 5, "b", "one", "a"; vm_compute; find_in).
  assert (M2 : made_by tree_evs 2 0) by (exists (Some "a"), 1, 5, "c", "two", "a"; vm_compute; find_in).
  assert (M3 : made_by tree_evs 3 1) by (exists (Some "b"), 0, 5, "a", "back", "a"; vm_compute; find_in).
  split.
  - intros j (b & p & w & to_ & ev & org & H) Hj. vm_compute in H.
    repeat (destruct H as [H|H]; [try discriminate H|]); try contradiction;
      injection H as <- _ _ _ _ _ _; [congruence|exists 0; auto|exists 0; auto|exists 1; auto].
  - split; [vm_compute; intros X; not_in X|]. split; [|split; [|split; vm_compute; find_in]].
    + eapply tree_call; [apply tree_root; exact U0|exact M1|exact U1].
    + eapply tree_call; [apply tree_root; exact U0|exact M2|exact U2].
Qed.
(** And it does not wait for more than that: once every call made with its
    context has returned and every message sent with it has been handled, its
    own steps return nil, without its timeout. *)
Theorem C33_root_can_return : forall aty sched s evs i g par w target ev org,
  run (step aty) init sched = Some (s, evs) -> crashed s = false ->
  In (ECall i None par w g target ev org) evs -> In (ESent i) evs -> (forall ok, ~ In (EReturn i ok) evs) ->
  sole_root evs g i ->
  (forall j, uses evs j g -> j <> i -> exists ok, In (EReturn j ok) evs) ->
  (forall j, uses evs j g -> In (ESent j) evs -> handled evs j) ->
  exists ls s' e, forallb (root_label i) ls = true /\ run (step aty) s ls = Some (s', e) /\ In (EReturn i true) e.
Proof. exact root_returns. Qed.
Print Assumptions C33_root_can_return.
Example C33_root_can_return_case : exists s evs, run (step ty) init (firstn 24 tree_sched) = Some (s, evs) /\
  crashed s = false /\ In (ECall 0 None None 0 5 "a" "go" "") evs /\ In (ESent 0) evs /\ (forall ok, ~ In (EReturn 0 ok) evs) /\
  (forall j, In (ESent j) evs -> handled evs j).
Proof.
  vm_compute. do 2 eexists. split; [reflexivity|]. split; [reflexivity|]. split; [find_in|]. split; [find_in|].
  split; [intros ok H; repeat (destruct H as [H|H]; [discriminate H|]); exact H|].
  intros j H. repeat (destruct H as [H|H]; [try discriminate H|]); try contradiction;
    injection H as <-; eexists; find_in.
Qed.
(** A call made by a handler with the context of its message never waits for
    another handler: its own next steps finish it, whatever state the target is
    in. *)
Theorem C33_nested_call_does_not_block : forall aty sched s evs j k g t,
  run (step aty) init sched = Some (s, evs) -> crashed s = false ->
  made_by evs j k -> uses evs k g -> uses evs j g ->
  nth_error (threads s) j = Some t -> tst t <> Ret ->
  exists ls s' e ok, forallb (own j) ls = true /\ run (step aty) s ls = Some (s', e) /\ In (EReturn j ok) e.
Proof. exact nested_returns. Qed.
Print Assumptions C33_nested_call_does_not_block.
Example C33_nested_case : exists s evs t, run (step ty) init (firstn 9 tree_sched) = Some (s, evs) /\ crashed s = false /\
  In (ECall 1 (Some "a") (Some 0) 0 5 "b" "one" "a") evs /\ nth_error (threads s) 1 = Some t /\ tst t <> Ret.
Proof.
  vm_compute. do 3 eexists. split; [reflexivity|]. split; [reflexivity|]. split; [find_in|].
  split; [reflexivity|discriminate].
Qed.

(** ** C34 *)
(** False: the handler failed, or the internal timeout fired before it ended,
    and Call returned nil. *)
Theorem C34_failed_handler_reported_refuted : exists sched s evs,
  run (step ty) init sched = Some (s, evs) /\ In (EHandled 0 Failed) evs /\ In (EReturn 0 true) evs.
Proof.
  eexists ([LNew m0 5; LCall None 0 "a" "T" "go"] ++ enter_ 0 ++ [LSelect 0; LPop "a"; LFinish "a" Failed; LWake 0 false; LCloseDone 0; LReturn 0]).
  do 2 eexists. split; [vm_compute; reflexivity|]. split; vm_compute; find_in.
Qed.
Print Assumptions C34_failed_handler_reported_refuted.
Theorem C34_timeout_reported_refuted : exists sched s evs,
  run (step ty) init sched = Some (s, evs) /\ In (EReturn 0 true) evs /\ ~ handled evs 0.
Proof.
  eexists ([LNew m0 5; LCall None 0 "a" "T" "go"] ++ enter_ 0 ++ [LSelect 0; LWake 0 true; LCloseDone 0; LReturn 0]).
  do 2 eexists. split; [vm_compute; reflexivity|]. split; [vm_compute; find_in|].
  intros [o H]. repeat (destruct H as [H|H]; [discriminate H|]). exact H.
Qed.
Print Assumptions C34_timeout_reported_refuted.
(** What is reported: a refusal by the target (self-call, closed actor). *)
Theorem C34_refusal_reported_partial : forall aty sched s evs i self,
  run (step aty) init sched = Some (s, evs) -> In (ERefused i self) evs -> ~ In (EReturn i true) evs.
Proof. exact refused_reported. Qed.
Print Assumptions C34_refusal_reported_partial.
Example C34_refusal_case : In (ERefused 3 true) tree_evs.
Proof. vm_compute. intuition. Qed.
(** And nil from a root call that did not time out means that the handler has
    ended (with whatever outcome). *)
Lemma C34_nil aty sched s evs i g par w target ev org :
  run (step aty) init sched = Some (s, evs) -> In (EReturn i true) evs -> In (ECall i None par w g target ev org) evs ->
  sole_root evs g i -> ~ In (EWake i true) evs -> handled evs i.
Proof.
  intros H Hr Hc Hs Hw. apply in_split in Hr as (pre & post & E).
  destruct (root_waits aty sched s evs i g pre post par w target ev org H E Hc Hs Hw) as [[o Ho] _].
  exists o. rewrite E. apply in_or_app. auto.
Qed.
Theorem C34_nil_means_ended_partial : forall aty sched s evs i g par w target ev org,
  run (step aty) init sched = Some (s, evs) -> In (EReturn i true) evs -> In (ECall i None par w g target ev org) evs ->
  sole_root evs g i -> ~ In (EWake i true) evs -> handled evs i.
Proof. exact C34_nil. Qed.
Print Assumptions C34_nil_means_ended_partial.

(** ** C66 *)
(** False: a handler that calls [b] and then [c] with its wrapper overwrites the
    event of the message waiting in [b]'s mailbox. *)
Theorem C66_event_of_the_call_refuted : exists sched s evs,
  run (step ty) init sched = Some (s, evs) /\
  In (ECall 1 (Some "a") (Some 0) 0 5 "b" "one" "a") evs /\ In (EDispatch "b" 1 "two") evs.
Proof.
  eexists ([LNew m0 5; LCall None 0 "a" "T" "go"] ++ enter_ 0 ++ [LSelect 0; LPop "a"; LCall (Some "a") 0 "b" "T" "one"]
    ++ enter_ 1 ++ [LCall (Some "a") 0 "c" "T" "two"] ++ enter_ 2 ++ [LPop "b"]).
  do 2 eexists. split; [vm_compute; reflexivity|]. split; vm_compute; find_in.
Qed.
Print Assumptions C66_event_of_the_call_refuted.
(** It holds when no other call uses the wrapper before the dispatch. *)
Theorem C66_event_of_the_call_partial : forall aty sched s evs p1 p2 p3 i b p w g target ev org a ev',
  run (step aty) init sched = Some (s, evs) ->
  evs = p1 ++ ECall i b p w g target ev org :: p2 ++ EDispatch a i ev' :: p3 ->
  (forall i' b' p' g' to' e' org', ~ In (ECall i' b' p' w g' to' e' org') p2) ->
  a = target /\ ev' = ev.
Proof. exact dispatched_event. Qed.
Print Assumptions C66_event_of_the_call_partial.
Example C66_case : exists p1 p2 p3,
  tree_evs = p1 ++ ECall 1 (Some "a") (Some 0) 0 5 "b" "one" "a" :: p2 ++ EDispatch "b" 1 "one" :: p3 /\
  (forall i' b' p' g' to' e' org', ~ In (ECall i' b' p' 0 g' to' e' org') p2) /\ 3 < List.length p2.
Proof.
  exists (firstn 3 tree_evs), (firstn 5 (skipn 4 tree_evs)), (skipn 10 tree_evs). split; [vm_compute; reflexivity|].
  split; [|vm_compute; repeat constructor].
  intros i b p g t e o H. vm_compute in H. repeat (destruct H as [H|H]; [discriminate H|]). exact H.
Qed.

(** ** C68 *)
(** A caller whose call was refused uses the same wrapper again. The goroutine
    of the refused call then closes the Done channel of the second call: that
    call returns nil before its handler has run, and when its own goroutine
    closes the channel again the process crashes. *)
Definition retry_sched : list label :=
  [LNew m0 5; LClose "a"; LCall None 0 "a" "T" "go"; LCount 0; LReceived 0; LWake 0 false]
  ++ [LCall None 0 "b" "T" "go"] ++ enter_ 1 ++ [LSelect 1; LCloseDone 0; LReturn 1].
Theorem C68_wrapper_reuse_refuted :
  (exists s evs, run (step ty) init retry_sched = Some (s, evs) /\
     In (EReturn 0 false) evs /\ In (EReturn 1 true) evs /\ ~ In (EWake 1 true) evs /\ ~ handled evs 1) /\
  (exists s evs, run (step ty) init (retry_sched ++ [LPop "b"; LFinish "b" Fine; LWake 1 false; LCloseDone 1]) = Some (s, evs) /\
     crashed s = true).
Proof.
  split.
  - do 2 eexists. split; [vm_compute; reflexivity|]. split; [vm_compute; find_in|]. split; [vm_compute; find_in|].
    split; [intros H; repeat (destruct H as [H|H]; [discriminate H|]); exact H|].
    intros [o H]. repeat (destruct H as [H|H]; [discriminate H|]). exact H.
  - do 2 eexists. split; [vm_compute; reflexivity|reflexivity].
Qed.
Print Assumptions C68_wrapper_reuse_refuted.
(** The process does not crash if every wrapper is used for at most one call
    besides those made by handlers of messages with the same context. *)
Theorem C68_single_use_no_crash_partial : forall aty sched s evs,
  run (step aty) init sched = Some (s, evs) ->
  (forall i j w, on_wrapper evs i w -> on_wrapper evs j w -> ~ nested evs i -> ~ nested evs j -> i = j) ->
  crashed s = false.
Proof. exact no_crash. Qed.
Print Assumptions C68_single_use_no_crash_partial.
Example C68_case : forall i j w, on_wrapper tree_evs i w -> on_wrapper tree_evs j w ->
  ~ nested tree_evs i -> ~ nested tree_evs j -> i = j.
Proof.
  assert (U0 : uses tree_evs 0 5) by (exists None, None, 0, "a", "go", ""; vm_compute; find_in).
  assert (U1 : uses tree_evs 1 5) by (exists (Some "a"), (Some 0), 0, "b", "one", "a"; vm_compute; find_in).
  assert (U2 : uses tree_evs 2 5) by (exists (Some "a"), (Some 0), 1, "c", "two", "a"; vm_compute; find_in).
  assert (U3 : uses tree_evs 3 5) by (exists (Some "b"), (Some 1), 0, "a", "back", "a"; vm_compute; find_in).
  assert (N1 : nested tree_evs 1).
  { exists 0, 5. split; [|auto]. exists (Some "a"), 0, 5, "b", "one", "a"; vm_compute; find_in. }
  assert (N2 : nested tree_evs 2).
  { exists 0, 5. split; [|auto]. exists (Some "a"), 1, 5, "c", "two", "a"; vm_compute; find_in. }
  assert (N3 : nested tree_evs 3).
  { exists 1, 5. split; [|auto]. exists (Some "b"), 0, 5, "a", "back", "a"; vm_compute; find_in. }
  assert (X : forall i w, on_wrapper tree_evs i w -> ~ nested tree_evs i -> i = 0).
  { intros i w (b & p & g & to_ & ev & org & H) Hn. vm_compute in H.
    repeat (destruct H as [H|H]; [try discriminate H; injection H; intros; subst i; (reflexivity || contradiction)|]); contradiction. }
  intros i j w Hi Hj Ni Nj. rewrite (X i w Hi Ni), (X j w Hj Nj). reflexivity.
Qed.
