(** C32, C87, C88, C89: which actor a Call or Send reaches. *)
From Coq Require Import List String ZArith Bool Lia.
From Verif Require Import Machine AddrModel AddrSpec AddrProofs RegModel RegSpec RegProofs SysModel SysSpec SysProofs SysLive.
Import ListNotations.
Open Scope string_scope.
Open Scope list_scope.

Ltac in_list := first [left; reflexivity | right; in_list].
Definition fac (ty : string) : option Z := if (ty =? "gate") || (ty =? "hall") then Some 2%Z else None.
Definition bld (id ty : string) : builder := mkB id ty 2 0 false true.
Definition steps (t k : nat) : list slabel := repeat (SReg (LStep t)) k.
(** Node A with actor a, node B with actor b, both gates. *)
Definition two : list slabel :=
  [SReg (LStart "A" 1); SReg (LStart "B" 2); SReg (LReg "A" (bld "a" "gate"))] ++ steps 0 10 ++ [SReg (LReg "B" (bld "b" "gate"))] ++ steps 1 10.
Definition rec_a := mkAddr "A" "a" "gate" 1.
Definition rec_b := mkAddr "B" "b" "gate" 2.

(** ** C32 *)
(** For a plain id, the message reaches only an actor with that id, in the map of the node
    where it is delivered. *)
Theorem C32_plain_delivered : forall factory sched s evs m n k o id ty, run (sstep factory) sinit sched = Some (s, evs) ->
  In (ECalled m o id ty) evs -> plain id -> In (EDeliver m n k) evs -> exists ty' x, nth_error (insts (reg s)) k = Some (mkInst n id ty' x).
Proof.
  intros factory sched s evs m n k o id ty H Hc Hp Hd. destruct (inv_reach _ _ _ _ H) as (_ & _ & _ & _ & HE).
  destruct (HE _ Hc) as (x & X1 & X2 & X3 & X4). destruct (HE _ Hd) as (y & Y1 & Y2 & Y3 & _). assert (y = x) as -> by congruence. rewrite X3 in Y3. exact (Y3 Hp).
Qed.
Print Assumptions C32_plain_delivered.
(** It leaves a node only when that node has been seen without the id, and goes to the
    endpoint that the address book recorded for the id. *)
Theorem C32_plain_forwarded : forall factory sched s evs m n n' o id ty, run (sstep factory) sinit sched = Some (s, evs) ->
  In (ECalled m o id ty) evs -> plain id -> In (EForward m n n') evs ->
  passed factory sched (fun r => ~ holds n id r) /\ exists ep, passed factory sched (recorded id ep) /\ passed factory sched (ep_of n' ep).
Proof.
  intros factory sched s evs m n n' o id ty H Hc Hp Hd. destruct (inv_reach _ _ _ _ H) as (_ & _ & _ & _ & HE).
  destruct (HE _ Hc) as (x & X1 & X2 & X3 & X4). destruct (HE _ Hd) as (y & ep & Y1 & Y2 & Y3 & Y4 & _). assert (y = x) as -> by congruence. rewrite X3 in Y4. destruct (Y4 Hp) as [A B].
  split; [exact A|]. exists ep. auto.
Qed.
Print Assumptions C32_plain_forwarded.
Example C32_plain_case : exists s evs, run (sstep fac) sinit (two ++ [SCall "A" "b" "gate"; SHop 0; SHop 0; SForward 0 "B"; SHop 0]) = Some (s, evs) /\
  In (ECalled 0 "A" "b" "gate") evs /\ plain "b" /\ In (EForward 0 "A" "B") evs /\ In (EDeliver 0 "B" 1) evs.
Proof. eexists _, _. split; [vm_compute; reflexivity|]. split; [in_list|]. split; [repeat split; discriminate|]. split; in_list. Qed.
(** An actor with the id on the caller's node is taken, whatever the address book says. *)
Theorem C32_plain_local : forall factory s m x n nd k, nth_error (msgs s) m = Some x -> m_pc x = MAt n -> plain (m_sym x) ->
  aget n (nds (reg s)) = Some nd -> aget (m_sym x) (n_map nd) = Some k ->
  (exists s', sstep factory s (SHop m) = Some (s', [EDeliver m n k])) /\
  forall l s' e, sstep factory s l = Some (s', e) -> (forall y, In y e -> match y with EForward m' _ _ | EUndelivered m' _ _ | EClean m' _ _ => m' <> m | EDeliver m' n' k' => m' = m -> n' = n /\ k' = k | _ => True end).
Proof.
  intros factory s m x n nd k Hx Hp (P1 & P2 & P3) Hn Hk. apply String.eqb_neq in P1, P2, P3. split.
  - eexists. cbn [sstep]. unfold on_msg. rewrite Hx, Hp. cbn [at_node]. rewrite Hn. unfold hop. rewrite Hp, P1, P2, P3, Hk. cbn [orb]. reflexivity.
  - intros l s' e H y Hy.
    assert (Hlab : forall f m', on_msg s m' f = Some (s', e) -> m' <> m \/ (m' = m /\ f x nd n = Some (s', e))).
    { intros f m' X. destruct (Nat.eq_dec m' m) as [->|]; [right; split; [reflexivity|]|now left]. unfold on_msg in X. rewrite Hx, Hp in X. cbn [at_node] in X. rewrite Hn in X. exact X. }
    destruct l as [l|n0 sym ty|m'|m' id|m' smp|m'|m' n'|m']; cbn [sstep] in H.
    1: { destruct (step factory (reg s) l) as [[r e1]|]; [|discriminate]. injection H as <- <-. apply in_map_iff in Hy as (z & <- & _). exact I. }
    1: { destruct (aget n0 (nds (reg s))); [|discriminate]. injection H as <- <-. destruct Hy as [<-|[]]. exact I. }
    all: destruct (Hlab _ _ H) as [Hne|[-> Hf]].
    all: try (unfold on_msg, hop in H; repeat match type of H with
       | match ?y with _ => _ end = _ => destruct y; try discriminate
       | (if ?y then _ else _) = _ => destruct y; try discriminate
       end; injection H as <- <-; cbn in Hy; repeat destruct Hy as [<-|Hy]; try contradiction; try exact I; congruence).
    all: rewrite ?Hp in Hf; unfold hop in Hf; rewrite ?Hp, ?P1, ?P2, ?P3, ?Hk in Hf; cbn [orb] in Hf; try discriminate.
    + injection Hf as <- <-. destruct Hy as [<-|[]]. auto.
Qed.
Print Assumptions C32_plain_local.
Example C32_plain_local_case : exists s evs, run (sstep fac) sinit (two ++ [SCall "A" "a" "gate"; SHop 0]) = Some (s, evs) /\ In (EDeliver 0 "A" 0) evs.
Proof. eexists _, _. split; [vm_compute; reflexivity|in_list]. Qed.

(** For '~' the message reaches only actors of the type, and leaves a node only when that
    node has been seen without one; then it goes where the address book listed one. *)
Theorem C32_local_first_delivered : forall factory sched s evs m n k o ty, run (sstep factory) sinit sched = Some (s, evs) ->
  In (ECalled m o "~" ty) evs -> In (EDeliver m n k) evs -> exists id x, nth_error (insts (reg s)) k = Some (mkInst n id ty x).
Proof.
  intros factory sched s evs m n k o ty H Hc Hd. destruct (inv_reach _ _ _ _ H) as (_ & _ & _ & _ & HE).
  destruct (HE _ Hc) as (x & X1 & X2 & X3 & X4). destruct (HE _ Hd) as (y & Y1 & Y2 & Y3 & Y4 & Y5). assert (y = x) as -> by congruence. rewrite X4 in Y5. exact (Y5 X3).
Qed.
Print Assumptions C32_local_first_delivered.
Theorem C32_local_first_forwarded : forall factory sched s evs m n n' o ty, run (sstep factory) sinit sched = Some (s, evs) ->
  In (ECalled m o "~" ty) evs -> In (EForward m n n') evs ->
  passed factory sched (fun r => ~ holds_type n ty r) /\ exists a, passed factory sched (listed ty a) /\ passed factory sched (ep_of n' (a_ep a)).
Proof.
  intros factory sched s evs m n n' o ty H Hc Hd. destruct (inv_reach _ _ _ _ H) as (_ & _ & _ & _ & HE).
  destruct (HE _ Hc) as (x & X1 & X2 & X3 & X4). destruct (HE _ Hd) as (y & ep & Y1 & Y2 & Y3 & _ & _ & Y4). assert (y = x) as -> by congruence. rewrite X4 in Y4. destruct (Y4 X3) as (a & A & B & C).
  split; [exact C|]. exists a. rewrite B. auto.
Qed.
Print Assumptions C32_local_first_forwarded.
Definition hall : list slabel := two ++ [SReg (LReg "B" (bld "h" "hall"))] ++ steps 2 10.
Example C32_local_first_case : exists s evs, run (sstep fac) sinit (hall ++ [SCall "A" "~" "hall"; SScan 0 None; SPick 0 [mkAddr "B" "h" "hall" 2]; SForward 0 "B"; SScan 0 (Some "h"); SCall "A" "~" "gate"; SScan 1 (Some "a")]) = Some (s, evs) /\
  In (EForward 0 "A" "B") evs /\ In (EDeliver 0 "B" 2) evs /\ In (EDeliver 1 "A" 0) evs.
Proof. eexists _, _. split; [vm_compute; reflexivity|]. split; [in_list|]. split; in_list. Qed.

(** For '?' the message goes where the address book listed an actor of the type, and reaches
    only an actor whose id was listed under the type. *)
Theorem C32_wildcard_delivered_partial : forall factory sched s evs m n k o ty, run (sstep factory) sinit sched = Some (s, evs) ->
  In (ECalled m o "?" ty) evs -> In (EDeliver m n k) evs -> exists a ty' x, passed factory sched (listed ty a) /\ nth_error (insts (reg s)) k = Some (mkInst n (a_id a) ty' x).
Proof.
  intros factory sched s evs m n k o ty H Hc Hd. destruct (inv_reach _ _ _ _ H) as (_ & _ & _ & _ & HE).
  destruct (HE _ Hc) as (x & X1 & X2 & X3 & X4). destruct (HE _ Hd) as (y & Y1 & Y2 & Y3 & Y4 & Y5). assert (y = x) as -> by congruence. rewrite X4 in Y4. destruct (Y4 X3) as (a & ty' & A & z & B). eauto.
Qed.
Print Assumptions C32_wildcard_delivered_partial.
Theorem C32_wildcard_forwarded : forall factory sched s evs m n n' o ty, run (sstep factory) sinit sched = Some (s, evs) ->
  In (ECalled m o "?" ty) evs -> In (EForward m n n') evs -> exists a, passed factory sched (listed ty a) /\ passed factory sched (ep_of n' (a_ep a)).
Proof.
  intros factory sched s evs m n n' o ty H Hc Hd. destruct (inv_reach _ _ _ _ H) as (_ & _ & _ & _ & HE).
  destruct (HE _ Hc) as (x & X1 & X2 & X3 & X4). destruct (HE _ Hd) as (y & ep & Y1 & Y2 & Y3 & _ & Y4 & _). assert (y = x) as -> by congruence. rewrite X4 in Y4. destruct (Y4 X3) as (a & A & B & C).
  exists a. rewrite B. auto.
Qed.
Print Assumptions C32_wildcard_forwarded.
Example C32_wildcard_case : exists s evs, run (sstep fac) sinit (two ++ [SCall "A" "?" "gate"; SPick 0 [rec_b; rec_a]; SHop 0; SForward 0 "B"; SPick 0 [rec_b; rec_a]; SHop 0]) = Some (s, evs) /\
  In (EForward 0 "A" "B") evs /\ In (EDeliver 0 "B" 1) evs.
Proof. eexists _, _. split; [vm_compute; reflexivity|]. split; in_list. Qed.
(** False of '?': the actor reached may be of another type.  Ids are not unique in the
    cluster (C63), and line 229 looks the chosen id up on the caller's node. *)
Theorem C32_wildcard_type_refuted : exists sched s evs, run (sstep fac) sinit sched = Some (s, evs) /\
  In (ECalled 0 "A" "?" "hall") evs /\ In (EDeliver 0 "A" 0) evs /\ nth_error (insts (reg s)) 0 = Some (mkInst "A" "x" "gate" Running).
Proof.
  exists ([SReg (LStart "A" 1); SReg (LStart "B" 2); SReg (LReg "A" (bld "x" "gate"))] ++ steps 0 10 ++ [SReg (LReg "B" (bld "x" "hall"))] ++ steps 1 10 ++ [SCall "A" "?" "hall"; SPick 0 [mkAddr "B" "x" "hall" 2]; SHop 0]).
  eexists _, _. split; [vm_compute; reflexivity|]. split; [in_list|]. split; [in_list|reflexivity].
Qed.
Print Assumptions C32_wildcard_type_refuted.

(** Reaching the target: whatever other messages are on their way, a call from node [o] to
    an id that [o] lacks reaches the actor on the node where the address book has it, *)
Theorem C32_plain_reaches : forall factory s o id ty nd n nd' k a, plain id -> aget o (nds (reg s)) = Some nd -> aget id (n_map nd) = None -> ~ In id (n_ids nd) ->
  aget id (ids (st (reg s))) = Some a -> aget n (nds (reg s)) = Some nd' -> n_ep nd' = a_ep a -> n_ep nd' <> n_ep nd -> aget id (n_map nd') = Some k ->
  exists sched s', Forall calm sched /\ run (sstep factory) s (SCall o id ty :: sched) = Some (s', [ECalled (List.length (msgs s)) o id ty; EForward (List.length (msgs s)) o n; EDeliver (List.length (msgs s)) n k]).
Proof.
  intros factory [r ms] o id ty nd n nd' k a H1 H2 H3 H4 H5 H6 H7 H8 H9. cbn [reg msgs] in *. destruct (plain_remote factory r ms o id ty nd n nd' k a H1 H2 H3 H4 H5 H6 H7 H8 H9) as (s' & R).
  eexists _, s'. split; [|exact R]. repeat constructor.
Qed.
Print Assumptions C32_plain_reaches.
(** a '?' call reaches some actor if the type has listed actors, all of them there, *)
Theorem C32_wildcard_reaches : forall factory s o nd ty smp, aget o (nds (reg s)) = Some nd -> is_sample (members (st (reg s)) ty) smp = true -> smp <> [] -> backed ty (reg s) -> own_endpoints (reg s) ->
  exists sched s' evs n k, Forall calm sched /\ run (sstep factory) s (SCall o "?" ty :: sched) = Some (s', ECalled (List.length (msgs s)) o "?" ty :: evs) /\ In (EDeliver (List.length (msgs s)) n k) evs.
Proof. intros factory [r ms] o nd ty smp. cbn [reg msgs]. apply wildcard_reach. Qed.
Print Assumptions C32_wildcard_reaches.
(** a '~' call reaches an actor of the type on the caller's node if there is one, *)
Theorem C32_local_first_reaches : forall factory s o ty, holds_type o ty (reg s) ->
  exists l s' k, run (sstep factory) s [SCall o "~" ty; l] = Some (s', [ECalled (List.length (msgs s)) o "~" ty; EDeliver (List.length (msgs s)) o k]).
Proof. intros factory [r ms] o ty. cbn [reg msgs]. apply local_reach. Qed.
Print Assumptions C32_local_first_reaches.
(** and otherwise, by one forward, one on another node. *)
Theorem C32_local_first_elsewhere : forall factory s o nd ty smp, aget o (nds (reg s)) = Some nd -> is_sample (members (st (reg s)) ty) smp = true -> smp <> [] -> backed ty (reg s) -> own_endpoints (reg s) ->
  (forall id k i, In (id, k) (n_map nd) -> nth_error (insts (reg s)) k = Some i -> i_ty i <> ty) ->
  exists sched s' n k, Forall calm sched /\ run (sstep factory) s (SCall o "~" ty :: sched) = Some (s', [ECalled (List.length (msgs s)) o "~" ty; EForward (List.length (msgs s)) o n; EDeliver (List.length (msgs s)) n k]).
Proof. intros factory [r ms] o nd ty smp. cbn [reg msgs]. apply elsewhere_reach. Qed.
Print Assumptions C32_local_first_elsewhere.
(** The state of [C32_local_first_case] meets their hypotheses. *)
Example C32_reaches_case : exists s evs nd nd', run (sstep fac) sinit (hall ++ [SCall "B" "?" "gate"]) = Some (s, evs) /\
  aget "A" (nds (reg s)) = Some nd /\ aget "B" (nds (reg s)) = Some nd' /\ aget "h" (n_map nd) = None /\ ~ In "h" (n_ids nd) /\
  aget "h" (ids (st (reg s))) = Some (mkAddr "B" "h" "hall" 2) /\ n_ep nd' = 2 /\ n_ep nd = 1 /\ aget "h" (n_map nd') = Some 2 /\
  is_sample (members (st (reg s)) "hall") [mkAddr "B" "h" "hall" 2] = true /\ backed "hall" (reg s) /\ own_endpoints (reg s) /\ holds_type "A" "gate" (reg s) /\
  (forall id k i, In (id, k) (n_map nd) -> nth_error (insts (reg s)) k = Some i -> i_ty i <> "hall").
Proof.
  eexists _, _, _, _. split; [vm_compute; reflexivity|]. split; [reflexivity|]. split; [reflexivity|]. split; [reflexivity|].
  split; [intros X; cbn in X; intuition discriminate|]. split; [reflexivity|]. split; [reflexivity|]. split; [reflexivity|]. split; [reflexivity|]. split; [reflexivity|].
  split; [|split; [|split]].
  - intros a Ha. vm_compute in Ha. destruct Ha as [<-|[]]. eexists "B", _, 2, _, _. do 6 (split; [reflexivity|]). reflexivity.
  - intros n n' x x' A B. cbn [reg nds aget] in A, B.
    repeat match type of A with (if String.eqb ?u ?v then _ else _) = _ => let E := fresh in destruct (String.eqb u v) eqn:E; [apply String.eqb_eq in E; injection A as <-|] end; try discriminate A;
    repeat match type of B with (if String.eqb ?u ?v then _ else _) = _ => let E := fresh in destruct (String.eqb u v) eqn:E; [apply String.eqb_eq in E; injection B as <-|] end; try discriminate B; cbn; congruence.
  - eexists _, "a", 0, _. repeat split.
  - intros id k i [X|[]] Y. injection X as <- <-. cbn in Y. injection Y as <-. discriminate.
Qed.

(** A message is delivered at most once, and not if the call fails: of deliveries and
    failures there is at most one. *)
Theorem C32_once : forall factory sched s evs m, run (sstep factory) sinit sched = Some (s, evs) -> List.length (filter (ends m) evs) <= 1.
Proof.
  intros factory sched s evs m H. destruct (inv_reach _ _ _ _ H) as (_ & _ & HM & HN & _). change (ended m evs <= 1). destruct (nth_error (msgs s) m) as [x|] eqn:E.
  - destruct (HM _ _ E) as [_ [_ X]]. destruct (m_pc x); lia.
  - apply nth_error_None in E. destruct (HN _ E) as [_ ->]. lia.
Qed.
Print Assumptions C32_once.
(** A failure on the caller's own node is returned as an error. *)
Theorem C32_error_returned_partial : forall factory sched s evs m n, run (sstep factory) sinit sched = Some (s, evs) ->
  In (EUndelivered m n true) evs -> 0 < forwards m evs.
Proof.
  intros factory sched s evs m n H Hd. destruct (inv_reach _ _ _ _ H) as (_ & _ & HM & _ & HE). destruct (HE _ Hd eq_refl) as (x & X1 & X2). destruct (HM _ _ X1) as [_ [-> _]]. exact X2.
Qed.
Print Assumptions C32_error_returned_partial.
Example C32_error_case : exists s evs, run (sstep fac) sinit (two ++ [SCall "A" "c" "gate"; SHop 0; SHop 0; SHop 0]) = Some (s, evs) /\ In (EUndelivered 0 "A" false) evs.
Proof. eexists _, _. split; [vm_compute; reflexivity|in_list]. Qed.
(** False across nodes: B unregisters b after A has looked it up; B's Call fails, and the
    caller on A gets nil. *)
Theorem C32_remote_error_refuted : exists sched s evs, run (sstep fac) sinit sched = Some (s, evs) /\
  In (ECalled 0 "A" "b" "gate") evs /\ In (EUndelivered 0 "B" true) evs.
Proof.
  exists (two ++ [SCall "A" "b" "gate"; SHop 0; SHop 0; SReg (LUnreg "B" "b" "gate")] ++ steps 2 11 ++ [SForward 0 "B"; SHop 0; SHop 0; SHop 0]).
  eexists _, _. split; [vm_compute; reflexivity|]. split; in_list.
Qed.
Print Assumptions C32_remote_error_refuted.

(** ** C87 *)
(** A message for a plain id crosses at most one node boundary, while nothing is registered
    or unregistered. *)
Theorem C87_plain : forall factory pre s0 e0 sched s evs m o id ty, run (sstep factory) sinit pre = Some (s0, e0) -> run (sstep factory) s0 sched = Some (s, evs) -> Forall calm sched ->
  In (ECalled m o id ty) evs -> plain id -> forwards m evs <= 1.
Proof. exact one_forward. Qed.
Print Assumptions C87_plain.
Example C87_plain_case : exists s0 e0 s, run (sstep fac) sinit two = Some (s0, e0) /\
  run (sstep fac) s0 [SCall "A" "b" "gate"; SHop 0; SHop 0; SForward 0 "B"; SHop 0] = Some (s, [ECalled 0 "A" "b" "gate"; EForward 0 "A" "B"; EDeliver 0 "B" 1]).
Proof. eexists _, _, _. split; vm_compute; reflexivity. Qed.
(** False of '?': the request carries the symbol, every node chooses again, and with equal
    weights the message goes to and fro any number of times. *)
Definition bounce : list slabel := [SPick 0 [rec_b; rec_a]; SHop 0; SForward 0 "B"; SPick 0 [rec_a; rec_b]; SHop 0; SForward 0 "A"].
Fixpoint many (k : nat) : list slabel := match k with 0 => [] | S k => bounce ++ many k end.
Theorem C87_wildcard_refuted : forall k, exists s0 e0 sched s evs, run (sstep fac) sinit two = Some (s0, e0) /\ run (sstep fac) s0 sched = Some (s, evs) /\ Forall calm sched /\
  In (ECalled 0 "A" "?" "gate") evs /\ forwards 0 evs = 2 * k.
Proof.
  intros k. destruct (run (sstep fac) sinit two) as [[s0 e0]|] eqn:E; [|vm_compute in E; discriminate]. exists s0, e0. vm_compute in E. injection E as <- <-.
  match goal with |- context [mkSys ?r _] => set (r0 := r) end.
  assert (H : forall k h, exists evs, run (sstep fac) (mkSys r0 [mkM "A" "?" "gate" h (MAt "A")]) (many k) = Some (mkSys r0 [mkM "A" "?" "gate" (2 * k + h) (MAt "A")], evs) /\ forwards 0 evs = 2 * k /\ Forall calm (many k)).
  { clear k. induction k as [|k IH]; intros h.
    - exists []. repeat split. constructor.
    - destruct (IH (S (S h))) as (evs & H1 & H2 & H3). exists ([EForward 0 "A" "B"; EForward 0 "B" "A"] ++ evs). split; [|split].
      + cbn [many]. eapply run_app; [|replace (2 * S k + h) with (2 * k + S (S h)) by lia; exact H1]. vm_compute. reflexivity.
      + change (2 + forwards 0 evs = 2 * S k). lia.
      + cbn [many]. apply Forall_app. split; [repeat constructor|exact H3]. }
  destruct (H k 0) as (evs & H1 & H2 & H3). exists (SCall "A" "?" "gate" :: many k). eexists _, _. split; [reflexivity|]. split.
  - cbn [run]. change (sstep fac (mkSys r0 []) (SCall "A" "?" "gate")) with (Some (mkSys r0 [mkM "A" "?" "gate" 0 (MAt "A")], [ECalled 0 "A" "?" "gate"])). cbn [run]. rewrite H1. reflexivity.
  - split; [constructor; [exact I|exact H3]|]. split; [now left|exact H2].
Qed.
Print Assumptions C87_wildcard_refuted.
(** Of '~' and '?' this holds: a message that arrives at a node holding an actor of the
    type, by '~', or the chosen actor, by '?', is not sent on ([C32_local_first_forwarded]):
    each further hop needs a node that lacked it. *)
Theorem C87_wildcard_partial : forall factory sched s evs m n n' o ty, run (sstep factory) sinit sched = Some (s, evs) ->
  In (ECalled m o "?" ty) evs -> In (EForward m n n') evs -> exists a, passed factory sched (listed ty a) /\ passed factory sched (fun r => ~ holds n (a_id a) r).
Proof.
  intros factory sched s evs m n n' o ty H Hc Hd. destruct (inv_reach _ _ _ _ H) as (_ & _ & _ & _ & HE).
  destruct (HE _ Hc) as (x & X1 & X2 & X3 & X4). destruct (HE _ Hd) as (y & ep & Y1 & Y2 & Y3 & _ & Y4 & _). assert (y = x) as -> by congruence. rewrite X4 in Y4. destruct (Y4 X3) as (a & A & B & C). eauto.
Qed.
Print Assumptions C87_wildcard_partial.

(** ** C88 *)
(** False: while an actor is being registered, a call to it from the same node takes its
    record for a stale one and removes it; the actor then runs without a record. *)
Theorem C88_refuted : exists sched s evs, run (sstep fac) sinit sched = Some (s, evs) /\
  In (EReg (EOk 0)) evs /\ In (EClean 0 "A" "a") evs /\ alive (reg s) 0 "A" "a" "gate" /\ aget "a" (ids (st (reg s))) = None /\ members (st (reg s)) "gate" = [].
Proof.
  exists ([SReg (LStart "A" 1); SReg (LReg "A" (bld "a" "gate"))] ++ steps 0 8 ++ [SCall "A" "a" "gate"; SHop 0; SHop 0; SHop 0] ++ steps 1 6 ++ [SHop 0] ++ steps 0 2).
  eexists _, _. split; [vm_compute; reflexivity|]. split; [in_list|]. split; [in_list|]. split; [eexists; split; [reflexivity|discriminate]|]. split; reflexivity.
Qed.
Print Assumptions C88_refuted.
(** What holds: a node begins to remove a record only if it has been seen without the actor
    (for '~': without any actor of the type).  Missing: registrations under way. *)
Theorem C88_partial : forall factory sched s evs m n id o sy ty, run (sstep factory) sinit sched = Some (s, evs) ->
  In (ECalled m o sy ty) evs -> In (EClean m n id) evs ->
  passed factory sched (fun r => ~ holds n id r) \/ sy = "~" /\ passed factory sched (fun r => ~ holds_type n ty r).
Proof.
  intros factory sched s evs m n id o sy ty H Hc Hd. destruct (inv_reach _ _ _ _ H) as (_ & _ & _ & _ & HE).
  destruct (HE _ Hc) as (x & X1 & X2 & X3 & X4). destruct (HE _ Hd) as (y & Y1 & Y2 & Y3 & Y4 & Y5). assert (y = x) as -> by congruence. rewrite X3, X4 in *.
  destruct (string_dec sy "?") as [E1|E1]; [left; auto|]. destruct (string_dec sy "~") as [E2|E2]; [right; auto|]. left. apply Y3. repeat split; assumption.
Qed.
Print Assumptions C88_partial.
(** The removal of a record that is stale: B's actor is gone, its record is not. *)
Definition stale : list slabel := two ++ [SReg (LUnreg "B" "b" "gate")] ++ steps 2 5 ++ [SReg (LFail 2)].
Example C88_partial_case : exists s evs, run (sstep fac) sinit (stale ++ [SCall "B" "b" "gate"; SHop 0; SHop 0; SHop 0] ++ steps 3 6 ++ [SHop 0]) = Some (s, evs) /\
  In (EClean 0 "B" "b") evs /\ In (EUndelivered 0 "B" false) evs /\ aget "b" (ids (st (reg s))) = None.
Proof. eexists _, _. split; [vm_compute; reflexivity|]. split; [in_list|]. split; [in_list|reflexivity]. Qed.

(** ** C89 *)
(** False: the record of b is stale, and the caller names a type the node's factory does
    not know: the process dies. *)
Theorem C89_refuted : exists sched s evs, run (sstep fac) sinit sched = Some (s, evs) /\ In (ECalled 0 "B" "b" "gat") evs /\ In (EReg (EPanic "B")) evs /\ aget "B" (nds (reg s)) = None.
Proof.
  exists (stale ++ [SCall "B" "b" "gat"; SHop 0; SHop 0; SHop 0]). eexists _, _. split; [vm_compute; reflexivity|]. split; [in_list|]. split; [in_list|reflexivity].
Qed.
Print Assumptions C89_refuted.
(** What holds: resolving panics only if someone has called with an unknown type. *)
Theorem C89_partial : forall factory sched s evs l s' e n, run (sstep factory) sinit sched = Some (s, evs) -> calm l -> sstep factory s l = Some (s', e) ->
  (forall m o sy ty, In (ECalled m o sy ty) evs -> factory ty <> None) -> ~ In (EReg (EPanic n)) e.
Proof. intros factory sched s evs l s' e n H Hl Hs Hk Hp. destruct (panic_unknown _ _ _ _ _ _ _ _ H Hl Hs Hp) as (m & o & sy & ty & A & B). exact (Hk _ _ _ _ A B). Qed.
Print Assumptions C89_partial.
Example C89_partial_case : exists s evs s' e, run (sstep fac) sinit (stale ++ [SCall "B" "b" "gate"; SHop 0; SHop 0]) = Some (s, evs) /\ In (ECalled 0 "B" "b" "gate") evs /\ fac "gate" <> None /\ sstep fac s (SHop 0) = Some (s', e) /\ In (EClean 0 "B" "b") e.
Proof. eexists _, _, _, _. split; [vm_compute; reflexivity|]. split; [in_list|]. split; [discriminate|]. split; [vm_compute; reflexivity|in_list]. Qed.
