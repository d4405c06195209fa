(** C116-C118: the spans of calls. *)
From Coq Require Import List Arith Bool Lia.
From Verif Require Import Machine MachineMore SpanModel SpanSpec SpanProofs SpanTrace.
Import ListNotations.

(** ** C116: every span that is started is finished once, before its call returns *)
Theorem C116_finished_once : forall f sched s evs, run (step f) init sched = Some (s, evs) -> forall a k x b, evs = a ++ VFinish k x :: b ->
  (exists p, In (VStart k p x) a) /\ (forall y, ~ In (VFinish k y) a) /\ forall y, ~ In (VFinish k y) b.
Proof.
  intros f sched s evs R a k x b E. split; [eapply finish_started; eauto|]. split; [eapply finish_once; eauto|].
  intros y I. apply in_split in I as (b1 & b2 & ->). apply (finish_once f sched s evs (a ++ VFinish k x :: b1) k y b2 R) with (x' := x); [rewrite E, <- app_assoc; reflexivity|apply in_elt].
Qed.
Print Assumptions C116_finished_once.
(** Numbers name spans: none is used twice. *)
Theorem C116_started_once : forall f sched s evs, run (step f) init sched = Some (s, evs) -> forall a k p x b, evs = a ++ VStart k p x :: b -> forall q y, ~ In (VStart k q y) a /\ ~ In (VStart k q y) b.
Proof.
  intros f sched s evs R a k p x b E q y. split; [eapply started_once; eauto|]. intros I. apply in_split in I as (b1 & b2 & ->).
  apply (started_once f sched s evs (a ++ VStart k p x :: b1) k q y b2 R) with (p' := p) (x' := x); [rewrite E, <- app_assoc; reflexivity|apply in_elt].
Qed.
Print Assumptions C116_started_once.
(** When a call has returned, its span and that of its remote call are finished, and none starts later. *)
Theorem C116_returned : forall f sched s evs, run (step f) init sched = Some (s, evs) -> forall a c b, evs = a ++ VReturn c :: b ->
  forall k p x, (x = SCall c \/ x = SClient c) -> In (VStart k p x) evs -> In (VFinish k x) a.
Proof. intros f sched s evs R a c b E k p x. eapply returned; eauto. Qed.
Print Assumptions C116_returned.
Theorem C116_served : forall f sched s evs, run (step f) init sched = Some (s, evs) -> forall a v b, evs = a ++ VServed v :: b ->
  forall k p, In (VStart k p (SServer v)) evs -> In (VFinish k (SServer v)) a.
Proof. intros f sched s evs R a v b E k p. eapply served; eauto. Qed.
Print Assumptions C116_served.
(** Nothing keeps a call from returning. *)
Theorem C116_can_return : forall f sched s evs, run (step f) init sched = Some (s, evs) -> forall c w, In (VCall c w) evs -> ~ In (VReturn c) evs ->
  exists more s' e, run (step f) init (sched ++ more) = Some (s', evs ++ e) /\ In (VReturn c) e.
Proof.
  intros f sched s evs R c w I N. apply (call_of _ _ _ _ _ _ R) in I as (y & Y & _). destruct (can_return _ _ _ _ _ _ R Y N) as (m & s' & e & R' & J).
  exists m, s', e. split; [eapply run_app; eauto|exact J].
Qed.
Print Assumptions C116_can_return.
(** With the span of System.Call registered every call has one. *)
Theorem C116_has_span : forall sched s evs, run (step true) init sched = Some (s, evs) -> forall a c b, evs = a ++ VReturn c :: b -> exists k p, In (VStart k p (SCall c)) a.
Proof.
  intros sched s evs R a c b E. destruct (run_split _ _ _ _ _ _ _ _ R E) as (x1 & l & y & t & t' & e1 & q1 & q2 & e2 & -> & H1 & H2 & H3 & -> & ->).
  assert (Q : exists z k, nth_error (calls t) c = Some z /\ own z = Some k).
  { assert (O : forall c z, nth_error (calls t) c = Some z -> at_ z = PEntry \/ exists k, own z = Some k).
    { apply (run_inv (step true) init (fun _ _ t => forall c z, nth_error (calls t) c = Some z -> at_ z = PEntry \/ exists k, own z = Some k)) with (sched := x1) (evs := e1); [intros [|d]; discriminate| |exact H1].
      clear. intros sched evs s l s' e _ IH H. moves H; cbn [calls with_calls with_wrappers with_spans with_serves goto]; auto; intros d z D; try discriminate;
      try (apply snoc_case in D as [D|[-> ->]]; [eauto|left; reflexivity]);
      match goal with X : nth_error (calls _) _ = Some _ |- _ => apply upd_case in D as [[-> ->]|[_ D]]; [specialize (IH _ _ X); cbn in *|exact (IH _ _ D)|exact (some_lt _ _ _ X)] end;
      try (right; eexists; reflexivity); try (destruct IH as [IH|IH]; [|right; exact IH]; try discriminate IH; subst; auto);
      try (match goal with Y : _ \/ _ |- _ => destruct Y; subst; discriminate end). }
    remember (q1 ++ VReturn c :: q2) as e eqn:E1. revert E1. moves H2; intros E1; destruct q1 as [|z [|z' q1]]; cbn in E1; try discriminate E1; injection E1; clear E1; intros; subst; try discriminate; try (destruct q1; discriminate).
    - eexists _, _. split; [eassumption|reflexivity].
    - match goal with X : nth_error (calls _) _ = Some _ |- _ => destruct (O _ _ X) as [Q|(k & Q)] end; [cbn in Q; subst; destruct H; discriminate|discriminate Q]. }
  destruct Q as (z & k & Z & O). destruct (own_started _ _ _ _ _ _ _ H1 Z O) as (p & I). exists k, p. apply in_app_iff. auto.
Qed.
Print Assumptions C116_has_span.

(** Two calls of one handler, the second remote; the handler of the other node calls in turn. *)
Definition two_nodes : list label :=
  [LWrap None; LCall 0; LBegin 0; LBegin 0; LReturn 0; LCall 0; LBegin 1; LBegin 1; LRemote 1; LServe 1; LCall 1; LBegin 2; LBegin 2; LReturn 2; LServed 0; LReply 1; LReturn 1].
Example C116_case : exists s evs, run (step true) init two_nodes = Some (s, evs) /\
  evs = [VWrap 0 None; VCall 0 0; VStart 0 None (SCall 0); VSet 0 0; VFinish 0 (SCall 0); VReturn 0;
         VCall 1 0; VStart 1 (Some 0) (SCall 1); VSet 1 1; VStart 2 (Some 1) (SClient 1);
         VStart 3 (Some 2) (SServer 0); VServe 0 1 1; VCall 2 1; VStart 4 (Some 3) (SCall 2); VSet 2 4; VFinish 4 (SCall 2); VReturn 2;
         VFinish 3 (SServer 0); VServed 0; VFinish 2 (SClient 1); VReply 1; VFinish 1 (SCall 1); VReturn 1].
Proof. eexists _, _. split; vm_compute; reflexivity. Qed.

(** ** C117: the parent of a call's span *)
(** It is the span that the context of the call's wrapper holds at that moment. *)
Theorem C117_parent : forall f sched s evs, run (step f) init sched = Some (s, evs) -> forall a k par x b c w, evs = a ++ VStart k par x :: b -> (x = SCall c \/ x = SClient c) -> In (VCall c w) evs ->
  holds a w par /\ forall y, holds a w y -> y = par.
Proof.
  intros f sched s evs R a k par x b c w E X I. pose proof (parent_held _ _ _ _ _ _ _ _ _ _ _ R E X I) as P. split; [exact P|].
  destruct (run_split _ _ _ _ _ _ _ _ R E) as (x1 & l & y & t & t' & e1 & q1 & q2 & e2 & -> & H1 & H2 & H3 & EQ & ->).
  destruct (start_step _ _ _ _ _ _ _ _ _ _ H2 X) as (-> & -> & _). rewrite app_nil_r in EQ. subst a. intros z Z. eapply holds_one; eauto.
Qed.
Print Assumptions C117_parent.
(** The full claim, every call of a request's handler is a child of the request's span, holds
    of the first ones: those before which no call on the wrapper has written its context. *)
Theorem C117_first_partial : forall f sched s evs, run (step f) init sched = Some (s, evs) -> forall a v c w b k par x d c' ks p,
  evs = a ++ VServe v c w :: b ++ VStart k par x :: d -> (x = SCall c' \/ x = SClient c') -> In (VCall c' w) evs -> In (VStart ks p (SServer v)) a ->
  (forall c'' k'', In (VSet c'' k'') b -> ~ In (VCall c'' w) evs) -> par = Some ks.
Proof.
  intros f sched s evs R a v c w b k par x d c' ks p E X I J N.
  apply (next_parent f sched s evs (a ++ [VServe v c w]) b k par x d c' w (Some ks) R); auto; [rewrite E, <- app_assoc; reflexivity|eapply h_serve; eauto].
Qed.
Print Assumptions C117_first_partial.
(** As coded: a call on a wrapper is a child of the last call on it, though that has returned. *)
Theorem C117_next : forall f sched s evs, run (step f) init sched = Some (s, evs) -> forall a c k w b k' par x d c',
  evs = a ++ VSet c k :: b ++ VStart k' par x :: d -> (x = SCall c' \/ x = SClient c') -> In (VCall c w) a -> In (VCall c' w) evs ->
  (forall c'' k'', In (VSet c'' k'') b -> ~ In (VCall c'' w) evs) -> par = Some k.
Proof.
  intros f sched s evs R a c k w b k' par x d c' E X J I N.
  apply (next_parent f sched s evs (a ++ [VSet c k]) b k' par x d c' w (Some k) R); auto; [rewrite E, <- app_assoc; reflexivity|apply h_set; exact J].
Qed.
Print Assumptions C117_next.
(** A call on a wrapper with a fresh context starts a trace. *)
Theorem C117_root : forall f sched s evs, run (step f) init sched = Some (s, evs) -> forall a w b k par x d c,
  evs = a ++ VWrap w None :: b ++ VStart k par x :: d -> (x = SCall c \/ x = SClient c) -> In (VCall c w) evs ->
  (forall c'' k'', In (VSet c'' k'') b -> ~ In (VCall c'' w) evs) -> par = None.
Proof.
  intros f sched s evs R a w b k par x d c E X I N.
  apply (next_parent f sched s evs (a ++ [VWrap w None]) b k par x d c w None R); auto; [rewrite E, <- app_assoc; reflexivity|apply h_new].
Qed.
Print Assumptions C117_root.
(** The full claim is false: the second call of the handler of request 0 on its wrapper is a
    child of the first, which has returned and whose span is finished. *)
Theorem C117_refuted : exists sched s evs a b k q c v ks p, run (step true) init sched = Some (s, evs) /\ evs = a ++ VStart k (Some q) (SCall c) :: b /\ In (VStart ks p (SServer v)) a /\ In (VServe v 0 1) a /\ In (VCall c 1) a /\ q <> ks /\ In (VFinish q (SCall 1)) a.
Proof.
  exists [LWrap None; LCall 0; LBegin 0; LBegin 0; LRemote 0; LServe 0; LCall 1; LBegin 1; LBegin 1; LReturn 1; LCall 1; LBegin 2]. eexists _, _.
  exists [VWrap 0 None; VCall 0 0; VStart 0 None (SCall 0); VSet 0 0; VStart 1 (Some 0) (SClient 0); VStart 2 (Some 1) (SServer 0); VServe 0 0 1; VCall 1 1; VStart 3 (Some 2) (SCall 1); VSet 1 3; VFinish 3 (SCall 1); VReturn 1; VCall 2 1].
  exists [], 4, 3, 2, 0, 2, (Some 1). split; [vm_compute; reflexivity|]. split; [reflexivity|]. cbn. repeat split; auto 20; discriminate.
Qed.
Print Assumptions C117_refuted.
Example C117_case : exists s evs, run (step true) init two_nodes = Some (s, evs) /\ In (VStart 4 (Some 3) (SCall 2)) evs /\ In (VStart 3 (Some 2) (SServer 0)) evs /\ In (VStart 1 (Some 0) (SCall 1)) evs.
Proof. eexists _, _. split; [vm_compute; reflexivity|]. cbn. repeat split; auto 30. Qed.

(** ** C118: one trace *)
(** Parents start before their children: the spans form trees. *)
Theorem C118_parent_first : forall f sched s evs, run (step f) init sched = Some (s, evs) -> forall a k q x b, evs = a ++ VStart k (Some q) x :: b -> exists p y, In (VStart q p y) a.
Proof. intros f sched s evs R a k q x b E. eapply parent_first; eauto. Qed.
Print Assumptions C118_parent_first.
(** The span of a request is a child of the client span of the call that it comes from. *)
Theorem C118_server : forall f sched s evs, run (step f) init sched = Some (s, evs) -> forall v c w k par, In (VServe v c w) evs -> In (VStart k par (SServer v)) evs ->
  exists kc p, par = Some kc /\ In (VStart kc p (SClient c)) evs.
Proof. intros f sched s evs R v c w k par. eapply server_parent; eauto. Qed.
Print Assumptions C118_server.
(** The full claim, the spans of all that a call causes descend from its own, holds when no
    call writes a context between the read and the write of another. *)
Theorem C118_client_partial : forall f sched s evs, run (step f) init sched = Some (s, evs) -> apart evs -> forall c k par k0 p0,
  In (VStart k par (SClient c)) evs -> In (VStart k0 p0 (SCall c)) evs -> descends evs k k0.
Proof.
  intros f sched s evs R A c k par k0 p0 I J. apply in_split in I as (a & b & E). destruct (call_before _ _ _ _ _ _ _ _ _ c R E (or_intror eq_refl)) as (w & W).
  assert (W' : In (VCall c w) evs) by (rewrite E; apply in_app_iff; auto). eapply (trace_start f sched s evs a k par (SClient c) b c w k0); eauto. eapply own_set; eauto.
Qed.
Print Assumptions C118_client_partial.
Theorem C118_handler_partial : forall f sched s evs, run (step f) init sched = Some (s, evs) -> apart evs -> forall v c w c' k par x ks p,
  In (VServe v c w) evs -> In (VStart ks p (SServer v)) evs -> In (VCall c' w) evs -> (x = SCall c' \/ x = SClient c') -> In (VStart k par x) evs -> descends evs k ks.
Proof.
  intros f sched s evs R A v c w c' k par x ks p I J W X K. apply in_split in K as (a & b & E). eapply (trace_start f sched s evs a k par x b c' w ks); eauto. eapply serve_carried; eauto.
Qed.
Print Assumptions C118_handler_partial.
(** Together: what the handler of the other node calls descends from the span of the call. *)
Theorem C118_whole_partial : forall f sched s evs, run (step f) init sched = Some (s, evs) -> apart evs -> forall v c w c' k par x k0 p0,
  In (VServe v c w) evs -> In (VStart k0 p0 (SCall c)) evs -> In (VCall c' w) evs -> (x = SCall c' \/ x = SClient c') -> In (VStart k par x) evs -> descends evs k k0.
Proof.
  intros f sched s evs R A v c w c' k par x k0 p0 I J W X K.
  assert (S : exists ks p, In (VStart ks p (SServer v)) evs).
  { destruct (ev_serve _ _ _ _ _ v R I (Nat.eqb_refl _)) as (y & _ & F & _). apply shist_shape in F as (k1 & kc1 & c1 & w1 & F & _).
    exists k1, (Some kc1). apply (in_filter_l (of_serve v)). destruct F as [F|F]; rewrite F; left; reflexivity. }
  destruct S as (ks & p & S). destruct (C118_server _ _ _ _ R _ _ _ _ _ I S) as (kc & q & -> & C).
  eapply descends_trans; [eapply C118_handler_partial; eauto|]. eapply d_child; [exact S|]. eapply C118_client_partial; eauto.
Qed.
Print Assumptions C118_whole_partial.
(** Also through copies of contexts: later spans descend from all that a context has held. *)
Theorem C118_carried_partial : forall f sched s evs, run (step f) init sched = Some (s, evs) -> apart evs -> forall a k par x b c w q,
  evs = a ++ VStart k par x :: b -> (x = SCall c \/ x = SClient c) -> In (VCall c w) evs -> carried a w q -> descends evs k q.
Proof. intros f sched s evs R A a k par x b c w q. eapply trace_start; eauto. Qed.
Print Assumptions C118_carried_partial.
(** The full claim is false: of two calls at once on one wrapper the remote call of the first
    is traced below the second. *)
Theorem C118_refuted : exists sched s evs k par k0, run (step true) init sched = Some (s, evs) /\ In (VStart k par (SClient 0)) evs /\ In (VStart k0 None (SCall 0)) evs /\ ~ descends evs k k0.
Proof.
  exists [LWrap None; LCall 0; LCall 0; LBegin 0; LBegin 1; LBegin 0; LBegin 1; LRemote 0]. eexists _, _, 2, (Some 1), 0. split; [vm_compute; reflexivity|].
  split; [cbn; auto 20|]. split; [cbn; auto 20|].
  intros D. inversion D as [|? p1 ? w1 I1 D1]; subst. cbn in I1. assert (p1 = 1) as -> by intuition congruence. clear D I1.
  inversion D1 as [|? p2 ? w2 I2 D2]; subst. cbn in I2. intuition congruence.
Qed.
Print Assumptions C118_refuted.
Lemma apart_dec_two : forall s evs, run (step true) init two_nodes = Some (s, evs) -> apart evs.
Proof.
  intros s evs R. vm_compute in R. injection R as _ <-. intros a k par c b c' k' d w E _ _ N.
  repeat (destruct a as [|? a]; cbn in E; try discriminate E; injection E; clear E; intros E; intros; subst; try discriminate);
  repeat (destruct b as [|? b]; cbn in E; try discriminate E; injection E; clear E; intros E; intros; subst; try discriminate); cbn; auto; try (destruct N; reflexivity).
Qed.
Example C118_case : exists s evs, run (step true) init two_nodes = Some (s, evs) /\ apart evs /\ In (VServe 0 1 1) evs /\ In (VCall 2 1) evs /\ descends evs 4 1.
Proof.
  eexists _, _. split; [vm_compute; reflexivity|]. split; [eapply apart_dec_two; vm_compute; reflexivity|]. cbn. split; [auto 30|split; [auto 30|]].
  eapply d_child with (p := 3); [cbn; auto 30|]. eapply d_child with (p := 2); [cbn; auto 30|]. eapply d_child with (p := 1); [cbn; auto 30|apply d_self].
Qed.
