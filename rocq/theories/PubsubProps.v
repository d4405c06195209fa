(** C48, C49, C50, C90, C91, C98, C99: publish/subscribe. *)
From Coq Require Import List String Arith Bool Lia Sorting.Sorted.
From Verif Require Import Machine AddrModel AddrProofs PubsubModel PubsubSpec PubsubProofs PubsubLive PubsubMore.
Import ListNotations.
Open Scope string_scope.
Open Scope list_scope.

Ltac in_list := first [left; reflexivity | right; in_list].
Ltac lat := repeat constructor; cbn; try (intros [? ?]; discriminate); auto.
(** A topic with one subscriber: consumer 0 of channel a. *)
Definition base : list label := [LNew "t" false Ok; LThr 0 Ok; LThr 0 Ok; LSub "t" "a" Latest Ok; LArrive 0 0].
Definition hand (c k : nat) : list label := repeat (LHand c 0 Ok) k.
Definition m2 := mkE 2 "ev" "m".
Definition m3 := mkE 3 "ev" "n".

(** ** C48 *)
(** A consumer with one handler delivers in the order of publication. *)
Theorem C48_order : forall c t ch q q' e1 e2 sched s evs, run step init sched = Some (s, evs) -> Forall (latest t ch) sched -> arrivals c sched <= 1 ->
  before (EPush c t ch q e1) (EPush c t ch q' e2) evs -> In (EPub t e1) evs -> In (EPub t e2) evs -> before (EPub t e1) (EPub t e2) evs.
Proof.
  intros c t ch q q' e1 e2 sched s evs H Hl Ha Hb H1 H2. destruct (okS_reach _ _ _ H) as (_ & A & _). pose proof (pushes_ordered _ _ _ _ _ _ _ _ _ _ H Hl Ha Hb) as Ho.
  exact (adds_order _ _ _ _ _ A H1 H2 eq_refl eq_refl Ho).
Qed.
Print Assumptions C48_order.
(** Over all consumers of the channel, a message is delivered at most once. *)
Theorem C48_at_most_once : forall t ch id sched s evs, run step init sched = Some (s, evs) -> Forall (latest t ch) sched -> deliveries t ch id evs <= 1.
Proof. intros t ch id sched s evs. apply at_most_once. Qed.
Print Assumptions C48_at_most_once.
(** What is delivered was published to the topic, or is the placeholder of newTopic. *)
Theorem C48_only_published_partial : forall c t ch q e sched s evs, run step init sched = Some (s, evs) -> In (EPush c t ch q e) evs ->
  In (EPub t e) evs \/ In (EInit t e) evs /\ e_ev e = "" /\ e_body e = "init".
Proof. intros c t ch q e sched s evs. apply push_added. Qed.
Print Assumptions C48_only_published_partial.
Definition two_msgs := base ++ [LPub "t" "ev" "m" Ok; LPub "t" "ev" "n" Ok; LRead 0 Ok; LPut 0; LPut 0; LPut 0] ++ hand 0 5 ++ hand 0 3.
Example C48_case : exists s evs, run step init two_msgs = Some (s, evs) /\ Forall (latest "t" "a") two_msgs /\ arrivals 0 two_msgs <= 1 /\
  before (EPush 0 "t" "a" 0 m2) (EPush 0 "t" "a" 0 m3) evs /\ In (EPub "t" m2) evs /\ In (EPub "t" m3) evs /\ deliveries "t" "a" 2 evs = 1.
Proof.
  eexists _, _. split; [vm_compute; reflexivity|]. split; [lat|]. split; [vm_compute; lia|]. split; [eexists [_; _; _; _; _; _], [_], []; reflexivity|].
  split; [in_list|]. split; [in_list|]. reflexivity.
Qed.
(** Two nodes make the topic at the same time: a subscriber gets the placeholder of the other
    node, which nobody published. *)
Theorem C48_placeholder_refuted : exists sched s evs e, run step init sched = Some (s, evs) /\ Forall (latest "t" "a") sched /\
  In (EPush 0 "t" "a" 0 e) evs /\ forall t e', ~ In (EPub t e') evs.
Proof.
  exists ([LNew "t" false Ok; LNew "t" false Ok; LThr 0 Ok; LThr 0 Ok; LSub "t" "a" Latest Ok; LArrive 0 0; LThr 1 Ok; LRead 0 Ok; LPut 0] ++ hand 0 3).
  eexists _, _, _. split; [vm_compute; reflexivity|]. split; [lat|]. split; [in_list|]. intros t e'. cbn. intuition discriminate.
Qed.
Print Assumptions C48_placeholder_refuted.
(** With ReadModeBeginning, a message delivered by a channel that is then closed and
    subscribed again is delivered a second time. *)
Theorem C48_begin_refuted : exists sched s evs, run step init sched = Some (s, evs) /\ deliveries "t" "a" 2 evs = 2.
Proof.
  exists (base ++ [LPub "t" "ev" "m" Ok; LRead 0 Ok; LPut 0] ++ hand 0 3 ++ [LClose 0 Ok; LThr 1 Ok; LThr 1 Ok; LSub "t" "a" Begin Ok; LArrive 1 1; LRead 1 Ok; LPut 1] ++ hand 1 3).
  eexists _, _. split; [vm_compute; reflexivity|]. reflexivity.
Qed.
Print Assumptions C48_begin_refuted.
(** Two handlers on one consumer do not keep the order. *)
Theorem C48_handlers_refuted : exists sched s evs, run step init sched = Some (s, evs) /\ Forall (latest "t" "a") sched /\ arrivals 0 sched = 2 /\
  before (EPub "t" m2) (EPub "t" m3) evs /\ before (EPush 0 "t" "a" 0 m3) (EPush 0 "t" "a" 0 m2) evs.
Proof.
  exists (base ++ [LArrive 0 0; LPub "t" "ev" "m" Ok; LPub "t" "ev" "n" Ok; LRead 0 Ok; LPut 0; LPut 0; LPut 0; LHand 0 0 Ok; LHand 0 0 Ok; LHand 0 1 Ok; LHand 0 1 Ok; LHand 0 1 Ok; LHand 0 0 Ok]).
  eexists _, _. split; [vm_compute; reflexivity|]. split; [lat|]. split; [reflexivity|]. split.
  - eexists [_; _], [], _. reflexivity.
  - eexists [_; _; _; _; _; _], [], []. reflexivity.
Qed.
Print Assumptions C48_handlers_refuted.

(** ** C49 *)
(** A message published after a channel has subscribed has been handed to the channel, or its
    hand-out was lost with the reply, or it waits in the stream, or another channel's handler
    has deleted it: as long as stream and group are not removed. *)
Theorem C49_fate_partial : forall t ch c e sched s evs, run step init sched = Some (s, evs) -> stays t ch evs -> before (ESub c t ch) (EPub t e) evs ->
  (exists d, In (ERead d t ch e) evs) \/ (exists d, In (ELost d t ch e) evs) \/ waiting t ch e s \/ exists d ch', ch' <> ch /\ In (EDel d t ch' (e_id e)) evs.
Proof. intros t ch c e sched s evs H Hs Hb. exact (proj2 (fate_reach _ _ _ _ _ H Hs) _ _ Hb). Qed.
Print Assumptions C49_fate_partial.
(** A consumer that runs can deliver all that waits and all it has read, by its own steps. *)
Theorem C49_delivered_partial : forall c t ch pre s evs, run step init pre = Some (s, evs) -> Forall (latest t ch) pre -> serving c t ch s ->
  exists sched s' evs', Forall (own c) sched /\ run step s sched = Some (s', evs') /\ (forall e, waiting t ch e s -> exists q, In (EPush c t ch q e) evs') /\
    forall e, In (ERead c t ch e) evs -> (forall q, ~ In (EPush c t ch q e) evs) -> exists q, In (EPush c t ch q e) evs'.
Proof. intros c t ch pre s evs. apply all_delivered. Qed.
Print Assumptions C49_delivered_partial.
(** It cannot put that off: its other steps than reading are bounded. *)
Theorem C49_bounded_partial : forall c pre s evs, run step init pre = Some (s, evs) -> exists n, forall sched s' evs', Forall (own c) sched -> run step s sched = Some (s', evs') ->
  List.length (filter (fun l => match l with LRead _ _ => false | _ => true end) sched) <= n.
Proof.
  intros c pre s evs H. destruct (nth_error (cons s) c) as [x|] eqn:Ex.
  - exists (mu s x). intros sched s' evs' Ho Hr. exact (bounded_work c sched pre s evs x s' evs' H Ex Ho Hr).
  - exists 0. intros [|l sched] s' evs' Ho Hr; [cbn; lia|]. exfalso. inversion Ho as [|? ? Hl _]; subst. cbn [run] in Hr. destruct l as [| | |d q|d r|d|d h r| | | | |]; cbn [own] in Hl; try destruct r; try destruct Hl; cbn [step] in Hr; rewrite Ex in Hr; discriminate.
Qed.
Print Assumptions C49_bounded_partial.
Definition sub_pub := base ++ [LPub "t" "ev" "m" Ok].
Example C49_case : exists s evs, run step init sub_pub = Some (s, evs) /\ stays "t" "a" evs /\ before (ESub 0 "t" "a") (EPub "t" m2) evs /\ waiting "t" "a" m2 s /\
  Forall (latest "t" "a") sub_pub /\ serving 0 "t" "a" s.
Proof.
  eexists _, _. split; [vm_compute; reflexivity|]. split; [split; cbn; intuition discriminate|]. split; [eexists [_], [], []; reflexivity|].
  split; [eexists _, _; split; [reflexivity|]; split; [reflexivity|]; split; [left; reflexivity|cbn; lia]|]. split; [lat|]. eexists. repeat split. discriminate.
Qed.
(** What one channel's handler has deleted before another channel read it never reaches the
    other channel. *)
Theorem C49_deleted_forever : forall t ch ch' c id pre s0 e0, run step init pre = Some (s0, e0) -> In (EDel c t ch' id) e0 -> (forall d e, In (ERead d t ch e) e0 -> e_id e <> id) ->
  forall sched s evs, run step s0 sched = Some (s, evs) -> deliveries t ch id (e0 ++ evs) = 0.
Proof. intros t ch ch' c id pre s0 e0. apply deleted_forever. Qed.
Print Assumptions C49_deleted_forever.
(** Channels a and b of one topic: a is first, b never gets the message. *)
Definition two_channels := base ++ [LSub "t" "b" Latest Ok; LArrive 1 1; LPub "t" "ev" "m" Ok; LRead 0 Ok; LPut 0] ++ hand 0 5.
Theorem C49_refuted : exists s0 e0, run step init two_channels = Some (s0, e0) /\ before (ESub 1 "t" "b") (EPub "t" m2) e0 /\ stays "t" "b" e0 /\ serving 1 "t" "b" s0 /\
  forall sched s evs, run step s0 sched = Some (s, evs) -> deliveries "t" "b" 2 (e0 ++ evs) = 0.
Proof.
  eexists _, _. split; [vm_compute; reflexivity|]. split; [eexists [_; _], [], _; reflexivity|]. split; [split; cbn; intuition discriminate|]. split; [eexists; repeat split; discriminate|].
  eapply (C49_deleted_forever "t" "b" "a" 0 2 two_channels); [vm_compute; reflexivity|in_list|]. intros d e X. cbn in X. repeat (destruct X as [X|X]; [discriminate|]). destruct X.
Qed.
Print Assumptions C49_refuted.

(** ** C50 *)
(** What a consumer has read and not pushed when its process dies is never delivered to the
    channel, whoever subscribes later. *)
Theorem C50_lost_forever : forall pre s0 e0 c t ch e, run step init pre = Some (s0, e0) -> In (ERead c t ch e) e0 -> (forall q, ~ In (EPush c t ch q e) e0) -> In (ECrash c) e0 ->
  Forall (latest t ch) pre -> forall sched s evs, run step s0 sched = Some (s, evs) -> Forall (latest t ch) sched -> deliveries t ch (e_id e) (e0 ++ evs) = 0.
Proof.
  intros pre s0 e0 c t ch e Hp Hr Hn Hc Hl sched s evs H Hl'. destruct (okC_reach _ _ _ Hp) as (A & _ & B). destruct (B _ Hr) as (x & Hx & <- & <-).
  destruct (crash_down _ _ _ Hp _ Hc) as (x' & Hx' & Hu). assert (x' = x) as -> by congruence.
  assert (Hi : In e (infl x)).
  { destruct (A _ _ Hx) as (P & _). apply rds_in in Hr. apply (Permutation.Permutation_in _ (Permutation.Permutation_sym P)) in Hr. apply in_app_or in Hr as [X|X]; [|exact X]. exfalso. apply in_psh in X as (t' & ch' & q & X).
    destruct (B _ X) as (y & Hy & <- & <-). assert (y = x) as -> by congruence. exact (Hn _ X). }
  apply (lost_forever _ _ _ _ _ _ Hp Hx Hu Hi _ _ _ H). apply Forall_app. auto.
Qed.
Print Assumptions C50_lost_forever.
Definition crashed := base ++ [LPub "t" "ev" "m" Ok; LRead 0 Ok; LPut 0; LHand 0 0 Ok; LCrash 0].
(** The consumer dies between reading and pushing; another consumer of the channel gets
    nothing. *)
Theorem C50_refuted : exists s0 e0, run step init crashed = Some (s0, e0) /\ before (ESub 0 "t" "a") (EPub "t" m2) e0 /\ In (ERead 0 "t" "a" m2) e0 /\ stays "t" "a" e0 /\
  (exists s1 e1, run step s0 [LSub "t" "a" Latest Ok; LArrive 1 0] = Some (s1, e1) /\ serving 1 "t" "a" s1) /\
  forall sched s evs, run step s0 sched = Some (s, evs) -> Forall (latest "t" "a") sched -> deliveries "t" "a" 2 (e0 ++ evs) = 0.
Proof.
  eexists _, _. split; [vm_compute; reflexivity|]. split; [eexists [_], [], _; reflexivity|]. split; [in_list|]. split; [split; cbn; intuition discriminate|]. split.
  - eexists _, _. split; [vm_compute; reflexivity|]. eexists. repeat split. discriminate.
  - intros sched s evs H Hl. refine (C50_lost_forever crashed _ _ 0 "t" "a" m2 _ _ _ _ _ sched s evs H Hl); [vm_compute; reflexivity|in_list| |in_list|lat].
    intros q X. cbn in X. repeat (destruct X as [X|X]; [discriminate|]). destruct X.
Qed.
Print Assumptions C50_refuted.
(** What no consumer had read when one died is still delivered: a new consumer of the channel
    can deliver all of it. *)
Theorem C50_unread_partial : forall t ch pre s evs c s1 ev q, run step init pre = Some (s, evs) -> Forall (latest t ch) pre -> step s (LCrash c) = Some (s1, ev) ->
  forall e0, waiting t ch e0 s -> exists d sched s' evs', run step s1 ([LSub t ch Latest Ok; LArrive d q] ++ sched) = Some (s', evs') /\ Forall (own d) sched /\ forall e, waiting t ch e s -> exists q', In (EPush d t ch q' e) evs'.
Proof.
  intros t ch pre s evs c s1 ev q Hp Hl Hs e0 Hw.
  assert (Es : strs s1 = strs s). { cbn [step] in Hs. destruct (nth_error (cons s) c) as [x|]; [|discriminate]. destruct (negb (c_up x)); [discriminate|]. now injection Hs as <- <-. }
  destruct Hw as (st & g & A & B & _ & _). set (d := List.length (cons s1)).
  set (s2 := set_cons s1 (cons s1 ++ [mkC t ch true [] UnboundedModel.init []])). set (s3 := set_cons s2 (cons s1 ++ [mkC t ch true [] UnboundedModel.init [mkH q HRecv]])).
  assert (H2 : step s1 (LSub t ch Latest Ok) = Some (s2, [ESub d t ch])). { cbn [step]. unfold xgroup_create. rewrite Es, A, B, <- Es. now destruct s1. }
  assert (H3 : step s2 (LArrive d q) = Some (s3, [])).
  { cbn [step]. assert (En : nth_error (cons s2) d = Some (mkC t ch true [] UnboundedModel.init [])) by (unfold s2, d; cbn [cons set_cons]; rewrite nth_error_app2, Nat.sub_diag by lia; reflexivity). rewrite En. cbn [c_up negb]. do 2 f_equal. unfold s3. f_equal. unfold s2. cbn [cons set_cons].
    unfold d. clear. induction (cons s1) as [|y l IH]; [reflexivity|]. cbn [List.length app upd]. f_equal. exact IH. }
  assert (H23 : run step s1 [LSub t ch Latest Ok; LArrive d q] = Some (s3, [ESub d t ch])) by (cbn [run]; rewrite H2, H3; reflexivity).
  pose proof (run_app _ _ _ _ _ _ _ _ Hp (run_one _ _ _ _ _ Hs)) as R1. pose proof (run_app _ _ _ _ _ _ _ _ R1 H23) as R3.
  assert (Hl3 : Forall (latest t ch) ((pre ++ [LCrash c]) ++ [LSub t ch Latest Ok; LArrive d q])) by (rewrite !Forall_app; repeat split; [exact Hl|repeat constructor|repeat constructor]).
  assert (Hv : serving d t ch s3). { exists (mkC t ch true [] UnboundedModel.init [mkH q HRecv]). unfold s3, d. cbn [cons set_cons]. rewrite nth_error_app2, Nat.sub_diag by lia. repeat split. discriminate. }
  destruct (all_delivered _ _ _ _ _ _ R3 Hl3 Hv) as (sched & s' & evs' & F1 & F2 & F3 & _). exists d, sched, s', ([ESub d t ch] ++ evs'). split; [exact (run_app _ _ _ _ _ _ _ _ H23 F2)|]. split; [exact F1|].
  intros e He. destruct (F3 e) as [q' Q]; [|exists q'; now right]. unfold waiting in *. unfold s3, s2. cbn [strs set_cons]. now rewrite Es.
Qed.
Print Assumptions C50_unread_partial.
Example C50_unread_case : exists s evs s1 ev, run step init sub_pub = Some (s, evs) /\ step s (LCrash 0) = Some (s1, ev) /\ waiting "t" "a" m2 s.
Proof. eexists _, _, _, _. split; [vm_compute; reflexivity|]. split; [vm_compute; reflexivity|]. eexists _, _; split; [reflexivity|]; split; [reflexivity|]; split; [left; reflexivity|cbn; lia]. Qed.

(** ** C90 *)
(** Once Close has destroyed the channel's group, and until somebody subscribes to it again,
    nothing published is handed to the channel. *)
Theorem C90_destroyed_partial : forall t ch pre s l s1 ev sched s' evs, run step init pre = Some (s, ev) -> forall ev1, step s l = Some (s1, ev1) -> In (EDestroy t ch) ev1 ->
  run step s1 sched = Some (s', evs) -> (forall md r, ~ In (LSub t ch md r) sched) -> forall c e, ~ In (ERead c t ch e) evs.
Proof.
  intros t ch pre s l s1 ev sched s' evs _ ev1 E Hd H Hn. exact (proj2 (no_group_no_read _ _ _ _ _ _ H (destroyed_gone _ _ _ _ _ _ E Hd) Hn)).
Qed.
Print Assumptions C90_destroyed_partial.
Definition closing := base ++ [LRead 0 Ok; LClose 0 Ok; LThr 1 Ok].
Example C90_destroyed_case : exists s ev s1 ev1 s' evs, run step init closing = Some (s, ev) /\ step s (LThr 1 Ok) = Some (s1, ev1) /\ In (EDestroy "t" "a") ev1 /\
  run step s1 [LPub "t" "ev" "m" Ok; LRead 0 Ok] = Some (s', evs) /\ In (EPub "t" m2) evs.
Proof. eexists _, _, _, _, _, _. split; [vm_compute; reflexivity|]. split; [vm_compute; reflexivity|]. split; [in_list|]. split; [vm_compute; reflexivity|in_list]. Qed.
(** The subscription that was closed still receives: with a second subscriber the group stays,
    and the closed one gets a message published after its Close has returned. *)
Theorem C90_closed_receives_refuted : exists sched s evs, run step init sched = Some (s, evs) /\ before (EClosed 0) (EPub "t" m2) evs /\ before (EPub "t" m2) (EPush 0 "t" "a" 0 m2) evs /\
  ~ In (EPush 1 "t" "a" 1 m2) evs.
Proof.
  exists (base ++ [LSub "t" "a" Latest Ok; LArrive 1 1; LRead 1 Ok; LClose 0 Ok; LThr 1 Ok; LPub "t" "ev" "m" Ok; LRead 0 Ok; LPut 0] ++ hand 0 3).
  eexists _, _. split; [vm_compute; reflexivity|]. split; [eexists [_; _; _], [], _; reflexivity|]. split; [eexists [_; _; _; _], [_], _; reflexivity|]. cbn. intuition discriminate.
Qed.
Print Assumptions C90_closed_receives_refuted.
(** Close of one subscriber ends another one's subscription: it subscribes between the last two
    commands of Close, and gets nothing until somebody subscribes once more. *)
Theorem C90_other_ended_refuted : exists s0 e0, run step init (closing ++ [LSub "t" "a" Latest Ok; LArrive 1 1; LThr 1 Ok]) = Some (s0, e0) /\ serving 1 "t" "a" s0 /\
  before (ESub 1 "t" "a") (EClosed 0) e0 /\ ~ In (EClosed 1) e0 /\
  forall sched s evs, run step s0 sched = Some (s, evs) -> (forall md r, ~ In (LSub "t" "a" md r) sched) -> forall c e, ~ In (ERead c "t" "a" e) evs.
Proof.
  eexists _, _. split; [vm_compute; reflexivity|]. split; [eexists; repeat split; discriminate|]. split; [eexists [_; _], [_], []; reflexivity|]. split; [cbn; intuition discriminate|].
  intros sched s evs H Hn. refine (proj2 (no_group_no_read _ _ _ _ _ _ H _ Hn)). intros (x & g & A & B). injection A as <-. discriminate.
Qed.
Print Assumptions C90_other_ended_refuted.

(** Close of one subscriber leaves the others alone, apart from that: a consumer the group
    knows stays known to it through everything but its own Close, as long as the group stays; *)
Theorem C90_known_stays : forall d t ch pre s ev sched s' evs, run step init pre = Some (s, ev) -> run step s sched = Some (s', evs) -> (forall r, ~ In (LClose d r) sched) -> stays t ch evs ->
  known d t ch s -> known d t ch s'.
Proof. intros d t ch pre s ev sched s' evs _. apply known_run. Qed.
Print Assumptions C90_known_stays.
(** a consumer is known once it has read; *)
Theorem C90_reader_known : forall c t ch pre s ev s' evs, run step init pre = Some (s, ev) -> In (ESub c t ch) ev -> stays t ch ev -> step s (LRead c Ok) = Some (s', evs) -> known c t ch s'.
Proof.
  intros c t ch pre s ev s' evs Hp Hc Hs H. destruct (okC_reach _ _ _ Hp) as (_ & _ & K). destruct (K _ Hc) as (x & A & B & C). exact (read_known _ _ _ _ _ _ _ A B C (proj1 (fate_reach _ _ _ _ _ Hp Hs) (ex_intro _ c Hc)) H).
Qed.
Print Assumptions C90_reader_known.
(** and a group is destroyed only by a call of Close that has found, at an earlier moment,
    that it knew no consumer. *)
Theorem C90_destroys_empty : forall t ch sched l s evs s' ev, run step init sched = Some (s, evs) -> step s l = Some (s', ev) -> In (EDestroy t ch) ev ->
  exists i r a b s0 e0, l = LThr i r /\ sched = a ++ LThr i Ok :: b /\ run step init a = Some (s0, e0) /\ forall d, ~ known d t ch s0.
Proof. intros t ch sched l s evs s' ev. apply destroyed_was_empty. Qed.
Print Assumptions C90_destroys_empty.
Definition two_readers := base ++ [LSub "t" "a" Latest Ok; LArrive 1 1; LRead 0 Ok].
Example C90_known_case : exists s ev s1 ev1 s2 evs, run step init two_readers = Some (s, ev) /\ In (ESub 1 "t" "a") ev /\ stays "t" "a" ev /\ step s (LRead 1 Ok) = Some (s1, ev1) /\ known 1 "t" "a" s1 /\
  run step s1 [LClose 0 Ok; LThr 1 Ok; LPub "t" "ev" "m" Ok; LRead 1 Ok] = Some (s2, evs) /\ stays "t" "a" evs /\ In (EClosed 0) evs /\ In (ERead 1 "t" "a" m2) evs.
Proof.
  eexists _, _, _, _, _, _. split; [vm_compute; reflexivity|]. split; [in_list|]. split; [split; cbn; intuition discriminate|]. split; [vm_compute; reflexivity|]. split; [eexists _, _; split; [reflexivity|]; split; [reflexivity|]; cbn; auto|].
  split; [vm_compute; reflexivity|]. split; [split; cbn; intuition discriminate|]. split; in_list.
Qed.
Example C90_destroys_case : exists s ev s1 ev1, run step init closing = Some (s, ev) /\ step s (LThr 1 Ok) = Some (s1, ev1) /\ In (EDestroy "t" "a") ev1.
Proof. eexists _, _, _, _. split; [vm_compute; reflexivity|]. split; [vm_compute; reflexivity|in_list]. Qed.

(** ** C91 *)
(** Undisturbed, Topic.Close deletes the stream only if it has no groups and no entries. *)
Theorem C91_undisturbed_partial : forall t s r1 r2 s' evs, run step s [LTClose t Ok; LThr (List.length (thrs s)) r1; LThr (List.length (thrs s)) r2] = Some (s', evs) -> In (EGone t) evs ->
  forall st, aget t (strs s) = Some st -> s_ents st = [] /\ s_grps st = [].
Proof.
  intros t s r1 r2 s' evs H Hg st Hst. cbn [run] in H. cbn [step] in H. unfold get_or_new in H at 1. rewrite Hst in H. destruct (s_grps st) as [|p l] eqn:Eg.
  - split; [|reflexivity]. cbn [add_thr set_thrs thrs strs] in H. rewrite nth_error_app2, Nat.sub_diag in H by lia. cbn [nth_error thr_step] in H. destruct (s_ents st) as [|e es] eqn:Ee; [reflexivity|exfalso].
    assert (En : forall p, nth_error (thrs (go (add_thr s (TLen t)) (List.length (thrs s)) p)) (List.length (thrs s)) = Some p) by (intros p; cbn [go add_thr set_thrs thrs]; apply nth_upd_eq; rewrite app_length; cbn; lia).
    assert (Eq : s_ents (get_or_new t (strs (add_thr s (TLen t)))) = e :: es) by (cbn [add_thr set_thrs strs]; unfold get_or_new; now rewrite Hst).
    rewrite Eq in H. destruct r1; rewrite En in H; discriminate.
  - exfalso. cbn [run step] in H. rewrite (proj2 (nth_error_None (thrs s) (List.length (thrs s)))) in H by lia. discriminate.
Qed.
Print Assumptions C91_undisturbed_partial.
Example C91_undisturbed_case : exists s0 e0 s evs, run step init [LNew "t" false Ok; LThr 0 Ok; LThr 0 Ok] = Some (s0, e0) /\ run step s0 [LTClose "t" Ok; LThr 1 Ok; LThr 1 Ok] = Some (s, evs) /\ List.length (thrs s0) = 1 /\ In (EGone "t") evs /\ exists st, aget "t" (strs s0) = Some st.
Proof. eexists _, _, _, _. split; [vm_compute; reflexivity|]. split; [vm_compute; reflexivity|]. split; [reflexivity|]. split; [in_list|]. eexists. reflexivity. Qed.
(** Disturbed, it deletes a topic with a live subscriber and a message published after that
    subscription; the message is never delivered. *)
Definition closing_topic := [LNew "t" false Ok; LThr 0 Ok; LThr 0 Ok; LTClose "t" Ok; LThr 1 Ok; LSub "t" "a" Latest Ok; LArrive 0 0; LPub "t" "ev" "m" Ok; LThr 1 Ok].
Theorem C91_refuted : exists s0 e0, run step init closing_topic = Some (s0, e0) /\ before (ESub 0 "t" "a") (EPub "t" m2) e0 /\ before (EPub "t" m2) (EGone "t") e0 /\ In (ETClosed "t") e0 /\ serving 0 "t" "a" s0 /\
  forall sched s evs, run step s0 sched = Some (s, evs) -> deliveries "t" "a" 2 (e0 ++ evs) = 0.
Proof.
  eexists _, _. split; [vm_compute; reflexivity|]. split; [eexists [_], [], _; reflexivity|]. split; [eexists [_; _], [], _; reflexivity|]. split; [in_list|]. split; [eexists; repeat split; discriminate|].
  intros sched s evs H. refine (absent_undelivered closing_topic _ _ "t" "a" 2 _ _ _ sched s evs H); [vm_compute; reflexivity| |split; [cbn; lia|intros st e A; discriminate]]. intros d e X. cbn in X. repeat (destruct X as [X|X]; [discriminate|]). destruct X.
Qed.
Print Assumptions C91_refuted.

(** ** C98: where a channel starts *)
(** A message published before anybody has subscribed to the channel is never delivered to
    it, if it is always subscribed with ReadModeLatest, as System.Sub does. *)
Theorem C98_latest : forall t ch e pre s0 e0, run step init pre = Some (s0, e0) -> unsubscribed t ch e0 -> In (EPub t e) e0 ->
  forall sched s evs, run step s0 sched = Some (s, evs) -> Forall (latest t ch) sched -> deliveries t ch (e_id e) (e0 ++ evs) = 0.
Proof. intros t ch e pre s0 e0. apply not_from_before. Qed.
Print Assumptions C98_latest.
Definition pub_first := [LNew "t" false Ok; LThr 0 Ok; LThr 0 Ok; LPub "t" "ev" "m" Ok].
Example C98_latest_case : exists s0 e0 s evs, run step init pub_first = Some (s0, e0) /\ unsubscribed "t" "a" e0 /\ In (EPub "t" m2) e0 /\
  run step s0 ([LSub "t" "a" Latest Ok; LArrive 0 0; LPub "t" "ev" "n" Ok; LRead 0 Ok; LPut 0] ++ hand 0 3) = Some (s, evs) /\ In (EPush 0 "t" "a" 0 m3) evs /\ ~ In (EPush 0 "t" "a" 0 m2) evs.
Proof.
  eexists _, _, _, _. split; [vm_compute; reflexivity|]. split; [split; cbn; intros; intuition discriminate|]. split; [in_list|]. split; [vm_compute; reflexivity|]. split; [in_list|cbn; intuition discriminate].
Qed.
(** Subscribed with ReadModeBeginning, a channel that has no group is given everything that
    is in the stream. *)
Theorem C98_beginning : forall t ch pre s evs st, run step init pre = Some (s, evs) -> aget t (strs s) = Some st -> aget ch (s_grps st) = None ->
  exists s', step s (LSub t ch Begin Ok) = Some (s', [ESub (List.length (cons s)) t ch]) /\ forall e, In e (s_ents st) -> waiting t ch e s'.
Proof. intros t ch pre s evs st. apply from_beginning. Qed.
Print Assumptions C98_beginning.
Example C98_beginning_case : exists s evs st, run step init pub_first = Some (s, evs) /\ aget "t" (strs s) = Some st /\ aget "a" (s_grps st) = None /\ In m2 (s_ents st).
Proof. eexists _, _, _. split; [vm_compute; reflexivity|]. split; [reflexivity|]. split; [reflexivity|in_list]. Qed.

(** ** C99: what Pub reports *)
(** Pub that reports no error has added the message with its event, which is not empty, once
    and at the end of the stream, and the message now waits for every channel subscribed. *)
Theorem C99_stored : forall pre s evs t ev body r s' ev', run step init pre = Some (s, evs) -> step s (LPub t ev body r) = Some (s', ev') -> ~ In (EPubErr t) ev' ->
  ev <> "" /\ exists e st, ev' = [EPub t e] /\ e_ev e = ev /\ e_body e = body /\ aget t (strs s') = Some st /\ last (s_ents st) e = e /\ In e (s_ents st) /\
    (forall t' e', In (EPub t' e') evs -> e_id e' < e_id e) /\ (forall c ch, In (ESub c t ch) evs -> stays t ch evs -> waiting t ch e s').
Proof. exact pub_stored. Qed.
Print Assumptions C99_stored.
(** Pub with an empty event reports an error and changes nothing. *)
Theorem C99_empty : forall s t body r, step s (LPub t "" body r) = Some (s, [EPubErr t]).
Proof. reflexivity. Qed.
Print Assumptions C99_empty.
Example C99_case : exists s evs s' ev', run step init base = Some (s, evs) /\ step s (LPub "t" "ev" "m" Ok) = Some (s', ev') /\ ~ In (EPubErr "t") ev' /\ In (ESub 0 "t" "a") evs /\ stays "t" "a" evs.
Proof. eexists _, _, _, _. split; [vm_compute; reflexivity|]. split; [vm_compute; reflexivity|]. split; [cbn; intuition discriminate|]. split; [in_list|split; cbn; intuition discriminate]. Qed.
(** An error does not mean that the message is not published: the reply was lost, the caller
    is told so, and the subscriber gets the message all the same. *)
Theorem C99_error_stored_refuted : exists s evs s' ev', run step init base = Some (s, evs) /\ run step s ([LPub "t" "ev" "m" NoReply; LRead 0 Ok; LPut 0] ++ hand 0 3) = Some (s', ev') /\
  In (EPubErr "t") ev' /\ In (EPush 0 "t" "a" 0 m2) ev'.
Proof. eexists _, _, _, _. split; [vm_compute; reflexivity|]. split; [vm_compute; reflexivity|]. split; in_list. Qed.
Print Assumptions C99_error_stored_refuted.
