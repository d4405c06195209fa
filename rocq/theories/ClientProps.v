(** Theorems about the gRPC client: C57, C78, C79, C94 and C95. *)
From Coq Require Import List Arith Bool Lia.
From Verif Require Import Machine ClientModel ClientSpec ClientProofs ClientTrace.
Import ListNotations.

(** ** C57: the concurrency cap and the slots *)
(** However Call and CallWait are interleaved and end, at most [n] invocations of Call are
    in the transport. *)
Theorem C57_cap : forall n addrs sched s evs, run step (client n addrs) sched = Some (s, evs) -> count by_call s <= n.
Proof. exact call_cap. Qed.
Print Assumptions C57_cap.
(** Every call gives its slot back: the taken slots are those of the calls that took one
    and have not returned, so when all have returned all [n] are free. *)
Theorem C57_slots : forall n addrs sched s evs, run step (client n addrs) sched = Some (s, evs) ->
  free s + count holds_slot s = n /\ ((forall p, In p (calls s) -> returned p = true) -> free s = n).
Proof.
  intros n addrs sched s evs H. split; [|eapply rest_free; eauto]. destruct (slots_reach _ _ _ _ _ H) as (Hc & Hs & Hl). unfold free. lia.
Qed.
Print Assumptions C57_slots.
(** A Call that is waiting may be cancelled and one under way finishes by steps of its own,
    whatever the others do: giving the slot back never waits.  Afterwards it has returned. *)
Theorem C57_finishes : forall n addrs sched s evs i p, run step (client n addrs) sched = Some (s, evs) -> crashed s = false ->
  nth_error (calls s) i = Some p -> match p with QSelect _ _ | QConn _ _ | QOpts _ _ | QInvoke _ | QRelease _ => True | _ => False end ->
  exists more s' evs' r, run step s more = Some (s', evs') /\ (forall l, In l more -> alone i l) /\ nth_error (calls s') i = Some (QDone r) /\ In (EReturn i r) evs'.
Proof. intros n addrs sched s evs i p H. eapply finish, slots_reach, H. Qed.
Print Assumptions C57_finishes.
(** A waiting Call can go on whenever a slot is free, and only then. *)
Theorem C57_takes : forall n addrs sched s evs i a o, run step (client n addrs) sched = Some (s, evs) -> crashed s = false ->
  nth_error (calls s) i = Some (QSelect a o) -> (step s (LTake i) <> None <-> count holds_slot s < n).
Proof.
  intros n addrs sched s evs i a o H Hc Hn. destruct (slots_reach _ _ _ _ _ H) as (H1 & H2 & H3). unfold step. rewrite Hc, Hn, <- H1, <- H2.
  destruct (Nat.ltb_spec (slots s) (cap s)); split; intros; try congruence; lia.
Qed.
Print Assumptions C57_takes.
(** CallWait, by which all calls to actors on other nodes go (core/node/system_impl.go:349),
    takes no slot: any number is in the transport at once, whatever the cap. *)
Theorem C57_call_wait_refuted : forall n k, exists sched s evs, run step (client n [0]) sched = Some (s, evs) /\ count in_transport s = k /\ free s = n.
Proof.
  intros n k. destruct (waits n k) as (sched & s & evs & Hr & Hc & _). exists sched, s, evs. split; [exact Hr|].
  destruct (slots_reach _ _ _ _ _ Hr) as (H1 & H2 & _). unfold count in *. rewrite Hc in *. split.
  - clear. induction k; [reflexivity|]. cbn. now rewrite IHk.
  - unfold free. assert (E : length (filter holds_slot (repeat (WInvoke 0) k)) = 0) by (clear; induction k; [reflexivity|exact IHk]). lia.
Qed.
Print Assumptions C57_call_wait_refuted.
(** Two calls at once with one slot: the second waits, is let in after the first returned,
    fails for its option, and both slots are free again. *)
Example C57_case : exists s evs, run step (client 1 [5])
    [LCall 5 true; LCall 5 false; LTake 0; LConn 0; LOpts 0; LInvoked 0 true; LRelease 0; LTake 1; LConn 1; LOpts 1; LRelease 1] = Some (s, evs) /\
  evs = [EInvoke 0 0; EReturn 0 ROk; EReturn 1 RBadOption] /\ free s = 1.
Proof. eexists _, _. split; [vm_compute; reflexivity|]. split; reflexivity. Qed.
Example C57_case_wait : run step (client 1 [5]) [LCall 5 true; LCall 5 true; LTake 0; LConn 0; LOpts 0; LTake 1] = None.
Proof. reflexivity. Qed.

(** ** C78: connections that are opened stay in use *)
(** If no two calls connect to the same address at the same time, every connection the
    client opened is in its table, or is about to be put there. *)
Theorem C78_kept_partial : forall n addrs sched s evs, NoDup addrs -> run step (client n addrs) sched = Some (s, evs) ->
  always one_at_a_time (client n addrs) sched -> forall c, ~ lost s c.
Proof. exact no_lost. Qed.
Print Assumptions C78_kept_partial.
(** Without that: two first calls to one address each open a connection and the table keeps
    the second; the first stays open and nobody can use or close it. *)
Theorem C78_lost_refuted : exists sched s evs, run step (client 1 []) sched = Some (s, evs) /\ (forall p, In p (calls s) -> returned p = true) /\ lost s 0.
Proof.
  exists [LCallWait 5 true; LCallWait 5 true; LConn 0; LConn 1; LDial 0 true; LDial 1 true; LStore 0; LStore 1; LOpts 0; LOpts 1; LInvoked 0 true; LInvoked 1 true].
  eexists _, _. split; [vm_compute; reflexivity|]. split; [cbn; intros p [<-|[<-|[]]]; reflexivity|].
  split; [cbn; lia|]. split; [intros a; cbn; destruct a as [|[|[|[|[|[|]]]]]]; discriminate|]. cbn. intros p [<-|[<-|[]]] (a & o & H); discriminate.
Qed.
Print Assumptions C78_lost_refuted.
(** The same happens to an address listed twice in the configuration. *)
Theorem C78_twice_listed_refuted : lost (client 1 [5; 5]) 0.
Proof. split; [cbn; lia|]. split; [intros a; cbn; destruct a as [|[|[|[|[|[|]]]]]]; discriminate|]. cbn. intros p []. Qed.
Print Assumptions C78_twice_listed_refuted.
(** One after the other: the second call finds the connection of the first. *)
Example C78_case : exists s evs, run step (client 1 []) [LCallWait 5 true; LCallWait 5 true; LConn 0; LDial 0 true; LStore 0; LConn 1; LOpts 0; LOpts 1] = Some (s, evs) /\
  evs = [EInvoke 0 0; EInvoke 1 0] /\ dialed s = 1.
Proof. eexists _, _. split; [vm_compute; reflexivity|]. split; reflexivity. Qed.

(** ** C79: an option that is not a call option *)
(** Call reports it: such a call never reaches the transport, and returns an error. *)
Theorem C79_call_partial : forall s0 a sched s evs i, run step s0 (LCall a false :: sched) = Some (s, evs) -> i = length (calls s0) ->
  (forall c, ~ In (EInvoke i c) evs) /\ ~ In (EReturn i ROk) evs.
Proof.
  intros s0 a sched s evs i H ->. cbn [run] in H. destruct (step s0 (LCall a false)) as [[s1 e1]|] eqn:E; [|discriminate].
  inv_step E. injection E as <- <-. match type of H with context [run step ?x sched] => destruct (run step x sched) as [[s2 e2]|] eqn:R end; [|discriminate].
  injection H as <- <-. cbn [app]. eapply bad_run; [|exact R]. cbn [calls]. rewrite nth_error_app2, Nat.sub_diag by lia. eexists; split; [reflexivity|exact I].
Qed.
Print Assumptions C79_call_partial.
(** CallWait prints a line and puts a nil option among the options: the process dies. *)
Theorem C79_call_wait_refuted : forall n addrs sched s evs i c, run step (client n addrs) sched = Some (s, evs) -> crashed s = false ->
  nth_error (calls s) i = Some (WOpts c false) -> exists s', step s (LOpts i) = Some (s', [ECrash i]) /\ forall l, step s' l = None.
Proof. intros n addrs sched s evs i c _ Hc Hn. eexists. split; [unfold step; rewrite Hc, Hn; reflexivity|]. intros l. reflexivity. Qed.
Print Assumptions C79_call_wait_refuted.
Example C79_case : exists s, run step (client 1 [5]) [LCall 5 false; LTake 0; LConn 0; LOpts 0; LRelease 0] = Some (s, [EReturn 0 RBadOption]).
Proof. eexists. reflexivity. Qed.
Example C79_case_crash : exists s, run step (client 1 [5]) [LCallWait 5 false; LConn 0; LOpts 0] = Some (s, [ECrash 0]).
Proof. eexists. reflexivity. Qed.

(** ** C94: calls go where they are addressed *)
(** Whatever else is going on, a call is sent over a connection that was opened to the
    address it names. *)
Theorem C94_right_connection : forall n addrs sched s evs i c, run step (client n addrs) sched = Some (s, evs) -> In (EInvoke i c) evs ->
  exists a, nth_error (called sched) i = Some a /\ nth_error (opened addrs sched) c = Some a.
Proof. intros n addrs sched s evs i c H Hin. destruct (ai_run addrs n sched s evs H) as (_ & _ & Ht). exact (Ht _ Hin). Qed.
Print Assumptions C94_right_connection.
(** An address of the configuration is never reported as unconnected, nor dialled again. *)
Theorem C94_configured : forall n addrs sched s evs i a r, run step (client n addrs) sched = Some (s, evs) ->
  nth_error (called sched) i = Some a -> In a addrs -> In (EReturn i r) evs -> r <> RNoConn /\ r <> RDial.
Proof.
  intros n addrs sched s evs i a r H Ha Hin Hr. destruct (ai_run addrs n sched s evs H) as (_ & _ & Ht). specialize (Ht _ Hr). cbn in Ht.
  split; intros E; (destruct Ht as (a' & Ha' & Hn); [auto|]); rewrite Ha in Ha'; injection Ha' as <-; contradiction.
Qed.
Print Assumptions C94_configured.
(** Calls to two configured addresses and to a third one, which is dialled. *)
Example C94_case : exists s evs, run step (client 2 [5; 6])
    [LCall 6 true; LCallWait 7 true; LTake 0; LConn 1; LConn 0; LDial 1 true; LStore 1; LOpts 0; LOpts 1; LCall 5 true; LTake 2; LConn 2; LOpts 2] = Some (s, evs) /\
  evs = [EInvoke 0 1; EInvoke 1 2; EInvoke 2 0].
Proof. eexists _, _. split; [vm_compute; reflexivity|reflexivity]. Qed.

(** ** C95: a call returns once, and reports what the transport answered *)
(** It is successful exactly if it was sent once and the transport accepted it; if it reports
    a failure of the transport it was sent once and refused; any other error means that it
    was never sent. *)
Theorem C95_reports_answer : forall n addrs sched s evs i r, run step (client n addrs) sched = Some (s, evs) -> In (EReturn i r) evs ->
  match r with
  | ROk => (exists c, own i evs = [EInvoke i c; EReturn i ROk]) /\ answers i sched = [true]
  | RInvoke => (exists c, own i evs = [EInvoke i c; EReturn i RInvoke]) /\ answers i sched = [false]
  | _ => own i evs = [EReturn i r] /\ answers i sched = []
  end.
Proof. exact answered. Qed.
Print Assumptions C95_reports_answer.
Ltac in_now := first [left; reflexivity|right; in_now].
(** One call of each kind: accepted, refused, without connection, cancelled, not dialled. *)
Example C95_case : exists s evs, run step (client 2 [5])
    [LCall 5 true; LCallWait 5 true; LCall 6 true; LCall 5 true; LCallWait 6 true; LTake 0; LTake 2; LCancel 3; LConn 2; LRelease 2; LConn 0; LConn 1; LConn 4; LDial 4 false;
     LOpts 0; LOpts 1; LInvoked 1 false; LInvoked 0 true; LRelease 0] = Some (s, evs) /\
  In (EReturn 0 ROk) evs /\ In (EReturn 1 RInvoke) evs /\ In (EReturn 2 RNoConn) evs /\ In (EReturn 3 RAcquire) evs /\ In (EReturn 4 RDial) evs.
Proof. eexists _, _. split; [vm_compute; reflexivity|]. repeat split; in_now. Qed.
