(** C176-C178: continuations of re-entrant calls that work on one variable. *)
From Coq Require Import List ZArith Bool Lia Arith String.
From Verif Require Import Machine MachineMore MsgModel NestModel NestSpec NestProofs CalcModel CalcSpec CalcProofs.
Import ListNotations.
Open Scope Z_scope.
Open Scope list_scope.

Lemma calc_valid : forall c, In c calculateVal -> exists x, c = Rune x.
Proof. intros c H. unfold calculateVal in H. apply in_map_iff in H as (x & <- & _). eauto. Qed.
Lemma clac_ok b : sound b -> holds Req b calculateVal 2 -> exists b', clac b = Some b' /\ err b' = false /\ holds Res b' calculateVal 4 /\ hdr Req b' = hdr Req b /\ reqH b' = reqH b.
Proof.
  intros (Wq & Ws & Hne & He) Hv. unfold clac. change CalcModel.key with calculateVal. rewrite Hv. change (wrap64 (2 + 2)) with 4.
  destruct (put_int Res calculateVal 4 b Ws He calc_valid) as (b' & -> & He' & _ & Hh & _ & Hq & E1 & _); [lia|]. exists b'. repeat (split; [auto; fail|]). split; [|exact E1].
  apply hdr_same; [exact E1|]. intros q Hp. apply Hq. cbn in *. congruence.
Qed.

(** ** C176: the answer is found in the response, wherever the other actor lives, and the
    request has what was asked. *)
Theorem C176_answer_partial : forall p b, sound b -> exists b', asked p b = Some b' /\ err b' = false /\ holds Res b' calculateVal 4 /\ holds Req b' calculateVal 2.
Proof.
  intros p b (Wq & Ws & Hne & He). unfold asked, ask. change CalcModel.key with calculateVal.
  destruct (put_int Req calculateVal 2 b Wq He calc_valid) as (b1 & -> & He1 & Wq1 & Hh1 & _ & Hq1 & E1 & E2 & El & _); [lia|].
  assert (Hs : hdr Res b1 = hdr Res b) by (apply hdr_same; [exact E2|intros q Hp; apply Hq1; cbn in *; congruence]).
  assert (S1 : sound b1). { split; [exact Wq1|]. split; [destruct Ws as (h & Hh & C); exists h; rewrite Hs; auto|]. split; [congruence|exact He1]. }
  destruct p as [|uid].
  - destruct (clac_ok b1 S1 Hh1) as (b' & -> & H1 & H2 & H3 & H4). exists b'. split; [reflexivity|]. split; [exact H1|]. split; [exact H2|]. unfold holds. rewrite (get_same Req b1 b' _ _ H3). exact Hh1.
  - destruct Wq1 as (h & Hh & C). rewrite Hh. set (b2 := arrive uid h b1).
    assert (Rq : hdr Req b2 = Some (from_acceptor h)) by (unfold b2, arrive, hdr; cbn; rewrite nth_error_app2, Nat.sub_diag by lia; reflexivity).
    assert (Rs : hdr Res b2 = Some (newHeader uid)).
    { unfold b2, arrive, hdr. cbn [resH ptr heap]. rewrite nth_error_app2 by lia. replace (Datatypes.S (List.length (heap b1)) - List.length (heap b1))%nat with 1%nat by lia. reflexivity. }
    assert (S2 : sound b2).
    { split; [exists (from_acceptor h); split; [exact Rq|exact C]|]. split; [exists (newHeader uid); split; [exact Rs|now left]|]. split; [cbn; intros [=]; lia|reflexivity]. }
    assert (V2 : holds Req b2 calculateVal 2). { unfold holds, GetCustomField in *. rewrite Rq. rewrite Hh in Hh1. exact Hh1. }
    assert (Rp : exists q, reqH b1 = Some q /\ nth_error (heap b1) q = Some h) by (unfold hdr in Hh; cbn in Hh; destruct (reqH b1) as [q|]; [eauto|discriminate]). destruct Rp as (q & Rp & Rn).
    (* the other node writes into headers of its own *)
    pose proof S2 as (_ & Ws2 & Hne2 & He2). unfold clac. change CalcModel.key with calculateVal. rewrite V2. change (wrap64 (2 + 2)) with 4.
    destruct (put_int Res calculateVal 4 b2 Ws2 He2 calc_valid) as (b3 & -> & He3 & _ & Hh3 & _ & Hq3 & F1 & F2 & _); [lia|].
    exists (back b1 b3). split; [reflexivity|]. split; [exact He1|]. split; [exact Hh3|]. unfold holds.
    rewrite (get_same Req b1 (back b1 b3) _ _); [exact Hh1|]. unfold hdr, back. cbn [ptr reqH heap]. rewrite Rp. rewrite Hq3.
    + unfold b2, arrive. cbn [heap]. apply nth_error_app1. apply nth_error_Some. congruence.
    + unfold b2, arrive. cbn [ptr resH]. intros [= X]. assert (q < List.length (heap b1))%nat by (apply nth_error_Some; congruence). lia.
Qed.
Print Assumptions C176_answer_partial.
Example C176_case : exists b b', WithCustomFields Res [([Rune 97], GBool true)] (NewBuilder [] "m") = Some b /\ asked (Remote "x") b = Some b' /\ holds Res b' calculateVal 4.
Proof. eexists _, _. split; [vm_compute; reflexivity|]. split; [vm_compute; reflexivity|]. vm_compute. reflexivity. Qed.
(** A response that carries an object: the continuation finds nothing. *)
Theorem C176_object_refuted : exists b b', WithCustomObject Res (Some (CBytes [129; 161; 97; 7])) (NewBuilder [] "m") = Some b /\ asked Local b = Some b' /\ holds Res b' calculateVal 0.
Proof. eexists _, _. split; [vm_compute; reflexivity|]. split; [vm_compute; reflexivity|]. vm_compute. reflexivity. Qed.
Print Assumptions C176_object_refuted.

(** ** C177: at any time, after any interleaving, the variable is nought until the first
    continuation has run, and then eight and ten for every second continuation that has; missing
    from the full statement: failed calls, contexts that end, and sums beyond an int32. *)
Theorem C177_value_partial : forall sched s evs, run step init sched = Some (s, evs) -> Forall fair sched -> 8 + 10 * Z.of_nat (chains sched) < 2 ^ 31 ->
  ((forall j v, ~ In (VFirst j v) evs) -> value s = 0) /\ (forall j v, In (VFirst j v) evs -> value s = 8 + 10 * Z.of_nat (seconds evs)).
Proof.
  intros sched s evs H F Hb. destruct (value_reach _ _ _ H F Hb) as [_ V]. destruct (linked_reach _ _ _ H) as (L1 & _ & _ & _ & _ & L6 & _). rewrite L1, V. split.
  - intros N. destruct (Nat.ltb_spec 0 (count did_first (jobs s))) as [Hp|]; [|reflexivity]. exfalso.
    assert (E : exists x, In x (jobs s) /\ did_first x = true).
    { revert Hp. clear. unfold count. induction (jobs s) as [|x l IH]; cbn; [lia|]. destruct (did_first x) eqn:D; [exists x; auto|]. intros Hp. destruct (IH Hp) as (y & Hy & Dy). exists y. auto. }
    destruct E as (x & Hx & Dx). apply In_nth_error in Hx as (j & Hj). destruct (proj2 (L6 j)) as (v & Hv); [exists x; auto|]. exact (N j v Hv).
  - intros j v Hv. destruct (proj1 (L6 j)) as (x & Hx & Dx); [eauto|]. pose proof (count_pos did_first _ x (nth_error_In _ _ Hx) Dx) as Hp. now rewrite (proj2 (Nat.ltb_lt _ _) Hp).
Qed.
Print Assumptions C177_value_partial.
(** When all is over: eight, and ten for every "chain". *)
Theorem C177_final_partial : forall sched s evs, run step init sched = Some (s, evs) -> Forall fair sched -> 8 + 10 * Z.of_nat (chains sched) < 2 ^ 31 ->
  (0 < begun sched)%nat -> all_over evs -> value s = 8 + 10 * Z.of_nat (chains sched).
Proof.
  intros sched s evs H F Hb Hg A. pose proof (linked_reach _ _ _ H) as (L1 & L2 & L3 & L4 & L5 & L6 & _).
  assert (E : seconds evs = chains sched).
  { rewrite L1, L2. assert (OK := okall_reach _ _ _ H (Forall_impl _ fair_lasting F)). destruct OK as (OJ & _). apply Nat.le_antisymm; apply count_le; intros x Hx Dx; apply In_nth_error in Hx as (j & Hj).
    - destruct (OJ _ _ Hj) as (_ & _ & A3 & _). unfold is_chain. unfold did_second in Dx. destruct (what x); [rewrite A3 in Dx by reflexivity; discriminate|reflexivity].
    - assert (W : what x = Chain) by (unfold is_chain in Dx; destruct (what x); [discriminate|reflexivity]).
      destruct (A j Chain) as [_ B]; [apply L4; eauto|]. destruct (proj1 (L5 j) (B eq_refl)) as (y & Hy & Dy). congruence. }
  rewrite L3 in Hg. destruct (jobs s) as [|x l] eqn:Ej; [cbn in Hg; lia|]. destruct (A 0%nat (what x)) as [(v & Hv) _]; [apply L4; exists x; split; reflexivity|].
  destruct (C177_value_partial _ _ _ H F Hb) as [_ V]. rewrite <- E. exact (V _ _ Hv).
Qed.
Print Assumptions C177_final_partial.
(** A "chain" and a "reenter", the second taken while the call of the first is under way. *)
Definition both : list label := [LBegin Chain; LThen; LThenThen; LEnd; LBegin Reenter; LReturn 1 4; LReturn 0 4; LThen; LEnd; LAct 1; LAct 0; LFirst 0; LFirst 1; LSecond 0].
Example C177_case : exists s evs, run step init both = Some (s, evs) /\ Forall fair both /\ all_over evs /\ value s = 18.
Proof.
  eexists _, _. split; [lazy; reflexivity|]. split; [repeat constructor|]. split; [|reflexivity]. intros j k H. cbn in H. unfold over. cbn.
  destruct H as [[= <- <-]|[[= <- <-]|[H|[H|[H|[]]]]]]; try discriminate; (split; [exists 4; auto 10|intros; try discriminate; auto 10]).
Qed.
(** A call that failed (its response has no number): its continuations run all the same, and the
    answer of the next is not stored. *)
Theorem C177_failed_refuted : exists sched s evs, run step init sched = Some (s, evs) /\ Forall lasting sched /\ all_over evs /\ begun sched = 2%nat /\ chains sched = 1%nat /\
  In (LReturn 1 4) sched /\ value s = 10.
Proof.
  exists [LBegin Chain; LThen; LThenThen; LEnd; LReturn 0 0; LAct 0; LFirst 0; LSecond 0; LBegin Reenter; LThen; LEnd; LReturn 1 4; LAct 1; LFirst 1].
  eexists _, _. split; [lazy; reflexivity|]. split; [repeat constructor|]. split; [|split; [reflexivity|split; [reflexivity|split; [cbn; tauto|reflexivity]]]]. intros j k H. cbn in H. unfold over. cbn.
  destruct H as [[= <- <-]|[H|[H|[[= <- <-]|[H|[]]]]]]; try discriminate; (split; [first [exists 0; auto 10; fail|exists 4; auto 10]|intros; try discriminate; auto 10]).
Qed.
Print Assumptions C177_failed_refuted.

(** More than an int32 can hold: enough messages "chain", one after the other. *)
Lemma nth_snoc {A} (l : list A) x : nth_error (l ++ [x]) (List.length l) = Some x.
Proof. rewrite nth_error_app2, Nat.sub_diag by lia. reflexivity. Qed.
Lemma upd_snoc {A} (l : list A) x y : upd (l ++ [x]) (List.length l) y = l ++ [y].
Proof. induction l as [|a l IH]; cbn; [reflexivity|now rewrite IH]. Qed.
Definition block (n : nat) : list label := [LBegin Chain; LThen; LThenThen; LEnd; LReturn n 4; LAct n; LFirst n; LSecond n].
Lemma block_run js v : exists y, run step (mkS js None v false) (block (List.length js)) = Some (mkS (js ++ [y]) None (wrap32 (swap0 v 4 + 10)) false, [VBegin (List.length js) Chain; VFirst (List.length js) 4; VSecond (List.length js)]).
Proof.
  eexists. unfold block. repeat (cbn [run step dead running jobs value set what fut ret first second finished_handler complete app]; rewrite ?nth_snoc, ?upd_snoc). reflexivity.
Qed.
Fixpoint blocks (k : nat) : list label := match k with O => [] | S k => blocks k ++ block k end.
Lemma blocks_run k : exists s evs, run step init (blocks k) = Some (s, evs) /\ List.length (jobs s) = k /\ running s = None /\ dead s = false /\ Forall fair (blocks k) /\ chains (blocks k) = k /\ begun (blocks k) = k /\ all_over evs /\
  (forall k', k = S k' -> exists s0 e0, run step init (blocks k') = Some (s0, e0) /\ all_over e0 /\ value s = wrap32 (swap0 (value s0) 4 + 10)).
Proof.
  induction k as [|k (s & evs & H & L & R & D & F & C & B & A & _)].
  - exists init, []. do 4 (split; [reflexivity|]). split; [constructor|]. do 2 (split; [reflexivity|]). split; [intros j x []|discriminate].
  - destruct s as [js r v d]. cbn in L, R, D. subst r d. destruct (block_run js v) as (y & Hy). rewrite L in Hy. eexists _, _. cbn [blocks]. split; [exact (run_app step _ _ _ _ _ _ _ H Hy)|].
    cbn [jobs running dead value]. rewrite app_length, L. cbn [List.length]. split; [lia|]. split; [reflexivity|]. split; [reflexivity|]. split; [apply Forall_app; split; [exact F|repeat constructor]|].
    rewrite chains_app, begun_app, C, B. cbn [chains begun block]. split; [lia|]. split; [lia|]. split.
    + intros j x Hx. apply in_app_or in Hx as [Hx|Hx].
      * destruct (A j x Hx) as [(w & Hw) A2]. split; [exists w; apply in_or_app; auto|]. intros W. apply in_or_app. auto.
      * destruct Hx as [[= <- <-]|[Hx|[Hx|[]]]]; try discriminate. split; [exists 4|intros _]; apply in_or_app; right; cbn; auto.
    + intros k' [= <-]. eexists _, _. split; [exact H|]. split; [exact A|reflexivity].
Qed.
Theorem C177_int32_refuted : exists sched s evs, run step init sched = Some (s, evs) /\ Forall fair sched /\ all_over evs /\ Z.of_nat (chains sched) = 214748364 /\ value s = - 2 ^ 31.
Proof.
  set (n := Z.to_nat 214748363). assert (Hn : Z.of_nat n = 214748363) by (unfold n; rewrite Z2Nat.id; [reflexivity|discriminate]). clearbody n.
  destruct (blocks_run (S n)) as (s & evs & H & _ & _ & _ & F & C & _ & A & P). destruct (P n eq_refl) as (s0 & e0 & H0 & A0 & V).
  destruct (blocks_run n) as (s0' & e0' & H0' & _ & _ & _ & F0 & C0 & B0 & _ & _).
  exists (blocks (S n)), s, evs. split; [exact H|]. split; [exact F|]. split; [exact A|]. split; [rewrite C; lia|].
  assert (V0 : value s0 = 2147483638). { rewrite (C177_final_partial (blocks n) s0 e0 H0 F0); [rewrite C0; lia|rewrite C0; lia|rewrite B0; lia|exact A0]. }
  rewrite V, V0. reflexivity.
Qed.
Print Assumptions C177_int32_refuted.

(** ** C178: when no context ends, every continuation runs: as long as one has not, though every
    call has returned, the actor or one of its continuations can go on; *)
Theorem C178_progress_partial : forall sched s evs, run step init sched = Some (s, evs) -> Forall lasting sched -> (forall j k, In (VBegin j k) evs -> exists v, In (LReturn j v) sched) ->
  all_over evs \/ exists l s' e, (forall k, l <> LBegin k) /\ (forall j, l <> LCtx j) /\ step s l = Some (s', e).
Proof.
  intros sched s evs H F R. pose proof (linked_reach _ _ _ H) as (L1 & L2 & L3 & L4 & L5 & L6 & L7).
  destruct (progress s (okall_reach _ _ _ H F)) as [P|(l & s' & e & Ho & Hs)].
  - intros j x Hx. destruct (R j (what x)) as (v & Hv); [apply L4; eauto|]. destruct (proj1 (L7 j)) as (y & Hy & Cy); [eauto|]. congruence.
  - left. intros j k Hb. apply L4 in Hb as (x & Hx & <-). destruct (P _ _ Hx) as [P1 P2]. split; [apply L6; exists x; auto|]. intros W. apply L5. exists x. auto.
  - right. exists l, s', e. split; [intros k ->; exact Ho|]. split; [intros j ->; exact Ho|exact Hs].
Qed.
Print Assumptions C178_progress_partial.
(** and it does not go on for ever: at most nine steps for each message, and one. *)
Theorem C178_bounded : forall sched s evs, run step init sched = Some (s, evs) -> (List.length sched <= 9 * begun sched + 1)%nat.
Proof. intros sched s evs H. pose proof (more_run _ _ _ _ H) as M. change (more init) with 1%nat in M. lia. Qed.
Print Assumptions C178_bounded.
(** A continuation runs at most once, whatever happens. *)
Theorem C178_once : forall sched s evs j, run step init sched = Some (s, evs) ->
  (forall a v b w, evs = a ++ VFirst j v :: b -> ~ In (VFirst j w) (a ++ b)) /\ (forall a b, evs = a ++ VSecond j :: b -> ~ In (VSecond j) (a ++ b)).
Proof.
  assert (G : forall sched s evs (P : event -> Prop) (f : job -> bool) j, run step init sched = Some (s, evs) ->
    (forall sched s evs, run step init sched = Some (s, evs) -> (exists x, P x /\ In x evs) -> has f s j) ->
    (forall s l s' e x, step s l = Some (s', e) -> P x -> In x e -> e = [x] /\ ~ has f s j) ->
    forall a x b, P x -> evs = a ++ x :: b -> forall y, P y -> ~ In y a /\ ~ In y b).
  { intros sched s evs P f j H HP HS a x b Px E y Py.
    assert (A : forall a x b, P x -> evs = a ++ x :: b -> forall y, P y -> ~ In y a).
    { clear a x b Px E y Py. intros a x b Px E y Py Hi. destruct (run_split _ _ _ _ _ _ _ _ H E) as (pre & l & post & t & t' & e1 & p & q & e2 & -> & H1 & H2 & _ & -> & _).
      destruct (HS _ _ _ _ x H2 Px) as [E1 N]; [apply in_or_app; right; now left|]. symmetry in E1. apply in_single in E1 as (-> & _ & _). rewrite app_nil_r in Hi. apply N. eapply HP; eauto. }
    split; [exact (A a x b Px E y Py)|]. intros Hi. apply in_split in Hi as (b1 & b2 & ->). refine (A (a ++ x :: b1) y b2 Py _ x Px _); [rewrite E, <- app_assoc; reflexivity|]. apply in_or_app. right. now left. }
  intros sched s evs j H. split.
  - intros a v b w E Hi.
    destruct (G sched s evs (fun x => exists v, x = VFirst j v) did_first j H) with (a := a) (x := VFirst j v) (b := b) (y := VFirst j w) as [N1 N2]; eauto.
    + intros sc u ev Hr (x & (v0 & ->) & Hx). destruct (linked_reach _ _ _ Hr) as (_ & _ & _ & _ & _ & L6 & _). apply L6. eauto.
    + intros u l u' e x Hu (v0 & ->) Hx. destruct (shape _ _ _ _ Hu) as [(k & _ & _ & ->)|[(_ & [-> | ->] & _)|(i & y & z & Hi' & _ & _ & _ & [(-> & _)|[(v1 & -> & D & _)|(-> & _)]] & _)]]; cbn in Hx; try (intuition discriminate).
      destruct Hx as [[= -> ->]|[]]. split; [reflexivity|]. intros (x0 & Hx0 & D0). congruence.
    + apply in_app_or in Hi as [Hi|Hi]; [exact (N1 Hi)|exact (N2 Hi)].
  - intros a b E Hi.
    destruct (G sched s evs (fun x => x = VSecond j) did_second j H) with (a := a) (x := VSecond j) (b := b) (y := VSecond j) as [N1 N2]; eauto.
    + intros sc u ev Hr (x & -> & Hx). destruct (linked_reach _ _ _ Hr) as (_ & _ & _ & _ & L5 & _ & _). now apply L5.
    + intros u l u' e x Hu -> Hx. destruct (shape _ _ _ _ Hu) as [(k & _ & _ & ->)|[(_ & [-> | ->] & _)|(i & y & z & Hi' & _ & _ & _ & [(-> & _)|[(v1 & -> & _)|(-> & _ & D & _)]] & _)]]; cbn in Hx; try (intuition discriminate).
      destruct Hx as [[= ->]|[]]. split; [reflexivity|]. intros (x0 & Hx0 & D0). congruence.
    + apply in_app_or in Hi as [Hi|Hi]; [exact (N1 Hi)|exact (N2 Hi)].
Qed.
Print Assumptions C178_once.
(** The second runs after the first. *)
Theorem C178_order : forall sched s evs j a b, run step init sched = Some (s, evs) -> Forall lasting sched -> evs = a ++ VSecond j :: b -> exists v, In (VFirst j v) a.
Proof.
  intros sched s evs j a b H F E. destruct (run_split _ _ _ _ _ _ _ _ H E) as (pre & l & post & t & t' & e1 & p & q & e2 & -> & H1 & H2 & _ & -> & _).
  apply Forall_app in F as [F1 F2]. destruct (okall_reach _ _ _ H1 F1) as (OJ & _). destruct (linked_reach _ _ _ H1) as (_ & _ & _ & _ & _ & L6 & _).
  enough (X : has did_first t j) by (apply L6 in X as (v & Hv); exists v; apply in_or_app; auto).
  unfold step in H2. destruct (dead t); [destruct p; discriminate|]. destruct l as [k| | | |i w|i|i|i|i];
    try (repeat (match type of H2 with context [match ?z with _ => _ end] => destruct z end; try discriminate); injection H2 as _ H2; destruct p as [|? [|]]; discriminate).
  destruct (nth_error (jobs t) i) as [x|] eqn:Ei; [|discriminate]. destruct (second x) eqn:Es; try discriminate. injection H2 as _ H2. apply in_single in H2 as (_ & _ & [= ->]).
  exists x. split; [exact Ei|]. destruct (OJ _ _ Ei) as (_ & _ & _ & _ & _ & _ & _ & _ & A9 & _). unfold did_first. rewrite A9 by auto. reflexivity.
Qed.
Print Assumptions C178_order.
Example C178_case : exists s evs, run step init (both ++ [LBegin Chain; LThen; LReturn 2 4]) = Some (s, evs) /\ Forall lasting (both ++ [LBegin Chain; LThen; LReturn 2 4]) /\
  (forall j k, In (VBegin j k) evs -> exists v, In (LReturn j v) (both ++ [LBegin Chain; LThen; LReturn 2 4])) /\ ~ all_over evs /\ In (VSecond 0) evs.
Proof.
  eexists _, _. split; [lazy; reflexivity|]. split; [repeat constructor|]. split; [|split].
  - intros j k H. exists 4. cbn in H. destruct H as [[= <- <-]|[[= <- <-]|[H|[H|[H|[[= <- <-]|[]]]]]]]; try discriminate; cbn; tauto.
  - intros A. destruct (A 2%nat Chain) as [(v & Hv) _]; [cbn; tauto|]. cbn in Hv. intuition discriminate.
  - cbn. tauto.
Qed.
(** A context that ends before the answer has come: the continuation finds no response, and the
    process dies with all that was still to be done. *)
Theorem C178_context_refuted : exists sched s evs, run step init sched = Some (s, evs) /\ In (LReturn 0 4) sched /\ In (VBegin 0 Chain) evs /\ In VCrash evs /\ ~ all_over evs /\ forall l, step s l = None.
Proof.
  exists [LBegin Chain; LThen; LThenThen; LEnd; LCtx 0; LReturn 0 4; LAct 0; LFirst 0]. eexists _, _. split; [lazy; reflexivity|]. split; [cbn; tauto|]. split; [cbn; tauto|]. split; [cbn; tauto|]. split.
  - intros A. destruct (A 0%nat Chain) as [(v & Hv) _]; [cbn; tauto|]. cbn in Hv. intuition discriminate.
  - intros l. reflexivity.
Qed.
Print Assumptions C178_context_refuted.
