(** Invariants over the trace of a client: which connections calls use and what they report. *)
From Coq Require Import List Arith Bool Lia.
From Verif Require Import Machine ClientModel ClientSpec ClientProofs.
Import ListNotations.

Lemma nth_more {A} (l m : list A) i x : nth_error l i = Some x -> nth_error (l ++ m) i = Some x.
Proof. intros H. rewrite nth_error_app1; [exact H|]. apply nth_error_Some. congruence. Qed.
Lemma nth_end {A} (l : list A) x : nth_error (l ++ [x]) (length l) = Some x.
Proof. rewrite nth_error_app2, Nat.sub_diag by lia. reflexivity. Qed.
Lemma calls_upd (l : list pc) i p j q : nth_error (upd l i p) j = Some q -> (j = i /\ q = p /\ i < length l) \/ (j <> i /\ nth_error l j = Some q).
Proof.
  intros H. destruct (Nat.eq_dec j i) as [->|Hn]; [left|right; split; [exact Hn|now rewrite nth_upd_neq in H by congruence]].
  assert (i < length l) by (rewrite <- (upd_length l i p); apply nth_error_Some; congruence). rewrite nth_upd_eq in H by assumption. injection H as <-. auto.
Qed.
Lemma calls_snoc (l : list pc) p j q : nth_error (l ++ [p]) j = Some q -> (j = length l /\ q = p) \/ (j < length l /\ nth_error l j = Some q).
Proof.
  intros H. destruct (Nat.lt_ge_cases j (length l)); [right; split; [assumption|now rewrite nth_error_app1 in H]|left].
  rewrite nth_error_app2 in H by assumption. destruct (j - length l) as [|k] eqn:E; [injection H as <-; split; [lia|reflexivity]|destruct k; discriminate].
Qed.
Lemma load_save a c m b : load b (save a c m) = if a =? b then Some c else load b m.
Proof.
  induction m as [|[x y] m IH]; cbn; [reflexivity|]. destruct (Nat.eqb_spec x a) as [->|Hn]; cbn.
  - destruct (Nat.eqb_spec a b); reflexivity.
  - destruct (Nat.eqb_spec x b) as [->|]; [destruct (Nat.eqb_spec a b); [congruence|reflexivity]|exact IH].
Qed.

(** ** Addresses *)
Section Addresses.
  Variable addrs : list nat.
  Definition knows (A O : list nat) (i : nat) (p : pc) : Prop :=
    match p with
    | QSelect a _ | QConn a _ | WConn a _ => nth_error A i = Some a
    | WDial a _ => nth_error A i = Some a /\ ~ In a addrs
    | QOpts c _ | QInvoke c | WOpts c _ | WInvoke c => exists a, nth_error A i = Some a /\ nth_error O c = Some a
    | WStore a c _ => nth_error A i = Some a /\ nth_error O c = Some a
    | QRelease r | QDone r | WDone r => r = RNoConn \/ r = RDial -> exists a, nth_error A i = Some a /\ ~ In a addrs
    end.
  Definition told (A O : list nat) (e : event) : Prop :=
    match e with
    | EInvoke i c => exists a, nth_error A i = Some a /\ nth_error O c = Some a
    | EReturn i r => r = RNoConn \/ r = RDial -> exists a, nth_error A i = Some a /\ ~ In a addrs
    | ECrash _ => True
    end.
  Lemma knows_more A O A' O' i p : knows A O i p -> knows (A ++ A') (O ++ O') i p.
  Proof. destruct p; cbn; intuition eauto using nth_more; repeat match goal with H : exists _, _ |- _ => destruct H as (? & ? & ?) end; eauto 6 using nth_more. Qed.
  Lemma told_more A O A' O' e : told A O e -> told (A ++ A') (O ++ O') e.
  Proof. destruct e; cbn; intuition eauto using nth_more; repeat match goal with H : exists _, _ |- _ => destruct H as (? & ? & ?) end; eauto 6 using nth_more. Qed.
  Definition AI (A O : list nat) (s : state) : Prop :=
    length (calls s) = length A /\ length O = dialed s /\
    (forall a c, load a (conns s) = Some c -> nth_error O c = Some a) /\
    (forall a, In a addrs -> load a (conns s) <> None) /\
    forall i p, nth_error (calls s) i = Some p -> knows A O i p.
  Lemma ai_keep A O s i p s' O' : AI A O s -> calls s' = upd (calls s) i p -> conns s' = conns s -> length (O ++ O') = dialed s' ->
    knows A (O ++ O') i p -> AI A (O ++ O') s'.
  Proof.
    intros (H1 & H2 & H3 & H4 & H5) Ec Em Ed Hk. unfold AI. rewrite Ec, Em, upd_length. split; [exact H1|]. split; [exact Ed|].
    split; [intros a c Hl; apply nth_more; auto|]. split; [exact H4|]. intros j q Hj. apply calls_upd in Hj as [(-> & -> & _)|[_ Hj]]; [exact Hk|].
    rewrite <- (app_nil_r A). apply knows_more; auto.
  Qed.
  Lemma ai_step A O s l s' e : AI A O s -> step s l = Some (s', e) ->
    AI (A ++ address l) (O ++ dials A l) s' /\ forall x, In x e -> told (A ++ address l) (O ++ dials A l) x.
  Proof.
    intros H Hs. pose proof H as (H1 & H2 & H3 & H4 & H5).
    assert (Hnew : forall p a, knows (A ++ [a]) O (length A) p -> AI (A ++ [a]) (O ++ []) (mkS (cap s) (slots s) (conns s) (dialed s) (calls s ++ [p]) false)).
    { intros p a Hp. rewrite app_nil_r. unfold AI. cbn. rewrite !app_length, H1. cbn. split; [reflexivity|]. split; [exact H2|]. split; [exact H3|]. split; [exact H4|].
      intros i q Hi. apply calls_snoc in Hi as [[-> ->]|[_ Hi]]; [rewrite H1; exact Hp|]. rewrite <- (app_nil_r O). apply knows_more; auto. }
    destruct l; inv_step Hs; injection Hs as <- <-; cbn [address dials]; try rewrite (app_nil_r A);
      try (split; [apply Hnew; apply nth_end|intros ? []]; fail);
      match goal with En : nth_error (calls s) ?k = Some _ |- _ => pose proof (H5 _ _ En) as Hk; cbn [knows] in Hk end.
    all: try (split; [eapply ai_keep; [exact H|reflexivity|reflexivity|rewrite app_nil_r; exact H2|rewrite app_nil_r; cbn [knows]; try (intros [?|?]; discriminate); assumption]
                     |cbn [In told]; rewrite ?app_nil_r; intros x Hx; repeat destruct Hx as [<-|Hx]; try contradiction; cbn [told]; try exact I; try (intros [?|?]; discriminate); assumption]; fail).
    - (* LConn, Call *)
      split; [|intros x []]. eapply ai_keep; [exact H|reflexivity|reflexivity|rewrite app_nil_r; exact H2|]. rewrite app_nil_r.
      destruct (load a (conns s)) as [c|] eqn:El; cbn [knows]; [exists a; auto|]. intros _. exists a. split; [exact Hk|]. intros Hin. now apply (H4 a Hin).
    - (* LConn, CallWait *)
      split; [|intros x []]. eapply ai_keep; [exact H|reflexivity|reflexivity|rewrite app_nil_r; exact H2|]. rewrite app_nil_r.
      destruct (load a (conns s)) as [c|] eqn:El; cbn [knows]; [exists a; auto|]. split; [exact Hk|]. intros Hin. now apply (H4 a Hin).
    - (* LOpts, crash *)
      rewrite app_nil_r. split; [exact H|]. intros x [<-|[]]. exact I.
    - (* LInvoked, Call *)
      split; [|intros x []]. eapply ai_keep; [exact H|reflexivity|reflexivity|rewrite app_nil_r; exact H2|]. cbn. intros [X|X]; destruct ok; discriminate.
    - (* LInvoked, CallWait *)
      split; [eapply ai_keep; [exact H|reflexivity|reflexivity|rewrite app_nil_r; exact H2|]; cbn; intros [X|X]; destruct ok; discriminate|].
      intros x [<-|[]]. cbn. intros [X|X]; destruct ok; discriminate.
    - (* LDial, ok *)
      destruct Hk as [Hk Hn]. rewrite Hk. split; [|intros x []]. eapply ai_keep; [exact H|reflexivity|reflexivity|rewrite app_length, H2; cbn; lia|].
      cbn. split; [exact Hk|]. rewrite <- H2. apply nth_end.
    - (* LDial, failed *)
      split; [eapply ai_keep; [exact H|reflexivity|reflexivity|rewrite app_nil_r; exact H2|]; cbn; intros _; eauto|].
      intros x [<-|[]]. cbn. intros _; eauto.
    - (* LStore *)
      rewrite app_nil_r. destruct Hk as [Hk Hc]. split; [|intros x []]. unfold AI. cbn [calls dialed conns]. rewrite upd_length. split; [exact H1|]. split; [exact H2|].
      split; [intros b d Hl; rewrite load_save in Hl; destruct (Nat.eqb_spec a b) as [<-|]; [injection Hl as <-; exact Hc|auto]|].
      split; [intros b Hb; rewrite load_save; destruct (a =? b); [discriminate|auto]|].
      intros j q Hj. apply calls_upd in Hj as [(-> & -> & _)|[_ Hj]]; [cbn; eauto|auto].
  Qed.
  Definition AInv (sched : list label) (evs : list event) (s : state) : Prop :=
    AI (called sched) (opened addrs sched) s /\ (forall i ok, In (LDial i ok) sched -> i < length (called sched)) /\
    forall x, In x evs -> told (called sched) (opened addrs sched) x.
  Lemma called_snoc sched l : called (sched ++ [l]) = called sched ++ address l.
  Proof. unfold called. rewrite flat_map_app. cbn. now rewrite app_nil_r. Qed.
  Lemma dials_more A B l : (forall i ok, l = LDial i ok -> i < length A) -> dials (A ++ B) l = dials A l.
  Proof. intros H. destruct l; try reflexivity. destruct ok; [|reflexivity]. cbn. rewrite nth_error_app1; [reflexivity|]. now apply (H i true). Qed.
  Lemma opened_snoc sched l : (forall i ok, In (LDial i ok) sched -> i < length (called sched)) -> (forall i ok, l = LDial i ok -> i < length (called sched)) ->
    opened addrs (sched ++ [l]) = opened addrs sched ++ dials (called sched) l.
  Proof.
    intros H Hl. unfold opened. rewrite flat_map_app, called_snoc. cbn [flat_map]. rewrite app_nil_r, (dials_more _ _ l Hl), app_assoc. do 2 f_equal.
    clear Hl. generalize (called sched) (address l) H. clear H l. intros A B. induction sched as [|x r IH]; intros H; [reflexivity|]. cbn [flat_map].
    rewrite (dials_more A B x) by (intros i ok ->; apply (H i ok); now left). f_equal. apply IH. intros i ok Hi. apply (H i ok). now right.
  Qed.
  Lemma ai_run n sched s evs : run step (client n addrs) sched = Some (s, evs) -> AInv sched evs s.
  Proof.
    apply (run_inv step (client n addrs) AInv).
    - unfold AInv, called, opened. cbn. rewrite app_nil_r. split; [|split; [intros ? ? []|intros ? []]].
      assert (G : forall l pre s, length pre = dialed s -> calls s = [] ->
        (forall a c, load a (conns s) = Some c -> nth_error pre c = Some a) -> (forall a, In a pre -> load a (conns s) <> None) ->
        let s' := fold_left connect l s in length (pre ++ l) = dialed s' /\ calls s' = [] /\
        (forall a c, load a (conns s') = Some c -> nth_error (pre ++ l) c = Some a) /\ (forall a, In a (pre ++ l) -> load a (conns s') <> None)).
      { induction l as [|a l IH]; intros pre s0 G1 G2 G3 G4; cbn [fold_left].
        - rewrite app_nil_r. cbn. auto.
        - replace (pre ++ a :: l) with ((pre ++ [a]) ++ l) by now rewrite <- app_assoc. apply IH.
          + cbn. rewrite app_length, G1. cbn. lia.
          + exact G2.
          + cbn. intros b c Hl. rewrite load_save in Hl. destruct (Nat.eqb_spec a b) as [<-|]; [injection Hl as <-; rewrite <- G1; apply nth_end|apply nth_more; auto].
          + cbn. intros b Hb. rewrite load_save. destruct (Nat.eqb_spec a b); [discriminate|]. apply in_app_or in Hb as [Hb|[->|[]]]; [auto|congruence]. }
      destruct (G addrs [] (mkS n 0 [] 0 [] false)) as (G1 & G2 & G3 & G4); [reflexivity|reflexivity|discriminate|intros ? []|].
      unfold AI, client. rewrite G2. split; [reflexivity|]. split; [exact G1|]. split; [exact G3|]. split; [exact G4|]. intros [|i] p; discriminate.
    - intros sched0 evs0 s0 l s1 e _ (H & Hd & Ht) Hs. pose proof H as (Hl & _).
      assert (Hl' : forall i ok, l = LDial i ok -> i < length (called sched0)).
      { intros i ok ->. rewrite <- Hl. apply nth_error_Some. unfold step in Hs. destruct (crashed s0); [discriminate Hs|]. intros X. rewrite X in Hs. discriminate Hs. }
      destruct (ai_step _ _ _ _ _ _ H Hs) as [H' Ht']. unfold AInv. rewrite (opened_snoc sched0 l Hd Hl'), called_snoc. split; [exact H'|]. split.
      + intros i ok Hi. rewrite app_length. apply in_app_or in Hi as [Hi|[Hi|[]]]; [specialize (Hd i ok Hi); lia|specialize (Hl' i ok Hi); lia].
      + intros x Hx. apply in_app_or in Hx as [Hx|Hx]; [apply told_more; auto|auto].
  Qed.
End Addresses.

(** ** Results *)
Definition story (i : nat) (p : pc) (evs : list event) (ans : list bool) : Prop :=
  match p with
  | QSelect _ _ | QConn _ _ | QOpts _ _ | WConn _ _ | WDial _ _ | WStore _ _ _ => evs = [] /\ ans = []
  | WOpts _ _ => (evs = [] \/ evs = [ECrash i]) /\ ans = []
  | QInvoke c | WInvoke c => evs = [EInvoke i c] /\ ans = []
  | QRelease ROk => (exists c, evs = [EInvoke i c]) /\ ans = [true]
  | QRelease RInvoke => (exists c, evs = [EInvoke i c]) /\ ans = [false]
  | QRelease _ => evs = [] /\ ans = []
  | QDone ROk | WDone ROk => (exists c, evs = [EInvoke i c; EReturn i ROk]) /\ ans = [true]
  | QDone RInvoke | WDone RInvoke => (exists c, evs = [EInvoke i c; EReturn i RInvoke]) /\ ans = [false]
  | QDone r | WDone r => evs = [EReturn i r] /\ ans = []
  end.
Definition TInv (sched : list label) (evs : list event) (s : state) : Prop :=
  (forall i p, nth_error (calls s) i = Some p -> story i p (own i evs) (answers i sched)) /\
  (forall i, length (calls s) <= i -> own i evs = [] /\ answers i sched = []) /\
  (forall i, crashed s = false -> ~ In (ECrash i) evs).
Lemma own_app i a b : own i (a ++ b) = own i a ++ own i b.
Proof. apply filter_app. Qed.
Lemma answers_app i a b : answers i (a ++ b) = answers i a ++ answers i b.
Proof. apply flat_map_app. Qed.
Lemma t_new sched evs s l p s' : TInv sched evs s -> calls s' = calls s ++ [p] -> crashed s' = crashed s -> (forall j, answer j l = []) -> story (length (calls s)) p [] [] ->
  TInv (sched ++ [l]) (evs ++ []) s'.
Proof.
  intros (Hp & Hg & Hc) E Ec Ha Hst. rewrite app_nil_r.
  assert (A : forall j, answers j (sched ++ [l]) = answers j sched) by (intros j; rewrite answers_app; cbn; now rewrite Ha, !app_nil_r).
  unfold TInv. rewrite E, Ec. split; [|split; [|exact Hc]].
  - intros j q Hj. rewrite A. apply calls_snoc in Hj as [[-> ->]|[_ Hj]]; [|auto]. destruct (Hg (length (calls s)) (le_n _)) as [-> ->]. exact Hst.
  - intros j Hj. rewrite A. apply Hg. rewrite app_length in Hj. lia.
Qed.
Lemma t_upd sched evs s l e i old new s' : TInv sched evs s -> crashed s = false -> nth_error (calls s) i = Some old -> calls s' = upd (calls s) i new ->
  (forall j, j <> i -> own j e = [] /\ answer j l = []) -> (crashed s' = false -> forall j, ~ In (ECrash j) e) ->
  (forall evs0 ans, ~ In (ECrash i) evs0 -> story i old evs0 ans -> story i new (evs0 ++ own i e) (ans ++ answer i l)) -> TInv (sched ++ [l]) (evs ++ e) s'.
Proof.
  intros (Hp & Hg & Hc) Ec Hi E Ho Hn Hst.
  assert (A : forall j, answers j (sched ++ [l]) = answers j sched ++ answer j l) by (intros j; rewrite answers_app; cbn; now rewrite app_nil_r).
  assert (Li : i < length (calls s)) by (apply nth_error_Some; congruence).
  unfold TInv. rewrite E, upd_length. split; [|split].
  - intros j q Hj. rewrite A, own_app. apply calls_upd in Hj as [(-> & -> & _)|[Hne Hj]].
    + apply Hst; [|auto]. intros X. apply filter_In in X as [X _]. exact (Hc i Ec X).
    + destruct (Ho j Hne) as [-> ->]. rewrite !app_nil_r. auto.
  - intros j Hj. rewrite A, own_app. destruct (Ho j) as [-> ->]; [lia|]. rewrite !app_nil_r. auto.
  - intros j Hc' X. apply in_app_or in X as [X|X]; [exact (Hc j Ec X)|exact (Hn Hc' j X)].
Qed.
Ltac others := let j := fresh "j" in let Hj := fresh "Hj" in intros j Hj; cbn; apply Nat.neq_sym, Nat.eqb_neq in Hj; rewrite ?Hj; split; reflexivity.
Ltac no_crash := let H := fresh in intros _ ? H; cbn in H; intuition discriminate.
Lemma t_run n addrs sched s evs : run step (client n addrs) sched = Some (s, evs) -> TInv sched evs s.
Proof.
  apply (run_inv step (client n addrs) TInv).
  - destruct (client_shape n addrs) as (m & d & ->). split; [intros [|i] p; discriminate|]. split; [auto|intros i _ []].
  - intros sched0 evs0 s0 l s1 e _ HT Hs. assert (Hcr : crashed s0 = false) by (unfold step in Hs; destruct (crashed s0); [discriminate|reflexivity]).
    unfold step in Hs. rewrite Hcr in Hs. destruct l.
    1,2: injection Hs as <- <-; eapply t_new; [exact HT|reflexivity|cbn; congruence|reflexivity|split; reflexivity].
    all: destruct (nth_error (calls s0) i) as [p|] eqn:En; [|discriminate Hs]; destruct p; try discriminate Hs.
    all: repeat match type of Hs with
         | (if ?b then _ else _) = _ => let E := fresh "Eb" in destruct b eqn:E; try discriminate Hs
         | match slots ?s with _ => _ end = _ => let E := fresh "Es" in destruct (slots s) eqn:E; try discriminate Hs end.
    all: injection Hs as <- <-.
    all: try (eapply t_upd; [exact HT|exact Hcr|exact En|reflexivity|others|try no_crash; discriminate|]; intros ev an Hnc;
      cbn [own filter of_call answer]; rewrite ?Nat.eqb_refl, ?app_nil_r; try destruct (load a (conns s0)); try destruct ok; try destruct r; cbn [story];
      intros [H1 H2]; try (destruct H1 as [H1|H1]; [|exfalso; apply Hnc; rewrite H1; now left]); try match type of H1 with ex _ => destruct H1 as [c0 H1] end; subst ev an; cbn [app]; eauto; fail).
    (* the crash *)
    destruct HT as (Hp & Hg & Hc). unfold TInv. cbn [calls crashed]. split; [|split; [|intros j HH; discriminate HH]].
    + intros j q Hj. rewrite own_app, answers_app. cbn [answers flat_map answer app own filter of_call]. rewrite app_nil_r. destruct (Nat.eqb_spec i j) as [<-|Hn].
      * rewrite En in Hj. injection Hj as <-. specialize (Hp _ _ En). cbn [story] in Hp |- *. destruct Hp as [[Hp|Hp] Ha].
        -- unfold own in Hp |- *. rewrite Hp. auto.
        -- exfalso. apply (Hc i Hcr). assert (X : In (ECrash i) (own i evs0)) by (rewrite Hp; now left). now apply filter_In in X.
      * rewrite app_nil_r. exact (Hp _ _ Hj).
    + intros j Hj. rewrite own_app, answers_app. cbn [answers flat_map answer app own filter of_call]. rewrite app_nil_r. destruct (Nat.eqb_spec i j) as [<-|Hn].
      * exfalso. assert (i < length (calls s0)) by (apply nth_error_Some; congruence). lia.
      * rewrite app_nil_r. apply (Hg j Hj).
Qed.
Lemma answered n addrs sched s evs i r : run step (client n addrs) sched = Some (s, evs) -> In (EReturn i r) evs ->
  match r with
  | ROk => (exists c, own i evs = [EInvoke i c; EReturn i ROk]) /\ answers i sched = [true]
  | RInvoke => (exists c, own i evs = [EInvoke i c; EReturn i RInvoke]) /\ answers i sched = [false]
  | _ => own i evs = [EReturn i r] /\ answers i sched = []
  end.
Proof.
  intros H Hin. destruct (t_run _ _ _ _ _ H) as (Hp & Hg & _).
  assert (Hi : In (EReturn i r) (own i evs)) by (apply filter_In; split; [exact Hin|apply Nat.eqb_refl]).
  destruct (nth_error (calls s) i) as [p|] eqn:En.
  - specialize (Hp i p En). destruct p as [| | | |q|q| | | | | |q]; try destruct q; cbn [story] in Hp; destruct Hp as [H1 H2];
      repeat match goal with H : _ \/ _ |- _ => destruct H as [H|H] | H : exists _, _ |- _ => destruct H as [? H] end; rewrite H1 in Hi; cbn in Hi;
      repeat match goal with H : _ \/ _ |- _ => destruct H as [H|H] end; try contradiction; try discriminate; injection Hi as <-; rewrite H1, H2; eauto.
  - apply nth_error_None in En. destruct (Hg i En) as [E _]. rewrite E in Hi. destruct Hi.
Qed.
