(** Proofs about builders and loaders. *)
From Coq Require Import List ZArith Bool String Lia Arith Permutation.
From Verif Require Import Machine MsgModel MsgSpec MsgProofs LoaderModel LoaderSpec.
Import ListNotations.
Open Scope nat_scope.
Open Scope list_scope.

(** ** Option maps *)
Lemma oget_oset k k' v m : oget k (oset k' v m) = if str_eq k' k then v else oget k m.
Proof.
  induction m as [|[a w] m IH]; cbn [oset oget]; [reflexivity|]. destruct (str_eqP a k') as [->|Ha]; cbn [oget].
  - destruct (str_eq k' k); reflexivity.
  - rewrite IH. destruct (str_eqP a k) as [->|]; [|reflexivity]. destruct (str_eqP k' k) as [->|]; [contradiction|reflexivity].
Qed.

(** ** Reading the events *)
Lemma type_in_app evs e i : type_in (evs ++ e) i = match type_in evs i with Some t => Some t | None => type_in e i end.
Proof.
  induction evs as [|x r IH]; [reflexivity|]. destruct x as [ty [i'|]| | | | | | | | |]; cbn [app type_in]; try exact IH.
  destruct (Nat.eqb i i'); [reflexivity|exact IH].
Qed.
Lemma last_set_app who k evs e d : last_set who k (evs ++ e) d = last_set who k e (last_set who k evs d).
Proof. revert d. induction evs as [|x r IH]; intros d; [reflexivity|]. destruct x; cbn [app last_set]; apply IH. Qed.
Lemma last_id_app i evs e d : last_id i (evs ++ e) d = last_id i e (last_id i evs d).
Proof. revert d. induction evs as [|x r IH]; intros d; [reflexivity|]. destruct x; cbn [app last_id]; apply IH. Qed.
Lemma last_type_app i evs e d : last_type i (evs ++ e) d = last_type i e (last_type i evs d).
Proof. revert d. induction evs as [|x r IH]; intros d; [reflexivity|]. destruct x; cbn [app last_type]; apply IH. Qed.
Lemma last_set_ext who who' k evs : forall d, (forall j i k v, In (ESet j i k v) evs -> who i = who' i) -> last_set who k evs d = last_set who' k evs d.
Proof.
  induction evs as [|x r IH]; intros d H; [reflexivity|].
  assert (Hr : forall j i k v, In (ESet j i k v) r -> who i = who' i) by (intros; eapply H; right; eassumption).
  destruct x; cbn [last_set]; try (now apply IH). rewrite (H j i k0 v) by now left. now apply IH.
Qed.

Lemma last_id_other i evs : forall d, (forall i' id, In (ENamed i' id) evs -> i' <> i) -> last_id i evs d = d.
Proof.
  induction evs as [|x r IH]; intros d H; [reflexivity|].
  assert (Hr : forall i' id, In (ENamed i' id) r -> i' <> i) by (intros; eapply H; right; eassumption).
  destruct x; cbn [last_id]; try (now apply IH). destruct (Nat.eqb_spec i i0) as [->|]; [|now apply IH]. exfalso. eapply H; [left; reflexivity|reflexivity].
Qed.
Lemma last_type_other i evs : forall d, (forall i' ty, In (ETyped i' ty) evs -> i' <> i) -> last_type i evs d = d.
Proof.
  induction evs as [|x r IH]; intros d H; [reflexivity|].
  assert (Hr : forall i' ty, In (ETyped i' ty) r -> i' <> i) by (intros; eapply H; right; eassumption).
  destruct x; cbn [last_type]; try (now apply IH). destruct (Nat.eqb_spec i i0) as [->|]; [|now apply IH]. exfalso. eapply H; [left; reflexivity|reflexivity].
Qed.
Lemma ended_app evs e j : ended (evs ++ e) j <-> ended evs j \/ ended e j.
Proof.
  unfold ended. split.
  - intros [(i & k & v & H)|[(i & k & v & H)|(i & m & H)]]; apply in_app_or in H as [H|H]; eauto 10.
  - intros [[(i & k & v & H)|[(i & k & v & H)|(i & m & H)]]|[(i & k & v & H)|[(i & k & v & H)|(i & m & H)]]].
    all: first [left; now exists i, k, v; apply in_or_app; auto|right; left; now exists i, k, v; apply in_or_app; auto|right; right; now exists i, m; apply in_or_app; auto].
Qed.

(** ** The steps *)
Inductive act (s : state) : state -> list event -> Prop :=
| ANone ty : act s s [EBuilt ty None]
| ABuilt ty c : find ty (factory s) = Some c ->
    act s (mkS (factory s) (maps s) (builders s ++ [fresh c]) (calls s) (crashed s)) [EBuilt ty (Some (List.length (builders s)))]
| ANamed i b id : nth_error (builders s) i = Some b -> id <> [] ->
    act s (set_builder s i (mkB id (b_ty b) (b_weight b) (b_limit b) (b_unique b) (b_opts b))) [ENamed i id]
| APanic i : act s s [EPanic i]
| ATyped i b ty : nth_error (builders s) i = Some b -> act s (set_builder s i (with_type b ty)) [ETyped i ty]
| AInfo i b : nth_error (builders s) i = Some b -> act s s [EInfo i (b_id b) (b_ty b) (b_weight b) (b_limit b) (b_unique b)]
| ABegin i b o e : nth_error (builders s) i = Some b -> e = [] \/ e = [EPanic i] -> act s (add_call s i o) (EBegin (List.length (calls s)) i o :: e)
| AFatal i b o r : nth_error (builders s) i = Some b -> b_opts b = Some r -> lock_free s i o = true -> collides s r o = true ->
    act s (mkS (factory s) (maps s) (builders s) (calls s) true) [EFatal i o]
| ASet j i b k v r m : nth_error (calls s) j = Some (Some (i, OSet k v)) -> nth_error (builders s) i = Some b -> b_opts b = Some r ->
    nth_error (maps s) r = Some m ->
    act s (end_call (mkS (factory s) (upd (maps s) r (oset k v m)) (builders s) (calls s) (crashed s)) j) [ESet j i k v]
| AGot j i b k : nth_error (calls s) j = Some (Some (i, OGet k)) -> nth_error (builders s) i = Some b ->
    act s (end_call s j) [EGot j i k (oget k (map_of s b))]
| AWalked j i b : nth_error (calls s) j = Some (Some (i, OWalk)) -> nth_error (builders s) i = Some b ->
    act s (end_call s j) [EWalked j i (map_of s b)].
Lemma step_act s l s' e : step s l = Some (s', e) -> crashed s = false /\ act s s' e.
Proof.
  unfold step. destruct (crashed s) eqn:Ec; [discriminate|]. intros H. split; [reflexivity|]. destruct l.
  - unfold build in H. destruct (find ty (factory s)) as [c|] eqn:F; injection H as <- <-; now constructor.
  - destruct (nth_error (builders s) i) as [b|] eqn:B; [|discriminate]. destruct id as [|x id]; injection H as <- <-; [constructor|]. constructor; [exact B|discriminate].
  - destruct (nth_error (builders s) i) as [b|] eqn:B; [|discriminate]. injection H as <- <-. now constructor.
  - destruct (nth_error (builders s) i) as [b|] eqn:B; [|discriminate]. injection H as <- <-. now constructor.
  - destruct (nth_error (builders s) i) as [b|] eqn:B; [|discriminate]. destruct (lock_free s i o) eqn:L; [|discriminate].
    destruct (b_opts b) as [r|] eqn:R.
    + destruct (collides s r o) eqn:C; injection H as <- <-; [econstructor; eauto|]. econstructor; eauto.
    + injection H as <- <-. econstructor; [exact B|]. destruct (is_set o); auto.
  - destruct (nth_error (calls s) j) as [[[i o]|]|] eqn:C; try discriminate. destruct (nth_error (builders s) i) as [b|] eqn:B; [|discriminate]. destruct o.
    + unfold put_opt in H. destruct (b_opts b) as [r|] eqn:R; [|discriminate]. destruct (nth_error (maps s) r) as [m|] eqn:M; [|discriminate].
      injection H as <- <-. econstructor; eauto.
    + injection H as <- <-. econstructor; eauto.
    + injection H as <- <-. econstructor; eauto.
Qed.

(** ** The invariant *)
Section Inv.
Variables (f : list (gostr * ctor)) (m0 : list options).
Definition okT (evs : list event) (s : state) : Prop :=
  factory s = f /\ List.length (maps s) = List.length m0 /\
  (forall i, type_in evs i <> None <-> i < List.length (builders s)) /\
  (forall i b, nth_error (builders s) i = Some b -> exists ty c, type_in evs i = Some ty /\ find ty f = Some c /\
     b_opts b = c_opts c /\ b_weight b = c_weight c /\ b_limit b = c_limit c /\ b_unique b = c_unique c /\
     b_id b = last_id i evs (c_id c) /\ b_ty b = last_type i evs (c_name c)) /\
  (forall j i k v, In (ESet j i k v) evs -> i < List.length (builders s)) /\
  (forall i id, In (ENamed i id) evs -> i < List.length (builders s) /\ id <> []) /\
  (forall i ty, In (ETyped i ty) evs -> i < List.length (builders s)).
(** Events that do not concern builders. *)
Definition calm (x : event) : Prop := match x with EBuilt _ (Some _) | ENamed _ _ | ETyped _ _ | ESet _ _ _ _ => False | _ => True end.
Lemma calm_type e i : Forall calm e -> type_in e i = None.
Proof. induction 1 as [|x r Hx _ IH]; [reflexivity|]. destruct x as [ty [|]| | | | | | | | |]; cbn in *; tauto. Qed.
Lemma calm_id e i d : Forall calm e -> last_id i e d = d.
Proof. intros H. apply last_id_other. intros i' id X. rewrite Forall_forall in H. destruct (H _ X). Qed.
Lemma calm_typ e i d : Forall calm e -> last_type i e d = d.
Proof. intros H. apply last_type_other. intros i' id X. rewrite Forall_forall in H. destruct (H _ X). Qed.
Lemma okT_calm evs s s' e : okT evs s -> Forall calm e \/ (exists j i k v, e = [ESet j i k v] /\ i < List.length (builders s)) ->
  factory s' = factory s -> List.length (maps s') = List.length (maps s) -> builders s' = builders s -> okT (evs ++ e) s'.
Proof.
  intros (H1 & H2 & H3 & H4 & H5 & H6 & H7) Hc F M B.
  assert (Ht : forall i, type_in e i = None) by (intros i; destruct Hc as [Hc|(j & i' & k & v & -> & _)]; [now apply calm_type|reflexivity]).
  assert (Hi : forall i d, last_id i e d = d) by (intros i d; destruct Hc as [Hc|(j & i' & k & v & -> & _)]; [now apply calm_id|reflexivity]).
  assert (Hy : forall i d, last_type i e d = d) by (intros i d; destruct Hc as [Hc|(j & i' & k & v & -> & _)]; [now apply calm_typ|reflexivity]).
  unfold okT. rewrite F, M, B. split; [exact H1|]. split; [exact H2|]. split.
  { intros i. rewrite type_in_app, Ht. rewrite <- H3. destruct (type_in evs i); tauto. }
  split.
  { intros i b Hb. destruct (H4 i b Hb) as (ty & c & T & X). exists ty, c. rewrite type_in_app, T, last_id_app, last_type_app, Hi, Hy. auto. }
  split.
  { intros j i k v X. apply in_app_or in X as [X|X]; [eauto|]. destruct Hc as [Hc|(j' & i' & k' & v' & -> & Hl)]; [rewrite Forall_forall in Hc; destruct (Hc _ X)|].
    destruct X as [X|[]]. injection X as <- <- <- <-. exact Hl. }
  split.
  { intros i id X. apply in_app_or in X as [X|X]; [eauto|]. destruct Hc as [Hc|(j' & i' & k' & v' & -> & Hl)]; [rewrite Forall_forall in Hc; destruct (Hc _ X)|].
    destruct X as [X|[]]. discriminate. }
  { intros i id X. apply in_app_or in X as [X|X]; [eauto|]. destruct Hc as [Hc|(j' & i' & k' & v' & -> & Hl)]; [rewrite Forall_forall in Hc; destruct (Hc _ X)|].
    destruct X as [X|[]]. discriminate. }
Qed.
Lemma some_lt {A} (l : list A) i x : nth_error l i = Some x -> i < List.length l.
Proof. intros H. apply nth_error_Some. congruence. Qed.
Lemma okT_rename evs s i b b' e : okT evs s -> nth_error (builders s) i = Some b ->
  (exists id, id <> [] /\ e = [ENamed i id] /\ b' = mkB id (b_ty b) (b_weight b) (b_limit b) (b_unique b) (b_opts b)) \/ (exists ty, e = [ETyped i ty] /\ b' = with_type b ty) ->
  okT (evs ++ e) (set_builder s i b').
Proof.
  intros (H1 & H2 & H3 & H4 & H5 & H6 & H7) B Hc. pose proof (some_lt _ _ _ B) as Hl.
  assert (Ht : forall i, type_in e i = None) by (intros; destruct Hc as [(id & _ & -> & _)|(ty & -> & _)]; reflexivity).
  unfold okT. cbn [set_builder factory maps builders]. rewrite upd_length. split; [exact H1|]. split; [exact H2|]. split.
  { intros j. rewrite type_in_app, Ht. rewrite <- H3. destruct (type_in evs j); tauto. }
  split.
  { intros j c0 Hj. rewrite nth_upd in Hj by exact Hl. destruct (Nat.eqb_spec i j) as [<-|Hn].
    - injection Hj as <-. destruct (H4 i b B) as (ty & c & T & F & O & W & L & U & D & Y). exists ty, c. rewrite type_in_app, last_id_app, last_type_app, T. split; [reflexivity|]. split; [exact F|].
      destruct Hc as [(id & _ & -> & ->)|(ty' & -> & ->)]; cbn; rewrite Nat.eqb_refl; auto 10.
    - destruct (H4 j c0 Hj) as (ty & c & T & F & O & W & L & U & D & Y). exists ty, c. rewrite type_in_app, last_id_app, last_type_app, T. split; [reflexivity|]. split; [exact F|].
      assert (E : Nat.eqb j i = false) by (apply Nat.eqb_neq; auto).
      destruct Hc as [(id & _ & -> & ->)|(ty' & -> & ->)]; cbn; rewrite E; auto 10. }
  split.
  { intros j i' k v X. apply in_app_or in X as [X|X]; [eauto|]. destruct Hc as [(id & _ & -> & _)|(ty & -> & _)]; destruct X as [X|[]]; discriminate. }
  split.
  { intros i' id X. apply in_app_or in X as [X|X]; [eauto|]. destruct Hc as [(id' & Hne & -> & _)|(ty & -> & _)]; destruct X as [X|[]]; [|discriminate].
    injection X as <- <-. auto. }
  { intros i' id X. apply in_app_or in X as [X|X]; [eauto|]. destruct Hc as [(id' & Hne & -> & _)|(ty & -> & _)]; destruct X as [X|[]]; [discriminate|].
    injection X as <- <-. auto. }
Qed.
Lemma okT_step evs s s' e : okT evs s -> act s s' e -> okT (evs ++ e) s'.
Proof.
  intros HI A. destruct A.
  - apply (okT_calm evs s s); auto. left. repeat constructor.
  - destruct HI as (H1 & H2 & H3 & H4 & H5 & H6 & H7). unfold okT. cbn [factory maps builders]. rewrite app_length, Nat.add_1_r. split; [exact H1|]. split; [exact H2|]. split.
    { intros i. rewrite type_in_app. cbn. specialize (H3 i). destruct (type_in evs i) eqn:T; [split; intros; [|congruence]; apply Nat.lt_lt_succ_r, H3; congruence|].
      destruct (Nat.eqb_spec i (List.length (builders s))) as [->|]; [split; [intros; lia|congruence]|]. split; [congruence|]. intros Hi. assert (i < List.length (builders s)) by lia. apply H3 in H0. congruence. }
    split.
    { intros i b Hb.
      destruct (Nat.lt_ge_cases i (List.length (builders s))) as [Hi|Hi].
      - rewrite nth_error_app1 in Hb by exact Hi. destruct (H4 i b Hb) as (ty' & c' & T & X). exists ty', c'. rewrite type_in_app, last_id_app, last_type_app, T. auto.
      - rewrite nth_error_app2 in Hb by exact Hi. destruct (i - List.length (builders s)) eqn:E; [|destruct n; discriminate]. cbn in Hb. injection Hb as <-.
        assert (i = List.length (builders s)) as -> by lia. assert (T : type_in evs (List.length (builders s)) = None).
        { destruct (type_in evs (List.length (builders s))) eqn:T; [|reflexivity]. exfalso. assert (X : type_in evs (List.length (builders s)) <> None) by congruence. apply H3 in X. lia. }
        exists ty, c. rewrite type_in_app, last_id_app, last_type_app, T. cbn. rewrite Nat.eqb_refl. split; [reflexivity|]. split; [congruence|].
        rewrite last_id_other by (intros i' id X; apply H6 in X as [X _]; lia). rewrite last_type_other by (intros i' y X; apply H7 in X; lia). auto 10. }
    split; [intros j i k v X; apply in_app_or in X as [X|[X|[]]]; [apply H5 in X; lia|discriminate]|].
    split; [intros i id X; apply in_app_or in X as [X|[X|[]]]; [apply H6 in X; destruct X; split; [lia|assumption]|discriminate]|].
    intros i y X; apply in_app_or in X as [X|[X|[]]]; [apply H7 in X; lia|discriminate].
  - eapply okT_rename; eauto.
  - apply (okT_calm evs s s); auto. left. repeat constructor.
  - eapply okT_rename; eauto.
  - apply (okT_calm evs s s); auto. left. repeat constructor.
  - apply (okT_calm evs s); auto. left. destruct H0 as [->| ->]; repeat constructor.
  - apply (okT_calm evs s); auto. left. repeat constructor.
  - apply (okT_calm evs s); auto; [|cbn; apply upd_length]. right. exists j, i, k, v. split; [reflexivity|]. eapply some_lt; eauto.
  - apply (okT_calm evs s); auto. left. repeat constructor.
  - apply (okT_calm evs s); auto. left. repeat constructor.
Qed.
Lemma okT_reach sched s evs : run step (start f m0) sched = Some (s, evs) -> okT evs s.
Proof.
  apply (run_inv step (start f m0) (fun _ evs s => okT evs s)).
  - unfold okT. cbn. split; [reflexivity|]. split; [reflexivity|]. split; [intros i; split; [congruence|lia]|]. split; [intros [|i] b; discriminate|]. intuition.
  - intros sc ev t l t' e _ HI Hs. apply step_act in Hs as [_ A]. eapply okT_step; eauto.
Qed.

(** The calls under way. *)
Definition okC (evs : list event) (s : state) : Prop :=
  (forall j i o, nth_error (calls s) j = Some (Some (i, o)) -> i < List.length (builders s) /\ In (EBegin j i o) evs /\ ~ ended evs j) /\
  (forall j, ended evs j -> j < List.length (calls s)).
Definition quiet (x : event) : Prop := match x with ESet _ _ _ _ | EGot _ _ _ _ | EWalked _ _ _ => False | _ => True end.
Lemma quiet_ended e j : Forall quiet e -> ~ ended e j.
Proof. rewrite Forall_forall. intros H [(i & k & v & X)|[(i & k & v & X)|(i & m & X)]]; destruct (H _ X). Qed.
Lemma okC_quiet evs s s' e : okC evs s -> Forall quiet e -> calls s' = calls s -> List.length (builders s) <= List.length (builders s') -> okC (evs ++ e) s'.
Proof.
  intros [H1 H2] Q C B. split; rewrite C.
  - intros j i o Hn. destruct (H1 j i o Hn) as (X & Y & Z). split; [lia|]. split; [apply in_or_app; auto|]. rewrite ended_app. intros [E|E]; [auto|]. eapply quiet_ended; eauto.
  - intros j E. apply ended_app in E as [E|E]; [auto|]. exfalso. eapply quiet_ended; eauto.
Qed.
Lemma okC_end evs s s' e j io : okC evs s -> nth_error (calls s) j = Some (Some io) -> calls s' = upd (calls s) j None -> builders s' = builders s ->
  (forall j', ended e j' -> j' = j) -> okC (evs ++ e) s'.
Proof.
  intros [H1 H2] N C B E. assert (L : j < List.length (calls s)) by (eapply some_lt; eauto). split; rewrite C.
  - intros j' i o Hn. rewrite nth_upd in Hn by exact L. destruct (Nat.eqb_spec j j') as [|Hne]; [discriminate|]. rewrite B. destruct (H1 j' i o Hn) as (X & Y & Z).
    split; [exact X|]. split; [apply in_or_app; auto|]. rewrite ended_app. intros [W|W]; [auto|]. apply E in W. congruence.
  - intros j' W. rewrite upd_length. apply ended_app in W as [W|W]; [auto|]. apply E in W as ->. exact L.
Qed.
Lemma okC_step evs s s' e : okC evs s -> act s s' e -> okC (evs ++ e) s'.
Proof.
  intros HI A. destruct A.
  1-6: apply (okC_quiet evs s); [exact HI|repeat constructor|reflexivity|cbn; rewrite ?app_length, ?upd_length; lia].
  - destruct HI as [H1 H2]. assert (Q : Forall quiet (EBegin (List.length (calls s)) i o :: e)) by (destruct H0 as [->| ->]; repeat constructor).
    split; cbn [add_call calls builders].
    + intros j i' o' Hn. rewrite ended_app. destruct (Nat.lt_ge_cases j (List.length (calls s))) as [Hl|Hl].
      * rewrite nth_error_app1 in Hn by exact Hl. destruct (H1 j i' o' Hn) as (X & Y & Z). split; [exact X|]. split; [apply in_or_app; auto|].
        intros [W|W]; [auto|]. eapply quiet_ended; eauto.
      * rewrite nth_error_app2 in Hn by exact Hl. destruct (j - List.length (calls s)) eqn:E; [|destruct n; discriminate]. injection Hn as <- <-.
        assert (j = List.length (calls s)) as -> by lia. split; [eapply some_lt; eauto|]. split; [apply in_or_app; right; left; reflexivity|].
        intros [W|W]; [apply H2 in W; lia|]. eapply quiet_ended; eauto.
    + intros j W. rewrite app_length. apply ended_app in W as [W|W]; [apply H2 in W; lia|]. exfalso. eapply quiet_ended; eauto.
  - apply (okC_quiet evs s); auto. repeat constructor.
  - eapply (okC_end evs s); eauto. intros j' [(x & y & z & X)|[(x & y & z & X)|(x & y & X)]]; destruct X as [X|[]]; try discriminate. injection X as <- _ _ _. reflexivity.
  - eapply (okC_end evs s); eauto. intros j' [(x & y & z & X)|[(x & y & z & X)|(x & y & X)]]; destruct X as [X|[]]; try discriminate. injection X as <- _ _ _. reflexivity.
  - eapply (okC_end evs s); eauto. intros j' [(x & y & z & X)|[(x & y & z & X)|(x & y & X)]]; destruct X as [X|[]]; try discriminate. injection X as <- _ _. reflexivity.
Qed.
Lemma okC_reach sched s evs : run step (start f m0) sched = Some (s, evs) -> okC evs s.
Proof.
  apply (run_inv step (start f m0) (fun _ evs s => okC evs s)).
  - split; [intros [|j] i o; discriminate|]. intros j [(x & y & z & [])|[(x & y & z & [])|(x & y & [])]].
  - intros sc ev t l t' e _ HI Hs. apply step_act in Hs as [_ A]. eapply okC_step; eauto.
Qed.

(** The contents of the maps. *)
Hypothesis Hsep : separate f m0.
Definition okM (evs : list event) (s : state) : Prop :=
  forall ty c r, find ty f = Some c -> c_opts c = Some r -> exists m, nth_error (maps s) r = Some m /\
    forall k, oget k m = last_set (of_type evs ty) k evs (oget k (given f m0 ty)).
Lemma of_type_app evs e ty i : i < List.length (builders (start f m0)) \/ type_in evs i <> None -> of_type (evs ++ e) ty i = of_type evs ty i.
Proof. intros [H|H]; [cbn in H; lia|]. unfold of_type. rewrite type_in_app. destruct (type_in evs i); [reflexivity|congruence]. Qed.
Lemma okM_step evs s s' e : okT evs s -> okM evs s -> act s s' e -> okM (evs ++ e) s'.
Proof.
  intros HT HM A ty c r F R. destruct (HM ty c r F R) as (m & Hm & Hk).
  assert (G : forall k d, last_set (of_type (evs ++ e) ty) k evs d = last_set (of_type evs ty) k evs d).
  { intros k d. apply last_set_ext. intros j i k' v X. apply of_type_app. right. destruct HT as (_ & _ & H3 & _ & H5 & _). apply H3. eauto. }
  assert (Q : (forall j i k v, ~ In (ESet j i k v) e) -> forall k, oget k m = last_set (of_type (evs ++ e) ty) k (evs ++ e) (oget k (given f m0 ty))).
  { intros Hn k. rewrite last_set_app, G, <- Hk. generalize (oget k m), (of_type (evs ++ e) ty). clear - Hn. induction e as [|x e IH]; intros d w; [reflexivity|].
    destruct x; cbn [last_set]; try (apply IH; intros j' i' k' v' X; eapply Hn; right; exact X). exfalso. eapply Hn; left; reflexivity. }
  destruct A; try (exists m; split; [exact Hm|]; apply Q; intros ? ? ? ? [X|[]]; discriminate).
  - exists m. split; [exact Hm|]. apply Q. intros ? ? ? ? [X|X]; [discriminate|]. destruct H0 as [->| ->]; [destruct X|destruct X as [X|[]]; discriminate].
  - pose proof (some_lt _ _ _ H0) as Hl. destruct HT as (H4 & _ & H6 & H7 & _). destruct (H7 i b H0) as (ty' & c' & T & F' & O & _). cbn [end_call maps].
    rewrite nth_upd by (eapply some_lt; eauto). destruct (Nat.eqb_spec r0 r) as [->|Hne].
    + eexists. split; [reflexivity|]. intros k'. assert (m1 = m) as -> by congruence. rewrite oget_oset, last_set_app, G, <- Hk. cbn [last_set].
      replace (of_type _ ty i) with true; [reflexivity|]. unfold of_type. rewrite type_in_app, T. symmetry. apply str_eq_iff.
      destruct Hsep as [_ Hs]. eapply Hs; eauto. congruence.
    + exists m. split; [exact Hm|]. intros k'. rewrite last_set_app, G, <- Hk. cbn [last_set].
      replace (of_type _ ty i) with false; [reflexivity|]. unfold of_type. rewrite type_in_app, T. symmetry. destruct (str_eqP ty' ty) as [->|]; [|reflexivity]. congruence.
Qed.
Lemma okM_reach sched s evs : run step (start f m0) sched = Some (s, evs) -> okM evs s.
Proof.
  apply (run_inv step (start f m0) (fun _ evs s => okM evs s)).
  - intros ty c r F R. destruct Hsep as [H1 _]. destruct (H1 ty c F) as (r' & R' & L). assert (r' = r) as -> by congruence.
    exists (nth r m0 []). split; [apply nth_error_nth'; exact L|]. intros k. unfold given. rewrite F, R. reflexivity.
  - intros sc ev t l t' e Hr HI Hs. apply step_act in Hs as [_ A]. eapply okM_step; eauto. eapply okT_reach; eauto.
Qed.
(** What a builder finds in its map. *)
Lemma map_value evs s i b ty : okT evs s -> okM evs s -> nth_error (builders s) i = Some b -> type_in evs i = Some ty ->
  forall k, oget k (map_of s b) = last_set (of_type evs ty) k evs (oget k (given f m0 ty)).
Proof.
  intros HT HM B T k. destruct HT as (_ & _ & _ & H4 & _). destruct (H4 i b B) as (ty' & c & T' & F & O & _). assert (ty' = ty) as -> by congruence.
  destruct Hsep as [H1 _]. destruct (H1 ty c F) as (r & R & _). destruct (HM ty c r F R) as (m & Hm & Hk). unfold map_of. rewrite O, R, Hm. apply Hk.
Qed.
End Inv.
(** An event of an execution comes from a step. *)
Lemma event_step s0 sched s evs pre x post : run step s0 sched = Some (s, evs) -> evs = pre ++ x :: post ->
  exists a l t t' e1 e p q, run step s0 a = Some (t, e1) /\ step t l = Some (t', e) /\ e = p ++ x :: q /\ pre = e1 ++ p.
Proof.
  revert s evs pre post. induction sched as [|l sched IH] using rev_ind; intros s evs pre post H E.
  - injection H as <- <-. destruct pre; discriminate.
  - apply run_app_inv in H as (t & e1 & e2 & H1 & H2 & ->). apply run_one_inv in H2.
    destruct (Nat.lt_ge_cases (List.length pre) (List.length e1)) as [Hl|Hl].
    + assert (exists post', e1 = pre ++ x :: post') as (post' & E').
      { exists (skipn (S (List.length pre)) e1). assert (F : e1 = firstn (List.length e1) (e1 ++ e2)) by (rewrite firstn_app, Nat.sub_diag, firstn_all, app_nil_r; reflexivity).
        rewrite E in F. rewrite firstn_app in F. rewrite firstn_all2 in F by lia. destruct (List.length e1 - List.length pre) eqn:D; [lia|]. cbn in F.
        rewrite F at 2. rewrite skipn_app. rewrite skipn_all2 by lia. replace (S (List.length pre) - List.length pre) with 1 by lia. cbn. exact F. }
      destruct (IH _ _ _ _ H1 E') as (a & l' & u & u' & f1 & f2 & p & q & X1 & X2 & X3 & X4). exists a, l', u, u', f1, f2, p, q. auto.
    + assert (exists p, pre = e1 ++ p) as (p & ->).
      { exists (skipn (List.length e1) pre). assert (F : e1 = firstn (List.length e1) (e1 ++ e2)) by (rewrite firstn_app, Nat.sub_diag, firstn_all, app_nil_r; reflexivity).
        rewrite E, firstn_app in F. replace (List.length e1 - List.length pre) with 0 in F by lia. cbn in F. rewrite app_nil_r in F. rewrite F at 1. symmetry. apply firstn_skipn. }
      rewrite <- app_assoc in E. apply app_inv_head in E. exists sched, l, t, s, e1, e2, p, post. auto.
Qed.
Lemma single {A} (p : list A) x q y : [y] = p ++ x :: q -> p = [] /\ y = x.
Proof. destruct p as [|z p]; cbn; intros H; [injection H as <- <-; auto|]. injection H as _ H. destruct p; discriminate. Qed.
Lemma begin_not {P : event -> Prop} j i o e p x q : e = [] \/ e = [EPanic i] -> EBegin j i o :: e = p ++ x :: q -> x = EBegin j i o \/ x = EPanic i.
Proof. intros [->| ->] H; destruct p as [|y [|z [|w p]]]; cbn in H; try discriminate; injection H; intros; subst; auto. Qed.

(** ** What the getters show *)
Section Shown.
Variables (f : list (gostr * ctor)) (m0 : list options).
Hypothesis Hsep : separate f m0.
Lemma got_value sched s evs pre post j i k v : run step (start f m0) sched = Some (s, evs) -> evs = pre ++ EGot j i k v :: post ->
  exists ty, type_in pre i = Some ty /\ v = last_set (of_type pre ty) k pre (oget k (given f m0 ty)).
Proof.
  intros H E. destruct (event_step _ _ _ _ _ _ _ H E) as (a & l & t & t' & e1 & e & p & q & H1 & H2 & H3 & ->). apply step_act in H2 as [_ A].
  pose proof (okT_reach _ _ _ _ _ H1) as HT. pose proof (okM_reach _ _ Hsep _ _ _ H1) as HM.
  destruct A; try (apply single in H3 as [-> X]; try discriminate X); try (eapply (begin_not (P := fun _ => True)) in H3; eauto; destruct H3; discriminate).
  injection X as <- <- <- <-. rewrite app_nil_r. destruct HT as (HT1 & HT2 & HT3 & HT4 & HT5). destruct (HT4 i0 b H2) as (ty & c & T & _). exists ty. split; [exact T|].
  eapply map_value; eauto. unfold okT. auto.
Qed.
Lemma walked_value sched s evs pre post j i m : run step (start f m0) sched = Some (s, evs) -> evs = pre ++ EWalked j i m :: post ->
  exists ty, type_in pre i = Some ty /\ forall k, oget k m = last_set (of_type pre ty) k pre (oget k (given f m0 ty)).
Proof.
  intros H E. destruct (event_step _ _ _ _ _ _ _ H E) as (a & l & t & t' & e1 & e & p & q & H1 & H2 & H3 & ->). apply step_act in H2 as [_ A].
  pose proof (okT_reach _ _ _ _ _ H1) as HT. pose proof (okM_reach _ _ Hsep _ _ _ H1) as HM.
  destruct A; try (apply single in H3 as [-> X]; try discriminate X); try (eapply (begin_not (P := fun _ => True)) in H3; eauto; destruct H3; discriminate).
  injection X as <- <- <-. rewrite app_nil_r. destruct HT as (HT1 & HT2 & HT3 & HT4 & HT5). destruct (HT4 i0 b H2) as (ty & c & T & _). exists ty. split; [exact T|].
  eapply map_value; eauto. unfold okT. auto.
Qed.
Lemma fatal_cause sched s evs pre post i o : run step (start f m0) sched = Some (s, evs) -> evs = pre ++ EFatal i o :: post ->
  post = [] /\ exists j i' o' ty, In (EBegin j i' o') pre /\ ~ ended pre j /\ type_in pre i = Some ty /\ type_in pre i' = Some ty /\
    (is_set o = true \/ is_set o' = true) /\ (i <> i' \/ o = OWalk \/ o' = OWalk).
Proof.
  intros H E. destruct (event_step _ _ _ _ _ _ _ H E) as (a & l & t & t' & e1 & e & p & q & H1 & H2 & H3 & ->). apply step_act in H2 as [Hc A].
  pose proof (okT_reach _ _ _ _ _ H1) as HT. pose proof (okC_reach _ _ _ _ _ H1) as HC. split.
  { clear - H E. revert s evs H E. generalize (e1 ++ p). intros pre. revert post. induction sched as [|l sched IH] using rev_ind; intros post s evs H E.
    - injection H as <- <-. destruct pre; discriminate.
    - apply run_app_inv in H as (t & f1 & f2 & H1 & H2 & ->). apply run_one_inv in H2.
      assert (K : forall a t e, run step (start f m0) a = Some (t, e) -> (exists i o, In (EFatal i o) e) -> crashed t = true).
      { intros a. induction a as [|l' a IH'] using rev_ind; intros t0 e0 R X; [injection R as <- <-; destruct X as (? & ? & [])|].
        apply run_app_inv in R as (u & g1 & g2 & R1 & R2 & ->). apply run_one_inv in R2. apply step_act in R2 as [Hu A']. destruct X as (x & y & X). apply in_app_or in X as [X|X].
        - rewrite (IH' _ _ R1) in Hu by eauto. discriminate.
        - destruct A'; cbn; try reflexivity; destruct X as [X|X]; try discriminate X; try destruct X. destruct H0 as [->| ->]; [destruct X|destruct X as [X|[]]; discriminate]. }
      apply step_act in H2 as [Hu A].
      assert (Hn : forall i o, ~ In (EFatal i o) f1) by (intros x y X; rewrite (K _ _ _ H1) in Hu by eauto; discriminate).
      destruct (Nat.lt_ge_cases (List.length pre) (List.length f1)) as [Hl|Hl].
      + exfalso. apply (Hn i o). assert (N : nth_error (f1 ++ f2) (List.length pre) = Some (EFatal i o)) by (rewrite E, nth_error_app2, Nat.sub_diag by lia; reflexivity).
        rewrite nth_error_app1 in N by exact Hl. eapply nth_error_In; eauto.
      + assert (L : List.length (f1 ++ f2) = List.length (pre ++ EFatal i o :: post)) by now rewrite E. rewrite !app_length in L. cbn in L.
        destruct A; cbn in L; try (destruct post; [reflexivity|cbn in L; lia]).
        exfalso. assert (N : In (EFatal i o) (f1 ++ EBegin (List.length (calls t)) i0 o0 :: e)) by (rewrite E; apply in_elt). apply in_app_or in N as [N|[N|N]]; [eapply Hn; eauto|discriminate|].
        destruct H0 as [->| ->]; [destruct N|destruct N as [N|[]]; discriminate]. }
  destruct A; try (apply single in H3 as [-> X]; try discriminate X); try (eapply (begin_not (P := fun _ => True)) in H3; eauto; destruct H3; discriminate).
  injection X as <- <-. rewrite app_nil_r. destruct HT as (HT1 & HT2 & HT3 & HT4 & HT5). destruct (HT4 i0 b H0) as (ty & c & T & F & O & _).
  unfold collides in H5. apply existsb_exists in H5 as (x & Hx & Y). destruct x as [[i' o']|]; [|discriminate]. destruct (nth_error (builders t) i') as [b'|] eqn:B'; [|discriminate].
  destruct (b_opts b') as [r'|] eqn:R'; [|discriminate]. apply andb_true_iff in Y as [Y1 Y2]. apply Nat.eqb_eq in Y1 as <-. apply orb_true_iff in Y2.
  destruct (In_nth_error _ _ Hx) as (j & Hj). destruct HC as [HC1 HC2]. destruct (HC1 j i' o' Hj) as (X1 & X2 & X3).
  destruct (HT4 i' b' B') as (ty' & c' & T' & F' & O' & _). exists j, i', o', ty. split; [exact X2|]. split; [exact X3|]. split; [exact T|]. split.
  { rewrite T'. f_equal. destruct Hsep as [_ Hs]. eapply Hs; eauto. congruence. }
  split; [exact Y2|]. destruct (Nat.eq_dec i0 i') as [<-|]; [|auto]. right.
  unfold lock_free in H4. rewrite forallb_forall in H4. specialize (H4 _ Hx). cbn in H4. rewrite Nat.eqb_refl in H4. cbn in H4. destruct o0, o'; try discriminate; auto. destruct Y2; discriminate.
Qed.
Lemma info_value sched s evs pre post i id ty w l u : run step (start f m0) sched = Some (s, evs) -> evs = pre ++ EInfo i id ty w l u :: post ->
  exists t c, type_in pre i = Some t /\ find t f = Some c /\ w = c_weight c /\ l = c_limit c /\ u = c_unique c /\
    id = last_id i pre (c_id c) /\ ty = last_type i pre (c_name c).
Proof.
  intros H E. destruct (event_step _ _ _ _ _ _ _ H E) as (a & l0 & t & t' & e1 & e & p & q & H1 & H2 & H3 & ->). apply step_act in H2 as [Hc A].
  pose proof (okT_reach _ _ _ _ _ H1) as HT.
  destruct A; try (apply single in H3 as [-> X]; try discriminate X); try (eapply (begin_not (P := fun _ => True)) in H3; eauto; destruct H3; discriminate).
  injection X as <- <- <- <- <- <-. rewrite app_nil_r. destruct HT as (HT1 & HT2 & HT3 & HT4 & HT5). destruct (HT4 i0 b H0) as (ty & c & T & F & O & W & L & U & D & Y). exists ty, c. auto 10.
Qed.
Lemma named_not_empty sched s evs i id : run step (start f m0) sched = Some (s, evs) -> In (ENamed i id) evs -> id <> [].
Proof. intros H X. apply okT_reach in H as (_ & _ & _ & _ & _ & H & _). apply H in X. tauto. Qed.
(** A call that has begun can end. *)
Lemma can_end sched s evs j i o : run step (start f m0) sched = Some (s, evs) -> crashed s = false -> nth_error (calls s) j = Some (Some (i, o)) -> step s (LEnd j) <> None.
Proof.
  intros H Hc Hj. pose proof (okT_reach _ _ _ _ _ H) as (HT1 & HT2 & HT3 & HT4 & HT5). destruct (okC_reach _ _ _ _ _ H) as [HC _]. destruct (HC j i o Hj) as (X & _).
  unfold step. rewrite Hc, Hj. destruct (nth_error (builders s) i) as [b|] eqn:B; [|apply nth_error_None in B; lia]. destruct o; try discriminate.
  destruct (HT4 i b B) as (ty & c & T & F & O & _). destruct Hsep as [Hs _]. destruct (Hs ty c F) as (r & R & L). unfold put_opt. rewrite O, R.
  destruct (nth_error (maps s) r) eqn:M; [discriminate|]. apply nth_error_None in M. lia.
Qed.
End Shown.

(** ** Creating actors on demand *)
(** The message carries the string fields [d]. *)
Definition carries (b : MsgModel.builder) (d : gomap) : Prop :=
  err b = false /\ NoDup (map fst d) /\ (forall k v, In (k, v) d -> valid k /\ exists w, v = GStr w /\ valid w) /\
  exists h, hdr Req b = Some h /\ (Custom h = CEmpty /\ d = [] \/ read_map (Custom h) = Some (Some d)).
Lemma carries_write b d k v : carries b d -> valid k -> valid v ->
  exists b', WithCustomFields Req [attr (k, v)] b = Some b' /\ carries b' (mset k (GStr v) d).
Proof.
  intros (He & Hn & Hd & h & Hh & Hc) Hk Hv. assert (Hn' : NoDup (map fst (mset k (GStr v) d))) by now apply mset_nodup.
  assert (Hd' : forall k0 v0, In (k0, v0) (mset k (GStr v) d) -> valid k0 /\ exists w, v0 = GStr w /\ valid w).
  { intros k0 v0 X. apply mset_in in X as [X|X]; [injection X as -> ->; eauto|eauto]. }
  assert (Hp : plain (GMap (mset k (GStr v) d))).
  { cbn [plain]. split; [exact Hn'|]. apply (fold_all (fun e => valid (fst e) /\ plain (snd e))). apply Forall_forall. intros [k0 v0] X. destruct (Hd' _ _ X) as (A & w & -> & B). cbn. auto. }
  destruct (plain_round _ Hp) as (j & E & D). destruct (hdr_ptr _ _ _ Hh) as (p & P & N).
  assert (W : WithCustomFieldsMap Req (Some (mset k (GStr v) d)) b = Some (store b p (setCustom h (CJson j)))) by (unfold WithCustomFieldsMap; rewrite E, P, Hh; reflexivity).
  exists (store b p (setCustom h (CJson j))). split.
  - unfold WithCustomFields. rewrite Hh. destruct Hc as [[-> ->]|Hc]; [exact W|]. destruct (Custom h); [discriminate|rewrite Hc; exact W|discriminate].
  - split; [exact He|]. split; [exact Hn'|]. split; [exact Hd'|]. exists (setCustom h (CJson j)). split; [now apply hdr_store with (h := h)|]. right. change (Custom (setCustom h (CJson j))) with (CJson j).
    cbn [encode] in E. destruct (all _ (mset k (GStr v) d)) as [q|]; [|discriminate]. injection E as <-. now apply read_map_of.
Qed.
Fixpoint sets (l : list (gostr * gostr)) (d : gomap) : gomap := match l with [] => d | (k, v) :: r => sets r (mset k (GStr v) d) end.
Lemma carries_fields l : forall b d, carries b d -> (forall k v, In (k, v) l -> valid k /\ valid v) ->
  exists b', put_fields l b = Some b' /\ carries b' (sets l d).
Proof.
  induction l as [|[k v] l IH]; intros b d Hc Hl; cbn [put_fields sets]; [eauto|]. destruct (Hl k v ltac:(now left)) as [Hk Hv].
  destruct (carries_write b d k v Hc Hk Hv) as (b1 & W & C). rewrite W. apply IH; [exact C|]. intros; apply Hl; now right.
Qed.
Lemma carries_new uid : carries (NewBuilder [] uid) [].
Proof. split; [reflexivity|]. split; [constructor|]. split; [intros ? ? []|]. eexists. split; [reflexivity|]. left. auto. Qed.
Lemma mget_in k v d : mget k d = Some v -> In (k, v) d.
Proof. induction d as [|[a w] d IH]; cbn; [discriminate|]. destruct (str_eqP a k) as [->|]; [intros H; injection H as ->; auto|auto]. Qed.
Lemma in_mget k v d : NoDup (map fst d) -> In (k, v) d -> mget k d = Some v.
Proof.
  induction d as [|[a w] d IH]; cbn; intros Hn H; [destruct H|]; destruct H as [H|H]; [injection H as -> ->; now rewrite str_eq_refl|]. inversion Hn; subst.
  destruct (str_eqP a k) as [->|]; [exfalso; apply H2; apply in_map_iff; now exists (k, v)|auto].
Qed.
Lemma field_of b d k v : carries b d -> mget k d = Some (GStr v) -> str_field b k = v.
Proof.
  intros (He & Hn & Hd & h & Hh & Hc) Hg. unfold str_field, GetCustomField. rewrite Hh. destruct Hc as [[_ ->]|Hc]; [discriminate|]. rewrite Hc, Hg. reflexivity.
Qed.
Lemma sets_get l : forall d k, mget k (sets l d) = last_of k (map attr l) (mget k d).
Proof.
  induction l as [|[k' v] l IH]; intros d k; cbn [sets map last_of]; [reflexivity|]. rewrite IH. cbn [attr fst snd]. f_equal. apply mget_mset.
Qed.
Lemma last_of_app k a b z : last_of k (a ++ b) z = last_of k b (last_of k a z).
Proof. revert z. induction a as [|[k' v] a IH]; intros z; cbn; [reflexivity|apply IH]. Qed.
Lemma last_of_none k a z : (forall v, ~ In (k, v) a) -> last_of k a z = z.
Proof.
  revert z. induction a as [|[k' v] a IH]; intros z H; cbn; [reflexivity|]. destruct (str_eqP k' k) as [->|]; [exfalso; eapply H; left; reflexivity|].
  apply IH. intros w X. eapply H. right. exact X.
Qed.
Lemma last_of_nodup k v a z : NoDup (map fst a) -> In (k, v) a -> last_of k a z = Some v.
Proof.
  revert z. induction a as [|[k' w] a IH]; intros z Hn H; [destruct H|]; destruct H as [H|H]; cbn.
  - injection H as -> ->. rewrite str_eq_refl. inversion Hn; subst. apply last_of_none. intros x X. apply H1. apply in_map_iff. now exists (k, x).
  - inversion Hn; subst. destruct (str_eqP k' k) as [->|]; [exfalso; apply H2; apply in_map_iff; now exists (k, v)|]. now apply IH.
Qed.
Lemma lit_valid s : valid (lit s).
Proof. intros c H. apply in_map_iff in H as (a & <- & _). eauto. Qed.
Lemma valid_app a b : valid a -> valid b -> valid (a ++ b).
Proof. intros Ha Hb c H. apply in_app_or in H as [H|H]; auto. Qed.

(** The loop over the fields. *)
Lemma with_opts_ok l : forall s i b r, nth_error (builders s) i = Some b -> b_opts b = Some r -> r < List.length (maps s) ->
  NoDup (map fst l) -> (forall k v, In (k, v) l -> exists w, v = GStr w) ->
  exists s', with_opts s i l = Registers s' i /\ builders s' = builders s /\ factory s' = factory s /\
    (forall r', r' <> r -> nth_error (maps s') r' = nth_error (maps s) r') /\
    forall k, get_opt s' i k = match mget k l with Some (GStr v) => v | _ => get_opt s i k end.
Proof.
  induction l as [|[k v] l IH]; intros s i b r B O L Hn Hs; cbn [with_opts].
  - exists s. split; [reflexivity|]. split; [reflexivity|]. split; [reflexivity|]. split; [reflexivity|]. reflexivity.
  - destruct (Hs k v ltac:(now left)) as (w & ->). rewrite B. unfold put_opt. rewrite O. destruct (nth_error (maps s) r) as [m|] eqn:M; [|apply nth_error_None in M; lia].
    inversion Hn as [|? ? Hnk Hnl]; subst.
    destruct (IH (mkS (factory s) (upd (maps s) r (oset k w m)) (builders s) (calls s) (crashed s)) i b r) as (s' & W & Q1 & Q2 & Q3 & Q4); auto.
    { cbn. now rewrite upd_length. } { intros k0 v0 X. apply (Hs k0 v0). now right. }
    exists s'. split; [exact W|]. split; [exact Q1|]. split; [exact Q2|]. split.
    { intros r' Hr. rewrite Q3 by exact Hr. cbn. now rewrite nth_upd_neq by auto. }
    intros k0. rewrite Q4. cbn [mget]. destruct (str_eqP k k0) as [<-|Hk].
    + destruct (mget k l) as [z|] eqn:G; [exfalso; apply Hnk; apply mget_in in G; apply in_map_iff; now exists (k, z)|].
      unfold get_opt. cbn [builders]. rewrite B. unfold map_of. rewrite O. cbn [maps]. rewrite nth_upd_eq by exact L. rewrite oget_oset, str_eq_refl. reflexivity.
    + assert (X : get_opt (mkS (factory s) (upd (maps s) r (oset k w m)) (builders s) (calls s) (crashed s)) i k0 = get_opt s i k0).
      { unfold get_opt. cbn [builders]. rewrite B. unfold map_of. rewrite O. cbn [maps]. rewrite nth_upd_eq by exact L. rewrite M, oget_oset. destruct (str_eqP k k0); [contradiction|reflexivity]. }
      destruct (mget k0 l) as [[]|]; auto.
Qed.
Lemma mget_perm k d l : NoDup (map fst d) -> Permutation d l -> mget k l = mget k d.
Proof.
  intros Hn P. assert (Hn' : NoDup (map fst l)) by (eapply Permutation_NoDup; [apply Permutation_map; exact P|exact Hn]).
  destruct (mget k d) as [v|] eqn:E.
  - apply in_mget; [exact Hn'|]. eapply Permutation_in; [exact P|]. now apply mget_in.
  - destruct (mget k l) as [v|] eqn:E'; [|reflexivity]. apply mget_in in E'. apply Permutation_sym in P. eapply Permutation_in in E'; [|exact P]. apply (in_mget _ _ _ Hn) in E'. congruence.
Qed.
Theorem on_demand f m0 s opts id ty node uuid uid order c :
  factory s = f -> List.length (maps s) = List.length m0 -> separate f m0 -> find ty f = Some c ->
  NoDup (map fst opts) -> (forall k v, In (k, v) opts -> valid k /\ valid v) -> valid id -> valid ty -> valid node -> valid uuid ->
  (forall d, Permutation d (order d)) ->
  exists b1 b2 s' i b, pick opts id ty uid = Some b1 /\ picked node uuid b1 = Some b2 /\ registers s b2 order = Registers s' i /\
    nth_error (builders s') i = Some b /\ b_id b = new_id node ty uuid /\ b_ty b = c_name c /\
    get_opt s' i KeyActorID = new_id node ty uuid /\ get_opt s' i KeyActorTy = ty /\
    (forall k v, ~ reserved k -> In (k, v) opts -> get_opt s' i k = v) /\
    (forall k, ~ reserved k -> ~ In k (map fst opts) -> forall r m, c_opts c = Some r -> nth_error (maps s) r = Some m -> get_opt s' i k = oget k m).
Proof.
  intros Hf Hl Hsep F Hno Hvo Hvi Hvt Hvn Hvu Hord.
  assert (Hkeys : forall k v, In (k, v) (opts ++ [(KeyActorID, id); (KeyActorTy, ty)]) -> valid k /\ valid v).
  { intros k v X. apply in_app_or in X as [X|[X|[X|[]]]]; [auto|injection X as <- <-; split; [apply lit_valid|exact Hvi]|injection X as <- <-; split; [apply lit_valid|exact Hvt]]. }
  destruct (carries_fields _ _ _ (carries_new uid) Hkeys) as (b1 & P1 & C1).
  set (d1 := sets (opts ++ [(KeyActorID, id); (KeyActorTy, ty)]) []) in *.
  assert (Hne : str_eq KeyActorID KeyActorTy = false) by reflexivity. assert (Hne' : str_eq KeyActorTy KeyActorID = false) by reflexivity.
  assert (T1 : mget KeyActorTy d1 = Some (GStr ty)) by (unfold d1; rewrite sets_get, map_app, last_of_app; cbn [map attr last_of fst snd]; rewrite str_eq_refl; reflexivity).
  assert (Hvid : valid (new_id node ty uuid)) by (unfold new_id; repeat apply valid_app; auto; apply lit_valid).
  destruct (carries_write b1 d1 KeyActorID (new_id node ty uuid) C1 (lit_valid _) Hvid) as (b2 & P2 & C2).
  set (d2 := mset KeyActorID (GStr (new_id node ty uuid)) d1) in *.
  assert (G2 : forall k, mget k d2 = if str_eq KeyActorID k then Some (GStr (new_id node ty uuid)) else mget k d1) by (intros; apply mget_mset).
  assert (T2 : str_field b2 KeyActorTy = ty) by (eapply field_of; [exact C2|]; rewrite G2, Hne; exact T1).
  assert (I2 : str_field b2 KeyActorID = new_id node ty uuid) by (eapply field_of; [exact C2|]; rewrite G2, str_eq_refl; reflexivity).
  destruct C2 as (He & Hn2 & Hd2 & h & Hh & Hc). destruct Hc as [[_ Hc]|Hc]; [rewrite Hc in G2; specialize (G2 KeyActorID); rewrite str_eq_refl in G2; discriminate|].
  destruct Hsep as [Hs1 Hs2]. destruct (Hs1 ty c F) as (r & R & Lr).
  set (i := List.length (builders s)). set (s1 := mkS (factory s) (maps s) (builders s ++ [fresh c]) (calls s) (crashed s)).
  set (b' := mkB (new_id node ty uuid) (c_name c) (c_weight c) (c_limit c) (c_unique c) (c_opts c)).
  assert (N1 : nth_error (builders s1) i = Some (fresh c)) by (cbn; unfold i; rewrite nth_error_app2, Nat.sub_diag by lia; reflexivity).
  assert (N2 : nth_error (builders (set_builder s1 i b')) i = Some b') by (cbn; apply nth_upd_eq; rewrite app_length; cbn; unfold i; lia).
  assert (Hid : with_id (fresh c) (new_id node ty uuid) = Some b').
  { unfold with_id. destruct (new_id node ty uuid) eqn:E; [|reflexivity]. apply app_eq_nil in E as [_ E]. discriminate. }
  destruct (with_opts_ok (order d2) (set_builder s1 i b') i b' r N2 R) as (s' & W & Q1 & Q2 & Q3 & Q4).
  { cbn. lia. } { eapply Permutation_NoDup; [apply Permutation_map, Hord|exact Hn2]. }
  { intros k v X. apply (Permutation_in _ (Permutation_sym (Hord d2))) in X. destruct (Hd2 _ _ X) as (_ & w & -> & _). eauto. }
  assert (Q : forall k, get_opt s' i k = match mget k d2 with Some (GStr v) => v | _ => get_opt (set_builder s1 i b') i k end).
  { intros k. rewrite Q4. now rewrite (mget_perm k d2) by auto. }
  exists b1, b2, s', i, b'. split; [exact P1|]. split.
  { unfold picked. rewrite (field_of b1 d1 KeyActorTy ty C1 T1). exact P2. }
  split.
  { unfold registers. rewrite T2, I2. unfold build. rewrite Hf, F. fold i. rewrite <- Hf. fold s1. rewrite N1, Hid, Hh, Hc. exact W. }
  split; [rewrite Q1; exact N2|]. split; [reflexivity|]. split; [reflexivity|]. split; [rewrite Q, G2, str_eq_refl; reflexivity|]. split; [rewrite Q, G2, Hne, T1; reflexivity|].
  assert (G1 : forall k, ~ reserved k -> mget k d1 = last_of k (map attr opts) None).
  { intros k Hk. unfold d1. rewrite sets_get, map_app, last_of_app. cbn [map attr last_of fst snd]. unfold reserved in Hk.
    destruct (str_eqP KeyActorID k) as [<-|]; [exfalso; auto|]. destruct (str_eqP KeyActorTy k) as [<-|]; [exfalso; auto|]. reflexivity. }
  assert (K0 : map fst (map attr opts) = map fst opts) by (rewrite map_map; apply map_ext; intros []; reflexivity).
  split.
  - intros k v Hk X. rewrite Q, G2. destruct (str_eqP KeyActorID k) as [<-|]; [exfalso; apply Hk; now left|]. rewrite G1 by exact Hk.
    rewrite (last_of_nodup k (GStr v)); [reflexivity|rewrite K0; exact Hno|]. apply in_map_iff. now exists (k, v).
  - intros k Hk X r0 m R0 M. rewrite Q, G2. destruct (str_eqP KeyActorID k) as [<-|]; [exfalso; apply Hk; now left|]. rewrite G1 by exact Hk.
    rewrite last_of_none; [|intros v Y; apply X; rewrite <- K0; apply in_map_iff; now exists (k, v)]. unfold get_opt. rewrite N2. unfold map_of, b'. cbn [b_opts]. rewrite R0. cbn [set_builder maps s1]. now rewrite M.
Qed.

(** ** Actors every node starts with *)
Lemma with_id_static b node c : exists b', with_id b (static_id node c) = Some b' /\ b_id b' = static_id node c /\ b_ty b' = b_ty b.
Proof.
  unfold with_id. destruct (static_id node c) eqn:E; [|eexists; split; [reflexivity|split; reflexivity]].
  exfalso. unfold static_id in E. apply app_eq_nil in E as [_ E]. discriminate.
Qed.
Lemma assign_ok f node l : (forall c, In c l -> c_dynamic c = false -> find (c_name c) f = Some c) ->
  assign f node l = Some (map (fun c => (static_id node c, c_name c)) (filter (fun c => negb (c_dynamic c)) l)).
Proof.
  induction l as [|c l IH]; intros H; cbn [assign filter map]; [reflexivity|]. destruct (c_dynamic c) eqn:D; cbn [negb].
  - apply IH. intros; apply H; [now right|assumption].
  - rewrite (H c ltac:(now left) D). destruct (with_id_static (fresh c) node c) as (b' & -> & I & T). rewrite IH by (intros; apply H; [now right|assumption]). cbn [map]. now rewrite I, T.
Qed.
