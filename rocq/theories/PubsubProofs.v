(** Invariants of the publish/subscribe machine. *)
From Coq Require Import List String Arith Bool Lia Sorting.Sorted Permutation.
From Verif Require Import Machine AddrModel AddrProofs PubsubModel PubsubSpec.
From Verif Require UnboundedModel.
Import ListNotations.
Open Scope list_scope.

(** ** History of an execution *)
Definition adds (evs : list event) : list nat := flat_map (fun x => match x with EPub _ e | EInit _ e => [e_id e] | _ => [] end) evs.
Definition handed (t ch : string) (evs : list event) : list nat :=
  flat_map (fun x => match x with ERead _ t' ch' e | ELost _ t' ch' e => if String.eqb t' t && String.eqb ch' ch then [e_id e] else [] | _ => [] end) evs.
Definition rds (c : nat) (evs : list event) : list entry := flat_map (fun x => match x with ERead d _ _ e => if Nat.eqb d c then [e] else [] | _ => [] end) evs.
Definition psh (c : nat) (evs : list event) : list entry := flat_map (fun x => match x with EPush d _ _ _ e => if Nat.eqb d c then [e] else [] | _ => [] end) evs.
Definition plain (x : event) : Prop := match x with EPub _ _ | EInit _ _ | ERead _ _ _ _ | ELost _ _ _ _ => False | _ => True end.
Definition quiet (x : event) : Prop := match x with ERead _ _ _ _ | EPush _ _ _ _ _ => False | _ => True end.

Lemma adds_app a b : adds (a ++ b) = adds a ++ adds b. Proof. apply flat_map_app. Qed.
Lemma handed_app t ch a b : handed t ch (a ++ b) = handed t ch a ++ handed t ch b. Proof. apply flat_map_app. Qed.
Lemma rds_app c a b : rds c (a ++ b) = rds c a ++ rds c b. Proof. apply flat_map_app. Qed.
Lemma psh_app c a b : psh c (a ++ b) = psh c a ++ psh c b. Proof. apply flat_map_app. Qed.
Lemma adds_plain ev : Forall plain ev -> adds ev = [].
Proof. induction 1 as [|[] ev H _ IH]; cbn in *; try contradiction; auto. Qed.
Lemma handed_plain t ch ev : Forall plain ev -> handed t ch ev = [].
Proof. induction 1 as [|[] ev H _ IH]; cbn in *; try contradiction; auto. Qed.

(** ** Streams *)
Definition weaker (m m' : list (string * stream)) : Prop := forall t st', aget t m' = Some st' ->
  exists st, aget t m = Some st /\ s_last st' = s_last st /\ (exists p, s_ents st' = filter p (s_ents st)) /\
    forall ch g', aget ch (s_grps st') = Some g' -> exists g, aget ch (s_grps st) = Some g /\ g_last g' = g_last g.
(** What a command leaves in place, except as [dl], [ds], [gn] say. *)
Definition kept (dl : string -> nat -> Prop) (ds : string -> string -> Prop) (gn : string -> Prop) (m m' : list (string * stream)) : Prop := forall t st, aget t m = Some st ->
  gn t \/ exists st', aget t m' = Some st' /\ (forall e, In e (s_ents st) -> In e (s_ents st') \/ dl t (e_id e)) /\
    forall ch g, aget ch (s_grps st) = Some g -> ds t ch \/ exists g', aget ch (s_grps st') = Some g' /\ g_last g' = g_last g.

Lemma filter_true {A} (l : list A) : filter (fun _ => true) l = l.
Proof. induction l; cbn; congruence. Qed.
Lemma weaker_refl m : weaker m m.
Proof. intros t st' H. exists st'. split; [exact H|]. split; [reflexivity|]. split; [exists (fun _ => true); now rewrite filter_true|]. eauto. Qed.
Lemma kept_refl dl ds gn m : kept dl ds gn m m.
Proof. intros t st H. right. exists st. split; [exact H|]. split; [auto|]. eauto. Qed.

Lemma weaker_on t f m : (forall st, aget t m = Some st -> s_last (f st) = s_last st /\ (exists p, s_ents (f st) = filter p (s_ents st)) /\
    forall ch g', aget ch (s_grps (f st)) = Some g' -> exists g, aget ch (s_grps st) = Some g /\ g_last g' = g_last g) -> weaker m (on_stream t f m).
Proof.
  intros H. unfold on_stream. destruct (aget t m) as [st|] eqn:E; [|apply weaker_refl]. intros t' st' H'. rewrite aget_aset in H'. destruct (String.eqb_spec t' t) as [->|Hn].
  - injection H' as <-. exists st. destruct (H _ eq_refl) as (A & B & C). split; [exact E|]. split; [exact A|]. split; [exact B|exact C].
  - exact (weaker_refl m _ _ H').
Qed.
Lemma kept_on dl ds gn t f m : (forall st, aget t m = Some st -> (forall e, In e (s_ents st) -> In e (s_ents (f st)) \/ dl t (e_id e)) /\
    forall ch g, aget ch (s_grps st) = Some g -> ds t ch \/ exists g', aget ch (s_grps (f st)) = Some g' /\ g_last g' = g_last g) -> kept dl ds gn m (on_stream t f m).
Proof.
  intros H. unfold on_stream. destruct (aget t m) as [st|] eqn:E; [|apply kept_refl]. intros t' st' H'. right. rewrite aget_aset. destruct (String.eqb_spec t' t) as [->|Hn].
  - assert (st' = st) as -> by congruence. destruct (H _ eq_refl) as [A B]. eauto.
  - exists st'. split; [exact H'|]. split; [auto|]. eauto.
Qed.
Lemma weaker_xdel t id m : weaker m (xdel t id m).
Proof. apply weaker_on. intros st _. split; [reflexivity|]. split; [eexists; reflexivity|]. cbn. eauto. Qed.
Lemma kept_xdel (dl : string -> nat -> Prop) ds gn t id m : dl t id -> kept dl ds gn m (xdel t id m).
Proof.
  intros Hd. apply kept_on. intros st _. cbn. split; [|eauto]. intros e He. destruct (Nat.eqb_spec (e_id e) id) as [<-|Hn]; [now right|]. left. apply filter_In. split; [exact He|]. apply Nat.eqb_neq in Hn. now rewrite Hn.
Qed.
Lemma weaker_expire t m : weaker m (expire t m).
Proof. apply weaker_on. intros st _. split; [reflexivity|]. split; [exists (fun _ => true); now rewrite filter_true|]. cbn. eauto. Qed.
Lemma kept_expire dl ds gn t m : kept dl ds gn m (expire t m).
Proof. apply kept_on. intros st _. cbn. split; eauto. Qed.
Lemma weaker_destroy t ch m : weaker m (xdestroy t ch m).
Proof. apply weaker_on. intros st _. split; [reflexivity|]. split; [exists (fun _ => true); now rewrite filter_true|]. cbn. intros ch' g'. rewrite aget_adel. destruct (String.eqb ch' ch); [discriminate|eauto]. Qed.
Lemma kept_destroy (dl : string -> nat -> Prop) (ds : string -> string -> Prop) gn t ch m : ds t ch -> kept dl ds gn m (xdestroy t ch m).
Proof. intros Hd. apply kept_on. intros st _. cbn. split; [auto|]. intros ch' g Hg. rewrite aget_adel. destruct (String.eqb_spec ch' ch) as [->|]; [now left|eauto]. Qed.
Lemma weaker_adel t m : weaker m (adel t m).
Proof. intros t' st'. rewrite aget_adel. destruct (String.eqb t' t); [discriminate|]. apply weaker_refl. Qed.
Lemma kept_adel dl ds (gn : string -> Prop) t m : gn t -> kept dl ds gn m (adel t m).
Proof. intros Hg t' st' H. rewrite aget_adel. destruct (String.eqb_spec t' t) as [->|]; [now left|]. right. exists st'. split; [exact H|]. split; eauto. Qed.
Lemma find_group_inv t ch m s g : find_group t ch m = Some (s, g) -> aget t m = Some s /\ aget ch (s_grps s) = Some g.
Proof. unfold find_group. destruct (aget t m) as [s0|]; [|discriminate]. destruct (aget ch (s_grps s0)) as [g0|] eqn:E; [|discriminate]. intros [= <- <-]. auto. Qed.
Lemma weaker_group t ch s g g' m : aget t m = Some s -> aget ch (s_grps s) = Some g -> g_last g' = g_last g -> weaker m (set_group t ch s g' m).
Proof.
  intros Hs Hg He t' st'. unfold set_group. rewrite aget_aset. destruct (String.eqb_spec t' t) as [->|]; [|apply weaker_refl]. intros [= <-]. exists s. split; [exact Hs|]. split; [reflexivity|]. split; [exists (fun _ => true); now rewrite filter_true|].
  cbn. intros ch' g0. rewrite aget_aset. destruct (String.eqb_spec ch' ch) as [->|]; [intros [= <-]; eauto|eauto].
Qed.
Lemma kept_group dl ds gn t ch s g g' m : aget t m = Some s -> aget ch (s_grps s) = Some g -> g_last g' = g_last g -> kept dl ds gn m (set_group t ch s g' m).
Proof.
  intros Hs Hg He t' st' H. right. unfold set_group. rewrite aget_aset. destruct (String.eqb_spec t' t) as [->|].
  - assert (st' = s) as -> by congruence. eexists. split; [reflexivity|]. split; [auto|]. cbn. intros ch' g0 H0. right. rewrite aget_aset. destruct (String.eqb_spec ch' ch) as [->|]; [|eauto]. exists g'. split; [reflexivity|congruence].
  - exists st'. split; [exact H|]. split; eauto.
Qed.
Lemma weaker_ack t ch id m : weaker m (xack t ch id m).
Proof. unfold xack. destruct (find_group t ch m) as [[s g]|] eqn:E; [|apply weaker_refl]. apply find_group_inv in E as [A B]. eapply weaker_group; eauto. Qed.
Lemma kept_ack dl ds gn t ch id m : kept dl ds gn m (xack t ch id m).
Proof. unfold xack. destruct (find_group t ch m) as [[s g]|] eqn:E; [|apply kept_refl]. apply find_group_inv in E as [A B]. eapply kept_group; eauto. Qed.
Lemma weaker_delc t ch c m m' : xdelconsumer t ch c m = Some m' -> weaker m m'.
Proof. unfold xdelconsumer. destruct (find_group t ch m) as [[s g]|] eqn:E; [|discriminate]. intros [= <-]. apply find_group_inv in E as [A B]. eapply weaker_group; eauto. Qed.
Lemma kept_delc dl ds gn t ch c m m' : xdelconsumer t ch c m = Some m' -> kept dl ds gn m m'.
Proof. unfold xdelconsumer. destruct (find_group t ch m) as [[s g]|] eqn:E; [|discriminate]. intros [= <-]. apply find_group_inv in E as [A B]. eapply kept_group; eauto. Qed.

(** What a step does to the streams. *)
Definition by_thr (s : state) (l : label) (t : string) (id : nat) : Prop := exists i r ttl, l = LThr i r /\ nth_error (thrs s) i = Some (NDel t id ttl).
Inductive delta (s : state) (l : label) (s' : state) (ev : list event) : Prop :=
| DWeak : weaker (strs s) (strs s') -> next s' = next s -> Forall plain ev ->
    kept (fun t id => by_thr s l t id \/ exists c ch, In (EDel c t ch id) ev) (fun t ch => In (EDestroy t ch) ev) (fun t => In (EGone t) ev) (strs s) (strs s') -> delta s l s' ev
| DAdd t w body tl : strs s' = xadd t (mkE (next s) w body) (strs s) -> next s' = S (next s) -> Forall plain tl ->
    (ev = EPub t (mkE (next s) w body) :: tl \/ ev = EInit t (mkE (next s) w body) :: tl /\ w = "" /\ body = "init")%string -> delta s l s' ev
| DCreate t ch md r : l = LSub t ch md r -> xgroup_create t ch md (strs s) = Some (strs s') -> next s' = next s -> Forall plain ev -> delta s l s' ev
| DRead c x es : nth_error (cons s) c = Some x -> xreadgroup (c_top x) (c_ch x) c (strs s) = Some (es, strs s') -> next s' = next s ->
    ev = map (ERead c (c_top x) (c_ch x)) es \/ ev = map (ELost c (c_top x) (c_ch x)) es -> delta s l s' ev.

Ltac red_step H := repeat match type of H with
  | match ?y with _ => _ end = _ => let E := fresh "E" in destruct y eqn:E; try discriminate
  | (if ?y then _ else _) = _ => let E := fresh "E" in destruct y eqn:E; try discriminate
  end.
Ltac inv_thr H := unfold thr_step, done, fails in H; red_step H; injection H as <- <-.
Ltac pl := repeat constructor.

Lemma thr_delta s i p r s' ev : nth_error (thrs s) i = Some p -> thr_step s i p r = Some (s', ev) -> delta s (LThr i r) s' ev.
Proof.
  intros Hp H. destruct p as [t ttl|t id ttl|t|c|c|t|t|]; cbn [thr_step] in H.
  - destruct r; cbn [done fails] in H; injection H as <- <-.
    + eapply DAdd with (tl := []); [reflexivity|reflexivity|pl|right; auto].
    + apply DWeak; [apply weaker_refl|reflexivity|pl|apply kept_refl].
    + eapply DAdd with (tl := []); [reflexivity|reflexivity|pl|right; auto].
  - assert (K : forall gn, kept (fun t id => by_thr s (LThr i r) t id \/ exists c ch, In (EDel c t ch id) []) (fun t ch => In (EDestroy t ch) []) gn (strs s) (xdel t id (strs s))) by (intros gn; apply kept_xdel; left; unfold by_thr; eauto).
    destruct r; cbn [done] in H; injection H as <- <-; (apply DWeak; [first [apply weaker_xdel|apply weaker_refl]|reflexivity|pl|first [apply K|apply kept_refl]]).
  - destruct r; cbn [done] in H; injection H as <- <-; (apply DWeak; [first [apply weaker_expire|apply weaker_refl]|reflexivity|pl|first [apply kept_expire|apply kept_refl]]).
  - red_step H; injection H as <- <-; (apply DWeak; [apply weaker_refl|reflexivity|pl|apply kept_refl]).
  - red_step H. destruct r; cbn [done] in H; injection H as <- <-; (apply DWeak; [first [apply weaker_destroy|apply weaker_refl]|reflexivity|pl|first [(apply kept_destroy; now left)|apply kept_refl]]).
  - red_step H; injection H as <- <-; (apply DWeak; [apply weaker_refl|reflexivity|pl|apply kept_refl]).
  - destruct r; cbn [done fails app] in H; injection H as <- <-; (apply DWeak; [first [apply weaker_adel|apply weaker_refl]|reflexivity|pl|first [(apply kept_adel; now left)|apply kept_refl]]).
  - discriminate.
Qed.
Lemma hand_delta s c x h y r l s' ev : hand_step s c x h y r = Some (s', ev) -> delta s l s' ev.
Proof.
  unfold hand_step. intros H. destruct (h_pc y) as [|e|e|e|e].
  1-3: red_step H; injection H as <- <-; (apply DWeak; [apply weaker_refl|reflexivity|pl|apply kept_refl]).
  - destruct r; injection H as <- <-; (apply DWeak; [first [apply weaker_ack|apply weaker_refl]|reflexivity|pl|first [apply kept_ack|apply kept_refl]]).
  - destruct r; cbn [done] in H; injection H as <- <-; (apply DWeak; [first [apply weaker_xdel|apply weaker_refl]|reflexivity|pl|first [(apply kept_xdel; right; do 2 eexists; now left)|apply kept_refl]]).
Qed.
Lemma step_delta s l s' ev : step s l = Some (s', ev) -> delta s l s' ev.
Proof.
  intros H. destruct l as [t ttl r|t w body r|t ch md r|c q|c r|c|c h r|c r|t r|i r|c|t]; cbn [step] in H.
  - red_step H; injection H as <- <-; (apply DWeak; [apply weaker_refl|reflexivity|pl|apply kept_refl]).
  - red_step H; [injection H as <- <-; (apply DWeak; [apply weaker_refl|reflexivity|pl|apply kept_refl])|].
    destruct r; cbn [done fails app] in H; injection H as <- <-.
    + eapply DAdd with (tl := []); [reflexivity|reflexivity|pl|left; reflexivity].
    + apply DWeak; [apply weaker_refl|reflexivity|pl|apply kept_refl].
    + eapply DAdd with (tl := [EPubErr t]); [reflexivity|reflexivity|pl|left; reflexivity].
  - destruct r, (xgroup_create t ch md (strs s)) as [m|] eqn:E; injection H as <- <-;
      try (apply DWeak; [apply weaker_refl|reflexivity|pl|apply kept_refl]); (eapply DCreate; [reflexivity|exact E|reflexivity|pl]).
  - red_step H; injection H as <- <-; (apply DWeak; [apply weaker_refl|reflexivity|pl|apply kept_refl]).
  - destruct (nth_error (cons s) c) as [x|] eqn:Ex; [|discriminate]. destruct (c_up x); [|discriminate]. cbn [negb] in H. destruct (c_rd x); [|discriminate]. destruct (UnboundedModel.holder (c_buf x)); [destruct r; discriminate|].
    destruct r, (xreadgroup (c_top x) (c_ch x) c (strs s)) as [[es m]|] eqn:E; injection H as <- <-; try (apply DWeak; [apply weaker_refl|reflexivity|pl|apply kept_refl]).
    + eapply DRead; [exact Ex|exact E|reflexivity|now left].
    + eapply DRead; [exact Ex|exact E|reflexivity|now right].
  - red_step H; injection H as <- <-; (apply DWeak; [apply weaker_refl|reflexivity|pl|apply kept_refl]).
  - red_step H. eapply hand_delta; exact H.
  - red_step H; injection H as <- <-; (apply DWeak; [first [eapply weaker_delc; eassumption|apply weaker_refl]|reflexivity|pl|first [(eapply kept_delc; eassumption)|apply kept_refl]]).
  - red_step H; injection H as <- <-; (apply DWeak; [apply weaker_refl|reflexivity|pl|apply kept_refl]).
  - destruct (nth_error (thrs s) i) as [p|] eqn:E; [|discriminate]. eapply thr_delta; eassumption.
  - red_step H; injection H as <- <-; (apply DWeak; [apply weaker_refl|reflexivity|pl|apply kept_refl]).
  - red_step H. injection H as <- <-. apply DWeak; [apply weaker_adel|reflexivity|pl|apply kept_adel; now left].
Qed.

(** ** The streams are in order *)
Definition added (t : string) (e : entry) (evs : list event) : Prop := In (EPub t e) evs \/ In (EInit t e) evs /\ e_ev e = ""%string /\ e_body e = "init"%string.
Definition okst (evs : list event) (n : nat) (t : string) (st : stream) : Prop :=
  StronglySorted lt (map e_id (s_ents st)) /\ (forall e, In e (s_ents st) -> e_id e <= s_last st /\ added t e evs) /\ s_last st < n /\
  forall ch g, aget ch (s_grps st) = Some g -> g_last g <= s_last st.
Definition okS (evs : list event) (s : state) : Prop :=
  (forall t st, aget t (strs s) = Some st -> okst evs (next s) t st) /\ StronglySorted lt (adds evs) /\ (forall id, In id (adds evs) -> id < next s) /\ 0 < next s /\
  (forall c t ch e, In (ERead c t ch e) evs -> added t e evs).

Lemma added_app t e a b : added t e a -> added t e (a ++ b).
Proof. intros [H|(H & A)]; [left|right; split; [|exact A]]; apply in_or_app; auto. Qed.
Lemma sorted_filter p l : StronglySorted lt (map e_id l) -> StronglySorted lt (map e_id (filter p l)).
Proof.
  induction l as [|e l IH]; cbn; intros H; [constructor|]. apply StronglySorted_inv in H as [A B]. destruct (p e); cbn; [|auto]. constructor; [auto|].
  rewrite Forall_forall in *. intros id Hid. apply in_map_iff in Hid as (e' & <- & He). apply filter_In in He as [He _]. apply B. now apply in_map.
Qed.
Lemma sorted_firstn n l : StronglySorted lt (map e_id l) -> StronglySorted lt (map e_id (firstn n l)).
Proof.
  revert n. induction l as [|e l IH]; intros [|n] H; cbn; try constructor; apply StronglySorted_inv in H as [A B]; [auto|].
  rewrite Forall_forall in *. intros id Hid. apply B. apply in_map_iff in Hid as (e' & <- & He). apply in_map. rewrite <- (firstn_skipn n l). apply in_or_app. now left.
Qed.
Lemma sorted_app l l' : StronglySorted lt l -> StronglySorted lt l' -> (forall a b, In a l -> In b l' -> a < b) -> StronglySorted lt (l ++ l').
Proof.
  induction l as [|a l IH]; cbn; intros H H' Hb; [exact H'|]. apply StronglySorted_inv in H as [A B]. constructor; [apply IH; auto|]. rewrite Forall_forall in *. intros b Hin. apply in_app_or in Hin as [Hin|Hin]; auto.
Qed.
Lemma okst_mono evs ev n n' t st : n <= n' -> okst evs n t st -> okst (evs ++ ev) n' t st.
Proof. intros Hn (A & B & C & D). split; [exact A|]. split; [|split; [lia|exact D]]. intros e He. destruct (B _ He) as [E F]. split; [exact E|]. now apply added_app. Qed.
Lemma last_id_in d l : l <> [] -> In (last_id d l) (map e_id l).
Proof. unfold last_id. induction l as [|e l IH]; [easy|]. intros _. destruct l as [|e' l]; [now left|]. right. apply IH. discriminate. Qed.
Lemma last_id_max d l : StronglySorted lt (map e_id l) -> forall id, In id (map e_id l) -> id <= last_id d l.
Proof.
  unfold last_id. induction l as [|e l IH]; cbn [map]; intros H id Hid; [easy|]. apply StronglySorted_inv in H as [A B]. rewrite Forall_forall in B. destruct l as [|e' l].
  - destruct Hid as [<-|[]]. apply Nat.le_refl.
  - change (List.last (e_id e :: map e_id (e' :: l)) d) with (List.last (map e_id (e' :: l)) d). destruct Hid as [<-|Hid]; [|now apply IH]. apply Nat.lt_le_incl. apply B. apply (last_id_in d (e' :: l)). discriminate.
Qed.
Lemma read_inv t ch c m es m' : xreadgroup t ch c m = Some (es, m') -> exists s g g', aget t m = Some s /\ aget ch (s_grps s) = Some g /\ es = firstn 10 (fresh s g) /\ g_last g' = last_id (g_last g) es /\ m' = set_group t ch s g' m.
Proof. unfold xreadgroup. destruct (find_group t ch m) as [[s g]|] eqn:E; [|discriminate]. intros [= <- <-]. apply find_group_inv in E as [A B]. exists s, g. eexists. split; [exact A|]. split; [exact B|]. split; [reflexivity|]. split; [|reflexivity]. reflexivity. Qed.
Lemma in_fresh s g n e : In e (firstn n (fresh s g)) -> In e (s_ents s) /\ g_last g < e_id e.
Proof. intros H. assert (X : In e (fresh s g)) by (rewrite <- (firstn_skipn n (fresh s g)); apply in_or_app; now left). apply filter_In in X as [A B]. apply Nat.ltb_lt in B. auto. Qed.
Lemma create_inv t ch md m m' : xgroup_create t ch md m = Some m' -> m' = m \/ exists s g, aget t m = Some s /\ aget ch (s_grps s) = None /\ m' = set_group t ch s g m /\ (g_last g = s_last s \/ md = Begin /\ g_last g = 0).
Proof.
  unfold xgroup_create. destruct (aget t m) as [s|] eqn:E; [|discriminate]. destruct (aget ch (s_grps s)) eqn:E2; intros [= <-]; [now left|right]. exists s. eexists. split; [reflexivity|]. split; [exact E2|]. split; [reflexivity|]. cbn. destruct md; auto.
Qed.

Lemma okst_group evs n t st ch g : okst evs n t st -> g_last g <= s_last st -> okst evs n t (set_grps st (aset ch g (s_grps st))).
Proof. intros (A & B & C & D) Hg. split; [exact A|]. split; [exact B|]. split; [exact C|]. cbn. intros ch' g'. rewrite aget_aset. destruct (String.eqb ch' ch); [intros [= <-]; exact Hg|apply D]. Qed.
Lemma okst_weaker evs n t st st' : okst evs n t st -> s_last st' = s_last st -> (exists p, s_ents st' = filter p (s_ents st)) ->
  (forall ch g', aget ch (s_grps st') = Some g' -> exists g, aget ch (s_grps st) = Some g /\ g_last g' = g_last g) -> okst evs n t st'.
Proof.
  intros (A & B & C & D) H1 [p H2] H3. split; [rewrite H2; now apply sorted_filter|]. split; [|split; [lia|]].
  - intros e He. rewrite H2 in He. apply filter_In in He as [He _]. rewrite H1. auto.
  - intros ch g' Hg. destruct (H3 _ _ Hg) as (g & E & F). rewrite F, H1. eauto.
Qed.

Lemma okS_reach sched s evs : run step init sched = Some (s, evs) -> okS evs s.
Proof.
  intros H. revert sched s evs H. apply (run_inv step init (fun sched evs s => okS evs s)).
  { split; [discriminate|]. split; [constructor|]. split; [easy|]. split; [cbn; lia|easy]. }
  intros sched evs s l s' ev Hr (I1 & I2 & I3 & I4 & I5) H. pose proof (step_delta _ _ _ _ H) as [Hw Hn Hp _|t w body tl Hs Hn Hp He|t ch md r -> Hc Hn Hp|c x es Hx Hc Hn He].
  - split; [|split; [|split; [|split]]].
    + intros t st' Hst. destruct (Hw _ _ Hst) as (st & A & B & C & D). rewrite Hn. eapply okst_weaker; [eapply okst_mono; [apply Nat.le_refl|exact (I1 _ _ A)]|exact B|exact C|exact D].
    + now rewrite adds_app, (adds_plain ev), app_nil_r.
    + rewrite adds_app, (adds_plain ev), app_nil_r, Hn; assumption.
    + lia.
    + intros c t ch e Hin. apply in_app_or in Hin as [Hin|Hin]; [eapply added_app, I5, Hin|]. rewrite Forall_forall in Hp. destruct (Hp _ Hin).
  - assert (Hadd : added t (mkE (next s) w body) (evs ++ ev)).
    { destruct He as [->|(-> & -> & ->)]; [left|right; split; [|split; reflexivity]]; apply in_or_app; right; now left. }
    assert (Hads : adds ev = [next s]) by (destruct He as [->|(-> & -> & ->)]; cbn; fold (adds tl); now rewrite (adds_plain tl Hp)).
    assert (Hrd : forall c t ch e, ~ In (ERead c t ch e) ev).
    { intros c t0 ch0 e0 Hin. rewrite Forall_forall in Hp. destruct He as [->|(-> & _)]; (destruct Hin as [X|Hin]; [discriminate X|exact (Hp _ Hin)]). }
    split; [|split; [|split; [|split]]].
    + intros t' st' Hst. rewrite Hs in Hst. unfold xadd in Hst. rewrite aget_aset in Hst. destruct (String.eqb_spec t' t) as [->|Hne].
      * injection Hst as <-. assert (Hok : okst (evs ++ ev) (next s) t (get_or_new t (strs s))).
        { unfold get_or_new. destruct (aget t (strs s)) as [st|] eqn:E; [eapply okst_mono; [apply Nat.le_refl|exact (I1 _ _ E)]|]. split; [constructor|]. split; [intros e []|]. split; [exact I4|discriminate]. }
        destruct Hok as (A & B & C & D). cbn. split; [|split; [|split; [cbn; lia|]]]; cbn.
        -- rewrite map_app. apply sorted_app; [exact A|repeat constructor|]. intros a b Ha [<-|[]]. cbn. apply in_map_iff in Ha as (e & <- & Ha). destruct (B _ Ha). lia.
        -- intros e Hin. apply in_app_or in Hin as [Hin|[<-|[]]]; [|cbn; auto]. destruct (B _ Hin). split; [lia|assumption].
        -- intros ch g Hg. specialize (D _ _ Hg). lia.
      * eapply okst_mono; [|exact (I1 _ _ Hst)]. lia.
    + rewrite adds_app, Hads. apply sorted_app; [exact I2|repeat constructor|]. intros a b Ha [<-|[]]. auto.
    + rewrite adds_app, Hads, Hn. intros id Hin. apply in_app_or in Hin as [Hin|[<-|[]]]; [|lia]. specialize (I3 _ Hin). lia.
    + lia.
    + intros c t0 ch0 e0 Hin. apply in_app_or in Hin as [Hin|Hin]; [eapply added_app, I5, Hin|]. destruct (Hrd _ _ _ _ Hin).
  - split; [|split; [|split; [|split]]].
    + intros t' st' Hst. rewrite Hn. apply create_inv in Hc as [Hc|(st & g & A & B & C & D)].
      * rewrite Hc in Hst. eapply okst_mono; [apply Nat.le_refl|exact (I1 _ _ Hst)].
      * rewrite C in Hst. unfold set_group in Hst. rewrite aget_aset in Hst. destruct (String.eqb_spec t' t) as [->|Hne]; [|eapply okst_mono; [apply Nat.le_refl|exact (I1 _ _ Hst)]].
        injection Hst as <-. apply okst_group; [eapply okst_mono; [apply Nat.le_refl|exact (I1 _ _ A)]|]. lia.
    + now rewrite adds_app, (adds_plain ev), app_nil_r.
    + rewrite adds_app, (adds_plain ev), app_nil_r, Hn; assumption.
    + lia.
    + intros c t0 ch0 e Hin. apply in_app_or in Hin as [Hin|Hin]; [eapply added_app, I5, Hin|]. rewrite Forall_forall in Hp. destruct (Hp _ Hin).
  - apply read_inv in Hc as (st & g & g' & A & B & C & D & F).
    assert (Hads : adds ev = []) by (destruct He as [->| ->]; clear; induction es; auto).
    assert (Hes : forall e, In e es -> In e (s_ents st) /\ g_last g < e_id e) by (intros e; rewrite C; apply in_fresh).
    destruct (I1 _ _ A) as (J1 & J2 & J3 & J4).
    split; [|split; [|split; [|split]]].
    + intros t' st' Hst. rewrite Hn, F in *. unfold set_group in Hst. rewrite aget_aset in Hst. destruct (String.eqb_spec t' (c_top x)) as [->|Hne]; [|eapply okst_mono; [apply Nat.le_refl|exact (I1 _ _ Hst)]].
      injection Hst as <-. apply okst_group; [eapply okst_mono; [apply Nat.le_refl|exact (I1 _ _ A)]|]. rewrite D. destruct es as [|e0 es0]; [exact (J4 _ _ B)|].
      assert (X : In (last_id (g_last g) (e0 :: es0)) (map e_id (e0 :: es0))) by (apply last_id_in; discriminate). apply in_map_iff in X as (e & <- & X). apply Hes in X as [X _]. now apply J2.
    + now rewrite adds_app, Hads, app_nil_r.
    + rewrite adds_app, Hads, app_nil_r, Hn. assumption.
    + lia.
    + intros c' t0 ch0 e Hin. apply in_app_or in Hin as [Hin|Hin]; [eapply added_app, I5, Hin|]. destruct He as [->| ->]; apply in_map_iff in Hin as (e' & X & Hin); [|discriminate]. injection X as <- <- <- ->. apply added_app. apply Hes in Hin as [Hin _]. now apply J2.
Qed.

(** ** A channel hands out its entries in order *)
Definition okH (t ch : string) (H : list nat) (s : state) : Prop :=
  StronglySorted lt H /\ forall id, In id H -> id < next s /\ forall st, aget t (strs s) = Some st -> id <= s_last st /\ forall g, aget ch (s_grps st) = Some g -> id <= g_last g.
Lemma handed_map t ch c t' ch' es (b : bool) : handed t ch (map (if b then ERead c t' ch' else ELost c t' ch') es) = if String.eqb t' t && String.eqb ch' ch then map e_id es else [].
Proof. destruct b; induction es as [|e es IH]; cbn; try (now destruct (_ && _)); fold (handed t ch (map (ERead c t' ch') es)) in *; fold (handed t ch (map (ELost c t' ch') es)) in *; destruct (String.eqb t' t && String.eqb ch' ch); cbn; try f_equal; assumption. Qed.

Lemma okH_reach t0 ch0 sched s evs : run step init sched = Some (s, evs) -> Forall (latest t0 ch0) sched -> okH t0 ch0 (handed t0 ch0 evs) s.
Proof.
  intros H. revert sched s evs H. apply (run_inv step init (fun sched evs s => Forall (latest t0 ch0) sched -> okH t0 ch0 (handed t0 ch0 evs) s)).
  { intros _. split; [constructor|intros id []]. }
  intros sched evs s l s' ev Hr IH H Hl. apply Forall_app in Hl as [Hl Hl1]. inversion Hl1 as [|? ? Hlat _]; subst. destruct (IH Hl) as [I1 I2]. clear IH.
  destruct (okS_reach _ _ _ Hr) as (O1 & O2 & O3 & O4 & O5). rewrite handed_app.
  pose proof (step_delta _ _ _ _ H) as [Hw Hn Hp _|t w body tl Hs Hn Hp He|t ch md r -> Hc Hn Hp|c x es Hx Hc Hn He].
  - rewrite (handed_plain _ _ ev Hp), app_nil_r. split; [exact I1|]. intros id Hid. destruct (I2 _ Hid) as [A B]. split; [lia|]. intros st' Hst. destruct (Hw _ _ Hst) as (st & C & D & _ & E). destruct (B _ C) as [F G]. rewrite D. split; [exact F|].
    intros g' Hg. destruct (E _ _ Hg) as (g & X & ->). auto.
  - assert (Hh : handed t0 ch0 ev = []) by (destruct He as [->|(-> & _)]; cbn; apply handed_plain, Hp). rewrite Hh, app_nil_r. split; [exact I1|]. intros id Hid. destruct (I2 _ Hid) as [A B]. split; [lia|].
    intros st' Hst. rewrite Hs in Hst. unfold xadd in Hst. rewrite aget_aset in Hst. destruct (String.eqb_spec t0 t) as [->|Hne]; [|auto]. injection Hst as <-. cbn. split; [lia|]. intros g. unfold get_or_new. destruct (aget t (strs s)) as [st|] eqn:E; [|discriminate]. intros Hg. now apply (B _ eq_refl).
  - rewrite (handed_plain _ _ ev Hp), app_nil_r. split; [exact I1|]. intros id Hid. destruct (I2 _ Hid) as [A B]. split; [lia|]. intros st' Hst. apply create_inv in Hc as [Hc|(st & g & X & Y & Z & W)]; [rewrite Hc in Hst; auto|].
    rewrite Z in Hst. unfold set_group in Hst. rewrite aget_aset in Hst. destruct (String.eqb_spec t0 t) as [->|Hne]; [|auto]. injection Hst as <-. destruct (B _ X) as [B1 B2]. cbn. split; [exact B1|]. intros g'. rewrite aget_aset. destruct (String.eqb_spec ch0 ch) as [->|Hne]; [|auto]. intros [= <-].
    destruct W as [->|[-> _]]; [exact B1|]. destruct Hlat. auto.
  - assert (Hh : handed t0 ch0 ev = if String.eqb (c_top x) t0 && String.eqb (c_ch x) ch0 then map e_id es else []).
    { destruct He as [->| ->]; [exact (handed_map t0 ch0 c (c_top x) (c_ch x) es true)|exact (handed_map t0 ch0 c (c_top x) (c_ch x) es false)]. } rewrite Hh.
    apply read_inv in Hc as (st & g & g' & A & B & C & D & F). destruct (O1 _ _ A) as (J1 & J2 & J3 & J4).
    assert (Hes : forall e, In e es -> In e (s_ents st) /\ g_last g < e_id e) by (intros e; rewrite C; apply in_fresh).
    assert (Hso : StronglySorted lt (map e_id es)) by (rewrite C; apply sorted_firstn, sorted_filter, J1).
    assert (Hge : g_last g <= g_last g').
    { rewrite D. destruct es as [|e0 es0]; [apply Nat.le_refl|]. assert (X : In (last_id (g_last g) (e0 :: es0)) (map e_id (e0 :: es0))) by (apply last_id_in; discriminate). apply in_map_iff in X as (e & <- & X). apply Hes in X as [_ X]. lia. }
    destruct (String.eqb_spec (c_top x) t0) as [Et|Et]; cbn [andb]; [destruct (String.eqb_spec (c_ch x) ch0) as [Ec|Ec]|].
    + split.
      * apply sorted_app; [exact I1|exact Hso|]. intros a b Ha Hb. apply in_map_iff in Hb as (e & <- & Hb). apply Hes in Hb as [_ Hb]. destruct (I2 _ Ha) as [_ X]. rewrite <- Et, <- Ec in X. apply (X _ A) in B. lia.
      * intros id Hid. assert (Hle : id <= s_last st /\ id <= g_last g').
        { apply in_app_or in Hid as [Hid|Hid].
          - destruct (I2 _ Hid) as [_ X]. rewrite <- Et, <- Ec in X. destruct (X _ A) as [X1 X2]. specialize (X2 _ B). lia.
          - split; [|rewrite D; now apply last_id_max]. apply in_map_iff in Hid as (e & <- & Hid). apply Hes in Hid as [Hid _]. now apply J2. }
        split; [lia|]. intros st'. rewrite F, Et. unfold set_group. rewrite aget_aset, String.eqb_refl. intros [= <-]. cbn. split; [apply Hle|]. intros g0. rewrite Ec, aget_aset, String.eqb_refl. intros [= <-]. apply Hle.
    + rewrite app_nil_r. split; [exact I1|]. intros id Hid. destruct (I2 _ Hid) as [X Y]. split; [lia|]. intros st'. rewrite F, Et. unfold set_group. rewrite aget_aset, String.eqb_refl. intros [= <-]. cbn. rewrite <- Et in Y. destruct (Y _ A) as [Y1 Y2]. split; [exact Y1|]. intros g0. rewrite aget_aset. apply String.eqb_neq in Ec. rewrite String.eqb_sym, Ec. apply Y2.
    + rewrite app_nil_r. split; [exact I1|]. intros id Hid. destruct (I2 _ Hid) as [X Y]. split; [lia|]. intros st'. rewrite F. unfold set_group. rewrite aget_aset. apply String.eqb_neq in Et. rewrite String.eqb_sym, Et. apply Y.
Qed.

(** ** Consumers *)
Definition opt {A} (o : option A) : list A := match o with Some a => [a] | None => [] end.
Definition content (b : UnboundedModel.state entry) : list entry := opt (UnboundedModel.chan b) ++ UnboundedModel.backlog b ++ opt (UnboundedModel.holder b).
Definition inhand (y : handler) : list entry := match h_pc y with HLoad e | HPush e => [e] | _ => [] end.
Definition acks (y : handler) : list entry := match h_pc y with HAck e | HDel e => [e] | _ => [] end.
(** Read and not yet pushed, in the order of reading if there is one handler. *)
Definition infl (x : consumer) : list entry := flat_map inhand (c_hs x) ++ content (c_buf x) ++ c_rd x.
(** The buffer does not stall. *)
Definition moving (x : consumer) : Prop := UnboundedModel.backlog (c_buf x) <> [] \/ UnboundedModel.holder (c_buf x) <> None ->
  UnboundedModel.chan (c_buf x) <> None \/ exists h y e, nth_error (c_hs x) h = Some y /\ h_pc y = HLoad e.
Definition ctr (x x' : consumer) (rd ps : list entry) : Prop :=
  Permutation (ps ++ infl x') (infl x ++ rd) /\ (List.length (c_hs x') <= 1 -> ps ++ infl x' = infl x ++ rd) /\
  (forall e, In e (flat_map acks (c_hs x')) -> In e (flat_map acks (c_hs x)) \/ In e ps) /\ (moving x -> moving x').
Definition ofc (c : nat) (x : consumer) (z : event) : Prop :=
  match z with
  | ERead d t ch _ | EPush d t ch _ _ => d = c /\ t = c_top x /\ ch = c_ch x
  | EDel d t ch id => d = c /\ t = c_top x /\ ch = c_ch x /\ exists e, In e (flat_map acks (c_hs x)) /\ e_id e = id
  | ESub _ _ _ => False
  | _ => True
  end.
Definition still (z : event) : Prop := match z with ERead _ _ _ _ | EPush _ _ _ _ _ | EDel _ _ _ _ | ESub _ _ _ => False | _ => True end.
Inductive cdelta (s : state) (l : label) (s' : state) (ev : list event) : Prop :=
| KSame : cons s' = cons s -> Forall still ev -> (forall c, arrivals c [l] = 0) -> cdelta s l s' ev
| KNew t ch : cons s' = cons s ++ [mkC t ch true [] UnboundedModel.init []] -> ev = [ESub (List.length (cons s)) t ch] -> (forall c, arrivals c [l] = 0) -> cdelta s l s' ev
| KUpd c x x' : nth_error (cons s) c = Some x -> c_up x = true -> cons s' = upd (cons s) c x' -> c_top x' = c_top x -> c_ch x' = c_ch x ->
    ctr x x' (rds c ev) (psh c ev) -> Forall (ofc c x) ev -> List.length (c_hs x') = arrivals c [l] + List.length (c_hs x) -> (forall d, d <> c -> arrivals d [l] = 0) -> cdelta s l s' ev.

Lemma fm_upd {A B} (f : A -> list B) l i y : nth_error l i = Some y -> exists a b, flat_map f l = a ++ f y ++ b /\ (forall y', flat_map f (upd l i y') = a ++ f y' ++ b) /\ (List.length l <= 1 -> a = [] /\ b = []).
Proof.
  revert i. induction l as [|z l IH]; intros [|i] H; try discriminate; cbn in H.
  - injection H as ->. exists [], (flat_map f l). cbn. split; [reflexivity|]. split; [reflexivity|]. intros Hl. split; [reflexivity|]. destruct l; [reflexivity|cbn in Hl; lia].
  - destruct (IH _ H) as (a & b & H1 & H2 & H3). exists (f z ++ a), b. cbn. rewrite H1, <- app_assoc. split; [reflexivity|]. split; [intros y'; now rewrite H2, <- app_assoc|]. intros Hl. exfalso. destruct l; [destruct i; discriminate|cbn in Hl; lia].
Qed.
Lemma content_put b e b' ev : UnboundedModel.holder b = None -> UnboundedModel.step b (UnboundedModel.LPut e) = Some (b', ev) -> content b' = content b ++ [e] /\
  (UnboundedModel.backlog b' <> [] \/ UnboundedModel.holder b' <> None -> UnboundedModel.backlog b <> [] /\ UnboundedModel.chan b' = UnboundedModel.chan b \/ UnboundedModel.chan b' <> None).
Proof.
  destruct b as [[k|] [|z bl] ho]; cbn; intros -> H; injection H as <- <-; unfold content; cbn; rewrite ?app_nil_r; split; try reflexivity; try (intros _; right; discriminate); try (intros [X|X]; now elim X); try (intros _; left; split; [discriminate|reflexivity]).
Qed.
Lemma content_append b b' ev : UnboundedModel.step b UnboundedModel.LAppend = Some (b', ev) -> content b' = content b /\ UnboundedModel.holder b <> None /\ UnboundedModel.chan b' = UnboundedModel.chan b.
Proof. destruct b as [k bl [v|]]; cbn; intros H; [|discriminate]. injection H as <- <-. unfold content. cbn. rewrite app_nil_r. split; [reflexivity|]. split; [discriminate|reflexivity]. Qed.
Lemma content_recv b h b' ev : UnboundedModel.step b (UnboundedModel.LRecv h) = Some (b', ev) -> exists e, ev = [UnboundedModel.ERecv h e] /\ content b = e :: content b'.
Proof. destruct b as [[k|] bl ho]; cbn; intros H; [|discriminate]. injection H as <- <-. eauto. Qed.
Lemma content_load b h b' ev : UnboundedModel.step b (UnboundedModel.LLoad h) = Some (b', ev) -> content b' = content b /\ UnboundedModel.holder b' = None /\ (UnboundedModel.backlog b' <> [] -> UnboundedModel.chan b' <> None).
Proof. destruct b as [[k|] [|v bl] [w|]]; cbn; intros H; try discriminate; injection H as <- <-; unfold content; cbn; (split; [reflexivity|]); split; try reflexivity; try discriminate; intros X; now elim X. Qed.

Lemma ctr_id x x' : infl x' = infl x -> (forall e, In e (flat_map acks (c_hs x')) -> In e (flat_map acks (c_hs x))) -> (moving x -> moving x') -> ctr x x' [] [].
Proof. intros H1 H2 H3. split; [rewrite app_nil_r, H1; apply Permutation_refl|]. split; [intros _; now rewrite app_nil_r, H1|]. split; [auto|exact H3]. Qed.
Lemma arr_other c l : match l with LArrive _ _ => False | _ => True end -> arrivals c [l] = 0.
Proof. destruct l; intros []; reflexivity. Qed.
Lemma rds_map c t ch es : rds c (map (ERead c t ch) es) = es.
Proof. unfold rds. induction es as [|e es IH]; cbn; [reflexivity|]. rewrite Nat.eqb_refl. cbn. now f_equal. Qed.
Lemma psh_map c t ch es : psh c (map (ERead c t ch) es) = [].
Proof. unfold psh. induction es; cbn; auto. Qed.
Lemma lt_of_nth {A} (l : list A) i x : nth_error l i = Some x -> i < List.length l.
Proof. intros H. apply nth_error_Some. congruence. Qed.

Lemma thr_cons s i p r s' ev : thr_step s i p r = Some (s', ev) -> cons s' = cons s /\ Forall still ev.
Proof. unfold thr_step, done, fails. intros H. destruct r; red_step H; injection H as <- <-; (split; [reflexivity|pl]). Qed.

Lemma hand_cdelta s c x h y r s' ev : nth_error (cons s) c = Some x -> c_up x = true -> nth_error (c_hs x) h = Some y -> hand_step s c x h y r = Some (s', ev) -> cdelta s (LHand c h r) s' ev.
Proof.
  intros Hx Hu Hy H. destruct (fm_upd inhand _ _ _ Hy) as (a & b & Ha & Hb & Hl). destruct (fm_upd acks _ _ _ Hy) as (a' & b' & Ha' & Hb' & _). pose proof (lt_of_nth _ _ _ Hy) as Hlt. unfold hand_step in H.
  assert (Harr : forall d, arrivals d [LHand c h r] = 0) by reflexivity.
  pose proof (eq_refl (inhand y)) as Yi; unfold inhand at 2 in Yi. pose proof (eq_refl (acks y)) as Ya; unfold acks at 2 in Ya.
  destruct (h_pc y) as [|e|e|e|e] eqn:Ep; rewrite Yi in *; rewrite Ya in *.
  - destruct (UnboundedModel.step (c_buf x) (UnboundedModel.LRecv h)) as [[bb eb]|] eqn:Eb; [|discriminate]. destruct (content_recv _ _ _ _ Eb) as (e & -> & Hc). injection H as <- <-.
    eapply KUpd; [exact Hx|exact Hu|reflexivity|reflexivity|reflexivity| |constructor|cbn; now rewrite upd_length|reflexivity].
    assert (Hi : infl (set_hs x bb (upd (c_hs x) h (mkH (h_q y) (HLoad e)))) = (a ++ [e] ++ b) ++ content bb ++ c_rd x) by (unfold infl; cbn [c_hs set_hs c_buf c_rd]; now rewrite Hb).
    assert (Hi0 : infl x = (a ++ b) ++ (e :: content bb) ++ c_rd x) by (unfold infl; now rewrite Ha, Hc).
    split; [|split; [|split]].
    + cbn [rds psh flat_map app]. rewrite app_nil_r, Hi, Hi0. cbn. rewrite <- !app_assoc. apply Permutation_app_head. cbn. apply Permutation_middle.
    + cbn [c_hs set_hs]. rewrite upd_length. intros X. destruct (Hl X) as [-> ->]. cbn [rds psh flat_map app]. rewrite app_nil_r, Hi, Hi0. reflexivity.
    + cbn [c_hs set_hs]. intros e' He. left. rewrite Ha'. rewrite Hb' in He. exact He.
    + intros _ _. right. exists h. eexists. exists e. cbn [c_hs set_hs]. split; [now apply nth_upd_eq|reflexivity].
  - destruct (UnboundedModel.step (c_buf x) (UnboundedModel.LLoad h)) as [[bb eb]|] eqn:Eb; [|discriminate]. destruct (content_load _ _ _ _ Eb) as (Hc & Hh & Hk). injection H as <- <-.
    eapply KUpd; [exact Hx|exact Hu|reflexivity|reflexivity|reflexivity| |constructor|cbn; now rewrite upd_length|reflexivity].
    apply ctr_id.
    + unfold infl. cbn [c_hs set_hs c_buf c_rd]. now rewrite Hb, Ha, Hc.
    + cbn [c_hs set_hs]. intros e' He. rewrite Ha'. rewrite Hb' in He. exact He.
    + intros _ [X|X]; cbn [c_buf set_hs] in *; [left; auto|congruence].
  - injection H as <- <-.
    eapply KUpd; [exact Hx|exact Hu|reflexivity|reflexivity|reflexivity| |repeat constructor|cbn; now rewrite upd_length|reflexivity].
    assert (Hi : infl (set_hs x (c_buf x) (upd (c_hs x) h (mkH (h_q y) (HAck e)))) = (a ++ b) ++ content (c_buf x) ++ c_rd x) by (unfold infl; cbn [c_hs set_hs c_buf c_rd]; now rewrite Hb).
    assert (Hi0 : infl x = (a ++ [e] ++ b) ++ content (c_buf x) ++ c_rd x) by (unfold infl; now rewrite Ha).
    assert (Hp : psh c [EPush c (c_top x) (c_ch x) (h_q y) e] = [e]) by (cbn; now rewrite Nat.eqb_refl).
    split; [|split; [|split]]; rewrite ?Hp.
    + cbn [rds flat_map app]. rewrite app_nil_r, Hi, Hi0. cbn. rewrite <- !app_assoc. cbn. apply Permutation_middle.
    + cbn [c_hs set_hs]. rewrite upd_length. intros X. destruct (Hl X) as [-> ->]. cbn [rds flat_map app]. rewrite app_nil_r, Hi, Hi0. reflexivity.
    + cbn [c_hs set_hs]. intros e' He. rewrite Hb' in He. rewrite Ha'. cbn [acks h_pc] in He. rewrite !in_app_iff in *. cbn in *. tauto.
    + intros Hm X. destruct (Hm X) as [Y|(h2 & y2 & e2 & Y & Z)]; [now left|]. right. cbn [c_hs set_hs]. exists h2, y2, e2. split; [|exact Z]. rewrite nth_upd_neq; [exact Y|]. intros <-. congruence.
  - assert (K : forall p m, (p = HRecv \/ p = HDel e) -> cdelta s (LHand c h r) (set_strs (set_cons s (upd (cons s) c (set_hs x (c_buf x) (upd (c_hs x) h (mkH (h_q y) p))))) m) []).
    { intros p m Hp. eapply KUpd; [exact Hx|exact Hu|reflexivity|reflexivity|reflexivity| |constructor|cbn; now rewrite upd_length|reflexivity]. apply ctr_id.
      - unfold infl. cbn [c_hs set_hs c_buf c_rd]. rewrite Hb, Ha. destruct Hp as [->| ->]; reflexivity.
      - cbn [c_hs set_hs]. intros e' He. rewrite Ha'. rewrite Hb' in He. unfold acks at 1 in He. cbn [h_pc] in He. rewrite !in_app_iff in *. destruct Hp as [->| ->]; cbn in *; tauto.
      - intros Hm X. destruct (Hm X) as [Y|(h2 & y2 & e2 & Y & Z)]; [now left|]. right. cbn [c_hs set_hs]. exists h2, y2, e2. split; [|exact Z]. rewrite nth_upd_neq; [exact Y|]. intros <-. congruence. }
    destruct r; injection H as <- <-; [apply K; now right| |apply K; now right]. exact (K HRecv (strs s) (or_introl eq_refl)).
  - assert (K : forall m ev, ev = [] \/ ev = [EDel c (c_top x) (c_ch x) (e_id e)] -> cdelta s (LHand c h r) (set_strs (set_cons s (upd (cons s) c (set_hs x (c_buf x) (upd (c_hs x) h (mkH (h_q y) HRecv))))) m) ev).
    { intros m ev0 Hev. assert (X : rds c ev0 = [] /\ psh c ev0 = []) by (destruct Hev as [->| ->]; split; reflexivity). destruct X as [X1 X2].
      eapply KUpd; [exact Hx|exact Hu|reflexivity|reflexivity|reflexivity| | |cbn; now rewrite upd_length|reflexivity].
      - rewrite X1, X2. apply ctr_id.
        + unfold infl. cbn [c_hs set_hs c_buf c_rd]. now rewrite Hb, Ha.
        + cbn [c_hs set_hs]. intros e' He. rewrite Ha'. rewrite Hb' in He. unfold acks at 1 in He. cbn [h_pc] in He. rewrite !in_app_iff in *. cbn in *. tauto.
        + intros Hm X. destruct (Hm X) as [Y|(h2 & y2 & e2 & Y & Z)]; [now left|]. right. cbn [c_hs set_hs]. exists h2, y2, e2. split; [|exact Z]. rewrite nth_upd_neq; [exact Y|]. intros <-. congruence.
      - destruct Hev as [->| ->]; [constructor|]. constructor; [|constructor]. cbn. split; [reflexivity|]. split; [reflexivity|]. split; [reflexivity|]. exists e. split; [|reflexivity]. rewrite Ha'. apply in_or_app. right. now left. }
    destruct r; cbn [done] in H; injection H as <- <-; apply K; auto.
Qed.

Lemma step_cdelta s l s' ev : step s l = Some (s', ev) -> cdelta s l s' ev.
Proof.
  intros H. destruct l as [t ttl r|t w body r|t ch md r|c q|c r|c|c h r|c r|t r|i r|c|t]; cbn [step] in H.
  - red_step H; injection H as <- <-; (apply KSame; [reflexivity|pl|reflexivity]).
  - red_step H; [injection H as <- <-; apply KSame; [reflexivity|pl|reflexivity]|]. destruct r; cbn [done fails app] in H; injection H as <- <-; (apply KSame; [reflexivity|pl|reflexivity]).
  - destruct r, (xgroup_create t ch md (strs s)) as [m|]; injection H as <- <-; try (apply KSame; [reflexivity|pl|reflexivity]). eapply KNew; [reflexivity|reflexivity|reflexivity].
  - destruct (nth_error (cons s) c) as [x|] eqn:Ex; [|discriminate]. destruct (c_up x) eqn:Eu; [|discriminate]. cbn [negb] in H. injection H as <- <-.
    eapply KUpd; [exact Ex|exact Eu|reflexivity|reflexivity|reflexivity| |constructor| |].
    + assert (X : infl (set_hs x (c_buf x) (c_hs x ++ [mkH q HRecv])) = infl x) by (unfold infl; cbn [c_hs set_hs c_buf c_rd]; rewrite flat_map_app; cbn; now rewrite app_nil_r).
      apply ctr_id; [exact X| |].
      * cbn [c_hs set_hs]. intros e. rewrite flat_map_app. cbn. now rewrite app_nil_r.
      * intros Hm Y. destruct (Hm Y) as [Z|(h & y & e & Z & W)]; [now left|right]. exists h, y, e. cbn [c_hs set_hs]. split; [|exact W]. rewrite nth_error_app1; [exact Z|]. now apply lt_of_nth in Z.
    + cbn. rewrite app_length, Nat.eqb_refl. cbn. lia.
    + intros d Hd. cbn. apply Nat.neq_sym, Nat.eqb_neq in Hd. now rewrite Hd.
  - destruct (nth_error (cons s) c) as [x|] eqn:Ex; [|discriminate]. destruct (c_up x) eqn:Eu; [|discriminate]. cbn [negb] in H. destruct (c_rd x) eqn:Er; [|discriminate]. destruct (UnboundedModel.holder (c_buf x)) eqn:Eh; [destruct r; discriminate|].
    destruct r, (xreadgroup (c_top x) (c_ch x) c (strs s)) as [[es m]|] eqn:E; injection H as <- <-; try (apply KSame; [reflexivity|solve [pl]|reflexivity]).
    + eapply KUpd; [exact Ex|exact Eu|reflexivity|reflexivity|reflexivity| | |reflexivity|reflexivity].
      * rewrite rds_map, psh_map. assert (X : infl (set_buf x es (c_buf x)) = infl x ++ es) by (unfold infl; cbn [c_hs set_buf c_buf c_rd]; now rewrite Er, app_nil_r, <- app_assoc).
        split; [rewrite app_nil_l, X; apply Permutation_refl|]. split; [intros _; rewrite app_nil_l; exact X|]. split; [auto|]. intros Hm. exact Hm.
      * apply Forall_forall. intros z Hz. apply in_map_iff in Hz as (e & <- & _). cbn. auto.
    + apply KSame; [reflexivity| |reflexivity]. apply Forall_forall. intros z Hz. apply in_map_iff in Hz as (e & <- & _). exact I.
  - destruct (nth_error (cons s) c) as [x|] eqn:Ex; [|discriminate]. destruct (c_up x) eqn:Eu; [|discriminate]. cbn [negb] in H. destruct (UnboundedModel.holder (c_buf x)) as [v|] eqn:Eh.
    + destruct (UnboundedModel.step (c_buf x) UnboundedModel.LAppend) as [[b eb]|] eqn:Eb; [|discriminate]. injection H as <- <-. destruct (content_append _ _ _ Eb) as (A & B & C).
      eapply KUpd; [exact Ex|exact Eu|reflexivity|reflexivity|reflexivity| |constructor|reflexivity|reflexivity]. apply ctr_id; [unfold infl; cbn [c_hs set_buf c_buf c_rd]; now rewrite A|auto|].
      intros Hm _. destruct (Hm (or_intror B)) as [X|X]; [left; cbn [c_buf set_buf]; congruence|now right].
    + destruct (c_rd x) as [|e es] eqn:Er; [discriminate|]. destruct (UnboundedModel.step (c_buf x) (UnboundedModel.LPut e)) as [[b eb]|] eqn:Eb; [|discriminate]. injection H as <- <-. destruct (content_put _ _ _ _ Eh Eb) as (A & B).
      eapply KUpd; [exact Ex|exact Eu|reflexivity|reflexivity|reflexivity| |constructor|reflexivity|reflexivity]. apply ctr_id; [unfold infl; cbn [c_hs set_buf c_buf c_rd]; now rewrite A, Er, <- !app_assoc|auto|].
      intros Hm X. cbn [c_buf set_buf] in X. destruct (B X) as [[Y Z]|Y]; [|now left]. destruct (Hm (or_introl Y)) as [W|W]; [left; cbn [c_buf set_buf]; congruence|now right].
  - destruct (nth_error (cons s) c) as [x|] eqn:Ex; [|discriminate]. destruct (c_up x) eqn:Eu; [|discriminate]. cbn [negb] in H. destruct (nth_error (c_hs x) h) as [y|] eqn:Ey; [|discriminate]. eapply hand_cdelta; eassumption.
  - red_step H; injection H as <- <-; (apply KSame; [reflexivity|pl|reflexivity]).
  - red_step H; injection H as <- <-; (apply KSame; [reflexivity|pl|reflexivity]).
  - destruct (nth_error (thrs s) i) as [p|] eqn:E; [|discriminate]. destruct (thr_cons _ _ _ _ _ _ H) as [A B]. apply KSame; [exact A|exact B|reflexivity].
  - destruct (nth_error (cons s) c) as [x|] eqn:Ex; [|discriminate]. destruct (c_up x) eqn:Eu; [|discriminate]. cbn [negb] in H. injection H as <- <-.
    eapply KUpd; [exact Ex|exact Eu|reflexivity|reflexivity|reflexivity| |repeat constructor|reflexivity|reflexivity]. apply ctr_id; auto.
  - red_step H. injection H as <- <-. apply KSame; [reflexivity|pl|reflexivity].
Qed.

Definition cinv (sched : list label) (evs : list event) (c : nat) (x : consumer) : Prop :=
  Permutation (psh c evs ++ infl x) (rds c evs) /\ (List.length (c_hs x) <= 1 -> psh c evs ++ infl x = rds c evs) /\
  (forall e, In e (flat_map acks (c_hs x)) -> In e (rds c evs)) /\ moving x /\ List.length (c_hs x) = arrivals c sched.
Definition eok (s : state) (evs : list event) (z : event) : Prop :=
  match z with
  | ERead c t ch _ | EPush c t ch _ _ | ESub c t ch => exists x, nth_error (cons s) c = Some x /\ c_top x = t /\ c_ch x = ch
  | EDel c t ch id => (exists x, nth_error (cons s) c = Some x /\ c_top x = t /\ c_ch x = ch) /\ exists e, In (ERead c t ch e) evs /\ e_id e = id
  | _ => True
  end.
Definition okC (sched : list label) (evs : list event) (s : state) : Prop :=
  (forall c x, nth_error (cons s) c = Some x -> cinv sched evs c x) /\ (forall c, List.length (cons s) <= c -> rds c evs = [] /\ psh c evs = [] /\ arrivals c sched = 0) /\
  (forall z, In z evs -> eok s evs z).

Lemma rds_still c ev : Forall still ev -> rds c ev = [].
Proof. induction 1 as [|[] ev H _ IH]; cbn in *; try contradiction; auto. Qed.
Lemma psh_still c ev : Forall still ev -> psh c ev = [].
Proof. induction 1 as [|[] ev H _ IH]; cbn in *; try contradiction; auto. Qed.
Lemma rds_other c d x ev : d <> c -> Forall (ofc c x) ev -> rds d ev = [].
Proof. intros Hd. induction 1 as [|[] ev H _ IH]; cbn in *; auto. destruct H as [-> _]. apply Nat.neq_sym, Nat.eqb_neq in Hd. rewrite Hd. exact IH. Qed.
Lemma psh_other c d x ev : d <> c -> Forall (ofc c x) ev -> psh d ev = [].
Proof. intros Hd. induction 1 as [|[] ev H _ IH]; cbn in *; auto. destruct H as [-> _]. apply Nat.neq_sym, Nat.eqb_neq in Hd. rewrite Hd. exact IH. Qed.
Lemma arrivals_app c a b : arrivals c (a ++ b) = arrivals c a + arrivals c b.
Proof. unfold arrivals. now rewrite filter_app, app_length. Qed.
Lemma in_rds c e evs : In e (rds c evs) -> exists t ch, In (ERead c t ch e) evs.
Proof.
  unfold rds. intros H. apply in_flat_map in H as (z & Hz & H). destruct z; try contradiction. destruct (Nat.eqb_spec c0 c) as [->|]; [|contradiction]. destruct H as [->|[]]. eauto.
Qed.
Lemma in_psh c e evs : In e (psh c evs) -> exists t ch q, In (EPush c t ch q e) evs.
Proof.
  unfold psh. intros H. apply in_flat_map in H as (z & Hz & H). destruct z; try contradiction. destruct (Nat.eqb_spec c0 c) as [->|]; [|contradiction]. destruct H as [->|[]]. eauto.
Qed.
Lemma psh_in c t ch q e evs : In (EPush c t ch q e) evs -> In e (psh c evs).
Proof. intros H. apply in_flat_map. eexists. split; [exact H|]. cbn. rewrite Nat.eqb_refl. now left. Qed.
Lemma rds_in c t ch e evs : In (ERead c t ch e) evs -> In e (rds c evs).
Proof. intros H. apply in_flat_map. eexists. split; [exact H|]. cbn. rewrite Nat.eqb_refl. now left. Qed.

Lemma eok_mono s s' evs ev z : (forall c x, nth_error (cons s) c = Some x -> exists x', nth_error (cons s') c = Some x' /\ c_top x' = c_top x /\ c_ch x' = c_ch x) -> eok s evs z -> eok s' (evs ++ ev) z.
Proof.
  intros H. assert (K : forall c t ch, (exists x, nth_error (cons s) c = Some x /\ c_top x = t /\ c_ch x = ch) -> exists x, nth_error (cons s') c = Some x /\ c_top x = t /\ c_ch x = ch).
  { intros c t ch (x & A & <- & <-). destruct (H _ _ A) as (x' & B & C & D). eauto. }
  destruct z; cbn; auto. intros [A (e & B & C)]. split; [auto|]. exists e. split; [|exact C]. apply in_or_app. now left.
Qed.

Lemma okC_reach sched s evs : run step init sched = Some (s, evs) -> okC sched evs s.
Proof.
  intros H. revert sched s evs H. apply (run_inv step init (fun sched evs s => okC sched evs s)).
  { split; [intros [|c] x; discriminate|]. split; [auto|]. easy. }
  intros sched evs s l s' ev Hr (I1 & I2 & I3) H. pose proof (step_cdelta _ _ _ _ H) as [Hc Hs Ha|t ch Hc He Ha|c x x' Hx Hu Hc Ht Hch Hct Hof Hlen Ha].
  - split; [|split].
    + intros c x Hx. rewrite Hc in Hx. destruct (I1 _ _ Hx) as (A & B & C & D & E). unfold cinv. rewrite rds_app, psh_app, (rds_still c ev Hs), (psh_still c ev Hs), !app_nil_r, arrivals_app, Ha. repeat (split; [assumption|]). lia.
    + intros c Hle. rewrite Hc in Hle. destruct (I2 _ Hle) as (A & B & C). rewrite rds_app, psh_app, (rds_still c ev Hs), (psh_still c ev Hs), A, B, arrivals_app, Ha, C. auto.
    + intros z Hz. apply in_app_or in Hz as [Hz|Hz].
      * apply (eok_mono s s' evs ev z); [|auto]. intros c x Hx. rewrite Hc. eauto.
      * rewrite Forall_forall in Hs. specialize (Hs _ Hz). destruct z; try contradiction; exact I.
  - subst ev. split; [|split].
    + intros c x Hx. rewrite Hc in Hx. unfold cinv. rewrite rds_app, psh_app, arrivals_app, Ha. cbn [rds psh flat_map app]. rewrite !app_nil_r, Nat.add_0_r. destruct (Nat.lt_ge_cases c (List.length (cons s))) as [Hl|Hl].
      * rewrite nth_error_app1 in Hx by exact Hl. exact (I1 _ _ Hx).
      * rewrite nth_error_app2 in Hx by exact Hl. destruct (c - List.length (cons s)) as [|[|k]]; try discriminate. injection Hx as <-. destruct (I2 _ Hl) as (A & B & C). rewrite A, B, C. cbn. split; [constructor|]. split; [auto|]. split; [easy|]. split; [|reflexivity].
        intros [X|X]; now elim X.
    + intros c Hle. rewrite Hc, app_length in Hle. cbn in Hle. destruct (I2 c) as (A & B & C); [lia|]. rewrite rds_app, psh_app, arrivals_app, Ha, A, B, C. auto.
    + intros z Hz. apply in_app_or in Hz as [Hz|[<-|[]]].
      * apply (eok_mono s s' evs _ z); [|auto]. intros c x Hx. rewrite Hc. exists x. split; [|auto]. rewrite nth_error_app1; [exact Hx|]. now apply lt_of_nth in Hx.
      * cbn. eexists. split; [rewrite Hc, nth_error_app2, Nat.sub_diag by lia; reflexivity|]. auto.
  - assert (Hlt := lt_of_nth _ _ _ Hx). destruct Hct as (T1 & T2 & T3 & T4). split; [|split].
    + intros d y Hy. rewrite Hc, nth_upd in Hy by exact Hlt. unfold cinv. rewrite rds_app, psh_app, arrivals_app. destruct (Nat.eqb_spec c d) as [<-|Hne].
      * injection Hy as <-. destruct (I1 _ _ Hx) as (A & B & C & D & E). split; [|split; [|split; [|split]]].
        -- rewrite <- app_assoc. etransitivity; [apply Permutation_app_head; exact T1|]. rewrite app_assoc. now apply Permutation_app_tail.
        -- intros X. rewrite <- app_assoc, (T2 X), app_assoc, B; [reflexivity|]. lia.
        -- intros e He. apply in_or_app. destruct (T3 _ He) as [Y|Y]; [left; auto|].
           assert (Z : In e (infl x ++ rds c ev)) by (eapply Permutation_in; [exact T1|]; apply in_or_app; now left). apply in_app_or in Z as [Z|Z]; [left|now right]. eapply Permutation_in; [exact A|]. apply in_or_app. now right.
        -- auto.
        -- lia.
      * destruct (I1 _ _ Hy) as (A & B & C & D & E). assert (Hne' : d <> c) by congruence. rewrite (rds_other c d x ev), (psh_other c d x ev), !app_nil_r, (Ha d) by assumption. repeat (split; [assumption|]). lia.
    + intros d Hle. rewrite Hc, upd_length in Hle. destruct (I2 _ Hle) as (A & B & C). assert (Hne : d <> c) by lia. rewrite rds_app, psh_app, arrivals_app, (rds_other c d x ev), (psh_other c d x ev), (Ha d), A, B, C by assumption. auto.
    + assert (Hk : forall d y, nth_error (cons s) d = Some y -> exists y', nth_error (cons s') d = Some y' /\ c_top y' = c_top y /\ c_ch y' = c_ch y).
      { intros d y Hy. rewrite Hc, nth_upd by exact Hlt. destruct (Nat.eqb_spec c d) as [<-|]; [|eauto]. exists x'. split; [reflexivity|]. assert (y = x) as -> by congruence. auto. }
      intros z Hz. apply in_app_or in Hz as [Hz|Hz].
      * apply (eok_mono s s' evs ev z); auto.
      * rewrite Forall_forall in Hof. specialize (Hof _ Hz). assert (K : exists y, nth_error (cons s') c = Some y /\ c_top y = c_top x /\ c_ch y = c_ch x) by (destruct (Hk _ _ Hx) as (y & ?); eauto).
        destruct z; cbn in Hof |- *; auto; try contradiction.
        -- destruct Hof as (-> & -> & ->). exact K.
        -- destruct Hof as (-> & -> & ->). exact K.
        -- destruct Hof as (-> & -> & -> & e & He & Hid). split; [exact K|]. exists e. split; [|exact Hid]. destruct (I1 _ _ Hx) as (_ & _ & C & _). destruct (in_rds _ _ _ (C _ He)) as (t & ch & Hin). apply in_or_app. left.
           destruct (I3 _ Hin) as (x0 & X1 & X2 & X3). assert (x0 = x) as -> by congruence. rewrite X2, X3. exact Hin.
Qed.

(** ** At most once *)
Definition cnt (id : nat) (l : list entry) : nat := count_occ Nat.eq_dec (map e_id l) id.
Arguments cnt : simpl never.
Definition match_c (t ch : string) (x : consumer) : bool := String.eqb (c_top x) t && String.eqb (c_ch x) ch.
Definition held (t ch : string) (id : nat) (x : consumer) : nat := if match_c t ch x then cnt id (infl x) else 0.
Fixpoint sumf {A} (f : A -> nat) (l : list A) : nat := match l with [] => 0 | a :: r => f a + sumf f r end.
Definition rcount (t ch : string) (id : nat) (evs : list event) : nat :=
  List.length (filter (fun x => match x with ERead _ t' ch' e => String.eqb t' t && String.eqb ch' ch && Nat.eqb (e_id e) id | _ => false end) evs).
Lemma sumf_upd {A} (f : A -> nat) l i x y : nth_error l i = Some x -> sumf f (upd l i y) + f x = sumf f l + f y.
Proof. revert i. induction l as [|a l IH]; intros [|i] H; try discriminate; cbn in *; [injection H as ->; lia|]. specialize (IH _ H). lia. Qed.
Lemma sumf_in {A} (f : A -> nat) l i x : nth_error l i = Some x -> f x <= sumf f l.
Proof. revert i. induction l as [|a l IH]; intros [|i] H; try discriminate; cbn in *; [injection H as ->; lia|]. specialize (IH _ H). lia. Qed.
Lemma sumf_app {A} (f : A -> nat) a b : sumf f (a ++ b) = sumf f a + sumf f b.
Proof. induction a; cbn; lia. Qed.
Lemma cnt_app id a b : cnt id (a ++ b) = cnt id a + cnt id b.
Proof. unfold cnt. now rewrite map_app, count_occ_app. Qed.
Lemma cnt_perm id a b : Permutation a b -> cnt id a = cnt id b.
Proof. intros H. unfold cnt. apply (Permutation_map e_id) in H. revert id. apply Permutation_count_occ, H. Qed.
Lemma cnt_in id e l : In e l -> e_id e = id -> 1 <= cnt id l.
Proof. intros H <-. unfold cnt. apply (proj1 (count_occ_In Nat.eq_dec _ _)). now apply in_map. Qed.
Lemma deliveries_app t ch id a b : deliveries t ch id (a ++ b) = deliveries t ch id a + deliveries t ch id b.
Proof. unfold deliveries. now rewrite filter_app, app_length. Qed.
Lemma rcount_app t ch id a b : rcount t ch id (a ++ b) = rcount t ch id a + rcount t ch id b.
Proof. unfold rcount. now rewrite filter_app, app_length. Qed.
Lemma deliveries_still t ch id ev : Forall still ev -> deliveries t ch id ev = 0.
Proof. unfold deliveries. induction 1 as [|[] ev H _ IH]; cbn in *; try contradiction; auto. Qed.
Lemma rcount_still t ch id ev : Forall still ev -> rcount t ch id ev = 0.
Proof. unfold rcount. induction 1 as [|[] ev H _ IH]; cbn in *; try contradiction; auto. Qed.
Lemma cnt_cons id e l : cnt id (e :: l) = (if Nat.eqb (e_id e) id then 1 else 0) + cnt id l.
Proof. unfold cnt. cbn. destruct (Nat.eq_dec (e_id e) id) as [->|H]; [now rewrite Nat.eqb_refl|]. apply Nat.eqb_neq in H. now rewrite H. Qed.
Lemma deliveries_of t ch id c x ev : Forall (ofc c x) ev -> deliveries t ch id ev = if match_c t ch x then cnt id (psh c ev) else 0.
Proof.
  unfold deliveries, match_c. induction 1 as [|[] ev H _ IH]; cbn in *; try (now destruct (_ && _)); try exact IH. destruct H as (-> & -> & ->). rewrite Nat.eqb_refl. cbn [app]. rewrite cnt_cons. fold (psh c ev).
  destruct (String.eqb (c_top x) t && String.eqb (c_ch x) ch); cbn [andb]; [|exact IH]. destruct (Nat.eqb (e_id e) id); cbn; lia.
Qed.
Lemma rcount_of t ch id c x ev : Forall (ofc c x) ev -> rcount t ch id ev = if match_c t ch x then cnt id (rds c ev) else 0.
Proof.
  unfold rcount, match_c. induction 1 as [|[] ev H _ IH]; cbn in *; try (now destruct (_ && _)); try exact IH. destruct H as (-> & -> & ->). rewrite Nat.eqb_refl. cbn [app]. rewrite cnt_cons. fold (rds c ev).
  destruct (String.eqb (c_top x) t && String.eqb (c_ch x) ch); cbn [andb]; [|exact IH]. destruct (Nat.eqb (e_id e) id); cbn; lia.
Qed.
Lemma balance t ch id sched s evs : run step init sched = Some (s, evs) -> deliveries t ch id evs + sumf (held t ch id) (cons s) = rcount t ch id evs.
Proof.
  intros H. revert sched s evs H. apply (run_inv step init (fun sched evs s => deliveries t ch id evs + sumf (held t ch id) (cons s) = rcount t ch id evs)); [reflexivity|].
  intros sched evs s l s' ev Hr IH H. rewrite deliveries_app, rcount_app. pose proof (step_cdelta _ _ _ _ H) as [Hc Hs Ha|t' ch' Hc He Ha|c x x' Hx Hu Hc Ht Hch (T & _) Hof _ _].
  - rewrite Hc, (deliveries_still _ _ _ ev Hs), (rcount_still _ _ _ ev Hs). lia.
  - subst ev. rewrite Hc. rewrite sumf_app. cbn [sumf]. assert (X : held t ch id (mkC t' ch' true [] UnboundedModel.init []) = 0) by (unfold held; destruct (match_c t ch _); reflexivity). rewrite X. cbn. lia.
  - rewrite Hc, (deliveries_of t ch id c x ev Hof), (rcount_of t ch id c x ev Hof). pose proof (sumf_upd (held t ch id) _ _ _ x' Hx) as Hsu. assert (Hm : match_c t ch x' = match_c t ch x) by (unfold match_c; now rewrite Ht, Hch).
    assert (Hf : held t ch id x' = if match_c t ch x then cnt id (infl x') else 0) by (unfold held; now rewrite Hm). assert (Hf0 : held t ch id x = if match_c t ch x then cnt id (infl x) else 0) by reflexivity.
    apply (cnt_perm id) in T. rewrite !cnt_app in T. destruct (match_c t ch x); lia.
Qed.
Lemma rcount_handed t ch id evs : rcount t ch id evs <= count_occ Nat.eq_dec (handed t ch evs) id.
Proof.
  unfold rcount, handed. induction evs as [|z evs IH]; [reflexivity|]. cbn [filter flat_map]. rewrite count_occ_app. destruct z; try exact IH; destruct (String.eqb t0 t && String.eqb ch0 ch); cbn [andb]; try exact IH.
  - destruct (Nat.eqb_spec (e_id e) id) as [Hn|Hn]; [rewrite Hn; cbn; destruct (Nat.eq_dec id id); [cbn; lia|congruence]|]. lia.
  - lia.
Qed.
Lemma sorted_nodup l : StronglySorted lt l -> NoDup l.
Proof. induction 1 as [|a l H IH Hf]; constructor; [|exact IH]. intros X. rewrite Forall_forall in Hf. specialize (Hf _ X). lia. Qed.
Lemma rcount_le t ch id sched s evs : run step init sched = Some (s, evs) -> Forall (latest t ch) sched -> rcount t ch id evs <= 1.
Proof.
  intros H Hl. destruct (okH_reach _ _ _ _ _ H Hl) as [A _]. etransitivity; [apply rcount_handed|]. apply sorted_nodup in A. apply (proj1 (NoDup_count_occ Nat.eq_dec _) A).
Qed.
Lemma at_most_once t ch id sched s evs : run step init sched = Some (s, evs) -> Forall (latest t ch) sched -> deliveries t ch id evs <= 1.
Proof. intros H Hl. pose proof (balance t ch id _ _ _ H). pose proof (rcount_le t ch id _ _ _ H Hl). lia. Qed.

(** A message read by a process that died before pushing it is never delivered. *)
Lemma frozen c x sched : forall s s' evs, nth_error (cons s) c = Some x -> c_up x = false -> run step s sched = Some (s', evs) -> nth_error (cons s') c = Some x.
Proof.
  induction sched as [|l sched IH]; cbn [run]; intros s s' evs Hx Hu H; [now injection H as <- <-|]. destruct (step s l) as [[s1 e1]|] eqn:E; [|discriminate]. destruct (run step s1 sched) as [[s2 e2]|] eqn:E2; [|discriminate]. injection H as <- <-.
  eapply IH; [|exact Hu|exact E2]. pose proof (step_cdelta _ _ _ _ E) as [Hc _ _|t' ch' Hc _ _|d y y' Hy Hu' Hc _ _ _ _ _ _]; rewrite Hc.
  - exact Hx.
  - rewrite nth_error_app1; [exact Hx|]. now apply lt_of_nth in Hx.
  - rewrite nth_upd_neq; [exact Hx|]. intros <-. congruence.
Qed.
Lemma deliveries_pos t ch c q e evs : In (EPush c t ch q e) evs -> 1 <= deliveries t ch (e_id e) evs.
Proof.
  intros H. unfold deliveries. assert (X : In (EPush c t ch q e) (filter (fun x => match x with EPush _ t' ch' _ e' => String.eqb t' t && String.eqb ch' ch && Nat.eqb (e_id e') (e_id e) | _ => false end) evs)) by (apply filter_In; split; [exact H|]; now rewrite !String.eqb_refl, Nat.eqb_refl).
  destruct (filter _ evs); [destruct X|cbn; lia].
Qed.
Lemma lost_forever pre s0 e0 c x e : run step init pre = Some (s0, e0) -> nth_error (cons s0) c = Some x -> c_up x = false -> In e (infl x) ->
  forall sched s evs, run step s0 sched = Some (s, evs) -> Forall (latest (c_top x) (c_ch x)) (pre ++ sched) -> deliveries (c_top x) (c_ch x) (e_id e) (e0 ++ evs) = 0.
Proof.
  intros Hp Hx Hu He sched s evs H Hl. pose proof (run_app _ _ _ _ _ _ _ _ Hp H) as Hr. pose proof (balance (c_top x) (c_ch x) (e_id e) _ _ _ Hr) as B. pose proof (rcount_le (c_top x) (c_ch x) (e_id e) _ _ _ Hr Hl) as R.
  pose proof (sumf_in (held (c_top x) (c_ch x) (e_id e)) _ _ _ (frozen _ _ _ _ _ _ Hx Hu H)) as S. unfold held at 1, match_c in S. rewrite !String.eqb_refl in S. cbn [andb] in S. pose proof (cnt_in _ _ _ He eq_refl). lia.
Qed.

(** ** Order *)
Lemma rds_sorted c t ch evs : (forall t' ch' e, In (ERead c t' ch' e) evs -> t' = t /\ ch' = ch) -> StronglySorted lt (handed t ch evs) ->
  StronglySorted lt (map e_id (rds c evs)) /\ forall id, In id (map e_id (rds c evs)) -> In id (handed t ch evs).
Proof.
  induction evs as [|z evs IH]; intros Hc H; [split; [constructor|intros id []]|].
  assert (Hc' : forall t' ch' e, In (ERead c t' ch' e) evs -> t' = t /\ ch' = ch) by (intros t' ch' e Hin; apply (Hc t' ch' e); now right).
  change (rds c (z :: evs)) with ((match z with ERead d _ _ e => if Nat.eqb d c then [e] else [] | _ => [] end) ++ rds c evs).
  change (handed t ch (z :: evs)) with ((match z with ERead _ t' ch' e | ELost _ t' ch' e => if String.eqb t' t && String.eqb ch' ch then [e_id e] else [] | _ => [] end) ++ handed t ch evs) in *.
  destruct z; try exact (IH Hc' H).
  - destruct (Nat.eqb_spec c0 c) as [->|Hn].
    + destruct (Hc t0 ch0 e (or_introl eq_refl)) as [-> ->]. rewrite !String.eqb_refl in *. cbn [andb app] in *. apply StronglySorted_inv in H as [A B]. destruct (IH Hc' A) as [C D]. cbn. split; [constructor; [exact C|]|].
      * rewrite Forall_forall in *. auto.
      * intros id [<-|Hid]; [now left|right; auto].
    + cbn [app]. destruct (String.eqb t0 t && String.eqb ch0 ch); cbn [app] in *; [|exact (IH Hc' H)]. apply StronglySorted_inv in H as [A B]. destruct (IH Hc' A) as [C D]. split; [exact C|]. intros id Hid. right. auto.
  - cbn [app]. destruct (String.eqb t0 t && String.eqb ch0 ch); cbn [app] in *; [|exact (IH Hc' H)]. apply StronglySorted_inv in H as [A B]. destruct (IH Hc' A) as [C D]. split; [exact C|]. intros id Hid. right. auto.
Qed.
Lemma sorted_app_inv (a b : list nat) : StronglySorted lt (a ++ b) -> StronglySorted lt a /\ StronglySorted lt b /\ forall x y, In x a -> In y b -> x < y.
Proof.
  induction a as [|z a IH]; cbn; intros H; [split; [constructor|]; split; [exact H|easy]|]. apply StronglySorted_inv in H as [A B]. destruct (IH A) as (C & D & E). rewrite Forall_forall in B. split; [constructor; [exact C|]|split; [exact D|]].
  - rewrite Forall_forall. intros x Hx. apply B, in_or_app. now left.
  - intros x y [<-|Hx] Hy; [apply B, in_or_app; now right|auto].
Qed.
Lemma adds_order z1 z2 id1 id2 evs : StronglySorted lt (adds evs) -> In z1 evs -> In z2 evs -> adds [z1] = [id1] -> adds [z2] = [id2] -> id1 < id2 -> before z1 z2 evs.
Proof.
  intros H H1 H2 A1 A2 Hlt. apply in_split in H1 as (a & b & ->). rewrite adds_app in H. change (adds (z1 :: b)) with (adds ([z1] ++ b)) in H. rewrite adds_app, A1 in H. apply sorted_app_inv in H as (S1 & S2 & S3).
  assert (K : forall l, In z2 l -> In id2 (adds l)). { intros l Hl. apply in_flat_map. exists z2. split; [exact Hl|]. cbn in A2. rewrite app_nil_r in A2. rewrite A2. now left. }
  apply in_app_or in H2 as [H2|[<-|H2]].
  - specialize (S3 id2 id1 (K _ H2) (or_introl eq_refl)). lia.
  - rewrite A1 in A2. injection A2 as ->. lia.
  - apply in_split in H2 as (b1 & b2 & ->). exists a, b1, b2. reflexivity.
Qed.
Lemma adds_same z1 z2 id evs : StronglySorted lt (adds evs) -> In z1 evs -> In z2 evs -> adds [z1] = [id] -> adds [z2] = [id] -> z1 = z2.
Proof.
  intros H H1 H2 A1 A2. apply in_split in H1 as (a & b & ->). rewrite adds_app in H. change (adds (z1 :: b)) with (adds ([z1] ++ b)) in H. rewrite adds_app, A1 in H. apply sorted_app_inv in H as (S1 & S2 & S3). apply sorted_app_inv in S2 as (_ & _ & S4).
  assert (K : forall l, In z2 l -> In id (adds l)). { intros l Hl. apply in_flat_map. exists z2. split; [exact Hl|]. cbn in A2. rewrite app_nil_r in A2. rewrite A2. now left. }
  apply in_app_or in H2 as [H2|[<-|H2]]; [|reflexivity|].
  - specialize (S3 id id (K _ H2) (or_introl eq_refl)). lia.
  - specialize (S4 id id (or_introl eq_refl) (K _ H2)). lia.
Qed.
Lemma added_same t e e' evs : StronglySorted lt (adds evs) -> In (EPub t e) evs -> added t e' evs -> e_id e' = e_id e -> e' = e.
Proof.
  intros H H1 [H2|[H2 _]] Hid.
  - assert (X : EPub t e = EPub t e') by (eapply adds_same; [exact H|exact H1|exact H2|reflexivity|cbn; congruence]). now injection X.
  - assert (X : EPub t e = EInit t e') by (eapply adds_same; [exact H|exact H1|exact H2|reflexivity|cbn; congruence]). discriminate.
Qed.
Lemma psh_order c t ch q q' e1 e2 evs : before (EPush c t ch q e1) (EPush c t ch q' e2) evs -> exists a b d, psh c evs = a ++ e1 :: b ++ e2 :: d.
Proof.
  intros (a & b & d & ->). exists (psh c a), (psh c b), (psh c d). rewrite psh_app. f_equal.
  change (EPush c t ch q e1 :: b ++ EPush c t ch q' e2 :: d) with ([EPush c t ch q e1] ++ b ++ [EPush c t ch q' e2] ++ d). rewrite !psh_app. cbn. rewrite Nat.eqb_refl. reflexivity.
Qed.
Lemma pushes_ordered c t ch q q' e1 e2 sched s evs : run step init sched = Some (s, evs) -> Forall (latest t ch) sched -> arrivals c sched <= 1 ->
  before (EPush c t ch q e1) (EPush c t ch q' e2) evs -> e_id e1 < e_id e2.
Proof.
  intros H Hl Ha Hb. destruct (okC_reach _ _ _ H) as (C1 & _ & C3). destruct (okH_reach _ _ _ _ _ H Hl) as [A _].
  assert (Hin : In (EPush c t ch q e1) evs) by (destruct Hb as (a & b & d & ->); apply in_or_app; right; now left). destruct (C3 _ Hin) as (x & X1 & X2 & X3). destruct (C1 _ _ X1) as (_ & D & _ & _ & E).
  assert (Hs : StronglySorted lt (map e_id (rds c evs))).
  { apply (rds_sorted c t ch); [|exact A]. intros t' ch' e He. destruct (C3 _ He) as (y & Y1 & Y2 & Y3). assert (y = x) as -> by congruence. split; congruence. }
  rewrite <- D in Hs by lia. rewrite map_app in Hs. apply sorted_app_inv in Hs as (Hs & _). apply psh_order in Hb as (a & b & d & Hb). rewrite Hb, map_app in Hs. apply sorted_app_inv in Hs as (_ & Hs & _).
  apply StronglySorted_inv in Hs as [_ Hs]. rewrite Forall_forall in Hs. apply Hs. apply (in_map e_id (b ++ e2 :: d) e2). apply in_or_app. right. now left.
Qed.
Lemma push_added c t ch q e sched s evs : run step init sched = Some (s, evs) -> In (EPush c t ch q e) evs -> added t e evs.
Proof.
  intros H Hin. destruct (okC_reach _ _ _ H) as (C1 & _ & C3). destruct (okS_reach _ _ _ H) as (_ & _ & _ & _ & O). destruct (C3 _ Hin) as (x & X1 & X2 & X3). destruct (C1 _ _ X1) as (D & _).
  assert (He : In e (rds c evs)) by (eapply Permutation_in; [exact D|]; apply in_or_app; left; eapply psh_in, Hin). destruct (in_rds _ _ _ He) as (t' & ch' & Hr). destruct (C3 _ Hr) as (y & Y1 & Y2 & Y3). assert (y = x) as -> by congruence.
  rewrite <- X2, Y2. eapply O, Hr.
Qed.
