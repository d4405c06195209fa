(** C155-C157: building a gRPC client. *)
From Coq Require Import List ZArith Bool Arith Lia.
From Verif Require Import Machine MachineMore DialModel DialSpec.
From Verif Require ClientModel.
Import ListNotations.
Open Scope Z_scope.

Definition ex_os : list opt :=
  [WithClientConns [1%nat; 2%nat]; WithMaxConcurrentCalls 10; ClientAppendUnary [noting 1; noting 2]; WithCallTimeout 5;
   WithClientConns [3%nat]; WithMaxConcurrentCalls 20; WithDialOptions [DOther 7; DCreds (Secure 1)]; ClientAppendUnary [noting 3]].

Lemma built os p : build os = Some p -> p = fold_left apply os defaults /\ 0 <= max_calls p.
Proof. unfold build. destruct (Z.ltb_spec (max_calls (fold_left apply os defaults)) 0); intros H'; [discriminate|]. injection H' as <-. auto. Qed.

Lemma fold_gives (os : list opt) : forall p,
  addresses (fold_left apply os p) = addresses p ++ conns_given os /\
  unary (fold_left apply os p) = unary p ++ unary_given os /\
  dial_options (fold_left apply os p) = dial_options p ++ dials_given os.
Proof.
  induction os as [|o os IH]; intros p; [cbn; rewrite !app_nil_r; auto|]. cbn [fold_left].
  destruct (IH (apply p o)) as (A & B & C). rewrite A, B, C. unfold conns_given, unary_given, dials_given. cbn [flat_map].
  destruct p as [a b c m t l d u s], o; cbn [apply DialModel.addresses DialModel.unary DialModel.dial_options app]; rewrite <- ?app_assoc; auto.
Qed.

Lemma fold_max (os : list opt) : last_max os (max_calls (fold_left apply os defaults)).
Proof.
  induction os as [|o os IH] using rev_ind; [right; split; [reflexivity|intros m []]|].
  rewrite fold_left_app. cbn [fold_left].
  assert (K : (exists n, o = WithMaxConcurrentCalls n) \/ forall n, o <> WithMaxConcurrentCalls n) by (destruct o; eauto; right; discriminate).
  destruct K as [(n & ->)|K].
  - left. exists os, []. destruct (fold_left apply os defaults). cbn. split; [reflexivity|intros m []].
  - replace (max_calls (apply (fold_left apply os defaults) o)) with (max_calls (fold_left apply os defaults))
      by (destruct (fold_left apply os defaults), o; try reflexivity; exfalso; eapply K; reflexivity).
    destruct IH as [(a & b & E & N)|(E & N)].
    + left. exists a, (b ++ [o]). split; [rewrite E at 1; rewrite <- app_assoc; reflexivity|]. intros m H. apply in_app_or in H. destruct H as [H|[H|[]]]; [eapply N; eauto|eapply K; eauto].
    + right. split; [exact E|]. intros m H. apply in_app_or in H. destruct H as [H|[H|[]]]; [eapply N; eauto|eapply K; eauto].
Qed.

(** ** C155 *)
(** A client lets through as many calls at once as the last option says, connects at Init to the
    addresses of all options in order, and dials with the last credentials given. *)
Theorem C155_values : forall os p,
  build os = Some p ->
  last_max os (max_calls p) /\
  (forall up, init_conns p up = filter up (conns_given os)) /\
  (exists x, creds (connection p) = Some x /\ last_creds (dials_given os) x) /\
  others (connection p) = flat_map (fun d => match d with DOther n => [n] | _ => [] end) (dials_given os).
Proof.
  intros os p H. apply built in H as (-> & _). destruct (fold_gives os defaults) as (A & B & C). cbn in A, B, C.
  split; [apply fold_max|]. split; [intros up; unfold init_conns; rewrite A; reflexivity|].
  unfold connection, dialled. rewrite C. generalize (dials_given os). clear. intros ds.
  set (c0 := fold_left dial_apply ([DCreds Insecure] ++ match unary (fold_left apply os defaults) with [] => [] | is => [DUnary (chain is)] end) (mkC None None [])).
  assert (C0 : creds c0 = Some Insecure /\ others c0 = []) by (unfold c0; destruct (unary _); cbn; auto).
  rewrite app_assoc, fold_left_app. fold c0. destruct C0 as (C1 & C2). split.
  - induction ds as [|d ds IH] using rev_ind; [exists Insecure; split; [exact C1|right; split; [reflexivity|intros y []]]|].
    rewrite fold_left_app. cbn [fold_left]. destruct IH as (x & X1 & X2).
    assert (K : (exists y, d = DCreds y) \/ forall y, d <> DCreds y) by (destruct d; eauto; right; discriminate).
    destruct K as [(y & ->)|K]; [exists y; split; [reflexivity|left; exists ds, []; split; [reflexivity|intros z []]]|].
    exists x. split; [destruct d; try exact X1; exfalso; eapply K; reflexivity|].
    destruct X2 as [(a & b & E & N)|(E & N)].
    + left. exists a, (b ++ [d]). split; [rewrite E, <- app_assoc; reflexivity|]. intros m H. apply in_app_or in H. destruct H as [H|[H|[]]]; [eapply N; eauto|eapply K; eauto].
    + right. split; [exact E|]. intros m H. apply in_app_or in H. destruct H as [H|[H|[]]]; [eapply N; eauto|eapply K; eauto].
  - assert (G : forall c, others (fold_left dial_apply ds c) = others c ++ flat_map (fun d => match d with DOther n => [n] | _ => [] end) ds).
    { induction ds as [|d ds IH]; intros c; [cbn; rewrite app_nil_r; reflexivity|]. cbn [fold_left flat_map]. rewrite IH. destruct d; cbn; rewrite <- ?app_assoc; reflexivity. }
    rewrite G, C2. reflexivity.
Qed.
Print Assumptions C155_values.
Example C155_values_case : exists p, build ex_os = Some p /\ max_calls p = 20 /\ addresses p = [1%nat; 2%nat; 3%nat] /\ creds (connection p) = Some (Secure 1).
Proof. eexists. split; [reflexivity|]. auto. Qed.

(** ** C156 *)
(** The interceptors run around every call in the order in which they were given, the first one
    outermost, unless a dial option of the user sets an interceptor.  Missing: that case. *)
Theorem C156_interceptors_partial : forall os p wire r,
  build os = Some p -> (forall i, ~ In (DUnary i) (dials_given os)) ->
  exists j, nested (fun r => ([EWire r], wire r)) (unary_given os) j /\ invoke (connection p) wire r = j r.
Proof.
  intros os p wire r H N. exists (chain (unary_given os) (fun r => ([EWire r], wire r))).
  split; [induction (unary_given os); cbn; constructor; assumption|]. apply built in H as (-> & _). destruct (fold_gives os defaults) as (A & B & C). cbn in A, B, C.
  assert (G : forall ds c, (forall i, ~ In (DUnary i) ds) -> wraps (fold_left dial_apply ds c) = wraps c).
  { induction ds as [|d ds IH]; intros c Nd; [reflexivity|]. cbn [fold_left]. rewrite IH by (intros i Hi; apply (Nd i); right; exact Hi).
    destruct d; try reflexivity. exfalso. apply (Nd i). left. reflexivity. }
  unfold invoke, connection, dialled. rewrite C, app_assoc, fold_left_app, G by exact N. rewrite B. destruct (unary_given os); reflexivity.
Qed.
Print Assumptions C156_interceptors_partial.
Example C156_interceptors_case : exists p, build ex_os = Some p /\ (forall i, ~ In (DUnary i) (dials_given ex_os)) /\
  invoke (connection p) (fun _ => true) 9%nat =
    ([EUser 2; EUser 4; EUser 6; EWire 9; EUser 7; EUser 5; EUser 3], true).
Proof. eexists. split; [reflexivity|]. split; [|reflexivity]. intros i [H|[H|[]]]; discriminate. Qed.

(** What is seen of interceptors that note when they begin and end: they begin in the order in
    which they were given, then the request is sent once, then they end in the reverse order. *)
Theorem C156_seen : forall os p wire r ns,
  build os = Some p -> (forall i, ~ In (DUnary i) (dials_given os)) -> unary_given os = map noting ns ->
  invoke (connection p) wire r = (map (fun n => EUser (2 * n)) ns ++ [EWire r] ++ map (fun n => EUser (2 * n + 1)) (rev ns), wire r).
Proof.
  intros os p wire r ns H N U. destruct (C156_interceptors_partial os p wire r H N) as (j & J & ->). rewrite U in J. clear - J. revert j J.
  induction ns as [|n ns IH]; intros j J; cbn [map] in J; inversion J; subst; [reflexivity|].
  unfold noting at 1. rewrite (IH _ ltac:(eassumption)). cbn [map rev app]. rewrite map_app. cbn [map app]. rewrite <- app_assoc. reflexivity.
Qed.
Print Assumptions C156_seen.
Example C156_seen_case : exists p, build ex_os = Some p /\ unary_given ex_os = map noting [1; 2; 3]%nat.
Proof. eexists. split; reflexivity. Qed.

(** Claimed without the exception.  False: an interceptor among the dial options replaces all
    the others, the one of the tracer included. *)
Theorem C156_replaced_refuted : exists os p i,
  build os = Some p /\ In (noting 1) (unary_given os) /\ In (DUnary i) (dials_given os) /\
  forall wire r, invoke (connection p) wire r = i (fun r => ([EWire r], wire r)) r /\ ~ In (EUser 2) (fst (invoke (connection p) wire r)).
Proof.
  exists [ClientAppendUnary [noting 1]; WithDialOptions [DUnary (noting 5)]]. do 2 eexists. split; [reflexivity|].
  split; [left; reflexivity|]. split; [left; reflexivity|]. intros wire r. split; [reflexivity|]. cbn. intros [H|[H|[H|[]]]]; discriminate.
Qed.
Print Assumptions C156_replaced_refuted.
(** Exactly: the last interceptor among the dial options is the only one that runs. *)
Theorem C156_last : forall os p wire r a i b,
  build os = Some p -> dials_given os = a ++ DUnary i :: b -> (forall j, ~ In (DUnary j) b) ->
  invoke (connection p) wire r = i (fun r => ([EWire r], wire r)) r.
Proof.
  intros os p wire r a i b H D N. apply built in H as (-> & _). destruct (fold_gives os defaults) as (_ & _ & C). cbn in C.
  assert (G : forall ds c, (forall i, ~ In (DUnary i) ds) -> wraps (fold_left dial_apply ds c) = wraps c).
  { induction ds as [|d ds IH]; intros c Nd; [reflexivity|]. cbn [fold_left]. rewrite IH by (intros j Hj; apply (Nd j); right; exact Hj).
    destruct d; try reflexivity. exfalso. eapply Nd. left. reflexivity. }
  unfold invoke, connection, dialled. rewrite C, D.
  rewrite app_assoc, fold_left_app, fold_left_app. cbn [fold_left]. rewrite G by exact N. reflexivity.
Qed.
Print Assumptions C156_last.
Example C156_last_case : exists p, build [WithDialOptions [DUnary (noting 4); DUnary (noting 5)]] = Some p /\
  fst (invoke (connection p) (fun _ => true) 9%nat) = [EUser 10; EWire 9; EUser 11].
Proof. eexists. split; reflexivity. Qed.

(** ** C157 *)
(** Claimed: every option has an effect.  False: five of the nine can be left out anywhere
    without any difference. *)
Theorem C157_idle_refuted : forall a o b, idle o -> same_client (a ++ o :: b) (a ++ b).
Proof.
  intros a o b I. unfold same_client, build. rewrite !fold_left_app. cbn [fold_left].
  set (p0 := fold_left apply a defaults).
  assert (G : forall os p q, max_calls p = max_calls q /\ addresses p = addresses q /\ dial_options p = dial_options q /\ unary p = unary q ->
    let p' := fold_left apply os p in let q' := fold_left apply os q in
    max_calls p' = max_calls q' /\ addresses p' = addresses q' /\ dial_options p' = dial_options q' /\ unary p' = unary q').
  { induction os as [|x os IH]; intros p q H; [exact H|]. cbn [fold_left]. apply IH. destruct p, q, x; cbn in *; intuition congruence. }
  destruct (G b (apply p0 o) p0) as (M & A & D & W).
  { destruct p0, o; cbn in I |- *; try contradiction; auto. }
  set (p := fold_left apply b (apply p0 o)) in *. set (q := fold_left apply b p0) in *. rewrite M.
  destruct (max_calls q <? 0); [exact Logic.I|]. split; [exact M|].
  split; [intros up; unfold init_conns; rewrite A; reflexivity|].
  unfold connection, dialled. rewrite D, W. auto.
Qed.
Print Assumptions C157_idle_refuted.
Example C157_idle_case : idle (WithCallTimeout 5) /\ exists a b, ex_os = a ++ WithCallTimeout 5 :: b /\ build (a ++ b) <> None.
Proof. split; [exact I|]. exists (firstn 3 ex_os), (skipn 4 ex_os). split; [reflexivity|discriminate]. Qed.

(** Proved for the other four: two clients that differ in what such an option says can be told
    apart, whatever the options before.  Missing: the five idle ones. *)
Theorem C157_effect_partial : forall os, build os <> None ->
  (forall m n, 0 <= m -> 0 <= n -> m <> n -> ~ same_client (os ++ [WithMaxConcurrentCalls m]) (os ++ [WithMaxConcurrentCalls n])) /\
  (forall l l', l <> l' -> ~ same_client (os ++ [WithClientConns l]) (os ++ [WithClientConns l'])) /\
  (forall x y, x <> y -> ~ same_client (os ++ [WithDialOptions [DCreds x]]) (os ++ [WithDialOptions [DCreds y]])) /\
  (forall n, unary_given os = [] -> (forall i, ~ In (DUnary i) (dials_given os)) -> ~ same_client (os ++ [ClientAppendUnary [noting n]]) os).
Proof.
  intros os H. assert (M : 0 <= max_calls (fold_left apply os defaults)).
  { unfold build in H. destruct (Z.ltb_spec (max_calls (fold_left apply os defaults)) 0); [contradiction H; reflexivity|assumption]. }
  destruct (fold_gives os defaults) as (_ & UB & DB). cbn in UB, DB.
  unfold same_client, build. set (p := fold_left apply os defaults) in *.
  destruct p as [a b c m0 t l0 d u s] eqn:P. cbn in M.
  assert (F : (m0 <? 0) = false) by (apply Z.ltb_ge; exact M).
  split; [|split; [|split]].
  - intros m n Hm Hn D. rewrite !fold_left_app. fold p. cbn [fold_left apply max_calls]. rewrite P. cbn [apply max_calls].
    destruct (Z.ltb_spec m 0); [lia|]. destruct (Z.ltb_spec n 0); [lia|]. intros (E & _). contradiction.
  - intros l l' D. rewrite !fold_left_app. fold p. cbn [fold_left]. rewrite P. cbn [apply max_calls]. rewrite F. intros (_ & E & _).
    specialize (E (fun _ => true)). unfold init_conns in E. cbn [addresses] in E.
    assert (T : forall xs : list nat, filter (fun _ => true) xs = xs) by (induction xs; cbn; congruence).
    rewrite !T in E. apply app_inv_head in E. contradiction.
  - intros x y D. rewrite !fold_left_app. fold p. cbn [fold_left]. rewrite P. cbn [apply max_calls]. rewrite F. intros (_ & _ & E & _).
    unfold connection, dialled in E. cbn [unary dial_options] in E. rewrite !app_assoc, !fold_left_app in E. cbn in E. congruence.
  - intros n U N. rewrite fold_left_app. fold p. cbn [fold_left]. rewrite P. cbn [apply max_calls]. rewrite F. intros (_ & _ & _ & _ & E).
    specialize (E (fun _ => true) O). rewrite <- DB in N. cbn [dial_options] in N.
    assert (G : forall ds c, (forall i, ~ In (DUnary i) ds) -> wraps (fold_left dial_apply ds c) = wraps c).
    { induction ds as [|x ds IH]; intros k Nd; [reflexivity|]. cbn [fold_left]. rewrite IH by (intros j Hj; apply (Nd j); right; exact Hj).
      destruct x; try reflexivity. exfalso. eapply Nd. left. reflexivity. }
    cbn [unary] in UB. rewrite U in UB. subst u.
    unfold invoke, connection, dialled in E. cbn [unary dial_options app] in E. cbn [fold_left] in E.
    rewrite !G in E by exact N. cbn in E. discriminate.
Qed.
Print Assumptions C157_effect_partial.
Example C157_effect_case : build ex_os <> None /\ unary_given [WithCallTimeout 3] = [].
Proof. split; [discriminate|reflexivity]. Qed.

(** A client cannot be built exactly if the number of calls is negative. *)
Theorem C157_build : forall os, build os = None <-> exists n, last_max os n /\ n < 0.
Proof.
  intros os. unfold build. pose proof (fold_max os) as L. destruct (Z.ltb_spec (max_calls (fold_left apply os defaults)) 0); split; intros H'.
  - eauto.
  - reflexivity.
  - discriminate.
  - exfalso. destruct H' as (n & L' & N). assert (n = max_calls (fold_left apply os defaults)); [|lia].
    clear - L L'. unfold last_max in *. revert L L'. generalize (max_calls (fold_left apply os defaults)). intros m L L'.
    destruct L as [(a & b & E & N)|(E & N)], L' as [(a' & b' & E' & N')|(E' & N')].
    + rewrite E in E'. clear E. revert a' E'. induction a as [|x a IH]; intros [|x' a'] E'; cbn in E'; injection E' as E1 E2.
      * congruence.
      * exfalso. apply (N n). rewrite E2. apply in_or_app. right. left. reflexivity.
      * exfalso. apply (N' m). rewrite <- E2. apply in_or_app. right. left. reflexivity.
      * eapply IH; eauto.
    + exfalso. apply (N' m). rewrite E. apply in_or_app. right. left. reflexivity.
    + exfalso. apply (N n). rewrite E'. apply in_or_app. right. left. reflexivity.
    + congruence.
Qed.
Print Assumptions C157_build.
Example C157_build_case : build [WithMaxConcurrentCalls 5; WithMaxConcurrentCalls (-1)] = None /\ last_max [WithMaxConcurrentCalls 5; WithMaxConcurrentCalls (-1)] (-1).
Proof. split; [reflexivity|]. left. exists [WithMaxConcurrentCalls 5], []. split; [reflexivity|intros m []]. Qed.

(** With a number of 0 no Call ever reaches the wire: each ends with its context. *)
Theorem C157_zero : forall addrs sched s evs i c r,
  run ClientModel.step (ClientModel.client 0 addrs) sched = Some (s, evs) ->
  (forall a o, ~ In (ClientModel.LCallWait a o) sched) ->
  ~ In (ClientModel.EInvoke i c) evs /\ (In (ClientModel.EReturn i r) evs -> r = ClientModel.RAcquire).
Proof.
  intros addrs sched s evs i c r H N.
  assert (C0 : ClientModel.cap (ClientModel.client 0 addrs) = O /\ ClientModel.calls (ClientModel.client 0 addrs) = [] /\ ClientModel.crashed (ClientModel.client 0 addrs) = false).
  { unfold ClientModel.client. assert (G : forall l s, ClientModel.cap (fold_left ClientModel.connect l s) = ClientModel.cap s /\ ClientModel.calls (fold_left ClientModel.connect l s) = ClientModel.calls s /\ ClientModel.crashed (fold_left ClientModel.connect l s) = ClientModel.crashed s)
      by (induction l as [|x l IH]; intros s0; [auto|cbn [fold_left]; destruct (IH (ClientModel.connect s0 x)) as (A & B & C); rewrite A, B, C; auto]).
    apply (G addrs (ClientModel.mkS 0 0 [] 0 [] false)). }
  assert (Inv : ClientModel.cap s = O /\ (forall p, In p (ClientModel.calls s) -> (exists a o, p = ClientModel.QSelect a o) \/ exists x, p = ClientModel.QDone x) /\ ~ In (ClientModel.EInvoke i c) evs /\ (In (ClientModel.EReturn i r) evs -> r = ClientModel.RAcquire)).
  { revert s evs H N. induction sched as [|l sched IH] using rev_ind; intros s evs H N.
    - cbn in H. injection H as <- <-. destruct C0 as (A & B & _). rewrite A, B. repeat split; try (intros p []); intros [].
    - apply run_app_inv in H as (s1 & e1 & e2 & H1 & H2 & ->). apply run_one_inv in H2.
      destruct (IH s1 e1 H1) as (A & B & C & D). { intros a o Q. apply (N a o). apply in_or_app. auto. }
      assert (Q : forall j p, nth_error (ClientModel.calls s1) j = Some p -> (exists a o, p = ClientModel.QSelect a o) \/ exists x, p = ClientModel.QDone x)
        by (intros j p P; apply B; eapply nth_error_In; eauto).
      unfold ClientModel.step in H2. destruct (ClientModel.crashed s1); [discriminate|].
      destruct l as [a o|a o|j|j|j|j|j ok|j|j ok|j].
      2: { exfalso. apply (N a o). apply in_or_app. right. left. reflexivity. }
      1: { injection H2 as <- <-. cbn. rewrite app_nil_r. split; [exact A|]. split; [|auto].
           intros p P. apply in_app_or in P. destruct P as [P|[<-|[]]]; [auto|left; eauto]. }
      all: destruct (nth_error (ClientModel.calls s1) j) as [p|] eqn:P; [|discriminate].
      all: destruct (Q _ _ P) as [(a0 & o0 & ->)|(x0 & ->)]; try discriminate.
      + rewrite A in H2. discriminate.
      + injection H2 as <- <-. cbn. split; [exact A|]. split.
        * intros p Hp. apply in_upd in Hp. destruct Hp as [->|Hp]; [right; eauto|auto].
        * split; [intros X; apply in_app_or in X; destruct X as [X|[X|[]]]; [auto|discriminate]|].
          intros X. apply in_app_or in X. destruct X as [X|[X|[]]]; [auto|congruence]. }
  destruct Inv as (_ & _ & I1 & I2). auto.
Qed.
Print Assumptions C157_zero.
Example C157_zero_case : exists s, run ClientModel.step (ClientModel.client 0 [1%nat]) [ClientModel.LCall 1 true; ClientModel.LCancel 0]
  = Some (s, [ClientModel.EReturn 0 ClientModel.RAcquire]).
Proof. eexists. reflexivity. Qed.
