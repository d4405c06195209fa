(** C122-C124: the configuration of the Redis client, results of pipelines. *)
From Coq Require Import List ZArith Bool Lia.
From Verif Require Import RedisModel RedisSpec.
Import ListNotations.
Local Open Scope Z_scope.

Lemma apply_set o c : is_addr o = false -> exists f z, written o = Some (f, z) /\ apply o c = Some (set c f z).
Proof. destruct o; intros H; try discriminate; eexists _, _; split; reflexivity. Qed.
Lemma set_eq c f z : set c f z f = z.
Proof. unfold set. destruct (field_eq f f) as [_|N]; [reflexivity|destruct N; reflexivity]. Qed.
Lemma set_neq c f g z : g <> f -> set c f z g = c g.
Proof. intros N. unfold set. destruct (field_eq g f); [contradiction|reflexivity]. Qed.
Lemma apply_all_app a b c c' : apply_all a c = (c', true) -> apply_all (a ++ b) c = apply_all b c'.
Proof. revert c. induction a as [|o a IH]; intros c H; cbn in *; [injection H as ->; reflexivity|]. destruct (apply o c); [auto|discriminate]. Qed.
Lemma no_addr os c : (forall o, In o os -> is_addr o = false) -> snd (apply_all os c) = true.
Proof.
  revert c. induction os as [|o os IH]; intros c H; [reflexivity|]. cbn. destruct (apply_set o c) as (f & z & _ & ->); [apply H; left; reflexivity|]. apply IH. intros o' I. apply H. right. exact I.
Qed.

(** ** C122: a client has the options it was built with, and defaults for the rest *)
(** As coded, for all builds: a field has the value that the last option for it wrote since
    the process started or since the last WithAddr, which writes every field. *)
Theorem C122_field : forall os c, (forall o, In o os -> is_addr o = false) -> forall f,
  (exists a o b z, os = a ++ o :: b /\ written o = Some (f, z) /\ (forall o' z', In o' b -> written o' <> Some (f, z')) /\ fst (apply_all os c) f = z) \/
  ((forall o z', In o os -> written o <> Some (f, z')) /\ fst (apply_all os c) f = c f).
Proof.
  induction os as [|o os IH]; intros c H f; [right; split; [intros o z []|reflexivity]|]. cbn [apply_all].
  destruct (apply_set o c) as (g & z & W & ->); [apply H; left; reflexivity|].
  destruct (IH (set c g z) (fun o' I => H o' (or_intror I)) f) as [(a & o' & b & z' & -> & W' & N & E)|(N & E)].
  - left. exists (o :: a), o', b, z'. auto.
  - destruct (field_eq f g) as [->|D].
    + left. exists [], o, os, z. rewrite E, set_eq. auto.
    + right. rewrite E, set_neq by exact D. split; [|reflexivity]. intros o' z' [<-|I]; [rewrite W; congruence|exact (N _ _ I)].
Qed.
Print Assumptions C122_field.
(** The full claim, for the first build of a process, without WithAddr and WithConnectTimeOut. *)
Theorem C122_first_partial : forall os answers, (forall o, In o os -> is_addr o = false /\ is_connect o = false) ->
  exists c, build init os answers = (mkS c (Some c), if answers then Built c else NoAnswer) /\ forall f z, asked os f z <-> c f = z.
Proof.
  intros os answers H. assert (HA : forall o, In o os -> is_addr o = false) by (intros o I; apply H; exact I).
  assert (W : forall o, In o os -> written o = meant o) by (intros o I; destruct (H o I) as [_ C]; destruct o; try reflexivity; discriminate).
  pose proof (no_addr os defaults HA) as S. pose proof (C122_field os defaults HA) as F. unfold build. cbn [config init client]. destruct (apply_all os defaults) as [c k]. cbn in S, F. subst k. exists c. split; [reflexivity|].
  assert (G : forall f, asked os f (c f)).
  { intros f. destruct (F f) as [(a & o & b & z & E & W1 & N & V)|(N & V)].
    - left. exists a, o, b. rewrite V. split; [exact E|]. split; [rewrite <- W; [exact W1|rewrite E; apply in_elt]|]. intros o' z' I. rewrite <- W; [exact (N _ _ I)|]. rewrite E. apply in_app_iff. right. right. exact I.
    - right. split; [|rewrite V; destruct f; reflexivity]. intros o z' I. rewrite <- W by exact I. exact (N _ _ I). }
  intros f z. split; [|intros <-; apply G]. intros A. specialize (G f). generalize dependent (c f). intros y G. clear - A G.
  destruct A as [(a & o & b & E & M & N)|(N & D)], G as [(a' & o' & b' & E' & M' & N')|(N' & G)].
  - rewrite E in E'. clear E. revert a' E'. induction a as [|x a IH]; intros [|x' a'] E'; cbn in E'; injection E' as -> E'.
    + congruence.
    + exfalso. apply (N o' y); [rewrite E'; apply in_elt|exact M'].
    + exfalso. apply (N' o z); [rewrite <- E'; apply in_elt|exact M].
    + apply (IH a'). exact E'.
  - exfalso. apply (N' o z); [rewrite E; apply in_elt|exact M].
  - exfalso. apply (N o' y); [rewrite E'; apply in_elt|exact M'].
  - destruct f; cbn in D, G; congruence.
Qed.
Print Assumptions C122_first_partial.
(** As coded, for the client of any build of a process: all builds so far count. *)
Lemma builds_config l : forall s, (forall os a o, In (os, a) l -> In o os -> is_addr o = false) -> config (fst (builds s l)) = fst (apply_all (flat_map fst l) (config s)).
Proof.
  induction l as [|[os a] l IH]; intros s H; [reflexivity|]. cbn [builds flat_map fst].
  assert (N : forall o, In o os -> is_addr o = false) by (intros o; apply (H os a); left; reflexivity). unfold build.
  pose proof (no_addr os (config s) N) as S. destruct (apply_all os (config s)) as [c k] eqn:E. cbn in S. subst k.
  rewrite (apply_all_app _ _ _ _ E). specialize (IH (mkS c (Some c)) (fun os' a' o I => H os' a' o (or_intror I))).
  destruct (builds (mkS c (Some c)) l) as [s2 xs]. cbn in *. exact IH.
Qed.
Theorem C122_process : forall l os answers, (forall os' a o, In (os', a) (l ++ [(os, answers)]) -> In o os' -> is_addr o = false) ->
  exists c, client (fst (build (fst (builds init l)) os answers)) = Some c /\ forall f,
    (exists a o b, flat_map fst l ++ os = a ++ o :: b /\ written o = Some (f, c f) /\ forall o' z', In o' b -> written o' <> Some (f, z')) \/
    ((forall o z', In o (flat_map fst l ++ os) -> written o <> Some (f, z')) /\ default_of f (c f)).
Proof.
  intros l os answers H.
  assert (Hl : forall os a o, In (os, a) l -> In o os -> is_addr o = false) by (intros os' a o I; apply (H os' a); apply in_app_iff; left; exact I).
  assert (Ho : forall o, In o os -> is_addr o = false) by (intros o; apply (H os answers); apply in_app_iff; right; left; reflexivity).
  assert (Ha : forall o, In o (flat_map fst l) -> is_addr o = false) by (intros o I; apply in_flat_map in I as ([os' a] & I & J); exact (Hl os' a o I J)).
  assert (HA : forall o, In o (flat_map fst l ++ os) -> is_addr o = false) by (intros o I; apply in_app_iff in I as [I|I]; auto).
  pose proof (builds_config l init Hl) as C. destruct (apply_all (flat_map fst l) (config init)) as [c1 k1] eqn:E1. pose proof (no_addr _ (config init) Ha) as S1. rewrite E1 in S1. cbn in S1, C. subst k1.
  unfold build. rewrite C. pose proof (no_addr os c1 Ho) as S2. destruct (apply_all os c1) as [c k2] eqn:E2. cbn in S2. subst k2. exists c. split; [reflexivity|]. intros f.
  pose proof (C122_field _ (config init) HA f) as F. rewrite (apply_all_app _ _ _ _ E1), E2 in F. cbn in F.
  destruct F as [(a & o & b & z & E & W & N & V)|(N & V)]; [left; exists a, o, b; rewrite V; auto|right; split; [exact N|rewrite V; destruct f; reflexivity]].
Qed.
Print Assumptions C122_process.
(** The tracer is kept beside the other fields, and WithAddr does not change it. *)
Theorem C122_tracer : forall os s s' c, build s os true = (s', Built c) ->
  (exists a z b, os = a ++ WithTracer z :: b /\ c FTracer = z /\ forall z', ~ In (WithTracer z') b) \/ ((forall z, ~ In (WithTracer z) os) /\ c FTracer = config s FTracer).
Proof.
  intros os s s' c H. unfold build in H. destruct (apply_all os (config s)) as [c1 [|]] eqn:E; [|discriminate]. injection H as <- <-. revert E. generalize (config s). clear s.
  induction os as [|o os IH]; intros c0 E; cbn in E; [injection E as <-; right; auto|]. destruct (apply o c0) as [c2|] eqn:A; [|discriminate].
  destruct (IH _ E) as [(a & z & b & -> & V & N)|(N & V)]; [left; exists (o :: a), z, b; auto|].
  destruct o as [[u|]|z|z|z|z|z|z|z|z|z|z|z|z]; try discriminate A; injection A as <-; try (right; split; [intros z' [F|F]; [discriminate F|exact (N _ F)]|exact V]).
  left. exists [], z, os. auto.
Qed.
Print Assumptions C122_tracer.
(** Options of an earlier build stay. *)
Theorem C122_earlier_refuted : exists os1 os2 s x c f, builds init [(os1, true); (os2, true)] = (s, [x; Built c]) /\ (forall o, In o os2 -> is_addr o = false /\ is_connect o = false) /\ ~ asked os2 f (c f).
Proof.
  exists [WithPoolSize 5], [WithReadTimeOut 3]. eexists _, _, _, FPool. split; [reflexivity|]. split; [intros o [<-|[]]; auto|].
  intros [(a & o & b & E & M & _)|(_ & E)]; [|vm_compute in E; discriminate]. destruct a as [|? [|]]; try discriminate. injection E as <- _. discriminate.
Qed.
Print Assumptions C122_earlier_refuted.
(** The options before WithAddr in one build, and the defaults, are lost. *)
Theorem C122_addr_refuted : exists os url s c, build init os true = (s, Built c) /\ os = [WithPoolSize 5; WithAddr (Some url)] /\ c FPool = 0 /\ c FRead = 0 /\ url FPool = 0 /\ url FRead = 0.
Proof. exists [WithPoolSize 5; WithAddr (Some (set (fun _ => 0) FAddr 77))]. eexists _, _, _. repeat split. Qed.
Print Assumptions C122_addr_refuted.
Theorem C122_addr : forall a u b c, (forall o, In o b -> is_addr o = false) -> snd (apply_all a c) = true ->
  forall f, f <> FTracer -> fst (apply_all (a ++ WithAddr (Some u) :: b) c) f = fst (apply_all b u) f.
Proof.
  intros a u b c H S f N. destruct (apply_all a c) as [c1 k] eqn:E. cbn in S. subst k. rewrite (apply_all_app _ _ _ _ E). cbn [apply_all apply].
  assert (Q : forall os c c', (forall o, In o os -> is_addr o = false) -> c f = c' f -> fst (apply_all os c) f = fst (apply_all os c') f).
  { clear - N. induction os as [|o os IH]; intros c c' H E; [exact E|]. cbn [apply_all].
    destruct (apply_set o c) as (g & z & W & ->); [apply H; left; reflexivity|]. destruct (apply_set o c') as (g' & z' & W' & ->); [apply H; left; reflexivity|].
    rewrite W in W'. injection W' as <- <-. apply IH; [intros o' I; apply H; right; exact I|]. unfold set. destruct (field_eq f g); auto. }
  apply Q; [exact H|apply set_neq; exact N].
Qed.
Print Assumptions C122_addr.
(** WithConnectTimeOut limits the life of connections, not the time to connect. *)
Theorem C122_connect_refuted : forall d, 0 < d -> exists s c, build init [WithConnectTimeOut d] true = (s, Built c) /\ c FDial = 0 /\ c FLife = d /\ ~ asked [WithConnectTimeOut d] FDial (c FDial).
Proof.
  intros d D. eexists _, _. split; [reflexivity|]. split; [reflexivity|]. split; [reflexivity|].
  intros [(a & o & b & E & M & _)|(N & _)].
  - destruct a as [|? [|]]; try discriminate. injection E as <- _. cbn in M. injection M as M. cbn in M. lia.
  - apply (N (WithConnectTimeOut d) d); [left; reflexivity|reflexivity].
Qed.
Print Assumptions C122_connect_refuted.
Example C122_case : exists c, build init [WithDomain 8; WithPoolSize 5; WithReadTimeOut 3; WithPoolSize 6] true = (mkS c (Some c), Built c) /\ c FAddr = 8 /\ c FPool = 6 /\ c FRead = 3 /\ c FWrite = 10 /\
  asked [WithDomain 8; WithPoolSize 5; WithReadTimeOut 3; WithPoolSize 6] FPool 6.
Proof.
  eexists. split; [reflexivity|]. repeat split. left. exists [WithDomain 8; WithPoolSize 5; WithReadTimeOut 3], (WithPoolSize 6), []. split; [reflexivity|split; [reflexivity|intros ? ? []]].
Qed.

(** ** C123: a build that fails leaves the client in use *)
Theorem C123_url_partial : forall s os answers s', build s os answers = (s', BadURL) -> client s' = client s.
Proof. intros s os answers s' H. unfold build in H. destruct (apply_all os (config s)) as [c [|]]; [destruct answers; discriminate|]. injection H as <-. reflexivity. Qed.
Print Assumptions C123_url_partial.
(** The build fails so exactly when one of its URLs is bad. *)
Theorem C123_url_cause : forall s os answers, (exists s', build s os answers = (s', BadURL)) <-> In (WithAddr None) os.
Proof.
  intros s os answers. unfold build. generalize (config s). intros c.
  assert (Q : snd (apply_all os c) = false <-> In (WithAddr None) os).
  { revert c. induction os as [|o os IH]; intros c; [split; [discriminate|intros []]|]. cbn [apply_all].
    destruct (apply o c) as [c1|] eqn:A.
    - rewrite IH. split; [right; assumption|]. intros [->|I]; [discriminate A|exact I].
    - split; [|reflexivity]. intros _. left. destruct o as [[u|]| | | | | | | | | | | |]; try discriminate. reflexivity. }
  rewrite <- Q. destruct (apply_all os c) as [c1 [|]]; cbn; split; try discriminate; try reflexivity.
  - intros [s' H]. destruct answers; discriminate.
  - intros _. eexists. reflexivity.
Qed.
Print Assumptions C123_url_cause.
(** When the server does not answer, the new client is in use all the same. *)
Theorem C123_refuted : exists os1 os2 s1 s2 c1, build init os1 true = (s1, Built c1) /\ build s1 os2 false = (s2, NoAnswer) /\ client s1 = Some c1 /\ (exists c2, client s2 = Some c2 /\ c2 FAddr <> c1 FAddr).
Proof. exists [WithDomain 1], [WithDomain 2]. eexists _, _, _. split; [reflexivity|]. split; [reflexivity|]. split; [reflexivity|]. eexists. split; [reflexivity|]. vm_compute. discriminate. Qed.
Print Assumptions C123_refuted.
Example C123_case : exists s1 c1 s2, build init [WithDomain 1] true = (s1, Built c1) /\ build s1 [WithDomain 2; WithAddr None] true = (s2, BadURL) /\ client s2 = Some c1.
Proof. eexists _, _, _. split; [reflexivity|]. split; reflexivity. Qed.

(** ** C124: GetCmdsByteSlice gives every value, or an error *)
Lemma get_cmds_acc cmds : forall bts, get_cmds cmds bts = match get_cmds cmds [] with Ret l e => Ret (bts ++ l) e | Panic => Panic end.
Proof.
  induction cmds as [|[v|e|] r IH]; intros bts; cbn; rewrite ?app_nil_r; try reflexivity. rewrite (IH (bts ++ [v])), (IH [v]). destruct (get_cmds r []); [now rewrite <- app_assoc|reflexivity].
Qed.
(** When every command is a value, they are all there, in order. *)
Theorem C124_values_partial : forall vs, get_cmds (map CVal vs) [] = Ret vs None.
Proof. induction vs as [|v vs IH]; [reflexivity|]. cbn. rewrite get_cmds_acc, IH. reflexivity. Qed.
Print Assumptions C124_values_partial.
(** As coded: the values before the first error, and never an error. *)
Theorem C124_exact : forall cmds l e, get_cmds cmds [] = Ret l e -> e = None /\ ((cmds = map CVal l) \/ exists x rest, cmds = map CVal l ++ CErr x :: rest).
Proof.
  induction cmds as [|[v|x|] r IH]; intros l e H; cbn in H.
  - injection H as <- <-. auto.
  - rewrite get_cmds_acc in H. destruct (get_cmds r []) as [l' e'|]; [|discriminate]. injection H as <- <-. destruct (IH _ _ eq_refl) as (-> & [->|(y & rest & ->)]); split; auto; right; exists y, rest; reflexivity.
  - injection H as <- <-. split; [reflexivity|]. right. exists x, r. reflexivity.
  - discriminate.
Qed.
Print Assumptions C124_exact.
Theorem C124_panic : forall cmds, get_cmds cmds [] = Panic <-> exists vs rest, cmds = map CVal vs ++ COther :: rest.
Proof.
  induction cmds as [|[v|x|] r IH]; cbn.
  - split; [discriminate|]. intros ([|] & rest & E); discriminate.
  - rewrite get_cmds_acc. split.
    + intros H. destruct (get_cmds r []) as [l e|]; [discriminate|]. destruct (proj1 IH eq_refl) as (vs & rest & ->). exists (v :: vs), rest. reflexivity.
    + intros ([|w vs] & rest & E); [discriminate|]. injection E as -> ->. rewrite (proj2 IH); [reflexivity|eauto].
  - split; [discriminate|]. intros ([|] & rest & E); discriminate.
  - split; [|reflexivity]. intros _. exists [], r. reflexivity.
Qed.
Print Assumptions C124_panic.
Theorem C124_refuted : exists cmds vals, get_cmds cmds [] = Ret vals None /\ vals <> vals_of cmds /\ exists e, In (CErr e) cmds.
Proof. exists [CVal 1; CErr 5; CVal 2], [1]. split; [reflexivity|]. split; [discriminate|]. exists 5. cbn. auto. Qed.
Print Assumptions C124_refuted.
Example C124_case : get_cmds [CVal 1; CVal 2; CVal 3] [] = Ret [1; 2; 3] None /\ get_cmds [CVal 1; COther] [] = Panic.
Proof. split; reflexivity. Qed.
