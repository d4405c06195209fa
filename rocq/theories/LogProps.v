(** C125-C132: the log. *)
From Coq Require Import List ZArith Bool Ascii String Lia.
From Verif Require Import LogModel LogSpec.
Import ListNotations.
Local Open Scope string_scope.
Local Open Scope list_scope.
Local Open Scope Z_scope.

(** ** C125: a message is written once when its level is enabled, and else not at all *)
Theorem C125_once : forall h stack a,
  (hmin h <= severity a -> exists fs, entries (call h stack a) = [mkE (severity a) (text a) fs] /\ In ("ServerTag", VText (htag h)) fs /\ incl (given a) fs /\ NoDup (map fst fs)) /\
  (severity a < hmin h -> entries (call h stack a) = [] /\ printed (call h stack a) = []).
Proof.
  assert (N : forall k : list string, (if (fix nd (l : list string) := match l with [] => true | x :: r => negb (existsb (String.eqb x) r) && nd r end) k then true else false) = true -> NoDup k).
  { induction k as [|x k IH]; cbn; intros H; [constructor|]. destruct (existsb (String.eqb x) k) eqn:X; [discriminate|]. constructor; [|apply IH; exact H].
    intros I. assert (existsb (String.eqb x) k = true) by (apply existsb_exists; exists x; split; [exact I|apply String.eqb_refl]). congruence. }
  intros h stack a. split.
  - intros L. destruct a; cbn [severity text given call] in *; unfold log, system_log, system_req, enabled; rewrite (proj2 (Z.leb_le _ _) L); eexists; (split; [reflexivity|]); (split; [left; reflexivity|]); (split; [|apply N; reflexivity]); intros f I; cbn in *; tauto.
  - intros L. destruct a; cbn [severity text given call] in *; unfold log, system_log, system_req, enabled; rewrite (proj2 (Z.leb_gt _ _) L); split; reflexivity.
Qed.
Print Assumptions C125_once.
(** The same of a helper, for the levels that zap has. *)
Theorem C125_levels : forall h l stack msg, -1 <= l <= 5 -> hmin h <= l -> exists fs, entries (log h l stack msg) = [mkE l msg fs] /\ In ("ServerTag", VText (htag h)) fs.
Proof.
  intros h l stack msg R L. unfold log, enabled. rewrite (proj2 (Z.leb_le _ _) L). cbn [negb].
  assert (E : l = -1 \/ l = 0 \/ l = 1 \/ l = 2 \/ l = 3 \/ l = 4 \/ l = 5) by lia.
  destruct E as [->|[->|[->|[->|[->|[->| ->]]]]]]; eexists; (split; [reflexivity|left; reflexivity]).
Qed.
Print Assumptions C125_levels.
Example C125_case : entries (call (mkH 0 "gate") "main.go" (ErrorF "lost")) = [mkE 2 "lost" [("ServerTag", VText "gate"); ("stack_trace", VText "main.go")]] /\
  entries (call (mkH 0 "gate") "main.go" (DebugF "tick")) = [] /\
  entries (call (mkH 0 "gate") "" (SystemInfo 7 "a1" "/login" "t" "ip" "ok")) = [mkE 0 "ok" [("ServerTag", VText "gate"); ("accID", VText "a1"); ("eCode", VInt 7); ("path", VText "/login"); ("token", VText "t"); ("realIP", VText "ip")]].
Proof. repeat split. Qed.

(** ** C126: PanicF does not return, every other function of the log does *)
Theorem C126_panics_partial : forall h stack msg, hmin h <= 4 -> ends (call h stack (PanicF msg)) = Panics.
Proof. intros h stack msg L. cbn [call]. unfold log, enabled. rewrite (proj2 (Z.leb_le _ _) L). reflexivity. Qed.
Print Assumptions C126_panics_partial.
(** Log of a helper, at any level: panics at panic, ends the process at fatal, and returns
    otherwise; an entry is written before. *)
Theorem C126_log : forall h l stack msg, hmin h <= l -> -1 <= l <= 5 -> List.length (entries (log h l stack msg)) = 1%nat /\ (ends (log h l stack msg) = Panics <-> l = 4) /\ (ends (log h l stack msg) = Exits <-> l = 5).
Proof.
  intros h l stack msg L R. unfold log, enabled. rewrite (proj2 (Z.leb_le _ _) L). cbn [negb].
  assert (E : l = -1 \/ l = 0 \/ l = 1 \/ l = 2 \/ l = 3 \/ l = 4 \/ l = 5) by lia.
  destruct E as [->|[->|[->|[->|[->|[->| ->]]]]]]; cbn; (split; [reflexivity|]); split; split; intros; try discriminate; reflexivity.
Qed.
Print Assumptions C126_log.
Theorem C126_returns : forall h stack a, is_panic a = false -> ends (call h stack a) = Returns.
Proof. intros h stack a H. destruct a; try discriminate; cbn [call]; unfold log, system_log, system_req; destruct (enabled _ _); reflexivity. Qed.
Print Assumptions C126_returns.
(** With the level of the logger above, PanicF returns and leaves no trace. *)
Theorem C126_refuted : exists h, hmin h = 5 /\ forall stack msg, ends (call h stack (PanicF msg)) = Returns /\ entries (call h stack (PanicF msg)) = [] /\ printed (call h stack (PanicF msg)) = [].
Proof. exists (mkH 5 "gate"). repeat split. Qed.
Print Assumptions C126_refuted.
(** SystemLog of a helper, at the levels of panics: the message is enabled and lost. *)
Theorem C126_system_refuted : forall h l code id path token ip msg, hmin h <= l -> 3 <= l <= 5 -> system_log h l code id path token ip msg = mkF [] [] Returns.
Proof.
  intros h l code id path token ip msg L R. unfold system_log, enabled. rewrite (proj2 (Z.leb_le _ _) L). cbn [negb].
  assert (E : l = 3 \/ l = 4 \/ l = 5) by lia. destruct E as [->|[->| ->]]; reflexivity.
Qed.
Print Assumptions C126_system_refuted.
Example C126_case : ends (call (mkH 0 "gate") "" (PanicF "broken")) = Panics /\ ends (call (mkH 0 "gate") "" (ErrorF "broken")) = Returns.
Proof. split; reflexivity. Qed.

(** ** C127: a logger is what its options say *)
Lemma last_step {A} (pick : opt -> option A) (get : options -> A) :
  (forall x o o', apply x o = Some o' -> get o' = match pick x with Some v => v | None => get o end) ->
  forall xs o o', apply_all xs o = Some o' -> last_of pick xs (get o) (get o').
Proof.
  intros S xs. induction xs as [|x xs IH]; intros o o' H; cbn in H; [injection H as <-; right; split; [intros y []|reflexivity]|].
  destruct (apply x o) as [o1|] eqn:E; [|discriminate]. destruct (IH _ _ H) as [(a & y & b & -> & P & N)|(N & V)]; [left; exists (x :: a), y, b; auto|].
  rewrite (S _ _ _ E) in V. destruct (pick x) as [v|] eqn:P.
  - left. exists [], x, xs. rewrite V. auto.
  - right. split; [intros y [<-|I]; auto|exact V].
Qed.
Ltac pick_tac := let x := fresh in let o := fresh in let o' := fresh in let H := fresh in intros x o o' H; destruct x; cbn in H; try discriminate; injection H as <-; reflexivity.
Lemma build_inv m xs rotates m' lg : new_logger m xs rotates = (m', Some lg) -> exists o, new_options (List.length m) xs = Some o /\
  llevel lg = olevel o /\ lconf lg = nth (ocell o) (m ++ [mkC Short false]) (mkC Short false) /\ lcaller lg = ocaller o /\ (ocaller o = true -> lskip lg = oskip o) /\
  lfile lg = negb (String.eqb (oglob o) "") /\ lstdout lg = (if lfile lg then ostd o else true) /\ (lfile lg = true -> rotates = true) /\
  m' = if ocaller o then put (m ++ [mkC Short false]) (ocell o) (mkC (wanted_print (ofunc o)) false) else m ++ [mkC Short false].
Proof.
  unfold new_logger. rewrite app_length. cbn [List.length]. replace (List.length m + 1 - 1)%nat with (List.length m) by lia.
  destruct (new_options _ xs) as [o|]; [|discriminate]. intros H. exists o. split; [reflexivity|].
  destruct (negb (String.eqb (oglob o) "")) eqn:G, rotates; cbn in H; try discriminate; destruct (ocaller o) eqn:C; injection H as <- <-; cbn; repeat split; auto; discriminate.
Qed.
(** All but the form of the caller. *)
Theorem C127_options_partial : forall m xs rotates m' lg, new_logger m xs rotates = (m', Some lg) ->
  last_of level_opt xs 0 (llevel lg) /\ last_of caller_opt xs false (lcaller lg) /\ (lcaller lg = true -> last_of skip_opt xs 0 (lskip lg)) /\
  (exists g, last_of glob_opt xs "" g /\ (lfile lg = true <-> g <> "")) /\
  (exists b, last_of std_opt xs false b /\ (lstdout lg = true <-> b = true \/ lfile lg = false)).
Proof.
  intros m xs rotates m' lg H. destruct (build_inv _ _ _ _ _ H) as (o & O & L & _ & C & K & F & D & _). unfold new_options in O.
  split; [rewrite L; refine (last_step level_opt olevel _ _ _ _ O); pick_tac|].
  split; [rewrite C; refine (last_step caller_opt ocaller _ _ _ _ O); pick_tac|].
  split; [intros X; rewrite K by congruence; refine (last_step skip_opt oskip _ _ _ _ O); pick_tac|].
  split.
  - exists (oglob o). split; [refine (last_step glob_opt oglob _ _ _ _ O); pick_tac|]. rewrite F. destruct (String.eqb_spec (oglob o) "") as [E|E]; cbn; split; intros; auto; congruence.
  - exists (ostd o). split; [refine (last_step std_opt ostd _ _ _ _ O); pick_tac|]. rewrite D. destruct (lfile lg), (ostd o); split; auto; try (intros [X|X]; discriminate X).
Qed.
Print Assumptions C127_options_partial.
(** A logger is built unless an option errs or the file cannot be opened. *)
Theorem C127_error : forall m xs rotates, snd (new_logger m xs rotates) = None <-> In Err xs \/ (rotates = false /\ exists g, last_of glob_opt xs "" g /\ g <> "").
Proof.
  intros m xs rotates. unfold new_logger. generalize (List.length (m ++ [mkC Short false]) - 1)%nat. intros n.
  assert (Q : new_options n xs = None <-> In Err xs).
  { unfold new_options. generalize (mkO n 0 false false 0 "" false). induction xs as [|x xs IH]; intros o; cbn; [split; [discriminate|intros []]|].
    destruct (apply x o) eqn:A; [rewrite IH; split; [auto|intros [->|I]; [discriminate A|exact I]]|]. split; [|reflexivity]. intros _. left. destruct x; try discriminate. reflexivity. }
  destruct (new_options n xs) as [o|] eqn:O; [|split; [intros _; left; apply Q; reflexivity|reflexivity]].
  assert (NE : ~ In Err xs) by (intros I; apply Q in I; discriminate).
  assert (G : last_of glob_opt xs "" (oglob o)) by (refine (last_step glob_opt oglob _ _ _ _ O); pick_tac).
  assert (U : forall g, last_of glob_opt xs "" g -> g = oglob o).
  { intros g A. clear - A G. destruct A as [(a & x & b & E & M & N)|(N & ->)], G as [(a' & x' & b' & E' & M' & N')|(N' & G)].
    - rewrite E in E'. clear E. revert a' E'. induction a as [|y a IH]; intros [|y' a'] E'; cbn in E'; injection E' as -> E'.
      + congruence.
      + rewrite (N x') in M'; [discriminate|]. rewrite E'. apply in_elt.
      + rewrite (N' x) in M; [discriminate|]. rewrite <- E'. apply in_elt.
      + apply (IH a'). exact E'.
    - rewrite (N' x) in M; [discriminate|]. rewrite E. apply in_elt.
    - rewrite (N x') in M'; [discriminate|]. rewrite E'. apply in_elt.
    - congruence. }
  destruct (String.eqb_spec (oglob o) "") as [E|E]; cbn.
  - split; [destruct (ocaller o); discriminate|]. intros [I|(_ & g & L & D)]; [contradiction|]. rewrite (U g L) in D. contradiction.
  - destruct rotates; cbn; split.
    + destruct (ocaller o); discriminate.
    + intros [I|(D & _)]; [contradiction|discriminate].
    + intros _. right. split; [reflexivity|]. exists (oglob o). auto.
    + reflexivity.
Qed.
Print Assumptions C127_error.
(** The form of the caller is that of the encoder configuration before the call, whatever
    WithCallerFunc says. *)
Theorem C127_caller : forall m xs rotates m' lg, new_logger m xs rotates = (m', Some lg) ->
  exists c, last_of conf_opt xs None c /\ match c with None => lconf lg = mkC Short false | Some i => (i < List.length m)%nat -> nth_error m i = Some (lconf lg) end.
Proof.
  intros m xs rotates m' lg H. destruct (build_inv _ _ _ _ _ H) as (o & O & _ & C & _). unfold new_options in O.
  assert (G : forall xs o o', apply_all xs o = Some o' -> exists c, last_of conf_opt xs None c /\ ocell o' = match c with None => ocell o | Some i => i end).
  { clear. induction xs as [|x xs IH]; intros o o' H; cbn in H; [injection H as <-; exists None; split; [right; split; [intros y []|reflexivity]|reflexivity]|].
    destruct (apply x o) as [o1|] eqn:E; [|discriminate]. destruct (IH _ _ H) as (c & [(a & y & b & -> & P & N)|(N & V)] & Q).
    - exists c. split; [left; exists (x :: a), y, b; auto|]. destruct c; [exact Q|]. destruct y; discriminate P.
    - subst c. destruct x; cbn in E; try discriminate; injection E as <-; cbn in Q; try (exists None; split; [right; split; [intros y [<-|I]; [reflexivity|auto]|reflexivity]|exact Q]).
      exists (Some cell). split; [left; exists [], (WithEncoderConf cell), xs; auto|exact Q]. }
  destruct (G _ _ _ O) as (c & L & E). exists c. split; [exact L|]. rewrite C, E. destruct c as [i|].
  - intros B. rewrite app_nth1 by exact B. apply nth_error_nth'. exact B.
  - cbn. rewrite app_nth2 by lia. rewrite Nat.sub_diag. reflexivity.
Qed.
Print Assumptions C127_caller.
(** So WithCallerFunc, asked for with the defaults for the rest, is not done. *)
Theorem C127_refuted : exists xs m lg, new_logger [] xs true = (m, Some lg) /\ last_of caller_opt xs false true /\ last_of func_opt xs false true /\ lcaller lg = true /\ cprint (lconf lg) <> wanted_print true /\ cprint (lconf lg) <> wanted_print false.
Proof.
  exists [WithCaller true; WithCallerFunc true]. eexists _, _. split; [reflexivity|].
  split; [left; exists [], (WithCaller true), [WithCallerFunc true]; split; [reflexivity|split; [reflexivity|intros y [<-|[]]; reflexivity]]|].
  split; [left; exists [WithCaller true], (WithCallerFunc true), []; split; [reflexivity|split; [reflexivity|intros y []]]|]. repeat split; discriminate.
Qed.
Print Assumptions C127_refuted.
Example C127_case : exists m lg, new_logger [] [WithLevel 1; WithGlobPattern "app.%Y.log"; WithLevel (-1); WithOutStd true] true = (m, Some lg) /\ llevel lg = -1 /\ lfile lg = true /\ lstdout lg = true /\ snd (new_logger [] [WithGlobPattern "/proc/x"] false) = None.
Proof. eexists _, _. repeat split. Qed.

(** ** C128: loggers that are built with the same options are alike *)
Theorem C128_same_partial : forall m1 m2 xs rotates, (forall c, ~ In (WithEncoderConf c) xs) -> snd (new_logger m1 xs rotates) = snd (new_logger m2 xs rotates).
Proof.
  intros m1 m2 xs rotates N.
  assert (G : forall xs n1 n2 l c f k g s, (forall c, ~ In (WithEncoderConf c) xs) -> match apply_all xs (mkO n1 l c f k g s), apply_all xs (mkO n2 l c f k g s) with
    | Some o1, Some o2 => ocell o1 = n1 /\ ocell o2 = n2 /\ olevel o1 = olevel o2 /\ ocaller o1 = ocaller o2 /\ ofunc o1 = ofunc o2 /\ oskip o1 = oskip o2 /\ oglob o1 = oglob o2 /\ ostd o1 = ostd o2
    | None, None => True | _, _ => False end).
  { clear. induction xs as [|x xs IH]; intros n1 n2 l c f k g s N; cbn; [repeat split|]. assert (N' : forall c, ~ In (WithEncoderConf c) xs) by (intros c' I; apply (N c'); right; exact I).
    destruct x; cbn; try (apply IH; exact N'); [|exact I]. exfalso. apply (N cell). left. reflexivity. }
  unfold new_logger. rewrite !app_length. cbn [List.length]. replace (List.length m1 + 1 - 1)%nat with (List.length m1) by lia. replace (List.length m2 + 1 - 1)%nat with (List.length m2) by lia. unfold new_options.
  specialize (G xs (List.length m1) (List.length m2) 0 false false 0 "" false N).
  destruct (apply_all xs (mkO (List.length m1) _ _ _ _ _ _)) as [o1|], (apply_all xs (mkO (List.length m2) _ _ _ _ _ _)) as [o2|]; try contradiction; [|reflexivity].
  destruct G as (E1 & E2 & -> & -> & -> & -> & -> & ->). rewrite E1, E2. rewrite !app_nth2 by lia. rewrite !Nat.sub_diag. destruct (_ && _); [reflexivity|]. destruct (ocaller o2); reflexivity.
Qed.
Print Assumptions C128_same_partial.
(** A logger that adds the caller changes the user's encoder configuration, so the next one
    differs. *)
Theorem C128_refuted : exists m xs m1 l1 m2 l2, new_logger m xs true = (m1, Some l1) /\ new_logger m1 xs true = (m2, Some l2) /\ l1 <> l2 /\ nth_error m1 0 <> nth_error m 0.
Proof. exists [mkC (Own 3) true], [WithEncoderConf 0; WithCaller true]. eexists _, _, _, _. split; [reflexivity|]. split; [reflexivity|]. split; discriminate. Qed.
Print Assumptions C128_refuted.
(** Otherwise the configurations stay as they are. *)
Lemma put_length m : forall i c, List.length (put m i c) = List.length m.
Proof. induction m as [|a m IH]; intros [|i] c; cbn; auto. Qed.
Lemma nth_put m : forall i j c, nth_error (put m i c) j = if (Nat.eqb i j && Nat.ltb j (List.length m))%bool then Some c else nth_error m j.
Proof.
  induction m as [|a m IH]; intros [|i] [|j] c; try reflexivity; cbn [put nth_error List.length].
  - destruct (_ && _) eqn:E; [|reflexivity]. apply andb_prop in E as [_ E]. apply Nat.ltb_lt in E. lia.
  - rewrite IH. reflexivity.
Qed.
Theorem C128_confs : forall m xs rotates m' r, new_logger m xs rotates = (m', r) -> forall i, (i < List.length m)%nat ->
  nth_error m' i = nth_error m i \/ (In (WithEncoderConf i) xs /\ In (WithCaller true) xs /\ exists func, nth_error m' i = Some (mkC (wanted_print func) false) /\ last_of func_opt xs false func).
Proof.
  intros m xs rotates m' r H i B. assert (K : nth_error (m ++ [mkC Short false]) i = nth_error m i) by (apply nth_error_app1; exact B).
  destruct r as [lg|].
  - destruct (build_inv _ _ _ _ _ H) as (o & O & _ & _ & _ & _ & _ & _ & _ & ->). destruct (ocaller o) eqn:C; [|left; exact K].
    rewrite nth_put. destruct (Nat.eqb_spec (ocell o) i) as [E|E]; [|left; exact K]. cbn [andb]. rewrite app_length. rewrite (proj2 (Nat.ltb_lt i _)) by (cbn; lia).
    right. unfold new_options in O.
    assert (G1 : last_of func_opt xs false (ofunc o)) by (refine (last_step func_opt ofunc _ _ _ _ O); pick_tac).
    assert (G2 : last_of caller_opt xs false (ocaller o)) by (refine (last_step caller_opt ocaller _ _ _ _ O); pick_tac).
    assert (G3 : last_of (fun x => match x with WithEncoderConf c => Some c | _ => None end) xs (List.length m) (ocell o)) by (refine (last_step (fun x => match x with WithEncoderConf c => Some c | _ => None end) ocell _ _ _ _ O); pick_tac).
    split; [destruct G3 as [(a & x & b & -> & P & _)|(_ & V)]; [|lia]; destruct x; try discriminate; injection P as ->; rewrite E; apply in_elt|].
    split; [destruct G2 as [(a & x & b & -> & P & _)|(_ & V)]; [|congruence]; destruct x; try discriminate; injection P as ->; rewrite C; apply in_elt|].
    exists (ofunc o). auto.
  - left. unfold new_logger in H. destruct (new_options _ xs) as [o|]; [|injection H as <-; exact K]. destruct (_ && _); [injection H as <-; exact K|]. destruct (ocaller o); discriminate.
Qed.
Print Assumptions C128_confs.
Example C128_case : exists m1 l1 m2 l2, new_logger [] [WithCaller true; WithCallerFunc true] true = (m1, Some l1) /\ new_logger m1 [WithCaller true; WithCallerFunc true] true = (m2, Some l2) /\ l1 = l2 /\ nth_error m2 0 = nth_error m1 0.
Proof. eexists _, _, _, _. repeat split. Qed.

(** ** C129: a message goes once to each output of the logger, and nowhere else *)
Theorem C129_outputs_partial : forall lg tag stack a, loud a = false \/ severity a < llevel lg ->
  exists es, (severity a < llevel lg -> es = []) /\ (llevel lg <= severity a -> exists fs, es = [mkE (severity a) (text a) fs] /\ In ("ServerTag", VText tag) fs) /\
  stdout lg (call (helper_of lg tag) stack a) = (if lstdout lg then map Json es else []) /\ file lg (call (helper_of lg tag) stack a) = if lfile lg then es else [].
Proof.
  intros lg tag stack a H. destruct (C125_once (helper_of lg tag) stack a) as [E D]. cbn [hmin helper_of] in E, D. exists (entries (call (helper_of lg tag) stack a)).
  split; [intros L; apply D; exact L|]. split; [intros L; destruct (E L) as (fs & -> & T & _); exists fs; split; [reflexivity|exact T]|]. split; [|reflexivity]. unfold stdout.
  assert (P : printed (call (helper_of lg tag) stack a) = []). { destruct H as [H|H]; [|apply D; exact H]. destruct a; try discriminate; cbn [call]; unfold log, system_log, system_req; destruct (enabled _ _); reflexivity. }
  rewrite P. reflexivity.
Qed.
Print Assumptions C129_outputs_partial.
(** As coded, WarnF and ErrorF are printed to standard output in any case. *)
Theorem C129_loud : forall lg tag stack a, loud a = true -> llevel lg <= severity a ->
  exists e, (etext e = text a /\ elevel e = severity a /\ In ("ServerTag", VText tag) (efields e)) /\ stdout lg (call (helper_of lg tag) stack a) = Printed (severity a) (text a) :: (if lstdout lg then [Json e] else []) /\ file lg (call (helper_of lg tag) stack a) = if lfile lg then [e] else [].
Proof.
  intros lg tag stack a H L. unfold stdout, file. destruct a; try discriminate; cbn [call severity text] in *; unfold log, enabled; cbn [hmin helper_of]; rewrite (proj2 (Z.leb_le _ _) L); eexists; (split; [|split; reflexivity]); (split; [reflexivity|split; [reflexivity|cbn; auto]]).
Qed.
Print Assumptions C129_loud.
(** So a logger that writes to a file only prints errors, and one that writes to standard
    output gives them twice. *)
Theorem C129_refuted : (exists m lg, new_logger [] [WithGlobPattern "app.log"; WithOutStd false] true = (m, Some lg) /\ lstdout lg = false /\ stdout lg (call (helper_of lg "gate") "" (ErrorF "lost")) <> []) /\
  (exists m lg, new_logger [] [] true = (m, Some lg) /\ List.length (stdout lg (call (helper_of lg "gate") "" (ErrorF "lost"))) = 2%nat).
Proof. split; eexists _, _; (split; [reflexivity|]); [split; [reflexivity|discriminate]|reflexivity]. Qed.
Print Assumptions C129_refuted.
Example C129_case : exists m lg, new_logger [] [WithGlobPattern "app.log"; WithOutStd true] true = (m, Some lg) /\ stdout lg (call (helper_of lg "gate") "" (InfoF "up")) = [Json (mkE 0 "up" [("ServerTag", VText "gate")])] /\ file lg (call (helper_of lg "gate") "" (InfoF "up")) = [mkE 0 "up" [("ServerTag", VText "gate")]].
Proof. eexists _, _. repeat split. Qed.

(** ** C130: TaDataFields loses no field *)
Lemma add_to_lookup m k v : NoDup (map fst m) -> NoDup (map fst (add_to m k v)) /\ (forall k' v', In (k', v') (add_to m k v) <-> (k' = k /\ v' = v) \/ (k' <> k /\ In (k', v') m)).
Proof.
  induction m as [|[a b] m IH]; cbn; intros N.
  - split; [constructor; [intros []|constructor]|]. intros k' v'. split; [intros [E|[]]; injection E as <- <-; auto|intros [(-> & ->)|(_ & [])]; auto].
  - inversion N as [|? ? NI NN]; subst. destruct (String.eqb_spec a k) as [->|D]; cbn.
    + split; [exact N|]. intros k' v'. split.
      * intros [E|I]; [injection E as <- <-; auto|]. right. split; [|auto]. intros ->. apply NI. apply in_map_iff. exists (k, v'). auto.
      * intros [(-> & ->)|(X & [E|I])]; [left; reflexivity|injection E as <- <-; contradiction|right; exact I].
    + destruct (IH NN) as (N1 & Q). split.
      * constructor; [|exact N1]. intros I. apply in_map_iff in I as ([a' b'] & E & I). cbn in E. subst a'. apply Q in I as [(-> & _)|(_ & I)]; [contradiction|]. apply NI. apply in_map_iff. exists (a, b'). auto.
      * intros k' v'. split.
        -- intros [E|I]; [injection E as <- <-; right; auto|]. apply Q in I as [X|(X & I)]; auto.
        -- intros [X|(X & [E|I])]; [right; apply Q; auto|left; exact E|right; apply Q; auto].
Qed.
Lemma lookup_in m k v : NoDup (map fst m) -> (lookup m k v <-> In (k, v) m).
Proof.
  intros N. split; [intros (a & b & -> & _); apply in_elt|]. intros I. apply in_split in I as (a & b & ->). exists a, b. split; [reflexivity|]. rewrite map_app in N. cbn in N. apply NoDup_remove_2 in N. intros X. apply N. apply in_app_iff. left. exact X.
Qed.
Lemma last_app fs k v k' v' : last_value (fs ++ [(k, v)]) k' v' <-> (k' = k /\ v' = v) \/ (k' <> k /\ last_value fs k' v').
Proof.
  split.
  - intros (a & b & E & N). destruct (exists_last (l := (k', v') :: b)) as (b' & x & Eb); [discriminate|]. rewrite Eb, app_assoc in E. apply app_inj_tail in E as (E & <-).
    destruct b' as [|y b']; cbn in Eb; injection Eb as Ey Eb.
    + left. split; congruence.
    + right. subst y b. rewrite map_app in N. cbn in N. split; [intros ->; apply N; apply in_app_iff; right; left; reflexivity|]. exists a, b'. split; [exact E|]. intros I. apply N. apply in_app_iff. left. exact I.
  - intros [(-> & ->)|(D & a & b & -> & N)]; [exists fs, []; auto|]. exists a, (b ++ [(k, v)]). split; [rewrite <- app_assoc; reflexivity|]. rewrite map_app. intros I. apply in_app_iff in I as [I|[I|[]]]; [auto|cbn in I; congruence].
Qed.
Lemma split_spec sub fs : forall done ret enc has,
  ret = map plain (filter (fun f => negb (sub (fst f))) done) -> NoDup (map fst enc) -> (forall k v, In (k, v) enc <-> last_value (filter (fun f => sub (fst f)) done) k v) -> has = existsb (fun f => sub (fst f)) done ->
  exists enc', split_fields sub fs ret enc has = (map plain (filter (fun f => negb (sub (fst f))) (done ++ fs)), enc', existsb (fun f => sub (fst f)) (done ++ fs)) /\
    NoDup (map fst enc') /\ forall k v, In (k, v) enc' <-> last_value (filter (fun f => sub (fst f)) (done ++ fs)) k v.
Proof.
  induction fs as [|[k v] fs IH]; intros done ret enc has R N Q H; cbn.
  - rewrite app_nil_r. exists enc. subst. auto.
  - replace (done ++ (k, v) :: fs) with ((done ++ [(k, v)]) ++ fs) by (rewrite <- app_assoc; reflexivity). destruct (sub k) eqn:S; apply IH.
    + rewrite filter_app. cbn. rewrite S. cbn. rewrite app_nil_r. exact R.
    + apply add_to_lookup. exact N.
    + intros k' v'. rewrite (proj2 (add_to_lookup enc k v N)). rewrite filter_app. cbn. rewrite S, last_app, Q. reflexivity.
    + rewrite existsb_app. cbn. rewrite S. now rewrite orb_true_r.
    + rewrite filter_app, map_app. cbn. rewrite S. cbn. rewrite R. reflexivity.
    + exact N.
    + intros k' v'. rewrite filter_app. cbn. rewrite S, app_nil_r. apply Q.
    + rewrite existsb_app. cbn. rewrite S, H. now rewrite !orb_false_r.
Qed.
(** The fields that are not chosen come first, in order; the chosen ones follow as one object
    with the last value of each key.  Fields of the common part come before the others. *)
Theorem C130_exact : forall common own key sub, let fs := match common with Some c => c | None => [] end ++ own in key <> "" ->
  exists tail, ta_fields common own key sub = map plain (filter (fun f => negb (sub (fst f))) fs) ++ tail /\
  ((forall f, In f fs -> sub (fst f) = false) /\ tail = [] \/
   (exists f, In f fs /\ sub (fst f) = true) /\ exists m, tail = [Object key m] /\ forall k v, lookup m k v <-> last_value (filter (fun f => sub (fst f)) fs) k v).
Proof.
  intros common own key sub fs D. unfold ta_fields. change (zap_fields common own) with fs. destruct key as [|c key]; [contradiction|]. cbn [String.length Nat.leb].
  destruct (split_spec sub fs [] [] [] false) as (enc & -> & N & Q); [reflexivity|constructor| |reflexivity|].
  { cbn. intros k v. split; [intros []|]. intros ([|] & b & E & _); discriminate E. }
  cbn [app]. destruct (existsb _ fs) eqn:X.
  - eexists. split; [reflexivity|]. right. apply existsb_exists in X. split; [exact X|]. exists enc. split; [reflexivity|]. intros k v. rewrite lookup_in by exact N. apply Q.
  - exists []. rewrite app_nil_r. split; [reflexivity|]. left. split; [|reflexivity]. intros f I. destruct (sub (fst f)) eqn:S; [|reflexivity]. assert (T : existsb (fun f => sub (fst f)) fs = true) by (apply existsb_exists; exists f; auto). unfold fields in *. congruence.
Qed.
Print Assumptions C130_exact.
Theorem C130_nokey : forall common own sub, ta_fields common own "" sub = map plain (match common with Some c => c | None => [] end ++ own).
Proof. reflexivity. Qed.
Print Assumptions C130_nokey.
(** No field is lost when no key comes twice. *)
Theorem C130_all_partial : forall common own key sub, let fs := match common with Some c => c | None => [] end ++ own in NoDup (map fst fs) -> forall k v, In (k, v) fs ->
  In (Plain k v) (ta_fields common own key sub) \/ exists m, In (Object key m) (ta_fields common own key sub) /\ lookup m k v.
Proof.
  intros common own key sub fs N k v I. destruct (string_dec key "") as [->|D].
  - left. rewrite C130_nokey. apply in_map_iff. exists (k, v). auto.
  - destruct (C130_exact common own key sub D) as (tail & E & T). rewrite E. fold fs in T. fold fs. destruct (sub k) eqn:S.
    + destruct T as [(F & _)|(_ & m & -> & Q)]; [specialize (F _ I); cbn in F; congruence|]. right. exists m. split; [apply in_app_iff; right; left; reflexivity|]. apply Q.
      assert (J : In (k, v) (filter (fun f => sub (fst f)) fs)) by (apply filter_In; auto). apply in_split in J as (a & b & J). exists a, b. split; [exact J|].
      intros X. apply in_split in I as (a1 & b1 & I). rewrite I in N, J. rewrite map_app in N. cbn in N. apply NoDup_remove in N as (_ & N).
      rewrite filter_app in J. cbn in J. rewrite S in J.
      assert (NA : forall l, ~ In k (map fst l) -> ~ In k (map fst (filter (fun f : string * val => sub (fst f)) l))). { intros l Y Z. apply Y. apply in_map_iff in Z as (f & Ef & If). apply filter_In in If as (If & _). apply in_map_iff. exists f. auto. }
      assert (NL := NA a1 (fun Z => N (in_or_app _ _ _ (or_introl Z)))). assert (NR := NA b1 (fun Z => N (in_or_app _ _ _ (or_intror Z)))). clear - J NL NR X.
      revert a J. generalize dependent (filter (fun f : string * val => sub (fst f)) a1). intros p. induction p as [|y p IH]; intros NL [|z a] J; cbn in J; [injection J as J|injection J as J1 J|injection J as J1 J|injection J as J1 J].
      * apply NR. rewrite J. exact X.
      * apply NR. rewrite J. rewrite map_app. apply in_app_iff. right. left. reflexivity.
      * apply NL. left. rewrite J1. reflexivity.
      * apply (IH (fun Z => NL (or_intror Z)) a J).
    + left. apply in_app_iff. left. apply in_map_iff. exists (k, v). split; [reflexivity|]. apply filter_In. cbn. rewrite S. auto.
Qed.
Print Assumptions C130_all_partial.
(** A field of the common part is lost when the flow has one of the same name. *)
Theorem C130_refuted : exists common own key sub k v, In (k, v) common /\ ~ In (Plain k v) (ta_fields (Some common) own key sub) /\ forall m, In (Object key m) (ta_fields (Some common) own key sub) -> ~ In (k, v) m.
Proof.
  exists [("id", VInt 1)], [("id", VInt 2)], "properties", (fun _ => true), "id", (VInt 1). cbn. split; [auto|]. split; [intros [E|[]]; discriminate|].
  intros m [E|[]]. injection E as <-. intros [E|[]]. discriminate.
Qed.
Print Assumptions C130_refuted.
Example C130_case : ta_fields (Some [("acc", VText "a1"); ("lv", VInt 3)]) [("item", VInt 9); ("n", VInt 2)] "properties" (fun k => String.eqb k "item" || String.eqb k "lv") = [Plain "acc" (VText "a1"); Plain "n" (VInt 2); Object "properties" [("lv", VInt 3); ("item", VInt 9)]].
Proof. reflexivity. Qed.

(** ** C131: every field is registered once, with its first type, in the order of registration *)
Lemma registers_spec l : forall fs, exists g bs, registers fs l = (fs ++ g, bs) /\ within g l /\ List.length bs = List.length l /\
  (forall k v, In (k, v) g <-> exists a b, l = a ++ (k, v) :: b /\ ~ In k (map fst (fs ++ a))) /\
  (forall a k v b, l = a ++ (k, v) :: b -> (nth_error bs (List.length a) = Some true <-> In k (map fst (fs ++ a)))).
Proof.
  induction l as [|[k v] l IH]; intros fs.
  - exists [], []. rewrite app_nil_r. split; [reflexivity|]. split; [apply within_nil|]. split; [reflexivity|]. split; [intros k v; split; [intros []|intros ([|] & b & E & _); discriminate E]|]. intros [|] k v b E; discriminate E.
  - cbn [registers]. unfold register. destruct (existsb (fun f => String.eqb (fst f) k) fs) eqn:X.
    + assert (XI : In k (map fst fs)). { apply existsb_exists in X as (f & I & E). apply String.eqb_eq in E. apply in_map_iff. exists f. auto. }
      destruct (IH fs) as (g & bs & -> & W & L & Q & B). exists g, (true :: bs). split; [reflexivity|]. split; [constructor; exact W|]. split; [cbn; lia|]. split.
      * intros k' v'. rewrite Q. split.
        -- intros (a & b & -> & N). exists ((k, v) :: a), b. split; [reflexivity|]. rewrite map_app in *. cbn. intros I. apply N. apply in_app_iff in I as [I|[<-|I]]; apply in_app_iff; auto.
        -- intros ([|y a] & b & E & N); cbn in E; [injection E as <- <- E; destruct N; rewrite app_nil_r; exact XI|injection E as E1 E]. exists a, b. split; [exact E|]. intros I. apply N. rewrite map_app in *. cbn. apply in_app_iff in I as [I|I]; apply in_app_iff; cbn; auto.
      * intros [|y a] k' v' b E; cbn in E.
        -- injection E as <- <- E. rewrite app_nil_r. cbn. split; auto.
        -- injection E as E1 E. subst y. cbn [List.length nth_error]. rewrite (B _ _ _ _ E). rewrite !map_app, !in_app_iff. cbn. split; [intuition auto|]. intros [I|[<-|I]]; auto.
    + assert (XI : ~ In k (map fst fs)). { intros I. apply in_map_iff in I as (f & E & I). assert (existsb (fun f => String.eqb (fst f) k) fs = true) by (apply existsb_exists; exists f; split; [exact I|apply String.eqb_eq; exact E]). unfold registry in *. congruence. }
      destruct (IH (fs ++ [(k, v)])) as (g & bs & -> & W & L & Q & B). exists ((k, v) :: g), (false :: bs). split; [rewrite <- app_assoc; reflexivity|]. split; [apply within_keep; exact W|]. split; [cbn; lia|].
      assert (M : forall a x, In x (map fst ((fs ++ [(k, v)]) ++ a)) <-> In x (map fst (fs ++ (k, v) :: a))) by (intros a x; rewrite <- app_assoc; reflexivity). split.
      * intros k' v'. split.
        -- intros [E|I]; [injection E as <- <-; exists [], l; split; [reflexivity|rewrite app_nil_r; exact XI]|]. apply Q in I as (a & b & -> & N). exists ((k, v) :: a), b. split; [reflexivity|]. rewrite <- M. exact N.
        -- intros ([|y a] & b & E & N); cbn in E; [injection E as <- <- E; left; reflexivity|injection E as E1 E]. subst y. right. apply Q. exists a, b. split; [exact E|]. rewrite M. exact N.
      * intros [|y a] k' v' b E; cbn in E.
        -- injection E as <- <- E. rewrite app_nil_r. cbn. split; [discriminate|contradiction].
        -- injection E as E1 E. subst y. cbn [List.length nth_error]. rewrite (B _ _ _ _ E). apply M.
Qed.
Theorem C131_registered : forall l, exists g bs, registers [] l = (g, bs) /\ within g l /\ NoDup (map fst g) /\
  (forall k v, In (k, v) g <-> exists a b, l = a ++ (k, v) :: b /\ ~ In k (map fst a)) /\
  (forall a k v b, l = a ++ (k, v) :: b -> (nth_error bs (List.length a) = Some true <-> In k (map fst a))).
Proof.
  intros l. destruct (registers_spec l []) as (g & bs & E & W & _ & Q & B). exists g, bs. cbn [app] in *. split; [exact E|]. split; [exact W|]. split; [|auto].
  assert (G : forall l fs, NoDup (map fst fs) -> NoDup (map fst (fst (registers fs l)))); [|pose proof (G l [] (NoDup_nil _)) as N; rewrite E in N; exact N].
  clear. induction l as [|[k v] l IH]; intros fs N; [exact N|]. cbn [registers]. unfold register. destruct (existsb _ fs) eqn:X.
  - specialize (IH fs N). destruct (registers fs l). exact IH.
  - specialize (IH (fs ++ [(k, v)])). destruct (registers (fs ++ [(k, v)]) l). apply IH. rewrite map_app. cbn. apply NoDup_Add with (a := k) (l := map fst fs); [|split; [exact N|]].
    + replace (map fst fs) with (map fst fs ++ []) at 1 by apply app_nil_r. apply Add_app.
    + intros I. apply in_map_iff in I as (f & Ef & I). assert (T : existsb (fun f => String.eqb (fst f) k) fs = true) by (apply existsb_exists; exists f; split; [exact I|apply String.eqb_eq; exact Ef]). unfold registry in *. congruence.
Qed.
Print Assumptions C131_registered.
Example C131_case : registers [] [("id", "int32"); ("name", "string"); ("id", "string"); ("age", "int32")] = ([("id", "int32"); ("name", "string"); ("age", "int32")], [false; false; true; false]).
Proof. reflexivity. Qed.

(** ** C132: the name of a function is printed without its package *)
Lemma scan_spec back : forall after, match scan back after with
  | Some s => exists a b, back = a ++ "."%char :: b /\ s = rev a ++ after /\ ~ In "."%char a /\ ~ In "/"%char a
  | None => forall a b, back = a ++ "."%char :: b -> In "/"%char a end.
Proof.
  induction back as [|c r IH]; intros after; cbn; [intros [|] b E; discriminate|].
  destruct (Ascii.eqb_spec c "/"%char) as [->|D1].
  - intros [|x a] b E; cbn in E; injection E as E1 E; [discriminate|left; symmetry; exact E1].
  - destruct (Ascii.eqb_spec c "."%char) as [->|D2]; [exists [], r; repeat split; intros []|]. specialize (IH (c :: after)). destruct (scan r (c :: after)).
    + destruct IH as (a & b & -> & -> & N1 & N2). exists (c :: a), b. split; [reflexivity|]. split; [cbn; rewrite <- app_assoc; reflexivity|]. split; intros [E|I]; auto.
    + intros [|x a] b E; cbn in E; injection E as E1 E; [congruence|]. right. exact (IH _ _ E).
Qed.
Theorem C132_short : forall name,
  (exists p s, name = p ++ "."%char :: s /\ ~ In "."%char s /\ ~ In "/"%char s /\ short_name name = s) \/
  ((forall p s, name = p ++ "."%char :: s -> In "/"%char s) /\ short_name name = name).
Proof.
  intros name. unfold short_name. pose proof (scan_spec (rev name) []) as H. destruct (scan (rev name) []) as [s|].
  - left. destruct H as (a & b & E & -> & N1 & N2). exists (rev b), (rev a). rewrite app_nil_r. split; [rewrite <- (rev_involutive name), E, rev_app_distr; cbn; rewrite <- app_assoc; reflexivity|]. split; [rewrite <- in_rev; exact N1|]. split; [rewrite <- in_rev; exact N2|reflexivity].
  - right. split; [|reflexivity]. intros p s ->. apply in_rev. apply (H (rev s) (rev p)). rewrite rev_app_distr. cbn. rewrite <- app_assoc. reflexivity.
Qed.
Print Assumptions C132_short.
(** In particular, of a method or function of a package. *)
Theorem C132_function : forall path f, ~ In "."%char f -> ~ In "/"%char f -> short_name (path ++ "."%char :: f) = f.
Proof.
  intros path f N1 N2. destruct (C132_short (path ++ "."%char :: f)) as [(p & s & E & M1 & M2 & ->)|(A & _)]; [|destruct (N2 (A _ _ eq_refl))].
  clear - E N1 M1. revert p E. induction path as [|x path IH]; intros [|y p] E; cbn in E; [injection E as E; symmetry; exact E|injection E as E1 E|injection E as E1 E|injection E as E1 E; exact (IH _ E)].
  - destruct N1. rewrite E. apply in_elt.
  - destruct M1. rewrite <- E. apply in_elt.
Qed.
Print Assumptions C132_function.
Example C132_case : short_name (list_ascii_of_string "github.com/pojol/braid/core/node.(*process).Init") = list_ascii_of_string "Init" /\ short_name (list_ascii_of_string "example.com/main") = list_ascii_of_string "example.com/main".
Proof. split; reflexivity. Qed.
