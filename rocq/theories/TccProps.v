(** C170 to C172: transactions over several actors.
    Model: [TccModel].  Vocabulary: [TccSpec].  Invariants: [TccProofs]. *)
From Coq Require Import List Arith Bool Lia.
From Verif Require Import Machine MachineMore TccModel TccSpec TccProofs.
Import ListNotations.

(** ** C170  A transaction takes place at both participants or at neither *)

(** Participant C is closed: B is changed and stays so, C is not, and the call returned as usual. *)
Theorem C170_refuted : exists sched s evs, run step init sched = Some (s, evs) /\ quiet s /\
  In (VReturn 0) evs /\ value (get s B) = new B /\ value (get s C) = old C /\ lookup 0 (tries (get s B)) = Some (old B).
Proof.
  exists [LClose C; LCall; LStep; LStep; LStep; LHandle B; LReturn 0]. eexists _, _. split; [lazy; reflexivity|]. repeat split.
  - intros t L. cbn in L. left. lia.
  - cbn. tauto.
Qed.
Print Assumptions C170_refuted.

(** A call that returned without a time-out, and for which no participant was closed, has been tried and confirmed at both. *)
Theorem C170_both sched s evs x y t : run step init sched = Some (s, evs) -> evs = x ++ VReturn t :: y ->
  (forall p k, ~ In (VRefused p k t) x) -> forall p, tried x p t /\ exists found, In (VConfirm p t found) x.
Proof.
  intros H E U p. destruct (before _ _ _ _ _ _ H E) as (a & s1 & s2 & l & H1 & S). destruct (return_inv _ _ _ _ S) as [L1 L2].
  unfold busy in L2. apply orb_false_iff in L2 as [L2 Lc]. apply orb_false_iff in L2 as [L2 Lb]. apply orb_false_iff in L2 as [Li Lr].
  assert (P : plan Over x t).
  { apply (c_plan _ _ (coord_run _ _ _ H1)). cbn. split; [exact L1|]. split.
    - intros K. assert (X : existsb (Nat.eqb t) (inbox s1) = true) by (apply existsb_exists; exists t; split; [exact K|apply Nat.eqb_refl]). congruence.
    - intros c K. rewrite K, Nat.eqb_refl in Lr. discriminate. }
  destruct P as [_ P]. specialize (P U p). rewrite <- (queue_run _ _ _ H1 p t) in P.
  assert (boxed t (box (get s1 p)) = []) as Eb by (apply unboxed; destruct p; assumption). rewrite Eb, app_nil_r in P. split.
  - apply hist_tried. rewrite P. now left.
  - apply hist_confirm. rewrite P. right. now left.
Qed.
Print Assumptions C170_both.

(** Then, as long as nobody cancels, both show the new value. *)
Theorem C170_value sched s evs t : run step init sched = Some (s, evs) -> In (VReturn t) evs ->
  (forall p k, ~ In (VRefused p k t) evs) -> forall p, (forall u r, ~ In (VCancel p u (Some r)) evs) -> value (get s p) = new p.
Proof.
  intros H K U p N. apply in_split in K as (x & y & E).
  destruct (C170_both _ _ _ _ _ _ H E) with (p := p) as [(o & T) _].
  { intros q k J. apply (U q k). rewrite E. apply in_or_app. now left. }
  assert (T' : In (VTry p t o) evs) by (rewrite E; apply in_or_app; now left).
  destruct (t_shows _ _ (tries_run _ _ _ H) p) as [(a & e & b & Eb & S & _)|(_ & Z)].
  - inversion S as [p' u o' E1 E2 E3|p' u o' E1 E2 E3]; subst p' e; [reflexivity|]. elim (N u o'). rewrite Eb. apply in_elt.
  - elim (Z _ (new p) T'). constructor.
Qed.
Print Assumptions C170_value.

(** Calls of the coordinator fail only at a participant that was closed. *)
Theorem C170_refused sched s evs x y p k t : run step init sched = Some (s, evs) -> evs = x ++ VRefused p k t :: y -> In (VClose p) x.
Proof.
  intros H E. destruct (before _ _ _ _ _ _ H E) as (a & s1 & s2 & l & H1 & S).
  assert (R : run step init (a ++ [l]) = Some (s2, x ++ [VRefused p k t])) by (eapply run_app; [exact H1|]; cbn; now rewrite S).
  pose proof (t_refused _ _ (tries_run _ _ _ R) p k t (in_elt _ _ _)) as K. apply in_app_or in K as [K|[K|[]]]; [exact K|discriminate].
Qed.
Print Assumptions C170_refused.

(** If one of the two tries is refused, the other is never confirmed, and stays open until somebody cancels it. *)
Theorem C170_half sched s evs q t : run step init sched = Some (s, evs) -> In (VRefused q Try t) evs ->
  forall p, (forall found, ~ In (VConfirm p t found) evs) /\ (tried evs p t -> ~ cancelled evs p t -> exists o, live evs p t o).
Proof.
  intros H R p.
  assert (N : forall found, ~ In (VConfirm p t found) evs).
  { intros f K. apply confirm_hist in K. assert (J : In Confirm (sent p t evs)) by (rewrite <- (queue_run _ _ _ H p t); apply in_or_app; now left).
    revert J. pose proof (coord_run _ _ _ H) as I. assert (exists w, loc s t w) as (w & L).
    { destruct (le_lt_dec (calls s) t) as [L|L]; [exists Waiting; now left|]. destruct (in_dec Nat.eq_dec t (inbox s)) as [K'|K']; [exists Waiting; now right|].
      destruct (running s) as [[u c]|] eqn:Ru; [|exists Over; cbn; rewrite Ru; repeat split; auto; discriminate].
      destruct (Nat.eq_dec u t) as [->|D]; [exists (At c); exact Ru|]. exists Over. cbn. rewrite Ru. repeat split; auto. intros d E. congruence. }
    destruct (plan_fair w _ _ (c_plan _ _ I _ _ L)) as [_ F]. exact (F q R p). }
  split; [exact N|]. intros T C. pose proof (tries_run _ _ _ H) as I. destruct (lookup t (tries (get s p))) as [o|] eqn:L.
  - exists o. apply (t_some _ _ I _ _ _ L).
  - destruct (t_none _ _ I _ _ L T) as [K|K]; [elim (N _ K)|contradiction].
Qed.
Print Assumptions C170_half.

(** A call that has not returned can do so, without a time-out, as long as the message loops of the participants run. *)
Theorem C170_returns sched s evs t : run step init sched = Some (s, evs) -> In (VCall t) evs -> ~ In (VReturn t) evs -> ~ In (VTimeout t) evs ->
  (forall p, ended (get s p) = false) -> exists sched' s' evs', run step s sched' = Some (s', evs') /\ In (VReturn t) evs'.
Proof.
  intros H K R Q E. apply can_return; [apply (called _ _ _ H), K| |exact E]. intros J. destruct (proj2 (called _ _ _ H) _ J); contradiction.
Qed.
Print Assumptions C170_returns.
Example C170_returns_case : exists s evs, run step init [LCall; LStep; LClose C; LStep] = Some (s, evs) /\ In (VCall 0) evs /\ ~ In (VReturn 0) evs /\ ~ In (VTimeout 0) evs /\ forall p, ended (get s p) = false.
Proof.
  eexists _, _. split; [lazy; reflexivity|]. split; [cbn; tauto|]. split; [|split; [|now intros []]]; intros K; cbn in K; repeat destruct K as [K|K]; discriminate || contradiction.
Qed.

(** A run in which both take part: two calls at once, handled in turn. *)
Example C170_case : exists s evs, run step init [LCall; LCall; LStep; LStep; LStep; LHandle C; LStep; LStep; LStep; LHandle B; LHandle B; LHandle C; LReturn 0] = Some (s, evs) /\
  evs = [VCall 0; VCall 1; VSent B Try 0; VSent C Try 0; VTry C 0 22; VSent B Confirm 0; VSent C Confirm 0; VTry B 0 11; VConfirm B 0 true; VConfirm C 0 true] ++ VReturn 0 :: [].
Proof. eexists _, _. split; [lazy; reflexivity|reflexivity]. Qed.
Example C170_half_case : exists s evs, run step init [LClose C; LCall; LStep; LStep; LStep; LHandle B] = Some (s, evs) /\
  In (VRefused C Try 0) evs /\ tried evs B 0 /\ ~ cancelled evs B 0.
Proof.
  eexists _, _. split; [lazy; reflexivity|]. split; [cbn; tauto|]. split; [exists 11; cbn; tauto|]. intros (r & K). cbn in K. repeat destruct K as [K|K]; discriminate || contradiction.
Qed.

(** ** C171  A confirm finds its try *)

(** It is handled after its try, and finds it unless a cancel has found it before. *)
Theorem C171_found sched s evs x y p t found : run step init sched = Some (s, evs) -> evs = x ++ VConfirm p t found :: y ->
  tried x p t /\ (found = true <-> ~ cancelled x p t).
Proof.
  intros H E. destruct (before _ _ _ _ _ _ H E) as (a & s1 & s2 & l & H1 & S). destruct (handle_inv _ _ _ _ S Logic.I) as (q & k & u & r & Eb & Ev).
  pose proof (hist_orderly _ _ _ q u H1) as O. rewrite Eb in O. pose proof (tries_run _ _ _ H1) as T.
  destruct k; cbn in Ev; [discriminate| |destruct (lookup u _); discriminate]. cbn in O. rewrite Nat.eqb_refl in O. apply orderly_confirm in O as [O _].
  assert (NC : forall f, ~ In (VConfirm q u f) x) by (intros f K; apply confirm_hist in K; rewrite O in K; destruct K as [|[]]; discriminate).
  assert (TR : tried x q u) by (apply hist_tried; rewrite O; now left).
  destruct (lookup u (tries (get s1 q))) as [o|] eqn:L; injection Ev as -> -> ->; (split; [exact TR|]).
  - split; [intros _ K|reflexivity]. apply (t_some _ _ T _ _ _ L). now right.
  - split; [discriminate|]. intros K. elim K. destruct (t_none _ _ T _ _ L TR) as [J|J]; [elim (NC _ J)|exact J].
Qed.
Print Assumptions C171_found.

(** It is handled once, and the try is not handled again. *)
Theorem C171_once sched s evs x y p t found : run step init sched = Some (s, evs) -> evs = x ++ VConfirm p t found :: y ->
  ~ tried y p t /\ forall f, ~ In (VConfirm p t f) x /\ ~ In (VConfirm p t f) y.
Proof.
  intros H E. pose proof (orderly_prefix _ _ (hist_orderly _ _ _ p t H)) as O. rewrite E, hist_app in O. cbn in O. rewrite Nat.eqb_refl in O.
  destruct (part_eqb_spec p p); [|congruence]. cbn in O. apply orderly_confirm in O as [O1 O2]. fold (hist p t y) in O2. split; [|intros f; split].
  - intros K. apply tried_hist in K. now rewrite O2 in K.
  - intros K. apply confirm_hist in K. rewrite O1 in K. destruct K as [|[]]; discriminate.
  - intros K. apply confirm_hist in K. now rewrite O2 in K.
Qed.
Print Assumptions C171_once.

(** A cancel that overtakes the confirm (it was sent while the coordinator was between its calls). *)
Example C171_case : exists s evs, run step init [LCall; LStep; LStep; LCancel B 0; LStep; LStep; LHandle B; LHandle B; LHandle B] = Some (s, evs) /\
  evs = [VCall 0; VSent B Try 0; VSent C Try 0; VSent B Confirm 0; VTry B 0 11; VCancel B 0 (Some 11)] ++ VConfirm B 0 false :: [].
Proof. eexists _, _. split; [lazy; reflexivity|reflexivity]. Qed.

(** ** C172  Cancelling undoes a transaction *)

(** Both transactions at B are cancelled, but its value is not the first one again. *)
Theorem C172_refuted : exists sched s evs, run step init sched = Some (s, evs) /\ quiet s /\
  (forall t, tried evs B t -> cancelled evs B t) /\ value (get s B) <> old B.
Proof.
  exists [LClose C; LCall; LCall; LStep; LStep; LStep; LStep; LStep; LStep; LCancel B 0; LCancel B 1; LHandle B; LHandle B; LHandle B; LHandle B; LReturn 0; LReturn 1].
  eexists _, _. split; [lazy; reflexivity|]. split; [|split].
  - repeat split. intros t L. cbn in L |- *. lia.
  - intros t (o & K). cbn in K. repeat destruct K as [K|K]; try discriminate; try contradiction; injection K as <- <-; eexists; cbn; tauto.
  - cbn. discriminate.
Qed.
Print Assumptions C172_refuted.

(** A cancel finds the try exactly if it is neither confirmed nor cancelled. *)
Theorem C172_found sched s evs x y p t r : run step init sched = Some (s, evs) -> evs = x ++ VCancel p t r :: y ->
  (r <> None <-> exists o, live x p t o).
Proof.
  intros H E. destruct (before _ _ _ _ _ _ H E) as (a & s1 & s2 & l & H1 & S). destruct (handle_inv _ _ _ _ S Logic.I) as (q & k & u & z & Eb & Ev).
  pose proof (tries_run _ _ _ H1) as T. destruct k; cbn in Ev; [discriminate|destruct (lookup u _); discriminate|].
  destruct (lookup u (tries (get s1 q))) as [o|] eqn:L; injection Ev as -> -> ->.
  - split; [intros _|discriminate]. exists o. apply (t_some _ _ T _ _ _ L).
  - split; [congruence|]. intros (o & K) _. apply (live_unsettled _ _ _ _ _ _ H1 K). apply (t_none _ _ T _ _ L). destruct K as (b & c & -> & _). exists o. apply in_elt.
Qed.
Print Assumptions C172_found.

(** It restores what the participant showed when it handled the try. *)
Theorem C172_restores sched s evs x y p t o : run step init sched = Some (s, evs) -> evs = x ++ VCancel p t (Some o) :: y ->
  exists a b, x = a ++ VTry p t o :: b /\ shows a p o.
Proof.
  intros H E. destruct (before _ _ _ _ _ _ H E) as (a & s1 & s2 & l & H1 & S). destruct (handle_inv _ _ _ _ S Logic.I) as (q & k & u & z & Eb & Ev).
  pose proof (tries_run _ _ _ H1) as T. destruct k; cbn in Ev; [discriminate|destruct (lookup u _); discriminate|].
  destruct (lookup u (tries (get s1 q))) as [o'|] eqn:L; injection Ev; intros; [subst|discriminate].
  destruct (t_some _ _ T _ _ _ L) as [(b & c & Ex & _) _]. exists b, c. split; [exact Ex|].
  destruct (before _ _ _ _ _ _ H1 Ex) as (a2 & s3 & s4 & l2 & H3 & S3). destruct (handle_inv _ _ _ _ S3 Logic.I) as (q2 & k2 & u2 & z2 & Eb2 & Ev2).
  destruct k2; cbn in Ev2; [|destruct (lookup u2 _); discriminate|destruct (lookup u2 _); discriminate]. injection Ev2 as -> -> ->. apply (t_shows _ _ (tries_run _ _ _ H3)).
Qed.
Print Assumptions C172_restores.

(** At any time a participant shows what was set last. *)
Theorem C172_value sched s evs p : run step init sched = Some (s, evs) -> shows evs p (value (get s p)).
Proof. intros H. apply (t_shows _ _ (tries_run _ _ _ H)). Qed.
Print Assumptions C172_value.

Example C172_case : exists s evs, run step init [LClose C; LCall; LStep; LStep; LStep; LCancel B 0; LHandle B; LHandle B] = Some (s, evs) /\
  evs = [VClose C; VCall 0; VSent B Try 0; VRefused C Try 0; VTry B 0 11] ++ VCancel B 0 (Some 11) :: [] /\ value (get s B) = 11.
Proof. eexists _, _. split; [lazy; reflexivity|]. split; reflexivity. Qed.
