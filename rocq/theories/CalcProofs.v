(** Invariants of the continuations that work on one variable. *)
From Coq Require Import List ZArith Bool Lia Arith.
From Verif Require Import Machine MachineMore MsgModel NestModel CalcModel CalcSpec.
Import ListNotations.
Open Scope Z_scope.

Definition b2n (b : bool) : nat := if b then 1 else 0.
Definition count {A} (f : A -> bool) (l : list A) : nat := List.length (filter f l).
Lemma count_app {A} (f : A -> bool) l x : count f (l ++ [x]) = (count f l + b2n (f x))%nat.
Proof. unfold count. rewrite filter_app, app_length. cbn. destruct (f x); reflexivity. Qed.
Lemma count_upd {A} (f : A -> bool) l j x y : nth_error l j = Some x -> (count f (upd l j y) + b2n (f x) = count f l + b2n (f y))%nat.
Proof.
  unfold count. revert j. induction l as [|a l IH]; intros [|j] H; try discriminate; cbn in *.
  - injection H as ->. destruct (f x), (f y); cbn; lia.
  - specialize (IH _ H). destruct (f a); cbn; lia.
Qed.
Lemma count_zero {A} (f : A -> bool) l : count f l = 0%nat -> forall x, In x l -> f x = false.
Proof. unfold count. induction l as [|a l IH]; intros H x []; cbn in H; [subst; destruct (f x); [discriminate|reflexivity]|destruct (f a); [discriminate|auto]]. Qed.
Lemma count_pos {A} (f : A -> bool) l x : In x l -> f x = true -> (0 < count f l)%nat.
Proof. intros H E. destruct (count f l) eqn:C; [|lia]. pose proof (count_zero f l C x H). congruence. Qed.
Lemma count_le {A} (f g : A -> bool) l : (forall x, In x l -> f x = true -> g x = true) -> (count f l <= count g l)%nat.
Proof.
  unfold count. induction l as [|a l IH]; intros H; cbn; [lia|]. assert (I : (List.length (filter f l) <= List.length (filter g l))%nat) by (apply IH; intros x Hx; apply H; now right).
  specialize (H a (or_introl eq_refl)). destruct (f a); [rewrite H by reflexivity|destruct (g a)]; cbn; lia.
Qed.

Definition is_chain (x : job) : bool := match what x with Chain => true | Reenter => false end.
Definition did_first (x : job) : bool := match first x with FRan _ => true | _ => false end.
Definition did_second (x : job) : bool := match second x with SRan => true | _ => false end.

Lemma begun_app a b : begun (a ++ b) = (begun a + begun b)%nat.
Proof. induction a as [|[] a IH]; cbn; auto. Qed.
Lemma chains_app a b : chains (a ++ b) = (chains a + chains b)%nat.
Proof. induction a as [|[[]| | | | | | | |] a IH]; cbn; auto. Qed.
Lemma seconds_app a b : seconds (a ++ b) = (seconds a + seconds b)%nat.
Proof. induction a as [|[] a IH]; cbn; auto. Qed.

(** What holds of a message while no context ends. *)
Definition okj (r : option nat) (j : nat) (x : job) : Prop :=
  (first x = FNone -> r = Some j /\ second x = SNone /\ fut x = None) /\
  (what x = Chain -> second x = SNone -> r = Some j) /\
  (what x = Reenter -> second x = SNone) /\
  (ret x = Acted <-> fut x <> None) /\ fut x <> Some Ended /\
  (first x = FWaits -> fut x = None) /\
  (forall o k, first x = FReady o k -> k = true /\ fut x = Some o) /\
  (forall k, first x = FRan k -> k = true /\ fut x <> None) /\
  (second x = SReady \/ second x = SRan -> first x = FRan true) /\
  (second x = SWaits -> first x <> FRan true) /\ second x <> SNever.
Definition okall (s : state) : Prop := (forall j x, nth_error (jobs s) j = Some x -> okj (running s) j x) /\ (forall j, running s = Some j -> exists x, nth_error (jobs s) j = Some x) /\ dead s = false.

Lemma okall_upd s j x y v : okall s -> nth_error (jobs s) j = Some x -> okj (running s) j y -> okall (mkS (upd (jobs s) j y) (running s) v false).
Proof.
  intros (H & R & D) Hj Hy. assert (Lj : (j < List.length (jobs s))%nat) by (apply nth_error_Some; congruence). split; [|split; [|reflexivity]]; cbn.
  - intros i z Hz. rewrite nth_upd in Hz by exact Lj. destruct (Nat.eqb_spec j i) as [<-|]; [injection Hz as <-; exact Hy|auto].
  - intros i Hi. destruct (R i Hi) as (z & Hz). rewrite nth_upd by exact Lj. destruct (Nat.eqb j i); eauto.
Qed.
Ltac fin := repeat split; cbn in *; intros; try congruence; intuition (try congruence; eauto);
  try (match goal with A : forall o k, first ?x = FReady o k -> _, H : first ?x = FReady _ _ |- _ => destruct (A _ _ H); intuition (try congruence; eauto) end; fail);
  try (match goal with A : forall k, first ?x = FRan k -> _, H : first ?x = FRan _ |- _ => destruct (A _ H); intuition (try congruence; eauto) end; fail).
Lemma okall_step s l s' e : okall s -> lasting l -> step s l = Some (s', e) -> okall s'.
Proof.
  intros I Hl H. pose proof I as (IJ & IR & ID). unfold step in H. rewrite ID in H. destruct l as [k| | | |j v|j|j|j|j].
  - destruct (running s) as [r|] eqn:Er; [discriminate|]. injection H as <- <-. split; [|split; [|reflexivity]]; cbn.
    + intros j x Hj. destruct (Nat.lt_ge_cases j (List.length (jobs s))) as [Hlt|Hge].
      * rewrite nth_error_app1 in Hj by exact Hlt. specialize (IJ _ _ Hj). destruct IJ as (A1 & A2 & A3 & A4). split; [|split; [|split; [exact A3|exact A4]]].
        -- intros F. destruct (A1 F) as [X _]. discriminate.
        -- intros W S0. specialize (A2 W S0). discriminate.
      * rewrite nth_error_app2 in Hj by exact Hge. destruct (j - List.length (jobs s))%nat as [|[|]] eqn:E; try discriminate. injection Hj as <-. replace j with (List.length (jobs s)) by lia. fin.
    + intros j [= <-]. rewrite nth_error_app2, Nat.sub_diag by lia. cbn. eauto.
  - destruct (running s) as [j|] eqn:Er; [|discriminate]. destruct (nth_error (jobs s) j) as [x|] eqn:Ej; [|discriminate]. destruct (first x) eqn:Ef; try discriminate.
    injection H as <- <-. unfold set. rewrite ID. eapply okall_upd; [exact I|exact Ej|]. specialize (IJ _ _ Ej). rewrite ?Er in IJ. rewrite ?Er. destruct IJ as (A1 & A2 & A3 & A4 & A5 & A6 & A7 & A8 & A9 & A10 & A11). destruct (A1 Ef) as (_ & X2 & X3). rewrite X3 in *. rewrite X2 in *. fin.
  - destruct (running s) as [j|] eqn:Er; [|discriminate]. destruct (nth_error (jobs s) j) as [x|] eqn:Ej; [|discriminate]. destruct (what x) eqn:Ew; [discriminate|]. destruct (second x) eqn:Es; try discriminate.
    specialize (IJ _ _ Ej). rewrite ?Er in IJ. rewrite ?Er. destruct IJ as (A1 & A2 & A3 & A4 & A5 & A6 & A7 & A8 & A9 & A10 & A11).
    destruct (first x) as [| |o k|k] eqn:Ef; [discriminate| | |].
    + injection H as <- <-. unfold set. rewrite ID. eapply okall_upd; [exact I|exact Ej|]. rewrite Er. fin.
    + destruct (A7 _ _ eq_refl) as [-> X]. injection H as <- <-. unfold set. rewrite ID. eapply okall_upd; [exact I|exact Ej|]. rewrite Er. fin.
    + destruct (A8 _ eq_refl) as [-> X]. injection H as <- <-. unfold set. rewrite ID. eapply okall_upd; [exact I|exact Ej|]. rewrite Er. fin.
  - destruct (running s) as [j|] eqn:Er; [|discriminate]. destruct (nth_error (jobs s) j) as [x|] eqn:Ej; [|discriminate]. destruct (finished_handler x) eqn:Ef; [|discriminate]. injection H as <- <-.
    split; [|split; [discriminate|reflexivity]]. cbn. intros i y Hy. specialize (IJ _ _ Hy). destruct IJ as (A1 & A2 & A3 & A4). split; [|split; [|split; [exact A3|exact A4]]].
    + intros F. destruct (A1 F) as [[= <-] _]. rewrite Ej in Hy. injection Hy as <-. unfold finished_handler in Ef. rewrite F in Ef. discriminate.
    + intros W S0. specialize (A2 W S0). injection A2 as <-. rewrite Ej in Hy. injection Hy as <-. unfold finished_handler in Ef. rewrite W, S0 in Ef. destruct (first x); discriminate.
  - destruct (nth_error (jobs s) j) as [x|] eqn:Ej; [|discriminate]. destruct (ret x) eqn:Er; try discriminate. injection H as <- <-. unfold set. rewrite ID. eapply okall_upd; [exact I|exact Ej|].
    specialize (IJ _ _ Ej). destruct IJ as (A1 & A2 & A3 & A4 & A5 & A6 & A7 & A8 & A9 & A10 & A11). rewrite Er in A4. fin.
  - destruct (running s) as [r|] eqn:Err; [discriminate|]. destruct (nth_error (jobs s) j) as [x|] eqn:Ej; [|discriminate]. destruct (ret x) as [|v|] eqn:Er; try discriminate. injection H as <- <-. unfold set. rewrite ID.
    eapply okall_upd; [exact I|exact Ej|]. specialize (IJ _ _ Ej). rewrite ?Err in IJ. rewrite ?Err. destruct IJ as (A1 & A2 & A3 & A4 & A5 & A6 & A7 & A8 & A9 & A10 & A11).
    assert (F : fut x = None) by (destruct (fut x); [|reflexivity]; assert (X : ret x = Acted) by (apply A4; discriminate); congruence).
    unfold complete. rewrite F. destruct (first x) as [| |o k|k] eqn:Ef.
    + destruct (A1 eq_refl) as [X _]. discriminate.
    + fin.
    + destruct (A7 _ _ eq_refl) as [_ X]. congruence.
    + destruct (A8 _ eq_refl) as [_ X]. congruence.
  - destruct Hl.
  - destruct (nth_error (jobs s) j) as [x|] eqn:Ej; [|discriminate]. specialize (IJ _ _ Ej). destruct IJ as (A1 & A2 & A3 & A4 & A5 & A6 & A7 & A8 & A9 & A10 & A11).
    destruct (first x) as [| |[v|] k|k] eqn:Ef; try discriminate; destruct (A7 _ _ eq_refl) as [-> X]; [|congruence]. injection H as <- <-. eapply okall_upd; [exact I|exact Ej|]. destruct (second x) eqn:Es; fin.
  - destruct (nth_error (jobs s) j) as [x|] eqn:Ej; [|discriminate]. specialize (IJ _ _ Ej). destruct IJ as (A1 & A2 & A3 & A4 & A5 & A6 & A7 & A8 & A9 & A10 & A11).
    destruct (second x) eqn:Es; try discriminate. injection H as <- <-. eapply okall_upd; [exact I|exact Ej|]. specialize (A9 (or_introl eq_refl)). rewrite A9 in *. destruct (A8 _ eq_refl) as [_ X8]. fin.
Qed.

(** A step adds a message, changes one, or none. *)
Definition called (x : job) : bool := match ret x with Calling => false | _ => true end.
Lemma shape s l s' e : step s l = Some (s', e) ->
  (exists k, l = LBegin k /\ jobs s' = jobs s ++ [mkJ k None Calling FNone SNone] /\ e = [VBegin (List.length (jobs s)) k]) \/
  (jobs s' = jobs s /\ (e = [] \/ e = [VCrash]) /\ (l = LEnd \/ exists j, l = LFirst j)) \/
  (exists j x y, nth_error (jobs s) j = Some x /\ jobs s' = upd (jobs s) j y /\ what y = what x /\ (forall k, l <> LBegin k) /\
    ((e = [] /\ did_first y = did_first x /\ did_second y = did_second x) \/
     (exists v, e = [VFirst j v] /\ did_first x = false /\ did_first y = true /\ did_second y = did_second x) \/
     (e = [VSecond j] /\ did_first y = did_first x /\ did_second x = false /\ did_second y = true)) /\
    ((exists v, l = LReturn j v) /\ called x = false /\ called y = true \/ (forall i v, l <> LReturn i v) /\ called y = called x)).
Proof.
  intros H. unfold step in H. destruct (dead s); [discriminate|]. unfold did_first, did_second, called. destruct l as [k| | | |j v|j|j|j|j].
  - destruct (running s); [discriminate|]. injection H as <- <-. left. exists k. auto.
  - destruct (running s) as [j|]; [|discriminate]. destruct (nth_error (jobs s) j) as [x|] eqn:Ej; [|discriminate]. destruct (first x) eqn:Ef; try discriminate. injection H as <- <-.
    right. right. exists j, x. eexists. split; [exact Ej|]. split; [reflexivity|]. cbn. split; [reflexivity|]. split; [discriminate|]. split; [left; rewrite Ef; destruct (fut x); auto|right; split; [discriminate|reflexivity]].
  - destruct (running s) as [j|]; [|discriminate]. destruct (nth_error (jobs s) j) as [x|] eqn:Ej; [|discriminate]. destruct (what x) eqn:Ew; [discriminate|]. destruct (second x) eqn:Es; try discriminate.
    destruct (first x) as [| |o []|[]] eqn:Ef; try discriminate; injection H as <- <-;
    (right; right; exists j, x; eexists; split; [exact Ej|]; split; [reflexivity|]; cbn; split; [auto|]; split; [discriminate|]; split; [left; rewrite ?Ef, ?Es; auto|right; split; [discriminate|reflexivity]]).
  - destruct (running s) as [j|]; [|discriminate]. destruct (nth_error (jobs s) j) as [x|]; [|discriminate]. destruct (finished_handler x); [|discriminate]. injection H as <- <-. right. left. auto.
  - destruct (nth_error (jobs s) j) as [x|] eqn:Ej; [|discriminate]. destruct (ret x) eqn:Er; try discriminate. injection H as <- <-.
    right. right. exists j, x. eexists. split; [exact Ej|]. split; [reflexivity|]. cbn. split; [reflexivity|]. split; [discriminate|]. split; [left; auto|left; rewrite Er; eauto].
  - destruct (running s) as [r|]; [discriminate|]. destruct (nth_error (jobs s) j) as [x|] eqn:Ej; [|discriminate]. destruct (ret x) as [|v|] eqn:Er; try discriminate. injection H as <- <-.
    right. right. exists j, x. eexists. split; [exact Ej|]. split; [reflexivity|]. unfold complete. destruct (fut x); cbn; (split; [reflexivity|]); (split; [discriminate|]);
      (split; [left; destruct (first x); auto|right; split; [discriminate|rewrite Er; reflexivity]]).
  - destruct (nth_error (jobs s) j) as [x|] eqn:Ej; [|discriminate]. destruct (fut x) eqn:Ef; [discriminate|]. injection H as <- <-.
    right. right. exists j, x. eexists. split; [exact Ej|]. split; [reflexivity|]. unfold complete. rewrite Ef. cbn. split; [reflexivity|]. split; [discriminate|].
    split; [left; destruct (first x); auto|right; split; [discriminate|reflexivity]].
  - destruct (nth_error (jobs s) j) as [x|] eqn:Ej; [|discriminate]. destruct (first x) as [| |[v|] k|k] eqn:Ef; try discriminate; injection H as <- <-; [|right; left; cbn; split; [reflexivity|split; eauto]].
    right. right. exists j, x. eexists. split; [exact Ej|]. split; [reflexivity|]. cbn. split; [reflexivity|]. split; [discriminate|].
    split; [right; left; exists v; rewrite Ef; destruct (second x), k; auto|right; split; [discriminate|reflexivity]].
  - destruct (nth_error (jobs s) j) as [x|] eqn:Ej; [|discriminate]. destruct (second x) eqn:Es; try discriminate. injection H as <- <-.
    right. right. exists j, x. eexists. split; [exact Ej|]. split; [reflexivity|]. cbn. split; [reflexivity|]. split; [discriminate|].
    split; [right; right; rewrite Es; auto|right; split; [discriminate|reflexivity]].
Qed.

(** What the events say of the state. *)
Definition has (f : job -> bool) (s : state) (j : nat) : Prop := exists x, nth_error (jobs s) j = Some x /\ f x = true.
Definition linked (sched : list label) (evs : list event) (s : state) : Prop :=
  seconds evs = count did_second (jobs s) /\ chains sched = count is_chain (jobs s) /\ begun sched = List.length (jobs s) /\
  (forall j k, In (VBegin j k) evs <-> exists x, nth_error (jobs s) j = Some x /\ what x = k) /\
  (forall j, In (VSecond j) evs <-> has did_second s j) /\
  (forall j, (exists v, In (VFirst j v) evs) <-> has did_first s j) /\
  (forall j, (exists v, In (LReturn j v) sched) <-> has called s j).
Lemma has_app f s s' x j : jobs s' = jobs s ++ [x] -> f x = false -> has f s' j <-> has f s j.
Proof.
  intros E F. unfold has. rewrite E. split; intros (y & Hy & Fy).
  - destruct (Nat.lt_ge_cases j (List.length (jobs s))) as [Hl|Hl]; [rewrite nth_error_app1 in Hy by exact Hl; eauto|].
    rewrite nth_error_app2 in Hy by exact Hl. destruct (j - List.length (jobs s))%nat as [|[|]]; try discriminate. injection Hy as <-. congruence.
  - exists y. split; [|exact Fy]. rewrite nth_error_app1; [exact Hy|]. apply nth_error_Some. congruence.
Qed.
Lemma has_upd f s s' i x y j : jobs s' = upd (jobs s) i y -> nth_error (jobs s) i = Some x -> has f s' j <-> (j = i /\ f y = true) \/ (j <> i /\ has f s j).
Proof.
  intros E Hi. assert (Li : (i < List.length (jobs s))%nat) by (apply nth_error_Some; congruence). unfold has. rewrite E, nth_upd by exact Li.
  destruct (Nat.eqb_spec i j) as [<-|Hn].
  - split; [intros (z & [= <-] & F); auto|intros [[_ F]|[X _]]; [eauto|congruence]].
  - split; [intros H; right; auto|intros [[-> _]|[_ H]]; [congruence|exact H]].
Qed.
Lemma has_same f s s' i x y j : jobs s' = upd (jobs s) i y -> nth_error (jobs s) i = Some x -> f y = f x -> has f s' j <-> has f s j.
Proof.
  intros E Hi F. rewrite (has_upd f s s' i x y j E Hi). destruct (Nat.eq_dec j i) as [->|Hn].
  - split; [intros [[_ X]|[X _]]; [exists x; split; congruence|congruence]|]. intros (z & Hz & Fz). left. split; [reflexivity|]. congruence.
  - split; [intros [[X _]|[_ X]]; [congruence|exact X]|auto].
Qed.
Lemma has_new f s s' i x y j : jobs s' = upd (jobs s) i y -> nth_error (jobs s) i = Some x -> f y = true -> has f s' j <-> j = i \/ has f s j.
Proof.
  intros E Hi F. rewrite (has_upd f s s' i x y j E Hi). destruct (Nat.eq_dec j i) as [->|Hn]; [split; auto|]. tauto.
Qed.
Lemma in_snoc {A} (y : A) l x : In y (l ++ [x]) <-> y = x \/ In y l.
Proof. rewrite in_app_iff. cbn. intuition. Qed.
Lemma linked_reach sched s evs : run step init sched = Some (s, evs) -> linked sched evs s.
Proof.
  revert s evs. induction sched as [|l sched IH] using rev_ind; intros s evs H.
  - injection H as <- <-. unfold linked, has. assert (N : forall j (P : job -> Prop), ~ exists x, nth_error (jobs init) j = Some x /\ P x) by (intros [|j] P (x & [=] & _)).
    split; [reflexivity|]. split; [reflexivity|]. split; [reflexivity|]. split; [intros j k; split; [intros []|intros X; destruct (N j _ X)]|].
    split; [intros j; split; [intros []|intros X; destruct (N j _ X)]|]. split; intros j; (split; [intros (? & [])|intros X; destruct (N j _ X)]).
  - apply run_app_inv in H as (u & e1 & e2 & H1 & H2 & ->). apply run_one_inv in H2. specialize (IH _ _ H1) as (I1 & I2 & I3 & I4 & I5 & I6 & I7).
    unfold linked. rewrite seconds_app, chains_app, begun_app.
    destruct (shape _ _ _ _ H2) as [(k & -> & E & ->)|[(E & Ee & El)|(i & x & y & Hi & E & Ew & Eb & Ee & El)]].
    + rewrite E, !count_app, app_length. cbn. split; [lia|]. split; [destruct k; cbn; lia|]. split; [lia|].
      split. { intros j k0. rewrite in_snoc, I4. split.
        - intros [[= -> ->]|(z & Hz & Wz)]; [rewrite nth_error_app2, Nat.sub_diag by lia; cbn; eauto|]. exists z. split; [|exact Wz]. rewrite nth_error_app1; [exact Hz|]. apply nth_error_Some. congruence.
        - intros (z & Hz & Wz). destruct (Nat.lt_ge_cases j (List.length (jobs u))) as [Hl|Hl]; [rewrite nth_error_app1 in Hz by exact Hl; eauto|]. rewrite nth_error_app2 in Hz by exact Hl.
          left. destruct (j - List.length (jobs u))%nat as [|[|]] eqn:Ej; try discriminate. injection Hz as <-. cbn in Wz. subst k0. f_equal. lia. }
      split. { intros j. rewrite in_snoc, I5, (has_app did_second u s _ j E eq_refl). split; [intros [[=]|X]; exact X|auto]. }
      split. { intros j. rewrite (has_app did_first u s _ j E eq_refl), <- I6. split; intros (v & Hv); exists v; [apply in_snoc in Hv as [[=]|Hv]; exact Hv|apply in_snoc; auto]. }
      intros j. rewrite (has_app called u s _ j E eq_refl), <- I7. split; intros (v & Hv); exists v; [apply in_snoc in Hv as [[=]|Hv]; exact Hv|apply in_snoc; auto].
    + rewrite E. unfold has. rewrite E. assert (Z : forall y, In y (e1 ++ e2) <-> In y e1 \/ (y = VCrash /\ e2 = [VCrash])).
      { intros y. destruct Ee as [-> | ->]; [rewrite app_nil_r; split; [auto|intros [X|[_ [=]]]; exact X]|]. rewrite in_snoc. tauto. }
      split; [destruct Ee as [-> | ->]; cbn; lia|]. split; [destruct El as [-> |(j & ->)]; cbn; lia|]. split; [destruct El as [-> |(j & ->)]; cbn; lia|].
      split; [intros j k; rewrite Z, I4; split; [intros [X|[[=] _]]; exact X|auto]|]. split; [intros j; rewrite Z, I5; split; [intros [X|[[=] _]]; exact X|auto]|].
      split; [intros j; fold (has did_first u j); rewrite <- I6; split; intros (v & Hv); exists v; [apply Z in Hv as [X|[[=] _]]; exact X|apply Z; auto]|].
      intros j. fold (has called u j). rewrite <- I7. split; intros (v & Hv); exists v; [|apply in_or_app; auto]. apply in_snoc in Hv as [Hv|Hv]; [|exact Hv]. destruct El as [-> |(? & ->)]; discriminate.
    + pose proof (count_upd did_second _ _ _ y Hi) as C2. pose proof (count_upd is_chain _ _ _ y Hi) as C1. rewrite E, upd_length.
      assert (Bl : chains [l] = 0%nat /\ begun [l] = 0%nat) by (destruct l; cbn; auto; exfalso; eapply Eb; reflexivity). destruct Bl as [-> ->].
      split. { destruct Ee as [(-> & _ & D)|[(v & -> & _ & _ & D)|(-> & _ & D1 & D2)]]; cbn; [rewrite D in C2; lia|rewrite D in C2; lia|rewrite D1, D2 in C2; cbn in C2; lia]. }
      split. { assert (D : is_chain y = is_chain x) by (unfold is_chain; now rewrite Ew). rewrite D in C1. lia. }
      split; [lia|]. assert (Li : (i < List.length (jobs u))%nat) by (apply nth_error_Some; congruence).
      split. { intros j k. transitivity (In (VBegin j k) e1).
        - rewrite in_app_iff. split; [|auto]. intros [X|X]; [exact X|]. destruct Ee as [(-> & _)|[(v & -> & _)|(-> & _)]]; cbn in X; intuition discriminate.
        - rewrite I4, nth_upd by exact Li. destruct (Nat.eqb_spec i j) as [<-|]; [|reflexivity]. split; intros (z & Hz & Wz); [exists y; split; [reflexivity|congruence]|exists x; split; [exact Hi|congruence]]. }
      split. { intros j. rewrite in_app_iff, I5. destruct Ee as [(-> & _ & D)|[(v & -> & _ & _ & D)|(-> & _ & D1 & D2)]]; cbn.
        - rewrite (has_same did_second u s i x y j E Hi D). tauto.
        - rewrite (has_same did_second u s i x y j E Hi D). split; [intros [X|[[=]|[]]]; exact X|auto].
        - rewrite (has_new did_second u s i x y j E Hi D2). split; [intros [X|[[= ->]|[]]]; auto|intros [-> |X]; auto]. }
      split. { intros j. destruct Ee as [(-> & D & _)|[(v & -> & _ & D & _)|(-> & D & _)]].
        - rewrite app_nil_r, (has_same did_first u s i x y j E Hi D). apply I6.
        - rewrite (has_new did_first u s i x y j E Hi D), <- I6. split.
          + intros (w & Hw). apply in_snoc in Hw as [[= -> ->]|Hw]; eauto.
          + intros [-> |(w & Hw)]; [exists v|exists w]; apply in_snoc; auto.
        - rewrite (has_same did_first u s i x y j E Hi D), <- I6. split; intros (w & Hw); exists w; [apply in_snoc in Hw as [[=]|Hw]; exact Hw|apply in_snoc; auto]. }
      intros j. destruct El as [((v & ->) & _ & D)|[N D]].
      * rewrite (has_new called u s i x y j E Hi D), <- I7. split.
        -- intros (w & Hw). apply in_snoc in Hw as [[= -> ->]|Hw]; eauto.
        -- intros [-> |(w & Hw)]; [exists v|exists w]; apply in_snoc; auto.
      * rewrite (has_same called u s i x y j E Hi D), <- I7. split; intros (w & Hw); exists w; [apply in_snoc in Hw as [Hw|Hw]; [exfalso; eapply N; eauto|exact Hw]|apply in_snoc; auto].
Qed.

(** The value, while every answer is four. *)
Definition tame (x : job) : Prop :=
  (forall v, ret x = Queued v -> v = 4) /\ (forall v, fut x = Some (Answer v) -> v = 4) /\ fut x <> Some Ended /\
  (forall o k, first x = FReady o k -> o = Answer 4).
Lemma tame_step s l s' e : step s l = Some (s', e) -> fair l -> (forall x, In x (jobs s) -> tame x) -> forall x, In x (jobs s') -> tame x.
Proof.
  intros H Hf I. assert (U : forall j y, tame y -> forall x, In x (upd (jobs s) j y) -> tame x) by (intros j y Hy x Hx; apply in_upd in Hx as [->|Hx]; auto).
  unfold step in H. destruct (dead s); [discriminate|]. destruct l as [k| | | |j v|j|j|j|j].
  - destruct (running s); [discriminate|]. injection H as <- <-. cbn. intros x Hx. apply in_snoc in Hx as [->|Hx]; [|auto]. repeat split; cbn; intros; discriminate.
  - destruct (running s) as [j|]; [|discriminate]. destruct (nth_error (jobs s) j) as [x|] eqn:Ej; [|discriminate]. destruct (first x) eqn:Ef; try discriminate. injection H as <- <-.
    apply U. destruct (I x (nth_error_In _ _ Ej)) as (A & B & C & D). split; [exact A|]. split; [exact B|]. split; [exact C|]. cbn. intros o k. destruct (fut x) as [[v|]|] eqn:E; [|congruence|discriminate]. intros [= <- <-]. f_equal. now apply B.
  - destruct (running s) as [j|]; [|discriminate]. destruct (nth_error (jobs s) j) as [x|] eqn:Ej; [|discriminate]. destruct (what x); [discriminate|]. destruct (second x); try discriminate.
    pose proof (I x (nth_error_In _ _ Ej)) as T. destruct (first x) as [| |o []|[]] eqn:Ef; try discriminate; injection H as <- <-; apply U; destruct T as (A & B & C & D); rewrite ?Ef in D; (split; [exact A|]); (split; [exact B|]); (split; [exact C|]); cbn; auto.
  - destruct (running s) as [j|]; [|discriminate]. destruct (nth_error (jobs s) j); [|discriminate]. destruct (finished_handler _); [|discriminate]. injection H as <- <-. exact I.
  - destruct (nth_error (jobs s) j) as [x|] eqn:Ej; [|discriminate]. destruct (ret x); try discriminate. injection H as <- <-. apply U. destruct (I x (nth_error_In _ _ Ej)) as (A & B & C & D). cbn in Hf.
    split; [cbn; congruence|]. auto.
  - destruct (running s) as [r|]; [discriminate|]. destruct (nth_error (jobs s) j) as [x|] eqn:Ej; [|discriminate]. destruct (ret x) as [|v|] eqn:Er; try discriminate. injection H as <- <-. apply U.
    destruct (I x (nth_error_In _ _ Ej)) as (A & B & C & D). assert (v = 4) by auto. subst v. unfold complete. destruct (fut x) eqn:E.
    + split; [discriminate|]. cbn. rewrite ?E. auto.
    + split; [discriminate|]. cbn. split; [congruence|]. split; [discriminate|]. intros o k. destruct (first x) eqn:F; intros [= <- <-]; auto. eapply D; reflexivity.
  - destruct Hf.
  - destruct (nth_error (jobs s) j) as [x|] eqn:Ej; [|discriminate]. destruct (first x) as [| |[v|] k|k] eqn:Ef; try discriminate; injection H as <- <-; [|exact I]. apply U.
    destruct (I x (nth_error_In _ _ Ej)) as (A & B & C & D). split; [exact A|]. split; [exact B|]. split; [exact C|]. discriminate.
  - destruct (nth_error (jobs s) j) as [x|] eqn:Ej; [|discriminate]. destruct (second x); try discriminate. injection H as <- <-. apply U. exact (I x (nth_error_In _ _ Ej)).
Qed.
Lemma fair_lasting l : fair l -> lasting l. Proof. now destruct l. Qed.
Lemma okall_reach sched s evs : run step init sched = Some (s, evs) -> Forall lasting sched -> okall s.
Proof.
  revert s evs. induction sched as [|l sched IH] using rev_ind; intros s evs H F.
  - injection H as <- <-. split; [intros [|]; discriminate|]. split; [discriminate|reflexivity].
  - apply run_app_inv in H as (u & e1 & e2 & H1 & H2 & ->). apply run_one_inv in H2. apply Forall_app in F as [F1 F2]. apply Forall_inv in F2. eapply okall_step; eauto.
Qed.
Lemma wrap32_small v : - 2 ^ 31 <= v < 2 ^ 31 -> wrap32 v = v.
Proof. intros H. unfold wrap32. rewrite Z.mod_small; lia. Qed.
Lemma value_reach sched s evs : run step init sched = Some (s, evs) -> Forall fair sched -> 8 + 10 * Z.of_nat (chains sched) < 2 ^ 31 ->
  (forall x, In x (jobs s) -> tame x) /\ value s = if (0 <? count did_first (jobs s))%nat then 8 + 10 * Z.of_nat (count did_second (jobs s)) else 0.
Proof.
  revert s evs. induction sched as [|l sched IH] using rev_ind; intros s evs H F Hb.
  - injection H as <- <-. split; [intros x []|reflexivity].
  - assert (L' := linked_reach _ _ _ H). apply run_app_inv in H as (u & e1 & e2 & H1 & H2 & ->). apply run_one_inv in H2. apply Forall_app in F as [F1 F2]. pose proof (Forall_inv F2) as Fl.
    rewrite chains_app in Hb. destruct (IH _ _ H1 F1) as [T V]; [lia|]. split; [eapply tame_step; eauto|].
    pose proof (okall_reach _ _ _ H1 (Forall_impl _ fair_lasting F1)) as (OJ & _ & _).
    assert (Le : (count did_second (jobs s) <= chains (sched ++ [l]))%nat).
    { destruct L' as (_ & -> & _). apply count_le. intros x Hx Dx. apply In_nth_error in Hx as (j & Hj).
      assert (OK : okall s) by (eapply okall_step; [eapply okall_reach; [exact H1|exact (Forall_impl _ fair_lasting F1)]|apply fair_lasting; exact Fl|exact H2]).
      destruct OK as (OK & _). destruct (OK _ _ Hj) as (_ & _ & A3 & _). unfold is_chain. unfold did_second in Dx. destruct (what x); [rewrite A3 in Dx by reflexivity; discriminate|reflexivity]. }
    destruct (shape _ _ _ _ H2) as [(k & -> & E & ->)|[(E & Ee & El)|(i & x & y & Hi & E & Ew & Eb & Ee & El)]].
    + rewrite E, !count_app. cbn [did_first did_second first second b2n]. rewrite !Nat.add_0_r, <- V. unfold step in H2. destruct (dead u); [discriminate|]. destruct (running u); [discriminate|]. injection H2 as <-. reflexivity.
    + rewrite E, <- V. unfold step in H2. destruct (dead u); [discriminate|]. destruct El as [->|(j & ->)].
      * destruct (running u) as [j|]; [|discriminate]. destruct (nth_error (jobs u) j); [|discriminate]. destruct (finished_handler _); [|discriminate]. now injection H2 as <- _.
      * destruct (nth_error (jobs u) j) as [x|] eqn:Ej; [|discriminate]. destruct (first x) as [| |[v|] k|k] eqn:Ef; try discriminate; [injection H2 as <- <-; destruct Ee as [Ee|Ee]; discriminate|]. now injection H2 as <- _.
    + pose proof (count_upd did_second _ _ _ y Hi) as C2. pose proof (count_upd did_first _ _ _ y Hi) as C1. rewrite <- E in C1, C2.
      destruct Ee as [(-> & D1 & D2)|[(v & -> & D1 & D1' & D2)|(-> & D1 & D2 & D2')]].
      * rewrite D1 in C1. rewrite D2 in C2. assert (count did_first (jobs s) = count did_first (jobs u)) as -> by lia. assert (count did_second (jobs s) = count did_second (jobs u)) as -> by lia.
        rewrite <- V. unfold step in H2. destruct (dead u); [discriminate|]. clear - H2.
        destruct l as [k| | | |j v|j|j|j|j];
          repeat (match type of H2 with context [match ?z with _ => _ end] => destruct z end; try discriminate); try discriminate H2; injection H2 as <-; reflexivity.
      * rewrite D1, D1' in C1. rewrite D2 in C2. cbn in C1. assert (count did_second (jobs s) = count did_second (jobs u)) as -> by lia. assert (count did_first (jobs s) = S (count did_first (jobs u))) as -> by lia.
        assert (Vs : v = 4 /\ value s = swap0 (value u) v).
        { unfold step in H2. destruct (dead u); [discriminate|]. destruct l as [k| | | |j w|j|j|j|j];
            try (repeat (match type of H2 with context [match ?z with _ => _ end] => destruct z end; try discriminate); discriminate).
          - destruct (nth_error (jobs u) j) as [z|] eqn:Ej; [|discriminate]. destruct (first z) as [| |[w|] k|k] eqn:Ef; try discriminate. injection H2 as <- _ ->. cbn. split; [|reflexivity].
            destruct (T z (nth_error_In _ _ Ej)) as (_ & _ & _ & A). specialize (A _ _ Ef). congruence. }
        destruct Vs as [-> ->]. cbn [Nat.ltb Nat.leb]. destruct (Nat.ltb_spec 0 (count did_first (jobs u))) as [Hp|Hz]; rewrite V; unfold swap0.
        -- destruct (Z.eqb_spec (8 + 10 * Z.of_nat (count did_second (jobs u))) 0); [lia|reflexivity].
        -- cbn. assert (Z0 : count did_first (jobs u) = 0%nat) by lia. assert (count did_second (jobs u) = 0%nat) as ->; [|reflexivity].
           destruct (count did_second (jobs u)) eqn:Ec; [reflexivity|exfalso]. assert ((count did_second (jobs u) <= count did_first (jobs u))%nat); [|lia]. apply count_le. intros z Hz' Dz.
           apply In_nth_error in Hz' as (j & Hj). destruct (OJ _ _ Hj) as (_ & _ & _ & _ & _ & _ & _ & _ & A9 & _). unfold did_second in Dz. unfold did_first. destruct (second z); try discriminate. rewrite A9 by auto. reflexivity.
      * rewrite D1 in C1. rewrite D2, D2' in C2. cbn in C2. assert (count did_first (jobs s) = count did_first (jobs u)) as -> by lia. assert (Cs : count did_second (jobs s) = S (count did_second (jobs u))) by lia.
        assert (Vs : value s = wrap32 (value u + 10) /\ did_first x = true).
        { unfold step in H2. destruct (dead u); [discriminate|]. destruct l as [k| | | |j w|j|j|j|j];
            try (repeat (match type of H2 with context [match ?z with _ => _ end] => destruct z end; try discriminate); discriminate).
          - destruct (nth_error (jobs u) j) as [z|] eqn:Ej; [|discriminate]. destruct (second z) eqn:Es; try discriminate. injection H2 as <- ->. cbn. split; [reflexivity|]. assert (z = x) by congruence. subst z.
            destruct (OJ _ _ Hi) as (_ & _ & _ & _ & _ & _ & _ & _ & A9 & _). unfold did_first. rewrite A9 by auto. reflexivity. }
        destruct Vs as [-> Dx]. pose proof (count_pos did_first (jobs u) x (nth_error_In _ _ Hi) Dx) as Hp. rewrite V. rewrite (proj2 (Nat.ltb_lt _ _) Hp). rewrite chains_app in Le. rewrite Cs in *. rewrite wrap32_small; lia.
Qed.

(** Steps that are left. *)
Definition left_of (x : job) : nat :=
  ((match ret x with Calling => 2 | Queued _ => 1 | Acted => 0 end) + (match fut x with None => 1 | Some _ => 0 end) +
   (match first x with FNone => 2 | FWaits | FReady _ _ => 1 | FRan _ => 0 end) + (match second x with SNone => 2 | SWaits | SReady => 1 | SRan | SNever => 0 end))%nat.
Definition total (l : list job) : nat := fold_right (fun x n => (left_of x + n)%nat) 0%nat l.
Lemma total_app a b : total (a ++ b) = (total a + total b)%nat.
Proof. unfold total. induction a as [|x a IH]; cbn; [reflexivity|]. rewrite IH. lia. Qed.
Lemma total_upd l j x y : nth_error l j = Some x -> (total (upd l j y) + left_of x = total l + left_of y)%nat.
Proof.
  revert j. induction l as [|a l IH]; intros [|j] H; try discriminate; cbn in *; [injection H as ->; lia|]. specialize (IH _ H). unfold total in *. lia.
Qed.
Definition more (s : state) : nat := (total (jobs s) + (match running s with Some _ => 1 | None => 0 end) + (if dead s then 0 else 1))%nat.
Lemma more_step s l s' e : step s l = Some (s', e) -> (more s' + 1 <= more s + 9 * begun [l])%nat.
Proof.
  intros H. unfold step in H. unfold more. destruct (dead s) eqn:ED; [discriminate|]. destruct l as [k| | | |j v|j|j|j|j]; cbn [begun].
  - destruct (running s); [discriminate|]. injection H as <- <-. cbn [jobs running dead]. rewrite total_app. assert (X : forall k, total [mkJ k None Calling FNone SNone] = 7%nat) by reflexivity. rewrite X. lia.
  - destruct (running s) as [j|] eqn:Er; [|discriminate]. destruct (nth_error (jobs s) j) as [x|] eqn:Ej; [|discriminate]. destruct (first x) eqn:Ef; try discriminate. injection H as <- <-.
    cbn [set jobs running dead]. rewrite Er, ED. match goal with |- context [upd _ _ ?y] => pose proof (total_upd _ _ _ y Ej) as T end. unfold left_of in T. cbn [ret fut first second] in T. rewrite Ef in T. destruct (fut x); lia.
  - destruct (running s) as [j|] eqn:Er; [|discriminate]. destruct (nth_error (jobs s) j) as [x|] eqn:Ej; [|discriminate]. destruct (what x); [discriminate|]. destruct (second x) eqn:Es; try discriminate.
    destruct (first x) as [| |o []|[]] eqn:Ef; try discriminate; injection H as <- <-; cbn [set jobs running dead]; rewrite Er, ED;
    (match goal with |- context [upd _ _ ?y] => pose proof (total_upd _ _ _ y Ej) as T end); unfold left_of in T; cbn [ret fut first second] in T; rewrite Ef, Es in T; cbv beta iota in T; lia.
  - destruct (running s) as [j|] eqn:Er; [|discriminate]. destruct (nth_error (jobs s) j) as [x|] eqn:Ej; [|discriminate]. destruct (finished_handler x); [|discriminate]. injection H as <- <-. cbn [jobs running dead]. lia.
  - destruct (nth_error (jobs s) j) as [x|] eqn:Ej; [|discriminate]. destruct (ret x) eqn:Er; try discriminate. injection H as <- <-. cbn [set jobs running dead]. rewrite ED.
    match goal with |- context [upd _ _ ?y] => pose proof (total_upd _ _ _ y Ej) as T end. unfold left_of in T. cbn [ret fut first second] in T. rewrite Er in T. cbv beta iota in T. lia.
  - destruct (running s) as [r|] eqn:Err; [discriminate|]. destruct (nth_error (jobs s) j) as [x|] eqn:Ej; [|discriminate]. destruct (ret x) as [|v|] eqn:Er; try discriminate. injection H as <- <-.
    cbn [set jobs running dead]. rewrite Err, ED. pose proof (total_upd _ _ _ (complete x (Answer v) Acted) Ej) as T.
    assert (X : (left_of (complete x (Answer v) Acted) + 1 <= left_of x)%nat) by (unfold left_of, complete; rewrite Er; destruct (fut x), (first x); cbn; lia). lia.
  - destruct (nth_error (jobs s) j) as [x|] eqn:Ej; [|discriminate]. destruct (fut x) eqn:Ef; [discriminate|]. injection H as <- <-. cbn [set jobs running dead]. rewrite ED.
    pose proof (total_upd _ _ _ (complete x Ended (ret x)) Ej) as T.
    assert (X : (left_of (complete x Ended (ret x)) + 1 <= left_of x)%nat) by (unfold left_of, complete; rewrite Ef; destruct (first x); cbn; lia). lia.
  - destruct (nth_error (jobs s) j) as [x|] eqn:Ej; [|discriminate]. destruct (first x) as [| |[v|] k|k] eqn:Ef; try discriminate; injection H as <- <-; cbn [jobs running dead]; [|lia].
    match goal with |- context [upd _ _ ?y] => pose proof (total_upd _ _ _ y Ej) as T end. unfold left_of in T. cbn [ret fut first second] in T. rewrite Ef in T. destruct (second x), k; cbv beta iota in T; lia.
  - destruct (nth_error (jobs s) j) as [x|] eqn:Ej; [|discriminate]. destruct (second x) eqn:Es; try discriminate. injection H as <- <-. cbn [jobs running dead].
    match goal with |- context [upd _ _ ?y] => pose proof (total_upd _ _ _ y Ej) as T end. unfold left_of in T. cbn [ret fut first second] in T. rewrite Es in T. cbv beta iota in T. lia.
Qed.
Lemma more_run sched : forall s s' evs, run step s sched = Some (s', evs) -> (List.length sched + more s' <= more s + 9 * begun sched)%nat.
Proof.
  induction sched as [|l sched IH]; intros s s' evs H; [injection H as <- <-; cbn; lia|]. cbn [run] in H. destruct (step s l) as [[u e1]|] eqn:E1; [|discriminate].
  destruct (run step u sched) as [[w e2]|] eqn:E2; [|discriminate]. injection H as <- <-. pose proof (more_step _ _ _ _ E1) as M. specialize (IH _ _ _ E2).
  assert (B : begun (l :: sched) = (begun [l] + begun sched)%nat) by (destruct l; reflexivity). rewrite B. cbn [List.length]. lia.
Qed.
(** Labels of the actor and its continuations. *)
Definition own (l : label) : Prop := match l with LBegin _ | LCtx _ | LReturn _ _ => False | _ => True end.
Lemma progress s : okall s -> (forall j x, nth_error (jobs s) j = Some x -> called x = true) ->
  (forall j x, nth_error (jobs s) j = Some x -> did_first x = true /\ (what x = Chain -> did_second x = true)) \/ exists l s' e, own l /\ step s l = Some (s', e).
Proof.
  intros (OJ & OR & OD) Hc. destruct (running s) as [j|] eqn:Er.
  - right. destruct (OR j eq_refl) as (x & Hx). destruct (OJ _ _ Hx) as (A1 & A2 & A3 & A4 & A5 & A6 & A7 & A8 & A9 & A10 & A11).
    destruct (first x) eqn:Ef; [exists LThen; eexists _, _; split; [exact I|]; unfold step; rewrite OD, Er, Hx, Ef; reflexivity| | |];
      (destruct (finished_handler x) eqn:Fh; [exists LEnd; eexists _, _; split; [exact I|]; unfold step; rewrite OD, Er, Hx, Fh; reflexivity|]);
      unfold finished_handler in Fh; rewrite Ef in Fh; destruct (what x) eqn:Ew; try discriminate; destruct (second x) eqn:Es; try discriminate; exists LThenThen; unfold step; rewrite OD, Er, Hx, Ew, Es, Ef.
    + eexists _, _. split; [exact I|reflexivity].
    + destruct linked0; eexists _, _; (split; [exact I|reflexivity]).
    + destruct linked0; eexists _, _; (split; [exact I|reflexivity]).
  - assert (G : forall n, (forall j x, (j < n)%nat -> nth_error (jobs s) j = Some x -> did_first x = true /\ (what x = Chain -> did_second x = true)) \/ exists l s' e, own l /\ step s l = Some (s', e)).
    { induction n as [|n [IH|IH]]; [left; intros; lia| |auto]. destruct (nth_error (jobs s) n) as [x|] eqn:Hx.
      2:{ left. intros j x Hj Hx'. destruct (Nat.eq_dec j n) as [->|]; [congruence|apply (IH j); [lia|exact Hx']]. }
      destruct (OJ _ _ Hx) as (A1 & A2 & A3 & A4 & A5 & A6 & A7 & A8 & A9 & A10 & A11). specialize (Hc _ _ Hx). unfold called in Hc.
      destruct (ret x) as [|v|] eqn:Et; [discriminate| |].
      { right. exists (LAct n). eexists _, _. split; [exact I|]. unfold step. rewrite OD, Er, Hx, Et. reflexivity. }
      destruct (first x) as [| |o k|k] eqn:Ef.
      - destruct (A1 eq_refl) as [[=] _].
      - exfalso. apply (proj1 A4 eq_refl). now apply A6.
      - destruct (A7 _ _ eq_refl) as [-> F]. destruct o as [v|]; [|congruence]. right. exists (LFirst n). eexists _, _. split; [exact I|]. unfold step. rewrite OD, Hx, Ef. reflexivity.
      - destruct (A8 _ eq_refl) as [-> F]. destruct (second x) eqn:Es.
        + left. intros j y Hj Hy. destruct (Nat.eq_dec j n) as [->|]; [|apply (IH j); [lia|exact Hy]]. assert (y = x) by congruence. subst y. unfold did_first. rewrite Ef. split; [reflexivity|]. intros W. specialize (A2 W eq_refl). discriminate.
        + exfalso. apply A10; reflexivity.
        + right. exists (LSecond n). eexists _, _. split; [exact I|]. unfold step. rewrite OD, Hx, Es. reflexivity.
        + left. intros j y Hj Hy. destruct (Nat.eq_dec j n) as [->|]; [|apply (IH j); [lia|exact Hy]]. assert (y = x) by congruence. subst y. unfold did_first, did_second. rewrite Ef, Es. auto.
        + exfalso. now apply A11. }
    destruct (G (List.length (jobs s))) as [H|H]; [left|auto]. intros j x Hx. apply (H j); [|exact Hx]. apply nth_error_Some. congruence.
Qed.
