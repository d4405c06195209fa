(** Invariants of [MapsModel]. *)
From Coq Require Import List Arith Bool Lia.
From Verif Require Import Machine MachineMore MapsModel MapsSpec.
Import ListNotations.

Definition user (p : pc) : Prop :=
  match p with Code | Look _ | Assign _ | Assigning _ | Arrive _ | Keep | Keeping | Delete _ | Deleting _ => True | _ => False end.
Definition begun (p : pc) : Prop := match p with Arrive _ | Keep | Keeping => True | _ => False end.
Definition early (x : list event) : Prop :=
  outside x \/ (exists c, In (VCall ByInit (Sub c)) x) \/ In (VCall ByInit OnTimer) x.
Definition writes_chains (p : pc) : Prop := match p with Assigning _ => True | _ => False end.
Definition writes_timers (p : pc) : Prop := match p with Keeping | Deleting _ | XDeleting _ _ => True | _ => False end.
Definition exiting (p : pc) : Prop := match p with Wait | Range _ | XDelete _ _ | XDeleting _ _ => True | _ => False end.

Record inv (x : list event) (s : state) : Prop := {
  i_other : forall n, user (at_ s (ByOther n)) /\ (at_ s (ByOther n) <> Code -> outside x);
  i_init : (user (at_ s ByInit) /\ ready s = false) \/ (at_ s ByInit = Ended /\ ready s = true);
  i_ready : In VReady x <-> ready s = true;
  i_loop : match at_ s ByLoop with
           | Select | Ended => True
           | Find _ => ready s = true \/ early x
           | p => user p /\ running x /\ (ready s = true \/ early x)
           end;
  i_exit : match at_ s ByExit with
           | None_ => ~ In VExit x /\ ~ In VExited x
           | Ended => In VExited x
           | p => exiting p /\ In VExit x /\ ~ In VExited x /\ ready s = true
           end;
  i_fed : fed s = true \/ box s <> [] \/ made s <> 0 -> ready s = true \/ early x;
  i_begun : forall w, begun (at_ s w) -> ready s = true \/ early x;
  i_chains : writing_chains s = true -> exists w, writes_chains (at_ s w);
  i_timers : writing_timers s = true -> exists w, writes_timers (at_ s w) }.

Lemma at_go s w p v : at_ (go s w p) v = if who_eqb v w then p else at_ s v.
Proof. reflexivity. Qed.
Lemma who_eqb_spec a b : reflect (a = b) (who_eqb a b).
Proof. destruct a, b; cbn; try (constructor; congruence). destruct (Nat.eqb_spec n n0); constructor; congruence. Qed.
Lemma who_refl a : who_eqb a a = true.
Proof. destruct (who_eqb_spec a a); congruence. Qed.

Lemma outside_app x e : outside x -> outside (x ++ e).
Proof. intros (n & o & H). exists n, o. apply in_or_app. auto. Qed.
Lemma early_app x e : early x -> early (x ++ e).
Proof. intros [H|[(c & H)|H]]; [left; now apply outside_app|right; left; exists c|right; right]; apply in_or_app; auto. Qed.
Lemma running_app x e : running x -> ~ In VEnd e -> running (x ++ e).
Proof.
  intros (a & b & -> & H) N. exists a, (b ++ e). rewrite <- app_assoc. split; [reflexivity|].
  intros H'. apply in_app_or in H' as []; auto.
Qed.
Lemma running_begin x : running (x ++ [VBegin]).
Proof. exists x, []. split; auto. Qed.

(** The cause of a crash, from the invariant: somebody else is writing. *)
Lemma chains_clash x s w : inv x s -> writing_chains s = true -> (user (at_ s w) \/ exists ev, at_ s w = Find ev) -> ~ writes_chains (at_ s w) ->
  (w = ByInit \/ w = ByLoop \/ exists n, w = ByOther n /\ at_ s w <> Code) ->
  outside x \/ starting x.
Proof.
  intros I W U N Hw. destruct (i_chains _ _ I W) as (v & V).
  assert (D : v <> w) by (intros ->; auto).
  assert (Lp : forall p, at_ s ByLoop = p -> p <> Select -> p <> Ended -> ready s = true \/ early x).
  { intros p E N1 N2. pose proof (i_loop _ _ I) as H. rewrite E in H. destruct p; tauto. }
  assert (Two : user (at_ s ByInit) -> at_ s ByLoop <> Select -> at_ s ByLoop <> Ended -> outside x \/ starting x).
  { intros U1 N1 N2. destruct (i_init _ _ I) as [[_ R]|[R _]]; [|rewrite R in U1; destruct U1].
    destruct (Lp _ eq_refl N1 N2) as [R'|[O|E]]; [congruence|auto|].
    right. split; [|exact E]. rewrite (i_ready _ _ I). congruence. }
  destruct Hw as [->|[->|(n & -> & Hn)]].
  - destruct v as [| | |m]; [congruence| | |].
    + apply Two; [destruct U as [U|(ev & U)]; [exact U|]|intros E; rewrite E in V; destruct V|intros E; rewrite E in V; destruct V].
      destruct (i_init _ _ I) as [[U1 _]|[U1 _]]; rewrite U in U1; [destruct U1|discriminate].
    + pose proof (i_exit _ _ I) as H. destruct (at_ s ByExit); cbn in *; tauto.
    + destruct (i_other _ _ I m) as [_ H]. left. apply H. intros E. rewrite E in V. destruct V.
  - destruct v as [| | |m]; [|congruence| |].
    + apply Two; [destruct (at_ s ByInit); cbn in *; tauto| |]; intros E; rewrite E in U; destruct U as [[]|(ev & U)]; discriminate.
    + pose proof (i_exit _ _ I) as H. destruct (at_ s ByExit); cbn in *; tauto.
    + destruct (i_other _ _ I m) as [_ H]. left. apply H. intros E. rewrite E in V. destruct V.
  - left. now apply (i_other _ _ I n).
Qed.
Lemma timers_clash x s w : inv x s -> writing_timers s = true -> ~ writes_timers (at_ s w) ->
  (w = ByInit /\ user (at_ s w) \/ w = ByLoop /\ user (at_ s w) \/ w = ByExit /\ exiting (at_ s w) \/ exists n, w = ByOther n /\ at_ s w <> Code) ->
  outside x \/ (starting x /\ running x) \/ (leaving x /\ running x).
Proof.
  intros I W N Hw. destruct (i_timers _ _ I W) as (v & V).
  assert (D : v <> w) by (intros ->; auto).
  assert (Lp : user (at_ s ByLoop) -> running x /\ (ready s = true \/ early x)).
  { intros U. pose proof (i_loop _ _ I) as H. destruct (at_ s ByLoop); cbn in *; tauto. }
  assert (Ex : exiting (at_ s ByExit) -> leaving x /\ ready s = true).
  { intros U. pose proof (i_exit _ _ I) as H. unfold leaving. destruct (at_ s ByExit); cbn in *; tauto. }
  assert (In_ : user (at_ s ByInit) -> ready s = false).
  { intros U. destruct (i_init _ _ I) as [[_ R]|[R _]]; [auto|]. rewrite R in U. destruct U. }
  assert (Two : user (at_ s ByInit) -> user (at_ s ByLoop) -> outside x \/ starting x /\ running x \/ leaving x /\ running x).
  { intros U1 U2. destruct (Lp U2) as (R & [Q|[O|E]]); [rewrite (In_ U1) in Q; discriminate|auto|].
    right. left. split; [split; [|exact E]|exact R]. rewrite (i_ready _ _ I), (In_ U1). congruence. }
  assert (Three : exiting (at_ s ByExit) -> user (at_ s ByLoop) -> outside x \/ starting x /\ running x \/ leaving x /\ running x).
  { intros U1 U2. right. right. split; [apply (Ex U1)|apply (Lp U2)]. }
  assert (No : exiting (at_ s ByExit) -> user (at_ s ByInit) -> False).
  { intros U1 U2. destruct (Ex U1) as [_ R]. rewrite (In_ U2) in R. discriminate. }
  assert (Ot : forall n, at_ s (ByOther n) <> Code -> outside x) by (intros n; apply (i_other _ _ I n)).
  assert (Vu : match v with ByInit => user (at_ s ByInit) | ByLoop => user (at_ s ByLoop) | ByExit => exiting (at_ s ByExit) | ByOther n => at_ s (ByOther n) <> Code end).
  { pose proof (i_init _ _ I) as H1. pose proof (i_loop _ _ I) as H2. pose proof (i_exit _ _ I) as H3. pose proof (i_other _ _ I) as H4.
    destruct v as [| | |n].
    - destruct (at_ s ByInit); cbn in *; try tauto. destruct H1 as [[[] _]|[]]; discriminate.
    - destruct (at_ s ByLoop); cbn in *; tauto.
    - destruct (at_ s ByExit); cbn in *; tauto.
    - intros E. rewrite E in V. destruct V. }
  destruct v, Hw as [[-> U]|[[-> U]|[[-> U]|(m & -> & U)]]]; try congruence;
    solve [apply Two; assumption | apply Three; assumption | exfalso; apply No; assumption | left; eapply Ot; eassumption].
Qed.

Lemma inv_init : inv [] init.
Proof.
  constructor; cbn; try tauto; try congruence.
  - split; [tauto|discriminate].
  - intros [] H; destruct H.
Qed.

(** The parts that a move of [w] to [p] with events [e] has to keep. *)
Lemma inv_move x s s' w p e :
  inv x s ->
  (forall v, at_ s' v = if who_eqb v w then p else at_ s v) ->
  match w with
  | ByInit => (user p /\ ready s' = false) \/ (p = Ended /\ ready s' = true)
  | ByLoop => match p with
              | Select | Ended => True
              | Find _ => ready s' = true \/ early (x ++ e)
              | p => user p /\ running (x ++ e) /\ (ready s' = true \/ early (x ++ e))
              end
  | ByExit => match p with
              | None_ => False
              | Ended => In VExited (x ++ e)
              | p => exiting p /\ In VExit (x ++ e) /\ ~ In VExited (x ++ e) /\ ready s' = true
              end
  | ByOther n => user p /\ (p <> Code -> outside (x ++ e))
  end ->
  (begun p -> ready s' = true \/ early (x ++ e)) ->
  (w <> ByInit -> ready s' = ready s) -> (ready s = true -> ready s' = true) ->
  (In VReady e <-> ready s' = true /\ ready s = false) ->
  (w <> ByExit -> ~ In VExit e /\ ~ In VExited e) ->
  (w <> ByLoop -> ~ In VEnd e) ->
  (fed s' = true \/ box s' <> [] \/ made s' <> 0 -> ready s' = true \/ early (x ++ e)) ->
  (writing_chains s' = true -> writes_chains p \/ (writing_chains s = true /\ ~ writes_chains (at_ s w))) ->
  (writing_timers s' = true -> writes_timers p \/ (writing_timers s = true /\ ~ writes_timers (at_ s w))) ->
  inv (x ++ e) s'.
Proof.
  intros I A P B R1 R2 R3 X1 X2 F C T.
  assert (AE : forall v, v <> w -> at_ s' v = at_ s v) by (intros v N; rewrite A; destruct (who_eqb_spec v w); congruence).
  assert (AW : at_ s' w = p) by (rewrite A, who_refl; reflexivity).
  assert (RE : ready s = true \/ early x -> ready s' = true \/ early (x ++ e)) by (intros [H|H]; [auto|right; now apply early_app]).
  constructor.
  - intros n. destruct (who_eqb_spec (ByOther n) w) as [<-|N]; [rewrite AW; exact P|].
    rewrite (AE _ N). destruct (i_other _ _ I n) as [U O]. split; [exact U|]. intros H. apply outside_app. auto.
  - destruct (who_eqb_spec ByInit w) as [<-|N]; [rewrite AW; exact P|]. rewrite (AE _ N), (R1 (not_eq_sym N)). apply I.
  - rewrite in_app_iff, (i_ready _ _ I), R3. clear - R2. destruct (ready s), (ready s'); intuition (try discriminate; try congruence).
  - destruct (who_eqb_spec ByLoop w) as [<-|N]; [rewrite AW; destruct p; exact P|]. rewrite (AE _ N).
    pose proof (i_loop _ _ I) as H. pose proof (X2 (not_eq_sym N)) as NE.
    assert (G : forall Q, Q /\ running x /\ (ready s = true \/ early x) -> Q /\ running (x ++ e) /\ (ready s' = true \/ early (x ++ e))).
    { intros Q (q & r & z). repeat split; [exact q|now apply running_app|exact (RE z)]. }
    destruct (at_ s ByLoop); auto.
  - destruct (who_eqb_spec ByExit w) as [<-|N]; [rewrite AW; destruct p; tauto|]. rewrite (AE _ N).
    pose proof (i_exit _ _ I) as H. destruct (X1 (not_eq_sym N)) as [N1 N2]. clear - H N1 N2 R2.
    destruct (at_ s ByExit); rewrite ?in_app_iff; cbn in *; tauto.
  - exact F.
  - intros v. destruct (who_eqb_spec v w) as [->|N]; [rewrite AW; exact B|]. rewrite (AE _ N). intros H. apply RE. eapply i_begun; eauto.
  - intros H. destruct (C H) as [H'|[H' N]]; [exists w; now rewrite AW|]. destruct (i_chains _ _ I H') as (v & V).
    exists v. rewrite AE; [exact V|]. intros ->. auto.
  - intros H. destruct (T H) as [H'|[H' N]]; [exists w; now rewrite AW|]. destruct (i_timers _ _ I H') as (v & V).
    exists v. rewrite AE; [exact V|]. intros ->. auto.
Qed.
(** A step that moves nobody and is silent. *)
Lemma inv_still x s s' : inv x s -> (forall v, at_ s' v = at_ s v) -> ready s' = ready s ->
  writing_chains s' = writing_chains s -> writing_timers s' = writing_timers s ->
  (fed s' = true \/ box s' <> [] \/ made s' <> 0 -> ready s = true \/ early x) -> inv (x ++ []) s'.
Proof.
  intros I A R C T F. rewrite app_nil_r. constructor; rewrite ?A, ?R, ?C, ?T; try apply I.
  - intros n. rewrite A. apply I.
  - exact F.
  - intros w. rewrite A. apply I.
  - intros H. destruct (i_chains _ _ I H) as (v & V). exists v. now rewrite A.
  - intros H. destruct (i_timers _ _ I H) as (v & V). exists v. now rewrite A.
Qed.

Ltac split_in := repeat match goal with
  | |- _ /\ _ => split
  | |- _ -> _ => intro
  | |- ~ _ => intro
  end.
Lemma inv_call x s w s' e : inv x s -> w <> ByExit -> step_call s w = Some (s', e) -> (forall m, ~ In (VCrash m) e) -> inv (x ++ e) s'.
Proof.
  intros I W H NC.
  assert (U : user (at_ s w)) by (unfold step_call in H; destruct (at_ s w); cbn; try exact Logic.I; discriminate).
  assert (IL : w = ByLoop -> running x /\ (ready s = true \/ early x)).
  { intros ->. pose proof (i_loop _ _ I) as L. destruct (at_ s ByLoop); cbn in *; tauto. }
  assert (IO : forall n, w = ByOther n -> at_ s w <> Code -> outside x) by (intros n ->; apply (i_other _ _ I n)).
  assert (II : w = ByInit -> ready s = false).
  { intros ->. destruct (i_init _ _ I) as [[_ R]|[R _]]; [auto|]. rewrite R in U. destruct U. }
  assert (G : exists p, e = [] /\ user p /\ at_ s w <> Code /\ (forall v, at_ s' v = if who_eqb v w then p else at_ s v) /\ ready s' = ready s /\
     (begun p -> begun (at_ s w)) /\ ((fed s' = true \/ box s' <> [] \/ made s' <> 0) -> begun (at_ s w) \/ (fed s = true \/ box s <> [] \/ made s <> 0)) /\
     (writing_chains s' = true -> writes_chains p \/ (writing_chains s = true /\ ~ writes_chains (at_ s w))) /\
     (writing_timers s' = true -> writes_timers p \/ (writing_timers s = true /\ ~ writes_timers (at_ s w)))).
  { unfold step_call, crash in H. destruct (at_ s w) as [|ev|ev|ev|c| | |t|t| | | | | | | |] eqn:E; try discriminate.
    - destruct (writing_chains s) eqn:Ew; injection H as <- <-; [elim (NC Chains); now left|].
      exists (if has ev (chains s) then Code else Assign ev). cbn. rewrite Ew. clear. destruct (has ev (chains s)); cbn; intuition discriminate.
    - destruct (writing_chains s) eqn:Ew; injection H as <- <-; [elim (NC Chains); now left|].
      exists (Assigning ev). clear. cbn. intuition discriminate.
    - injection H as <- <-. exists Code. clear. cbn. intuition discriminate.
    - injection H as <- <-. exists (Look c). clear. cbn. intuition discriminate.
    - destruct (writing_timers s) eqn:Ew; injection H as <- <-; [elim (NC Timers); now left|].
      exists Keeping. clear. cbn. intuition discriminate.
    - injection H as <- <-. exists Code. clear. cbn. intuition discriminate.
    - destruct (writing_timers s) eqn:Ew; injection H as <- <-; [elim (NC Timers); now left|].
      exists (Deleting t). clear. cbn. intuition discriminate.
    - injection H as <- <-. exists Code. clear. cbn. intuition discriminate. }
  clear H. destruct G as (p & -> & Up & NCo & A & R & B & F & C & T). rewrite app_nil_r.
  rewrite <- (app_nil_r x). apply (inv_move x s s' w p []); auto; rewrite ?app_nil_r, ?R.
  - destruct w as [| | |n].
    + left. auto.
    + destruct (IL eq_refl). destruct p; cbn in *; tauto.
    + congruence.
    + split; [exact Up|]. intros _. eauto.
  - intros Hb. apply (i_begun _ _ I w). auto.
  - auto.
  - cbn. clear. destruct (ready s); intuition discriminate.
  - intros Hf. destruct (F Hf) as [Hb|Hf']; [eapply i_begun; eauto|]. now apply (i_fed _ _ I).
Qed.

Ltac mv I E := try reflexivity; rewrite ?app_nil_r; auto; cbn [go set_maps set_run fed box made ready writing_chains writing_timers In];
  try solve [ tauto | apply (i_fed _ _ I) | clear; match goal with |- context [ready ?s] => destruct (ready s) end; intuition (try discriminate; try congruence)
    | intros _; split; intros [|[]]; discriminate
    | intros _ [|[]]; discriminate
    | let Hf := fresh in let Q := fresh in intros Hf; destruct (i_fed _ _ I Hf) as [Q|Q]; [left; exact Q|right; now apply early_app]
    | let C := fresh in intros C; right; split; [exact C|rewrite E; intros []]
    | congruence
    | let N := fresh in intros N; now elim N ].
Lemma inv_step x s l s' e : inv x s -> step s l = Some (s', e) -> (forall m, ~ In (VCrash m) e) -> inv (x ++ e) s'.
Proof.
  intros I H NC. unfold step in H. destruct (dead s) eqn:Hd; [discriminate|].
  pose proof (i_loop _ _ I) as IL. pose proof (i_exit _ _ I) as IX. pose proof (i_init _ _ I) as II.
  assert (RR : forall r : bool, (False <-> r = true /\ r = false)) by (intros []; intuition congruence).
  destruct l as [w o|w|w|ev| |t| | |forced| |t].
  - (* LCall *)
    destruct (at_ s w) eqn:E; try discriminate. cbn in H. injection H as <- <-.
    apply (inv_move x s _ w (start o)); mv I E.
    + destruct w as [| | |n].
      * left. split; [destruct o; exact Logic.I|]. rewrite E in II. destruct II as [[_ II]|[II _]]; [exact II|discriminate].
      * rewrite E in IL. destruct IL as (_ & R & Q).
        assert (user (start o) /\ running (x ++ [VCall ByLoop o]) /\ (ready s = true \/ early (x ++ [VCall ByLoop o]))) as HH.
        { split; [destruct o; exact Logic.I|]. split; [apply running_app; [exact R|intros [|[]]; discriminate]|]. destruct Q as [Q|Q]; [auto|right; now apply early_app]. }
        destruct o; exact HH.
      * rewrite E in IX. cbn in IX. tauto.
      * split; [destruct o; exact Logic.I|]. intros _. exists n, o. apply in_or_app. right. now left.
    + intros Hb. destruct w as [| | |n].
      * right. right. destruct o as [ev|c| |t]; cbn in Hb; try destruct Hb; [left; exists c|right]; apply in_or_app; right; now left.
      * rewrite E in IL. destruct IL as (_ & _ & [Q|Q]); [auto|right; now apply early_app].
      * rewrite E in IX. cbn in IX. tauto.
      * right. left. exists n, o. apply in_or_app. right. now left.
  - (* LStep *)
    destruct w as [| | |n].
    + eapply inv_call; eauto. discriminate.
    + destruct (at_ s ByLoop) eqn:E; try (eapply inv_call; eauto; discriminate).
      unfold crash in H. destruct (writing_chains s) eqn:Ec; [injection H as <- <-; elim (NC Chains); now left|].
      destruct (has ev (chains s)); injection H as <- <-.
      * apply (inv_move x s _ ByLoop Code); mv I E.
        -- split; [exact Logic.I|]. split; [apply running_begin|]. destruct IL as [Q|Q]; [auto|right; now apply early_app].
      * rewrite <- (app_nil_r x) in *. rewrite app_nil_r in *. apply (inv_move x s _ ByLoop Select); mv I E.
    + destruct (at_ s ByExit) eqn:E; try discriminate.
      * unfold crash in H. destruct (writing_timers s) eqn:Ec; injection H as <- <-; [elim (NC Timers); now left|].
        apply (inv_move x s _ ByExit (XDeleting todo t)); mv I E.
      * injection H as <- <-.
        apply (inv_move x s _ ByExit (Range todo)); mv I E.
    + eapply inv_call; eauto. discriminate.
  - (* LReturn *)
    destruct w as [| | |n]; try discriminate.
    + destruct (at_ s ByInit) eqn:E; try discriminate. cbn in H. injection H as <- <-.
      assert (R : ready s = false) by (destruct II as [[_ II]|[II _]]; [exact II|discriminate]).
      apply (inv_move x s _ ByInit Ended); mv I E.
    + destruct (at_ s ByLoop) eqn:E; try discriminate. cbn in H. injection H as <- <-.
      apply (inv_move x s _ ByLoop Select); mv I E.
  - (* LMessage *)
    destruct (ready s || fed s) eqn:E; [|discriminate]. injection H as <- <-. apply (inv_still x s); auto. cbn.
    intros _. apply orb_true_iff in E as [E|E]; [auto|]. apply (i_fed _ _ I). auto.
  - (* LPop *)
    destruct (at_ s ByLoop) eqn:E; try discriminate. destruct (box s) as [|ev b] eqn:Eb; [discriminate|]. injection H as <- <-.
    assert (Q : ready s = true \/ early x) by (apply (i_fed _ _ I); right; left; rewrite Eb; discriminate).
    apply (inv_move x s _ ByLoop (Find ev)); mv I E.
  - (* LTick *)
    destruct (at_ s ByLoop) eqn:E; try discriminate. cbn [is_select andb] in H. destruct (Nat.ltb t (made s)) eqn:El; [|discriminate].
    assert (Q : ready s = true \/ early x) by (apply (i_fed _ _ I); right; right; apply Nat.ltb_lt in El; lia).
    destruct (closing s); injection H as <- <-; [apply (inv_still x s); auto; apply I|].
    apply (inv_move x s _ ByLoop Code); mv I E.
    + split; [exact Logic.I|]. split; [apply running_begin|]. destruct Q as [Q|Q]; [auto|right; now apply early_app].
  - (* LExit *)
    destruct (at_ s ByExit) eqn:E; try discriminate. destruct (ready s) eqn:R; [|discriminate]. injection H as <- <-.
    apply (inv_move x s _ ByExit Wait); mv I E.
    + split; [exact Logic.I|]. rewrite ! in_app_iff. cbn. intuition discriminate.
    + rewrite R. intuition discriminate.
  - (* LShut *)
    destruct (is_select (at_ s ByLoop) && shut s && negb (closing s)); [|discriminate]. injection H as <- <-. apply (inv_still x s); auto. apply I.
  - (* LClose *)
    match type of H with (if ?b then _ else _) = _ => destruct b; [|discriminate] end. injection H as <- <-. apply (inv_still x s); auto. apply I.
  - (* LLeave *)
    destruct (at_ s ByLoop) eqn:E; try discriminate. cbn in H. destruct (over s); [|discriminate]. injection H as <- <-.
    apply (inv_move x s _ ByLoop Ended); mv I E.
  - (* LNext *)
    destruct (at_ s ByExit) eqn:E; try discriminate.
    + destruct t; [discriminate|]. destruct (over s); [|discriminate]. injection H as <- <-.
      apply (inv_move x s _ ByExit (Range (timers s))); mv I E.
    + unfold crash in H. destruct t as [t|].
      * destruct (writing_timers s) eqn:Ec; [injection H as <- <-; elim (NC Timers); now left|].
        destruct (has t (timers s)); [|discriminate]. injection H as <- <-.
        apply (inv_move x s _ ByExit (XDelete todo t)); mv I E.
      * destruct (writing_timers s) eqn:Ec; [injection H as <- <-; elim (NC Timers); now left|].
        destruct (forallb _ todo); [|discriminate]. injection H as <- <-.
        apply (inv_move x s _ ByExit Ended); mv I E.
        -- apply in_or_app. right. now left.
Qed.

Lemma not_crash_dec (e : list event) : {m | In (VCrash m) e} + {forall m, ~ In (VCrash m) e}.
Proof.
  induction e as [|v e [(m & H)|H]]; [right; intros m []|left; exists m; now right|].
  destruct v; try (right; intros m' [Q|Q]; [discriminate|exact (H _ Q)]). left. exists m. now left.
Defined.
Lemma step_dead s l s' e m : step s l = Some (s', e) -> In (VCrash m) e -> dead s' = true /\ e = [VCrash m].
Proof.
  assert (K : forall (s1 : state) e1 m1, crash s m1 = Some (s1, e1) -> In (VCrash m) e1 -> dead s1 = true /\ e1 = [VCrash m]).
  { intros s1 e1 m1 H. injection H as <- <-. intros [[= ->]|[]]. split; reflexivity. }
  assert (K2 : forall w (s1 : state) e1, step_call s w = Some (s1, e1) -> In (VCrash m) e1 -> dead s1 = true /\ e1 = [VCrash m]).
  { intros w s1 e1. unfold step_call.
    destruct (at_ s w); try discriminate; repeat match goal with |- (if ?b then _ else _) = _ -> _ => destruct b end; try discriminate; eauto; intros H; injection H as <- <-; intros []. }
  unfold step. destruct (dead s); [discriminate|].
  destruct l as [w o|w|w|ev| |t| | |forced| |t]; try (destruct w); try discriminate;
    repeat match goal with
    | |- (if ?b then _ else _) = _ -> _ => destruct b
    | |- match ?b with _ => _ end = _ -> _ => destruct b
    end; try discriminate; eauto; intros H; injection H as <- <-; cbn [In]; intuition discriminate.
Qed.
Lemma alive sched s x : run step init sched = Some (s, x) -> dead s = false -> forall m, ~ In (VCrash m) x.
Proof.
  revert s x. induction sched as [|l sched IH] using rev_ind; intros s x H D m Hin.
  - injection H as <- <-. destruct Hin.
  - apply run_app_inv in H as (t & e1 & e2 & H1 & H2 & ->). apply run_one_inv in H2.
    apply in_app_or in Hin as [Hin|Hin].
    + assert (Dt : dead t = false) by (unfold step in H2; destruct (dead t); [discriminate|reflexivity]). exact (IH _ _ H1 Dt m Hin).
    + destruct (step_dead _ _ _ _ _ H2 Hin). congruence.
Qed.
Lemma inv_run sched s x : run step init sched = Some (s, x) -> dead s = false -> inv x s.
Proof.
  revert s x. induction sched as [|l sched IH] using rev_ind; intros s x H D.
  - injection H as <- <-. apply inv_init.
  - pose proof (alive _ _ _ H D) as NC.
    apply run_app_inv in H as (t & e1 & e2 & H1 & H2 & ->). apply run_one_inv in H2.
    assert (Dt : dead t = false) by (unfold step in H2; destruct (dead t); [discriminate|reflexivity]).
    apply (inv_step _ _ _ _ _ (IH _ _ H1 Dt) H2). intros m Hm. apply (NC m). apply in_or_app. auto.
Qed.
(** The step that crashes is the last, and the invariant holds before it. *)
Lemma crash_split sched s evs x m z : run step init sched = Some (s, evs) -> evs = x ++ VCrash m :: z ->
  exists t l s', z = [] /\ inv x t /\ step t l = Some (s', [VCrash m]).
Proof.
  revert s evs z. induction sched as [|l sched IH] using rev_ind; intros s evs z H E.
  - injection H as <- <-. destruct x; discriminate.
  - apply run_app_inv in H as (t & e1 & e2 & H1 & H2 & ->). apply run_one_inv in H2.
    assert (Dt : dead t = false) by (unfold step in H2; destruct (dead t); [discriminate|reflexivity]).
    pose proof (alive _ _ _ H1 Dt) as NC.
    assert (Hin : In (VCrash m) e2).
    { assert (In (VCrash m) (e1 ++ e2)) as Q by (rewrite E; apply in_elt). apply in_app_or in Q as [Q|Q]; [elim (NC m Q)|exact Q]. }
    destruct (step_dead _ _ _ _ _ H2 Hin) as [_ ->].
    assert (z = [] /\ x = e1) as [-> ->].
    { destruct z as [|v z'] using rev_ind; [apply app_inj_tail in E as [<- _]; auto|].
      rewrite app_comm_cons, app_assoc in E. apply app_inj_tail in E as [E _]. elim (NC m). rewrite E. apply in_elt. }
    exists t, l, s. split; [reflexivity|]. split; [exact (inv_run _ _ _ H1 Dt)|exact H2].
Qed.
Lemma chains_cause sched s evs x z : run step init sched = Some (s, evs) -> evs = x ++ VCrash Chains :: z -> outside x \/ starting x.
Proof.
  intros H E. destruct (crash_split _ _ _ _ _ _ H E) as (t & l & s' & _ & I & S). clear H E.
  assert (K : forall w, w <> ByExit -> step_call t w = Some (s', [VCrash Chains]) -> outside x \/ starting x).
  { intros w NW Q. unfold step_call, crash in Q.
    assert (Hw : at_ t w <> Code -> w = ByInit \/ w = ByLoop \/ exists n, w = ByOther n /\ at_ t w <> Code) by (intros Hc; destruct w; eauto; congruence).
    destruct (at_ t w) eqn:A; try discriminate; destruct (writing_chains t) eqn:W; try destruct (writing_timers t); try discriminate; injection Q as <-;
      apply (chains_clash x t w I W); rewrite ?A; cbn; auto; rewrite ?A in Hw; apply Hw; discriminate. }
  unfold step in S. destruct (dead t); [discriminate|].
  destruct l as [w o|w|w|ev| |tm| | |forced| |tm].
  - destruct (is_code _); discriminate.
  - destruct w as [| | |n].
    + apply (K ByInit); [discriminate|exact S].
    + destruct (at_ t ByLoop) eqn:A; try (apply (K ByLoop); [discriminate|exact S]).
      destruct (writing_chains t) eqn:W; [|destruct (has ev (chains t)); discriminate].
      apply (chains_clash x t ByLoop I W); rewrite ?A; cbn; auto. right. now exists ev.
    + destruct (at_ t ByExit); try discriminate. destruct (writing_timers t); discriminate.
    + apply (K (ByOther n)); [discriminate|exact S].
  - destruct w; try discriminate; destruct (is_code _); discriminate.
  - destruct (ready t || fed t); discriminate.
  - destruct (at_ t ByLoop); try discriminate. destruct (box t); discriminate.
  - destruct (is_select _ && _); [|discriminate]. destruct (closing t); discriminate.
  - destruct (at_ t ByExit); try discriminate. destruct (ready t); discriminate.
  - destruct (is_select _ && _ && _); discriminate.
  - destruct (closing t && _ && _); discriminate.
  - destruct (is_select _ && _); discriminate.
  - destruct (at_ t ByExit), tm; try discriminate; [destruct (over t); discriminate| |]; destruct (writing_timers t); try discriminate; [destruct (has n (timers t))|destruct (forallb _ todo)]; discriminate.
Qed.
Lemma timers_cause sched s evs x z : run step init sched = Some (s, evs) -> evs = x ++ VCrash Timers :: z ->
  outside x \/ (starting x /\ running x) \/ (leaving x /\ running x).
Proof.
  intros H E. destruct (crash_split _ _ _ _ _ _ H E) as (t & l & s' & _ & I & S). clear H E.
  assert (K : forall w, w <> ByExit -> step_call t w = Some (s', [VCrash Timers]) -> outside x \/ (starting x /\ running x) \/ (leaving x /\ running x)).
  { intros w NW Q. unfold step_call, crash in Q.
    assert (Hw : at_ t w <> Code -> user (at_ t w) -> w = ByInit /\ user (at_ t w) \/ w = ByLoop /\ user (at_ t w) \/ w = ByExit /\ exiting (at_ t w) \/ exists n, w = ByOther n /\ at_ t w <> Code) by (intros Hc Hu; destruct w; eauto 7; congruence).
    destruct (at_ t w) eqn:A; try discriminate; destruct (writing_timers t) eqn:W; try destruct (writing_chains t); try discriminate; injection Q as <-;
      apply (timers_clash x t w I W); rewrite ?A; cbn; auto; rewrite ?A in Hw; (apply Hw; [discriminate|exact Logic.I]). }
  unfold step in S. destruct (dead t); [discriminate|].
  destruct l as [w o|w|w|ev| |tm| | |forced| |tm].
  - destruct (is_code _); discriminate.
  - destruct w as [| | |n].
    + apply (K ByInit); [discriminate|exact S].
    + destruct (at_ t ByLoop) eqn:A; try (apply (K ByLoop); [discriminate|exact S]).
      destruct (writing_chains t); [discriminate|destruct (has ev (chains t)); discriminate].
    + destruct (at_ t ByExit) eqn:A; try discriminate. destruct (writing_timers t) eqn:W; [|discriminate].
      apply (timers_clash x t ByExit I W); rewrite ?A; cbn; auto.
    + apply (K (ByOther n)); [discriminate|exact S].
  - destruct w; try discriminate; destruct (is_code _); discriminate.
  - destruct (ready t || fed t); discriminate.
  - destruct (at_ t ByLoop); try discriminate. destruct (box t); discriminate.
  - destruct (is_select _ && _); [|discriminate]. destruct (closing t); discriminate.
  - destruct (at_ t ByExit); try discriminate. destruct (ready t); discriminate.
  - destruct (is_select _ && _ && _); discriminate.
  - destruct (closing t && _ && _); discriminate.
  - destruct (is_select _ && _); discriminate.
  - destruct (at_ t ByExit) eqn:A, tm; try discriminate; try (destruct (over t); discriminate); destruct (writing_timers t) eqn:W.
    + apply (timers_clash x t ByExit I W); rewrite ?A; cbn; auto.
    + destruct (has n (timers t)); discriminate.
    + apply (timers_clash x t ByExit I W); rewrite ?A; cbn; auto.
    + destruct (forallb _ todo); discriminate.
Qed.

(** ** One handler at a time *)
Definition idle (x : list event) : Prop := forall a b, x = a ++ VBegin :: b -> In VEnd b.
Lemma split_last {A} (x : list A) v a u b : x ++ [v] = a ++ u :: b -> (b = [] /\ v = u /\ a = x) \/ exists b', b = b' ++ [v] /\ x = a ++ u :: b'.
Proof.
  destruct b as [|y b] using rev_ind; intros H.
  - apply app_inj_tail in H as [<- <-]. auto.
  - right. exists b. change (a ++ u :: b ++ [y]) with (a ++ (u :: b) ++ [y]) in H. rewrite app_assoc in H. apply app_inj_tail in H as [<- <-]. auto.
Qed.
Lemma idle_snoc x v : idle x -> v <> VBegin -> idle (x ++ [v]).
Proof.
  intros I N a b E. apply split_last in E as [(-> & -> & ->)|(b' & -> & E)]; [congruence|]. apply in_or_app. left. exact (I a b' E).
Qed.
Lemma idle_end x : idle (x ++ [VEnd]).
Proof. intros a b E. apply split_last in E as [(-> & E & ->)|(b' & -> & E)]; [discriminate|]. apply in_or_app. right. now left. Qed.
Lemma idle_step x s l s' e : (user (at_ s ByLoop) \/ idle x) -> step s l = Some (s', e) ->
  (user (at_ s' ByLoop) \/ idle (x ++ e)) /\ (In VBegin e -> idle x /\ e = [VBegin]).
Proof.
  intros I. assert (CALL : forall w, (user (at_ s w) \/ w <> ByLoop) -> step_call s w = Some (s', e) -> (user (at_ s' ByLoop) \/ idle (x ++ e)) /\ (In VBegin e -> idle x /\ e = [VBegin])).
  { intros w U H. unfold step_call, crash in H. destruct (at_ s w) eqn:E; try discriminate;
      repeat match type of H with (if ?b then _ else _) = _ => destruct b end; injection H as <- <-;
      (split; [|intros K; cbn in K; intuition discriminate]); cbn;
      try (destruct I as [I|I]; [now left|right; now apply idle_snoc]; fail);
      rewrite app_nil_r; destruct w; cbn; auto;
      repeat match goal with |- context [if ?b then _ else _] => destruct b; cbn; auto end. }
  assert (SAME : forall p, user p -> user p \/ idle x) by auto.
  unfold step, crash. destruct (dead s); [discriminate|].
  destruct l as [w o|w|w|ev| |t| | |forced| |t]; intros H.
  - destruct (at_ s w) eqn:E; try discriminate. injection H as <- <-. split; [|intros [|[]]; discriminate]. cbn.
    destruct w; cbn; try (destruct I as [I|I]; [now left|right; now apply idle_snoc]). left. destruct o; exact Logic.I.
  - destruct w.
    + apply (CALL ByInit); [right; discriminate|exact H].
    + destruct (at_ s ByLoop) eqn:E; try (apply (CALL ByLoop); [left; rewrite E; exact Logic.I|exact H]); try (unfold step_call in H; rewrite E in H; discriminate).
      assert (IX : idle x) by (destruct I as [[]|I]; exact I).
      destruct (writing_chains s); [|destruct (has ev (chains s))]; injection H as <- <-; cbn.
      * split; [right; now apply idle_snoc|intros [|[]]; discriminate].
      * split; [left; exact Logic.I|auto].
      * rewrite app_nil_r. split; [auto|intros []].
    + destruct (at_ s ByExit) eqn:E; try discriminate.
      * destruct (writing_timers s); injection H as <- <-; cbn; rewrite ?app_nil_r; (split; [|intros K; cbn in K; intuition discriminate]); [|exact I].
        destruct I as [I|I]; [now left|right; now apply idle_snoc].
      * injection H as <- <-. cbn. rewrite app_nil_r. split; [exact I|intros []].
    + apply (CALL (ByOther n)); [right; discriminate|exact H].
  - destruct w; try discriminate.
    + destruct (is_code _); [|discriminate]. injection H as <- <-. cbn. split; [|intros [|[]]; discriminate]. destruct I as [I|I]; [now left|right; now apply idle_snoc].
    + destruct (is_code _); [|discriminate]. injection H as <- <-. cbn. split; [right; apply idle_end|intros [|[]]; discriminate].
  - destruct (_ || _); [|discriminate]. injection H as <- <-. cbn. rewrite app_nil_r. split; [exact I|intros []].
  - destruct (at_ s ByLoop) eqn:E; try discriminate. destruct (box s); [discriminate|]. injection H as <- <-. cbn. rewrite app_nil_r.
    split; [destruct I as [[]|I]; auto|intros []].
  - destruct (is_select _ && _) eqn:E; [|discriminate]. apply andb_prop in E as [E _]. destruct (at_ s ByLoop) eqn:E1; try discriminate.
    assert (IX : idle x) by (destruct I as [[]|I]; exact I).
    destruct (closing s); injection H as <- <-; cbn.
    + rewrite app_nil_r. split; [auto|intros []].
    + split; [left; exact Logic.I|auto].
  - destruct (at_ s ByExit); try discriminate. destruct (ready s); [|discriminate]. injection H as <- <-. cbn. split; [|intros [|[]]; discriminate]. destruct I as [I|I]; [now left|right; now apply idle_snoc].
  - destruct (is_select _ && _ && _); [|discriminate]. injection H as <- <-. cbn. rewrite app_nil_r. split; [exact I|intros []].
  - destruct (_ && _); [|discriminate]. injection H as <- <-. cbn. rewrite app_nil_r. split; [exact I|intros []].
  - destruct (is_select _ && _) eqn:E; [|discriminate]. apply andb_prop in E as [E _]. destruct (at_ s ByLoop) eqn:E1; try discriminate. injection H as <- <-. cbn. rewrite app_nil_r.
    split; [destruct I as [[]|I]; auto|intros []].
  - destruct (at_ s ByExit), t; try discriminate;
      repeat match type of H with (if ?b then _ else _) = _ => destruct b end; try discriminate; injection H as <- <-; cbn; rewrite ?app_nil_r;
      (split; [|intros K; cbn in K; intuition discriminate]); try exact I; destruct I as [I|I]; [now left|right; now apply idle_snoc|now left|right; now apply idle_snoc|now left|right; now apply idle_snoc].
Qed.
Lemma idle_run sched s x : run step init sched = Some (s, x) -> user (at_ s ByLoop) \/ idle x.
Proof.
  intros H. refine (run_inv step init (fun _ x s => user (at_ s ByLoop) \/ idle x) _ _ sched s x H).
  - right. intros a b E. destruct a; discriminate.
  - intros sched' evs t l t' e _ C S. exact (proj1 (idle_step _ _ _ _ _ C S)).
Qed.
Lemma turns sched s evs a b c : run step init sched = Some (s, evs) -> evs = a ++ VBegin :: b ++ VBegin :: c -> In VEnd b.
Proof.
  intros H E. change (VBegin :: b ++ VBegin :: c) with ((VBegin :: b) ++ VBegin :: c) in E. rewrite app_assoc in E.
  destruct (run_split _ _ _ _ _ _ _ _ H E) as (sch & l & r & t & t' & e1 & p & q & e2 & _ & R & S & _ & E1 & _).
  destruct (idle_step _ _ _ _ _ (idle_run _ _ _ R) S) as [_ K]. destruct (K (in_elt _ _ _)) as [I0 E2].
  apply in_single in E2 as (-> & -> & _) || (destruct p as [|? [|]]; try discriminate). rewrite app_nil_r in E1. exact (I0 a b (eq_sym E1)).
Qed.
