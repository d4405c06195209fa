(** Proofs about timers. *)
From Coq Require Import List ZArith Arith Bool Lia.
From Verif Require ReporterProofs.
From Verif Require Import Machine ClientProofs TimerModel TimerSpec.
Import ListNotations.
Open Scope Z_scope.

Definition cnt (t : nat) (q : list nat) : nat := length (filter (Nat.eqb t) q).
Definition pcn (p : pc) : nat := match p with GSend | GSendDue => 1 | _ => 0 end.
Definition fulln (k : option tk) : nat := match k with Some k => if full k then 1 else 0 | None => 0 end.
Lemma otw t s x : nth_error (tms s) t = Some x -> on_the_way t s = (cnt t (chan s) + (pcn (at_pc x) + fulln (tick x)))%nat.
Proof. intros H. unfold on_the_way. rewrite H. reflexivity. Qed.
Lemma cnt_app t a b : cnt t (a ++ b) = (cnt t a + cnt t b)%nat.
Proof. unfold cnt. now rewrite filter_app, app_length. Qed.
Lemma cnt_cons t u q : cnt t (u :: q) = ((if (t =? u)%nat then 1 else 0) + cnt t q)%nat.
Proof. unfold cnt. cbn. destruct (t =? u)%nat; reflexivity. Qed.
Lemma fires_app t a b : fires t (a ++ b) = (fires t a + fires t b)%nat.
Proof. unfold fires. now rewrite filter_app, app_length. Qed.

Ltac inv_step H :=
  unfold step, nil_deref in H; match type of H with (if crashed ?s then _ else _) = _ => let E := fresh "Ecr" in destruct (crashed s) eqn:E; [discriminate|] end;
  repeat match type of H with
  | match nth_error (tms ?s) ?i with _ => _ end = _ => let E := fresh "En" in let x := fresh "x" in destruct (nth_error (tms s) i) as [x|] eqn:E; try discriminate
  | match at_pc ?x with _ => _ end = _ => let E := fresh "Ep" in destruct (at_pc x) eqn:E; try discriminate
  | match tick ?x with _ => _ end = _ => let E := fresh "Et" in destruct (tick x) as [k|] eqn:E; try discriminate
  | match exec ?s with _ => _ end = _ => let E := fresh "Ex" in destruct (exec s) eqn:E; try discriminate
  | match chan ?s with _ => _ end = _ => let E := fresh "Ec" in destruct (chan s) eqn:E; try discriminate
  | context [match tick (if ?b then _ else _) with _ => _ end] => let E := fresh "Eb" in destruct b eqn:E; cbn [ival tick due born active nexttick at_pc] in H
  | (if ?b then _ else _) = _ => let E := fresh "Eb" in destruct b eqn:E; try discriminate
  | (let _ := _ in _) = _ => cbv zeta in H
  end; cbn [tick] in H; try discriminate.

(** ** When timers fire *)
Definition local (F b d i n now : Z) (x : timer) : Prop :=
  due x = d /\ ival x = i /\ born x = b /\ b <= now /\ 0 <= n /\ (1 <= n -> F + (n - 1) * i <= now) /\
  match tick x with
  | Some k => 0 < i /\ period k = i /\ F + n * i <= next k /\ match at_pc x with GSelect | GSend | GGone => True | _ => False end
  | None => n <= 1 /\
    match at_pc x with
    | GStart => n = 0
    | GAfter z => n = 0 /\ 0 < d /\ b + d <= z
    | GSendDue => 0 < d /\ b + d <= now
    | GMake => (0 < d /\ b + d <= now) \/ (d <= 0 /\ n = 0)
    | _ => False
    end
  end.
Definition count_of (t : nat) (evs : list event) (s : state) (x : timer) : Z := Z.of_nat (fires t evs + (cnt t (chan s) + (pcn (at_pc x) + fulln (tick x))))%nat.
Definition J (t : nat) (b d i : Z) (evs : list event) (s : state) : Prop :=
  exists x, nth_error (tms s) t = Some x /\ local (first_time b d i) b d i (count_of t evs s x) (now s) x.
Definition early_free (t : nat) (b d i : Z) (evs : list event) : Prop :=
  forall a c z, evs = a ++ EFire t z :: c -> first_time b d i + Z.of_nat (fires t a) * i <= z.

Lemma local_mono F b d i n n' now now' x : local F b d i n now x -> now <= now' -> 0 <= n' <= n -> local F b d i n' now' x.
Proof.
  intros (A & B & C & D & E & G & H) Hn Hn'. unfold local. repeat (split; [first [assumption|lia]|]). destruct (tick x) as [k|].
  - destruct H as (H1 & H2 & H3 & H4). split; [intros X; specialize (G ltac:(lia)); nia|]. split; [exact H1|]. split; [exact H2|]. split; [nia|exact H4].
  - destruct H as [H1 H2]. split; [intros X; assert (n = n') by lia; subst n'; specialize (G X); lia|]. split; [lia|]. destruct (at_pc x); intuition lia.
Qed.
Lemma upd_other {A} (l : list A) u t x y z : nth_error l u = Some z -> u <> t -> nth_error l t = Some x -> nth_error (upd l u y) t = Some x.
Proof. intros _ H1 H2. now rewrite nth_upd_neq. Qed.
Lemma J_frame t b d i evs e s s' x : nth_error (tms s) t = Some x -> local (first_time b d i) b d i (count_of t evs s x) (now s) x ->
  nth_error (tms s') t = Some x -> now s <= now s' -> (fires t e + cnt t (chan s') <= cnt t (chan s))%nat -> J t b d i (evs ++ e) s'.
Proof.
  intros Hx HL Hx' Hn Hc. exists x. split; [exact Hx'|]. eapply local_mono; [exact HL|exact Hn|]. unfold count_of. rewrite fires_app. lia.
Qed.
Lemma J_mk t b d i evs e s' x' n : nth_error (tms s') t = Some x' -> count_of t (evs ++ e) s' x' = n ->
  local (first_time b d i) b d i n (now s') x' -> J t b d i (evs ++ e) s'.
Proof. intros H1 <- H2. exists x'. auto. Qed.
Lemma fires_none t e : (forall z, ~ In (EFire t z) e) -> fires t e = 0%nat.
Proof.
  unfold fires. induction e as [|x e IH]; intros H; [reflexivity|]. cbn. assert (IH' := IH (fun z Hz => H z (or_intror Hz))). destruct x; try exact IH'.
  destruct (Nat.eqb_spec t0 t) as [->|]; [destruct (H z); now left|exact IH'].
Qed.
Ltac no_fire := apply fires_none; let z := fresh in let X := fresh in intros z X; cbn in X; repeat destruct X as [X|X]; try discriminate; try contradiction.
Lemma J_step t b d i evs s l s' e : J t b d i evs s -> (forall iv bb, l <> LReset t iv bb) -> step s l = Some (s', e) -> J t b d i (evs ++ e) s'.
Proof.
  intros (x0 & Hx & HL) Hnr H.
  destruct l as [dd|d0 i0|u ins|u iv ins|u|u|u|u|u|u|u| | | | |]; inv_step H.
  all: try (injection H as <- <-).
  (* steps that leave the timers alone *)
  all: try (eapply J_frame; [exact Hx|exact HL|first [exact Hx|cbn; rewrite nth_error_app1; [exact Hx|apply nth_error_Some; congruence]]|cbn; try apply Z.leb_gt in Eb; lia|cbn [fires filter length chan with_chan crash]; unfold fires; cbn; lia]; fail).
  (* steps on another timer *)
  all: try (destruct (Nat.eq_dec u t) as [->|Hne];
    [assert (x0 = x) as -> by congruence|
     eapply J_frame; [exact Hx|exact HL|cbn; eapply upd_other; [exact En|exact Hne|exact Hx]|cbn; lia|
        cbn [chan with_chan set crash]; rewrite ?cnt_app, ?cnt_cons; try (rewrite (proj2 (Nat.eqb_neq t u)) by congruence); unfold fires; cbn; lia]]).
  all: try (exfalso; eapply Hnr; reflexivity).
  all: remember (count_of t evs s _) as N eqn:HN in HL; unfold count_of in HN; pose proof HL as HL'; destruct HL as (L1 & L2 & L3 & L4 & L5 & L6 & L7); rewrite ?Et, ?Ep in L7; rewrite ?Et, ?Ep in HN; cbn [pcn fulln] in HN.
  - (* cancel *)
    eapply (J_mk _ _ _ _ _ _ _ _ N); [cbn; eapply nth_upd_same; exact En| |]; [unfold count_of; rewrite fires_app; replace (fires t [ECancelled t]) with 0%nat by (symmetry; no_fire); cbn [chan set at_pc with_tick tick fulln full]; lia|].
    unfold local. cbn. rewrite ?Ep. tauto.
  - eapply (J_mk _ _ _ _ _ _ _ _ N); [cbn; eapply nth_upd_same; exact En| |]; [unfold count_of; rewrite fires_app; replace (fires t [EPanic]) with 0%nat by (symmetry; no_fire); cbn [chan set at_pc with_tick tick fulln full]; lia|].
    unfold local. cbn. tauto.
  - eapply (J_mk _ _ _ _ _ _ _ _ N); [cbn; eapply nth_upd_same; exact En| |]; [unfold count_of; rewrite fires_app; replace (fires t [EPanic; ECrash]) with 0%nat by (symmetry; no_fire); cbn [chan set at_pc with_tick tick fulln full crash]; lia|].
    unfold local. cbn. tauto.
  - (* go *)
    assert (Etk : tick x = None) by (destruct (tick x); [tauto|reflexivity]). rewrite Etk in *. destruct L7 as [_ ->]. cbn [fulln] in HN.
    eapply (J_mk _ _ _ _ _ _ _ _ 0); [cbn; eapply nth_upd_same; exact En| |].
    + unfold count_of. rewrite app_nil_r. cbn [chan set at_pc goto tick]. rewrite Etk. destruct (0 <? due x); cbn [pcn fulln]; lia.
    + unfold local. cbn [due ival born now set goto tick at_pc]. rewrite Etk. repeat (split; [first [assumption|lia]|]). subst d. destruct (0 <? due x) eqn:Ed; [apply Z.ltb_lt in Ed|apply Z.ltb_ge in Ed]; [|right]; lia.
  - assert (Etk : tick x = None) by (destruct (tick x); [tauto|reflexivity]). rewrite Etk in *. destruct L7 as (_ & -> & L8 & L9). cbn [fulln] in HN. apply Z.leb_le in Eb.
    eapply (J_mk _ _ _ _ _ _ _ _ 1); [cbn; eapply nth_upd_same; exact En| |].
    + unfold count_of. rewrite app_nil_r. cbn [chan set at_pc goto tick pcn]. rewrite Etk. cbn [fulln]. lia.
    + unfold local. cbn [due ival born now set goto tick at_pc]. rewrite Etk. repeat (split; [first [assumption|lia]|]). split; [|lia]. intros _. unfold first_time. rewrite (proj2 (Z.ltb_lt 0 d)) by lia. lia.
  - assert (Etk : tick x = None) by (destruct (tick x); [tauto|reflexivity]). rewrite Etk in *. destruct L7 as (L7 & L8 & L9). cbn [fulln] in HN.
    eapply (J_mk _ _ _ _ _ _ _ _ N); [cbn; eapply nth_upd_same; exact En| |].
    + unfold count_of. rewrite app_nil_r. cbn [chan set at_pc goto tick pcn with_chan]. rewrite Etk, cnt_app, cnt_cons, Nat.eqb_refl. cbn [fulln cnt filter length]. lia.
    + unfold local. cbn [due ival born now set goto tick at_pc with_chan]. rewrite Etk. tauto.
  - destruct (tick x) as [k|] eqn:Etk; [|tauto]. cbn [fulln] in HN.
    eapply (J_mk _ _ _ _ _ _ _ _ N); [cbn; eapply nth_upd_same; exact En| |].
    + unfold count_of. rewrite app_nil_r. cbn [chan set at_pc goto tick pcn with_chan]. rewrite Etk, cnt_app, cnt_cons, Nat.eqb_refl. cbn [fulln cnt filter length]. lia.
    + unfold local. cbn [due ival born now set goto tick at_pc with_chan]. rewrite Etk. tauto.
  - (* make *)
    assert (Etk : tick x = None) by (destruct (tick x); [tauto|reflexivity]). rewrite Etk in *. destruct L7 as (L7 & L8). cbn [fulln] in HN. apply Z.leb_gt in Eb.
    eapply (J_mk _ _ _ _ _ _ _ _ N); [cbn; eapply nth_upd_same; exact En| |].
    + unfold count_of. rewrite app_nil_r. cbn [chan set at_pc goto tick pcn with_tick fulln full]. lia.
    + unfold local. cbn [due ival born now set goto tick at_pc with_tick period next]. repeat (split; [first [assumption|lia]|]). split; [|exact I].
      unfold first_time. destruct L8 as [[L8 L9]|[L8 L9]]; [rewrite (proj2 (Z.ltb_lt 0 d)) by lia; nia|rewrite (proj2 (Z.ltb_ge 0 d)) by lia; nia].
  - (* receive *)
    destruct L7 as (L7 & L8 & L9 & _). rewrite Eb in HN.
    eapply (J_mk _ _ _ _ _ _ _ _ N); [cbn; eapply nth_upd_same; exact En| |].
    + unfold count_of. rewrite app_nil_r. cbn [chan set at_pc goto tick pcn with_tick fulln full]. lia.
    + unfold local. cbn [due ival born now set goto tick at_pc with_tick period next]. tauto.
  - destruct (tick x) as [k|] eqn:Etk; [|tauto]. cbn [fulln] in HN.
    eapply (J_mk _ _ _ _ _ _ _ _ N); [cbn; eapply nth_upd_same; exact En| |].
    + unfold count_of. rewrite app_nil_r. cbn [chan set at_pc goto tick pcn with_tick fulln full]. rewrite Etk. cbn [fulln]. lia.
    + unfold local. cbn [due ival born now set goto tick at_pc with_tick period next]. rewrite Etk. tauto.
  - (* tick *)
    destruct L7 as (L7 & L8 & L9 & L10). apply andb_true_iff in Eb as [_ Eb]. apply Z.leb_le in Eb.
    assert (Hq : 0 <= (now s - next k) / period k) by (apply Z.div_pos; lia). set (q := (now s - next k) / period k) in *. clearbody q.
    destruct (full k) eqn:Ef; cbv iota in HN.
    + eapply (J_mk _ _ _ _ _ _ _ _ N); [cbn; eapply nth_upd_same; exact En| |].
      * unfold count_of. rewrite app_nil_r. cbn [chan set at_pc goto tick pcn with_tick fulln full]. lia.
      * unfold local. cbn [due ival born now set goto tick at_pc with_tick period next]. repeat (split; [first [assumption|lia]|]). split; [match goal with |- _ <= _ + _ * ?m => change m with (1 + q) end; nia|exact L10].
    + eapply (J_mk _ _ _ _ _ _ _ _ (N + 1)); [cbn; eapply nth_upd_same; exact En| |].
      * unfold count_of. rewrite app_nil_r. cbn [chan set at_pc goto tick pcn with_tick fulln full]. lia.
      * unfold local. cbn [due ival born now set goto tick at_pc with_tick period next]. repeat (split; [first [assumption|lia]|]). split; [match goal with |- _ <= _ + _ * ?m => change m with (1 + q) end; nia|exact L10].
  - (* the loop drops it *)
    rewrite app_nil_r. destruct HL' as (A1 & A2). exists x0. split; [exact Hx|]. eapply local_mono; [unfold local; exact (conj A1 A2)|cbn; lia|]. unfold count_of. cbn [chan with_chan]. rewrite HN, Ec, cnt_cons. lia.
  - (* it fires *)
    exists x0. split; [exact Hx|]. eapply local_mono; [exact HL'|cbn; lia|]. unfold count_of. cbn [chan with_chan]. rewrite HN, Ec, cnt_cons, fires_app.
    assert (Hf : fires t [EFire n (now s)] = if (t =? n)%nat then 1%nat else 0%nat) by (unfold fires; cbn; rewrite Nat.eqb_sym; destruct (t =? n)%nat; reflexivity).
    rewrite Hf. lia.
Qed.

Lemma chan_known n sched s evs : run step (actor n) sched = Some (s, evs) -> forall t, In t (chan s) -> (t < length (tms s))%nat.
Proof.
  refine (run_inv_state step (fun s => forall t, In t (chan s) -> (t < length (tms s))%nat) _ sched (actor n) s evs _); [clear|intros t []].
  intros s l s' e HI H t.
  destruct l as [dd|d0 i0|u ins|u iv ins|u|u|u|u|u|u|u| | | | |]; inv_step H; injection H as <- <-; cbn; rewrite ?upd_length, ?app_length; cbn;
    try (intros X; specialize (HI _ X); cbn; rewrite ?upd_length; lia).
  all: try (intros X; apply in_app_iff in X as [X|[<-|[]]]; [exact (HI _ X)|apply nth_error_Some; congruence]).
  all: intros X; apply HI; now right.
Qed.
Lemma cnt_fresh t q m : (forall u, In u q -> (u < m)%nat) -> (m <= t)%nat -> cnt t q = 0%nat.
Proof.
  intros H Hm. induction q as [|u q IH]; [reflexivity|]. rewrite cnt_cons, IH by (intros v Hv; apply H; now right).
  destruct (Nat.eqb_spec t u); [|reflexivity]. specialize (H u (or_introl eq_refl)). lia.
Qed.
Lemma J_init n pre s0 e0 d i s1 e1 : run step (actor n) pre = Some (s0, e0) -> step s0 (LOn d i) = Some (s1, e1) ->
  J (length (tms s0)) (now s0) d i e1 s1.
Proof.
  intros Hr H. pose proof (chan_known _ _ _ _ Hr) as Hk. inv_step H. injection H as <- <-.
  exists (new_timer (now s0) d i). split; [cbn; rewrite nth_error_app2, Nat.sub_diag by lia; reflexivity|].
  assert (Hc : count_of (length (tms s0)) [EOn (length (tms s0))] (mkS (cap s0) (now s0) (tms s0 ++ [new_timer (now s0) d i]) (chan s0) (exec s0) (shut s0) (closing s0) (gone s0) false) (new_timer (now s0) d i) = 0).
  { unfold count_of. cbn [chan at_pc new_timer pcn tick fulln]. rewrite (cnt_fresh _ _ (length (tms s0))) by (auto; lia). reflexivity. }
  rewrite Hc. unfold local. cbn. lia.
Qed.
Lemma early_snoc t b d i evs s l s' e : J t b d i evs s -> early_free t b d i evs -> step s l = Some (s', e) -> early_free t b d i (evs ++ e).
Proof.
  intros (x & Hx & HL) He H a c z Hq.
  assert (Hcase : (exists z0 q, e = [EFire t z0] /\ l = LTake /\ z0 = now s /\ chan s = t :: q) \/ (forall z, ~ In (EFire t z) e)).
  { destruct l as [dd|d0 i0|u ins|u iv ins|u|u|u|u|u|u|u| | | | |]; inv_step H; injection H as <- <-; try (right; intros zz X; cbn in X; intuition discriminate).
    destruct (Nat.eq_dec n t) as [->|Hne]; [left; eexists _, _; repeat split|right; intros zz [X|[]]; congruence]. }
  apply ReporterProofs.snoc_split in Hq as [(b1 & Hb & ->)|(d1 & Hd & _)]; [|eapply He; exact Hd].
  destruct Hcase as [(z0 & q & -> & _ & -> & Hch)|Hno]; [|destruct (Hno z); rewrite Hb; apply in_elt].
  destruct b1 as [|? [|? ?]]; try discriminate. injection Hb as <- <-. rewrite app_nil_r.
  set (N := count_of t evs s x) in HL. assert (HN : N = Z.of_nat (fires t evs + (1 + (cnt t q + (pcn (at_pc x) + fulln (tick x)))))) by (unfold N, count_of; rewrite Hch, cnt_cons, Nat.eqb_refl; f_equal; lia).
  destruct HL as (L1 & L2 & L3 & L4 & L5 & L6 & L7). specialize (L6 ltac:(lia)). destruct (tick x) as [k|] eqn:Et; [destruct L7 as [L7 _]; nia|].
  destruct L7 as [L7 _]. assert (fires t evs = 0%nat) by lia. assert (N = 1) by lia. nia.
Qed.
Lemma run_cons_inv s l sched s' evs : run step s (l :: sched) = Some (s', evs) -> exists s1 e1 e2, step s l = Some (s1, e1) /\ run step s1 sched = Some (s', e2) /\ evs = e1 ++ e2.
Proof. cbn. destruct (step s l) as [[s1 e1]|]; [|discriminate]. destruct (run step s1 sched) as [[s2 e2]|] eqn:E; [|discriminate]. intros H. injection H as <- <-. exists s1, e1, e2. auto. Qed.
Lemma early_run t b d i sched : forall evs s s' e, J t b d i evs s -> early_free t b d i evs -> no_reset t sched -> run step s sched = Some (s', e) ->
  J t b d i (evs ++ e) s' /\ early_free t b d i (evs ++ e).
Proof.
  induction sched as [|l sched IH]; intros evs s s' e HJ He Hn H.
  - injection H as <- <-. rewrite app_nil_r. auto.
  - apply run_cons_inv in H as (s1 & e1 & e2 & H1 & H2 & ->). rewrite app_assoc. eapply IH; [| | |exact H2].
    + eapply J_step; [exact HJ| |exact H1]. intros iv bb ->. eapply Hn. now left.
    + eapply early_snoc; eassumption.
    + intros iv bb X. eapply Hn. right. exact X.
Qed.
Lemma not_early n pre s0 e0 d i sched s evs t a z c : run step (actor n) pre = Some (s0, e0) -> run step s0 (LOn d i :: sched) = Some (s, evs) ->
  t = length (tms s0) -> no_reset t sched -> evs = a ++ EFire t z :: c -> first_time (now s0) d i + Z.of_nat (fires t a) * i <= z.
Proof.
  intros H0 H -> Hn Hq. apply run_cons_inv in H as (s1 & e1 & e2 & H1 & H2 & ->). pose proof (J_init _ _ _ _ _ _ _ _ H0 H1) as HJ.
  eapply (early_run _ _ _ _ _ _ _ _ _ HJ); [|exact Hn|exact H2|exact Hq].
  intros a' c' z' X. inv_step H1. injection H1 as <- <-. destruct a' as [|? [|? ?]]; discriminate.
Qed.
(** Once the actor has begun to close, none fires. *)
Lemma closing_stays s l s' e : closing s = true -> step s l = Some (s', e) -> closing s' = true /\ forall t z, ~ In (EFire t z) e.
Proof.
  intros Hc H. destruct l as [dd|d0 i0|u ins|u iv ins|u|u|u|u|u|u|u| | | | |]; inv_step H; try congruence; injection H as <- <-; cbn; (split; [first [assumption|reflexivity]|]); intros tt zz X; cbn in X; intuition discriminate.
Qed.
Lemma closing_silent sched : forall s s' e, closing s = true -> run step s sched = Some (s', e) -> forall t z, ~ In (EFire t z) e.
Proof.
  induction sched as [|l sched IH]; intros s s' e Hc H t z X; [injection H as <- <-; contradiction|].
  apply run_cons_inv in H as (s1 & e1 & e2 & H1 & H2 & ->). destruct (closing_stays _ _ _ _ Hc H1) as [Hc1 Hno]. apply in_app_or in X as [X|X]; [exact (Hno _ _ X)|exact (IH _ _ _ Hc1 H2 _ _ X)].
Qed.

(** ** Cancellation *)
Definition started_pc (p : pc) : Prop := match p with GSelect | GSend | GGone => True | _ => False end.
Definition ticking_ok (s : state) : Prop := forall t x k, nth_error (tms s) t = Some x -> tick x = Some k -> started_pc (at_pc x).
Lemma upd_inv {A} (l : list A) u (y : A) t x : nth_error (upd l u y) t = Some x -> (u = t /\ x = y) \/ (u <> t /\ nth_error l t = Some x).
Proof.
  intros H. destruct (Nat.eq_dec u t) as [->|Hn]; [left|right; rewrite nth_upd_neq in H; auto]. split; [reflexivity|].
  destruct (nth_error l t) as [z|] eqn:E; [erewrite nth_upd_same in H by exact E; congruence|]. assert (X : nth_error (upd l t y) t = None) by (apply nth_error_None; rewrite upd_length; now apply nth_error_None). congruence.
Qed.
Lemma ticking_ok_step s l s' e : ticking_ok s -> step s l = Some (s', e) -> ticking_ok s'.
Proof.
  intros HI H t y q.
  destruct l as [dd|d0 i0|u ins|u iv ins|u|u|u|u|u|u|u| | | | |]; unfold step in H; try (destruct (0 <? iv)); inv_step H; injection H as <- <-; try exact (HI t y q); cbn [tms set with_chan crash].
  all: try (intros Hy Hq; apply upd_inv in Hy as [[-> ->]|[Hne Hy]]; [|exact (HI _ _ _ Hy Hq)]; cbn [goto with_tick at_pc tick] in *; first [exact I|rewrite ?Ep in *; eapply HI; eassumption|exfalso; specialize (HI _ _ _ En Hq); rewrite Ep in HI; exact HI|discriminate]; fail).
  - (* OnTimer *) intros Hy Hq. destruct (Nat.lt_ge_cases t (length (tms s))) as [Hlt|Hge]; [rewrite nth_error_app1 in Hy by exact Hlt; exact (HI _ _ _ Hy Hq)|].
    rewrite nth_error_app2 in Hy by exact Hge. destruct (t - length (tms s))%nat as [|m]; cbn in Hy; [injection Hy as <-; discriminate|destruct m; discriminate].
Qed.
Lemma ticking_ok_reach n sched s evs : run step (actor n) sched = Some (s, evs) -> ticking_ok s.
Proof. intros H. refine (run_inv_state step ticking_ok ticking_ok_step sched (actor n) s evs _ H). intros t x k X. destruct t; discriminate. Qed.

Definition dead (t M : nat) (evs : list event) (s : state) : Prop :=
  exists x k, nth_error (tms s) t = Some x /\ tick x = Some k /\ stopped k = true /\ started_pc (at_pc x) /\
    (fires t evs + (cnt t (chan s) + (pcn (at_pc x) + fulln (tick x))) <= M)%nat.
Lemma dead_step t M evs s l s' e : dead t M evs s -> (forall iv b, l <> LReset t iv b) -> step s l = Some (s', e) -> dead t M (evs ++ e) s'.
Proof.
  intros (x0 & k0 & Hx & Hk & Hs & Hp & Hc) Hnr H.
  assert (Hframe : forall s' e, nth_error (tms s') t = Some x0 -> (fires t e + cnt t (chan s') <= cnt t (chan s))%nat -> dead t M (evs ++ e) s').
  { intros s1 e1 A B. exists x0, k0. repeat (split; [assumption|]). rewrite fires_app. lia. }
  destruct l as [dd|d0 i0|u ins|u iv ins|u|u|u|u|u|u|u| | | | |]; inv_step H; injection H as <- <-.
  all: try (apply Hframe; [first [exact Hx|cbn; rewrite nth_error_app1; [exact Hx|apply nth_error_Some; congruence]]|cbn [chan with_chan crash]; unfold fires; cbn; lia]; fail).
  all: try (destruct (Nat.eq_dec u t) as [->|Hne];
    [assert (x0 = x) as -> by congruence|
     apply Hframe; [cbn; eapply upd_other; [exact En|exact Hne|exact Hx]|
        cbn [chan with_chan set crash]; rewrite ?cnt_app, ?cnt_cons; try (rewrite (proj2 (Nat.eqb_neq t u)) by congruence); unfold fires; cbn; lia]]).
  all: try (exfalso; eapply Hnr; reflexivity).
  all: try (rewrite Ep in Hp; destruct Hp; fail).
  all: try congruence.
  all: try (assert (k0 = k) as -> by congruence).
  - eexists _, _. split; [cbn; eapply nth_upd_same; exact En|]. split; [reflexivity|]. split; [reflexivity|]. split; [exact Hp|].
    rewrite fires_app. replace (fires t [ECancelled t]) with 0%nat by (symmetry; no_fire). cbn [chan set at_pc with_tick tick fulln full]. rewrite Et in Hc. cbn [fulln] in Hc. lia.
  - eexists _, _. split; [cbn; eapply nth_upd_same; exact En|]. split; [exact Hk|]. split; [exact Hs|]. split; [exact I|].
    rewrite app_nil_r. cbn [chan set at_pc goto tick with_chan pcn]. rewrite cnt_app, cnt_cons, Nat.eqb_refl. rewrite Ep in Hc. cbn [pcn] in Hc. change (cnt t []) with 0%nat. lia.
  - eexists _, _. split; [cbn; eapply nth_upd_same; exact En|]. split; [reflexivity|]. split; [exact Hs|]. split; [exact I|].
    rewrite app_nil_r. cbn [chan set at_pc goto tick with_chan pcn with_tick fulln full]. rewrite Ep, Et in Hc. cbn [pcn fulln] in Hc. rewrite Eb in Hc. lia.
  - eexists _, _. split; [cbn; eapply nth_upd_same; exact En|]. split; [exact Hk|]. split; [exact Hs|]. split; [exact I|].
    rewrite app_nil_r. cbn [chan set at_pc goto tick with_chan pcn]. rewrite Ep in Hc. cbn [pcn] in Hc. lia.
  - rewrite Hs in Eb. discriminate.
  - apply Hframe; [exact Hx|]. cbn [chan with_chan]. rewrite ?Ec, cnt_cons. unfold fires. cbn. lia.
  - apply Hframe; [exact Hx|]. cbn [chan with_chan]. rewrite ?Ec, cnt_cons. unfold fires. cbn. rewrite (Nat.eqb_sym n t). destruct (t =? n)%nat; cbn; lia.
Qed.
Lemma dead_run t M sched : forall evs s s' e, dead t M evs s -> no_reset t sched -> run step s sched = Some (s', e) -> dead t M (evs ++ e) s'.
Proof.
  induction sched as [|l sched IH]; intros evs s s' e HJ Hn H.
  - injection H as <- <-. rewrite app_nil_r. auto.
  - apply run_cons_inv in H as (s1 & e1 & e2 & H1 & H2 & ->). rewrite app_assoc. eapply IH; [| |exact H2].
    + eapply dead_step; [exact HJ| |exact H1]. intros iv bb ->. eapply Hn. now left.
    + intros iv bb X. eapply Hn. right. exact X.
Qed.
Lemma cancelled_few n pre s0 e0 t x ins sched s evs : run step (actor n) pre = Some (s0, e0) -> nth_error (tms s0) t = Some x -> active x = true -> no_reset t sched ->
  run step s0 (LCancel t ins :: sched) = Some (s, ECancelled t :: evs) -> (fires t evs <= on_the_way t s0)%nat.
Proof.
  intros H0 Hx Ha Hn H. apply run_cons_inv in H as (s1 & e1 & e2 & H1 & H2 & He). pose proof (ticking_ok_reach _ _ _ _ H0) as Htk.
  inv_step H1; try congruence; injection H1 as <- <-; try discriminate He.
  injection He as ->. assert (x0 = x) as -> by congruence. erewrite otw by exact En.
  assert (HD : dead t (cnt t (chan s0) + (pcn (at_pc x) + fulln (tick x))) [] (set s0 t (with_tick (mkT (due x) (ival x) (born x) false (nexttick x) (tick x) (at_pc x)) (mkTk true (period k) (next k) (full k))))).
  { eexists _, _. split; [cbn; eapply nth_upd_same; exact En|]. split; [reflexivity|]. split; [reflexivity|]. split; [exact (Htk _ _ _ En Et)|].
    cbn [chan set with_tick at_pc tick fulln full]. rewrite Et. cbn. lia. }
  rewrite Et in HD. cbn [tick] in *. destruct (dead_run _ _ _ _ _ _ _ HD Hn H2) as (x1 & k1 & _ & _ & _ & _ & Hc). cbn [app] in Hc. rewrite Et. lia.
Qed.

(** ** Crashes *)
Definition sound (s : state) : Prop := crashed s = false /\ forall t x, nth_error (tms s) t = Some x -> 0 < ival x.
Lemma upd_sound (l : list timer) u y : 0 < ival y -> (forall t x, nth_error l t = Some x -> 0 < ival x) -> forall t x, nth_error (upd l u y) t = Some x -> 0 < ival x.
Proof. intros Hy H t x Hx. apply upd_inv in Hx as [[_ ->]|[_ Hx]]; [exact Hy|exact (H _ _ Hx)]. Qed.
Lemma sound_step r s l s' e : sound s -> careful r s l -> step s l = Some (s', e) -> sound s' /\ ~ In ECrash e /\ (r = false -> ~ In EPanic e).
Proof.
  intros [Hc Hi] Hs H.
  destruct l as [dd|d0 i0|u ins|u iv ins|u|u|u|u|u|u|u| | | | |]; cbn [careful] in Hs; unfold step in H; try (destruct (0 <? iv) eqn:Eiv); inv_step H; injection H as <- <-; unfold sound; cbn [crashed tms set with_chan crash].
  all: try (assert (Hix : 0 < ival x) by exact (Hi _ _ En)).
  all: try (split; [split; [first [assumption|reflexivity]|first [exact Hi|apply upd_sound; [exact Hix|exact Hi]]]|split; [|intros _]; intros X; cbn in X; intuition discriminate]; fail).
  { split; [split; [reflexivity|]|split; [|intros _]; intros X; cbn in X; intuition discriminate].
    intros t x Hx. destruct (Nat.lt_ge_cases t (length (tms s))) as [Hlt|Hge]; [rewrite nth_error_app1 in Hx by exact Hlt; exact (Hi _ _ Hx)|].
    rewrite nth_error_app2 in Hx by exact Hge. destruct (t - length (tms s))%nat as [|m]; cbn in Hx; [injection Hx as <-; exact Hs|destruct m; discriminate]. }
  { destruct Hs as [(y & k & A & B)|[-> _]]; [congruence|]. split; [split; [assumption|apply upd_sound; [exact Hix|exact Hi]]|]. split; [intros X; cbn in X; intuition discriminate|discriminate]. }
  { destruct Hs as [(y & k & A & B)|[_ X]]; congruence. }
  all: try (apply Z.ltb_lt in Eiv).
  all: try (cbn [ival] in Eb0; apply Z.leb_le in Eb0; lia).
  all: try (apply Z.leb_le in Eb; lia).
  all: try (split; [split; [assumption|apply upd_sound; [cbn; assumption|exact Hi]]|split; [|intros _]; intros X; cbn in X; intuition discriminate]; fail).
  all: destruct Hs as [(y & kk & A & B)|[-> Hin]]; try congruence.
  all: try (cbn in *; congruence).
  all: split; [split; [assumption|apply upd_sound; [cbn; assumption|exact Hi]]|]; split; [intros X; cbn in X; intuition discriminate|discriminate].
Qed.
Lemma sound_run r sched : forall s s' e, sound s -> all_careful r s sched -> run step s sched = Some (s', e) -> sound s' /\ ~ In ECrash e /\ (r = false -> ~ In EPanic e).
Proof.
  induction sched as [|l sched IH]; intros s s' e Hs Hc H.
  - injection H as <- <-. split; [exact Hs|]. split; [intros []|intros _ []].
  - apply run_cons_inv in H as (s1 & e1 & e2 & H1 & H2 & ->). destruct (sound_step r _ _ _ _ Hs (Hc [] l sched s [] eq_refl eq_refl) H1) as (A & B & C).
    destruct (IH s1 s' e2 A) as (D & E & F); [|exact H2|].
    + intros pre l' suf s2 ev -> Hr. eapply (Hc (l :: pre) l' suf s2); [reflexivity|]. cbn [run]. rewrite H1, Hr. reflexivity.
    + split; [exact D|]. rewrite !in_app_iff. tauto.
Qed.
Lemma actor_sound n : sound (actor n).
Proof. split; [reflexivity|]. intros t x H. destruct t; discriminate. Qed.

(** ** Reset *)
Lemma ticking_step t s l s' e : ticking t s -> (forall b, l <> LCancel t b) -> step s l = Some (s', e) -> ticking_ok s -> ticking t s'.
Proof.
  intros (x0 & k0 & Hx & Hk & Ha & Hst) Hnc H Htk. pose proof (Htk _ _ _ Hx Hk) as Hp.
  assert (Hframe : forall s', nth_error (tms s') t = Some x0 -> ticking t s') by (intros s1 A; exists x0, k0; auto).
  destruct l as [dd|d0 i0|u ins|u iv ins|u|u|u|u|u|u|u| | | | |]; unfold step in H; try (destruct (0 <? iv)); inv_step H; injection H as <- <-.
  all: try (apply Hframe; first [exact Hx|cbn; rewrite nth_error_app1; [exact Hx|apply nth_error_Some; congruence]]; fail).
  all: destruct (Nat.eq_dec u t) as [->|Hne]; [assert (x0 = x) as -> by congruence|apply Hframe; cbn; eapply upd_other; [exact En|exact Hne|exact Hx]].
  all: try (exfalso; eapply Hnc; reflexivity).
  all: try (rewrite Ep in Hp; destruct Hp; fail).
  all: try (cbn [tick] in *; congruence).
  all: try (assert (k0 = k) as -> by (cbn [tick] in *; congruence)).
  all: try (eexists _, _; split; [cbn; eapply nth_upd_same; exact En|]; cbn; solve [auto]).
  all: eexists _, k0; split; [cbn; eapply nth_upd_same; exact En|]; cbn; auto.
Qed.
Lemma ticking_run t sched : forall s s' e, ticking t s -> ticking_ok s -> no_cancel t sched -> run step s sched = Some (s', e) -> ticking t s'.
Proof.
  induction sched as [|l sched IH]; intros s s' e Ht Hk Hn H; [injection H as <- <-; exact Ht|].
  apply run_cons_inv in H as (s1 & e1 & e2 & H1 & H2 & ->). eapply IH; [| | |exact H2].
  - eapply ticking_step; [exact Ht| |exact H1|exact Hk]. intros b ->. eapply Hn. now left.
  - eapply ticking_ok_step; eassumption.
  - intros b X. eapply Hn. right. exact X.
Qed.
Lemma reset_ticking n pre s0 e0 t x iv ins sched s evs : run step (actor n) pre = Some (s0, e0) -> nth_error (tms s0) t = Some x -> ival x <> iv -> no_cancel t sched ->
  run step s0 (LReset t iv ins :: sched) = Some (s, EReset t true :: evs) -> ticking t s.
Proof.
  intros H0 Hx Hiv Hn H. apply run_cons_inv in H as (s1 & e1 & e2 & H1 & H2 & He). pose proof (ticking_ok_reach _ _ _ _ H0) as Htk.
  eapply ticking_run; [|eapply ticking_ok_step; [exact Htk|exact H1]|exact Hn|exact H2].
  unfold step in H1; destruct (0 <? iv) eqn:Eiv; inv_step H1; injection H1 as <- <-; try discriminate He.
  all: try (cbn in Eb; assert (x0 = x) as -> by congruence; apply Z.eqb_eq in Eb; congruence).
  all: try (destruct ins; discriminate He).
  all: try discriminate Eb.
  all: eexists _, _; split; [cbn; eapply nth_upd_same; exact En|]; cbn; auto.
Qed.
Definition R (t M : nat) (r iv : Z) (evs : list event) (s : state) : Prop :=
  exists x k, nth_error (tms s) t = Some x /\ tick x = Some k /\ period k = iv /\ started_pc (at_pc x) /\
    let C := Z.of_nat (fires t evs + (cnt t (chan s) + (pcn (at_pc x) + fulln (tick x))))%nat in
    r + iv * (C - Z.of_nat M + 1) <= next k /\ (Z.of_nat M < C -> r + iv * (C - Z.of_nat M) <= now s).
Lemma R_step t M r iv evs s l s' e : 0 < iv -> R t M r iv evs s -> (forall iv b, l <> LReset t iv b) -> step s l = Some (s', e) -> R t M r iv (evs ++ e) s'.
Proof.
  intros Hiv (x0 & k0 & Hx & Hk & Hpd & Hp & Hc1 & Hc2) Hnr H.
  assert (Hframe : forall s' e, nth_error (tms s') t = Some x0 -> now s <= now s' -> (fires t e + cnt t (chan s') <= cnt t (chan s))%nat -> R t M r iv (evs ++ e) s').
  { intros s1 e1 A B C. exists x0, k0. repeat (split; [assumption|]). rewrite fires_app. cbv zeta in *. split; [nia|]. intros D. etransitivity; [|exact B]. etransitivity; [|apply Hc2]; nia. }
  destruct l as [dd|d0 i0|u ins|u iv0 ins|u|u|u|u|u|u|u| | | | |]; inv_step H; injection H as <- <-.
  all: try (apply Hframe; [first [exact Hx|cbn; rewrite nth_error_app1; [exact Hx|apply nth_error_Some; congruence]]|cbn; try apply Z.leb_gt in Eb; lia|cbn [chan with_chan crash]; unfold fires; cbn; lia]; fail).
  all: try (destruct (Nat.eq_dec u t) as [->|Hne];
    [assert (x0 = x) as -> by congruence|
     apply Hframe; [cbn; eapply upd_other; [exact En|exact Hne|exact Hx]|cbn; lia|
        cbn [chan with_chan set crash]; rewrite ?cnt_app, ?cnt_cons; try (rewrite (proj2 (Nat.eqb_neq t u)) by congruence); unfold fires; cbn; lia]]).
  all: try (exfalso; eapply Hnr; reflexivity).
  all: try (rewrite Ep in Hp; destruct Hp; fail).
  all: try congruence.
  all: try (assert (k0 = k) as -> by congruence).
  all: cbv zeta in *.
  - eexists _, _. split; [cbn; eapply nth_upd_same; exact En|]. split; [reflexivity|]. split; [exact Hpd|]. split; [exact Hp|].
    rewrite fires_app. replace (fires t [ECancelled t]) with 0%nat by (symmetry; no_fire). cbn [chan set at_pc with_tick tick fulln full next now]. rewrite Et in Hc1, Hc2. cbn [fulln] in Hc1, Hc2. rewrite Nat.add_0_r. auto.
  - eexists _, _. split; [cbn; eapply nth_upd_same; exact En|]. split; [exact Hk|]. split; [exact Hpd|]. split; [exact I|].
    rewrite app_nil_r. cbn [chan set at_pc goto tick with_chan pcn now]. rewrite cnt_app, cnt_cons, Nat.eqb_refl. rewrite Ep in Hc1, Hc2. cbn [pcn] in Hc1, Hc2. change (cnt t []) with 0%nat.
    replace (fires t evs + (cnt t (chan s) + (1 + 0) + (0 + fulln (tick x))))%nat with (fires t evs + (cnt t (chan s) + (1 + fulln (tick x))))%nat by lia. auto.
  - eexists _, _. split; [cbn; eapply nth_upd_same; exact En|]. split; [reflexivity|]. split; [exact Hpd|]. split; [exact I|].
    rewrite app_nil_r. cbn [chan set at_pc goto tick with_chan pcn with_tick fulln full next now]. rewrite Ep, Et in Hc1, Hc2. cbn [pcn fulln] in Hc1, Hc2. rewrite Eb in Hc1, Hc2. auto.
  - eexists _, _. split; [cbn; eapply nth_upd_same; exact En|]. split; [exact Hk|]. split; [exact Hpd|]. split; [exact I|].
    rewrite app_nil_r. cbn [chan set at_pc goto tick with_chan pcn now]. rewrite Ep in Hc1, Hc2. cbn [pcn] in Hc1, Hc2. auto.
  - apply andb_true_iff in Eb as [_ Eb]. apply Z.leb_le in Eb. assert (Hq : 0 <= (now s - next k) / period k) by (apply Z.div_pos; lia).
    remember ((now s - next k) / period k) as q eqn:Hqq. clear Hqq.
    eexists _, _. split; [cbn [tms set]; eapply nth_upd_same; exact En|]. split; [reflexivity|]. split; [exact Hpd|]. split; [exact Hp|].
    rewrite app_nil_r. cbn [chan set at_pc goto tick with_chan with_tick fulln full next now]. rewrite Et in Hc1, Hc2. cbn [fulln] in Hc1, Hc2.
    match goal with |- context [next k + period k * ?m] => change m with (1 + q) end. destruct (full k); cbv iota in Hc1, Hc2; (split; [nia|]); intros HM.
    + apply Hc2. lia.
    + etransitivity; [|exact Eb]. etransitivity; [|exact Hc1]. nia.
  - apply Hframe; [exact Hx|cbn; lia|]. cbn [chan with_chan]. rewrite ?Ec, cnt_cons. unfold fires. cbn. lia.
  - apply Hframe; [exact Hx|cbn; lia|]. cbn [chan with_chan]. rewrite ?Ec, cnt_cons. unfold fires. cbn. rewrite (Nat.eqb_sym n t). destruct (t =? n)%nat; cbn; lia.
Qed.
Definition late (t M : nat) (r iv : Z) (evs : list event) : Prop :=
  forall a c z, evs = a ++ EFire t z :: c -> (M <= fires t a)%nat -> r + iv * (Z.of_nat (fires t a) - Z.of_nat M + 1) <= z.
Lemma late_snoc t M r iv evs s l s' e : 0 < iv -> R t M r iv evs s -> late t M r iv evs -> step s l = Some (s', e) -> late t M r iv (evs ++ e).
Proof.
  intros Hiv (x & kk & Hx & Hk & Hpd & Hp & Hc1 & Hc2) He H a c z Hq HM.
  assert (Hcase : (exists z0 q, e = [EFire t z0] /\ z0 = now s /\ chan s = t :: q) \/ (forall z, ~ In (EFire t z) e)).
  { destruct l as [dd|d0 i0|u ins|u iv0 ins|u|u|u|u|u|u|u| | | | |]; inv_step H; injection H as <- <-; try (right; intros zz X; cbn in X; intuition discriminate).
    destruct (Nat.eq_dec n t) as [->|Hne]; [left; eexists _, _; repeat split; exact Ec|right; intros zz [X|[]]; congruence]. }
  apply ReporterProofs.snoc_split in Hq as [(b1 & Hb & ->)|(d1 & Hd & _)]; [|eapply He; eassumption].
  destruct Hcase as [(z0 & q & -> & -> & Hch)|Hno]; [|destruct (Hno z); rewrite Hb; apply in_elt].
  destruct b1 as [|? [|? ?]]; try discriminate. injection Hb as <- <-. rewrite app_nil_r in *. cbv zeta in Hc2. rewrite Hch, cnt_cons, Nat.eqb_refl in Hc2.
  etransitivity; [|apply Hc2; lia]. nia.
Qed.
Lemma late_run t M r iv sched : 0 < iv -> forall evs s s' e, R t M r iv evs s -> late t M r iv evs -> no_reset t sched -> run step s sched = Some (s', e) -> late t M r iv (evs ++ e).
Proof.
  intros Hiv. induction sched as [|l sched IH]; intros evs s s' e HJ He Hn H.
  - injection H as <- <-. rewrite app_nil_r. auto.
  - apply run_cons_inv in H as (s1 & e1 & e2 & H1 & H2 & ->). rewrite app_assoc. eapply IH; [| | |exact H2].
    + eapply R_step; [exact Hiv|exact HJ| |exact H1]. intros iv0 bb ->. eapply Hn. now left.
    + eapply late_snoc; eassumption.
    + intros iv0 bb X. eapply Hn. right. exact X.
Qed.
Lemma reset_late n pre s0 e0 t x iv ins sched s evs : run step (actor n) pre = Some (s0, e0) -> nth_error (tms s0) t = Some x -> 0 < iv -> ival x <> iv -> no_reset t sched ->
  run step s0 (LReset t iv ins :: sched) = Some (s, EReset t true :: evs) -> late t (on_the_way t s0) (now s0) iv evs.
Proof.
  intros H0 Hx Hpos Hiv Hn H. apply run_cons_inv in H as (s1 & e1 & e2 & H1 & H2 & He). pose proof (ticking_ok_reach _ _ _ _ H0) as Htk.
  assert (Hb : (0 <? iv) = true) by now apply Z.ltb_lt. unfold step in H1. rewrite Hb in H1. inv_step H1; injection H1 as <- <-; try discriminate He.
  { cbn in Eb; assert (x0 = x) as -> by congruence; apply Z.eqb_eq in Eb; congruence. }
  injection He as ->. assert (x0 = x) as -> by congruence. cbn [tick ival] in *.
  eapply (late_run _ _ _ _ _ Hpos []); [|intros a c z X; destruct a; discriminate|exact Hn|exact H2].
  eexists _, _. split; [cbn; eapply nth_upd_same; exact En|]. split; [reflexivity|]. split; [reflexivity|]. split; [exact (Htk _ _ _ En Et)|].
  erewrite otw by exact En. cbn [chan set with_tick at_pc tick fulln full next now]. rewrite Et. cbn [fulln]. change (fires t []) with 0%nat. cbv zeta. split; lia.
Qed.

(** ** NextTrigger *)
Lemma next_trigger_step t v s l s' e : next_trigger t s = Some v -> (forall iv b, l <> LReset t iv b) -> step s l = Some (s', e) -> next_trigger t s' = Some v.
Proof.
  unfold next_trigger. intros Hv Hnr H. destruct (nth_error (tms s) t) as [x0|] eqn:Hx; [|discriminate]. cbn in Hv. injection Hv as Hv.
  destruct l as [dd|d0 i0|u ins|u iv ins|u|u|u|u|u|u|u| | | | |]; inv_step H; injection H as <- <-; cbn [tms set with_chan crash].
  all: try (rewrite ?Hx; cbn; congruence).
  all: try (rewrite nth_error_app1 by (apply nth_error_Some; congruence); rewrite Hx; cbn; congruence).
  all: destruct (Nat.eq_dec u t) as [->|Hne]; [assert (x0 = x) as -> by congruence|rewrite nth_upd_neq, Hx by exact Hne; cbn; congruence].
  all: try (exfalso; eapply Hnr; reflexivity).
  all: erewrite nth_upd_same by exact En; cbn; congruence.
Qed.
Lemma next_trigger_run t v sched : forall s s' e, next_trigger t s = Some v -> no_reset t sched -> run step s sched = Some (s', e) -> next_trigger t s' = Some v.
Proof.
  induction sched as [|l sched IH]; intros s s' e Hv Hn H; [injection H as <- <-; exact Hv|].
  apply run_cons_inv in H as (s1 & e1 & e2 & H1 & H2 & ->). eapply IH; [| |exact H2].
  - eapply next_trigger_step; [exact Hv| |exact H1]. intros iv b ->. eapply Hn. now left.
  - intros iv b X. eapply Hn. right. exact X.
Qed.
Lemma next_trigger_new s0 d i sched s evs : 0 <= d -> no_reset (length (tms s0)) sched -> run step s0 (LOn d i :: sched) = Some (s, evs) ->
  next_trigger (length (tms s0)) s = Some (first_time (now s0) d i).
Proof.
  intros Hd Hn H. apply run_cons_inv in H as (s1 & e1 & e2 & H1 & H2 & ->). eapply next_trigger_run; [|exact Hn|exact H2].
  inv_step H1. injection H1 as <- <-. unfold next_trigger. cbn [tms]. rewrite nth_error_app2, Nat.sub_diag by lia. cbn. unfold first_time.
  destruct (d =? 0) eqn:E; [apply Z.eqb_eq in E; subst; reflexivity|]. apply Z.eqb_neq in E. rewrite (proj2 (Z.ltb_lt 0 d)) by lia. reflexivity.
Qed.
