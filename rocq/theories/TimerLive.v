(** Proofs about timers that go on firing: C96. *)
From Coq Require Import List ZArith Arith Bool Lia.
From Verif Require Import Machine ClientProofs TimerModel TimerSpec TimerProofs.
Import ListNotations.
Open Scope Z_scope.

(** What is known of each timer. *)
Definition fit (now : Z) (shut : bool) (x : timer) : Prop :=
  match tick x with
  | None => match at_pc x with GStart | GSendDue | GMake => True | GAfter z => 0 < due x /\ z <= now + due x | _ => False end
  | Some k => (match at_pc x with GSelect | GSend => True | GGone => shut = true | _ => False end) /\
      period k = ival x /\ 0 < ival x /\ next k <= now + ival x /\ (active x = true -> stopped k = false)
  end.
Definition W (s : state) : Prop := forall t x, nth_error (tms s) t = Some x -> fit (now s) (shut s) x.

Lemma fit_mono n n' sh sh' x : fit n sh x -> n <= n' -> (sh = true -> sh' = true) -> fit n' sh' x.
Proof.
  unfold fit. destruct (tick x) as [k|].
  - intros (A & B & C & D & E) Hn Hs. repeat split; auto; [|lia]. destruct (at_pc x); auto.
  - destruct (at_pc x); auto. intros (A & B) Hn Hs. lia.
Qed.
Lemma W_upd s t y : W s -> fit (now s) (shut s) y -> forall u x, nth_error (upd (tms s) t y) u = Some x -> fit (now s) (shut s) x.
Proof. intros H Hy u x E. apply upd_inv in E as [[_ ->]|[_ E]]; [exact Hy|exact (H _ _ E)]. Qed.
Lemma next_le n p z : 0 < p -> n <= z -> n + p * (1 + (z - n) / p) <= z + p.
Proof. intros Hp Hn. pose proof (Z.mul_div_le (z - n) p Hp). lia. Qed.

Lemma W_step s l s' e : W s -> step s l = Some (s', e) -> W s'.
Proof.
  intros HW H. unfold step in H. destruct (crashed s); [discriminate|].
  destruct l as [d|d i|t ins|t iv ins|t|t|t|t|t|t|t| | | | |].
  - destruct (Z.leb_spec d 0); [discriminate|]. injection H as <- <-. intros t x E. cbn in *. eapply fit_mono; [exact (HW _ _ E)|lia|auto].
  - injection H as <- <-. intros t x E. cbn in *. destruct (Nat.lt_ge_cases t (length (tms s))) as [L|L].
    + rewrite nth_error_app1 in E by exact L. exact (HW _ _ E).
    + rewrite nth_error_app2 in E by exact L. destruct (t - length (tms s))%nat; [|destruct n; discriminate]. cbn in E. injection E as <-. exact I.
  - destruct (nth_error (tms s) t) as [x|] eqn:E; [|discriminate]. pose proof (HW _ _ E) as F.
    destruct (active x) eqn:Ea; [|injection H as <- <-; exact HW]. unfold fit in F. destruct (tick x) as [k|] eqn:Et.
    + injection H as <- <-. intros u y. apply (W_upd s); [exact HW|]. unfold fit; cbn. destruct F as (A & B & C & D & _). repeat split; auto; discriminate.
    + unfold nil_deref in H. destruct ins; injection H as <- <-; intros u y; apply (W_upd s); try exact HW; unfold fit; cbn; exact F.
  - destruct (nth_error (tms s) t) as [x|] eqn:E; [|discriminate]. pose proof (HW _ _ E) as F.
    destruct ((0 <? iv) && (ival x =? iv)) eqn:Eq; [injection H as <- <-; exact HW|]. unfold fit in F.
    destruct (Z.ltb_spec 0 iv) as [Lv|Lv]; cbn [ival] in H.
    + destruct (Z.leb_spec iv 0); [lia|]. cbn [tick due ival born active nexttick at_pc] in H. destruct (tick x) as [k|] eqn:Et.
      * injection H as <- <-. intros u y. apply (W_upd s); [exact HW|]. unfold fit; cbn. destruct F as (A & B & C & D & _). repeat split; auto; lia.
      * unfold nil_deref in H. destruct ins; injection H as <- <-; intros u y; apply (W_upd s); try exact HW; unfold fit; cbn; exact F.
    + destruct (Z.leb_spec (ival x) 0).
      * injection H as <- <-. intros u y. apply (W_upd s); [exact HW|exact (HW _ _ E)].
      * cbn [tick due ival born active nexttick at_pc] in H. destruct (tick x) as [k|] eqn:Et.
        -- injection H as <- <-. intros u y. apply (W_upd s); [exact HW|]. unfold fit; cbn. destruct F as (A & B & C & D & _). repeat split; auto; lia.
        -- unfold nil_deref in H. destruct ins; injection H as <- <-; intros u y; apply (W_upd s); try exact HW; unfold fit; cbn; exact F.
  - destruct (nth_error (tms s) t) as [x|] eqn:E; [|discriminate]. pose proof (HW _ _ E) as F. unfold fit in F.
    destruct (at_pc x) eqn:Ep; try discriminate. injection H as <- <-. intros u y. apply (W_upd s); [exact HW|]. unfold fit; cbn.
    destruct (tick x); [destruct F as ([] & _)|]. destruct (Z.ltb_spec 0 (due x)); [lia|exact I].
  - destruct (nth_error (tms s) t) as [x|] eqn:E; [|discriminate]. pose proof (HW _ _ E) as F. unfold fit in F.
    destruct (at_pc x) eqn:Ep; try discriminate. destruct (at_ <=? now s); [|discriminate]. injection H as <- <-. intros u y. apply (W_upd s); [exact HW|]. unfold fit; cbn.
    destruct (tick x); [destruct F as ([] & _)|exact I].
  - destruct (nth_error (tms s) t) as [x|] eqn:E; [|discriminate]. pose proof (HW _ _ E) as F. unfold fit in F. destruct (_ <? _)%nat; [|discriminate].
    destruct (at_pc x) eqn:Ep; try discriminate; injection H as <- <-; intros u y; apply (W_upd s); try exact HW; unfold fit; cbn; destruct (tick x); auto; try destruct F as ([] & _); destruct F.
  - destruct (nth_error (tms s) t) as [x|] eqn:E; [|discriminate]. pose proof (HW _ _ E) as F. unfold fit in F.
    destruct (at_pc x) eqn:Ep; try discriminate. destruct (Z.leb_spec (ival x) 0); injection H as <- <-; [exact HW|].
    intros u y; apply (W_upd s); [exact HW|]. unfold fit; cbn. repeat split; auto; lia.
  - destruct (nth_error (tms s) t) as [x|] eqn:E; [|discriminate]. pose proof (HW _ _ E) as F. unfold fit in F.
    destruct (at_pc x) eqn:Ep; try discriminate. destruct (tick x) as [k|] eqn:Et; [|discriminate]. destruct (full k); [|discriminate]. injection H as <- <-.
    intros u y; apply (W_upd s); [exact HW|]. unfold fit; cbn. exact F.
  - destruct (nth_error (tms s) t) as [x|] eqn:E; [|discriminate]. pose proof (HW _ _ E) as F. unfold fit in F.
    destruct (at_pc x) eqn:Ep; try discriminate. destruct (shut s) eqn:Es; [|discriminate]. injection H as <- <-.
    intros u y; cbn; rewrite Es, <- Es; apply (W_upd s); [exact HW|]. unfold fit; cbn. destruct (tick x); [exact (conj Es (proj2 F))|destruct F].
  - destruct (nth_error (tms s) t) as [x|] eqn:E; [|discriminate]. pose proof (HW _ _ E) as F. unfold fit in F.
    destruct (tick x) as [k|] eqn:Et; [|discriminate]. destruct (stopped k) eqn:Est; [discriminate|]. cbn [negb andb] in H. destruct (Z.leb_spec (next k) (now s)); [|discriminate].
    injection H as <- <-. intros u y; apply (W_upd s); [exact HW|]. unfold fit; cbn. destruct F as (A & B & C & D & _). repeat split; auto.
    rewrite B. apply next_le; lia.
  - destruct (gone s); [discriminate|]. destruct (exec s); [discriminate|]. destruct (chan s); [discriminate|]. destruct (closing s); injection H as <- <-; exact HW.
  - destruct (exec s); [|discriminate]. injection H as <- <-. exact HW.
  - destruct (shut s) eqn:Es; [discriminate|]. injection H as <- <-. intros u x E. cbn in *. eapply fit_mono; [exact (HW _ _ E)|lia|auto].
  - destruct (exec s); [discriminate|]. destruct (shut s && negb (gone s)); [|discriminate]. injection H as <- <-. exact HW.
  - destruct (exec s); [discriminate|]. destruct (closing s); [|discriminate]. injection H as <- <-. exact HW.
Qed.
Lemma W_reach n sched s evs : run step (actor n) sched = Some (s, evs) -> W s /\ cap s = n /\ (closing s = true -> shut s = true) /\ (gone s = true -> closing s = true).
Proof.
  intros H. refine (run_inv step (actor n) (fun _ _ s => W s /\ cap s = n /\ (closing s = true -> shut s = true) /\ (gone s = true -> closing s = true)) _ _ sched s evs H).
  - split; [intros t x E; destruct t; discriminate|]. repeat split; discriminate.
  - intros sc ev s0 l s' e _ (A & B & C & D) Hs. split; [eapply W_step; eassumption|]. clear A. unfold step in Hs. destruct (crashed s0); [discriminate|].
    destruct l; repeat match type of Hs with
      | context [match ?x with _ => _ end] => destruct x eqn:?; try discriminate Hs
      | context [if ?x then _ else _] => destruct x eqn:?; try discriminate Hs end;
      unfold nil_deref in *; repeat match goal with
      | Hq : (if ?b then _ else _) = Some _ |- _ => destruct b; injection Hq as <- <-; cbn end;
      try (injection Hs as <- <-); cbn; auto.
    + repeat split; congruence.
    + repeat split; auto. intros _. destruct (shut s0); [reflexivity|discriminate].
Qed.

(** The state after the loop has taken everything that lies in the channel. *)
Lemma drain q : forall s, chan s = q -> exec s = None -> crashed s = false -> gone s = false -> closing s = false ->
  exists sched evs, run step s sched = Some (with_chan s [] None, evs) /\ Forall (fun l => l = LTake \/ l = LDone) sched.
Proof.
  induction q as [|t q IH]; intros s Hq He Hc Hg Hcl.
  - exists [], []. split; [|constructor]. destruct s; cbn in *; subst; reflexivity.
  - destruct (IH (with_chan s q None)) as (sched & evs & R & F); try assumption; try reflexivity.
    exists (LTake :: LDone :: sched). eexists. split; [|constructor; [now left|constructor; [now right|exact F]]]. cbn [run]. unfold step at 1. rewrite Hc, Hg, He, Hq, Hcl.
    unfold step at 1. cbn [crashed with_chan exec]. rewrite Hc. change (with_chan (with_chan s q (Some t)) (chan (with_chan s q (Some t))) None) with (with_chan s q None). rewrite R. reflexivity.
Qed.
Lemma drain_any s : crashed s = false -> gone s = false -> closing s = false ->
  exists sched evs, run step s sched = Some (with_chan s [] None, evs) /\ Forall (fun l => l = LTake \/ l = LDone) sched.
Proof.
  intros Hc Hg Hcl. destruct (exec s) as [t|] eqn:He; [|eapply drain; eauto].
  destruct (drain (chan s) (with_chan s (chan s) None)) as (sched & evs & R & F); try assumption; try reflexivity.
  exists (LDone :: sched), evs. split; [|constructor; auto]. cbn [run]. unfold step at 1. rewrite Hc, He, R. reflexivity.
Qed.

(** An active timer of a running actor, with what [fit] knows about it. *)
Definition alive (t : nat) (d i : Z) (s : state) : Prop :=
  crashed s = false /\ shut s = false /\ closing s = false /\ gone s = false /\
  exists x, nth_error (tms s) t = Some x /\ active x = true /\ due x = d /\ ival x = i /\ fit (now s) (shut s) x.
Definition can_fire (t : nat) (d i z : Z) (s : state) : Prop :=
  exists sched s' evs, run step s sched = Some (s', evs) /\ Forall (own_work t) sched /\ (1 <= fires t evs)%nat /\ now s' <= z /\ alive t d i s' /\ cap s' = cap s.
Lemma own_loop t sched : Forall (fun l => l = LTake \/ l = LDone) sched -> Forall (own_work t) sched.
Proof. intros H. eapply Forall_impl; [|exact H]. intros l [->| ->]; exact I. Qed.
Lemma can_step t d i z s l s1 e1 : step s l = Some (s1, e1) -> own_work t l -> cap s1 = cap s -> can_fire t d i z s1 -> can_fire t d i z s.
Proof.
  intros H1 Hl Hc (sched & s' & evs & R & F & N & Z0 & A & C). exists (l :: sched), s', (e1 ++ evs). split; [cbn [run]; rewrite H1, R; reflexivity|].
  split; [now constructor|]. split; [rewrite fires_app; lia|]. split; [exact Z0|]. split; [exact A|congruence].
Qed.
(** It lies at the head of the channel and the loop is idle. *)
Lemma can_take t d i z s q : alive t d i s -> chan s = t :: q -> exec s = None -> now s <= z -> can_fire t d i z s.
Proof.
  intros (A & B & C & D & x & X) Hq He Hz. exists [LTake], (with_chan s q (Some t)), [EFire t (now s)]. cbn [run]. unfold step. rewrite A, D, He, Hq, C. cbn [app].
  split; [reflexivity|]. split; [repeat constructor|]. split; [unfold fires; cbn; rewrite Nat.eqb_refl; cbn; lia|]. split; [exact Hz|]. split; [|reflexivity].
  repeat split; try assumption. exists x. exact X.
Qed.
(** The goroutine is about to send. *)
Lemma can_push t d i z s x p' : crashed s = false -> shut s = false -> closing s = false -> gone s = false -> exec s = None -> chan s = [] -> (0 < cap s)%nat -> now s <= z ->
  nth_error (tms s) t = Some x -> active x = true -> due x = d -> ival x = i -> fit (now s) (shut s) x ->
  (at_pc x = GSendDue /\ p' = GMake \/ at_pc x = GSend /\ p' = GSelect) -> can_fire t d i z s.
Proof.
  intros A B C D He Hq Hcap Hz Hx Ha Hd Hi F Hp.
  assert (Hs : step s (LPush t) = Some (with_chan (set s t (goto x p')) (chan s ++ [t]) (exec s), [])).
  { unfold step. rewrite A, Hx, Hq. rewrite (proj2 (Nat.ltb_lt _ _)) by exact Hcap. destruct Hp as [[-> ->]|[-> ->]]; reflexivity. }
  eapply can_step; [exact Hs|exact eq_refl|reflexivity|]. apply (can_take _ _ _ _ _ []); cbn; rewrite ?Hq; auto.
  repeat split; auto. exists (goto x p'). cbn. rewrite (nth_upd_same _ _ _ _ Hx). repeat split; auto. unfold fit in *; cbn in *.
  destruct Hp as [[E ->]|[E ->]]; rewrite E in F; destruct (tick x); auto; try destruct F as ([] & _); destruct F.
Qed.
(** A started timer. *)
Lemma can_tick t d i s x k : crashed s = false -> shut s = false -> closing s = false -> gone s = false -> exec s = None -> chan s = [] -> (0 < cap s)%nat ->
  nth_error (tms s) t = Some x -> active x = true -> due x = d -> ival x = i -> fit (now s) (shut s) x -> tick x = Some k -> at_pc x = GSelect -> full k = true -> forall z, now s <= z ->
  can_fire t d i z s.
Proof.
  intros A B C D He Hq Hcap Hx Ha Hd Hi F Ek Ep Ef z Hz.
  eapply (can_step _ _ _ _ _ (LRecv t)); [unfold step; rewrite A, Hx, Ep, Ek, Ef; reflexivity|exact eq_refl|reflexivity|].
  eapply (can_push t d i z _ (goto (with_tick x (mkTk (stopped k) (period k) (next k) false)) GSend) GSelect); cbn; auto; try (exact (nth_upd_same _ _ _ _ Hx)).
  - unfold fit in *; cbn in *. rewrite Ek in F. destruct F as (_ & F). split; [exact I|exact F].
Qed.
Lemma can_select t d i s x k : crashed s = false -> shut s = false -> closing s = false -> gone s = false -> exec s = None -> chan s = [] -> (0 < cap s)%nat ->
  nth_error (tms s) t = Some x -> active x = true -> due x = d -> ival x = i -> fit (now s) (shut s) x -> tick x = Some k -> at_pc x = GSelect -> next k <= now s -> forall z, now s <= z ->
  can_fire t d i z s.
Proof.
  intros A B C D He Hq Hcap Hx Ha Hd Hi F Ek Ep Ef z Hz. pose proof F as F0. unfold fit in F0. rewrite Ek in F0. destruct F0 as (_ & F1 & F2 & F3 & F4).
  eapply (can_step _ _ _ _ _ (LTick t)); [unfold step; rewrite A, Hx, Ek, (F4 Ha); cbn [negb andb]; rewrite (proj2 (Z.leb_le _ _) Ef); reflexivity|exact eq_refl|reflexivity|].
  set (k' := mkTk false (period k) (next k + period k * (1 + (now s - next k) / period k)) true).
  apply (can_tick t d i _ (with_tick x k') k'); [..|exact Hz]; cbn; try (exact (nth_upd_same _ _ _ _ Hx)); auto.
  unfold fit; cbn. repeat split; auto. - now rewrite Ep. - rewrite F1. apply next_le; lia.
Qed.
Lemma can_wait t d i s x z w : crashed s = false -> nth_error (tms s) t = Some x -> now s <= w ->
  (forall s1, s1 = mkS (cap s) w (tms s) (chan s) (exec s) (shut s) (closing s) (gone s) false -> can_fire t d i z s1) -> can_fire t d i z s.
Proof.
  intros A Hx Hw H. destruct (Z.eq_dec (now s) w) as [<-|Hn].
  - apply H. destruct s; cbn in *; subst; reflexivity.
  - eapply (can_step _ _ _ _ _ (LAdvance (w - now s))); [|exact I| |apply H; reflexivity]; [|reflexivity]. unfold step. rewrite A. rewrite (proj2 (Z.leb_gt (w - now s) 0)) by lia. repeat f_equal; lia.
Qed.
Lemma can_started t d i s x k : crashed s = false -> shut s = false -> closing s = false -> gone s = false -> exec s = None -> chan s = [] -> (0 < cap s)%nat ->
  nth_error (tms s) t = Some x -> active x = true -> due x = d -> ival x = i -> fit (now s) (shut s) x -> tick x = Some k -> can_fire t d i (now s + ival x) s.
Proof.
  intros A B C D He Hq Hcap Hx Ha Hd Hi F Ek. pose proof F as F0. unfold fit in F0. rewrite Ek in F0. destruct F0 as (F0 & F1 & F2 & F3 & F4).
  destruct (at_pc x) eqn:Ep; try contradiction; try congruence; [|eapply can_push with (p' := GSelect); eauto; lia].
  apply (can_wait _ _ _ _ x _ (Z.max (now s) (next k))); auto; [lia|]. intros s1 ->. eapply can_select; cbn; eauto; try lia.
  eapply fit_mono; [exact F|lia|auto].
Qed.
(** Any active timer of a running actor. *)
Lemma can_fire_now t d i s : 0 < i -> (0 < cap s)%nat -> alive t d i s -> can_fire t d i (now s + Z.max d i) s.
Proof.
  intros Hi Hcap (A & B & C & D & x & Hx & Ha & Hd & Hv & F). destruct (drain_any s A D C) as (sched & evs & R & HF).
  assert (M : can_fire t d i (now s + Z.max d i) (with_chan s [] None)); [|destruct M as (sc & s' & ev & R1 & F1 & N & Z1 & A1 & C1);
    exists (sched ++ sc), s', (evs ++ ev); split; [exact (run_app _ _ _ _ _ _ _ _ R R1)|]; split; [apply Forall_app; split; [now apply own_loop|exact F1]|]; split; [rewrite fires_app; lia|]; auto].
  remember (with_chan s [] None) as s0 eqn:E0. assert (Hn : now s0 = now s) by (subst; reflexivity). rewrite <- Hn.
  assert (X : crashed s0 = false /\ shut s0 = false /\ closing s0 = false /\ gone s0 = false /\ exec s0 = None /\ chan s0 = [] /\ (0 < cap s0)%nat /\ nth_error (tms s0) t = Some x /\ fit (now s0) (shut s0) x) by (subst s0; cbn; repeat split; assumption).
  clear sched evs R HF A B C D Hx F Hcap Hn E0 s. destruct X as (A & B & C & D & He & Hq & Hcap & Hx & F). rename s0 into s.
  destruct (tick x) as [k|] eqn:Ek.
  { destruct (can_started t d i s x k) as (sc & s' & ev & R1 & F1 & N & Z1 & A1 & C1); auto. exists sc, s', ev. split; [exact R1|]. split; [exact F1|]. split; [exact N|]. split; [lia|]. now split. }
  assert (Mk : forall s y w, crashed s = false -> shut s = false -> closing s = false -> gone s = false -> exec s = None -> chan s = [] -> (0 < cap s)%nat -> nth_error (tms s) t = Some y ->
    active y = true -> due y = d -> ival y = i -> tick y = None -> at_pc y = GMake -> now s + i <= w -> can_fire t d i w s).
  { clear -Hi. intros s y w A B C D He Hq Hcap Hx Ha Hd Hv Ek Ep Hw. eapply (can_step _ _ _ _ _ (LMake t)); [unfold step; rewrite A, Hx, Ep, Hv, (proj2 (Z.leb_gt i 0) Hi); reflexivity|exact eq_refl|reflexivity|].
    match goal with |- can_fire _ _ _ _ ?s1 => destruct (can_started t d i s1 (goto (with_tick y (mkTk false i (now s + i) false)) GSelect) (mkTk false i (now s + i) false)) as (sc & s' & ev & R1 & F1 & N & Z1 & A1 & C1); cbn; auto end;
      try (erewrite nth_upd_same by exact Hx; reflexivity); [|exists sc, s', ev; split; [exact R1|]; split; [exact F1|]; split; [exact N|]; split; [cbn in Z1; lia|]; now split].
    unfold fit; cbn. repeat split; auto; lia. }
  pose proof F as F0. unfold fit in F0. rewrite Ek in F0.
  assert (Due : forall s y z w, crashed s = false -> shut s = false -> closing s = false -> gone s = false -> exec s = None -> chan s = [] -> (0 < cap s)%nat -> nth_error (tms s) t = Some y ->
    active y = true -> due y = d -> ival y = i -> tick y = None -> at_pc y = GAfter z -> 0 < d -> Z.max (now s) z <= w -> can_fire t d i w s).
  { clear. intros s y z w A B C D He Hq Hcap Hx Ha Hd Hv Ek Ep Hp Hw. apply (can_wait _ _ _ _ y _ (Z.max (now s) z)); auto; [lia|]. intros s1 ->.
    eapply (can_step _ _ _ _ _ (LAfter t)); [unfold step; cbn [crashed tms now]; rewrite Hx, Ep, (proj2 (Z.leb_le z (Z.max (now s) z))) by lia; reflexivity|exact eq_refl|reflexivity|].
    eapply (can_push t d i w _ (goto y GSendDue) GMake); cbn; auto; try (exact (nth_upd_same _ _ _ _ Hx)). unfold fit; cbn. rewrite Ek. exact I. }
  destruct (at_pc x) eqn:Ep; try destruct F0 as [].
  - destruct (Z.ltb_spec 0 d) as [Ld|Ld].
    + eapply (can_step _ _ _ _ _ (LGo t)); [unfold step; rewrite A, Hx, Ep, Hd, (proj2 (Z.ltb_lt 0 d) Ld); reflexivity|exact eq_refl|reflexivity|].
      eapply (Due _ (goto x (GAfter (now s + d))) (now s + d)); cbn; auto; [rewrite (nth_upd_same _ _ _ _ Hx); reflexivity|lia].
    + eapply (can_step _ _ _ _ _ (LGo t)); [unfold step; rewrite A, Hx, Ep, Hd, (proj2 (Z.ltb_ge 0 d) Ld); reflexivity|exact eq_refl|reflexivity|].
      eapply (Mk _ (goto x GMake)); cbn; auto; [rewrite (nth_upd_same _ _ _ _ Hx); reflexivity|lia].
  - eapply Due; eauto; try lia. 
  - eapply can_push with (p' := GMake); eauto; lia.
  - eapply Mk; eauto; lia.
Qed.
Lemma alive_reach n sched s evs t x : run step (actor n) sched = Some (s, evs) -> crashed s = false -> shut s = false -> nth_error (tms s) t = Some x -> active x = true -> alive t (due x) (ival x) s.
Proof.
  intros H Hc Hs Hx Ha. destruct (W_reach _ _ _ _ H) as (A & B & C & D). repeat split; auto.
  - destruct (closing s); [rewrite C in Hs by reflexivity; discriminate|reflexivity].
  - destruct (gone s); [rewrite C in Hs by (now apply D); discriminate|reflexivity].
  - exists x. repeat split; auto. exact (A _ _ Hx).
Qed.
Lemma fires_again n sched s evs t x m : run step (actor n) sched = Some (s, evs) -> (0 < n)%nat -> crashed s = false -> shut s = false -> nth_error (tms s) t = Some x -> active x = true -> 0 < ival x ->
  exists sched' s' evs', run step s sched' = Some (s', evs') /\ Forall (own_work t) sched' /\ (m <= fires t evs')%nat /\ now s' <= now s + Z.of_nat m * Z.max (due x) (ival x).
Proof.
  intros H Hn Hc Hs Hx Ha Hi. pose proof (alive_reach _ _ _ _ _ _ H Hc Hs Hx Ha) as HA. assert (Hcap : (0 < cap s)%nat) by (destruct (W_reach _ _ _ _ H) as (_ & -> & _); exact Hn).
  clear H Hn Hc Hs Hx Ha sched evs. generalize dependent s. induction m as [|m IH]; intros s HA Hcap.
  - exists [], s, []. repeat split; auto; lia.
  - destruct (can_fire_now _ _ _ _ Hi Hcap HA) as (sc & s1 & ev & R & F & N & Z1 & A1 & C1). destruct (IH s1 A1) as (sc2 & s2 & ev2 & R2 & F2 & N2 & Z2); [lia|].
    exists (sc ++ sc2), s2, (ev ++ ev2). split; [exact (run_app _ _ _ _ _ _ _ _ R R2)|]. split; [apply Forall_app; auto|]. rewrite fires_app. split; lia.
Qed.
