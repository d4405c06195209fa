(** What one call did, for all interleavings. *)
From Coq Require Import List String ZArith Bool Lia.
From Verif Require Import Machine AddrModel AddrSpec AddrProofs RegModel RegSpec RegProofs RegLimits RegLive.
Import ListNotations.
Open Scope string_scope.
Open Scope list_scope.

Section Hist.
Variable factory : string -> option Z.

Lemma own_app t a b : own t (a ++ b) = own t a ++ own t b.
Proof. apply filter_app. Qed.

Definition cmds (t : nat) (l : list cmd) : list event := map (ECmd t) l.
Definition same (s : state) (i : nat) (n id ty : string) : Prop :=
  exists x, nth_error (insts s) i = Some (mkInst n id ty x).
(** What Unregister did before its store commands. *)
Definition ended (t : nat) (l : list event) : Prop := l = [] \/ exists i, l = [EStop t i].

Definition hist_reg (s : state) (t : nat) (n : string) (b : builder) (p : pc) (h : list event) : Prop :=
  match p with
  | PCheck | PScan | PCount | PBook => h = []
  | PPipe r => exists ep d, d ++ r = reg_cmds n ep (b_ty b) (b_id b) (b_w b) /\ h = cmds t d
  | PBuild => exists ep, h = cmds t (reg_cmds n ep (b_ty b) (b_id b) (b_w b))
  | PInsert i => same s i n (b_id b) (b_ty b) /\ exists ep, h = cmds t (reg_cmds n ep (b_ty b) (b_id b) (b_w b)) ++ [ERun t i]
  | PRet true => exists ep i, same s i n (b_id b) (b_ty b) /\
      h = cmds t (reg_cmds n ep (b_ty b) (b_id b) (b_w b)) ++ [ERun t i; EOk t]
  | PRet false | PDead => ~ In (EOk t) h
  | _ => False
  end.
Definition hist_unreg (t : nat) (n id ty : string) (p : pc) (h : list event) : Prop :=
  match p with
  | UMap | UExit _ | UWait _ => h = []
  | UDel => exists i, h = [EStop t i]
  | UFac => ended t h
  | UBook w => ended t h /\ factory ty = Some w
  | UPipe r => exists w a d h0, factory ty = Some w /\ ended t h0 /\ d ++ r = unreg_cmds n id a w /\ h = h0 ++ cmds t d
  | PRet true => In (EFail t) h \/ exists h0, ended t h0 /\
      (h = h0 ++ [EOk t] \/ exists w a, factory ty = Some w /\ h = h0 ++ cmds t (unreg_cmds n id a w) ++ [EOk t])
  | PRet false | PDead => ~ In (EOk t) h
  | _ => False
  end.
Definition hist_ok (s : state) (t : nat) (c : call) (h : list event) : Prop :=
  match c_kind c with
  | CReg b => hist_reg s t (c_node c) b (c_pc c) h
  | CUnreg id ty => hist_unreg t (c_node c) id ty (c_pc c) h
  end.
Record HInv (evs : list event) (s : state) : Prop := {
  h_new : forall t, List.length (calls s) <= t -> own t evs = [];
  h_pc : forall t c, nth_error (calls s) t = Some c -> hist_ok s t c (own t evs) }.

Lemma hist_mono s s' t c h : (forall i n id ty, same s i n id ty -> same s' i n id ty) -> hist_ok s t c h -> hist_ok s' t c h.
Proof.
  intros Hm. unfold hist_ok. destruct (c_kind c); [|auto]. destruct (c_pc c) as [| | | | | | | | | | | | | |[|]|]; cbn; auto.
  - intros (A & B). auto.
  - intros (ep & j & A & B). exists ep, j. auto.
Qed.

Lemma hist_upd evs s s' t c p e : HInv evs s -> nth_error (calls s) t = Some c ->
  calls s' = upd (calls s) t (mkCall (c_node c) (c_kind c) p) ->
  (forall i n id ty, same s i n id ty -> same s' i n id ty) ->
  (forall u, u <> t -> own u e = []) ->
  hist_ok s' t (mkCall (c_node c) (c_kind c) p) (own t evs ++ own t e) -> HInv (evs ++ e) s'.
Proof.
  intros [A B] Hc E Hm He Hp. constructor.
  - intros u Hu. rewrite E, upd_length in Hu. assert (u <> t) by (intros ->; apply nth_error_None in Hu; congruence).
    rewrite own_app, (A _ Hu), (He _ H). reflexivity.
  - intros u d Hu. rewrite own_app. rewrite E in Hu. apply (nth_upd_case _ _ _ _ _ _ Hc) in Hu as [[-> ->]|[Hne Hu]]; [exact Hp|].
    rewrite (He _ Hne), app_nil_r. eapply hist_mono; eauto.
Qed.
Lemma cmds_no t l e : In e (cmds t l) -> exists x, e = ECmd t x.
Proof. intros H. apply in_map_iff in H as (x & <- & _). eauto. Qed.
Lemma ended_no t l e : ended t l -> In e l -> exists i, e = EStop t i.
Proof. intros [->|(i & ->)] H; [destruct H|]. destruct H as [<-|[]]. eauto. Qed.
Ltac no_ok :=
  match goal with
  | H : In (EOk _) (cmds _ _) |- _ => apply cmds_no in H as [? H]; discriminate H
  | H : ended _ ?l, H' : In (EOk _) ?l |- _ => apply (ended_no _ _ _ H) in H' as [? H']; discriminate H'
  | H : In _ [] |- _ => destruct H
  | H : In (EOk _) [_] |- _ => destruct H as [H|[]]; discriminate H
  | H : In (EOk _) (_ ++ _) |- _ => apply in_app_or in H as [H|H]
  end.
Lemma dead_no_ok s t c h : hist_ok s t c h -> active c = true -> ~ In (EOk t) h.
Proof.
  unfold hist_ok, active. destruct (c_kind c) as [b|id ty]; destruct (c_pc c) as [| | | | | | | | | | | | | |[|]|];
    cbn [hist_reg hist_unreg]; intros Hh Ha Hin; try discriminate; try contradiction.
  all: try (rewrite Hh in Hin; contradiction).
  - destruct Hh as (ep & d & _ & ->). no_ok.
  - destruct Hh as (ep & ->). no_ok.
  - destruct Hh as (_ & ep & ->). repeat no_ok.
  - destruct Hh as (i & ->). no_ok.
  - no_ok.
  - destruct Hh as [Hh _]. no_ok.
  - destruct Hh as (w & a & d & h0 & _ & H0 & _ & ->). repeat no_ok.
Qed.
Lemma hist_die evs s n e : HInv evs s -> (forall u, own u e = []) -> HInv (evs ++ e) (die s n).
Proof.
  intros [A B] He. constructor.
  - intros u Hu. cbn in Hu. rewrite map_length in Hu. rewrite own_app, (A _ Hu), He. reflexivity.
  - intros u d Hu. rewrite own_app, He, app_nil_r.
    cbn in Hu. rewrite nth_error_map in Hu. destruct (nth_error (calls s) u) as [c|] eqn:Ec; [|discriminate]. cbn in Hu. injection Hu as <-.
    pose proof (B _ _ Ec) as Hh.
    assert (Hm : hist_ok (die s n) u c (own u evs)).
    { eapply hist_mono; [|exact Hh]. intros i m id ty (x & Hx). unfold same. cbn [insts die]. rewrite nth_error_map, Hx. cbn.
      destruct (String.eqb m n); eexists; reflexivity. }
    destruct (String.eqb (c_node c) n); [|exact Hm].
    destruct (active c) eqn:Ea.
    + pose proof (dead_no_ok _ _ _ _ Hh Ea) as Hd. unfold active in Ea.
      destruct (c_pc c) eqn:Ep; try discriminate; unfold hist_ok; cbn [c_kind c_pc c_node]; destruct (c_kind c); exact Hd.
    + unfold active in Ea. destruct (c_pc c) eqn:Ep; try discriminate; [exact Hm|].
      unfold hist_ok in Hm |- *. rewrite Ep in Hm. exact Hm.
Qed.
Lemma hist_new evs s c e : HInv evs s -> hist_ok s (List.length (calls s)) c (own (List.length (calls s)) e) ->
  (forall u, u <> List.length (calls s) -> own u e = []) ->
  HInv (evs ++ e) (set_calls s (calls s ++ [c])).
Proof.
  intros [A B] Hp He. constructor.
  - intros u Hu. cbn in Hu. rewrite app_length in Hu. cbn in Hu. rewrite own_app, A, He by lia. reflexivity.
  - intros u d Hu. rewrite own_app. apply nth_snoc in Hu as [[-> ->]|Hu].
    + rewrite A by lia. eapply hist_mono; [|exact Hp]. auto.
    + assert (u < List.length (calls s)) by (apply nth_error_Some; congruence).
      rewrite He, app_nil_r by lia. eapply hist_mono; [|exact (B _ _ Hu)]. auto.
Qed.

Lemma own_self t x : own t [ECmd t x] = [ECmd t x].
Proof. cbn. now rewrite Nat.eqb_refl. Qed.

Lemma same_upd s s' j x v i n id ty : insts s' = upd (insts s) j (set_st x v) -> nth_error (insts s) j = Some x ->
  same s i n id ty -> same s' i n id ty.
Proof.
  intros E Hj (y & Hy). unfold same. rewrite E. rewrite nth_upd by (apply nth_error_Some; congruence).
  destruct (Nat.eqb_spec j i) as [->|]; [|eauto]. rewrite Hj in Hy. injection Hy as ->. eexists. reflexivity.
Qed.

Ltac others := intros u Hu; cbn; rewrite ?(eqb_ne _ _ Hu); reflexivity.
Ltac upd_goal := eapply hist_upd; [eassumption|eassumption|reflexivity| |others|].
Lemma hist_step evs s l s' e : HInv evs s -> step factory s l = Some (s', e) -> HInv (evs ++ e) s'.
Proof.
  intros HI H. inv_step H; try (apply hist_die; [assumption|reflexivity]).
  all: try (pose proof (h_pc _ _ HI _ _ Hc) as Hp; unfold hist_ok in Hp; cbn [c_kind c_node c_pc] in Hp).
  1: { rewrite app_nil_r. destruct HI as [A B]. constructor; auto. }
  1: { apply hist_new; [assumption| |]; cbn; rewrite ?Nat.eqb_refl.
       - intros [|[]]; discriminate.
       - intros u Hu. rewrite (eqb_ne _ _ Hu). reflexivity. }
  1: { apply hist_new; [assumption|reflexivity|reflexivity]. }
  1: { apply hist_new; [assumption|reflexivity|reflexivity]. }
  all: try (destruct ck as [b|id ty]; cbn [hist_reg hist_unreg] in Hp).
  all: upd_goal; try (intros ? ? ? ? X; exact X).
  all: unfold hist_ok; cbn [c_kind c_node c_pc hist_reg hist_unreg]; cbn [own filter of_call app]; rewrite ?Nat.eqb_refl, ?app_nil_r.
  all: try assumption.
  all: try (rewrite Hp; intros [|[]]; discriminate).
  all: try (rewrite Hp; reflexivity).
  all: cbn [hist_reg hist_unreg] in Hp.
  all: try contradiction.
  - exists (n_ep nd), []. split; [reflexivity|exact Hp].
  - destruct Hp as (ep & d & E & ->). rewrite app_nil_r in E. exists ep. now rewrite E.
  - destruct Hp as (ep & d & E & ->). exists ep, (d ++ [x]). rewrite <- app_assoc. split; [exact E|].
    unfold cmds. rewrite map_app. reflexivity.
  - intros j n id ty (y & Hy). exists y. cbn [insts]. now apply nth_snoc_old.
  - split.
    + exists Running. cbn [insts]. rewrite nth_error_app2, Nat.sub_diag by lia. reflexivity.
    + destruct Hp as (ep & ->). exists ep. reflexivity.
  - destruct Hp as ((y & Hy) & ep & ->). exists ep, i. split; [exists y; exact Hy|]. rewrite <- app_assoc. reflexivity.
  - left. exact Hp.
  - intros j n id' ty' X. eapply same_upd; [reflexivity|eassumption|exact X].
  - intros j n id' ty' X. eapply same_upd; [reflexivity|eassumption|exact X].
  - rewrite Hp. exists i. reflexivity.
  - right. exact Hp.
  - auto.
  - intros Hin. repeat no_ok.
  - right. exists (own t evs). destruct Hp as [Hp _]. auto.
  - exists w, a, [], (own t evs). destruct Hp as [Hp Hw]. split; [exact Hw|]. split; [exact Hp|]. split; [reflexivity|]. now rewrite app_nil_r.
  - right. exists (own t evs). destruct Hp as [Hp _]. auto.
  - right. destruct Hp as (w & a & d & h0 & Hw & H0 & E & ->). exists h0. split; [exact H0|]. right. exists w, a.
    rewrite app_nil_r in E. rewrite E, app_assoc. auto.
  - destruct Hp as (w & a & d & h0 & Hw & H0 & E & ->). exists w, a, (d ++ [x]), h0. rewrite <- (app_assoc d). split; [exact Hw|]. split; [exact H0|].
    split; [exact E|]. unfold cmds. rewrite map_app, app_assoc. reflexivity.
  - rewrite Hp. intros [|[|[]]]; discriminate.
  - destruct Hp as (ep & d & _ & ->). intros Hin. apply in_app_or in Hin as [Hin|[Hin|[Hin|[]]]]; [no_ok|discriminate|discriminate].
  - left. apply in_or_app. right. left. reflexivity.
  - left. apply in_or_app. right. left. reflexivity.
Qed.
Lemma hist_run sched s evs : run (step factory) init sched = Some (s, evs) -> HInv evs s.
Proof.
  revert sched s evs. apply (run_inv _ _ (fun _ evs s => HInv evs s)).
  - constructor; [auto|]. intros t c H. destruct t; discriminate.
  - intros sched e s l s' e' _ HI H. eapply hist_step; eauto.
Qed.

Lemma own_in t evs e : In e evs -> of_call t e = true -> In e (own t evs).
Proof. intros A B. apply filter_In. auto. Qed.
Lemma register_success sched s evs t n b p : run (step factory) init sched = Some (s, evs) ->
  nth_error (calls s) t = Some (mkCall n (CReg b) p) -> In (EOk t) evs ->
  exists ep i, own t evs = cmds t (reg_cmds n ep (b_ty b) (b_id b) (b_w b)) ++ [ERun t i; EOk t] /\ same s i n (b_id b) (b_ty b).
Proof.
  intros H Hc Hok. apply hist_run in H. pose proof (h_pc _ _ H _ _ Hc) as Hp.
  assert (Hin : In (EOk t) (own t evs)) by (apply own_in; [exact Hok|apply Nat.eqb_refl]).
  destruct (active (mkCall n (CReg b) p)) eqn:Ea; [destruct (dead_no_ok _ _ _ _ Hp Ea Hin)|].
  unfold hist_ok in Hp. unfold active in Ea. cbn [c_kind c_pc c_node] in *.
  destruct p as [| | | | | | | | | | | | | |[|]|]; try discriminate; cbn [hist_reg] in Hp; [|contradiction|contradiction].
  destruct Hp as (ep & i & A & B). exists ep, i. auto.
Qed.
Lemma unregister_success sched s evs t n id ty p : run (step factory) init sched = Some (s, evs) ->
  nth_error (calls s) t = Some (mkCall n (CUnreg id ty) p) -> In (EOk t) evs -> ~ In (EFail t) evs ->
  exists h0, ended t h0 /\ (own t evs = h0 ++ [EOk t] \/
    exists w a, factory ty = Some w /\ own t evs = h0 ++ cmds t (unreg_cmds n id a w) ++ [EOk t]).
Proof.
  intros H Hc Hok Hf. apply hist_run in H. pose proof (h_pc _ _ H _ _ Hc) as Hp.
  assert (Hin : In (EOk t) (own t evs)) by (apply own_in; [exact Hok|apply Nat.eqb_refl]).
  destruct (active (mkCall n (CUnreg id ty) p)) eqn:Ea; [destruct (dead_no_ok _ _ _ _ Hp Ea Hin)|].
  unfold hist_ok in Hp. unfold active in Ea. cbn [c_kind c_pc c_node] in *.
  destruct p as [| | | | | | | | | | | | | |[|]|]; try discriminate; cbn [hist_unreg] in Hp; [|contradiction|contradiction].
  destruct Hp as [Hp|Hp]; [|exact Hp]. apply filter_In in Hp as [Hp _]. contradiction.
Qed.

(** When Unregister returns, nothing with that id runs on the node. *)
Lemma unregister_ends sched s evs l s' e T N ID TY p : run (filtered serial_ids factory) init sched = Some (s, evs) ->
  filtered serial_ids factory s l = Some (s', e) -> (In (EOk T) e \/ In (EErr T) e) ->
  nth_error (calls s') T = Some (mkCall N (CUnreg ID TY) p) -> forall k ty', ~ alive s' k N ID ty'.
Proof.
  intros H Hl He Hc'. pose proof (hist_run _ _ _ (filtered_run _ _ _ _ _ _ H)) as HH. apply inv1_run in H. unfold filtered in Hl. destruct (serial_ids s l); [|discriminate].
  assert (Hgen : forall u d, nth_error (calls s) u = Some d -> active d = true -> c_node d = N -> call_id d = ID ->
    match c_pc d with UFac | UBook _ | UPipe _ => True | _ => False end -> insts s' = insts s -> forall k ty', ~ alive s' k N ID ty').
  { intros u d Hu Ha En Ei Hpc E k ty' Hal. apply (alive_same _ _ _ _ _ _ E) in Hal. revert Hal.
    assert (Hm : mp s N ID = None).
    { pose proof (i_pc _ H _ _ Hu) as Hk. unfold pc_ok in Hk. rewrite En, Ei in Hk. destruct (c_pc d); try contradiction; exact Hk. }
    apply alive_none_mp; auto. intros v c Hv Hcn Hci j Hj.
    assert (v = u). { apply (i_one _ H _ _ _ _ Hv Hu); auto; try congruence. unfold active. now rewrite Hj. }
    subst v. rewrite Hv in Hu. injection Hu as ->. rewrite Hj in Hpc. exact Hpc. }
  inv_step Hl; cbn [In] in He; try (exfalso; intuition discriminate).
  1: { assert (T = List.length (calls s)) as -> by (destruct He as [[He|[He|[]]]|[He|[He|[]]]]; try discriminate; congruence).
    cbn in Hc'. rewrite nth_error_app2, Nat.sub_diag in Hc' by lia. discriminate. }
  all: assert (T = t) as -> by (repeat match goal with H : _ \/ _ |- _ => destruct H as [H|H] end; try contradiction; try discriminate; congruence).
  all: cbn [calls set_calls set_node goto] in Hc'; unfold goto in Hc'; rewrite (nth_upd_self _ _ _ _ Hc) in Hc'; try discriminate Hc'.
  all: cbn [c_node c_kind] in Hc'; injection Hc' as -> -> _ || injection Hc' as -> -> -> _ || injection Hc' as -> -> -> -> || idtac.
  all: try (eapply (Hgen _ _ Hc); [reflexivity|reflexivity|reflexivity|exact I|reflexivity]).
  all: exfalso; exact (h_pc _ _ HH _ _ Hc).
Qed.

(** ** The started actor is the call's own until the table names it *)
Definition refs (c : call) (i : nat) : Prop :=
  match c_pc c with PInsert k | UExit k | UWait k => k = i | _ => False end.
Record FInv (s : state) : Prop := {
  f_map : forall n nd id k, aget n (nds s) = Some nd -> aget id (n_map nd) = Some k -> k < List.length (insts s);
  f_call : forall t c k, nth_error (calls s) t = Some c -> refs c k -> k < List.length (insts s);
  f_run : forall t c i, nth_error (calls s) t = Some c -> c_pc c = PInsert i ->
    exists id ty, nth_error (insts s) i = Some (mkInst (c_node c) id ty Running);
  f_own : forall t c i, nth_error (calls s) t = Some c -> c_pc c = PInsert i ->
    (forall n nd id, aget n (nds s) = Some nd -> aget id (n_map nd) <> Some i) /\
    (forall u d, nth_error (calls s) u = Some d -> refs d i -> u = t) }.

Lemma finv_die s n : FInv s -> FInv (die s n).
Proof.
  intros [A B C D].
  assert (Hd : forall u d, nth_error (calls (die s n)) u = Some d -> (exists k, refs d k) -> nth_error (calls s) u = Some d /\ c_node d <> n).
  { intros u d Hu [k Hk]. apply die_call in Hu; [exact Hu|]. unfold refs in Hk. unfold active. destruct (c_pc d); auto; contradiction. }
  assert (Hm : forall m nd, aget m (nds (die s n)) = Some nd -> aget m (nds s) = Some nd).
  { intros m nd Hx. cbn in Hx. rewrite aget_adel in Hx. destruct (String.eqb _ _); [discriminate|exact Hx]. }
  constructor; cbn [insts die]; rewrite ?map_length.
  - intros m nd id k Hx. apply Hm in Hx. eauto.
  - intros t c k Hc Hk. apply Hd in Hc as [Hc _]; eauto.
  - intros t c i Hc Hp. assert (Hr : refs c i) by (unfold refs; now rewrite Hp). apply Hd in Hc as [Hc Hne]; [|eauto].
    destruct (C _ _ _ Hc Hp) as (id & ty & Hi). exists id, ty. rewrite nth_error_map, Hi. cbn [option_map i_node].
    destruct (String.eqb_spec (c_node c) n); [contradiction|reflexivity].
  - intros t c i Hc Hp. assert (Hr : refs c i) by (unfold refs; now rewrite Hp). apply Hd in Hc as [Hc Hne]; [|eauto].
    destruct (D _ _ _ Hc Hp) as [D1 D2]. split.
    + intros m nd id Hx. apply Hm in Hx. eauto.
    + intros u d Hu Hk. apply Hd in Hu as [Hu _]; eauto.
Qed.
Lemma finv_new s n k p : FInv s -> match p with PCheck | UMap | PRet _ => True | _ => False end ->
  FInv (set_calls s (calls s ++ [mkCall n k p])).
Proof.
  intros [A B C D] Hp.
  assert (Hd : forall u d, nth_error (calls s ++ [mkCall n k p]) u = Some d -> (exists j, refs d j) -> nth_error (calls s) u = Some d).
  { intros u d Hu [j Hk]. apply nth_snoc in Hu as [[-> ->]|Hu]; [|exact Hu]. unfold refs in Hk. cbn in Hk. destruct p; contradiction. }
  constructor; cbn [insts nds calls set_calls]; auto.
  - intros t c j Hc Hk. apply Hd in Hc; eauto.
  - intros t c i Hc Hpc. assert (Hr : refs c i) by (unfold refs; now rewrite Hpc). apply Hd in Hc; eauto.
  - intros t c i Hc Hpc. assert (Hr : refs c i) by (unfold refs; now rewrite Hpc). apply Hd in Hc; [|eauto].
    destruct (D _ _ _ Hc Hpc) as [D1 D2]. split; [exact D1|]. intros u d Hu Hk. apply Hd in Hu; eauto.
Qed.
(** One call moves on. *)
Lemma finv_upd s s' t c p : FInv s -> nth_error (calls s) t = Some c ->
  calls s' = upd (calls s) t (mkCall (c_node c) (c_kind c) p) ->
  List.length (insts s) <= List.length (insts s') ->
  (forall n nd' id k, aget n (nds s') = Some nd' -> aget id (n_map nd') = Some k ->
     refs c k \/ exists nd, aget n (nds s) = Some nd /\ aget id (n_map nd) = Some k) ->
  (forall k, refs (mkCall (c_node c) (c_kind c) p) k -> refs c k \/ (exists n nd id, aget n (nds s) = Some nd /\ aget id (n_map nd) = Some k) \/
     (k = List.length (insts s) /\ k < List.length (insts s'))) ->
  (forall k, p = PInsert k -> k = List.length (insts s) /\ exists id ty, nth_error (insts s') k = Some (mkInst (c_node c) id ty Running)) ->
  (forall i x, ~ refs c i -> nth_error (insts s) i = Some x -> nth_error (insts s') i = Some x) ->
  FInv s'.
Proof.
  intros [A B C D] Hc E Hlen Hmap Href Hins Hst.
  assert (Hnew : forall u d, nth_error (calls s') u = Some d ->
    (u = t /\ d = mkCall (c_node c) (c_kind c) p) \/ (u <> t /\ nth_error (calls s) u = Some d)).
  { intros u d Hu. rewrite E in Hu. eapply nth_upd_case; eauto. }
  constructor.
  - intros n nd' id k Hn Hk. destruct (Hmap _ _ _ _ Hn Hk) as [Hr|(nd & X & Y)].
    + specialize (B _ _ _ Hc Hr). lia.
    + specialize (A _ _ _ _ X Y). lia.
  - intros u d k Hu Hk. apply Hnew in Hu as [[-> ->]|[Hne Hu]].
    + destruct (Href _ Hk) as [Hr|[(n & nd & id & X & Y)|[_ Hr]]]; [specialize (B _ _ _ Hc Hr); lia|specialize (A _ _ _ _ X Y); lia|exact Hr].
    + specialize (B _ _ _ Hu Hk). lia.
  - intros u d i Hu Hp. apply Hnew in Hu as [[-> ->]|[Hne Hu]].
    + cbn [c_pc c_node] in *. apply (Hins _ Hp).
    + destruct (C _ _ _ Hu Hp) as (id & ty & Hi). exists id, ty. apply Hst; [|exact Hi].
      intros Hr. destruct (D _ _ _ Hu Hp) as [_ D2]. apply Hne. symmetry. eapply D2; eauto.
  - intros u d i Hu Hp. apply Hnew in Hu as [[-> ->]|[Hne Hu]].
    + cbn [c_pc] in Hp. destruct (Hins _ Hp) as [-> _]. split.
      * intros n nd' id Hn Hk. destruct (Hmap _ _ _ _ Hn Hk) as [Hr|(nd & X & Y)];
          [specialize (B _ _ _ Hc Hr)|specialize (A _ _ _ _ X Y)]; lia.
      * intros v f Hv Hk. apply Hnew in Hv as [[-> ->]|[Hnv Hv]]; [reflexivity|]. specialize (B _ _ _ Hv Hk). lia.
    + destruct (D _ _ _ Hu Hp) as [D1 D2].
      assert (Hi : i < List.length (insts s)) by (eapply B; [exact Hu|unfold refs; now rewrite Hp]).
      split.
      * intros n nd' id Hn Hk. destruct (Hmap _ _ _ _ Hn Hk) as [Hr|(nd & X & Y)]; [|eapply D1; eauto].
        apply Hne. symmetry. eapply D2; eauto.
      * intros v f Hv Hk. apply Hnew in Hv as [[-> ->]|[Hnv Hv]]; [|eauto].
        destruct (Href _ Hk) as [Hr|[(n & nd & id & X & Y)|[Hr _]]]; [eauto|destruct (D1 _ _ _ X Y)|lia].
Qed.
Lemma finv_step s l s' e : FInv s -> step factory s l = Some (s', e) -> FInv s'.
Proof.
  intros HI H. inv_step H; try (apply finv_die; assumption); try (apply finv_new; [assumption|exact I]).
  1: { destruct HI as [A B C D]. constructor; cbn [insts nds calls set_node]; auto.
       - intros m nd id k Hx. rewrite aget_aset in Hx. destruct (String.eqb m n); [|eauto]. injection Hx as <-. discriminate.
       - intros t c i Hc Hp. destruct (D _ _ _ Hc Hp) as [D1 D2]. split; [|exact D2]. intros m nd id Hx.
         rewrite aget_aset in Hx. destruct (String.eqb m n); [|eauto]. injection Hx as <-. discriminate. }
  all: eapply finv_upd; [eassumption|eassumption|reflexivity|..]; cbn [insts nds set_calls set_node c_node]; rewrite ?upd_length, ?app_length; try lia.
  all: try (intros; cbn [refs c_pc] in *; discriminate).
  all: try (intros ? HF; exfalso; exact HF).
  all: try (intros; assumption).
  all: try solve [intros n' nd' id' k X Y; right; eauto].
  all: try solve [intros n' nd' id' k X Y; rewrite aget_aset in X; destruct (String.eqb_spec n' cn) as [->|]; [|right; eauto];
    injection X as <-; cbn [n_map] in Y; rewrite ?aget_aset, ?aget_adel in Y;
    try (match type of Y with context [String.eqb ?a ?b] => destruct (String.eqb a b) end); try discriminate; try (injection Y as <-; left; reflexivity); right; eauto].
  - intros k Hk. cbn in Hk. subst k. right. right. cbn. lia.
  - intros k [= <-]. split; [reflexivity|]. exists (b_id b), (b_ty b). rewrite nth_error_app2, Nat.sub_diag by lia. reflexivity.
  - intros j y _ Hy. now apply nth_snoc_old.
  - intros k Hk. cbn in Hk. subst k. right. left. exists cn, nd, id. auto.
  - intros k Hk. left. exact Hk.
  - intros j y Hr Hy. rewrite nth_upd_neq; [exact Hy|]. intros ->. apply Hr. reflexivity.
  - intros j y Hr Hy. rewrite nth_upd_neq; [exact Hy|]. intros ->. apply Hr. reflexivity.
Qed.
Lemma finv_run sched s evs : run (step factory) init sched = Some (s, evs) -> FInv s.
Proof.
  revert sched s evs. apply (run_inv _ _ (fun _ _ s => FInv s)).
  - constructor; intros t; intros; try (destruct t; discriminate).
  - intros sched e s l s' e' _ HI H. eapply finv_step; eauto.
Qed.

(** The step in which Register returns without error. *)
Lemma register_returns sched s evs l s' e T N B p : run (step factory) init sched = Some (s, evs) ->
  step factory s l = Some (s', e) -> In (EOk T) e -> nth_error (calls s') T = Some (mkCall N (CReg B) p) ->
  exists i nd, nth_error (insts s') i = Some (mkInst N (b_id B) (b_ty B) Running) /\
    aget N (nds s') = Some nd /\ aget (b_id B) (n_map nd) = Some i /\ In (ERun T i) evs.
Proof.
  intros H Hl He Hc'. pose proof (hist_run _ _ _ H) as HH. apply finv_run in H.
  inv_step Hl; cbn [In] in He; try (exfalso; intuition discriminate).
  all: assert (T = t) as -> by (repeat match goal with H : _ \/ _ |- _ => destruct H as [H|H] end; try contradiction; try discriminate; congruence).
  all: cbn [calls set_calls set_node goto] in Hc'; unfold goto in Hc'; rewrite (nth_upd_self _ _ _ _ Hc) in Hc'; try discriminate Hc'.
  2, 3: cbn [c_node c_kind] in Hc'; injection Hc' as -> -> _; destruct (h_pc _ _ HH _ _ Hc).
  cbn [c_node c_kind] in Hc'. injection Hc' as -> -> _.
  destruct (f_run _ H _ _ _ Hc eq_refl) as (id & ty & Hi). cbn [c_node] in Hi.
  pose proof (h_pc _ _ HH _ _ Hc) as Hp. cbn [hist_ok c_kind c_node c_pc hist_reg] in Hp. destruct Hp as ((y & Hy) & ep & Hown).
  rewrite Hi in Hy. injection Hy as -> -> <-. exists i. eexists. split; [exact Hi|]. cbn [nds set_calls set_node].
  rewrite aget_aset, String.eqb_refl. split; [reflexivity|]. cbn [n_map]. rewrite aget_aset, String.eqb_refl. split; [reflexivity|].
  assert (Hin : In (ERun t i) (own t evs)) by (rewrite Hown; apply in_or_app; right; left; reflexivity).
  apply filter_In in Hin as [Hin _]. exact Hin.
Qed.

(** ** Records read by Unregister were written by Register *)
Definition written (evs : list event) (id : string) (a : addr) : Prop := exists u, In (ECmd u (HSetId id a)) evs.
Lemma written_app evs e id a : written evs id a -> written (evs ++ e) id a.
Proof. intros [u Hu]. exists u. apply in_or_app. auto. Qed.
Record WInv (evs : list event) (s : state) : Prop := {
  w_ids : forall id a, aget id (ids (st s)) = Some a -> written evs id a;
  w_pipe : forall t c r id ty T a, nth_error (calls s) t = Some c -> c_kind c = CUnreg id ty -> c_pc c = UPipe r ->
    In (SRemTy T a) r -> written evs id a;
  w_done : forall t c id ty T a, nth_error (calls s) t = Some c -> c_kind c = CUnreg id ty ->
    In (ECmd t (SRemTy T a)) evs -> written evs id a }.

Lemma winv_upd evs s s' t c p e : WInv evs s -> nth_error (calls s) t = Some c ->
  calls s' = upd (calls s) t (mkCall (c_node c) (c_kind c) p) ->
  (forall id a, aget id (ids (st s')) = Some a -> aget id (ids (st s)) = Some a \/ written e id a) ->
  (forall r id ty T a, c_kind c = CUnreg id ty -> p = UPipe r -> In (SRemTy T a) r -> written evs id a) ->
  (forall u T a, In (ECmd u (SRemTy T a)) e -> u = t /\ forall id ty, c_kind c = CUnreg id ty -> written evs id a) -> WInv (evs ++ e) s'.
Proof.
  intros [A B C] Hc E Hids Hp He.
  assert (Hnew : forall u d, nth_error (calls s') u = Some d ->
    (u = t /\ d = mkCall (c_node c) (c_kind c) p) \/ (u <> t /\ nth_error (calls s) u = Some d)).
  { intros u d Hu. rewrite E in Hu. eapply nth_upd_case; eauto. }
  constructor.
  - intros id a Ha. destruct (Hids _ _ Ha) as [Ha'|[u Hu]]; [apply written_app; auto|exists u; apply in_or_app; auto].
  - intros u d r id ty T a Hu Hk Hpc Hin. apply written_app. apply Hnew in Hu as [[-> ->]|[Hne Hu]]; [|eapply B; eauto].
    cbn in Hk, Hpc. eapply Hp; eauto.
  - intros u d id ty T a Hu Hk Hin. apply written_app. apply in_app_or in Hin as [Hin|Hin].
    + apply Hnew in Hu as [[-> ->]|[Hne Hu]]; [cbn in Hk; eapply C; eauto|eapply C; eauto].
    + destruct (He _ _ _ Hin) as [Eu Hw]. apply Hnew in Hu as [[_ ->]|[Hne _]]; [|contradiction]. cbn in Hk. eauto.
Qed.
Lemma winv_die evs s n e : WInv evs s -> (forall t x, ~ In (ECmd t x) e) -> WInv (evs ++ e) (die s n).
Proof.
  intros [A B C] He. constructor.
  - intros id a Ha. apply written_app. auto.
  - intros u d r id ty T a Hu Hk Hpc Hin. apply written_app. apply die_call in Hu as [Hu _]; [eapply B; eauto|]. unfold active. now rewrite Hpc.
  - intros u d id ty T a Hu Hk Hin. apply written_app. apply in_app_or in Hin as [Hin|Hin]; [|destruct (He _ _ Hin)].
    apply die_kind in Hu as (c & Hu & E). eapply C; [exact Hu| |exact Hin]. rewrite E; exact Hk.
Qed.
Lemma winv_new evs s n k p e : WInv evs s -> HInv evs s -> match p with UPipe _ => False | _ => True end ->
  (forall t x, ~ In (ECmd t x) e) -> WInv (evs ++ e) (set_calls s (calls s ++ [mkCall n k p])).
Proof.
  intros [A B C] HH Hp He. constructor.
  - intros id a Ha. apply written_app. auto.
  - intros u d r id ty T a Hu Hk Hpc Hin. apply written_app. apply nth_snoc in Hu as [[-> ->]|Hu]; [|eapply B; eauto].
    cbn in Hpc. subst p. contradiction.
  - intros u d id ty T a Hu Hk Hin. apply written_app. apply in_app_or in Hin as [Hin|Hin]; [|destruct (He _ _ Hin)].
    apply nth_snoc in Hu as [[-> ->]|Hu]; [|eapply C; eauto].
    assert (Hx : In (ECmd (List.length (calls s)) (SRemTy T a)) (own (List.length (calls s)) evs)) by (apply own_in; [exact Hin|apply Nat.eqb_refl]).
    rewrite (h_new _ _ HH) in Hx by lia. destruct Hx.
Qed.
Lemma ids_apply s x id a : aget id (ids (apply s x)) = Some a -> aget id (ids s) = Some a \/ x = HSetId id a.
Proof.
  destruct x; cbn [apply ids]; try (intros H; left; exact H).
  - rewrite aget_aset. destruct (String.eqb_spec id id0) as [->|]; [intros [= ->]; auto|auto].
  - rewrite aget_adel. destruct (String.eqb id id0); [discriminate|auto].
Qed.
Lemma winv_step evs s l s' e : WInv evs s -> HInv evs s -> step factory s l = Some (s', e) -> WInv (evs ++ e) s'.
Proof.
  intros HI HH H. inv_step H; try (apply winv_die; [assumption|intros ? ? []; try discriminate; contradiction]).
  1: { rewrite app_nil_r. destruct HI as [A B C]. constructor; auto. }
  1: { apply winv_new; auto. intros u x [|[|[]]]; discriminate. }
  1: { apply winv_new; auto. intros u x [|[]]; discriminate. }
  1: { apply winv_new; auto. intros u x [|[]]; discriminate. }
  all: eapply winv_upd; [eassumption|eassumption|reflexivity|..]; cbn [st set_calls set_node c_kind].
  all: try (intros; discriminate).
  all: try (intros ? ? HX; left; exact HX).
  all: try (intros u T a HX; cbn [In] in HX; exfalso; intuition discriminate).
  - intros id a Ha. apply ids_apply in Ha as [Ha| ->]; [auto|]. right. exists t. left. reflexivity.
  - intros u T a [[= <- _]|[]]. split; [reflexivity|discriminate].
  - intros r id' ty' T a' [= <- <-] [= <-] Hin. cbn in Hin. destruct Hin as [|[[= _ <-]|[|[|[]]]]]; try discriminate.
    apply (w_ids _ _ HI). exact Hif0.
  - intros u T a' [].
  - intros id' a Ha. apply ids_apply in Ha as [Ha| ->]; [auto|]. right. exists t. left. reflexivity.
  - intros r id' ty' T a [= <- <-] [= <-] Hin. eapply (w_pipe _ _ HI); [exact Hc|reflexivity|reflexivity|right; exact Hin].
  - intros u T a [[= <- ->]|[]]. split; [reflexivity|]. intros id' ty' [= <- <-].
    eapply (w_pipe _ _ HI); [exact Hc|reflexivity|reflexivity|left; reflexivity].
Qed.
Lemma winv_run sched s evs : run (step factory) init sched = Some (s, evs) -> WInv evs s.
Proof.
  intros H. apply (run_inv _ _ (fun _ evs s => WInv evs s /\ HInv evs s)) in H; [tauto| |].
  - split.
    + constructor; [discriminate|intros t|intros t]; intros; destruct t; discriminate.
    + constructor; [auto|]. intros t c Ht. destruct t; discriminate.
  - intros sched' e0 s0 l s' e' _ [HI HH] Hs. split; [eapply winv_step; eauto|eapply hist_step; eauto].
Qed.

(** The step in which Unregister returns without error. *)
Lemma unregister_returns sched s evs l s' e T N ID TY p : run (step factory) init sched = Some (s, evs) ->
  step factory s l = Some (s', e) -> In (EOk T) e -> ~ In (EFail T) e -> nth_error (calls s') T = Some (mkCall N (CUnreg ID TY) p) ->
  exists h0, ended T h0 /\
    ((own T (evs ++ e) = h0 ++ [EOk T] /\ (ID = "" \/ aget ID (ids (st s')) = None)) \/
     exists w a, factory TY = Some w /\ written evs ID a /\ own T (evs ++ e) = h0 ++ cmds T (unreg_cmds N ID a w) ++ [EOk T]).
Proof.
  intros H Hl He Hf Hc'. pose proof (hist_run _ _ _ H) as HH. pose proof (winv_run _ _ _ H) as HW. clear H.
  inv_step Hl; cbn [In] in He, Hf; try (exfalso; intuition discriminate).
  all: assert (T = t) as -> by (repeat match goal with H : _ \/ _ |- _ => destruct H as [H|H] end; try contradiction; try discriminate; congruence).
  all: cbn [calls set_calls set_node goto] in Hc'; unfold goto in Hc'; rewrite (nth_upd_self _ _ _ _ Hc) in Hc'; try discriminate Hc'.
  all: pose proof (h_pc _ _ HH _ _ Hc) as Hp; cbn [hist_ok c_kind c_node c_pc hist_unreg] in Hp.
  4, 5: exfalso; tauto.
  all: cbn [c_node c_kind] in Hc'; injection Hc' as -> -> -> _; rewrite own_app; cbn [own filter of_call]; rewrite Nat.eqb_refl.
  - exists (own t evs). destruct Hp as [Hp _]. split; [exact Hp|]. left. split; [reflexivity|]. left. now apply String.eqb_eq.
  - exists (own t evs). destruct Hp as [Hp _]. split; [exact Hp|]. left. split; [reflexivity|]. right. exact Hif0.
  - destruct Hp as (w & a & d & h0 & Hw & H0 & E & Hown). rewrite app_nil_r in E. subst d. exists h0. split; [exact H0|]. right. exists w, a.
    split; [exact Hw|]. split; [|rewrite Hown, <- app_assoc; reflexivity].
    eapply (w_done _ _ HW); [exact Hc|reflexivity|]. instantiate (1 := a_ty a).
    assert (Hin : In (ECmd t (SRemTy (a_ty a) a)) (own t evs)).
    { rewrite Hown. apply in_or_app. right. right. left. reflexivity. }
    apply filter_In in Hin as [Hin _]. exact Hin.
Qed.
End Hist.
