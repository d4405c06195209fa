(** Running actors and the address book; node-unique types; failed calls. *)
From Coq Require Import List String ZArith Bool Lia.
From Verif Require Import Machine AddrModel AddrSpec AddrProofs RegModel RegSpec RegProofs RegLimits.
Import ListNotations.
Open Scope string_scope.
Open Scope list_scope.

Lemma aget_in {A} k (l : list (string * A)) v : aget k l = Some v -> In (k, v) l.
Proof.
  induction l as [|[x w] l IH]; cbn; [discriminate|]. destruct (String.eqb_spec k x) as [->|]; [intros [= ->]; auto|auto].
Qed.

Lemma die_call s n u d : nth_error (calls (die s n)) u = Some d -> active d = true ->
  nth_error (calls s) u = Some d /\ c_node d <> n.
Proof.
  intros Hu Ha. cbn in Hu. rewrite nth_error_map in Hu. destruct (nth_error (calls s) u) as [c|]; [|discriminate].
  cbn in Hu. injection Hu as <-. destruct (String.eqb_spec (c_node c) n) as [E|E]; [|auto].
  exfalso. unfold active in Ha. destruct (c_pc c) eqn:Ep; cbn in Ha; rewrite ?Ep in Ha; discriminate.
Qed.
Lemma die_kind s n u d : nth_error (calls (die s n)) u = Some d -> exists c, nth_error (calls s) u = Some c /\ c_kind c = c_kind d.
Proof.
  intros Hu. cbn in Hu. rewrite nth_error_map in Hu. destruct (nth_error (calls s) u) as [c|]; [|discriminate].
  cbn in Hu. injection Hu as <-. exists c. split; [reflexivity|]. destruct (String.eqb _ _); [destruct (c_pc c)|]; reflexivity.
Qed.
Lemma die_alive s n k m id ty : alive (die s n) k m id ty -> alive s k m id ty.
Proof.
  intros (x & Hx & Hne). cbn in Hx. rewrite nth_error_map in Hx. destruct (nth_error (insts s) k) as [i|] eqn:Ei; [|discriminate].
  cbn in Hx. injection Hx as Hx. destruct (String.eqb_spec (i_node i) n) as [E|E].
  - unfold set_st in Hx. injection Hx as _ _ _ <-. contradiction.
  - subst i. exists x. auto.
Qed.

(** How actors change in one step of a call. *)
Lemma alive_snoc s s' i k n id ty : insts s' = insts s ++ [i] -> alive s' k n id ty ->
  alive s k n id ty \/ (k = List.length (insts s) /\ n = i_node i /\ id = i_id i /\ ty = i_ty i).
Proof.
  intros E (x & Hx & Hne). rewrite E in Hx. apply nth_snoc in Hx as [[-> Hx]|Hx]; [right; subst i; auto|left; exists x; auto].
Qed.
Lemma alive_same s s' k n id ty : insts s' = insts s -> alive s' k n id ty <-> alive s k n id ty.
Proof. intros E. unfold alive. rewrite E. tauto. Qed.
Lemma alive_exit s s' i x v k n id ty : nth_error (insts s) i = Some x -> insts s' = upd (insts s) i (set_st x v) ->
  v = Stopped \/ i_st x <> Stopped -> alive s' k n id ty -> alive s k n id ty.
Proof.
  intros Hi E Hv (y & Hy & Hne). rewrite E in Hy. apply (nth_upd_case _ _ _ _ _ _ Hi) in Hy as [[-> Hy]|[_ Hy]].
  - destruct x as [a b c d]. unfold set_st in Hy. cbn in Hy, Hv. injection Hy as -> -> -> ->. exists d. split; [exact Hi|].
    destruct Hv; [contradiction|assumption].
  - exists y. auto.
Qed.

Section Unique.
Variables (factory : string -> option Z) (T : string).

Definition window (c : call) : Prop :=
  exists b, c_kind c = CReg b /\ b_ty b = T /\ match c_pc c with PCount | PBook | PPipe _ | PBuild => True | _ => False end.
Lemma window_busy c : window c -> busy_type T c = true.
Proof.
  intros (b & A & B & C). unfold busy_type, active, reg_of_type. rewrite A, B, String.eqb_refl. destruct (c_pc c); auto.
Qed.
Record Inv3 (s : state) : Prop := {
  u_one : forall t t' c c', nth_error (calls s) t = Some c -> nth_error (calls s) t' = Some c' ->
    busy_type T c = true -> busy_type T c' = true -> c_node c = c_node c' -> t = t';
  u_reg : forall t c b, nth_error (calls s) t = Some c -> c_kind c = CReg b -> b_ty b = T -> b_limit b <> 0%Z /\ b_unique b = true;
  u_win : forall t c k id, nth_error (calls s) t = Some c -> window c -> ~ alive s k (c_node c) id T;
  u_uniq : forall k k' n id id', alive s k n id T -> alive s k' n id' T -> k = k' }.

Lemma pres3 s s' t c p : Inv3 s -> nth_error (calls s) t = Some c -> active c = true ->
  calls s' = upd (calls s) t (mkCall (c_node c) (c_kind c) p) ->
  (window (mkCall (c_node c) (c_kind c) p) -> forall k id, ~ alive s k (c_node c) id T) ->
  ((forall k n id, alive s' k n id T -> alive s k n id T) \/
   (window c /\ ~ window (mkCall (c_node c) (c_kind c) p) /\
    exists K, forall k n id, alive s' k n id T -> alive s k n id T \/ (k = K /\ n = c_node c))) -> Inv3 s'.
Proof.
  intros HI Hc Ha E1 Hwin Hal.
  assert (Hnew : forall u d, nth_error (calls s') u = Some d ->
    (u = t /\ d = mkCall (c_node c) (c_kind c) p) \/ (u <> t /\ nth_error (calls s) u = Some d)).
  { intros u d Hu. rewrite E1 in Hu. eapply nth_upd_case; eauto. }
  assert (Hb : forall q, busy_type T (mkCall (c_node c) (c_kind c) q) = true -> busy_type T c = true).
  { intros q Hq. unfold busy_type in *. rewrite Ha. apply andb_true_iff in Hq as [_ Hq]. exact Hq. }
  constructor.
  - intros u u' d d' Hu Hu' B B' En. apply Hnew in Hu as [[-> ->]|[Hne Hu]]; apply Hnew in Hu' as [[-> ->]|[Hne' Hu']]; auto.
    + apply (u_one _ HI _ _ _ _ Hc Hu'); eauto.
    + apply (u_one _ HI _ _ _ _ Hu Hc); eauto.
    + apply (u_one _ HI _ _ _ _ Hu Hu'); auto.
  - intros u d b Hu Hk. apply Hnew in Hu as [[-> ->]|[Hne Hu]]; [exact (u_reg _ HI _ _ _ Hc Hk)|exact (u_reg _ HI _ _ _ Hu Hk)].
  - intros u d k id Hu Hw Hl. apply Hnew in Hu as [[-> ->]|[Hne Hu]].
    + cbn [c_node] in Hl. destruct Hal as [Hal|(_ & Hnw & _)]; [|contradiction]. apply Hal in Hl. eapply Hwin; eauto.
    + destruct Hal as [Hal|(Hw' & _ & K & Hal)].
      * apply Hal in Hl. eapply (u_win _ HI); eauto.
      * apply Hal in Hl as [Hl|[-> En]]; [eapply (u_win _ HI); eauto|].
        apply Hne. apply (u_one _ HI _ _ _ _ Hu Hc); auto; now apply window_busy.
  - intros k k' n id id' Hk Hk'. destruct Hal as [Hal|(Hw & _ & K & Hal)].
    + eapply (u_uniq _ HI); eauto.
    + apply Hal in Hk as [Hk|[-> Ek]]; apply Hal in Hk' as [Hk'|[-> Ek']]; auto.
      * eapply (u_uniq _ HI); eauto.
      * subst n. destruct (u_win _ HI _ _ _ _ Hc Hw Hk).
      * subst n. destruct (u_win _ HI _ _ _ _ Hc Hw Hk').
Qed.

Lemma inv3_die s n : Inv3 s -> Inv3 (die s n).
Proof.
  intros HI.
  assert (Hact : forall d, busy_type T d = true -> active d = true) by (intros d H; now apply andb_true_iff in H as [H _]).
  constructor.
  - intros u u' d d' Hu Hu' B B'. apply die_call in Hu as [Hu _]; [|auto]. apply die_call in Hu' as [Hu' _]; [|auto].
    apply (u_one _ HI _ _ _ _ Hu Hu'); auto.
  - intros u d b Hu Hk. apply die_kind in Hu as (c & Hu & E). rewrite <- E in Hk. exact (u_reg _ HI _ _ _ Hu Hk).
  - intros u d k id Hu Hw Hl. apply die_call in Hu as [Hu _]; [|apply Hact, window_busy; exact Hw]. apply die_alive in Hl. eapply (u_win _ HI); eauto.
  - intros k k' m id id' Hk Hk'. apply die_alive in Hk, Hk'. eapply (u_uniq _ HI); eauto.
Qed.
Lemma inv3_new s n k p : Inv3 s -> match p with PCheck | UMap | PRet _ => True | _ => False end ->
  (forall b, k = CReg b -> b_ty b = T -> b_limit b <> 0%Z /\ b_unique b = true) ->
  (busy_type T (mkCall n k p) = true -> existsb (fun c => busy_type T c && String.eqb (c_node c) n) (calls s) = false) ->
  Inv3 (set_calls s (calls s ++ [mkCall n k p])).
Proof.
  intros HI Hp Hk Hb. constructor.
  - intros u u' d d' Hu Hu' B B' En. apply nth_snoc in Hu as [[-> ->]|Hu]; apply nth_snoc in Hu' as [[-> ->]|Hu']; auto.
    + pose proof (existsb_nth _ _ _ _ Hu' (Hb B)) as X. cbn in X, En. rewrite B', <- En, String.eqb_refl in X. discriminate.
    + pose proof (existsb_nth _ _ _ _ Hu (Hb B')) as X. cbn in X, En. rewrite B, En, String.eqb_refl in X. discriminate.
    + apply (u_one _ HI _ _ _ _ Hu Hu'); auto.
  - intros u d b Hu Hd. apply nth_snoc in Hu as [[-> ->]|Hu]; [now apply Hk|exact (u_reg _ HI _ _ _ Hu Hd)].
  - intros u d j id Hu Hw. apply nth_snoc in Hu as [[-> ->]|Hu]; [|exact (u_win _ HI _ _ j id Hu Hw)].
    exfalso. destruct Hw as (b & _ & _ & C). cbn in C. destruct p; contradiction.
  - exact (u_uniq _ HI).
Qed.

Lemma inv3_step s l s' e : Inv1 s -> Inv3 s -> serial_type_node T s l = true ->
  (forall n b, l = LReg n b -> b_ty b = T -> b_limit b <> 0%Z /\ b_unique b = true) ->
  step factory s l = Some (s', e) -> Inv3 s'.
Proof.
  intros H1 HI Hok Hlim H. inv_step H; try (apply inv3_die; assumption).
  all: try solve [eapply pres3; [eassumption|eassumption|reflexivity|reflexivity|intros (b' & _ & _ & [])|left; intros; assumption]].
  all: try solve [eapply pres3; [eassumption|eassumption|reflexivity|reflexivity| |left; intros; assumption];
    intros (b' & [= <-] & Hty & _) k id'; apply (u_win _ HI _ _ k id' Hc); exists b; cbn; auto].
  - destruct HI as [A B C D]. constructor; auto.
  - apply inv3_new; auto; [|discriminate]. intros b' [= <-]. eauto.
  - apply inv3_new; auto.
    + intros b' [= <-]. eauto.
    + cbn in Hok. apply negb_true_iff in Hok. intros Hb. unfold busy_type, reg_of_type in Hb. cbn in Hb. rewrite Hb in Hok. exact Hok.
  - apply inv3_new; auto; [discriminate|]. unfold busy_type. cbn. discriminate.
  - (* PCheck to PBook *)
    eapply pres3; [eassumption|eassumption|reflexivity|reflexivity| |left; intros; assumption].
    intros (b' & [= <-] & Hty & _). destruct (u_reg _ HI _ _ _ Hc eq_refl Hty) as [Hl _]. apply Z.eqb_eq in Hif0. contradiction.
  - (* PScan to PCount *)
    eapply pres3; [eassumption|eassumption|reflexivity|reflexivity| |left; intros; assumption].
    intros (b' & [= <-] & Hty & _) k id Hl. cbn [c_node] in Hl. destruct (u_reg _ HI _ _ _ Hc eq_refl Hty) as [_ Hu].
    rewrite Hu in Hif. cbn [andb] in Hif. pose proof Hl as (x & Hx & _).
    apply (i_live _ H1) in Hl as [Hl|(u & d & A & B & C & D)].
    + rewrite (mp_at _ _ _ _ Hn) in Hl. apply aget_in in Hl.
      assert (Ht : existsb (fun p => match nth_error (insts s) (snd p) with Some i => i_ty i =? b_ty b | None => false end) (n_map nd) = true); [|congruence].
      apply existsb_exists. exists (id, k). split; [exact Hl|]. cbn. rewrite Hx. cbn. rewrite Hty. apply String.eqb_refl.
    + pose proof (i_pc _ H1 _ _ A) as Ho. unfold pc_ok in Ho. rewrite D in Ho. destruct Ho as (_ & b' & x' & E1 & E2).
      rewrite Hx in E2. injection E2 as _ _ E2 _.
      assert (u = t).
      { apply (u_one _ HI _ _ _ _ A Hc); auto; unfold busy_type, active, reg_of_type; [rewrite D, E1, <- E2|cbn; rewrite Hty]; apply String.eqb_refl. }
      subst u. rewrite Hc in A. injection A as <-. discriminate.
  - (* PBuild *)
    eapply pres3; [eassumption|eassumption|reflexivity|reflexivity|intros (b' & _ & _ & [])|].
    destruct (string_dec (b_ty b) T) as [Hty|Hty].
    + right. split; [exists b; cbn; auto|]. split; [intros (b' & _ & _ & [])|]. exists (List.length (insts s)).
      intros k n id Hl. eapply alive_snoc in Hl; [|reflexivity]. cbn in Hl. cbn. intuition.
    + left. intros k n id Hl. eapply alive_snoc in Hl; [|reflexivity]. cbn in Hl. destruct Hl as [Hl|(_ & _ & _ & E)]; [exact Hl|congruence].
  - eapply pres3; [eassumption|eassumption|reflexivity|reflexivity|intros (b' & _ & _ & [])|].
    left. intros k n id' Hl. eapply alive_exit in Hl; [exact Hl|exact Hif|reflexivity|right; rewrite Hif0; discriminate].
  - eapply pres3; [eassumption|eassumption|reflexivity|reflexivity|intros (b' & _ & _ & [])|].
    left. intros k n id' Hl. eapply alive_exit in Hl; [exact Hl|exact Hif|reflexivity|left; reflexivity].
Qed.

Lemma inv3_run sched s e : run (filtered (both serial_ids (serial_type_node T)) factory) init sched = Some (s, e) ->
  all_regs T (fun b => b_limit b <> 0%Z /\ b_unique b = true) sched -> Inv3 s.
Proof.
  intros H Hall. assert (HH : Inv1 s /\ (all_regs T (fun b => b_limit b <> 0%Z /\ b_unique b = true) sched -> Inv3 s)); [|tauto].
  clear Hall. revert sched s e H.
  apply (run_inv _ _ (fun sched _ s => Inv1 s /\ (all_regs T (fun b => b_limit b <> 0%Z /\ b_unique b = true) sched -> Inv3 s))).
  - split; [apply inv1_init|]. intros _. constructor; cbn; intros; try (destruct t; discriminate).
    destruct H as (x & H & _). destruct k; discriminate.
  - intros sched e s l s' e' _ [I1 IH] H. unfold filtered, both in H.
    destruct (serial_ids s l) eqn:E1; [|discriminate]. destruct (serial_type_node T s l) eqn:E2; [|discriminate]. cbn in H. split.
    + eapply inv1_step; eauto.
    + intros Hall. eapply inv3_step; eauto.
      * apply IH. intros n b Hin Hb. apply (Hall n b); [apply in_or_app; now left|exact Hb].
      * intros n b -> Hb. apply (Hall n b); auto. apply in_or_app. right. now left.
Qed.
End Unique.

(** ** Running actors have their membership *)
Section Owned.
Variable factory : string -> option Z.

Definition own_pc (s : state) (c : call) : Prop :=
  match c_pc c with
  | PPipe cs => exists b pre ep, c_kind c = CReg b /\ pre ++ cs = reg_cmds (c_node c) ep (b_ty b) (b_id b) (b_w b) /\
      (existsb (adds (b_ty b)) cs = true \/ mem (st s) (b_ty b) (mkAddr (c_node c) (b_id b) (b_ty b) ep))
  | PBuild => exists b ep, c_kind c = CReg b /\ mem (st s) (b_ty b) (mkAddr (c_node c) (b_id b) (b_ty b) ep)
  | UPipe cs => exists id ty pre a w, c_kind c = CUnreg id ty /\ a_id a = id /\ pre ++ cs = unreg_cmds (c_node c) id a w
  | _ => True
  end.
Record Inv4 (s : state) : Prop := {
  o_one : forall t t' c c', nth_error (calls s) t = Some c -> nth_error (calls s) t' = Some c' ->
    active c = true -> active c' = true -> call_id c = call_id c' -> t = t';
  o_away : forall t c k n ty, nth_error (calls s) t = Some c -> active c = true -> alive s k n (call_id c) ty -> n = c_node c;
  o_rec : forall id a, rec (st s) id = Some a -> a_id a = id;
  o_mem : forall k n id ty, alive s k n id ty -> exists ep, mem (st s) ty (mkAddr n id ty ep);
  o_pc : forall t c, nth_error (calls s) t = Some c -> own_pc s c;
  o_two : forall k k' n n' id ty ty', alive s k n id ty -> alive s k' n' id ty' -> k = k' }.

Lemma pres4 s s' t c p : Inv4 s -> nth_error (calls s) t = Some c -> active c = true ->
  calls s' = upd (calls s) t (mkCall (c_node c) (c_kind c) p) ->
  (forall id a, rec (st s') id = Some a -> a_id a = id) ->
  (forall ty a, mem (st s) ty a -> a_id a <> call_id c -> mem (st s') ty a) ->
  ((forall ty a, mem (st s) ty a -> mem (st s') ty a) \/ (forall k n ty, ~ alive s' k n (call_id c) ty)) ->
  own_pc s' (mkCall (c_node c) (c_kind c) p) ->
  ((forall k n id ty, alive s' k n id ty -> alive s k n id ty) \/
   ((forall k n ty, ~ alive s k n (call_id c) ty) /\ exists K TY, (exists ep, mem (st s') TY (mkAddr (c_node c) (call_id c) TY ep)) /\
     forall k n id ty, alive s' k n id ty -> alive s k n id ty \/ (k = K /\ n = c_node c /\ id = call_id c /\ ty = TY))) -> Inv4 s'.
Proof.
  intros HI Hc Ha E1 Hrec Hoth Hself Hpc Hal.
  assert (Hnew : forall u d, nth_error (calls s') u = Some d ->
    (u = t /\ d = mkCall (c_node c) (c_kind c) p) \/ (u <> t /\ nth_error (calls s) u = Some d)).
  { intros u d Hu. rewrite E1 in Hu. eapply nth_upd_case; eauto. }
  constructor.
  - intros u u' d d' Hu Hu' B B' En. apply Hnew in Hu as [[-> ->]|[Hne Hu]]; apply Hnew in Hu' as [[-> ->]|[Hne' Hu']]; auto.
    + apply (o_one _ HI _ _ _ _ Hc Hu'); auto.
    + apply (o_one _ HI _ _ _ _ Hu Hc); auto.
    + apply (o_one _ HI _ _ _ _ Hu Hu'); auto.
  - intros u d k n ty Hu B Hl.
    assert (Hl' : alive s k n (call_id d) ty \/ (n = c_node c /\ call_id d = call_id c)).
    { destruct Hal as [Hal|(_ & K & TY & _ & Hal)]; [left; auto|]. apply Hal in Hl. tauto. }
    apply Hnew in Hu as [[-> ->]|[Hne Hu]].
    + destruct Hl' as [Hl'|[-> _]]; [|reflexivity]. exact (o_away _ HI _ _ _ _ _ Hc Ha Hl').
    + destruct Hl' as [Hl'|[-> E]]; [exact (o_away _ HI _ _ _ _ _ Hu B Hl')|].
      exfalso. apply Hne. apply (o_one _ HI _ _ _ _ Hu Hc); auto.
  - exact Hrec.
  - intros k n id ty Hl.
    assert (Hold : alive s k n id ty -> exists ep, mem (st s') ty (mkAddr n id ty ep)).
    { intros Hs. destruct (o_mem _ HI _ _ _ _ Hs) as [ep Hm]. exists ep.
      destruct (string_dec id (call_id c)) as [->|Hi]; [|apply Hoth; [exact Hm|exact Hi]].
      destruct Hself as [Hself|Hself]; [auto|]. destruct (Hself _ _ _ Hl). }
    destruct Hal as [Hal|(_ & K & TY & Hm & Hal)]; [auto|]. apply Hal in Hl as [Hl'|(-> & -> & -> & ->)]; auto.
  - intros u d Hu. apply Hnew in Hu as [[-> ->]|[Hne Hu]]; [exact Hpc|]. pose proof (o_pc _ HI _ _ Hu) as Ho.
    destruct (active d) eqn:Ad; [|unfold active in Ad; unfold own_pc; destruct (c_pc d); auto; discriminate].
    assert (Hid : call_id d <> call_id c) by (intros E; apply Hne; apply (o_one _ HI _ _ _ _ Hu Hc); auto).
    unfold own_pc in *. destruct (c_pc d); auto.
    + destruct Ho as (b & pre & ep & A & B & C). exists b, pre, ep. split; [exact A|]. split; [exact B|].
      destruct C as [C|C]; [auto|]. right. apply Hoth; [exact C|]. cbn. unfold call_id in Hid at 1. rewrite A in Hid. exact Hid.
    + destruct Ho as (b & ep & A & B). exists b, ep. split; [exact A|]. apply Hoth; [exact B|]. cbn. unfold call_id in Hid at 1. rewrite A in Hid. exact Hid.
  - intros k k' n n' id ty ty' Hk Hk'. destruct Hal as [Hal|(Hno & K & TY & _ & Hal)].
    + eapply (o_two _ HI); eauto.
    + apply Hal in Hk as [Hk|(-> & -> & -> & ->)]; apply Hal in Hk' as [Hk'|(-> & -> & Ei & ->)]; auto.
      * eapply (o_two _ HI); eauto.
      * subst id. destruct (Hno _ _ _ Hk).
      * destruct (Hno _ _ _ Hk').
Qed.

Lemma pres4_st s s' t c p : Inv4 s -> nth_error (calls s) t = Some c -> active c = true ->
  calls s' = upd (calls s) t (mkCall (c_node c) (c_kind c) p) -> st s' = st s ->
  own_pc s' (mkCall (c_node c) (c_kind c) p) ->
  (forall k n id ty, alive s' k n id ty -> alive s k n id ty) -> Inv4 s'.
Proof.
  intros HI Hc Ha E1 E2 Hpc Hal. apply (pres4 s s' t c p); auto; rewrite ?E2; auto. apply (o_rec _ HI).
Qed.

Lemma inv4_die s n : Inv4 s -> Inv4 (die s n).
Proof.
  intros HI. constructor.
  - intros u u' d d' Hu Hu' B B'. apply die_call in Hu as [Hu _]; [|auto]. apply die_call in Hu' as [Hu' _]; [|auto].
    apply (o_one _ HI _ _ _ _ Hu Hu'); auto.
  - intros u d k m ty Hu B Hl. apply die_call in Hu as [Hu _]; [|auto]. apply die_alive in Hl. exact (o_away _ HI _ _ _ _ _ Hu B Hl).
  - exact (o_rec _ HI).
  - intros k m id ty Hl. apply die_alive in Hl. exact (o_mem _ HI _ _ _ _ Hl).
  - intros u d Hu. destruct (active d) eqn:Ad; [|unfold active in Ad; unfold own_pc; destruct (c_pc d); auto; discriminate].
    apply die_call in Hu as [Hu _]; [|auto]. exact (o_pc _ HI _ _ Hu).
  - intros k k' m m' id ty ty' Hk Hk'. apply die_alive in Hk, Hk'. exact (o_two _ HI _ _ _ _ _ _ _ Hk Hk').
Qed.
Lemma inv4_new s n k p : Inv4 s -> match p with PCheck | UMap | PRet _ => True | _ => False end ->
  (active (mkCall n k p) = true ->
    existsb (fun c => active c && String.eqb (call_id c) (call_id (mkCall n k p))) (calls s) = false /\
    existsb (fun i => String.eqb (i_id i) (call_id (mkCall n k p)) && negb (String.eqb (i_node i) n) &&
                          match i_st i with Stopped => false | _ => true end) (insts s) = false) ->
  Inv4 (set_calls s (calls s ++ [mkCall n k p])).
Proof.
  intros HI Hp Hf. constructor.
  - intros u u' d d' Hu Hu' B B' En. apply nth_snoc in Hu as [[-> ->]|Hu]; apply nth_snoc in Hu' as [[-> ->]|Hu']; auto.
    + destruct (Hf B) as [X _]. apply (existsb_nth _ _ _ _ Hu') in X. cbv beta in X. rewrite B', <- En, String.eqb_refl in X. discriminate.
    + destruct (Hf B') as [X _]. apply (existsb_nth _ _ _ _ Hu) in X. cbv beta in X. rewrite B, En, String.eqb_refl in X. discriminate.
    + apply (o_one _ HI _ _ _ _ Hu Hu'); auto.
  - intros u d j m ty Hu B Hl. apply nth_snoc in Hu as [[-> ->]|Hu]; [|exact (o_away _ HI _ _ _ _ _ Hu B Hl)].
    destruct (Hf B) as [_ X]. destruct Hl as (x & Hx & Hne). apply (existsb_nth _ _ _ _ Hx) in X. cbn [i_id i_node i_st] in X.
    rewrite String.eqb_refl in X. cbn [c_node]. destruct (String.eqb_spec m n); [assumption|]. cbn in X. destruct x; congruence.
  - exact (o_rec _ HI).
  - exact (o_mem _ HI).
  - intros u d Hu. apply nth_snoc in Hu as [[-> ->]|Hu]; [|exact (o_pc _ HI _ _ Hu)]. unfold own_pc. cbn. destruct p; auto; contradiction.
  - exact (o_two _ HI).
Qed.

Lemma id_idle s t c : Inv1 s -> Inv4 s -> nth_error (calls s) t = Some c -> active c = true -> (forall k, c_pc c <> PInsert k) ->
  mp s (c_node c) (call_id c) = None -> forall k n ty, ~ alive s k n (call_id c) ty.
Proof.
  intros H1 HI Hc Ha Hp Hm k n ty Hl. pose proof (o_away _ HI _ _ _ _ _ Hc Ha Hl) as ->.
  eapply (no_alive _ _ _ H1 Hc); eauto.
Qed.

Lemma inv4_step s l s' e : Inv1 s -> Inv4 s -> owned_ids s l = true -> step factory s l = Some (s', e) -> Inv4 s'.
Proof.
  intros H1 HI Hok H. inv_step H; try (apply inv4_die; assumption).
  all: try solve [eapply pres4_st; [eassumption|eassumption|reflexivity|reflexivity|reflexivity|exact I|intros; assumption]].
  - destruct HI as [A B C D E F]. constructor; auto.
  - apply inv4_new; auto. discriminate.
  - apply inv4_new; auto. intros _. cbn in Hok. apply andb_true_iff in Hok as [A B]. apply negb_true_iff in A, B. auto.
  - apply inv4_new; auto. intros _. cbn in Hok. apply andb_true_iff in Hok as [A B]. apply negb_true_iff in A, B. auto.
  - (* PBook to PPipe *)
    eapply pres4_st; [eassumption|eassumption|reflexivity|reflexivity|reflexivity| |intros; assumption].
    unfold own_pc. cbn [c_pc c_kind c_node]. exists b, [], (n_ep nd). split; [reflexivity|]. split; [reflexivity|]. left.
    cbn. rewrite String.eqb_refl. reflexivity.
  - (* PPipe [] to PBuild *)
    eapply pres4_st; [eassumption|eassumption|reflexivity|reflexivity|reflexivity| |intros; assumption].
    pose proof (o_pc _ HI _ _ Hc) as (b' & pre & ep & A & _ & [B|B]); cbn in A; injection A as <-; [discriminate|].
    unfold own_pc. cbn. exists b, ep. auto.
  - (* PPipe *)
    pose proof (o_pc _ HI _ _ Hc) as (b' & pre & ep & A & B & C). cbn in A, B, C. injection A as <-.
    assert (Hx : In x (reg_cmds cn ep (b_ty b) (b_id b) (b_w b))) by (rewrite <- B; apply in_or_app; right; now left).
    assert (Hgrow : forall ty a, mem (st s) ty a -> mem (apply (st s) x) ty a).
    { intros ty a Hm. apply mem_apply. cbn in Hx. destruct Hx as [<-|[<-|[<-|[<-|[<-|[]]]]]]; auto. }
    eapply pres4; [eassumption|eassumption|reflexivity|reflexivity| | |left; exact Hgrow| |left; intros; assumption].
    + intros id a. cbn [st]. rewrite rec_apply. cbn in Hx.
      destruct Hx as [<-|[<-|[<-|[<-|[<-|[]]]]]]; try apply (o_rec _ HI).
      destruct (String.eqb_spec id (b_id b)) as [->|]; [intros [= <-]; reflexivity|apply (o_rec _ HI)].
    + intros ty a Hm _. exact (Hgrow ty a Hm).
    + unfold own_pc. cbn [c_pc c_kind c_node]. exists b, (pre ++ [x]), ep. split; [reflexivity|]. split; [rewrite <- app_assoc; exact B|].
      cbn [st]. destruct C as [C|C]; [|right; now apply Hgrow].
      destruct (reg_suffix _ _ _ _ _ _ _ _ B) as [[-> D]|[[-> D]|[D1 D]]]; [auto| |].
      * right. apply mem_apply. auto.
      * exfalso. rewrite D in C. destruct x; try contradiction; discriminate.
  - (* PBuild *)
    pose proof (o_pc _ HI _ _ Hc) as (b' & ep & A & B). cbn in A, B. injection A as <-.
    pose proof (i_pc _ H1 _ _ Hc) as Hpc. unfold pc_ok in Hpc. cbn [c_pc] in Hpc.
    eapply pres4; [eassumption|eassumption|reflexivity|reflexivity|exact (o_rec _ HI)|auto|left; auto|exact I|].
    right. split; [apply (id_idle _ _ _ H1 HI Hc); auto; discriminate|]. exists (List.length (insts s)), (b_ty b). split; [exists ep; exact B|].
    intros k n id ty Hl. eapply alive_snoc in Hl; [|reflexivity]. exact Hl.
  - eapply pres4_st; [eassumption|eassumption|reflexivity|reflexivity|reflexivity|exact I|].
    intros k n id' ty' Hl. eapply alive_exit in Hl; [exact Hl|exact Hif|reflexivity|right; rewrite Hif0; discriminate].
  - eapply pres4_st; [eassumption|eassumption|reflexivity|reflexivity|reflexivity|exact I|].
    intros k n id' ty' Hl. eapply alive_exit in Hl; [exact Hl|exact Hif|reflexivity|left; reflexivity].
  - (* UBook *)
    eapply pres4_st; [eassumption|eassumption|reflexivity|reflexivity|reflexivity| |intros; assumption].
    unfold own_pc. cbn [c_pc c_kind c_node]. eexists id, ty, [], _, _. split; [reflexivity|]. split; [|reflexivity].
    apply (o_rec _ HI). exact Hif0.
  - (* UPipe *)
    pose proof (o_pc _ HI _ _ Hc) as (id' & ty' & pre & a & w & A & B & C). cbn in A, C. injection A as <- <-.
    pose proof (i_pc _ H1 _ _ Hc) as Hpc. unfold pc_ok in Hpc. cbn [c_pc] in Hpc.
    assert (Hx : In x (unreg_cmds cn id a w)) by (rewrite <- C; apply in_or_app; right; now left).
    eapply pres4; [eassumption|eassumption|reflexivity|reflexivity| | |right| |left; intros; assumption].
    + intros i b. cbn [st]. rewrite rec_apply. cbn in Hx.
      destruct Hx as [<-|[<-|[<-|[<-|[]]]]]; try apply (o_rec _ HI). destruct (String.eqb i id); [discriminate|apply (o_rec _ HI)].
    + intros t0 b Hm Hne. cbn [st]. apply mem_apply. cbn in Hx. destruct Hx as [<-|[<-|[<-|[<-|[]]]]]; auto.
      split; [exact Hm|]. intros [_ ->]. apply Hne. exact B.
    + intros k n t0 Hl. assert (Hl' : alive s k n id t0) by exact Hl.
      revert Hl'. apply (id_idle _ _ _ H1 HI Hc); auto. discriminate.
    + unfold own_pc. cbn [c_pc c_kind c_node]. exists id, ty, (pre ++ [x]), a, w. split; [reflexivity|]. split; [exact B|]. rewrite <- app_assoc. exact C.
Qed.

Lemma owned_serial s l : owned_ids s l = true -> serial_ids s l = true.
Proof.
  assert (Hx : forall n id, existsb (fun c => active c && String.eqb (call_id c) id) (calls s) = false -> existsb (busy_id n id) (calls s) = false).
  { intros n id H. destruct (existsb (busy_id n id) (calls s)) eqn:E; [|reflexivity]. apply existsb_exists in E as (c & Hc & Hb).
    unfold busy_id in Hb. assert (existsb (fun c => active c && String.eqb (call_id c) id) (calls s) = true); [|congruence].
    apply existsb_exists. exists c. split; [exact Hc|]. apply andb_true_iff in Hb as [Hb1 Hb2]. apply andb_true_iff in Hb1 as [Hb1 _]. now rewrite Hb1, Hb2. }
  destruct l; cbn; auto; intros H; apply andb_true_iff in H as [H _]; apply negb_true_iff in H; apply negb_true_iff; auto.
Qed.

Lemma inv4_run sched s e : run (filtered owned_ids factory) init sched = Some (s, e) -> Inv1 s /\ Inv4 s.
Proof.
  revert sched s e. apply (run_inv _ _ (fun _ _ s => Inv1 s /\ Inv4 s)).
  - split; [apply inv1_init|]. constructor; cbn; intros; try (destruct t; discriminate); try discriminate;
      destruct H as (x & H & _); destruct k; discriminate.
  - intros sched e s l s' e' _ [I1 I4] H. unfold filtered in H. destruct (owned_ids s l) eqn:E; [|discriminate].
    split; [eapply inv1_step; eauto; now apply owned_serial|eapply inv4_step; eauto].
Qed.

(** The running actors of a type. *)
Lemma running_le s ty : Inv4 s ->
  List.length (filter (fun i => String.eqb (i_ty i) ty && match i_st i with Stopped => false | _ => true end) (insts s)) <=
  List.length (members (st s) ty).
Proof.
  intros HI. set (f := fun i => String.eqb (i_ty i) ty && match i_st i with Stopped => false | _ => true end).
  rewrite <- (map_length i_id), <- (map_length a_id (members (st s) ty)). apply NoDup_incl_length.
  - assert (Hd : forall l, (forall k k' i i', nth_error l k = Some i -> nth_error l k' = Some i' -> f i = true -> f i' = true -> i_id i = i_id i' -> k = k') ->
      NoDup (map i_id (filter f l))).
    { induction l as [|a l IH]; intros Hl; cbn; [constructor|].
      assert (IH' : NoDup (map i_id (filter f l))).
      { apply IH. intros k k' i i' A B C D E. pose proof (Hl (S k) (S k') i i' A B C D E). lia. }
      destruct (f a) eqn:Fa; [|exact IH']. cbn. constructor; [|exact IH'].
      intros Hin. apply in_map_iff in Hin as (i & Ei & Hi). apply filter_In in Hi as [Hi Fi].
      apply In_nth_error in Hi as [k Hk]. specialize (Hl 0 (S k) a i eq_refl Hk Fa Fi (eq_sym Ei)). lia. }
    apply Hd. intros k k' i i' A B C D E. unfold f in C, D.
    apply andb_true_iff in C as [C1 C2]. apply andb_true_iff in D as [D1 D2].
    destruct i as [n id t x], i' as [n' id' t' x']. cbn in *. subst id'.
    apply (o_two _ HI k k' n n' id t t').
    + exists x. split; [exact A|]. intros ->. discriminate.
    + exists x'. split; [exact B|]. intros ->. discriminate.
  - intros id Hin. apply in_map_iff in Hin as (i & Ei & Hi). apply filter_In in Hi as [Hi Fi].
    apply In_nth_error in Hi as [k Hk]. unfold f in Fi. apply andb_true_iff in Fi as [F1 F2]. destruct i as [n id' t x]. cbn in *. subst id'.
    apply String.eqb_eq in F1. subst t. destruct (o_mem _ HI k n id ty) as [ep Hm].
    { exists x. split; [exact Hk|]. intros ->. discriminate. }
    apply in_map_iff. exists (mkAddr n id ty ep). auto.
Qed.
End Owned.

(** ** A call that fails of itself leaves nothing behind *)
Section Trace.
Variable factory : string -> option Z.
Definition mine (t : nat) (e : event) : bool :=
  match e with ECmd u _ | ERun u _ => Nat.eqb u t | _ => false end.
Definition failed (t : nat) (e : event) : bool := match e with EFail u => Nat.eqb u t | _ => false end.
Definition erred (t : nat) (e : event) : bool := match e with EErr u => Nat.eqb u t | _ => false end.
Record TInv (evs : list event) (s : state) : Prop := {
  t_new : forall t, List.length (calls s) <= t -> existsb (mine t) evs = false /\ existsb (erred t) evs = false;
  t_pc : forall t c b, nth_error (calls s) t = Some c -> c_kind c = CReg b ->
    match c_pc c with
    | PCheck | PScan | PCount | PBook => existsb (mine t) evs = false /\ existsb (erred t) evs = false
    | PRet false => existsb (mine t) evs = false \/ existsb (failed t) evs = true
    | _ => existsb (erred t) evs = false
    end }.

Lemma tinv_upd evs s s' t c p e b : TInv evs s -> nth_error (calls s) t = Some c -> c_kind c = CReg b ->
  calls s' = upd (calls s) t (mkCall (c_node c) (c_kind c) p) ->
  (forall u, u <> t -> existsb (mine u) e = false /\ existsb (erred u) e = false) ->
  match p with
  | PCheck | PScan | PCount | PBook => existsb (mine t) (evs ++ e) = false /\ existsb (erred t) (evs ++ e) = false
  | PRet false => existsb (mine t) (evs ++ e) = false \/ existsb (failed t) (evs ++ e) = true
  | _ => existsb (erred t) (evs ++ e) = false
  end -> TInv (evs ++ e) s'.
Proof.
  intros [A B] Hc Hk E He Hp. constructor.
  - intros u Hu. rewrite E, upd_length in Hu. assert (u <> t) by (intros ->; apply nth_error_None in Hu; congruence).
    rewrite !existsb_app. destruct (A _ Hu) as [-> ->]. destruct (He _ H) as [-> ->]. auto.
  - intros u d b' Hu Hd. rewrite E in Hu. apply (nth_upd_case _ _ _ _ _ _ Hc) in Hu as [[-> ->]|[Hne Hu]]; [exact Hp|].
    specialize (B _ _ _ Hu Hd). destruct (He _ Hne) as [E1 E2]. rewrite !existsb_app, E1, E2, ?orb_false_r.
    destruct (c_pc d) as [| | | | | | | | | | | | | |[|]|]; auto. destruct B as [->| ->]; auto.
Qed.
Lemma tinv_other evs s s' t c p e id ty : TInv evs s -> nth_error (calls s) t = Some c -> c_kind c = CUnreg id ty ->
  calls s' = upd (calls s) t (mkCall (c_node c) (c_kind c) p) ->
  (forall u, u <> t -> existsb (mine u) e = false /\ existsb (erred u) e = false) -> TInv (evs ++ e) s'.
Proof.
  intros [A B] Hc Hk E He. constructor.
  - intros u Hu. rewrite E, upd_length in Hu. assert (u <> t) by (intros ->; apply nth_error_None in Hu; congruence).
    rewrite !existsb_app. destruct (A _ Hu) as [-> ->]. destruct (He _ H) as [-> ->]. auto.
  - intros u d b' Hu Hd. rewrite E in Hu. apply (nth_upd_case _ _ _ _ _ _ Hc) in Hu as [[-> ->]|[Hne Hu]]; [cbn in Hd; congruence|].
    specialize (B _ _ _ Hu Hd). destruct (He _ Hne) as [E1 E2]. rewrite !existsb_app, E1, E2, ?orb_false_r.
    destruct (c_pc d) as [| | | | | | | | | | | | | |[|]|]; auto. destruct B as [->| ->]; auto.
Qed.
Lemma tinv_die evs s n e : TInv evs s -> (forall u, existsb (mine u) e = false /\ existsb (erred u) e = false) -> TInv (evs ++ e) (die s n).
Proof.
  intros [A B] He. constructor.
  - intros u Hu. cbn in Hu. rewrite map_length in Hu. rewrite !existsb_app. destruct (A _ Hu) as [-> ->]. destruct (He u) as [-> ->]. auto.
  - intros u d b Hu Hd. destruct (He u) as [E1 E2]. rewrite !existsb_app, E1, E2, ?orb_false_r.
    cbn in Hu. rewrite nth_error_map in Hu. destruct (nth_error (calls s) u) as [c|] eqn:Ec; [|discriminate]. cbn in Hu. injection Hu as <-.
    assert (Hk : c_kind c = CReg b) by (destruct (String.eqb (c_node c) n); [destruct (c_pc c)|]; exact Hd).
    specialize (B _ _ _ Ec Hk). destruct (String.eqb (c_node c) n).
    + destruct (c_pc c) as [| | | | | | | | | | | | | |[|]|] eqn:Ep; cbn; rewrite ?Ep; try tauto. destruct B as [->| ->]; auto.
    + destruct (c_pc c) as [| | | | | | | | | | | | | |[|]|]; auto. destruct B as [->| ->]; auto.
Qed.
Lemma tinv_new evs s c : TInv evs s -> match c_pc c with PCheck | UMap => True | _ => False end ->
  TInv (evs ++ [ECall (List.length (calls s)) (c_node c) (c_kind c)]) (set_calls s (calls s ++ [c])).
Proof.
  intros [A B] Hp. constructor.
  - intros u Hu. cbn in Hu. rewrite app_length in Hu. cbn in Hu. rewrite !existsb_app. destruct (A u) as [-> ->]; [lia|]. auto.
  - intros u d b Hu Hd. rewrite !existsb_app. cbn. rewrite !orb_false_r. apply nth_snoc in Hu as [[-> ->]|Hu].
    + destruct (A _ (le_n _)) as [-> ->]. destruct (c_pc c); try contradiction; auto.
    + exact (B _ _ _ Hu Hd).
Qed.

Lemma eqb_ne u t : u <> t -> Nat.eqb t u = false.
Proof. intros H. apply Nat.eqb_neq. congruence. Qed.
Lemma tinv_step evs s l s' e : TInv evs s -> step factory s l = Some (s', e) -> TInv (evs ++ e) s'.
Proof.
  intros HI H. inv_step H; try (apply tinv_die; [assumption|intros; split; reflexivity]).
  all: try solve [eapply tinv_other; [eassumption|eassumption|reflexivity|reflexivity|];
                  intros u Hu; cbn; rewrite ?(eqb_ne _ _ Hu); auto].
  all: try solve [pose proof (t_pc _ _ HI _ _ _ Hc eq_refl) as Hpc; cbn in Hpc;
    eapply tinv_upd; [eassumption|eassumption|reflexivity|reflexivity|intros u Hu; cbn; rewrite ?(eqb_ne _ _ Hu); auto|];
    rewrite !existsb_app; cbn; rewrite ?orb_false_r, ?orb_true_r; try (right; rewrite Nat.eqb_refl, ?orb_true_r; reflexivity); tauto].
  - rewrite app_nil_r. destruct HI as [A B]. constructor; auto.
  - destruct HI as [A B]. constructor.
    + intros u Hu. cbn in Hu. rewrite app_length in Hu. cbn in Hu. rewrite !existsb_app. destruct (A u) as [-> ->]; [lia|].
      cbn. rewrite eqb_ne by lia. auto.
    + intros u d b' Hu Hd. rewrite !existsb_app. cbn. rewrite ?orb_false_r. apply nth_snoc in Hu as [[-> ->]|Hu].
      * cbn. destruct (A _ (le_n _)) as [-> _]. auto.
      * assert (u < List.length (calls s)) by (apply nth_error_Some; congruence).
        specialize (B _ _ _ Hu Hd). rewrite (Nat.eqb_sym), (proj2 (Nat.eqb_neq _ _)) by lia. rewrite ?orb_false_r. exact B.
  - exact (tinv_new evs s (mkCall n (CReg b) PCheck) HI I).
  - exact (tinv_new evs s (mkCall n (CUnreg id ty) UMap) HI I).
  - destruct ck as [b|id ty].
    + eapply tinv_upd; [eassumption|eassumption|reflexivity|reflexivity|intros u Hu; cbn; rewrite ?(eqb_ne _ _ Hu); auto|].
      right. rewrite existsb_app. cbn. rewrite Nat.eqb_refl, orb_true_r. reflexivity.
    + eapply tinv_other; [eassumption|eassumption|reflexivity|reflexivity|]; intros u Hu; cbn; rewrite ?(eqb_ne _ _ Hu); auto.
  - destruct ck as [b|id ty].
    + eapply tinv_upd; [eassumption|eassumption|reflexivity|reflexivity|intros u Hu; cbn; rewrite ?(eqb_ne _ _ Hu); auto|].
      right. rewrite existsb_app. cbn. rewrite Nat.eqb_refl, orb_true_r. reflexivity.
    + eapply tinv_other; [eassumption|eassumption|reflexivity|reflexivity|]; intros u Hu; cbn; rewrite ?(eqb_ne _ _ Hu); auto.
  - destruct ck as [b|id ty].
    + pose proof (t_pc _ _ HI _ _ _ Hc eq_refl) as Hpc; cbn in Hpc.
      eapply tinv_upd; [eassumption|eassumption|reflexivity|reflexivity|intros u Hu; cbn; rewrite ?(eqb_ne _ _ Hu); auto|].
      cbv iota. rewrite existsb_app, Hpc. reflexivity.
    + eapply tinv_other; [eassumption|eassumption|reflexivity|reflexivity|]; intros u Hu; cbn; rewrite ?(eqb_ne _ _ Hu); auto.
  - destruct ck as [b|id ty].
    + pose proof (t_pc _ _ HI _ _ _ Hc eq_refl) as Hpc; cbn in Hpc.
      eapply tinv_upd; [eassumption|eassumption|reflexivity|reflexivity|intros u Hu; cbn; rewrite ?(eqb_ne _ _ Hu); auto|].
      cbv iota. rewrite existsb_app, Hpc. reflexivity.
    + eapply tinv_other; [eassumption|eassumption|reflexivity|reflexivity|]; intros u Hu; cbn; rewrite ?(eqb_ne _ _ Hu); auto.
Qed.
Lemma tinv_run sched s evs : run (step factory) init sched = Some (s, evs) -> TInv evs s.
Proof.
  revert sched s evs. apply (run_inv _ _ (fun _ evs s => TInv evs s)).
  - constructor; [auto|]. intros t c b H. destruct t; discriminate.
  - intros sched e s l s' e' _ HI H. eapply tinv_step; eauto.
Qed.

Lemma existsb_ev (f : event -> bool) l x : In x l -> f x = true -> existsb f l = true.
Proof. intros A B. apply existsb_exists. eauto. Qed.
Lemma failed_no_trace sched s evs t c b : run (step factory) init sched = Some (s, evs) ->
  nth_error (calls s) t = Some c -> c_kind c = CReg b -> In (EErr t) evs -> ~ In (EFail t) evs ->
  (forall x, ~ In (ECmd t x) evs) /\ (forall i, ~ In (ERun t i) evs).
Proof.
  intros H Hc Hk He Hf. apply tinv_run in H. pose proof (t_pc _ _ H _ _ _ Hc Hk) as Hp.
  assert (Her : existsb (erred t) evs = true) by (apply (existsb_ev _ _ _ He); apply Nat.eqb_refl).
  assert (Hm : existsb (mine t) evs = false).
  { destruct (c_pc c) as [| | | | | | | | | | | | | |[|]|]; rewrite ?Her in Hp; try (destruct Hp; discriminate); try discriminate.
    destruct Hp as [Hp|Hp]; [exact Hp|]. exfalso. apply Hf. apply existsb_exists in Hp as (x & Hx & Ex). destruct x; try discriminate.
    apply Nat.eqb_eq in Ex. now subst. }
  split.
  - intros x Hx. rewrite (existsb_ev (mine t) _ _ Hx) in Hm; [discriminate|]. apply Nat.eqb_refl.
  - intros i Hx. rewrite (existsb_ev (mine t) _ _ Hx) in Hm; [discriminate|]. apply Nat.eqb_refl.
Qed.
End Trace.
