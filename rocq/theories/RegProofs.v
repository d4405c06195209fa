(** Invariants of registering. *)
From Coq Require Import List String ZArith Bool Lia.
From Verif Require Import Machine AddrModel AddrSpec AddrProofs RegModel RegSpec.
Import ListNotations.
Open Scope string_scope.
Open Scope list_scope.

Definition mp (s : state) (n id : string) : option nat :=
  match aget n (nds s) with Some nd => aget id (n_map nd) | None => None end.
Definition up (s : state) (n : string) : Prop := exists nd, aget n (nds s) = Some nd.

Lemma nth_upd_case {A} (l : list A) t c x k y : nth_error l t = Some c -> nth_error (upd l t x) k = Some y ->
  (k = t /\ y = x) \/ (k <> t /\ nth_error l k = Some y).
Proof.
  intros Ht H. assert (Hl : t < List.length l) by (apply nth_error_Some; congruence).
  rewrite nth_upd in H by exact Hl. destruct (Nat.eqb_spec t k) as [->|Hn]; [injection H as <-; auto|right; auto].
Qed.
Lemma nth_upd_self {A} (l : list A) t c x : nth_error l t = Some c -> nth_error (upd l t x) t = Some x.
Proof. intros Ht. apply nth_upd_eq. apply nth_error_Some. congruence. Qed.
Lemma nth_snoc {A} (l : list A) x k y : nth_error (l ++ [x]) k = Some y ->
  (k = List.length l /\ y = x) \/ nth_error l k = Some y.
Proof.
  intros H. destruct (Nat.lt_ge_cases k (List.length l)) as [Hk|Hk].
  - rewrite nth_error_app1 in H by exact Hk. auto.
  - rewrite nth_error_app2 in H by exact Hk. destruct (k - List.length l) as [|m] eqn:E; cbn in H; [|destruct m; discriminate].
    injection H as <-. left. split; [lia|reflexivity].
Qed.
Lemma nth_snoc_old {A} (l : list A) x k y : nth_error l k = Some y -> nth_error (l ++ [x]) k = Some y.
Proof. intros H. rewrite nth_error_app1; [exact H|]. apply nth_error_Some. congruence. Qed.
Lemma existsb_nth {A} (f : A -> bool) l k x : nth_error l k = Some x -> existsb f l = false -> f x = false.
Proof.
  intros Hk Hf. destruct (f x) eqn:E; [|reflexivity]. exfalso.
  assert (existsb f l = true); [|congruence]. apply existsb_exists. exists x. split; [eapply nth_error_In; eauto|exact E].
Qed.

Ltac dest_node H :=
  match type of H with (match aget ?a ?b with _ => _ end) = _ => destruct (aget a b) as [nd|] eqn:Hn end.
Ltac dest_call H :=
  match type of H with (match nth_error ?a ?b with _ => _ end) = _ =>
    destruct (nth_error a b) as [[cn ck cp]|] eqn:Hc; [|discriminate H] end;
  cbn [c_node c_kind c_pc] in H.
Ltac dest_rest H :=
  repeat match type of H with
         | context [match ?x with _ => _ end] => let E := fresh "Hif" in destruct x eqn:E in H
         end; try discriminate H; injection H as <- <-.
Ltac inv_step H :=
  match type of H with step _ _ ?l = Some _ => destruct l as [n ep|n|n b|n id ty|t|t] end;
  cbn [step] in H;
  [ dest_node H; [discriminate H|]; injection H as <- <-
  | dest_node H; [|discriminate H]; injection H as <- <-
  | dest_node H; [|discriminate H];
    match type of H with (if ?x then _ else _) = _ => destruct x eqn:Hemp end; injection H as <- <-
  | dest_node H; [|discriminate H]; injection H as <- <-
  | dest_call H; dest_node H; [|discriminate H]; match type of H with (match ?k with _ => _ end) = _ => destruct k as [b|id ty] end;
    [ unfold step_reg in H; cbn [c_node c_kind c_pc] in H; match type of H with (match ?k with _ => _ end) = _ => destruct k as [| | | |[|x cs]| |i| |i|i| | |w|[|x cs]|ok|] end; try discriminate H;
      dest_rest H
    | unfold step_unreg in H; cbn [c_node c_kind c_pc] in H; match type of H with (match ?k with _ => _ end) = _ => destruct k as [| | | |[|x cs]| |i| |i|i| | |w|[|x cs]|ok|] end; try discriminate H;
      dest_rest H ]
  | dest_call H; match type of H with (match ?k with _ => _ end) = _ => destruct k as [| | | |cs| |i| |i|i| | |w|cs|ok|] end; try discriminate H; injection H as <- <- ].

Section Proofs.
Variable factory : string -> option Z.

(** A discipline may be weakened. *)
Lemma filtered_weaken (ok ok' : state -> label -> bool) : (forall s l, ok s l = true -> ok' s l = true) ->
  forall sched s s' e, run (filtered ok factory) s sched = Some (s', e) -> run (filtered ok' factory) s sched = Some (s', e).
Proof.
  intros Hw. induction sched as [|l sched IH]; intros s s' e H; cbn [run] in *; [exact H|].
  unfold filtered at 1 in H. destruct (ok s l) eqn:E; [|discriminate]. unfold filtered at 1. rewrite (Hw _ _ E).
  destruct (step factory s l) as [[z f]|]; [|discriminate].
  destruct (run (filtered ok factory) z sched) as [[y g]|] eqn:Er; [|discriminate]. injection H as <- <-.
  now rewrite (IH _ _ _ Er).
Qed.
Lemma filtered_run ok sched s s' e : run (filtered ok factory) s sched = Some (s', e) -> run (step factory) s sched = Some (s', e).
Proof.
  intros H. apply (filtered_weaken ok (fun _ _ => true)) in H; [|auto].
  revert s s' e H. induction sched as [|l sched IH]; intros s s' e H; cbn [run] in *; [exact H|].
  unfold filtered at 1 in H. destruct (step factory s l) as [[z f]|]; [|discriminate].
  destruct (run (filtered _ factory) z sched) as [[y g]|] eqn:Er; [|discriminate]. injection H as <- <-.
  now rewrite (IH _ _ _ Er).
Qed.

(** ** Invariant 1: calls about one id on one node do not overlap *)
Definition pc_ok (s : state) (c : call) : Prop :=
  match c_pc c with
  | PScan | PCount | PBook | PPipe _ | PBuild => mp s (c_node c) (call_id c) = None
  | PInsert k => mp s (c_node c) (call_id c) = None /\
      exists b x, c_kind c = CReg b /\ nth_error (insts s) k = Some (mkInst (c_node c) (b_id b) (b_ty b) x)
  | UExit k | UWait k => mp s (c_node c) (call_id c) = Some k
  | UDel => forall k ty, ~ alive s k (c_node c) (call_id c) ty
  | UFac | UBook _ | UPipe _ => mp s (c_node c) (call_id c) = None
  | _ => True
  end.
Record Inv1 (s : state) : Prop := {
  i_up : forall t c, nth_error (calls s) t = Some c -> active c = true -> up s (c_node c);
  i_one : forall t t' c c', nth_error (calls s) t = Some c -> nth_error (calls s) t' = Some c' ->
    active c = true -> active c' = true -> c_node c = c_node c' -> call_id c = call_id c' -> t = t';
  i_map : forall n id k, mp s n id = Some k -> exists ty x, nth_error (insts s) k = Some (mkInst n id ty x);
  i_live : forall k n id ty, alive s k n id ty -> mp s n id = Some k \/
    exists t c, nth_error (calls s) t = Some c /\ c_node c = n /\ call_id c = id /\ c_pc c = PInsert k;
  i_pc : forall t c, nth_error (calls s) t = Some c -> pc_ok s c }.

Lemma alive_none_mp s n id : Inv1 s -> mp s n id = None ->
  (forall t c, nth_error (calls s) t = Some c -> c_node c = n -> call_id c = id -> forall k, c_pc c <> PInsert k) ->
  forall k ty, ~ alive s k n id ty.
Proof.
  intros HI Hm Hc k ty Ha. apply (i_live _ HI) in Ha as [Ha|(t & c & A & B & C & D)]; [congruence|].
  exact (Hc t c A B C k D).
Qed.

(** Changing one active call, and its id's entry only. *)
Lemma pres1 s s' t c p : Inv1 s -> nth_error (calls s) t = Some c -> active c = true ->
  calls s' = upd (calls s) t (mkCall (c_node c) (c_kind c) p) ->
  (forall n, up s n -> up s' n) ->
  (forall n id, ~ (n = c_node c /\ id = call_id c) -> mp s' n id = mp s n id) ->
  (forall k n id ty x, nth_error (insts s) k = Some (mkInst n id ty x) -> exists x', nth_error (insts s') k = Some (mkInst n id ty x')) ->
  (forall k n id ty, ~ (n = c_node c /\ id = call_id c) -> alive s' k n id ty -> alive s k n id ty) ->
  (forall k, mp s' (c_node c) (call_id c) = Some k -> exists ty x, nth_error (insts s') k = Some (mkInst (c_node c) (call_id c) ty x)) ->
  (forall k ty, alive s' k (c_node c) (call_id c) ty -> mp s' (c_node c) (call_id c) = Some k \/ p = PInsert k) ->
  pc_ok s' (mkCall (c_node c) (c_kind c) p) -> Inv1 s'.
Proof.
  intros HI Hc Hact Hcalls Hup Hmp Hins Hal Lmap Llive Lpc.
  assert (Hnew : forall u d, nth_error (calls s') u = Some d ->
    (u = t /\ d = mkCall (c_node c) (c_kind c) p) \/ (u <> t /\ nth_error (calls s) u = Some d)).
  { intros u d Hu. rewrite Hcalls in Hu. eapply nth_upd_case; eauto. }
  assert (Hid : call_id (mkCall (c_node c) (c_kind c) p) = call_id c) by reflexivity.
  constructor.
  - intros u d Hu Ha. apply Hnew in Hu as [[-> ->]|[Hne Hu]]; apply Hup; [|eapply i_up; eauto].
    cbn. eapply i_up; eauto.
  - intros u u' d d' Hu Hu' Ha Ha' En Ei.
    apply Hnew in Hu as [[-> ->]|[Hne Hu]]; apply Hnew in Hu' as [[-> ->]|[Hne' Hu']]; auto.
    + eapply (i_one _ HI); eauto.
    + eapply (i_one _ HI); eauto.
    + eapply (i_one _ HI); eauto.
  - intros n id k Hk.
    destruct (string_dec n (c_node c)) as [->|Hn]; [destruct (string_dec id (call_id c)) as [->|Hi]; [eauto|]|];
      (rewrite Hmp in Hk by tauto; apply (i_map _ HI) in Hk as (ty & x & Hk); destruct (Hins _ _ _ _ _ Hk) as [x' Hx]; eauto).
  - intros k n id ty Ha.
    destruct (string_dec n (c_node c)) as [->|Hn]; [destruct (string_dec id (call_id c)) as [->|Hi]|].
    + destruct (Llive _ _ Ha) as [H|H]; [auto|]. right. exists t, (mkCall (c_node c) (c_kind c) p).
      rewrite Hcalls. split; [eapply nth_upd_self; eauto|]. cbn. auto.
    + assert (Hn : ~ (c_node c = c_node c /\ id = call_id c)) by tauto.
      rewrite Hmp by exact Hn. apply Hal in Ha; [|exact Hn].
      apply (i_live _ HI) in Ha as [Ha|(u & d & A & B & C & D)]; [auto|]. right. exists u, d.
      assert (u <> t) by (intros ->; congruence). rewrite Hcalls, nth_upd_neq by auto. auto.
    + assert (Hn' : ~ (n = c_node c /\ id = call_id c)) by tauto.
      rewrite Hmp by exact Hn'. apply Hal in Ha; [|exact Hn'].
      apply (i_live _ HI) in Ha as [Ha|(u & d & A & B & C & D)]; [auto|]. right. exists u, d.
      assert (u <> t) by (intros ->; congruence). rewrite Hcalls, nth_upd_neq by auto. auto.
  - intros u d Hu. apply Hnew in Hu as [[-> ->]|[Hne Hu]]; [exact Lpc|].
    pose proof (i_pc _ HI _ _ Hu) as Hok. destruct (active d) eqn:Ad; [|unfold active in Ad; unfold pc_ok; destruct (c_pc d); auto; discriminate].
    assert (Hn : ~ (c_node d = c_node c /\ call_id d = call_id c)).
    { intros [A B]. apply Hne. eapply (i_one _ HI); eauto. }
    unfold pc_ok in *. destruct (c_pc d); auto; rewrite ?Hmp by exact Hn; auto.
    + destruct Hok as (A & b & x & B & C). split; [exact A|]. destruct (Hins _ _ _ _ _ C) as [x' Hx]. eauto.
    + intros k ty Ha. apply Hal in Ha; [|exact Hn]. eapply Hok; eauto.
Qed.

(** Actors do not change unless an instance is updated. *)
Lemma alive_upd s s' k x v : nth_error (insts s) k = Some x -> insts s' = upd (insts s) k (set_st x v) ->
  forall j n id ty, alive s' j n id ty -> i_st x <> Stopped -> alive s j n id ty.
Proof.
  intros Hk E j n id ty (y & Hy & Hne) Hx. rewrite E in Hy. apply (nth_upd_case _ _ _ _ _ _ Hk) in Hy as [[-> Hy]|[_ Hy]].
  - destruct x as [a b c d]. cbn in Hy, Hx. injection Hy as -> -> -> _. exists d. auto.
  - exists y. auto.
Qed.

Lemma mp_set_node s n nd' m id cs : mp (set_calls (set_node s n nd') cs) m id = if String.eqb m n then aget id (n_map nd') else mp s m id.
Proof. unfold mp. cbn. rewrite aget_aset. destruct (String.eqb m n); reflexivity. Qed.
Lemma up_set_node s n nd' m cs : up s m -> up (set_calls (set_node s n nd') cs) m.
Proof. intros [x Hx]. unfold up. cbn. rewrite aget_aset. destruct (String.eqb m n); eauto. Qed.

Lemma inv1_die s n : Inv1 s -> Inv1 (die s n).
Proof.
  intros HI.
  assert (Hcalls : forall u d, nth_error (calls (die s n)) u = Some d -> active d = true \/ (exists k, c_pc d = PInsert k) ->
    nth_error (calls s) u = Some d /\ c_node d <> n).
  { intros u d Hu Ha. cbn in Hu. rewrite nth_error_map in Hu. destruct (nth_error (calls s) u) as [c|]; [|discriminate].
    cbn in Hu. injection Hu as <-. destruct (String.eqb_spec (c_node c) n) as [E|E]; [|auto].
    exfalso. unfold active in Ha. destruct (c_pc c) eqn:Ep; cbn in Ha; rewrite ?Ep in Ha; destruct Ha as [Ha|[k Ha]]; discriminate. }
  assert (Hmp : forall m id, m <> n -> mp (die s n) m id = mp s m id).
  { intros m id Hm. unfold mp. cbn. rewrite aget_adel. destruct (String.eqb_spec m n); [contradiction|reflexivity]. }
  assert (Hmp0 : forall id, mp (die s n) n id = None).
  { intros id. unfold mp. cbn. now rewrite aget_adel, String.eqb_refl. }
  assert (Hins : forall k m id ty x, nth_error (insts s) k = Some (mkInst m id ty x) -> m <> n -> nth_error (insts (die s n)) k = Some (mkInst m id ty x)).
  { intros k m id ty x Hk Hm. cbn. rewrite nth_error_map, Hk. cbn. destruct (String.eqb_spec m n); [contradiction|reflexivity]. }
  assert (Hal : forall k m id ty, alive (die s n) k m id ty -> alive s k m id ty /\ m <> n).
  { intros k m id ty (x & Hx & Hne). cbn in Hx. rewrite nth_error_map in Hx. destruct (nth_error (insts s) k) as [i|] eqn:Ei; [|discriminate].
    cbn in Hx. injection Hx as Hx. destruct (String.eqb_spec (i_node i) n) as [E|E].
    - unfold set_st in Hx. injection Hx as _ _ _ <-. contradiction.
    - subst i. cbn in E. split; [exists x; auto|exact E]. }
  constructor.
  - intros u d Hu Ha. destruct (Hcalls _ _ Hu (or_introl Ha)) as [A B]. destruct (i_up _ HI _ _ A Ha) as [nd Hnd].
    exists nd. cbn. rewrite aget_adel. destruct (String.eqb_spec (c_node d) n); [contradiction|exact Hnd].
  - intros u u' d d' Hu Hu' Ha Ha'. destruct (Hcalls _ _ Hu (or_introl Ha)) as [A B]. destruct (Hcalls _ _ Hu' (or_introl Ha')) as [A' B'].
    eapply (i_one _ HI); eauto.
  - intros m id k Hk. destruct (string_dec m n) as [->|Hm]; [rewrite Hmp0 in Hk; discriminate|].
    rewrite Hmp in Hk by exact Hm. apply (i_map _ HI) in Hk as (ty & x & Hk). eauto.
  - intros k m id ty Ha. apply Hal in Ha as [Ha Hm]. rewrite Hmp by exact Hm.
    apply (i_live _ HI) in Ha as [Ha|(u & d & A & B & C & D)]; [auto|]. right. exists u, d.
    split; [|auto]. cbn. rewrite nth_error_map, A. cbn. destruct (String.eqb_spec (c_node d) n); [congruence|reflexivity].
  - intros u d Hu. destruct (active d) eqn:Ad; [|unfold active in Ad; unfold pc_ok; destruct (c_pc d); auto; discriminate].
    destruct (Hcalls _ _ Hu (or_introl Ad)) as [A B]. pose proof (i_pc _ HI _ _ A) as Hok.
    unfold pc_ok in *. destruct (c_pc d); auto; rewrite ?Hmp by exact B; auto.
    + destruct Hok as (C & b & x & D & E). split; [exact C|]. eauto.
    + intros k ty Ha. apply Hal in Ha as [Ha _]. eapply Hok; eauto.
Qed.

Lemma inv1_new s n k p : Inv1 s -> up s n -> 
  (match p with PCheck | UMap | PRet _ => True | _ => False end) ->
  (active (mkCall n k p) = true -> forall t c, nth_error (calls s) t = Some c -> active c = true -> c_node c = n ->
     call_id c = call_id (mkCall n k p) -> False) ->
  Inv1 (set_calls s (calls s ++ [mkCall n k p])).
Proof.
  intros HI Hup Hp Hfree. constructor.
  - intros u d Hu Ha. apply nth_snoc in Hu as [[-> ->]|Hu]; [exact Hup|]. eapply (i_up _ HI); eauto.
  - intros u u' d d' Hu Hu' Ha Ha' En Ei.
    apply nth_snoc in Hu as [[-> ->]|Hu]; apply nth_snoc in Hu' as [[-> ->]|Hu']; auto.
    + exfalso. eapply Hfree; eauto.
    + exfalso. eapply (Hfree Ha'); eauto.
    + eapply (i_one _ HI); eauto.
  - apply (i_map _ HI).
  - intros j m id ty Ha. apply (i_live _ HI) in Ha as [Ha|(u & d & A & B)]; [left; exact Ha|]. right. exists u, d.
    split; [|exact B]. cbn. now apply nth_snoc_old.
  - intros u d Hu. apply nth_snoc in Hu as [[-> ->]|Hu]; [|exact (i_pc _ HI _ _ Hu)].
    unfold pc_ok. cbn. destruct p; auto; contradiction.
Qed.

Lemma not_busy s n id t c : existsb (busy_id n id) (calls s) = false -> nth_error (calls s) t = Some c ->
  active c = true -> c_node c = n -> call_id c = id -> False.
Proof.
  intros H Hc Ha <- <-. pose proof (existsb_nth _ _ _ _ Hc H) as Hb. unfold busy_id in Hb.
  rewrite Ha, !String.eqb_refl in Hb. discriminate.
Qed.

Lemma local_live s t c k ty : Inv1 s -> nth_error (calls s) t = Some c -> active c = true ->
  alive s k (c_node c) (call_id c) ty -> mp s (c_node c) (call_id c) = Some k \/ c_pc c = PInsert k.
Proof.
  intros HI Hc Ha Hl. apply (i_live _ HI) in Hl as [Hl|(u & d & A & B & C & D)]; [auto|]. right.
  assert (Hd : active d = true) by (unfold active; now rewrite D).
  assert (u = t) by (eapply (i_one _ HI); eauto). subst u. congruence.
Qed.
Lemma pres1_mp s s' t c p : Inv1 s -> nth_error (calls s) t = Some c -> active c = true -> (forall k, c_pc c <> PInsert k) ->
  calls s' = upd (calls s) t (mkCall (c_node c) (c_kind c) p) ->
  (forall n id, mp s' n id = mp s n id) -> (forall n, up s n -> up s' n) -> insts s' = insts s ->
  pc_ok s (mkCall (c_node c) (c_kind c) p) -> Inv1 s'.
Proof.
  intros HI Hc Ha Hp E1 Hmp Hup E3 Hok.
  assert (Hal : forall k n id ty, alive s' k n id ty <-> alive s k n id ty) by (intros; unfold alive; rewrite E3; tauto).
  apply (pres1 s s' t c p); auto.
  - rewrite E3. eauto.
  - intros k n id ty _. apply Hal.
  - intros k. rewrite Hmp, E3. apply (i_map _ HI).
  - intros k ty Hl. apply Hal in Hl. rewrite Hmp. destruct (local_live _ _ _ _ _ HI Hc Ha Hl) as [H|H]; [auto|]. destruct (Hp _ H).
  - unfold pc_ok in *. destruct p; cbn in *; rewrite ?Hmp, ?E3; auto. intros k ty Hx. apply Hal in Hx. eapply Hok; eauto.
Qed.
Lemma pres1_pc s s' t c p : Inv1 s -> nth_error (calls s) t = Some c -> active c = true -> (forall k, c_pc c <> PInsert k) ->
  calls s' = upd (calls s) t (mkCall (c_node c) (c_kind c) p) -> nds s' = nds s -> insts s' = insts s ->
  pc_ok s (mkCall (c_node c) (c_kind c) p) -> Inv1 s'.
Proof.
  intros HI Hc Ha Hp E1 E2 E3 Hok. apply (pres1_mp s s' t c p); auto.
  - intros; unfold mp; now rewrite E2.
  - intros n. unfold up. now rewrite E2.
Qed.
Lemma no_alive s t c : Inv1 s -> nth_error (calls s) t = Some c -> active c = true -> (forall k, c_pc c <> PInsert k) ->
  mp s (c_node c) (call_id c) = None -> forall k ty, ~ alive s k (c_node c) (call_id c) ty.
Proof. intros HI Hc Ha Hp Hm k ty Hl. destruct (local_live _ _ _ _ _ HI Hc Ha Hl) as [H|H]; [congruence|exact (Hp _ H)]. Qed.
Lemma mp_at s n nd id : aget n (nds s) = Some nd -> mp s n id = aget id (n_map nd).
Proof. intros H. unfold mp. now rewrite H. Qed.

Lemma inv1_step s l s' e : Inv1 s -> serial_ids s l = true -> step factory s l = Some (s', e) -> Inv1 s'.
Proof.
  intros HI Hok H. inv_step H; try (apply inv1_die; assumption).
  all: try (eapply pres1_pc; [eassumption|eassumption|reflexivity|discriminate|reflexivity|reflexivity|reflexivity|];
            pose proof (i_pc _ HI _ _ Hc) as Hpc; unfold pc_ok in *; cbn [c_pc c_node call_id c_kind] in *;
            solve [exact I | exact Hpc | rewrite (mp_at _ _ _ _ Hn); assumption]).
  - (* LStart *)
    assert (Hno : forall t c, nth_error (calls s) t = Some c -> active c = true -> c_node c <> n).
    { intros t c Hc Ha E. destruct (i_up _ HI _ _ Hc Ha) as [nd Hx]. congruence. }
    assert (Hm0 : forall id, mp s n id = None) by (intros id; unfold mp; now rewrite Hn).
    assert (Hmp : forall m id, mp (set_node s n (mkNode ep [] [])) m id = mp s m id).
    { intros m id. unfold mp at 1. cbn. rewrite aget_aset. destruct (String.eqb_spec m n) as [->|]; [now rewrite Hm0|reflexivity]. }
    destruct HI as [A B C D E]. constructor; auto.
    + intros t c Hc Ha. destruct (A t c Hc Ha) as [x Hx]. unfold up. cbn. rewrite aget_aset. destruct (String.eqb _ _); eauto.
    + intros m id k. rewrite Hmp. apply C.
    + intros k m id ty Ha. rewrite Hmp. exact (D k m id ty Ha).
    + intros t c Hc. specialize (E t c Hc). unfold pc_ok in *. destruct (c_pc c); rewrite ?Hmp; exact E.
  - apply inv1_new; auto; [exists nd; exact Hn|discriminate].
  - apply inv1_new; auto; [exists nd; exact Hn|]. intros _ t c Hc Ha E1 E2. cbn in Hok. apply negb_true_iff in Hok. eapply not_busy; eauto.
  - apply inv1_new; auto; [exists nd; exact Hn|]. intros _ t c Hc Ha E1 E2. cbn in Hok. apply negb_true_iff in Hok. eapply not_busy; eauto.
  - pose proof (i_pc _ HI _ _ Hc) as Hpc.
    eapply pres1_mp; [eassumption|eassumption|reflexivity|discriminate|reflexivity| | |reflexivity|exact Hpc].
    + intros m i. rewrite mp_set_node. cbn [n_map]. destruct (String.eqb_spec m cn) as [->|]; [now rewrite (mp_at _ _ _ _ Hn)|reflexivity].
    + intros m. apply up_set_node.
  - pose proof (i_pc _ HI _ _ Hc) as Hpc. unfold pc_ok in Hpc. cbn in Hpc.
    assert (Hx : forall k m i ty, alive {| st := st s; nds := nds s; insts := insts s ++ [mkInst cn (b_id b) (b_ty b) Running];
        calls := goto s t (mkCall cn (CReg b) PBuild) (PInsert (List.length (insts s))) |} k m i ty ->
        (k = List.length (insts s) /\ m = cn /\ i = b_id b) \/ alive s k m i ty).
    { intros k m i ty (x & Hx & Hne). cbn in Hx. apply nth_snoc in Hx as [[-> Hx]|Hx]; [injection Hx as -> -> _ _; auto|right; exists x; auto]. }
    eapply pres1; [eassumption|eassumption|reflexivity|reflexivity| | | | | | |]; cbn [c_node call_id c_kind].
    + auto.
    + reflexivity.
    + intros k m i ty x Hk. exists x. now apply nth_snoc_old.
    + intros k m i ty Hne Ha. apply Hx in Ha as [(_ & -> & ->)|Ha]; [destruct Hne; auto|exact Ha].
    + intros k Hk. change (mp s cn (b_id b) = Some k) in Hk. congruence.
    + intros k ty Ha. apply Hx in Ha as [(-> & _)|Ha]; [auto|]. exfalso.
      eapply (no_alive _ _ _ HI Hc); eauto; discriminate.
    + unfold pc_ok. cbn. split; [exact Hpc|]. exists b, Running. split; [reflexivity|].
      rewrite nth_error_app2 by lia. now rewrite Nat.sub_diag.
  - pose proof (i_pc _ HI _ _ Hc) as Hpc. unfold pc_ok in Hpc. cbn in Hpc. destruct Hpc as (Hm & b' & x & [= <-] & Hi).
    eapply pres1; [eassumption|eassumption|reflexivity|reflexivity| | | | | | |]; cbn [c_node call_id c_kind].
    + intros m. apply up_set_node.
    + intros m j Hne. rewrite mp_set_node. cbn [n_map]. destruct (String.eqb_spec m cn) as [->|]; [|reflexivity].
      rewrite aget_aset, (mp_at _ _ _ _ Hn). destruct (String.eqb_spec j (b_id b)) as [->|]; [destruct Hne; auto|reflexivity].
    + eauto.
    + auto.
    + intros k. rewrite mp_set_node, String.eqb_refl. cbn. rewrite aget_aset, String.eqb_refl. intros [= <-]. eauto.
    + intros k ty Ha. left. rewrite mp_set_node, String.eqb_refl. cbn. rewrite aget_aset, String.eqb_refl.
      destruct (local_live _ _ _ _ _ HI Hc eq_refl Ha) as [H|H]; cbn in H; congruence.
    + exact I.
  - pose proof (i_pc _ HI _ _ Hc) as Hpc. unfold pc_ok in Hpc. cbn in Hpc.
    destruct (i_map _ HI _ _ _ Hpc) as (ty0 & x & Hi). rewrite Hif in Hi. injection Hi as ->. cbn in Hif0. subst x.
    eapply pres1; [eassumption|eassumption|reflexivity|reflexivity| | | | | | |]; cbn [c_node call_id c_kind].
    + auto.
    + reflexivity.
    + intros k m j ty' x Hk. cbn. rewrite nth_upd by (apply nth_error_Some; congruence).
      destruct (Nat.eqb_spec i k) as [->|]; [|eauto]. rewrite Hif in Hk. injection Hk as <- <- <- <-. eexists; reflexivity.
    + intros k m j ty' _ Ha. eapply alive_upd in Ha; [exact Ha|exact Hif|reflexivity|discriminate].
    + intros k Hk. change (mp s cn id = Some k) in Hk. rewrite Hpc in Hk. injection Hk as <-. exists ty0, Exiting. cbn. eapply nth_upd_self; eauto.
    + intros k ty' Ha. left. eapply alive_upd in Ha; [|exact Hif|reflexivity|discriminate].
      destruct (local_live _ _ _ _ _ HI Hc eq_refl Ha) as [H|H]; [exact H|discriminate].
    + exact Hpc.
  - pose proof (i_pc _ HI _ _ Hc) as Hpc. unfold pc_ok in Hpc. cbn in Hpc.
    destruct (i_map _ HI _ _ _ Hpc) as (ty0 & x & Hi). rewrite Hif in Hi. injection Hi as ->.
    assert (Hal : forall k m j ty', alive {| st := st s; nds := nds s; insts := upd (insts s) i (mkInst cn id ty0 Stopped);
        calls := goto s t (mkCall cn (CUnreg id ty) (UWait i)) UDel |} k m j ty' -> alive s k m j ty' /\ k <> i).
    { intros k m j ty' (y & Hy & Hne). cbn in Hy. apply (nth_upd_case _ _ _ _ _ _ Hif) in Hy as [[-> Hy]|[Hki Hy]].
      - injection Hy as _ _ _ ->. contradiction.
      - split; [exists y; auto|exact Hki]. }
    assert (Hno : forall k ty', ~ alive {| st := st s; nds := nds s; insts := upd (insts s) i (mkInst cn id ty0 Stopped);
        calls := goto s t (mkCall cn (CUnreg id ty) (UWait i)) UDel |} k cn id ty').
    { intros k ty' Ha. apply Hal in Ha as [Ha Hne].
      destruct (local_live _ _ _ _ _ HI Hc eq_refl Ha) as [H|H]; cbn in H; congruence. }
    eapply pres1; [eassumption|eassumption|reflexivity|reflexivity| | | | | | |]; cbn [c_node call_id c_kind].
    + auto.
    + reflexivity.
    + intros k m j ty' y Hk. cbn. rewrite nth_upd by (apply nth_error_Some; congruence).
      destruct (Nat.eqb_spec i k) as [->|]; [|eauto]. rewrite Hif in Hk. injection Hk as <- <- <- <-. eexists; reflexivity.
    + intros k m j ty' _ Ha. now apply Hal in Ha.
    + intros k Hk. change (mp s cn id = Some k) in Hk. rewrite Hpc in Hk. injection Hk as <-. exists ty0, Stopped. cbn. eapply nth_upd_self; eauto.
    + intros k ty' Ha. destruct (Hno _ _ Ha).
    + exact Hno.
  - pose proof (i_pc _ HI _ _ Hc) as Hpc. unfold pc_ok in Hpc. cbn in Hpc.
    eapply pres1; [eassumption|eassumption|reflexivity|reflexivity| | | | | | |]; cbn [c_node call_id c_kind].
    + intros m. apply up_set_node.
    + intros m j Hne. rewrite mp_set_node. cbn [n_map]. destruct (String.eqb_spec m cn) as [->|]; [|reflexivity].
      rewrite aget_adel, (mp_at _ _ _ _ Hn). destruct (String.eqb_spec j id) as [->|]; [destruct Hne; auto|reflexivity].
    + eauto.
    + auto.
    + intros k. rewrite mp_set_node, String.eqb_refl. cbn. rewrite aget_adel, String.eqb_refl. discriminate.
    + intros k ty' Ha. destruct (Hpc _ _ Ha).
    + unfold pc_ok. cbn [c_pc c_node call_id c_kind]. rewrite mp_set_node, String.eqb_refl. cbn. now rewrite aget_adel, String.eqb_refl.
  - pose proof (i_pc _ HI _ _ Hc) as Hpc.
    eapply pres1_mp; [eassumption|eassumption|reflexivity|discriminate|reflexivity| | |reflexivity|exact I].
    + intros m i. rewrite mp_set_node. cbn [n_map]. destruct (String.eqb_spec m cn) as [->|]; [now rewrite (mp_at _ _ _ _ Hn)|reflexivity].
    + intros m. apply up_set_node.
Qed.

Lemma inv1_init : Inv1 init.
Proof.
  constructor; cbn; intros; try (destruct t; discriminate); try discriminate.
  destruct H as (x & H & _). destruct k; discriminate.
Qed.
Lemma inv1_run sched s e : run (filtered serial_ids factory) init sched = Some (s, e) -> Inv1 s.
Proof.
  revert sched s e. apply (run_inv _ _ (fun _ _ s => Inv1 s)).
  - apply inv1_init.
  - intros sched e s l s' e' _ HI H. unfold filtered in H. destruct (serial_ids s l) eqn:E; [|discriminate].
    eapply inv1_step; eauto.
Qed.

Lemma unique_alive s k k' n id ty ty' : Inv1 s -> alive s k n id ty -> alive s k' n id ty' -> k = k'.
Proof.
  intros HI H H'. apply (i_live _ HI) in H, H'.
  assert (Hno : forall j, mp s n id = Some j -> forall t c j', nth_error (calls s) t = Some c -> c_node c = n -> call_id c = id -> c_pc c = PInsert j' -> False).
  { intros j Hj t c j' Hc <- <- Hp. pose proof (i_pc _ HI _ _ Hc) as Ho. unfold pc_ok in Ho. rewrite Hp in Ho. destruct Ho as [Ho _]. congruence. }
  destruct H as [H|(t & c & A & B & C & D)], H' as [H'|(t' & c' & A' & B' & C' & D')].
  - congruence.
  - destruct (Hno _ H _ _ _ A' B' C' D').
  - destruct (Hno _ H' _ _ _ A B C D).
  - assert (t = t').
    { eapply (i_one _ HI); eauto; try congruence; unfold active; [now rewrite D|now rewrite D']. }
    subst t'. congruence.
Qed.
(** When no call about the id is active, FindActor finds exactly the running actor
    or a finished one. *)
Lemma map_alive s n id k ty : Inv1 s -> (forall t c, nth_error (calls s) t = Some c -> busy_id n id c = false) ->
  alive s k n id ty -> mp s n id = Some k.
Proof.
  intros HI Hb Ha. apply (i_live _ HI) in Ha as [Ha|(t & c & A & B & C & D)]; [exact Ha|].
  specialize (Hb _ _ A). unfold busy_id, active in Hb. rewrite D, B, C, !String.eqb_refl in Hb. discriminate.
Qed.
End Proofs.
