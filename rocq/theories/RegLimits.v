(** Quantity limits and node-unique types. *)
From Coq Require Import List String ZArith Bool Lia.
From Verif Require Import Machine AddrModel AddrSpec AddrProofs RegModel RegSpec RegProofs.
Import ListNotations.
Open Scope string_scope.
Open Scope list_scope.

Lemma srem_len a l : List.length (srem a l) <= List.length l.
Proof. unfold srem. induction l as [|b l IH]; cbn; [lia|]. destruct (negb _); cbn; lia. Qed.
Lemma sadd_len a l : List.length (sadd a l) <= S (List.length l).
Proof. unfold sadd. destruct (existsb _ _); [lia|]. rewrite app_length. cbn. lia. Qed.
Lemma members_aset s ty t l : members (mkStore (ids s) (aset t l (tys s)) (nodes s) (nkeys s)) ty =
  if String.eqb ty t then l else members s ty.
Proof. unfold members. cbn. rewrite aget_aset. destruct (String.eqb ty t); reflexivity. Qed.
Definition adds (ty : string) (c : cmd) : bool := match c with SAddTy t _ => String.eqb t ty | _ => false end.
Lemma len_apply s c ty : List.length (members (apply s c) ty) <= List.length (members s ty) + (if adds ty c then 1 else 0).
Proof.
  destruct c; cbn [apply adds]; try (rewrite Nat.add_0_r; apply le_n); rewrite members_aset, (String.eqb_sym ty).
  - destruct (String.eqb_spec ty0 ty) as [->|]; [|lia]. pose proof (sadd_len a (members s ty)). lia.
  - destruct (String.eqb_spec ty0 ty) as [->|]; [|lia]. pose proof (srem_len a (members s ty)). lia.
Qed.

(** Where a pipeline stands. *)
Definition pipe_ok (c : call) : Prop :=
  match c_pc c with
  | PPipe cs => exists b pre ep, c_kind c = CReg b /\ pre ++ cs = reg_cmds (c_node c) ep (b_ty b) (b_id b) (b_w b)
  | UPipe cs => exists id ty pre a w, c_kind c = CUnreg id ty /\ pre ++ cs = unreg_cmds (c_node c) id a w
  | _ => True
  end.
Lemma reg_suffix n ep ty id w pre x r : pre ++ x :: r = reg_cmds n ep ty id w ->
  (x = HSetId id (mkAddr n id ty ep) /\ existsb (adds ty) r = true) \/
  (x = SAddTy ty (mkAddr n id ty ep) /\ existsb (adds ty) r = false) \/
  (match x with HSetNode _ _ | HIncr _ _ _ => True | _ => False end /\ existsb (adds ty) r = false).
Proof.
  unfold reg_cmds. intros H.
  destruct pre as [|? [|? [|? [|? [|? pre]]]]]; cbn in H; injection H; intros; subst; cbn; rewrite ?String.eqb_refl; auto.
  destruct pre; discriminate.
Qed.
Lemma adds_other ty t r n ep id w pre : pre ++ r = reg_cmds n ep t id w -> t <> ty -> existsb (adds ty) r = false.
Proof.
  intros H Hne. destruct (existsb (adds ty) r) eqn:E; [|reflexivity]. apply existsb_exists in E as (c & Hc & Ha).
  assert (In c (reg_cmds n ep t id w)) by (rewrite <- H; apply in_or_app; auto). exfalso.
  destruct c; try discriminate. apply String.eqb_eq in Ha. subst ty0.
  cbn in H0. destruct H0 as [X|[X|[X|[X|[X|[]]]]]]; try discriminate. injection X as X _. contradiction.
Qed.
Lemma unreg_suffix n id a w pre x r ty : pre ++ x :: r = unreg_cmds n id a w -> adds ty x = false.
Proof.
  intros H. assert (In x (unreg_cmds n id a w)) by (rewrite <- H; apply in_or_app; right; now left).
  cbn in H0. destruct H0 as [<-|[<-|[<-|[<-|[]]]]]; reflexivity.
Qed.

Section Limit.
Variables (factory : string -> option Z) (T : string) (L : Z).
Hypothesis HL : (0 < L)%Z.

Definition pend (c : call) : Prop :=
  exists b, c_kind c = CReg b /\ b_ty b = T /\
    match c_pc c with PBook => True | PPipe cs => existsb (adds T) cs = true | _ => False end.
Definition cnt (s : state) : Z := Z.of_nat (List.length (members (st s) T)).
Record Inv2 (s : state) : Prop := {
  j_one : forall t t' c c', nth_error (calls s) t = Some c -> nth_error (calls s) t' = Some c' ->
    busy_type T c = true -> busy_type T c' = true -> t = t';
  j_reg : forall t c b, nth_error (calls s) t = Some c -> c_kind c = CReg b -> b_ty b = T -> b_limit b = L;
  j_pipe : forall t c, nth_error (calls s) t = Some c -> pipe_ok c;
  j_cnt : (cnt s <= L)%Z;
  j_pend : forall t c, nth_error (calls s) t = Some c -> pend c -> (cnt s + 1 <= L)%Z }.

Lemma pend_busy c : pend c -> busy_type T c = true.
Proof.
  intros (b & A & B & C). unfold busy_type, active, reg_of_type. rewrite A, B, String.eqb_refl.
  destruct (c_pc c); auto.
Qed.

Lemma pres2 s s' t c p : Inv2 s -> nth_error (calls s) t = Some c -> active c = true ->
  calls s' = upd (calls s) t (mkCall (c_node c) (c_kind c) p) ->
  (cnt s' <= cnt s)%Z \/ ((cnt s' <= cnt s + 1)%Z /\ pend c) ->
  pipe_ok (mkCall (c_node c) (c_kind c) p) ->
  (pend (mkCall (c_node c) (c_kind c) p) -> (cnt s' + 1 <= L)%Z) -> Inv2 s'.
Proof.
  intros HI Hc Ha E1 Hcnt Hpipe Hpend.
  assert (Hnew : forall u d, nth_error (calls s') u = Some d ->
    (u = t /\ d = mkCall (c_node c) (c_kind c) p) \/ (u <> t /\ nth_error (calls s) u = Some d)).
  { intros u d Hu. rewrite E1 in Hu. eapply nth_upd_case; eauto. }
  assert (Hb : forall q, busy_type T (mkCall (c_node c) (c_kind c) q) = true -> busy_type T c = true).
  { intros q Hq. unfold busy_type in *. rewrite Ha. apply andb_true_iff in Hq as [_ Hq]. exact Hq. }
  constructor.
  - intros u u' d d' Hu Hu' B B'. apply Hnew in Hu as [[-> ->]|[Hne Hu]]; apply Hnew in Hu' as [[-> ->]|[Hne' Hu']]; auto.
    + apply (j_one _ HI _ _ _ _ Hc Hu'); eauto.
    + apply (j_one _ HI _ _ _ _ Hu Hc); eauto.
    + apply (j_one _ HI _ _ _ _ Hu Hu'); auto.
  - intros u d b Hu Hk. apply Hnew in Hu as [[-> ->]|[Hne Hu]]; [exact (j_reg _ HI _ _ _ Hc Hk)|exact (j_reg _ HI _ _ _ Hu Hk)].
  - intros u d Hu. apply Hnew in Hu as [[-> ->]|[Hne Hu]]; [exact Hpipe|exact (j_pipe _ HI _ _ Hu)].
  - destruct Hcnt as [H|[H H']]; [pose proof (j_cnt _ HI); lia|]. pose proof (j_pend _ HI _ _ Hc H'). lia.
  - intros u d Hu Hp. apply Hnew in Hu as [[-> ->]|[Hne Hu]]; [auto|].
    destruct Hcnt as [H|[H H']]; [pose proof (j_pend _ HI _ _ Hu Hp); lia|].
    exfalso. apply Hne. apply (j_one _ HI _ _ _ _ Hu Hc); now apply pend_busy.
Qed.

Lemma inv2_die s n : Inv2 s -> Inv2 (die s n).
Proof.
  intros HI.
  assert (Hx : forall u d, nth_error (calls (die s n)) u = Some d ->
    (nth_error (calls s) u = Some d) \/ (exists c, nth_error (calls s) u = Some c /\ d = mkCall (c_node c) (c_kind c) PDead)).
  { intros u d Hu. cbn in Hu. rewrite nth_error_map in Hu. destruct (nth_error (calls s) u) as [c|]; [|discriminate]. cbn in Hu.
    injection Hu as <-. destruct (String.eqb _ _); [|auto]. destruct (c_pc c); eauto. }
  constructor.
  - intros u u' d d' Hu Hu' B B'. apply Hx in Hu as [Hu|(c & Hu & ->)]; [|discriminate].
    apply Hx in Hu' as [Hu'|(c' & Hu' & ->)]; [|discriminate]. apply (j_one _ HI _ _ _ _ Hu Hu'); auto.
  - intros u d b Hu Hk. apply Hx in Hu as [Hu|(c & Hu & ->)]; exact (j_reg _ HI _ _ _ Hu Hk).
  - intros u d Hu. apply Hx in Hu as [Hu|(c & Hu & ->)]; [exact (j_pipe _ HI _ _ Hu)|exact I].
  - exact (j_cnt _ HI).
  - intros u d Hu Hp. apply Hx in Hu as [Hu|(c & Hu & ->)]; [exact (j_pend _ HI _ _ Hu Hp)|].
    destruct Hp as (b & _ & _ & []).
Qed.

Lemma inv2_new s n k p : Inv2 s -> match p with PCheck | UMap | PRet _ => True | _ => False end ->
  (forall b, k = CReg b -> b_ty b = T -> b_limit b = L) ->
  (busy_type T (mkCall n k p) = true -> existsb (busy_type T) (calls s) = false) ->
  Inv2 (set_calls s (calls s ++ [mkCall n k p])).
Proof.
  intros HI Hp Hk Hb. constructor.
  - intros u u' d d' Hu Hu' B B'. apply nth_snoc in Hu as [[-> ->]|Hu]; apply nth_snoc in Hu' as [[-> ->]|Hu']; auto.
    + pose proof (existsb_nth _ _ _ _ Hu' (Hb B)). congruence.
    + pose proof (existsb_nth _ _ _ _ Hu (Hb B')). congruence.
    + apply (j_one _ HI _ _ _ _ Hu Hu'); auto.
  - intros u d b Hu Hd. apply nth_snoc in Hu as [[-> ->]|Hu]; [now apply Hk|exact (j_reg _ HI _ _ _ Hu Hd)].
  - intros u d Hu. apply nth_snoc in Hu as [[-> ->]|Hu]; [|exact (j_pipe _ HI _ _ Hu)]. unfold pipe_ok. cbn. destruct p; auto; contradiction.
  - exact (j_cnt _ HI).
  - intros u d Hu Hpe. apply nth_snoc in Hu as [[-> ->]|Hu]; [|exact (j_pend _ HI _ _ Hu Hpe)].
    destruct Hpe as (b & _ & _ & C). cbn in C. destruct p; contradiction.
Qed.

Lemma inv2_step s l s' e : Inv2 s -> serial_type T s l = true ->
  (forall n b, l = LReg n b -> b_ty b = T -> b_limit b = L) ->
  step factory s l = Some (s', e) -> Inv2 s'.
Proof.
  intros HI Hok Hlim H. inv_step H; try (apply inv2_die; assumption).
  (* steps that leave the store alone and do not enter the window *)
  all: try solve [eapply pres2; [eassumption|eassumption|reflexivity|reflexivity|left; reflexivity|exact I|intros (b' & _ & _ & [])]].
  - destruct HI as [A B C D E]. constructor; auto.
  - apply inv2_new; auto; [|discriminate]. intros b' [= <-]. eauto.
  - apply inv2_new; auto.
    + intros b' [= <-]. eauto.
    + cbn in Hok. apply negb_true_iff in Hok. intros Hb. unfold busy_type, reg_of_type in Hb. cbn in Hb. rewrite Hb in Hok. exact Hok.
  - apply inv2_new; auto; [discriminate|]. unfold busy_type. cbn. discriminate.
  - (* PCheck to PBook *)
    eapply pres2; [eassumption|eassumption|reflexivity|reflexivity|left; reflexivity|exact I|].
    intros (b' & [= <-] & Hty & _). pose proof (j_reg _ HI _ _ _ Hc eq_refl Hty) as Hl. apply Z.eqb_eq in Hif0. lia.
  - (* PCount to PBook *)
    eapply pres2; [eassumption|eassumption|reflexivity|reflexivity|left; reflexivity|exact I|].
    intros (b' & [= <-] & Hty & _). pose proof (j_reg _ HI _ _ _ Hc eq_refl Hty) as Hl.
    apply Z.leb_gt in Hif. unfold GetActorTypeCount in Hif. rewrite Hty in Hif. unfold cnt. cbn [set_calls st]. lia.
  - (* PBook to PPipe *)
    eapply pres2; [eassumption|eassumption|reflexivity|reflexivity|left; reflexivity| |].
    + unfold pipe_ok. cbn. exists b, [], (n_ep nd). auto.
    + intros (b' & [= <-] & Hty & _). change (cnt (set_calls s _)) with (cnt s). apply (j_pend _ HI _ _ Hc).
      exists b. cbn. auto.
  - (* PPipe *)
    pose proof (j_pipe _ HI _ _ Hc) as Hpipe. unfold pipe_ok in Hpipe. cbn in Hpipe.
    destruct Hpipe as (b' & pre & ep & [= <-] & Hpre).
    assert (Hpipe' : pipe_ok (mkCall cn (CReg b) (PPipe cs))).
    { exists b, (pre ++ [x]), ep. cbn [c_kind c_node]. split; [reflexivity|]. rewrite <- app_assoc. exact Hpre. }
    assert (Hlen : (cnt (mkState (apply (st s) x) (nds s) (insts s) (goto s t (mkCall cn (CReg b) (PPipe (x :: cs))) (PPipe cs)))
                    <= cnt s + if adds T x then 1 else 0)%Z).
    { unfold cnt. cbn [st]. pose proof (len_apply (st s) x T). destruct (adds T x); lia. }
    assert (Hpd : b_ty b = T -> adds T x = true \/ existsb (adds T) cs = true -> pend (mkCall cn (CReg b) (PPipe (x :: cs)))).
    { intros Hty Hor. exists b. cbn. repeat split; auto. apply orb_true_iff. exact Hor. }
    destruct (string_dec (b_ty b) T) as [Hty|Hty].
    + rewrite Hty in Hpre. eapply pres2; [eassumption|eassumption|reflexivity|reflexivity| |exact Hpipe'|].
      * destruct (adds T x) eqn:Ex; [right|left; lia]. split; [exact Hlen|]. apply Hpd; auto.
      * intros (b' & [= <-] & _ & Hcs). cbn in Hcs. pose proof (j_pend _ HI _ _ Hc (Hpd Hty (or_intror Hcs))).
        destruct (reg_suffix _ _ _ _ _ _ _ _ Hpre) as [[-> _]|[[_ Hf]|[_ Hf]]]; [|congruence|congruence]. cbn [adds] in Hlen. unfold goto in *. cbn [c_node c_kind] in *. lia.
    + assert (Hax : adds T x = false).
      { pose proof (adds_other T (b_ty b) (x :: cs) _ _ _ _ _ Hpre Hty) as Hx. cbn in Hx. now apply orb_false_iff in Hx as [Hx _]. }
      rewrite Hax in Hlen. eapply pres2; [eassumption|eassumption|reflexivity|reflexivity|left; lia|exact Hpipe'|].
      intros (b' & [= <-] & Hb & _). contradiction.
  - (* UBook to UPipe *)
    eapply pres2; [eassumption|eassumption|reflexivity|reflexivity|left; reflexivity| |intros (b' & Hb & _); discriminate].
    unfold pipe_ok. cbn. eexists _, _, [], _, _. split; reflexivity.
  - (* UPipe *)
    pose proof (j_pipe _ HI _ _ Hc) as Hpipe. unfold pipe_ok in Hpipe. cbn in Hpipe.
    destruct Hpipe as (id' & T' & pre & a & w & [= <- <-] & Hpre).
    eapply pres2; [eassumption|eassumption|reflexivity|reflexivity| | |intros (b' & Hb & _); discriminate].
    + left. unfold cnt. cbn [st]. pose proof (len_apply (st s) x T) as Hl. rewrite (unreg_suffix _ _ _ _ _ _ _ T Hpre) in Hl. lia.
    + exists id, ty, (pre ++ [x]), a, w. cbn [c_kind c_node]. split; [reflexivity|]. rewrite <- app_assoc. exact Hpre.
Qed.

Lemma inv2_run sched s e : run (filtered (serial_type T) factory) init sched = Some (s, e) ->
  all_regs T (fun b => b_limit b = L) sched -> Inv2 s.
Proof.
  revert sched s e. apply (run_inv _ _ (fun sched _ s => all_regs T (fun b => b_limit b = L) sched -> Inv2 s)).
  - intros _. constructor; cbn; intros; try (destruct t; discriminate). lia.
  - intros sched e s l s' e' _ IH H Hall. unfold filtered in H. destruct (serial_type T s l) eqn:E; [|discriminate].
    eapply inv2_step; eauto.
    + apply IH. intros n b Hin Hb. apply (Hall n b); [apply in_or_app; now left|exact Hb].
    + intros n b -> Hb. apply (Hall n b); auto. apply in_or_app. right. now left.
Qed.
End Limit.
