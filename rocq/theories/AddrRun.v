(** The invariant of orderly executions. *)
From Coq Require Import List String ZArith Bool Permutation Lia.
From Verif Require Import Machine AddrModel AddrSpec AddrProofs AddrInv.
Import ListNotations.
Open Scope string_scope.
Open Scope list_scope.

Definition todo (t : thread) : list cmd := match t_todo t with Some l => l | None => [] end.
Definition finish (s : state) : store := apply_all (st s) (flat_map todo (threads s)).
Definition own (ps : list (string * proc)) (t : thread) (c : cmd) : Prop :=
  match c with
  | HSetId _ a | SAddTy _ a | SRemTy _ a => a_node a = t_node t
  | HDelId _ => True
  | HSetNode m ep => m = t_node t /\ option_map p_ep (aget (t_node t) ps) = Some ep
  | HIncr m _ _ => m = t_node t
  | HDelNode m | DelNode m => m = t_node t /\ t_op t = OClear
  end.

Record Inv (s : state) (L : list reg) : Prop := {
  i_view : cview (finish s) L;
  i_set : set_ok (st s);
  i_ind : forall i j ti tj, i <> j -> nth_error (threads s) i = Some ti -> nth_error (threads s) j = Some tj ->
    forall c d, In c (todo ti) -> In d (todo tj) -> indep c d;
  i_own : forall t c, In t (threads s) -> In c (todo t) -> own (procs s) t c;
  i_men : forall t id r, In t (threads s) -> mentions id t = true -> In r L -> r_id r = id -> r_node r = t_node t }.

Lemma mentions_iff id t : mentions id t = true <-> exists c, In c (todo t) /\ In id (cmd_ids c).
Proof.
  unfold mentions, todo. destruct (t_todo t) as [l|].
  - rewrite existsb_exists. split; intros (c & Hc & Hi); exists c; (split; [exact Hc|]).
    + apply existsb_exists in Hi as (x & Hx & E). apply String.eqb_eq in E. now subst.
    + apply existsb_exists. exists id. split; [exact Hi|apply String.eqb_refl].
  - split; [discriminate|intros (c & [] & _)].
Qed.
Lemma todo_running t c : In c (todo t) -> running (t_node t) t = true.
Proof. unfold todo, running. destruct (t_todo t); [intros _; apply String.eqb_refl|intros []]. Qed.

(** ** Commands that do not touch something *)
Lemma rec_unmentioned cs : forall s id, (forall c, In c cs -> ~ In id (cmd_ids c)) -> rec (apply_all s cs) id = rec s id.
Proof.
  induction cs as [|c cs IH]; intros s id H; [reflexivity|]. cbn. fold (apply_all (apply s c) cs).
  rewrite IH by (intros d Hd; apply H; now right). rewrite rec_apply.
  pose proof (H c (or_introl eq_refl)) as Hc. destruct c; auto; cbn in Hc;
  (destruct (String.eqb_spec id id0); [subst; tauto|reflexivity]).
Qed.
Lemma mem_untouched cs : forall s ty a,
  (forall c, In c cs -> match c with SAddTy _ b | SRemTy _ b => b <> a | _ => True end) ->
  (mem (apply_all s cs) ty a <-> mem s ty a).
Proof.
  induction cs as [|c cs IH]; intros s ty a H; [tauto|]. cbn. fold (apply_all (apply s c) cs).
  rewrite IH by (intros d Hd; apply H; now right). rewrite mem_apply.
  pose proof (H c (or_introl eq_refl)) as Hc. destruct c; try tauto; intuition congruence.
Qed.
Lemma fld_untouched cs : forall s n f,
  (forall c, In c cs -> match c with HIncr m _ _ | DelNode m => m <> n | _ => True end) ->
  fld (apply_all s cs) n f = fld s n f.
Proof.
  induction cs as [|c cs IH]; intros s n f H; [reflexivity|]. cbn. fold (apply_all (apply s c) cs).
  rewrite IH by (intros d Hd; apply H; now right). rewrite fld_apply.
  pose proof (H c (or_introl eq_refl)) as Hc. destruct c; auto; (destruct (String.eqb_spec n n0); [subst; congruence|reflexivity]).
Qed.

(** Moving a command to the front. *)
Lemma to_front A : forall c R s, (forall d, In d A -> indep d c) ->
  veq (apply_all s (A ++ c :: R)) (apply_all (apply s c) (A ++ R)).
Proof.
  induction A as [|a A IH]; intros c R s H; [apply veq_refl|].
  cbn [app]. change (apply_all s (a :: A ++ c :: R)) with (apply_all (apply s a) (A ++ c :: R)).
  change (apply_all (apply s c) (a :: A ++ R)) with (apply_all (apply (apply s c) a) (A ++ R)).
  eapply veq_trans; [apply IH; intros d Hd; apply H; now right|].
  apply veq_apply_all, commute, H. now left.
Qed.

Lemma flat_map_upd (l : list thread) i t t' : nth_error l i = Some t ->
  exists A B, flat_map todo l = A ++ todo t ++ B /\ flat_map todo (upd l i t') = A ++ todo t' ++ B /\
    (forall c, In c A -> exists j u, j <> i /\ nth_error l j = Some u /\ In c (todo u)).
Proof.
  revert i. induction l as [|x l IH]; intros [|i] H; cbn in H; try discriminate.
  - injection H as ->. exists [], (flat_map todo l). cbn. split; [reflexivity|]. split; [reflexivity|]. intros c [].
  - destruct (IH _ H) as (A & B & E1 & E2 & E3). exists (todo x ++ A), B. cbn. rewrite E1, E2, !app_assoc.
    split; [reflexivity|]. split; [reflexivity|].
    intros c Hc. apply in_app_or in Hc as [Hc|Hc].
    + exists 0, x. auto.
    + destruct (E3 c Hc) as (j & u & J1 & J2 & J3). exists (S j), u. auto.
Qed.

(** ** New operations *)
Lemma inv_spawn s L L' t : Inv s L ->
  (forall c, In c (todo t) -> own (procs s) t c) ->
  (forall u c d, In u (threads s) -> In c (todo t) -> In d (todo u) -> indep c d) ->
  cview (apply_all (finish s) (todo t)) L' ->
  (forall u id r, In u (threads s) -> mentions id u = true -> In r L' -> r_id r = id -> r_node r = t_node u) ->
  (forall id r, mentions id t = true -> In r L' -> r_id r = id -> r_node r = t_node t) ->
  Inv (spawn s t) L'.
Proof.
  intros [V S I O M] Ho Hi Hv Hm1 Hm2. constructor.
  - unfold finish. cbn [spawn st threads]. rewrite flat_map_app, apply_all_app. cbn [flat_map]. rewrite app_nil_r. exact Hv.
  - exact S.
  - cbn. intros i j ti tj Hij Hti Htj c d Hc Hd.
    destruct (Nat.lt_ge_cases i (List.length (threads s))) as [Li|Li];
    destruct (Nat.lt_ge_cases j (List.length (threads s))) as [Lj|Lj].
    + rewrite nth_error_app1 in Hti, Htj by assumption. eapply I; eauto.
    + rewrite nth_error_app1 in Hti by assumption. rewrite nth_error_app2 in Htj by assumption.
      destruct (j - List.length (threads s)) as [|k]; cbn in Htj; [injection Htj as <-|destruct k; discriminate].
      apply indep_sym. eapply Hi; eauto. eapply nth_error_In; eauto.
    + rewrite nth_error_app1 in Htj by assumption. rewrite nth_error_app2 in Hti by assumption.
      destruct (i - List.length (threads s)) as [|k]; cbn in Hti; [injection Hti as <-|destruct k; discriminate].
      eapply Hi; eauto. eapply nth_error_In; eauto.
    + exfalso. assert (i < List.length (threads s ++ [t])) by (apply nth_error_Some; congruence).
      assert (j < List.length (threads s ++ [t])) by (apply nth_error_Some; congruence).
      rewrite app_length in *. cbn in *. lia.
  - cbn. intros u c Hu Hc. apply in_app_or in Hu as [Hu|[<-|[]]]; auto.
  - cbn. intros u id r Hu. apply in_app_or in Hu as [Hu|[<-|[]]]; eauto.
Qed.

Lemma not_existsb {A} (f : A -> bool) l x : existsb f l = false -> In x l -> f x = false.
Proof. intros H Hx. destruct (f x) eqn:E; auto. assert (existsb f l = true); [|congruence]. apply existsb_exists. eauto. Qed.

Lemma in_reg_cmds n ep ty id w c : In c (reg_cmds n ep ty id w) ->
  c = HSetId id (mkAddr n id ty ep) \/ c = SAddTy ty (mkAddr n id ty ep) \/ c = HSetNode n ep \/
  (exists f, c = HIncr n f w).
Proof. cbn. intros [<-|[<-|[<-|[<-|[<-|[]]]]]]; eauto 6. Qed.
Lemma in_unreg_cmds n id a w c : In c (unreg_cmds n id a w) ->
  c = HDelId id \/ c = SRemTy (a_ty a) a \/ (exists f, c = HIncr n f (- w)).
Proof. cbn. intros [<-|[<-|[<-|[<-|[]]]]]; eauto. Qed.

(** What the commands of another running operation can be when no Clear of [n] runs. *)
Lemma other_nodes s L n u c : Inv s L -> In u (threads s) -> In c (todo u) -> clearing n u = false ->
  match c with
  | HSetNode m ep => m = n -> option_map p_ep (aget n (procs s)) = Some ep
  | HDelNode m | DelNode m => m <> n
  | _ => True
  end.
Proof.
  intros HI Hu Hc Hcl. pose proof (i_own _ _ HI _ _ Hu Hc) as Ho. pose proof (todo_running _ _ Hc) as Hr.
  unfold clearing in Hcl. destruct c; auto; cbn in Ho.
  - destruct Ho as [-> Ho]. intros <-. exact Ho.
  - destruct Ho as [-> Ho]. intros <-. rewrite Hr, Ho in Hcl. discriminate.
  - destruct Ho as [-> Ho]. intros <-. rewrite Hr, Ho in Hcl. discriminate.
Qed.

Lemma inv_reg s L n p ty id w : Inv s L -> aget n (procs s) = Some p ->
  existsb (mentions id) (threads s) = false -> existsb (clearing n) (threads s) = false ->
  existsb (fun r => String.eqb (r_id r) id) L = false ->
  Inv (spawn s (mkThread n (OReg ty id w) (Some (reg_cmds n (p_ep p) ty id w))))
      (L ++ [mkReg n (p_ep p) ty id w]).
Proof.
  intros HI Hp Hm Hc HL.
  assert (Hnew : forall r, In r L -> r_id r <> id).
  { intros r Hr E. apply (not_existsb _ _ _ HL) in Hr. rewrite E, String.eqb_refl in Hr. discriminate. }
  eapply inv_spawn; eauto.
  - cbn [todo t_todo]. intros c Hin. apply in_reg_cmds in Hin as [->|[->|[->|[f ->]]]]; cbn; auto.
    rewrite Hp. auto.
  - cbn [todo t_todo]. intros u c d Hu Hc1 Hd.
    pose proof (not_existsb _ _ _ Hm Hu) as Hmu. pose proof (not_existsb _ _ _ Hc Hu) as Hcu.
    assert (Hid : ~ In id (cmd_ids d)).
    { intros Hin. assert (mentions id u = true); [|congruence]. apply mentions_iff. eauto. }
    pose proof (other_nodes _ _ n _ _ HI Hu Hd Hcu) as Hn. rewrite Hp in Hn. cbn in Hn.
    apply in_reg_cmds in Hc1 as [->|[->|[->|[f ->]]]]; split; cbn [cmd_ids indep_nodes].
    + intros x [<-|[]]. exact Hid.
    + exact I.
    + intros x [<-|[]]. exact Hid.
    + exact I.
    + intros x [].
    + destruct d; auto. intros <-. specialize (Hn eq_refl). congruence.
    + intros x [].
    + destruct d; auto.
  - cbn [todo t_todo]. apply cview_reg; [apply (i_view _ _ HI)|exact Hnew].
  - intros u i r Hu Hmu Hr Hi. apply in_app_or in Hr as [Hr|[<-|[]]]; [eapply (i_men _ _ HI); eauto|].
    cbn in Hi. subst i. rewrite (not_existsb _ _ _ Hm Hu) in Hmu. discriminate.
  - intros i r Hmi Hr Hi. apply mentions_iff in Hmi as (c & Hc1 & Hx). cbn [todo t_todo] in Hc1.
    assert (i = id) as ->. { apply in_reg_cmds in Hc1 as [->|[->|[->|[f ->]]]]; cbn in Hx; intuition. }
    apply in_app_or in Hr as [Hr|[<-|[]]]; [exfalso; eapply Hnew; eauto|reflexivity].
Qed.

Lemma todos_of s c : In c (flat_map todo (threads s)) -> exists u, In u (threads s) /\ In c (todo u).
Proof. intros H. apply in_flat_map in H as (u & A & B). eauto. Qed.

Lemma inv_unreg s L n id a w : Inv s L -> aget id (ids (st s)) = Some a ->
  existsb (mentions id) (threads s) = false -> existsb (clearing n) (threads s) = false ->
  existsb (fun r => String.eqb (r_id r) id && on_node n r && Z.eqb (r_w r) w) L = true ->
  Inv (spawn s (mkThread n (OUnreg id a w) (Some (unreg_cmds n id a w))))
      (filter (fun r => negb (String.eqb (r_id r) id)) L).
Proof.
  intros HI Ha Hm Hc HL.
  assert (Hr : exists r, In r L /\ r_id r = id /\ r_node r = n /\ r_w r = w /\ a = addr_of r).
  { apply existsb_exists in HL as (r & R1 & R2). apply andb_true_iff in R2 as [R2 R4].
    apply andb_true_iff in R2 as [R2 R3]. apply String.eqb_eq in R2, R3. apply Z.eqb_eq in R4.
    exists r. split; [exact R1|]. split; [exact R2|]. split; [exact R3|]. split; [exact R4|].
    assert (E : rec (finish s) id = Some a).
    { unfold finish. rewrite rec_unmentioned; [exact Ha|]. intros c Hc1 Hx. apply todos_of in Hc1 as (u & U1 & U2).
      assert (mentions id u = true) by (apply mentions_iff; eauto). rewrite (not_existsb _ _ _ Hm U1) in H. discriminate. }
    apply (v_record _ _ (i_view _ _ HI)) in E as (q & Q1 & Q2 & Q3).
    rewrite (nodup_id_eq _ _ _ (v_unique _ _ (i_view _ _ HI)) R1 Q1 ltac:(congruence)). exact Q3. }
  destruct Hr as (r & R1 & R2 & R3 & R4 & R5). subst id n w a.
  eapply inv_spawn; eauto.
  - cbn [todo t_todo]. intros c Hin. apply in_unreg_cmds in Hin as [->|[->|[f ->]]]; cbn; auto.
  - cbn [todo t_todo]. intros u c d Hu Hc1 Hd.
    pose proof (not_existsb _ _ _ Hm Hu) as Hmu. pose proof (not_existsb _ _ _ Hc Hu) as Hcu.
    assert (Hid : ~ In (r_id r) (cmd_ids d)).
    { intros Hin. assert (mentions (r_id r) u = true); [|congruence]. apply mentions_iff. eauto. }
    pose proof (other_nodes _ _ (r_node r) _ _ HI Hu Hd Hcu) as Hn.
    apply in_unreg_cmds in Hc1 as [->|[->|[f ->]]]; split; cbn [cmd_ids indep_nodes].
    + intros x [<-|[]]. exact Hid.
    + exact I.
    + intros x [<-|[]]. exact Hid.
    + exact I.
    + intros x [].
    + destruct d; auto.
  - cbn [todo t_todo]. apply cview_unreg; [apply (i_view _ _ HI)|exact R1].
  - intros u i q Hu Hmu Hq Hi. apply filter_In in Hq as [Hq _]. eapply (i_men _ _ HI); eauto.
  - intros i q Hmi Hq Hi. apply mentions_iff in Hmi as (c & Hc1 & Hx). cbn [todo t_todo] in Hc1.
    assert (i = r_id r) as ->. { apply in_unreg_cmds in Hc1 as [->|[->|[f ->]]]; cbn in Hx; intuition. }
    apply filter_In in Hq as [_ Hq]. rewrite Hi, String.eqb_refl in Hq. discriminate.
Qed.

Lemma inv_clear s L n : Inv s L -> existsb (running n) (threads s) = false ->
  Inv (spawn s (mkThread n OClear (Some (clear_cmds n (st s)))))
      (filter (fun r => negb (String.eqb (r_node r) n)) L).
Proof.
  intros HI Hr.
  assert (Hno : forall u c, In u (threads s) -> In c (todo u) -> t_node u <> n).
  { intros u c Hu Hc E. pose proof (todo_running _ _ Hc) as Hx. rewrite E, (not_existsb _ _ _ Hr Hu) in Hx. discriminate. }
  assert (Hmem : forall ty a, a_node a = n -> (mem (st s) ty a <-> mem (finish s) ty a)).
  { intros ty a Ha. unfold finish. symmetry. apply mem_untouched. intros c Hc. apply todos_of in Hc as (u & U1 & U2).
    pose proof (i_own _ _ HI _ _ U1 U2) as Ho. pose proof (Hno _ _ U1 U2) as Hn. destruct c; auto; cbn in Ho; congruence. }
  assert (Hfld : forall f, fld (st s) n f = fld (finish s) n f).
  { intros f. unfold finish. symmetry. apply fld_untouched. intros c Hc. apply todos_of in Hc as (u & U1 & U2).
    pose proof (i_own _ _ HI _ _ U1 U2) as Ho. pose proof (Hno _ _ U1 U2) as Hn. destruct c; auto; cbn in Ho; [congruence|].
    destruct Ho; congruence. }
  assert (Hcmd : forall c, In c (clear_cmds n (st s)) ->
    (exists ty r, In r L /\ r_node r = n /\ (c = SRemTy ty (addr_of r) \/ c = HDelId (r_id r))) \/ c = DelNode n \/ c = HDelNode n).
  { intros c Hc. unfold clear_cmds in Hc. apply in_app_or in Hc as [Hc|[<-|[<-|[]]]]; auto. left.
    fold (clear_removals n (st s)) in Hc. apply clear_removals_in in Hc as (ty & z & a & _ & A2 & A3 & A4).
    apply Hmem in A2; [|exact A3]. apply (v_member _ _ (i_view _ _ HI)) in A2 as (r & R1 & R2 & ->).
    exists ty, r. auto. }
  eapply inv_spawn; eauto.
  - cbn [todo t_todo]. intros c Hin. apply Hcmd in Hin as [(ty & r & R1 & R2 & [->| ->])|[->| ->]]; cbn; auto.
  - cbn [todo t_todo]. intros u c d Hu Hc1 Hd. pose proof (Hno _ _ Hu Hd) as Hn.
    pose proof (i_own _ _ HI _ _ Hu Hd) as Ho.
    apply Hcmd in Hc1 as [(ty & r & R1 & R2 & Hcc)|[->| ->]].
    + assert (Hid : ~ In (r_id r) (cmd_ids d)).
      { intros Hin. assert (Hm : mentions (r_id r) u = true) by (apply mentions_iff; eauto).
        pose proof (i_men _ _ HI _ _ _ Hu Hm R1 eq_refl). congruence. }
      destruct Hcc as [->| ->]; split; cbn; auto; intros x [<-|[]]; exact Hid.
    + split; [intros x []|]. cbn. destruct d; auto; cbn in Ho. congruence.
    + split; [intros x []|]. cbn. destruct d; auto; cbn in Ho. destruct Ho. congruence.
  - cbn [todo t_todo]. apply cview_clear; auto. apply (i_view _ _ HI).
  - intros u i q Hu Hmu Hq Hi. apply filter_In in Hq as [Hq _]. eapply (i_men _ _ HI); eauto.
  - intros i q Hmi Hq Hi. apply mentions_iff in Hmi as (c & Hc1 & Hx). cbn [todo t_todo] in Hc1.
    apply filter_In in Hq as [Hq Hq2].
    apply Hcmd in Hc1 as [(ty & r & R1 & R2 & Hcc)|[->| ->]]; [|destruct Hx|destruct Hx].
    assert (i = r_id r) as E by (destruct Hcc as [->| ->]; cbn in Hx; intuition).
    rewrite (nodup_id_eq _ _ _ (v_unique _ _ (i_view _ _ HI)) Hq R1 ltac:(congruence)) in Hq2.
    rewrite R2, String.eqb_refl in Hq2. discriminate.
Qed.

(** ** Steps of running operations *)
Lemma inv_change s L t x x' st' ps' : Inv s L -> nth_error (threads s) t = Some x ->
  t_node x' = t_node x -> t_op x' = t_op x -> incl (todo x') (todo x) ->
  (forall n, option_map p_ep (aget n ps') = option_map p_ep (aget n (procs s))) ->
  cview (apply_all st' (flat_map todo (upd (threads s) t x'))) L -> set_ok st' ->
  Inv (mkState st' ps' (upd (threads s) t x')) L.
Proof.
  intros [V S I O M] Hx Hn Hop Hincl Hps Hv Hs.
  assert (Hlt : t < List.length (threads s)) by (apply nth_error_Some; congruence).
  constructor; auto.
  - cbn. intros i j ti tj Hij Hti Htj c d Hc Hd.
    rewrite nth_upd in Hti, Htj by exact Hlt.
    destruct (Nat.eqb_spec t i) as [<-|Hi]; destruct (Nat.eqb_spec t j) as [<-|Hj]; try congruence.
    + injection Hti as <-. exact (I _ _ _ _ Hij Hx Htj _ _ (Hincl _ Hc) Hd).
    + injection Htj as <-. exact (I _ _ _ _ Hij Hti Hx _ _ Hc (Hincl _ Hd)).
    + exact (I _ _ _ _ Hij Hti Htj _ _ Hc Hd).
  - cbn. intros u c Hu Hc. apply in_upd in Hu as [->|Hu].
    + pose proof (O x c (nth_error_In _ _ Hx) (Hincl _ Hc)) as Ho.
      destruct c; cbn in *; rewrite ?Hn, ?Hop; auto. now rewrite Hps.
    + pose proof (O u c Hu Hc) as Ho. destruct c; cbn in *; auto. now rewrite Hps.
  - cbn. intros u id r Hu Hm Hr Hi. apply in_upd in Hu as [->|Hu].
    + rewrite Hn. eapply M; eauto using nth_error_In. apply mentions_iff.
      apply mentions_iff in Hm as (c & C1 & C2). exists c. auto.
    + eapply M; eauto.
Qed.

Lemma inv_step s L l s' L' e : Inv s L -> ostep (s, L) l = Some ((s', L'), e) -> Inv s' L'.
Proof.
  intros HI H. unfold ostep in H. destruct (in_order L s l) eqn:Eo; [|discriminate].
  destruct (step s l) as [[u f]|] eqn:Es; [|discriminate]. injection H as <- <- <-.
  destruct l as [n ep|n|n ty id w|n id w|n|t|t|t]; cbn in Es, Eo; try discriminate.
  - destruct (aget n (procs s)) eqn:Ep; [discriminate|]. injection Es as <- <-. cbn.
    destruct HI as [V S I O M]. constructor; auto. cbn. intros t c Ht Hc. specialize (O t c Ht Hc).
    destruct c; cbn in *; auto. rewrite aget_aset. destruct (String.eqb_spec (t_node t) n) as [E|E]; [|exact O].
    rewrite E, Ep in O. destruct O; discriminate.
  - destruct (aget n (procs s)) as [p|] eqn:Ep; [|discriminate].
    apply andb_true_iff in Eo as [Eo E3]. apply andb_true_iff in Eo as [E1 E2].
    apply negb_true_iff in E1, E2.
    destruct ((String.eqb id "" || String.eqb ty "") || existsb (String.eqb id) (p_ids p)) eqn:Er.
    + injection Es as <- <-. exact HI.
    + injection Es as <- <-. cbn. apply orb_false_iff in Er as [_ Er]. rewrite Er in E3. cbn in E3.
      apply negb_true_iff in E3. now apply inv_reg.
  - destruct (aget n (procs s)) as [p|] eqn:Ep; [|discriminate].
    apply andb_true_iff in Eo as [Eo E3]. apply andb_true_iff in Eo as [E1 E2].
    apply negb_true_iff in E1, E2.
    destruct (String.eqb id ""); [injection Es as <- <-; exact HI|].
    destruct (aget id (ids (st s))) as [a|] eqn:Ea; [|injection Es as <- <-; exact HI].
    injection Es as <- <-. cbn in E3 |- *. now apply inv_unreg.
  - destruct (aget n (procs s)) as [p|] eqn:Ep; [|discriminate]. injection Es as <- <-. cbn.
    apply negb_true_iff in Eo. now apply inv_clear.
  - destruct (nth_error (threads s) t) as [[n o [[|c r]|]]|] eqn:Et; try discriminate.
    injection Es as <- <-. cbn [fold_left]. eapply inv_change; [exact HI|exact Et|reflexivity|reflexivity| | | |].
    + intros x Hx. now right.
    + reflexivity.
    + destruct (flat_map_upd _ _ _ (mkThread n o (Some r)) Et) as (A & B & E1 & E2 & E3).
      apply cview_veq with (finish s); [|apply (i_view _ _ HI)].
      unfold finish. rewrite E1, E2. cbn [todo t_todo app].
      apply to_front. intros d Hd. destruct (E3 d Hd) as (j & v & J1 & J2 & J3).
      apply (i_ind _ _ HI _ _ _ _ J1 J2 Et); [exact J3|]. now left.
    + apply set_ok_apply, (i_set _ _ HI).
  - destruct (nth_error (threads s) t) as [[n o [[|c r]|]]|] eqn:Et; try discriminate.
    destruct (aget n (procs s)) as [p|] eqn:Ep; [|discriminate]. injection Es as <- <-. cbn [fold_left after].
    eapply inv_change; [exact HI|exact Et|reflexivity|reflexivity| | | |].
    + intros x Hx. exact Hx.
    + intros m. rewrite aget_aset. destruct (String.eqb_spec m n) as [->|]; [now rewrite Ep|reflexivity].
    + destruct (flat_map_upd _ _ _ (mkThread n o None) Et) as (A & B & E1 & E2 & E3).
      pose proof (i_view _ _ HI) as HV. unfold finish in HV. rewrite E1 in HV. rewrite E2. exact HV.
    + apply (i_set _ _ HI).
Qed.

Lemma cview_init : cview empty_store [].
Proof.
  constructor; cbn; try tauto.
  - constructor.
  - intros id a. split; [discriminate|intros (r & [] & _)].
  - intros ty a. split; [intros []|intros (r & [] & _)].
  - discriminate.
Qed.

Lemma orun_inv sched x evs : orun sched = Some (x, evs) ->
  Inv (fst x) (snd x) /\ snd x = live evs.
Proof.
  revert sched x evs.
  apply (run_inv ostep (init, []) (fun _ evs x => Inv (fst x) (snd x) /\ snd x = live evs)).
  - split; [|reflexivity]. constructor; cbn; try tauto.
    + exact cview_init.
    + intros ty. constructor.
    + intros [] j ti tj _ H; discriminate.
  - intros sched evs [s L] l [s' L'] e _ [HI HL] H. cbn [fst snd] in *. split; [eapply inv_step; eauto|].
    unfold ostep in H. destruct (in_order L s l); [|discriminate]. destruct (step s l) as [[u f]|]; [|discriminate].
    injection H as <- <- <-. subst L. unfold live. now rewrite fold_left_app.
Qed.

Lemma rest_finish s : at_rest s -> finish s = st s.
Proof.
  intros H. unfold finish. assert (E : flat_map todo (threads s) = []); [|now rewrite E].
  unfold at_rest in H. induction (threads s) as [|t l IH]; [reflexivity|]. cbn.
  rewrite IH by (intros u Hu; apply H; now right). unfold todo. rewrite (H t); [reflexivity|now left].
Qed.

Lemma orderly_consistent sched s L evs : orun sched = Some ((s, L), evs) -> at_rest s ->
  consistent (st s) (live evs).
Proof.
  intros H Hr. destruct (orun_inv _ _ _ H) as [HI HL]. cbn [fst snd] in *. subst L.
  apply cview_consistent; [|apply (i_set _ _ HI)]. rewrite <- (rest_finish _ Hr). apply (i_view _ _ HI).
Qed.
