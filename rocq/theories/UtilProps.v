(** Properties C59, C60 and C61. *)
From Coq Require Import List ZArith Bool Lia.
From Verif Require Import UtilModel UtilSpec.
Import ListNotations.
Open Scope Z_scope.

(** ** Versions *)
Lemma register_id ss : forall l, fold_left RegisterVersionStrategy ss l = l ++ ss.
Proof. induction ss as [|s ss IH]; intros l; cbn; [symmetry; apply app_nil_r|]. rewrite IH. unfold RegisterVersionStrategy. now rewrite <- app_assoc. Qed.
Lemma register_all_id ss : register_all ss = ss.
Proof. apply (register_id ss []). Qed.
Lemma next_spec l v : (registered l (GetNextVersion l v) /\ v < GetNextVersion l v) \/ (GetNextVersion l v = v /\ forall w, registered l w -> w <= v).
Proof.
  induction l as [|s l IH]; cbn.
  - right. split; [reflexivity|]. intros w (s & [] & _).
  - destruct (Z.ltb_spec v (Version s)).
    + left. split; [exists s; split; [now left|reflexivity]|assumption].
    + destruct IH as [[(s' & Hin & E) Hlt]|[E Hall]].
      * left. split; [exists s'; split; [now right|exact E]|exact Hlt].
      * right. split; [exact E|]. intros w (s' & [->|Hin] & <-); [lia|]. apply Hall. exists s'. auto.
Qed.
Lemma next_least l v : ascending l -> forall w, registered l w -> v < w -> GetNextVersion l v <= w.
Proof.
  induction l as [|s l IH]; intros Ha w (s' & Hin & <-) Hw; [destruct Hin|]. destruct Ha as [Hs Ha]. cbn.
  destruct (Z.ltb_spec v (Version s)).
  - destruct Hin as [->|Hin]; [lia|]. now apply Hs.
  - destruct Hin as [->|Hin]; [lia|]. apply IH; [exact Ha|exists s'; auto|exact Hw].
Qed.
Lemma upgrade_last l n : forall v, upgrade l (S n) v = GetNextVersion l (upgrade l n v).
Proof. induction n as [|n IH]; intros v; [reflexivity|]. change (upgrade l (S (S n)) v) with (upgrade l (S n) (GetNextVersion l v)). now rewrite IH. Qed.
(** The number of registered versions above [v] goes down. *)
Definition above (l : list VerStrategy) (v : Z) : nat := length (filter (fun s => v <? Version s) l).
Lemma above_le l v w : v <= w -> (above l w <= above l v)%nat.
Proof. unfold above. intros H. induction l as [|s l IH]; cbn; [lia|]. destruct (Z.ltb_spec w (Version s)), (Z.ltb_spec v (Version s)); cbn; lia. Qed.
Lemma above_lt l v w : v < w -> registered l w -> (above l w < above l v)%nat.
Proof.
  intros H (s & Hin & <-). induction l as [|s' l IH]; [destruct Hin|]. unfold above in *. cbn [filter]. pose proof (above_le l v (Version s) ltac:(lia)) as Hle. unfold above in Hle.
  destruct Hin as [->|Hin].
  - rewrite (proj2 (Z.ltb_lt _ _) H), Z.ltb_irrefl. cbn. lia.
  - specialize (IH Hin). destruct (Z.ltb_spec (Version s) (Version s')), (Z.ltb_spec v (Version s')); cbn; lia.
Qed.
Lemma reach_top l : forall n v, (above l v < n)%nat -> exists k, v <= upgrade l k v /\ (forall w, registered l w -> w <= upgrade l k v) /\ GetNextVersion l (upgrade l k v) = upgrade l k v.
Proof.
  induction n as [|n IH]; intros v Hn; [lia|]. destruct (next_spec l v) as [[Hr Hlt]|[E Hall]].
  - destruct (IH (GetNextVersion l v)) as (k & Hk & Hw & He); [pose proof (above_lt l v _ Hlt Hr); lia|]. exists (S k). cbn. split; [lia|auto].
  - exists O. cbn. split; [lia|auto].
Qed.
Lemma visits l : ascending l -> forall n v w, (above l v < n)%nat -> registered l w -> v < w -> exists k, upgrade l k v = w.
Proof.
  intros Ha. induction n as [|n IH]; intros v w Hn Hr Hw; [lia|]. destruct (next_spec l v) as [[Hr' Hlt]|[E Hall]]; [|specialize (Hall w Hr); lia].
  pose proof (next_least l v Ha w Hr Hw) as Hle. destruct (Z.eq_dec (GetNextVersion l v) w) as [E|E]; [exists 1%nat; exact E|].
  destruct (IH (GetNextVersion l v) w) as (k & Hk); [pose proof (above_lt l v _ Hlt Hr'); lia|exact Hr|lia|]. now exists (S k).
Qed.

(** ** C59: whatever the order of registration, repeated upgrades end at a version that
    no registered version exceeds, going up at every step. *)
Theorem C59_reaches_newest : forall ss v, exists k,
  v <= upgrade (register_all ss) k v /\ (forall w, registered (register_all ss) w -> w <= upgrade (register_all ss) k v) /\
  GetNextVersion (register_all ss) (upgrade (register_all ss) k v) = upgrade (register_all ss) k v.
Proof. intros ss v. exact (reach_top (register_all ss) _ v (Nat.lt_succ_diag_r _)). Qed.
Print Assumptions C59_reaches_newest.
Theorem C59_increasing : forall ss v n, let l := register_all ss in
  upgrade l (S n) v = upgrade l n v \/ (upgrade l n v < upgrade l (S n) v /\ registered l (upgrade l (S n) v)).
Proof. intros ss v n l. rewrite upgrade_last. destruct (next_spec l (upgrade l n v)) as [[H1 H2]|[H1 _]]; [right; auto|left; exact H1]. Qed.
Print Assumptions C59_increasing.
(** Every newer version is visited when they were registered in ascending order. *)
Theorem C59_visits_all_partial : forall ss v w, ascending ss -> registered (register_all ss) w -> v < w -> exists k, upgrade (register_all ss) k v = w.
Proof. intros ss v w Ha Hr Hw. rewrite register_all_id in *. exact (visits ss Ha _ v w (Nat.lt_succ_diag_r _) Hr Hw). Qed.
Print Assumptions C59_visits_all_partial.
Definition v1 := mkVer 1 0.   Definition v2 := mkVer 2 1.   Definition v4 := mkVer 4 2.
Example C59_case : ascending [v1; v2; v4] /\ registered (register_all [v1; v2; v4]) 4 /\ upgrade (register_all [v1; v2; v4]) 2 1 = 4.
Proof. split; [cbn; intuition; subst; cbn; lia|]. split; [exists v4; cbn; auto|reflexivity]. Qed.
(** In another order a version is skipped for ever: 1, 4, 2. *)
Theorem C59_skipped_refuted : exists ss v w, registered (register_all ss) w /\ v < w /\ forall k, upgrade (register_all ss) k v <> w.
Proof.
  exists [v1; v4; v2], 1, 2. split; [exists v2; cbn; auto|]. split; [lia|]. intros [|k]; [discriminate|].
  cbn [upgrade]. change (GetNextVersion (register_all [v1; v4; v2]) 1) with 4.
  assert (G : forall n, upgrade (register_all [v1; v4; v2]) n 4 = 4) by (induction n as [|n IH]; [reflexivity|exact IH]). rewrite G. discriminate.
Qed.
Print Assumptions C59_skipped_refuted.
(** The strategy found for a version is the first one registered for it, and none is
    found only for versions that are not registered. *)
Theorem C59_strategy : forall ss ver,
  match GetVerStrategy (register_all ss) ver with
  | Some s => Version s = ver /\ exists a b, ss = a ++ s :: b /\ ~ registered a ver
  | None => ~ registered ss ver
  end.
Proof.
  intros ss ver. rewrite register_all_id. induction ss as [|s ss IH]; cbn; [intros (s & [] & _)|].
  destruct (Z.eqb_spec (Version s) ver) as [E|E].
  - split; [exact E|]. exists [], ss. split; [reflexivity|]. intros (s' & [] & _).
  - destruct (GetVerStrategy ss ver) as [s'|].
    + destruct IH as [E' (a & b & -> & Hn)]. split; [exact E'|]. exists (s :: a), b. split; [reflexivity|]. intros (x & [<-|Hx] & Ex); [contradiction|]. apply Hn. exists x. auto.
    + intros (x & [<-|Hx] & Ex); [contradiction|]. apply IH. exists x. auto.
Qed.
Print Assumptions C59_strategy.

(** ** File names *)
Lemma last_index s : (In dot s -> exists p q, s = p ++ dot :: q /\ ~ In dot q /\ LastIndex s = Z.of_nat (length p)) /\ (~ In dot s -> LastIndex s = -1).
Proof.
  induction s as [|c s [IH1 IH2]]; cbn; [split; [tauto|reflexivity]|].
  destruct (in_dec Z.eq_dec dot s) as [Hin|Hn].
  - destruct (IH1 Hin) as (p & q & -> & Hq & ->). split; [|intros H; exfalso; apply H; now right]. intros _. exists (c :: p), q. split; [reflexivity|]. split; [exact Hq|].
    destruct (Z.leb_spec 0 (Z.of_nat (length p))); [cbn [length]; lia|lia].
  - rewrite (IH2 Hn). cbn. destruct (Z.eqb_spec c dot) as [->|Hc].
    + split; [|intros H; exfalso; apply H; now left]. intros _. exists [], s. auto.
    + split; [intros [H|H]; contradiction|reflexivity].
Qed.
(** ** C60: for a name with a dot, name and extension make up the name, and the extension
    is the part from the last dot (46) on. *)
Theorem C60_split : forall name, In 46 name ->
  GetFileRealName name ++ GetFileExt name = name /\ exists q, GetFileExt name = 46 :: q /\ ~ In 46 q.
Proof.
  change 46 with dot.
  intros name H. destruct (proj1 (last_index name) H) as (p & q & E & Hq & HL).
  unfold GetFileRealName, GetFileExt. destruct name as [|c r]; [destruct H|]. rewrite HL. destruct (Z.ltb_spec (Z.of_nat (length p)) 0); [lia|].
  rewrite Nat2Z.id. split; [apply firstn_skipn|]. exists q. split; [|exact Hq]. rewrite E, skipn_app, skipn_all, Nat.sub_diag. reflexivity.
Qed.
Print Assumptions C60_split.
(** Without a dot both are empty. *)
Theorem C60_no_dot : forall name, ~ In 46 name -> GetFileRealName name = [] /\ GetFileExt name = [].
Proof.
  change 46 with dot.
  intros name H. pose proof (proj2 (last_index name) H) as HL. unfold GetFileRealName, GetFileExt. destruct name; [auto|]. now rewrite HL.
Qed.
Print Assumptions C60_no_dot.
(** "a.b.go" *)
Example C60_case : In 46 [97; 46; 98; 46; 103; 111] /\ GetFileRealName [97; 46; 98; 46; 103; 111] = [97; 46; 98] /\ GetFileExt [97; 46; 98; 46; 103; 111] = [46; 103; 111].
Proof. cbn. split; [auto|split; reflexivity]. Qed.

(** ** C61: a code wrapped any number of times by pkg/errors is recovered; missing from
    the full statement: wrapping with fmt.Errorf. *)
Lemma cause_wraps e e' : wraps e e' -> errors_Cause e = errors_Cause e'.
Proof. induction 1; auto. Qed.
Theorem C61_recovered_partial : forall e c, wraps e (ECode c) -> Cause (Some e) = c.
Proof. intros e c H. unfold Cause. now rewrite (cause_wraps _ _ H). Qed.
Print Assumptions C61_recovered_partial.
Theorem C61_equal_error_partial : forall e c n m, wraps e (ECode c) -> New n m = Some c -> forall c', EqualError c' (Some e) = true <-> code c' = n.
Proof.
  intros e c n m H Hn c'. unfold EqualError. rewrite (C61_recovered_partial e c H). unfold New in Hn. destruct (n <=? 0); [discriminate|]. injection Hn as <-. cbn. rewrite Z.eqb_eq. intuition.
Qed.
Print Assumptions C61_equal_error_partial.
Example C61_case : exists c, New 7 [110] = Some c /\ wraps (EWithMessage [120] (EWithStack (ECode c))) (ECode c) /\ Cause (Some (EWithMessage [120] (EWithStack (ECode c)))) = c.
Proof. eexists. split; [reflexivity|]. split; [repeat constructor|reflexivity]. Qed.
(** Equality of codes is equality of their numbers, a missing code counting as OK. *)
Theorem C61_equal : forall a b, Equal a b = true <-> code (match a with Some c => c | None => OK end) = code (match b with Some c => c | None => OK end).
Proof. intros a b. unfold Equal. apply Z.eqb_eq. Qed.
Print Assumptions C61_equal.
(** A code made by New is not OK, neither by itself nor wrapped, and differs from what a
    foreign error becomes. *)
Theorem C61_not_ok : forall n m c e, New n m = Some c -> wraps e (ECode c) ->
  Equal (Some c) (Some OK) = false /\ Equal (Some c) None = false /\ EqualError OK (Some e) = false /\ forall x, Equal (Some c) (Some (String x)) = false.
Proof.
  intros n m c e Hn Hw. assert (Hc : 0 < code c) by (unfold New in Hn; destruct (Z.leb_spec n 0); [discriminate|]; injection Hn as <-; cbn; lia).
  unfold Equal, EqualError. rewrite (C61_recovered_partial e c Hw). cbn [code OK Add].
  split; [apply Z.eqb_neq; lia|]. split; [apply Z.eqb_neq; lia|]. split; [apply Z.eqb_neq; lia|]. intros x. apply Z.eqb_neq. destruct x; cbn; lia.
Qed.
Print Assumptions C61_not_ok.
Theorem C61_new_panics : forall n m, New n m = None <-> n <= 0.
Proof. intros n m. unfold New. destruct (Z.leb_spec n 0); split; try discriminate; auto; lia. Qed.
Print Assumptions C61_new_panics.
(** A failure is taken for OK only if its root is the code OK itself or its message is empty. *)
Theorem C61_failure_not_ok_partial : forall e, Error e <> [] -> (forall c, errors_Cause e = ECode c -> code c <> 0) -> EqualError OK (Some e) = false.
Proof.
  intros e Hm Hc. unfold EqualError, Cause. apply Z.eqb_neq. destruct (errors_Cause e) as [c| | | |]; [now apply Hc| | | |];
    (unfold String; destruct (Error e); [contradiction|cbn; discriminate]).
Qed.
Print Assumptions C61_failure_not_ok_partial.
Example C61_failure_case : let e := EWithMessage [120] (EWrapf [121] (ECode OK)) in
  Error e <> [] /\ (forall c, errors_Cause e = ECode c -> code c <> 0) /\ EqualError OK (Some e) = false.
Proof. cbv zeta. split; [discriminate|]. split; [discriminate|reflexivity]. Qed.
(** Wrapped by fmt.Errorf with %w the code is lost, and an error with an empty message
    is taken for OK. *)
Theorem C61_wrapped_refuted : exists c m, New 7 m = Some c /\ EqualError c (Some (EWrapf [120] (ECode c))) = false.
Proof. exists (mkCode 7 [110]), [110]. split; reflexivity. Qed.
Print Assumptions C61_wrapped_refuted.
Theorem C61_failure_as_ok_refuted : exists e, EqualError OK (Some e) = true /\ forall c, errors_Cause e <> ECode c.
Proof. exists (EPlain []). split; [reflexivity|discriminate]. Qed.
Print Assumptions C61_failure_as_ok_refuted.
