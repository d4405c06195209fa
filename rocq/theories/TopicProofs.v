(** Invariants of the topic manager. *)
From Coq Require Import List String Arith Bool Lia.
From Verif Require Import Machine AddrModel AddrProofs ClientProofs TopicModel TopicSpec.
Import ListNotations.
Open Scope list_scope.

Definition excl (p : pc) : bool := match p with PCheck | PMake | PInsert _ | PUnlock _ => true | _ => false end.
Definition shared (p : pc) : bool := match p with PRead | PRUnlock _ => true | _ => false end.
Definition tshared (x : thread) : bool := shared (t_pc x).
Definition pending (name : string) (x : thread) : bool := match t_pc x with PInsert _ => String.eqb (t_name x) name | _ => false end.
Definition has (name : string) (m : list (string * nat)) : nat := match aget name m with Some _ => 1 | None => 0 end.
(** What a thread knows of the map. *)
Definition knows (s : state) (x : thread) : Prop :=
  match t_pc x with
  | PRUnlock (Some k) | PGot (Some k) | PUnlock k | PMade k => aget (t_name x) (tmap s) = Some k
  | PMake | PInsert _ => aget (t_name x) (tmap s) = None
  | _ => True
  end.
Definition okL (s : state) : Prop :=
  (forall i x, nth_error (thrs s) i = Some x -> excl (t_pc x) = true -> writer s = Some i) /\
  (forall i, writer s = Some i -> readers s = 0 /\ exists x, nth_error (thrs s) i = Some x /\ excl (t_pc x) = true) /\
  readers s = List.length (filter tshared (thrs s)).

Ltac inv_step H := cbn [step] in H; repeat match type of H with
  | match ?y with _ => _ end = _ => let E := fresh "E" in destruct y eqn:E; try discriminate H
  end; injection H as <- <-.

Lemma okL_step s l s' ev : okL s -> step s l = Some (s', ev) -> okL s'.
Proof.
  intros (A & B & C) H. destruct l as [o name|i].
  - injection H as <- <-. unfold set_thrs. repeat split; cbn [thrs writer readers tmap made].
    + intros j y Hy Hx. apply snoc_at in Hy as [[-> ->]|Hy]; [destruct o; discriminate|exact (A _ _ Hy Hx)].
    + exact (proj1 (B _ H)).
    + destruct (B _ H) as (_ & y & P & Q). exists y. split; [|exact Q]. rewrite nth_error_app1; [exact P|]. apply nth_error_Some. congruence.
    + rewrite cnt_snoc, C. destruct o; cbn; lia.
  - cbn [step] in H. destruct (nth_error (thrs s) i) as [x|] eqn:Ex; [|discriminate].
    assert (U : forall y, List.length (filter tshared (upd (thrs s) i y)) + b2n (tshared x) = readers s + b2n (tshared y)) by (intros y; rewrite C; exact (cnt_upd tshared _ _ _ y Ex)).
    assert (Lt : i < List.length (thrs s)) by (apply nth_error_Some; congruence).
    assert (Keep : forall p m n rd mk, excl p = excl (t_pc x) -> List.length (filter tshared (upd (thrs s) i (mkT (t_op x) (t_name x) p))) = rd -> (forall j, writer s = Some j -> rd = 0) -> n = writer s -> okL (mkState m n rd mk (upd (thrs s) i (mkT (t_op x) (t_name x) p)))).
    { intros p m n rd mk He Hr Hz ->. split; [|split]; cbn [thrs writer readers].
      - intros j y Hy Hx. apply (upd_at _ _ _ _ _ _ Ex) in Hy as [[<- ->]|[_ Hy]]; [cbn [t_pc] in Hx; rewrite He in Hx; exact (A _ _ Ex Hx)|exact (A _ _ Hy Hx)].
      - intros j Hj. split; [exact (Hz _ Hj)|]. destruct (B _ Hj) as (_ & y & P & Q). destruct (Nat.eq_dec i j) as [<-|Hn].
        + eexists. split; [apply nth_upd_eq; exact Lt|]. cbn [t_pc]. rewrite He. congruence.
        + exists y. split; [rewrite nth_upd_neq by congruence; exact P|exact Q].
      - symmetry. exact Hr. }
    unfold goto, set_thrs, tshared in *. 
    destruct (t_pc x) as [| |r|r| | | |k|k|k|] eqn:Ep.
    + destruct (writer s) as [w|] eqn:Ew; [discriminate|]. injection H as <- <-. apply Keep; [reflexivity| |congruence|reflexivity]. specialize (U (mkT (t_op x) (t_name x) PRead)). try rewrite Ep in U. cbn in U. lia.
    + injection H as <- <-. apply Keep; [reflexivity| |intros j Hj; exact (proj1 (B _ Hj))|reflexivity]. specialize (U (mkT (t_op x) (t_name x) (PRUnlock (aget (t_name x) (tmap s))))). try rewrite Ep in U. cbn in U. lia.
    + injection H as <- <-. specialize (U (mkT (t_op x) (t_name x) (PGot r))). try rewrite Ep in U. cbn in U. apply Keep; [reflexivity|lia| |reflexivity]. intros j Hj. destruct (B _ Hj). lia.
    + assert (Z : forall p, excl p = false -> shared p = false -> okL (mkState (tmap s) (writer s) (readers s) (made s) (upd (thrs s) i (mkT (t_op x) (t_name x) p)))).
      { intros p P Q. apply Keep; [exact P| |intros j Hj; exact (proj1 (B _ Hj))|reflexivity]. specialize (U (mkT (t_op x) (t_name x) p)). try rewrite Ep in U. cbn in U. rewrite Q in U. cbn in U. lia. }
      destruct (t_op x); try destruct r; injection H as <- <-; apply Z; reflexivity.
    + destruct (writer s) as [w|] eqn:Ew; [discriminate|]. destruct (readers s) eqn:Er; [|discriminate]. injection H as <- <-. split; [|split]; cbn [thrs writer readers].
      * intros j y Hy Hx. apply (upd_at _ _ _ _ _ _ Ex) in Hy as [[<- ->]|[_ Hy]]; [reflexivity|]. discriminate (A _ _ Hy Hx).
      * intros j Hj. injection Hj as <-. split; [reflexivity|]. eexists. split; [apply nth_upd_eq; exact Lt|reflexivity].
      * specialize (U (mkT (t_op x) (t_name x) PCheck)). try rewrite Ep in U. cbn in U. unfold tshared. lia.
    + injection H as <- <-. apply Keep; [now destruct (aget _ _)| |intros j Hj; exact (proj1 (B _ Hj))|reflexivity].
      specialize (U (mkT (t_op x) (t_name x) (match aget (t_name x) (tmap s) with Some k => PUnlock k | None => PMake end))). try rewrite Ep in U. destruct (aget (t_name x) (tmap s)); cbn in U |- *; lia.
    + injection H as <- <-. apply Keep; [reflexivity| |intros j Hj; exact (proj1 (B _ Hj))|reflexivity]. specialize (U (mkT (t_op x) (t_name x) (PInsert (made s)))). try rewrite Ep in U. cbn in U. lia.
    + injection H as <- <-. apply Keep; [reflexivity| |intros j Hj; exact (proj1 (B _ Hj))|reflexivity]. specialize (U (mkT (t_op x) (t_name x) (PUnlock k))). try rewrite Ep in U. cbn in U. lia.
    + injection H as <- <-. assert (W : writer s = Some i) by (apply (A _ _ Ex); now rewrite Ep). split; [|split]; cbn [thrs writer readers].
      * intros j y Hy Hx. apply (upd_at _ _ _ _ _ _ Ex) in Hy as [[<- ->]|[Hn Hy]]; [discriminate|]. pose proof (A _ _ Hy Hx). congruence.
      * discriminate.
      * specialize (U (mkT (t_op x) (t_name x) (PMade k))). try rewrite Ep in U. cbn in U. unfold tshared. lia.
    + injection H as <- <-. apply Keep; [reflexivity| |intros j Hj; exact (proj1 (B _ Hj))|reflexivity]. specialize (U (mkT (t_op x) (t_name x) PDone)). try rewrite Ep in U. cbn in U. lia.
    + discriminate.
Qed.

Definition okM (evs : list event) (s : state) : Prop :=
  okL s /\ (forall i x, nth_error (thrs s) i = Some x -> knows s x) /\
  (forall name, makes name evs = has name (tmap s) + List.length (filter (pending name) (thrs s))) /\
  (forall i name k, In (ERet i name k) evs \/ In (EPubOn i name k) evs -> aget name (tmap s) = Some k) /\
  (forall name k, aget name (tmap s) = Some k -> exists j, In (EMake j name k) evs) /\
  (forall i x k, nth_error (thrs s) i = Some x -> t_pc x = PInsert k -> exists j, In (EMake j (t_name x) k) evs) /\
  (forall i name k, In (EMake i name k) evs -> k < made s /\ forall i' name', In (EMake i' name' k) evs -> name' = name).

(** The map only grows, under the write lock. *)
Lemma grows evs s l s' ev : okM evs s -> step s l = Some (s', ev) -> forall name k, aget name (tmap s) = Some k -> aget name (tmap s') = Some k.
Proof.
  intros (_ & K & _) H name k Hk. destruct l as [o n|i]; [injection H as <- <-; exact Hk|]. cbn [step] in H. destruct (nth_error (thrs s) i) as [x|] eqn:Ex; [|discriminate]. specialize (K _ _ Ex). unfold knows in K.
  destruct (t_pc x) eqn:Ep; try discriminate H; repeat match type of H with match ?y with _ => _ end = _ => destruct y; try discriminate H end; injection H as <- <-; cbn [tmap set_thrs]; try exact Hk.
  rewrite aget_aset. destruct (String.eqb_spec name (t_name x)) as [->|]; [congruence|exact Hk].
Qed.
Lemma makes_app n a b : makes n (a ++ b) = makes n a + makes n b.
Proof. unfold makes. now rewrite filter_app, app_length. Qed.

Lemma okM_reach sched s evs : run step init sched = Some (s, evs) -> okM evs s.
Proof.
  apply (run_inv step init (fun _ evs s => okM evs s)).
  - split; [|repeat split]; try (intros; cbn in *; first [discriminate|contradiction|tauto|reflexivity]).
    + split; [|split]; cbn; [intros i x Hx; destruct i; discriminate|discriminate|reflexivity].
    + intros i x Hx. destruct i; discriminate.
    + intros i x k Hx. destruct i; discriminate.
  - intros _ e0 s0 l s1 ev _ I E. pose proof (okL_step _ _ _ _ (proj1 I) E) as L'. pose proof (grows _ _ _ _ _ I E) as G. destruct I as ((LA & LB & LC) & K & M & R & T & P & N).
    destruct l as [o name|i].
    { injection E as <- <-. split; [exact L'|]. unfold set_thrs; cbn [thrs tmap made] in *. repeat split.
      - intros j y Hy. apply snoc_at in Hy as [[_ ->]|Hy]; [unfold knows; destruct o; exact I|exact (K _ _ Hy)].
      - intros n. rewrite makes_app, cnt_snoc, M. cbn. destruct o; cbn; lia.
      - intros j n k [Hj|Hj]; apply in_app_or in Hj as [Hj|[Hj|[]]]; try discriminate; eapply R; eauto.
      - intros n k Hk. destruct (T _ _ Hk) as (j & Hj). exists j. apply in_or_app. now left.
      - intros j y k Hy Hp. apply snoc_at in Hy as [[_ ->]|Hy]; [destruct o; discriminate|]. destruct (P _ _ _ Hy Hp) as (j' & Hj). exists j'. apply in_or_app. now left.
      - apply in_app_or in H as [H|[H|[]]]; [|discriminate]. exact (proj1 (N _ _ _ H)).
      - intros i' n' Hi. apply in_app_or in H as [H|[H|[]]]; [|discriminate]. apply in_app_or in Hi as [Hi|[Hi|[]]]; [|discriminate]. exact (proj2 (N _ _ _ H) _ _ Hi). }
    cbn [step] in E. destruct (nth_error (thrs s0) i) as [x|] eqn:Ex; [|discriminate]. pose proof (K _ _ Ex) as Kx. unfold knows in Kx.
    (* steps that leave the map and make nothing *)
    assert (Q : forall p wr rd evx, t_pc x <> PMake -> (forall k, t_pc x <> PInsert k) -> match p with PInsert _ => False | _ => True end -> knows s0 (mkT (t_op x) (t_name x) p) -> (forall n, makes n evx = 0) ->
      (forall j n k, In (ERet j n k) evx \/ In (EPubOn j n k) evx -> aget n (tmap s0) = Some k) -> (forall j n k, ~ In (EMake j n k) evx) ->
      okL (mkState (tmap s0) wr rd (made s0) (upd (thrs s0) i (mkT (t_op x) (t_name x) p))) -> okM (e0 ++ evx) (mkState (tmap s0) wr rd (made s0) (upd (thrs s0) i (mkT (t_op x) (t_name x) p)))).
    { intros p wr rd evx Hm Hi Hp Hk Hz Hr He HL. split; [exact HL|]. cbn [thrs tmap made]. repeat split.
      - intros j y Hy. apply (upd_at _ _ _ _ _ _ Ex) in Hy as [[<- ->]|[_ Hy]]; [exact Hk|exact (K _ _ Hy)].
      - intros n. rewrite makes_app, Hz, M. pose proof (cnt_upd (pending n) _ _ _ (mkT (t_op x) (t_name x) p) Ex) as U. unfold pending in U at 2 4. cbn [t_pc t_name] in U. destruct p; try destruct Hp; destruct (t_pc x) eqn:Ep; try (exfalso; eapply Hi; reflexivity); cbn [b2n] in U; lia.
      - intros j n k [Hj|Hj]; apply in_app_or in Hj as [Hj|Hj]; eauto.
      - intros n k Hn. destruct (T _ _ Hn) as (j & Hj). exists j. apply in_or_app. now left.
      - intros j y k Hy Hq. apply (upd_at _ _ _ _ _ _ Ex) in Hy as [[<- ->]|[_ Hy]]; [cbn in Hq; rewrite Hq in Hp; destruct Hp|]. destruct (P _ _ _ Hy Hq) as (j' & Hj). exists j'. apply in_or_app. now left.
      - apply in_app_or in H as [H|H]; [exact (proj1 (N _ _ _ H))|destruct (He _ _ _ H)].
      - intros i' n' Hi'. apply in_app_or in H as [H|H]; [|destruct (He _ _ _ H)]. apply in_app_or in Hi' as [Hi'|Hi']; [exact (proj2 (N _ _ _ H) _ _ Hi')|destruct (He _ _ _ Hi')]. }
    unfold goto, set_thrs in E.
    destruct (t_pc x) as [| |r|r| | | |k|k|k|] eqn:Ep; try discriminate E.
    + destruct (writer s0); [discriminate|]. injection E as <- <-. apply Q; try discriminate; try exact L'; cbn; tauto.
    + injection E as <- <-. apply Q; try discriminate; try exact L'; cbn; try tauto. unfold knows; cbn. destruct (aget (t_name x) (tmap s0)) eqn:Ea; [reflexivity|exact I].
    + injection E as <- <-. apply Q; try discriminate; try exact L'; cbn; tauto.
    + destruct (t_op x) as [| | |w|]; [destruct r|destruct r|destruct r|destruct r|destruct r]; try (destruct (String.eqb w "")); injection E as <- <-; apply Q; try discriminate; try exact L'; cbn; try tauto;
        try (intros j n' k' [[X|[]]|[X|[]]]; try discriminate X; injection X as <- <- <-; exact Kx); intros j n' k' [X|[]]; discriminate X.
    + destruct (writer s0); [discriminate|]. destruct (readers s0); [|discriminate]. injection E as <- <-. apply Q; try discriminate; try exact L'; cbn; tauto.
    + injection E as <- <-. apply Q; try discriminate; try exact L'; cbn; try tauto; [now destruct (aget _ _)|]. unfold knows. cbn. now destruct (aget (t_name x) (tmap s0)) eqn:Ea; cbn.
    + (* PMake *) injection E as <- <-. split; [exact L'|]. cbn [thrs tmap made]. repeat split.
      * intros j y Hy. apply (upd_at _ _ _ _ _ _ Ex) in Hy as [[<- ->]|[_ Hy]]; [exact Kx|exact (K _ _ Hy)].
      * intros n. rewrite makes_app, M. pose proof (cnt_upd (pending n) _ _ _ (mkT (t_op x) (t_name x) (PInsert (made s0))) Ex) as U. unfold pending in U at 2 4. rewrite Ep in U. cbn [t_pc t_name b2n] in U.
        change (makes n [EMake i (t_name x) (made s0)]) with (List.length (filter (fun e => match e with EMake _ m _ => String.eqb m n | _ => false end) [EMake i (t_name x) (made s0)])). cbn [filter]. destruct (String.eqb (t_name x) n); cbn [b2n List.length] in *; lia.
      * intros j n k [Hj|Hj]; apply in_app_or in Hj as [Hj|[Hj|[]]]; try discriminate; eapply R; eauto.
      * intros n k Hn. destruct (T _ _ Hn) as (j & Hj). exists j. apply in_or_app. now left.
      * intros j y k Hy Hq. apply (upd_at _ _ _ _ _ _ Ex) in Hy as [[<- ->]|[_ Hy]].
        -- cbn in Hq. injection Hq as <-. exists i. apply in_or_app. right. now left.
        -- destruct (P _ _ _ Hy Hq) as (j' & Hj). exists j'. apply in_or_app. now left.
      * apply in_app_or in H as [H|[H|[]]]; [pose proof (proj1 (N _ _ _ H)); lia|]. injection H as _ _ <-. lia.
      * intros i' n' Hi. apply in_app_or in H as [H|[H|[]]]; apply in_app_or in Hi as [Hi|[Hi|[]]].
        -- exact (proj2 (N _ _ _ H) _ _ Hi).
        -- injection Hi as _ _ X. pose proof (proj1 (N _ _ _ H)). lia.
        -- injection H as _ _ X. pose proof (proj1 (N _ _ _ Hi)). lia.
        -- congruence.
    + (* PInsert *) injection E as <- <-. split; [exact L'|]. assert (W : writer s0 = Some i) by (apply (LA _ _ Ex); now rewrite Ep). cbn [thrs tmap made] in *. rewrite app_nil_r. repeat split.
      * intros j y Hy. apply (upd_at _ _ _ _ _ _ Ex) in Hy as [[<- ->]|[Hn Hy]]; [unfold knows; cbn; now rewrite aget_aset, String.eqb_refl|]. pose proof (K _ _ Hy) as Ky. unfold knows in *. cbn [tmap].
        destruct (t_pc y) as [| |[|]|[|]| | | | | | |] eqn:Ey; auto; exfalso; assert (writer s0 = Some j) by (apply (LA _ _ Hy); now rewrite Ey); congruence.
      * intros n. rewrite M. pose proof (cnt_upd (pending n) _ _ _ (mkT (t_op x) (t_name x) (PUnlock k)) Ex) as U. unfold pending in U at 2 4. rewrite Ep in U. cbn [t_pc t_name b2n] in U. unfold has. rewrite aget_aset. rewrite (String.eqb_sym n).
        destruct (String.eqb_spec (t_name x) n) as [Hn|Hn]; cbn [b2n] in U; [rewrite <- Hn in *; rewrite Kx|]; lia.
      * intros j n k' Hj. apply G. eapply R; eauto.
      * intros n k' Hn. rewrite aget_aset in Hn. destruct (String.eqb_spec n (t_name x)) as [->|]; [injection Hn as <-; exact (P _ _ _ Ex Ep)|exact (T _ _ Hn)].
      * intros j y k' Hy Hq. apply (upd_at _ _ _ _ _ _ Ex) in Hy as [[<- ->]|[_ Hy]]; [discriminate|exact (P _ _ _ Hy Hq)].
      * exact (proj1 (N _ _ _ H)).
      * exact (proj2 (N _ _ _ H)).
    + injection E as <- <-. apply Q; try discriminate; try exact L'; cbn; tauto.
    + injection E as <- <-. apply Q; try discriminate; try exact L'; cbn; try tauto; [|intros j n' k' [X|[]]; discriminate X]. intros j n' k' [[X|[]]|[X|[]]]; try discriminate X. injection X as <- <- <-. exact Kx.
Qed.

(** ** Every call returns *)
Definition rank (x : thread) : nat :=
  match t_pc x with PRLock => 10 | PRead => 9 | PRUnlock _ => 8 | PGot _ => 7 | PLock => 6 | PCheck => 5 | PMake => 4 | PInsert _ => 3 | PUnlock _ => 2 | PMade _ => 1 | PDone => 0 end.
Fixpoint total (l : list thread) : nat := match l with [] => 0 | x :: r => rank x + total r end.
Lemma total_upd l : forall i x y, nth_error l i = Some x -> total (upd l i y) + rank x = total l + rank y.
Proof. induction l as [|a l IH]; intros [|i] x y H; try discriminate; cbn in *; [injection H as <-; lia|]. specialize (IH _ _ y H). lia. Qed.
Lemma total_zero l i x : total l = 0 -> nth_error l i = Some x -> t_pc x = PDone.
Proof. revert i. induction l as [|a l IH]; intros [|i] H Hx; try discriminate; cbn in *. - injection Hx as <-. destruct a as [o n p]. unfold rank in H. cbn in *. destruct p; cbn in H; first [reflexivity|lia]. - eapply IH; [lia|exact Hx]. Qed.
Lemma total_pos l : 0 < total l -> exists i x, nth_error l i = Some x /\ t_pc x <> PDone.
Proof.
  induction l as [|a l IH]; cbn; [lia|]. intros H. destruct (Nat.eq_dec (rank a) 0) as [E|E].
  - destruct IH as (i & x & A & B); [lia|]. exists (S i), x. auto.
  - exists 0, a. split; [reflexivity|]. intros X. apply E. unfold rank. now rewrite X.
Qed.
Lemma step_less s i s' ev : step s (LStep i) = Some (s', ev) -> total (thrs s') < total (thrs s).
Proof.
  cbn [step]. destruct (nth_error (thrs s) i) as [x|] eqn:Ex; [|discriminate]. intros H.
  assert (U : forall p, rank (mkT (t_op x) (t_name x) p) < rank x -> total (upd (thrs s) i (mkT (t_op x) (t_name x) p)) < total (thrs s)) by (intros p Hp; pose proof (total_upd _ _ _ (mkT (t_op x) (t_name x) p) Ex); lia).
  unfold goto, set_thrs, rank in *. destruct (t_pc x) eqn:Ep; try discriminate H; repeat match type of H with match ?y with _ => _ end = _ => destruct y; try discriminate H end; injection H as <- <-; cbn [thrs]; apply U; cbn; try lia.
  destruct (aget (t_name x) (tmap s)); lia.
Qed.
Lemma enabled s : okL s -> 0 < total (thrs s) -> exists i s' ev, step s (LStep i) = Some (s', ev).
Proof.
  intros (A & B & C) H.
  assert (F : forall i x, nth_error (thrs s) i = Some x -> match t_pc x with PDone => False | PRLock => writer s = None | PLock => writer s = None /\ readers s = 0 | _ => True end -> exists s' ev, step s (LStep i) = Some (s', ev)).
  { intros i x Hx Hp. cbn [step]. rewrite Hx. destruct (t_pc x) as [| |r|r| | | |k|k|k|]; try (eexists _, _; reflexivity).
    - rewrite Hp. eexists _, _. reflexivity.
    - destruct (t_op x); try destruct r; eexists _, _; reflexivity.
    - destruct Hp as [Hp Hq]. rewrite Hp, Hq. eexists _, _. reflexivity.
    - destruct Hp. }
  destruct (writer s) as [w|] eqn:Ew.
  - destruct (B _ eq_refl) as (_ & x & P & Q). destruct (F w x P) as (s' & ev & E); [destruct (t_pc x); try exact I; discriminate|]. exists w, s', ev. exact E.
  - destruct (readers s) as [|n] eqn:Er.
    + destruct (total_pos _ H) as (i & x & P & Q). destruct (F i x P) as (s' & ev & E); [destruct (t_pc x); try exact I; auto|]. exists i, s', ev. exact E.
    + destruct (filter tshared (thrs s)) as [|x l] eqn:Ef; [discriminate|]. assert (X : In x (x :: l)) by now left. rewrite <- Ef in X. apply filter_In in X as [X Y]. apply In_nth_error in X as [i Hi].
      destruct (F i x Hi) as (s' & ev & E); [unfold tshared in Y; destruct (t_pc x); try exact I; discriminate|]. exists i, s', ev. exact E.
Qed.
Lemma returns : forall n s, okL s -> total (thrs s) <= n -> exists sched s' evs, Forall is_step sched /\ run step s sched = Some (s', evs) /\ quiescent s'.
Proof.
  induction n as [|n IH]; intros s HL Hn; (destruct (Nat.eq_dec (total (thrs s)) 0) as [Z|Z]; [exists [], s, []; split; [constructor|]; split; [reflexivity|]; intros i x; apply total_zero; exact Z|]); [lia|].
  destruct (enabled s HL) as (i & s1 & ev & E); [lia|]. pose proof (step_less _ _ _ _ E). destruct (IH s1 (okL_step _ _ _ _ HL E)) as (sched & s' & evs & A & B & C); [lia|].
  exists (LStep i :: sched), s', (ev ++ evs). split; [constructor; [exact I|exact A]|]. split; [|exact C]. cbn [run]. now rewrite E, B.
Qed.
Lemma steps_bounded sched : forall s s' evs, Forall is_step sched -> run step s sched = Some (s', evs) -> List.length sched <= total (thrs s).
Proof.
  induction sched as [|l sched IH]; intros s s' evs Hf H; [cbn; lia|]. inversion Hf as [|? ? Hl Hf']; subst. cbn [run] in H. destruct (step s l) as [[s1 e1]|] eqn:E; [|discriminate]. destruct (run step s1 sched) as [[s2 e2]|] eqn:E2; [|discriminate].
  destruct l as [|i]; [destruct Hl|]. apply step_less in E. specialize (IH _ _ _ Hf' E2). cbn. lia.
Qed.

(** ** Publishing *)
(** The event says that call i found no topic. *)
Definition bad (i : nat) (z : event) : bool := match z with EPanic j | ENil j _ => Nat.eqb j i | _ => false end.
(** From a state in which the name has a topic, calls that start later find it. *)
Definition okP (name : string) (k n : nat) (evs : list event) (s : state) : Prop :=
  aget name (tmap s) = Some k /\ n <= List.length (thrs s) /\
  (forall i x, nth_error (thrs s) i = Some x -> n <= i -> t_name x = name -> t_pc x <> PRUnlock None /\ t_pc x <> PGot None) /\
  (forall i o m, In (ECall i o m) evs -> n <= i /\ exists x, nth_error (thrs s) i = Some x /\ t_name x = m) /\
  (forall i z, In z evs -> bad i z = true -> exists x, nth_error (thrs s) i = Some x /\ (n <= i -> t_name x <> name)).
Lemma okP_step name k n evs s l s' ev e0 : okM e0 s -> okP name k n evs s -> step s l = Some (s', ev) -> okP name k n (evs ++ ev) s'.
Proof.
  intros HM (A & B & C & D & F) E. pose proof (grows _ _ _ _ _ HM E _ _ A) as A'. split; [exact A'|]. destruct l as [o m|i].
  - injection E as <- <-. cbn [thrs set_thrs]. assert (Ex : forall j x, nth_error (thrs s) j = Some x -> nth_error (thrs s ++ [mkT o m match o with OCreate => PLock | _ => PRLock end]) j = Some x) by (intros j x Hx; rewrite nth_error_app1; [exact Hx|apply nth_error_Some; congruence]). repeat split.
    + rewrite app_length. cbn. lia.
    + apply snoc_at in H as [[_ ->]|H]; [destruct o; discriminate|exact (proj1 (C _ _ H H0 H1))].
    + apply snoc_at in H as [[_ ->]|H]; [destruct o; discriminate|exact (proj2 (C _ _ H H0 H1))].
    + apply in_app_or in H as [H|[H|[]]]; [exact (proj1 (D _ _ _ H))|]. injection H as <- <- <-. exact B.
    + apply in_app_or in H as [H|[H|[]]]; [destruct (D _ _ _ H) as (_ & x & X & Y); exists x; auto|]. injection H as <- <- <-. eexists. split; [rewrite nth_error_app2, Nat.sub_diag by lia; reflexivity|reflexivity].
    + intros j z H Hb. apply in_app_or in H as [H|[<-|[]]]; [|discriminate]. destruct (F _ _ H Hb) as (x & X & Y). exists x. auto.
  - cbn [step] in E. destruct (nth_error (thrs s) i) as [x|] eqn:Ex; [|discriminate].
    assert (Q : forall p m wr rd mk evx, (n <= i -> t_name x = name -> p <> PRUnlock None /\ p <> PGot None) -> (forall j o' m', ~ In (ECall j o' m') evx) -> (forall j z, In z evx -> bad j z = true -> j = i /\ (n <= i -> t_name x <> name)) ->
      n <= List.length (thrs (mkState m wr rd mk (upd (thrs s) i (mkT (t_op x) (t_name x) p)))) /\
      (forall j y, nth_error (upd (thrs s) i (mkT (t_op x) (t_name x) p)) j = Some y -> n <= j -> t_name y = name -> t_pc y <> PRUnlock None /\ t_pc y <> PGot None) /\
      (forall j o' m', In (ECall j o' m') (evs ++ evx) -> n <= j /\ exists y, nth_error (upd (thrs s) i (mkT (t_op x) (t_name x) p)) j = Some y /\ t_name y = m') /\
      (forall j z, In z (evs ++ evx) -> bad j z = true -> exists y, nth_error (upd (thrs s) i (mkT (t_op x) (t_name x) p)) j = Some y /\ (n <= j -> t_name y <> name))).
    { intros p m wr rd mk evx Hp Hc Hq. assert (Ub : forall j y, nth_error (thrs s) j = Some y -> exists y', nth_error (upd (thrs s) i (mkT (t_op x) (t_name x) p)) j = Some y' /\ t_name y' = t_name y).
      { intros j y Hy. destruct (Nat.eq_dec i j) as [<-|Hn]; [eexists; split; [apply nth_upd_eq, nth_error_Some; congruence|cbn; congruence]|]. exists y. split; [rewrite nth_upd_neq by congruence; exact Hy|reflexivity]. }
      split; [cbn [thrs]; now rewrite upd_length|]. split; [|split].
      - intros j y Hy Hj Hm. apply (upd_at _ _ _ _ _ _ Ex) in Hy as [[<- ->]|[_ Hy]]; [exact (Hp Hj Hm)|exact (C _ _ Hy Hj Hm)].
      - intros j o' m' H. apply in_app_or in H as [H|H]; [|destruct (Hc _ _ _ H)]. destruct (D _ _ _ H) as (P & y & X & Y). split; [exact P|]. destruct (Ub _ _ X) as (y' & X' & Y'). exists y'. split; [exact X'|congruence].
      - intros j z H Hb. apply in_app_or in H as [H|H].
        + destruct (F _ _ H Hb) as (y & X & Y). destruct (Ub _ _ X) as (y' & X' & Y'). exists y'. rewrite Y'. auto.
        + destruct (Hq _ _ H Hb) as [-> Hz]. destruct (Ub _ _ Ex) as (y' & X' & Y'). exists y'. rewrite Y'. auto. }
    specialize (C _ _ Ex). clear D F. unfold goto, set_thrs in E.
    destruct (t_pc x) as [| |r|r| | | |k'|k'|k'|] eqn:Ep; try discriminate E.
    + destruct (writer s); [discriminate|]. injection E as <- <-. apply Q; [|intros j o' m' []|intros j z []]. now split.
    + injection E as <- <-. apply Q; [|intros j o' m' []|intros j z []]. intros _ ->. rewrite A. split; discriminate.
    + injection E as <- <-. apply Q; [|intros j o' m' []|intros j z []]. intros H1 H2. destruct (C H1 H2) as [C1 _]. split; [discriminate|congruence].
    + destruct (t_op x) as [| | |w|] eqn:Eo; [destruct r|destruct r|destruct r|destruct r|destruct r]; try (destruct (String.eqb w "")); injection E as <- <-; (apply Q;
        [now split|first [intros j o' m' []; fail|intros j o' m' [X|[]]; discriminate X]|first [intros j z []; fail|intros j z [<-|[]] Y; first [discriminate Y|cbn [bad] in Y; apply Nat.eqb_eq in Y as <-; (split; [reflexivity|]); intros H1 H2; destruct (C H1 H2) as [_ C2]; congruence]]]).
    + destruct (writer s); [discriminate|]. destruct (readers s); [|discriminate]. injection E as <- <-. apply Q; [|intros j o' m' []|intros j z []]. now split.
    + injection E as <- <-. apply Q; [|intros j o' m' []|intros j z []]. intros _ _. destruct (aget (t_name x) (tmap s)); now split.
    + injection E as <- <-. apply Q; [now split|intros j o' m' [X|[]]; discriminate X|intros j z [<-|[]] Y; discriminate Y].
    + injection E as <- <-. apply Q; [|intros j o' m' []|intros j z []]. now split.
    + injection E as <- <-. apply Q; [|intros j o' m' []|intros j z []]. now split.
    + injection E as <- <-. apply Q; [now split|intros j o' m' [X|[]]; discriminate X|intros j z [<-|[]] Y; discriminate Y].
Qed.
Lemma known_no_panic pre s0 e0 j name k : run step init pre = Some (s0, e0) -> In (ERet j name k) e0 ->
  forall sched s evs, run step s0 sched = Some (s, evs) -> okP name k (List.length (thrs s0)) evs s.
Proof.
  intros Hp Hr sched s evs H. pose proof (okM_reach _ _ _ Hp) as HM. assert (I : okM (e0 ++ evs) s /\ okP name k (List.length (thrs s0)) evs s); [|exact (proj2 I)].
  revert sched s evs H. refine (run_inv step s0 (fun _ evs s => okM (e0 ++ evs) s /\ okP name k (List.length (thrs s0)) evs s) _ _).
  - rewrite app_nil_r. split; [exact HM|]. destruct HM as (_ & _ & _ & R & _). split; [eapply R; left; exact Hr|]. split; [lia|]. split; [|split; [intros i o m []|intros i z []]].
    intros i x Hx Hi. assert (i < List.length (thrs s0)) by (apply nth_error_Some; congruence). lia.
  - intros sch e1 s1 l s2 e2 H1 [I1 I2] E. split; [|exact (okP_step _ _ _ _ _ _ _ _ _ I1 I2 E)].
    pose proof (run_app _ _ _ _ _ _ _ _ Hp (run_app _ _ _ _ _ _ _ _ H1 (run_one _ _ _ _ _ E))) as HR. exact (okM_reach _ _ _ HR).
Qed.
