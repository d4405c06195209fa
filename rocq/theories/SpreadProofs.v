(** Proofs about [SpreadModel]. *)
From Coq Require Import List String ZArith Bool Arith Permutation Lia.
From Verif Require Import Machine MachineMore AddrModel AddrSpec AddrProofs AddrFacts SpreadModel SpreadSpec.
Import ListNotations.
Open Scope list_scope.

Lemma entry_eqb_eq x y : entry_eqb x y = true -> x = y.
Proof. destruct x, y. unfold entry_eqb. cbn. intros H. apply andb_true_iff in H as [A B]. apply String.eqb_eq in A. apply Nat.eqb_eq in B. congruence. Qed.
Lemma take_out_perm x : forall l r, take_out x l = Some r -> Permutation (x :: r) l.
Proof.
  induction l as [|y l IH]; intros r H; cbn in H; [discriminate|]. destruct (entry_eqb x y) eqn:E.
  - injection H as <-. apply entry_eqb_eq in E. subst. reflexivity.
  - destruct (take_out x l) as [r'|]; [|discriminate]. injection H as <-. rewrite perm_swap. constructor. auto.
Qed.
Lemma reordered_perm : forall a b, reordered a b = true -> Permutation a b.
Proof.
  induction a as [|x a IH]; intros b H; cbn in H; [destruct b; [constructor|discriminate]|].
  destruct (take_out x b) as [b'|] eqn:E; [|discriminate]. apply take_out_perm in E. rewrite <- E. constructor. auto.
Qed.

Section Spread.
Variable weight : string -> Z.
Definition cmds (y : job) : list cmd := reg_cmds (jnode y) (jep y) (jty y) (jid y) (weight (jty y)).
Definition at_stage (y : job) (p : stage) : job := mkJ (jnode y) (jep y) (jty y) (jid y) p.
Inductive move (j : nat) (y : job) : stage -> store -> stage -> store -> list event -> Prop :=
| m_begin b : move j y Sent b (Under (cmds y)) b []
| m_refuse b : move j y Sent b Refused b [VRefused j]
| m_cmd c r b : move j y (Under (c :: r)) b (Under r) (apply b c) []
| m_done b : move j y (Under []) b Placed b [VPlaced j (jty y) (jid y) (jnode y)].
Inductive change (s : state) (l : label) : state -> list event -> Prop :=
| c_pick ty u a b n ep id : l = LPick ty u a b -> Permutation a (nodes (book s)) -> Permutation b (nodes (book s)) ->
    GetLowWeightNodeForActor (book s) a b = Ok (n, ep) -> fresh s id = true ->
    change s l (mkS (book s) (jobs s ++ [mkJ n ep ty id Sent])) [VPick (List.length (jobs s)) ty id n]
| c_none ty : change s l s [VNone ty]
| c_move j y p b e : nth_error (jobs s) j = Some y -> move j y (jat y) (book s) p b e ->
    change s l (mkS b (upd (jobs s) j (at_stage y p))) e.
Lemma step_change s l s' e : step weight s l = Some (s', e) -> change s l s' e.
Proof.
  destruct l as [ty u a b|j|j|j|j]; cbn; intros H.
  - destruct (reordered a _ && reordered b _)%bool eqn:E; [|discriminate]. apply andb_true_iff in E as [E1 E2].
    destruct (GetLowWeightNodeForActor (book s) a b) as [[n ep]|] eqn:G; [|injection H as <- <-; constructor].
    destruct (fresh s _) eqn:F; [|discriminate]. injection H as <- <-.
    eapply c_pick; eauto using reordered_perm.
  - destruct (nth_error (jobs s) j) as [y|] eqn:N; [|discriminate]. destruct (jat y) eqn:A; try discriminate.
    injection H as <- <-. eapply c_move; [exact N|]. rewrite A. constructor.
  - destruct (nth_error (jobs s) j) as [y|] eqn:N; [|discriminate]. destruct (jat y) eqn:A; try discriminate.
    injection H as <- <-. eapply c_move; [exact N|]. rewrite A. constructor.
  - destruct (nth_error (jobs s) j) as [y|] eqn:N; [|discriminate]. destruct (jat y) as [|[|c r]| |] eqn:A; try discriminate.
    injection H as <- <-. change (change s (LCmd j) (mkS (apply (book s) c) (upd (jobs s) j (at_stage y (Under r)))) []). eapply c_move; [exact N|]. rewrite A. constructor.
  - destruct (nth_error (jobs s) j) as [y|] eqn:N; [|discriminate]. destruct (jat y) as [|[|c r]| |] eqn:A; try discriminate.
    injection H as <- <-. eapply c_move; [exact N|]. rewrite A. constructor.
Qed.

(** How many commands are executed. *)
Definition executed (p : stage) : nat := match p with Sent | Refused => 0 | Under r => 5 - List.length r | Placed => 5 end.
Definition stage_ok (y : job) : Prop := match jat y with Under r => exists k, r = skipn k (cmds y) | _ => True end.
Definition the_addr (y : job) : addr := mkAddr (jnode y) (jid y) (jty y) (jep y).
Lemma cmd_cases y c r : (exists k, c :: r = skipn k (cmds y)) ->
  (c = HSetId (jid y) (the_addr y) /\ List.length r = 4) \/ (c = SAddTy (jty y) (the_addr y) /\ List.length r = 3) \/
  (c = HSetNode (jnode y) (jep y) /\ List.length r = 2) \/ (c = HIncr (jnode y) (FType (jty y)) (weight (jty y)) /\ List.length r = 1) \/
  (c = HIncr (jnode y) FTotal (weight (jty y)) /\ r = []).
Proof.
  intros [k E]. unfold cmds, reg_cmds in E. destruct k as [|[|[|[|[|k]]]]]; cbn in E; try (injection E as -> ->; cbn; tauto).
  rewrite skipn_nil in E. discriminate.
Qed.

Lemma nth_app_new {A} (l : list A) x j y : nth_error (l ++ [x]) j = Some y -> nth_error l j = Some y \/ (j = List.length l /\ y = x).
Proof.
  intros H. destruct (Nat.lt_ge_cases j (List.length l)) as [L|L].
  - rewrite nth_error_app1 in H by exact L. now left.
  - rewrite nth_error_app2 in H by exact L. destruct (j - List.length l) as [|k] eqn:E; cbn in H.
    + right. injection H as <-. split; [lia|reflexivity].
    + destruct k; discriminate.
Qed.
Lemma nth_len {A} (l : list A) j y : nth_error l j = Some y -> j < List.length l.
Proof. intros H. apply nth_error_Some. congruence. Qed.

Record base (s0 : store) (x : list event) (s : state) : Prop := {
  b_nodes : nodes (book s) = nodes s0;
  b_listed : forall j y, nth_error (jobs s) j = Some y -> In (jnode y, jep y) (nodes s0);
  b_stage : forall j y, nth_error (jobs s) j = Some y -> stage_ok y;
  b_pick : forall j, picked x j <-> j < List.length (jobs s);
  b_vpick : forall j ty id n, In (VPick j ty id n) x -> exists y, nth_error (jobs s) j = Some y /\ jty y = ty /\ jid y = id /\ jnode y = n;
  b_fin : forall j y, nth_error (jobs s) j = Some y -> (finished x j <-> jat y = Refused \/ jat y = Placed);
  b_placed : forall j ty id n, In (VPlaced j ty id n) x ->
    exists y, nth_error (jobs s) j = Some y /\ jat y = Placed /\ jty y = ty /\ jid y = id /\ jnode y = n;
  b_known : forall j, finished x j -> j < List.length (jobs s) }.

Lemma aset_same {A} k (v : A) : forall l, aget k l = Some v -> aset k v l = l.
Proof.
  induction l as [|[k' v'] l IH]; cbn; [discriminate|]. destruct (String.eqb_spec k k') as [->|N]; intros H.
  - injection H as ->. reflexivity.
  - now rewrite IH.
Qed.
Lemma aget_in {A} k (v : A) : forall l, NoDup (map fst l) -> In (k, v) l -> aget k l = Some v.
Proof.
  induction l as [|[k' v'] l IH]; cbn; intros N H; [destruct H|]. apply NoDup_cons_iff in N as [N1 N2]. destruct H as [H|H].
  - injection H as -> ->. now rewrite String.eqb_refl.
  - destruct (String.eqb_spec k k') as [->|]; [|auto]. elim N1. apply (in_map fst) in H. exact H.
Qed.

Lemma finished_app x e j : finished (x ++ e) j <-> finished x j \/ finished e j.
Proof.
  unfold finished. split.
  - intros [H|(ty & id & n & H)]; apply in_app_or in H as [H|H]; eauto 8.
  - intros [[H|(ty & id & n & H)]|[H|(ty & id & n & H)]]; [left|right|left|right]; try (exists ty, id, n); apply in_or_app; auto.
Qed.
Lemma picked_app x e j : picked (x ++ e) j <-> picked x j \/ picked e j.
Proof.
  unfold picked. split.
  - intros (ty & id & n & H). apply in_app_or in H as [H|H]; eauto 6.
  - intros [(ty & id & n & H)|(ty & id & n & H)]; exists ty, id, n; apply in_or_app; auto.
Qed.

Lemma base_step s0 x s l s' e : NoDup (map fst (nodes s0)) -> base s0 x s -> step weight s l = Some (s', e) -> base s0 (x ++ e) s'.
Proof.
  intros ND B H. apply step_change in H. destruct H as [ty u a b n ep id El Pa Pb G F|ty|j y p b e N M].
  - constructor; cbn [book jobs].
    + apply B.
    + intros j y K. apply nth_app_new in K as [K|[-> ->]]; [eapply (b_listed _ _ _ B); eauto|]. cbn.
      rewrite <- (b_nodes _ _ _ B). eapply low_weight_registered; eauto.
    + intros j y K. apply nth_app_new in K as [K|[-> ->]]; [eapply (b_stage _ _ _ B); eauto|exact I].
    + intros j. rewrite picked_app, (b_pick _ _ _ B), app_length. cbn. split.
      * intros [K|(t & i & m & [K|[]])]; [lia|]. injection K; intros; lia.
      * intros K. destruct (Nat.eq_dec j (List.length (jobs s))) as [->|]; [right; repeat eexists; left; reflexivity|left; lia].
    + intros j t i m K. apply in_app_or in K as [K|[K|[]]].
      * destruct (b_vpick _ _ _ B _ _ _ _ K) as (y & Y & R). exists y. split; [|exact R]. rewrite nth_error_app1; [exact Y|eapply nth_len; eauto].
      * injection K as <- <- <- <-. exists (mkJ n ep ty id Sent). rewrite nth_error_app2, Nat.sub_diag by lia. cbn. auto.
    + intros j y K. rewrite finished_app. apply nth_app_new in K as [K|[-> ->]].
      * rewrite <- (b_fin _ _ _ B _ _ K). split; [intros [Q|[[Q|[]]|(t & i & m & [Q|[]])]]; try discriminate; exact Q|tauto].
      * cbn. split; [|intros [Q|Q]; discriminate].
        intros [Q|[[Q|[]]|(t & i & m & [Q|[]])]]; try discriminate. apply (b_known _ _ _ B) in Q. lia.
    + intros j t i m K. apply in_app_or in K as [K|[K|[]]]; [|discriminate].
      destruct (b_placed _ _ _ B _ _ _ _ K) as (y & Y & R). exists y. split; [|exact R]. rewrite nth_error_app1; [exact Y|eapply nth_len; eauto].
    + intros j K. rewrite app_length. cbn. apply finished_app in K as [K|[[Q|[]]|(t & i & m & [Q|[]])]]; try discriminate.
      apply (b_known _ _ _ B) in K. lia.
  - destruct B. constructor; auto.
    + intros j. rewrite picked_app, b_pick0. split; [intros [K|(t & i & m & [K|[]])]; [exact K|discriminate]|tauto].
    + intros j t i m K. apply in_app_or in K as [K|[K|[]]]; [eauto|discriminate].
    + intros j y K. rewrite finished_app, <- (b_fin0 _ _ K). split; [intros [Q|[[Q|[]]|(t & i & m & [Q|[]])]]; try discriminate; exact Q|tauto].
    + intros j t i m K. apply in_app_or in K as [K|[K|[]]]; [eauto|discriminate].
    + intros j K. apply finished_app in K as [K|[[Q|[]]|(t & i & m & [Q|[]])]]; try discriminate. auto.
  - assert (L := nth_len _ _ _ N).
    assert (NP : forall i ty id n, ~ In (VPick i ty id n) e) by (inversion M; subst; intros i ty id n [K|[]] || intros i ty id n []; discriminate).
    assert (ST := b_stage _ _ _ B _ _ N).
    constructor; cbn [book jobs].
    + rewrite <- (b_nodes _ _ _ B). inversion M as [| |c r b' E1 E2 E3 E4 E5|]; subst; try reflexivity.
      unfold stage_ok in ST. rewrite <- E1 in ST. apply cmd_cases in ST as [[-> _]|[[-> _]|[[-> _]|[[-> _]|[-> _]]]]]; try reflexivity.
      cbn. apply aset_same. rewrite (b_nodes _ _ _ B). apply aget_in; [exact ND|]. eapply b_listed; eauto.
    + intros i z K. rewrite nth_upd in K by exact L. destruct (Nat.eqb_spec j i) as [<-|]; [injection K as <-; cbn|]; eapply (b_listed _ _ _ B); eauto.
    + intros i z K. rewrite nth_upd in K by exact L. destruct (Nat.eqb_spec j i) as [<-|]; [injection K as <-|eapply (b_stage _ _ _ B); eauto].
      unfold stage_ok in *. inversion M as [b1 E1|b1 E1|c r b1 E1|b1 E1]; subst; cbn; auto; [exists 0; reflexivity|].
      rewrite <- E1 in ST. destruct ST as [k ST]. exists (S k). change (cmds (at_stage y (Under r))) with (cmds y).
      unfold cmds, reg_cmds in *. destruct k as [|[|[|[|[|k]]]]]; cbn in ST |- *; try (injection ST as _ ->; reflexivity). rewrite skipn_nil in ST. discriminate.
    + intros i. rewrite upd_length, picked_app, (b_pick _ _ _ B). split; [intros [K|(t & q & m & K)]; [exact K|elim (NP _ _ _ _ K)]|tauto].
    + intros i t q m K. apply in_app_or in K as [K|K]; [|elim (NP _ _ _ _ K)]. destruct (b_vpick _ _ _ B _ _ _ _ K) as (z & Z & R).
      rewrite nth_upd by exact L. destruct (Nat.eqb_spec j i) as [<-|]; [|eauto]. assert (z = y) as -> by congruence.
      eexists. split; [reflexivity|]. exact R.
    + intros i z K. rewrite finished_app. rewrite nth_upd in K by exact L. destruct (Nat.eqb_spec j i) as [<-|D].
      * injection K as <-. cbn [jat at_stage]. rewrite (b_fin _ _ _ B _ _ N).
        inversion M as [b1 E1|b1 E1|c r b1 E1|b1 E1]; subst.
        -- split; [intros [[Q|Q]|[[]|(? & ? & ? & [])]]; discriminate|intros [Q|Q]; discriminate].
        -- split; [auto|intros _; right; left; now left].
        -- split; [intros [[Q|Q]|[[]|(? & ? & ? & [])]]; discriminate|intros [Q|Q]; discriminate].
        -- split; [auto|intros _; right; right; repeat eexists; now left].
      * rewrite <- (b_fin _ _ _ B _ _ K). split; [intros [Q|Q]; [exact Q|]|tauto]. exfalso.
        inversion M as [b1 E1|b1 E1|c r b1 E1|b1 E1]; subst;
          destruct Q as [Q|(? & ? & ? & Q)]; cbn in Q; try tauto; destruct Q as [Q|[]]; try discriminate; injection Q; intros; subst; congruence.
    + intros i t q m K. apply in_app_or in K as [K|K].
      * destruct (b_placed _ _ _ B _ _ _ _ K) as (z & Z & A & R). rewrite nth_upd by exact L. destruct (Nat.eqb_spec j i) as [<-|]; [|eauto].
        assert (z = y) as -> by congruence. rewrite A in M. inversion M.
      * inversion M as [b1 E1|b1 E1|c r b1 E1|b1 E1]; subst; cbn in K; try tauto; destruct K as [K|[]]; [discriminate|]. injection K as <- <- <- <-.
        rewrite nth_upd, Nat.eqb_refl by exact L. eexists. split; [reflexivity|]. cbn. auto.
    + intros i K. rewrite upd_length. apply finished_app in K as [K|K]; [apply (b_known _ _ _ B); exact K|].
      inversion M as [b1 E1|b1 E1|c r b1 E1|b1 E1]; subst;
          destruct K as [Q|(? & ? & ? & Q)]; cbn in Q; try tauto; destruct Q as [Q|[]]; try discriminate; injection Q; intros; subst; assumption.
Qed.
Lemma base_run s0 sched s x : NoDup (map fst (nodes s0)) -> run (step weight) (start s0) sched = Some (s, x) -> base s0 x s.
Proof.
  intros ND. apply (run_inv (step weight) (start s0) (fun _ x s => base s0 x s)).
  - constructor; cbn; try reflexivity; try (intros [|j]; cbn; try (intros; discriminate)).
    + split; [intros (? & ? & ? & [])|lia].
    + split; [intros (? & ? & ? & [])|lia].
    + intros ? ? ? [].
    + intros ? ? ? [].
    + intros ? ? ? [].
    + intros ? ? ? [].
    + intros [[]|(? & ? & ? & [])].
    + intros [[]|(? & ? & ? & [])].
  - intros. eapply base_step; eauto.
Qed.

(** Records and types. *)
Record recs (s : state) : Prop := {
  r_ids : NoDup (map jid (jobs s));
  r_rec : forall j y, nth_error (jobs s) j = Some y -> 1 <= executed (jat y) -> rec (book s) (jid y) = Some (the_addr y);
  r_mem : forall j y, nth_error (jobs s) j = Some y -> 2 <= executed (jat y) -> mem (book s) (jty y) (the_addr y) }.
Lemma map_upd {A B} (f : A -> B) x : forall l j y, nth_error l j = Some y -> f x = f y -> map f (upd l j x) = map f l.
Proof.
  induction l as [|a l IH]; intros [|j] y H E; cbn in *; try discriminate.
  - injection H as ->. now rewrite E.
  - f_equal. eapply IH; eauto.
Qed.
Lemma nodup_nth {A B} (f : A -> B) l i j x y : NoDup (map f l) -> nth_error l i = Some x -> nth_error l j = Some y -> f x = f y -> i = j.
Proof.
  intros N Hi Hj E. rewrite NoDup_nth_error in N. apply N.
  - rewrite map_length. eapply nth_len; eauto.
  - rewrite (map_nth_error f i l Hi), (map_nth_error f j l Hj). congruence.
Qed.
Lemma recs_step s0 x s l s' e : base s0 x s -> recs s -> step weight s l = Some (s', e) -> recs s'.
Proof.
  intros B R H. apply step_change in H. destruct H as [ty u a b n ep id El Pa Pb G F|ty|j y p b e N M].
  - unfold fresh in F. apply andb_true_iff in F as [_ F]. rewrite forallb_forall in F. constructor; cbn [book jobs].
    + rewrite map_app. cbn. apply Permutation_NoDup with (id :: map jid (jobs s)); [apply Permutation_cons_append|]. constructor; [|apply R].
      intros K. apply in_map_iff in K as (z & E & K). specialize (F z K). rewrite E, String.eqb_refl in F. discriminate.
    + intros j y K X. apply nth_app_new in K as [K|[-> ->]]; [eapply (r_rec _ R); eauto|cbn in X; lia].
    + intros j y K X. apply nth_app_new in K as [K|[-> ->]]; [eapply (r_mem _ R); eauto|cbn in X; lia].
  - exact R.
  - assert (L := nth_len _ _ _ N). assert (ST := b_stage _ _ _ B _ _ N). unfold stage_ok in ST. constructor; cbn [book jobs].
    + rewrite (map_upd jid _ _ _ _ N); [apply R|reflexivity].
    + intros i z K X. rewrite nth_upd in K by exact L. destruct (Nat.eqb_spec j i) as [<-|D].
      * injection K as <-. cbn [jat at_stage jid] in *. change (the_addr (at_stage y p)) with (the_addr y).
        inversion M as [b1 E1 E2 E3|b1 E1 E2 E3|c r b1 E1 E2 E3|b1 E1 E2 E3]; subst; cbn [executed] in X.
        -- exfalso. cbn in X. lia.
        -- lia.
        -- rewrite <- E1 in ST. rewrite rec_apply. apply cmd_cases in ST as [[-> Lr]|[[-> Lr]|[[-> Lr]|[[-> Lr]|[-> ->]]]]];
             try (apply (r_rec _ R _ _ N); rewrite <- E1; cbn [executed List.length]; lia). now rewrite String.eqb_refl.
        -- apply (r_rec _ R _ _ N). rewrite <- E1. cbn. lia.
      * pose proof (r_rec _ R _ _ K X) as Q. inversion M as [b1 E1 E2 E3|b1 E1 E2 E3|c r b1 E1 E2 E3|b1 E1 E2 E3]; subst; auto.
        rewrite <- E1 in ST. rewrite rec_apply. apply cmd_cases in ST as [[-> Lr]|[[-> Lr]|[[-> Lr]|[[-> Lr]|[-> ->]]]]]; auto.
        destruct (String.eqb_spec (jid z) (jid y)) as [E|]; [|exact Q]. elim D. symmetry. exact (nodup_nth jid _ _ _ _ _ (r_ids _ R) K N E).
    + intros i z K X. rewrite nth_upd in K by exact L. destruct (Nat.eqb_spec j i) as [<-|D].
      * injection K as <-. cbn [jat at_stage jty] in *. change (the_addr (at_stage y p)) with (the_addr y).
        inversion M as [b1 E1 E2 E3|b1 E1 E2 E3|c r b1 E1 E2 E3|b1 E1 E2 E3]; subst; cbn [executed] in X.
        -- exfalso. cbn in X. lia.
        -- lia.
        -- rewrite <- E1 in ST. rewrite mem_apply. apply cmd_cases in ST as [[-> Lr]|[[-> Lr]|[[-> Lr]|[[-> Lr]|[-> ->]]]]];
             try (apply (r_mem _ R _ _ N); rewrite <- E1; cbn [executed List.length]; lia). left. auto.
        -- apply (r_mem _ R _ _ N). rewrite <- E1. cbn. lia.
      * pose proof (r_mem _ R _ _ K X) as Q. inversion M as [b1 E1 E2 E3|b1 E1 E2 E3|c r b1 E1 E2 E3|b1 E1 E2 E3]; subst; auto.
        rewrite <- E1 in ST. rewrite mem_apply. apply cmd_cases in ST as [[-> Lr]|[[-> Lr]|[[-> Lr]|[[-> Lr]|[-> ->]]]]]; auto.
Qed.
Lemma recs_run s0 sched s x : NoDup (map fst (nodes s0)) -> run (step weight) (start s0) sched = Some (s, x) -> recs s.
Proof.
  intros ND. apply (run_inv (step weight) (start s0) (fun _ x s => recs s)).
  - constructor; cbn; [constructor| |]; intros [|j]; discriminate.
  - intros sc ev t l t' e Hr R H. eapply recs_step; eauto. eapply base_run; eauto.
Qed.

(** Weights. *)
Definition charged (n : string) (y : job) : Z := if (String.eqb (jnode y) n && Nat.leb 5 (executed (jat y)))%bool then weight (jty y) else 0%Z.
Definition settled (n : string) (y : job) : Z := match jat y with Placed => if String.eqb (jnode y) n then weight (jty y) else 0%Z | _ => 0%Z end.
Fixpoint total (f : job -> Z) (l : list job) : Z := match l with [] => 0%Z | y :: r => (f y + total f r)%Z end.
Lemma total_app f a b : total f (a ++ b) = (total f a + total f b)%Z.
Proof. induction a as [|x a IH]; cbn; [reflexivity|]. rewrite IH. lia. Qed.
Lemma total_upd f x : forall l j y, nth_error l j = Some y -> total f (upd l j x) = (total f l - f y + f x)%Z.
Proof.
  induction l as [|a l IH]; intros [|j] y H; cbn in *; try discriminate.
  - injection H as ->. lia.
  - rewrite (IH _ _ H). lia.
Qed.
Lemma placed_app n a b : placed_on weight n (a ++ b) = (placed_on weight n a + placed_on weight n b)%Z.
Proof. induction a as [|v a IH]; [reflexivity|]. cbn [placed_on app]. destruct v; rewrite IH; lia. Qed.
Lemma weights_step s0 x s l s' e n : base s0 x s -> step weight s l = Some (s', e) ->
  stored (book s) n FTotal = (stored s0 n FTotal + total (charged n) (jobs s))%Z /\ placed_on weight n x = total (settled n) (jobs s) ->
  stored (book s') n FTotal = (stored s0 n FTotal + total (charged n) (jobs s'))%Z /\ placed_on weight n (x ++ e) = total (settled n) (jobs s').
Proof.
  intros B H [I1 I2]. apply step_change in H. destruct H as [ty u a b m ep id El Pa Pb G F|ty|j y p b e N M]; cbn [book jobs].
  - rewrite placed_app, !total_app, I1, I2. unfold charged, settled. cbn. rewrite andb_false_r. lia.
  - rewrite placed_app, I1, I2. cbn. lia.
  - assert (ST := b_stage _ _ _ B _ _ N). unfold stage_ok in ST. rewrite placed_app, I2, !(total_upd _ _ _ _ _ N).
    unfold charged at 2 3, settled at 3 4. cbn [at_stage jat jnode jty].
    inversion M as [b1 E1 E2 E3|b1 E1 E2 E3|c r b1 E1 E2 E3|b1 E1 E2 E3]; subst; rewrite <- ?E1 in *; cbn [executed placed_on].
    + rewrite I1. cbn. rewrite !andb_false_r. lia.
    + rewrite I1. cbn. rewrite !andb_false_r. lia.
    + apply cmd_cases in ST. unfold stored in *. change (fget FTotal (fields ?v ?w)) with (fld v w FTotal) in *.
      rewrite fld_apply. cbn [List.length].
      destruct ST as [[-> Lr]|[[-> Lr]|[[-> Lr]|[[-> Lr]|[-> ->]]]]]; rewrite ?Lr; cbn [field_eqb andb]; rewrite ?andb_false_r; cbn [Nat.sub Nat.leb andb List.length];
        rewrite ?andb_false_r; try (rewrite I1; lia).
      rewrite !andb_true_r, (String.eqb_sym n). destruct (String.eqb_spec (jnode y) n) as [->|]; rewrite ?I1; [|lia]. destruct (fld (book s) n FTotal); lia.
    + rewrite I1. cbn. rewrite !andb_true_r. lia.
Qed.
Lemma weights_run s0 sched s x n : NoDup (map fst (nodes s0)) -> run (step weight) (start s0) sched = Some (s, x) ->
  stored (book s) n FTotal = (stored s0 n FTotal + total (charged n) (jobs s))%Z /\ placed_on weight n x = total (settled n) (jobs s).
Proof.
  intros ND. apply (run_inv (step weight) (start s0) (fun _ x s => stored (book s) n FTotal = (stored s0 n FTotal + total (charged n) (jobs s))%Z /\ placed_on weight n x = total (settled n) (jobs s))).
  - cbn. lia.
  - intros sc ev t l t' e Hr R H. eapply weights_step; eauto. eapply base_run; eauto.
Qed.
Lemma total_same f g l : (forall y, In y l -> f y = g y) -> total f l = total g l.
Proof. induction l as [|y l IH]; intros H; cbn; [reflexivity|]. rewrite H, IH; auto; cbn; auto. intros z K. apply H. now right. Qed.

(** Evenness. *)
Definition active (s : state) (j : nat) (y : job) : Prop := nth_error (jobs s) j = Some y /\ jat y <> Refused /\ jat y <> Placed.
Record level (d : Z) (s : state) : Prop := {
  l_even : even (book s) d;
  l_one : forall i j y z, active s i y -> active s j z -> i = j;
  l_light : forall j y, active s j y -> executed (jat y) < 5 ->
    exists a, weighs (book s) (jnode y) a /\ forall m f b, In (m, f) (nodes (book s)) -> weighs (book s) m b -> (a <= b)%Z }.
Lemma weighs_apply s c n z : (forall m w, c <> HIncr m FTotal w) -> (forall m, c <> DelNode m) -> weighs (apply s c) n z <-> weighs s n z.
Proof.
  intros H1 H2. unfold weighs, node_weight. change (fget FTotal (fields ?v ?w)) with (fld v w FTotal). rewrite fld_apply.
  destruct c; try tauto.
  - destruct f; [elim (H1 _ _ eq_refl)|]. cbn. rewrite andb_false_r. tauto.
  - elim (H2 _ eq_refl).
Qed.
Lemma weighs_incr s m w n z : weighs (apply s (HIncr m FTotal w)) n z <->
  (n = m /\ z = ((match node_weight s m with Some v => v | None => 0 end) + w)%Z) \/ (n <> m /\ weighs s n z).
Proof.
  unfold weighs, node_weight. change (fget FTotal (fields ?v ?w)) with (fld v w FTotal). rewrite fld_apply. cbn [field_eqb]. rewrite andb_true_r.
  destruct (String.eqb_spec n m) as [->|D]; [|tauto]. split; [intros H; injection H as <-; auto|intros [[_ ->]|[H _]]; [reflexivity|congruence]].
Qed.
Lemma one_prefix x e : one_at_a_time (x ++ e) -> one_at_a_time x.
Proof. intros H a j ty id n y E i P. apply (H a j ty id n (y ++ e)) with (i := i); [rewrite E, <- app_assoc; reflexivity|exact P]. Qed.
Lemma level_step s0 x s l s' e d W : base s0 x s -> (forall ty, (0 <= weight ty <= W)%Z) -> (W <= d)%Z ->
  same_order l -> one_at_a_time (x ++ e) -> NoDup (map fst (nodes s0)) ->
  level d s -> step weight s l = Some (s', e) -> level d s'.
Proof.
  intros B HW HD SO OT ND V H. assert (B' := base_step _ _ _ _ _ _ ND B H). apply step_change in H. destruct H as [ty u a b n ep id El Pa Pb G F|ty|j y p b e N M]; cbn [book jobs].
  - subst l. cbn in SO. subst b. assert (NA : forall i z, ~ active s i z).
    { intros i z (A1 & A2 & A3). assert (K : finished x i). { eapply OT; [reflexivity|]. apply (b_pick _ _ _ B). eapply nth_len; eauto. }
      apply (b_fin _ _ _ B _ _ A1) in K. tauto. }
    constructor; cbn [book].
    + apply V.
    + intros i j z t (A1 & A2) (A3 & A4). cbn [jobs] in *. apply nth_app_new in A1 as [A1|[-> _]]; [elim (NA i z); split; assumption|].
      apply nth_app_new in A3 as [A3|[-> _]]; [elim (NA j t); split; assumption|reflexivity].
    + intros j z (A1 & A2) _. cbn [jobs] in *. apply nth_app_new in A1 as [A1|[-> ->]]; [elim (NA j z); split; assumption|]. cbn [jnode].
      destruct (low_weight_same_order _ _ _ _ Pa G) as [_ (w & A & C)]. exists w. split; [exact A|]. intros m f v K J. eapply C; eauto.
  - exact V.
  - assert (L := nth_len _ _ _ N). assert (ST := b_stage _ _ _ B _ _ N). unfold stage_ok in ST.
    assert (Ac : active s j y). { split; [exact N|]. inversion M; split; discriminate. }
    assert (AJ : forall i z, active (mkS b (upd (jobs s) j (at_stage y p))) i z -> i = j /\ z = at_stage y p).
    { intros i z (A1 & A2). cbn [jobs] in A1. rewrite nth_upd in A1 by exact L. destruct (Nat.eqb_spec j i) as [<-|D]; [injection A1 as <-; auto|].
      elim D. eapply (l_one _ _ V); [exact Ac|]. split; [exact A1|exact A2]. }
    assert (One : forall i k z t, active (mkS b (upd (jobs s) j (at_stage y p))) i z -> active (mkS b (upd (jobs s) j (at_stage y p))) k t -> i = k).
    { intros i k z t A C. apply AJ in A as [-> _]. apply AJ in C as [-> _]. reflexivity. }
    assert (Same : b = book s -> executed p = executed (jat y) -> level d (mkS b (upd (jobs s) j (at_stage y p)))).
    { intros -> X. constructor; cbn [book]; [apply V|exact One|]. intros i z A J. apply AJ in A as [-> ->]. cbn [jat at_stage jnode] in *.
      apply (l_light _ _ V _ _ Ac). lia. }
    inversion M as [b1 E1 E2 E3|b1 E1 E2 E3|c r b1 E1 E2 E3|b1 E1 E2 E3]; subst.
    + apply Same; [reflexivity|]. rewrite <- E1. reflexivity.
    + apply Same; [reflexivity|]. rewrite <- E1. reflexivity.
    + rewrite <- E1 in ST. assert (Nd : nodes (apply (book s) c) = nodes (book s)) by (rewrite (b_nodes _ _ _ B); apply (b_nodes _ _ _ B')).
      assert (Dc := cmd_cases _ _ _ ST).
      assert (Q : (c = HIncr (jnode y) FTotal (weight (jty y)) /\ r = []) \/ ((forall m w, c <> HIncr m FTotal w) /\ (forall m, c <> DelNode m) /\ 1 <= List.length r <= 4)).
      { destruct Dc as [[-> Lr]|[[-> Lr]|[[-> Lr]|[[-> Lr]|[-> ->]]]]]; [right|right|right|right|left; auto]; (split; [discriminate|split; [discriminate|lia]]). }
      destruct Q as [[-> ->]|(Q1 & Q2 & Q3)].
      * destruct (l_light _ _ V _ _ Ac) as (a & A1 & A2); [rewrite <- E1; cbn [executed List.length]; lia|]. constructor; cbn [book]; [|exact One|].
        -- intros n m e f u v Hn Hm Wn Wm. rewrite Nd in *. unfold weighs in A1. apply weighs_incr in Wn. apply weighs_incr in Wm. rewrite A1 in *.
           pose proof (HW (jty y)). assert (Hb := b_listed _ _ _ B _ _ N). rewrite <- (b_nodes _ _ _ B) in Hb.
           destruct Wn as [[-> ->]|[Dn Wn]], Wm as [[-> ->]|[Dm Wm]].
           ++ lia.
           ++ pose proof (A2 _ _ _ Hm Wm). lia.
           ++ pose proof (l_even _ _ V _ _ _ _ _ _ Hn Hb Wn A1). lia.
           ++ exact (l_even _ _ V _ _ _ _ _ _ Hn Hm Wn Wm).
        -- intros i z A X. apply AJ in A as [-> ->]. cbn in X. lia.
      * constructor; cbn [book]; [|exact One|].
        -- intros n m e f u v Hn Hm Wn Wm. rewrite Nd in *. rewrite weighs_apply in Wn by assumption. rewrite weighs_apply in Wm by assumption.
           exact (l_even _ _ V _ _ _ _ _ _ Hn Hm Wn Wm).
        -- intros i z A X. apply AJ in A as [-> ->]. cbn [jnode at_stage]. destruct (l_light _ _ V _ _ Ac) as (a & A1 & A2); [rewrite <- E1; cbn [executed List.length]; lia|].
           exists a. rewrite weighs_apply by assumption. split; [exact A1|]. intros m f v Hm Wm. rewrite Nd in Hm. rewrite weighs_apply in Wm by assumption. eauto.
    + apply Same; [reflexivity|]. rewrite <- E1. reflexivity.
Qed.
Lemma level_run s0 sched s x d W : NoDup (map fst (nodes s0)) -> (forall ty, (0 <= weight ty <= W)%Z) -> (W <= d)%Z -> even s0 d ->
  run (step weight) (start s0) sched = Some (s, x) -> Forall same_order sched -> one_at_a_time x -> level d s.
Proof.
  intros ND HW HD HE. apply (run_inv (step weight) (start s0) (fun sc x s => Forall same_order sc -> one_at_a_time x -> level d s)).
  - intros _ _. constructor; cbn; [exact HE|intros i j y z [A _] _; destruct i; discriminate|intros j y [A _] _; destruct j; discriminate].
  - intros sc ev t l t' e Hr R H Fo OT. apply Forall_app in Fo as [F1 F2]. inversion F2; subst.
    eapply level_step; eauto. { eapply base_run; eauto. } apply R; [exact F1|]. eapply one_prefix; eauto.
Qed.
End Spread.
