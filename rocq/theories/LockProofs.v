(** Invariants of the lock. *)
From Coq Require Import List String ZArith Bool Lia.
From Verif Require Import Machine AddrModel AddrProofs LockModel LockSpec.
Import ListNotations.
Open Scope string_scope.
Open Scope list_scope.
Open Scope Z_scope.

Lemma upd_case {A} (l : list A) t c x k y : nth_error l t = Some c -> nth_error (upd l t x) k = Some y ->
  (k = t /\ y = x) \/ (k <> t /\ nth_error l k = Some y).
Proof.
  intros Ht H. assert (Hl : (t < List.length l)%nat) by (apply nth_error_Some; congruence).
  rewrite nth_upd in H by exact Hl. destruct (Nat.eqb_spec t k) as [->|Hn]; [injection H as <-; auto|right; auto].
Qed.
Lemma snoc_case {A} (l : list A) x k y : nth_error (l ++ [x]) k = Some y ->
  (k = List.length l /\ y = x) \/ nth_error l k = Some y.
Proof.
  intros H. destruct (Nat.lt_ge_cases k (List.length l)) as [Hk|Hk].
  - rewrite nth_error_app1 in H by exact Hk. auto.
  - rewrite nth_error_app2 in H by exact Hk. destruct (k - List.length l)%nat as [|m] eqn:E; cbn in H; [|destruct m; discriminate].
    injection H as <-. left. split; [lia|reflexivity].
Qed.

(** What the pc claims about the server. *)
Definition claim (p : pc) : option Z := match p with Ans _ sent true | Got sent => Some sent | _ => None end.
Definition since (p : pc) : option Z := match p with Wait _ sent => Some sent | _ => None end.
Record Inv (evs : list event) (s : state) : Prop := {
  v_sent : forall t c x, nth_error (calls s) t = Some c -> since (c_pc c) = Some x -> x <= now s;
  v_hold : forall t c x, nth_error (calls s) t = Some c -> claim (c_pc c) = Some x -> now s <= x + Expiry ->
    ~ In (EUnlock (c_tok c) (c_val c)) evs -> exists e, aget (c_tok c) (db s) = Some (c_val c, e) /\ x + Expiry <= e;
  v_grant : forall tok v e, aget tok (db s) = Some (v, e) -> In (EGrant tok v (e - Expiry)) evs }.

Lemma inv_calls evs s t c p e : Inv evs s -> nth_error (calls s) t = Some c ->
  (forall x, since p = Some x -> x <= now s) ->
  (forall x, claim p = Some x -> claim (c_pc c) = Some x) ->
  Inv (evs ++ e) (with_calls s (set_pc s t c p)).
Proof.
  intros [A B C] Hc Hs Hcl. constructor; cbn [calls with_calls now db].
  - intros u d x Hu. apply (upd_case _ _ _ _ _ _ Hc) in Hu as [[-> ->]|[_ Hu]]; [apply Hs|eapply A; eauto].
  - intros u d x Hu Hd Hn He.
    assert (He' : ~ In (EUnlock (c_tok d) (c_val d)) evs) by (intros X; apply He, in_or_app; auto).
    apply (upd_case _ _ _ _ _ _ Hc) in Hu as [[-> ->]|[_ Hu]]; [|eapply B; eauto].
    cbn in *. eapply (B t c x); eauto.
  - intros tok v x Hx. apply in_or_app. left. eauto.
Qed.

Lemma del_other s tok v tok' w e : tok' <> tok \/ w <> v -> aget tok' (db s) = Some (w, e) -> now s <= e ->
  aget tok' (fst (del_script s tok v)) = Some (w, e).
Proof.
  intros Hne H He. unfold del_script. destruct (live s tok) as [x|] eqn:L; [|exact H].
  destruct (String.eqb_spec x v) as [->|]; [|exact H]. cbn [fst]. rewrite aget_adel.
  destruct (String.eqb_spec tok' tok) as [->|]; [|exact H].
  unfold live in L. rewrite H in L. destruct (e <? now s); [discriminate|]. injection L as ->. tauto.
Qed.
Lemma del_sub s tok v tok' w e : aget tok' (fst (del_script s tok v)) = Some (w, e) -> aget tok' (db s) = Some (w, e).
Proof.
  unfold del_script. destruct (live s tok) as [x|]; [|auto]. destruct (String.eqb x v); [|auto]. cbn [fst]. rewrite aget_adel.
  destruct (String.eqb tok' tok); [discriminate|auto].
Qed.
Lemma inv_unlock evs s tok v e : Inv evs s -> In (EUnlock tok v) e ->
  Inv (evs ++ e) (mkState (now s) (fst (del_script s tok v)) (calls s) (flight s)).
Proof.
  intros [A B C] Hin. constructor; cbn [calls now db]; auto.
  - intros u d x Hu Hd Hn He. destruct (B u d x Hu Hd Hn) as (y & Hy & Hle); [intros X; apply He, in_or_app; auto|].
    exists y. split; [|exact Hle]. apply del_other; [|exact Hy|lia].
    destruct (string_dec (c_tok d) tok) as [E1|E1]; [|auto]. destruct (string_dec (c_val d) v) as [E2|E2]; [|auto].
    exfalso. apply He, in_or_app. right. congruence.
  - intros tok' w x Hx. apply in_or_app. left. apply del_sub in Hx. eauto.
Qed.
Lemma inv_more evs s e : Inv evs s -> Inv (evs ++ e) s.
Proof.
  intros [A B C]. constructor; auto.
  - intros u d x Hu Hd Hn He. apply (B u d x Hu Hd Hn). intros X; apply He, in_or_app; auto.
  - intros tok v x Hx. apply in_or_app. left. eauto.
Qed.

Lemma inv_flight evs s f : Inv evs s -> Inv evs (mkState (now s) (db s) (calls s) f).
Proof. intros [A B C]. constructor; auto. Qed.

Lemma inv_step evs s l s' e : Inv evs s -> step s l = Some (s', e) -> Inv (evs ++ e) s'.
Proof.
  intros HI H. destruct l as [d|tok v|t|t|k dl|k|t|t|t|t|tok v|tok v ex]; cbn [step] in H.
  - destruct (Z.ltb_spec 0 d); [|discriminate]. injection H as <- <-. rewrite app_nil_r. destruct HI as [A B C].
    constructor; cbn [now db calls]; auto.
    + intros t c x Hc Hx. specialize (A t c x Hc Hx). lia.
    + intros t c x Hc Hx Hn He. apply (B t c x Hc Hx); [lia|exact He].
  - assert (G : forall p e, since p = None -> claim p = None -> Inv (evs ++ e) (with_calls s (calls s ++ [mkCall tok v p]))).
    { intros p e0 H1 H2. apply inv_more. destruct HI as [A B C]. constructor; cbn [now db calls with_calls]; auto.
      - intros t c x Hc Hx. apply snoc_case in Hc as [[-> ->]|Hc]; [cbn in Hx; congruence|eauto].
      - intros t c x Hc Hx. apply snoc_case in Hc as [[-> ->]|Hc]; [cbn in Hx; congruence|eauto]. }
    destruct (String.eqb tok ""); injection H as <- <-; apply G; reflexivity.
  - destruct (nth_error (calls s) t) as [c|] eqn:Hc; [|discriminate]. destruct (c_pc c) eqn:Hp; try discriminate. injection H as <- <-.
    apply (inv_flight _ (with_calls s (set_pc s t c (Wait i (now s))))). apply inv_calls; auto; cbn.
    + intros x [= <-]. lia.
    + discriminate.
  - destruct (nth_error (calls s) t) as [c|] eqn:Hc; [|discriminate]. destruct (c_pc c) eqn:Hp; try discriminate. injection H as <- <-.
    rewrite app_nil_r. now apply inv_flight.
  - destruct (nth_error (flight s) k) as [[t i]|] eqn:Hf; [|discriminate].
    destruct (nth_error (calls s) t) as [c|] eqn:Hc; [|discriminate]. injection H as <- <-.
    set (ok := match live s (c_tok c) with None => true | Some _ => false end).
    destruct HI as [A B C].
    (* the store after the request *)
    assert (Hdb : forall tok v x, aget tok (db s) = Some (v, x) -> now s <= x ->
      aget tok (if ok then aset (c_tok c) (c_val c, now s + Expiry) (db s) else db s) = Some (v, x)).
    { intros tok v x Hx Hle. destruct ok eqn:Eo; [|exact Hx]. rewrite aget_aset. destruct (String.eqb_spec tok (c_tok c)) as [->|]; [|exact Hx].
      exfalso. unfold ok, live in Eo. rewrite Hx in Eo. destruct (Z.ltb_spec x (now s)); [lia|discriminate]. }
    assert (Hcases : forall u d, nth_error (match c_pc c with
                      | Wait j sent => if dl && Nat.eqb i j then set_pc s t c (Ans i sent ok) else calls s
                      | _ => calls s end) u = Some d ->
              nth_error (calls s) u = Some d \/ (u = t /\ exists j sent, c_pc c = Wait j sent /\ d = mkCall (c_tok c) (c_val c) (Ans i sent ok))).
    { intros u d. destruct (c_pc c) eqn:Hp; auto. destruct (dl && Nat.eqb i i0); auto. intros Hu.
      apply (upd_case _ _ _ _ _ _ Hc) in Hu as [[-> ->]|[_ Hu]]; [|auto]. right. split; [reflexivity|]. exists i0, sent. auto. }
    constructor; cbn [calls now db].
    + intros u d x Hu Hx. apply Hcases in Hu as [Hu|(-> & j & sent & Hp & ->)]; [eauto|discriminate].
    + intros u d x Hu Hx Hn He.
      assert (He' : ~ In (EUnlock (c_tok d) (c_val d)) evs) by (intros X; apply He, in_or_app; auto).
      apply Hcases in Hu as [Hu|(-> & j & sent & Hp & ->)].
      * destruct (B u d x Hu Hx Hn He') as (y & Hy & Hle). exists y. split; [|exact Hle]. apply Hdb; [exact Hy|lia].
      * cbn in Hx. destruct ok; [|discriminate]. injection Hx as ->. cbn [c_tok c_val]. exists (now s + Expiry).
        rewrite aget_aset, String.eqb_refl. split; [reflexivity|]. assert (x <= now s); [|lia].
        apply (A t c x Hc). now rewrite Hp.
    + intros tok v x. destruct ok; [|intros Hx; apply in_or_app; left; eauto].
      rewrite aget_aset. destruct (String.eqb_spec tok (c_tok c)) as [->|]; [|intros Hx; apply in_or_app; left; eauto].
      intros [= <- <-]. apply in_or_app. right. left. f_equal. lia.
  - destruct (nth_error (flight s) k) as [[t i]|]; [|discriminate]. injection H as <- <-. rewrite app_nil_r. now apply inv_flight.
  - destruct (nth_error (calls s) t) as [c|] eqn:Hc; [|discriminate]. destruct (c_pc c) as [| |i sent [|]| | | |] eqn:Hp; try discriminate; injection H as <- <-;
      (apply inv_calls; [exact HI|exact Hc|discriminate|]); cbn; try discriminate. rewrite Hp. auto.
  - destruct (nth_error (calls s) t) as [c|] eqn:Hc; [|discriminate]. destruct (c_pc c) eqn:Hp; try discriminate; injection H as <- <-;
      (apply inv_calls; [exact HI|exact Hc|discriminate|discriminate]).
  - destruct (nth_error (calls s) t) as [c|] eqn:Hc; [|discriminate]. destruct (c_pc c) eqn:Hp; try discriminate.
    destruct (until <=? now s); [|discriminate]. destruct (Nat.ltb (S i) Tries); injection H as <- <-;
      (apply inv_calls; [exact HI|exact Hc|discriminate|discriminate]).
  - destruct (nth_error (calls s) t) as [c|] eqn:Hc; [|discriminate]. injection H as <- <-.
    apply inv_calls; [exact HI|exact Hc|discriminate|discriminate].
  - destruct (String.eqb v ""); [injection H as <- <-; now apply inv_more|].
    destruct (del_script s tok v) as [d ok] eqn:Ed. injection H as <- <-.
    replace d with (fst (del_script s tok v)) by (now rewrite Ed). apply inv_unlock; [exact HI|now left].
  - destruct (String.eqb v ""); [injection H as <- <-; now apply inv_more|]. destruct ex; injection H as <- <-.
    + apply inv_unlock; [exact HI|now left].
    + now apply inv_more.
Qed.
Lemma inv_run sched s evs : run step init sched = Some (s, evs) -> Inv evs s.
Proof.
  revert sched s evs. apply (run_inv _ _ (fun _ evs s => Inv evs s)).
  - constructor; cbn; intros; try (destruct t; discriminate); discriminate.
  - intros sched e s l s' e' _ HI H. eapply inv_step; eauto.
Qed.

(** ** The calls of a schedule *)
Lemma drawn_app a b : drawn (a ++ b) = drawn a ++ drawn b.
Proof. induction a as [|[] a IH]; cbn; rewrite ?IH; reflexivity. Qed.
Lemma upd_map {A B} (f : A -> B) (l : list A) t c x : nth_error l t = Some c -> f x = f c -> map f (upd l t x) = map f l.
Proof. revert t; induction l as [|a l IH]; intros [|t] H E; cbn in *; try discriminate; [injection H as ->; now rewrite E|now rewrite (IH _ H E)]. Qed.
Lemma vals_step s l s' e : step s l = Some (s', e) -> map c_val (calls s') = map c_val (calls s) ++ drawn [l].
Proof.
  intros H. destruct l as [d|tok v|t|t|k dl|k|t|t|t|t|tok v|tok v ex]; cbn [step drawn] in *; rewrite ?app_nil_r.
  - destruct (0 <? d); [|discriminate]. injection H as <- <-. reflexivity.
  - destruct (String.eqb tok ""); injection H as <- <-; cbn; now rewrite map_app.
  - destruct (nth_error (calls s) t) as [c|] eqn:Hc; [|discriminate]. destruct (c_pc c); try discriminate. injection H as <- <-. eapply upd_map; eauto.
  - destruct (nth_error (calls s) t) as [c|] eqn:Hc; [|discriminate]. destruct (c_pc c); try discriminate. injection H as <- <-. reflexivity.
  - destruct (nth_error (flight s) k) as [[t i]|]; [|discriminate]. destruct (nth_error (calls s) t) as [c|] eqn:Hc; [|discriminate]. injection H as <- <-.
    cbn. destruct (c_pc c); auto. destruct (dl && Nat.eqb i i0); [|reflexivity]. eapply upd_map; eauto.
  - destruct (nth_error (flight s) k); [|discriminate]. injection H as <- <-. reflexivity.
  - destruct (nth_error (calls s) t) as [c|] eqn:Hc; [|discriminate]. destruct (c_pc c) as [| |i sent [|]| | | |]; try discriminate; injection H as <- <-; eapply upd_map; eauto.
  - destruct (nth_error (calls s) t) as [c|] eqn:Hc; [|discriminate]. destruct (c_pc c); try discriminate; injection H as <- <-; eapply upd_map; eauto.
  - destruct (nth_error (calls s) t) as [c|] eqn:Hc; [|discriminate]. destruct (c_pc c); try discriminate.
    destruct (until <=? now s); [|discriminate]. destruct (Nat.ltb (S i) Tries); injection H as <- <-; eapply upd_map; eauto.
  - destruct (nth_error (calls s) t) as [c|] eqn:Hc; [|discriminate]. injection H as <- <-. eapply upd_map; eauto.
  - destruct (String.eqb v ""); [injection H as <- <-; reflexivity|]. destruct (del_script s tok v). injection H as <- <-. reflexivity.
  - destruct (String.eqb v ""); [injection H as <- <-; reflexivity|]. destruct ex; injection H as <- <-; reflexivity.
Qed.
Lemma vals_run sched s evs : run step init sched = Some (s, evs) -> map c_val (calls s) = drawn sched.
Proof.
  revert sched s evs. apply (run_inv _ _ (fun sched _ s => map c_val (calls s) = drawn sched)); [reflexivity|].
  intros sched e s l s' e' _ HI H. rewrite drawn_app, <- HI. eapply vals_step; eauto.
Qed.

Lemma holds_db sched s evs t tok v : run step init sched = Some (s, evs) -> holds evs s t tok v ->
  exists e, aget tok (db s) = Some (v, e) /\ now s <= e.
Proof.
  intros H (x & Hr & Hn & Hu). apply inv_run in H. destruct (v_hold _ _ H t _ x Hr eq_refl Hn Hu) as (e & He & Hle).
  exists e. cbn in He. split; [exact He|lia].
Qed.
Lemma exclusion sched s evs t t' tok v v' : run step init sched = Some (s, evs) -> NoDup (drawn sched) ->
  holds evs s t tok v -> holds evs s t' tok v' -> t = t'.
Proof.
  intros H Hnd Hh Hh'. destruct (holds_db _ _ _ _ _ _ H Hh) as (e & He & _). destruct (holds_db _ _ _ _ _ _ H Hh') as (e' & He' & _).
  rewrite He in He'. injection He' as <- _. rewrite <- (vals_run _ _ _ H) in Hnd.
  destruct Hh as (x & Hr & _). destruct Hh' as (x' & Hr' & _).
  assert (E : nth_error (map c_val (calls s)) t = nth_error (map c_val (calls s)) t').
  { unfold returned in *. rewrite (map_nth_error c_val _ _ Hr), (map_nth_error c_val _ _ Hr'). reflexivity. }
  apply (proj1 (NoDup_nth_error _) Hnd); [|exact E]. apply nth_error_Some.
  unfold returned in *. rewrite (map_nth_error c_val _ _ Hr). discriminate.
Qed.
Lemma del_result s tok v : snd (del_script s tok v) = match live s tok with Some w => String.eqb w v | None => false end.
Proof. unfold del_script. destruct (live s tok); [|reflexivity]. destruct (String.eqb s0 v); reflexivity. Qed.

Lemma holds_unlock sched s evs t tok v tok' v' l s' e : run step init sched = Some (s, evs) -> holds evs s t tok v ->
  l = LUnlock tok' v' \/ (exists b, l = LUnlockErr tok' v' b) -> (tok', v') <> (tok, v) -> step s l = Some (s', e) ->
  holds (evs ++ e) s' t tok v /\ (tok' = tok -> In (ERet tok' v' false) e /\ db s' = db s).
Proof.
  intros H Hh Hl Hne Hs. pose proof (holds_db _ _ _ _ _ _ H Hh) as (x & Hx & Hle). destruct Hh as (sent & Hr & Hn & Hu).
  assert (Hlive : live s tok = Some v). { unfold live. rewrite Hx. destruct (Z.ltb_spec x (now s)); [lia|reflexivity]. }
  assert (Hdel : tok' = tok -> del_script s tok' v' = (db s, false)).
  { intros ->. unfold del_script. rewrite Hlive. destruct (String.eqb_spec v v') as [->|]; [congruence|reflexivity]. }
  assert (Hin : forall e0, (forall a, In a e0 -> a = EUnlock tok' v' \/ exists b, a = ERet tok' v' b) -> ~ In (EUnlock tok v) (evs ++ e0)).
  { intros e0 He X. apply in_app_or in X as [X|X]; [contradiction|]. apply He in X as [X|[b X]]; [congruence|discriminate]. }
  destruct Hl as [->|[b ->]]; cbn [step] in Hs.
  - destruct (String.eqb v' ""); [|destruct (del_script s tok' v') as [d ok] eqn:Ed]; injection Hs as <- <-.
    + split; [|intros _; split; [now left|reflexivity]]. exists sent. split; [exact Hr|]. split; [exact Hn|]. apply Hin. intros a [<-|[]]; eauto.
    + split.
      * exists sent. split; [exact Hr|]. split; [exact Hn|]. apply Hin. intros a [<-|[<-|[]]]; eauto.
      * intros E. specialize (Hdel E). injection Hdel as -> ->. split; [right; now left|reflexivity].
  - destruct (String.eqb v' ""); [|destruct b]; injection Hs as <- <-.
    + split; [|intros _; split; [now left|reflexivity]]. exists sent. split; [exact Hr|]. split; [exact Hn|]. apply Hin. intros a [<-|[]]; eauto.
    + split; [|intros E; split; [right; now left|cbn [db]; now rewrite (Hdel E)]].
      exists sent. split; [exact Hr|]. split; [exact Hn|]. apply Hin. intros a [<-|[<-|[]]]; eauto.
    + split; [|intros _; split; [now left|reflexivity]]. exists sent. split; [exact Hr|]. split; [exact Hn|]. apply Hin. intros a [<-|[]]; eauto.
Qed.
Lemma unlock_releases sched s evs t tok v s' e : run step init sched = Some (s, evs) -> holds evs s t tok v -> v <> "" ->
  step s (LUnlock tok v) = Some (s', e) -> In (ERet tok v true) e /\ live s' tok = None.
Proof.
  intros H Hh Hv Hs. destruct (holds_db _ _ _ _ _ _ H Hh) as (x & Hx & Hle).
  cbn [step] in Hs. apply String.eqb_neq in Hv. rewrite Hv in Hs. unfold del_script, live in Hs. rewrite Hx in Hs.
  destruct (Z.ltb_spec x (now s)); [lia|]. rewrite String.eqb_refl in Hs. injection Hs as <- <-.
  split; [right; now left|]. unfold live. cbn. now rewrite aget_adel, String.eqb_refl.
Qed.

(** ** Expiry *)
Lemma free_after_lease sched s evs k d t i c : run step init sched = Some (s, evs) ->
  nth_error (flight s) k = Some (t, i) -> nth_error (calls s) t = Some c ->
  (forall v x, In (EGrant (c_tok c) v x) evs -> x + Expiry < now s) ->
  exists s', step s (LExec k d) = Some (s', [EGrant (c_tok c) (c_val c) (now s)]) /\ live s' (c_tok c) = Some (c_val c).
Proof.
  intros H Hf Hc Hold. apply inv_run in H. cbn [step]. rewrite Hf, Hc.
  assert (Hl : live s (c_tok c) = None).
  { unfold live. destruct (aget (c_tok c) (db s)) as [[v x]|] eqn:E; [|reflexivity]. apply (v_grant _ _ H) in E. apply Hold in E.
    destruct (Z.ltb_spec x (now s)); [reflexivity|lia]. }
  rewrite Hl. eexists. split; [reflexivity|]. unfold live. cbn [db now]. rewrite aget_aset, String.eqb_refl.
  destruct (Z.ltb_spec (now s + Expiry) (now s)); [unfold Expiry in *; lia|reflexivity].
Qed.

(** ** Attempts are bounded *)
Definition used (p : pc) : nat :=
  match p with
  | Try i => 3 * i | Wait i _ => 3 * i + 1 | Ans i _ _ => 3 * i + 1 | Sleep i _ => 3 * i + 2
  | _ => 12
  end%nat.
Definition sent_of (p : pc) : nat :=
  match p with Try i => i | Wait i _ | Ans i _ _ | Sleep i _ => S i | _ => Tries end.
Definition in_range (p : pc) : Prop := match p with Try i | Wait i _ | Ans i _ _ | Sleep i _ => (i < Tries)%nat | _ => True end.
Record Cnt (sched : list label) (evs : list event) (s : state) : Prop := {
  k_range : forall t c, nth_error (calls s) t = Some c -> in_range (c_pc c);
  k_own : forall t c, nth_error (calls s) t = Some c -> (count (own t) sched <= used (c_pc c))%nat;
  k_sends : forall t c, nth_error (calls s) t = Some c -> (sends t evs <= sent_of (c_pc c))%nat;
  k_none : forall t, (List.length (calls s) <= t)%nat -> count (own t) sched = 0%nat /\ sends t evs = 0%nat }.

Lemma count_app f a b : count f (a ++ b) = (count f a + count f b)%nat.
Proof. unfold count. now rewrite filter_app, app_length. Qed.
Lemma sends_app t a b : sends t (a ++ b) = (sends t a + sends t b)%nat.
Proof. unfold sends. now rewrite filter_app, app_length. Qed.

(** Steps that are nobody's. *)
Lemma cnt_env sched evs s s' l e : Cnt sched evs s -> (forall t, own t l = false) -> (forall t, sends t e = 0%nat) ->
  List.length (calls s') = List.length (calls s) ->
  (forall t c, nth_error (calls s') t = Some c -> exists c0, nth_error (calls s) t = Some c0 /\ in_range (c_pc c) /\
     (used (c_pc c0) <= used (c_pc c))%nat /\ (sent_of (c_pc c0) <= sent_of (c_pc c))%nat) ->
  Cnt (sched ++ [l]) (evs ++ e) s'.
Proof.
  intros HI Ho He Hl Hc.
  assert (Hz : forall t, count (own t) [l] = 0%nat) by (intros t; unfold count; cbn; now rewrite Ho).
  constructor.
  - intros t c H. apply Hc in H as (c0 & H & R & _). exact R.
  - intros t c H. apply Hc in H as (c0 & H & _ & U & _). rewrite count_app, Hz. pose proof (k_own _ _ _ HI _ _ H). lia.
  - intros t c H. apply Hc in H as (c0 & H & _ & _ & U). rewrite sends_app, He. pose proof (k_sends _ _ _ HI _ _ H). lia.
  - intros t H. rewrite count_app, sends_app, Hz, He. rewrite Hl in H. destruct (k_none _ _ _ HI _ H). lia.
Qed.
(** A step of call [t]. *)
Lemma cnt_own sched evs s s' t c p l e : Cnt sched evs s -> nth_error (calls s) t = Some c ->
  calls s' = upd (calls s) t (mkCall (c_tok c) (c_val c) p) ->
  (forall u, u <> t -> own u l = false /\ sends u e = 0%nat) -> in_range p ->
  (used (c_pc c) + count (own t) [l] <= used p)%nat -> (sent_of (c_pc c) + sends t e <= sent_of p)%nat ->
  Cnt (sched ++ [l]) (evs ++ e) s'.
Proof.
  intros HI Hc E Hu Hr H1 H2.
  assert (Hz : forall u, u <> t -> count (own u) [l] = 0%nat) by (intros u H; unfold count; cbn; now rewrite (proj1 (Hu u H))).
  constructor.
  - intros u d Hd. rewrite E in Hd. apply (upd_case _ _ _ _ _ _ Hc) in Hd as [[-> ->]|[_ Hd]]; [exact Hr|exact (k_range _ _ _ HI _ _ Hd)].
  - intros u d Hd. rewrite E in Hd. rewrite count_app. apply (upd_case _ _ _ _ _ _ Hc) in Hd as [[-> ->]|[Hne Hd]].
    + pose proof (k_own _ _ _ HI _ _ Hc). cbn [c_pc]. lia.
    + rewrite (Hz _ Hne). pose proof (k_own _ _ _ HI _ _ Hd). lia.
  - intros u d Hd. rewrite E in Hd. rewrite sends_app. apply (upd_case _ _ _ _ _ _ Hc) in Hd as [[-> ->]|[Hne Hd]].
    + pose proof (k_sends _ _ _ HI _ _ Hc). cbn [c_pc]. lia.
    + rewrite (proj2 (Hu _ Hne)). pose proof (k_sends _ _ _ HI _ _ Hd). lia.
  - intros u H. rewrite E, upd_length in H. assert (u <> t) by (intros ->; apply nth_error_None in H; congruence).
    rewrite count_app, sends_app, (Hz _ H0), (proj2 (Hu _ H0)). destruct (k_none _ _ _ HI _ H). lia.
Qed.

Lemma own_one t : count (own t) [LSend t] = 1%nat /\ count (own t) [LRecv t] = 1%nat /\ count (own t) [LGiveUp t] = 1%nat /\ count (own t) [LWake t] = 1%nat.
Proof. unfold count. cbn. now rewrite Nat.eqb_refl. Qed.
Lemma cnt_step sched evs s l s' e : Cnt sched evs s -> step s l = Some (s', e) -> Cnt (sched ++ [l]) (evs ++ e) s'.
Proof.
  intros HI H. destruct l as [d|tok v|t|t|k dl|k|t|t|t|t|tok v|tok v ex]; cbn [step] in H.
  - destruct (0 <? d); [|discriminate]. injection H as <- <-. apply cnt_env with (s := s); auto. intros t c Hc. exists c. split; [exact Hc|]. split; [exact (k_range _ _ _ HI _ _ Hc)|lia].
  - assert (G : forall p e, in_range p -> (forall u, sends u e = 0%nat) -> Cnt (sched ++ [LLock tok v]) (evs ++ e) (with_calls s (calls s ++ [mkCall tok v p]))).
    { intros p e0 Hp He. assert (Hz : forall u, count (own u) [LLock tok v] = 0%nat) by reflexivity.
      constructor; cbn [calls with_calls].
      - intros u c Hc. apply snoc_case in Hc as [[-> ->]|Hc]; [exact Hp|exact (k_range _ _ _ HI _ _ Hc)].
      - intros u c Hc. rewrite count_app, Hz. apply snoc_case in Hc as [[-> ->]|Hc]; [destruct (k_none _ _ _ HI _ (le_n _)); lia|].
        pose proof (k_own _ _ _ HI _ _ Hc). lia.
      - intros u c Hc. rewrite sends_app, He. apply snoc_case in Hc as [[-> ->]|Hc]; [destruct (k_none _ _ _ HI _ (le_n _)); lia|].
        pose proof (k_sends _ _ _ HI _ _ Hc). lia.
      - intros u Hu. rewrite app_length in Hu. cbn in Hu. rewrite count_app, sends_app, Hz, He. destruct (k_none _ _ _ HI u); lia. }
    destruct (String.eqb tok ""); injection H as <- <-; apply G; cbn; auto. unfold Tries. lia.
  - destruct (nth_error (calls s) t) as [c|] eqn:Hc; [|discriminate]. destruct (c_pc c) eqn:Hp; try discriminate. injection H as <- <-.
    pose proof (k_range _ _ _ HI _ _ Hc) as Hr. rewrite Hp in Hr. destruct (own_one t) as (O1 & _).
    eapply cnt_own; [exact HI|exact Hc|reflexivity| |exact Hr| |].
    + intros u Hu. cbn. unfold sends. cbn. assert (E : Nat.eqb t u = false) by (apply Nat.eqb_neq; congruence). now rewrite E.
    + rewrite Hp, O1. cbn. lia.
    + rewrite Hp. unfold sends. cbn. rewrite Nat.eqb_refl. cbn. lia.
  - destruct (nth_error (calls s) t) as [c|] eqn:Hc; [|discriminate]. destruct (c_pc c) eqn:Hp; try discriminate. injection H as <- <-.
    apply cnt_env with (s := s); auto. intros u d Hd. exists d. split; [exact Hd|]. split; [exact (k_range _ _ _ HI _ _ Hd)|lia].
  - destruct (nth_error (flight s) k) as [[t i]|] eqn:Hf; [|discriminate].
    destruct (nth_error (calls s) t) as [c|] eqn:Hc; [|discriminate]. injection H as <- <-.
    apply cnt_env with (s := s); auto.
    + intros u. destruct (live s (c_tok c)); reflexivity.
    + cbn [calls]. destruct (c_pc c); auto. destruct (dl && Nat.eqb i i0); auto. unfold set_pc. apply upd_length.
    + cbn [calls]. intros u d Hd.
      assert (Hsame : nth_error (calls s) u = Some d -> exists c0, nth_error (calls s) u = Some c0 /\ in_range (c_pc d) /\
         (used (c_pc c0) <= used (c_pc d))%nat /\ (sent_of (c_pc c0) <= sent_of (c_pc d))%nat).
      { intros Hx. exists d. split; [exact Hx|]. split; [exact (k_range _ _ _ HI _ _ Hx)|lia]. }
      destruct (c_pc c) eqn:Hp; auto. destruct (dl && Nat.eqb i i0) eqn:Ei; auto. apply andb_true_iff in Ei as [_ Ei]. apply Nat.eqb_eq in Ei. subst i0.
      apply (upd_case _ _ _ _ _ _ Hc) in Hd as [[-> ->]|[_ Hd]]; [|auto].
      pose proof (k_range _ _ _ HI _ _ Hc) as Hr. rewrite Hp in Hr. exists c. split; [exact Hc|]. rewrite Hp. cbn in *. split; [exact Hr|lia].
  - destruct (nth_error (flight s) k) as [[t i]|]; [|discriminate]. injection H as <- <-.
    apply cnt_env with (s := s); auto. intros u d Hd. exists d. split; [exact Hd|]. split; [exact (k_range _ _ _ HI _ _ Hd)|lia].
  - destruct (nth_error (calls s) t) as [c|] eqn:Hc; [|discriminate]. pose proof (k_range _ _ _ HI _ _ Hc) as Hr. destruct (own_one t) as (_ & O1 & _).
    assert (Hne : forall u, u <> t -> own u (LRecv t) = false) by (intros u Hu; cbn; apply Nat.eqb_neq; congruence).
    destruct (c_pc c) as [| |i sent [|]| | | |] eqn:Hp; try discriminate; injection H as <- <-;
      (eapply cnt_own; [exact HI|exact Hc|reflexivity|intros u Hu; split; [auto|reflexivity]| |rewrite Hp, O1|rewrite Hp]); cbn in *; unfold Tries in *; try lia; exact I.
  - destruct (nth_error (calls s) t) as [c|] eqn:Hc; [|discriminate]. pose proof (k_range _ _ _ HI _ _ Hc) as Hr. destruct (own_one t) as (_ & _ & O1 & _).
    assert (Hne : forall u, u <> t -> own u (LGiveUp t) = false) by (intros u Hu; cbn; apply Nat.eqb_neq; congruence).
    destruct (c_pc c) eqn:Hp; try discriminate; injection H as <- <-;
      (eapply cnt_own; [exact HI|exact Hc|reflexivity|intros u Hu; split; [auto|reflexivity]| |rewrite Hp, O1|rewrite Hp]); cbn in *; unfold Tries in *; lia.
  - destruct (nth_error (calls s) t) as [c|] eqn:Hc; [|discriminate]. pose proof (k_range _ _ _ HI _ _ Hc) as Hr. destruct (own_one t) as (_ & _ & _ & O1).
    assert (Hne : forall u, u <> t -> own u (LWake t) = false) by (intros u Hu; cbn; apply Nat.eqb_neq; congruence).
    destruct (c_pc c) eqn:Hp; try discriminate. destruct (until <=? now s); [|discriminate].
    destruct (Nat.ltb_spec (S i) Tries); injection H as <- <-;
      (eapply cnt_own; [exact HI|exact Hc|reflexivity|intros u Hu; split; [auto|reflexivity]| |rewrite Hp, O1|rewrite Hp]); cbn in *; unfold Tries in *; try lia; exact I.
  - destruct (nth_error (calls s) t) as [c|] eqn:Hc; [|discriminate]. pose proof (k_range _ _ _ HI _ _ Hc) as Hr. injection H as <- <-.
    eapply cnt_own; [exact HI|exact Hc|reflexivity|intros u Hu; split; reflexivity|exact I| |].
    + cbn. destruct (c_pc c); cbn in *; unfold Tries in *; lia.
    + cbn. destruct (c_pc c); cbn in *; unfold Tries in *; lia.
  - assert (Hs : calls s' = calls s /\ forall u, sends u e = 0%nat).
    { destruct (String.eqb v ""); [injection H as <- <-; auto|]. destruct (del_script s tok v). injection H as <- <-. auto. }
    destruct Hs as [E He]. apply cnt_env with (s := s); auto; rewrite E; auto. intros u d Hd. exists d. split; [exact Hd|]. split; [exact (k_range _ _ _ HI _ _ Hd)|lia].
  - assert (Hs : calls s' = calls s /\ forall u, sends u e = 0%nat).
    { destruct (String.eqb v ""); [injection H as <- <-; auto|]. destruct ex; injection H as <- <-; auto. }
    destruct Hs as [E He]. apply cnt_env with (s := s); auto; rewrite E; auto. intros u d Hd. exists d. split; [exact Hd|]. split; [exact (k_range _ _ _ HI _ _ Hd)|lia].
Qed.
Lemma cnt_run sched s evs : run step init sched = Some (s, evs) -> Cnt sched evs s.
Proof.
  revert sched s evs. apply (run_inv _ _ (fun sched evs s => Cnt sched evs s)).
  - constructor; cbn; intros; try (destruct t; discriminate). split; reflexivity.
  - intros sched e s l s' e' _ HI H. eapply cnt_step; eauto.
Qed.
Lemma attempts_bounded sched s evs t c : run step init sched = Some (s, evs) -> nth_error (calls s) t = Some c ->
  (sends t evs <= Tries)%nat /\ (count (own t) sched <= 12)%nat.
Proof.
  intros H Hc. apply cnt_run in H. pose proof (k_range _ _ _ H _ _ Hc) as A. pose proof (k_own _ _ _ H _ _ Hc) as B. pose proof (k_sends _ _ _ H _ _ Hc) as C.
  destruct (c_pc c); cbn in *; unfold Tries in *; lia.
Qed.
Lemma can_go_on s t c : nth_error (calls s) t = Some c -> finished (c_pc c) = false ->
  exists pre l s' e, own t l = true /\ (pre = [] \/ exists d, pre = [LTick d]) /\ run step s (pre ++ [l]) = Some (s', e).
Proof.
  intros Hc Hf. destruct (c_pc c) eqn:Hp; try discriminate Hf.
  - eexists [], (LSend t), _, _. split; [apply Nat.eqb_refl|]. split; [auto|]. cbn. rewrite Hc, Hp. reflexivity.
  - eexists [], (LGiveUp t), _, _. split; [apply Nat.eqb_refl|]. split; [auto|]. cbn. rewrite Hc, Hp. reflexivity.
  - eexists [], (LGiveUp t), _, _. split; [apply Nat.eqb_refl|]. split; [auto|]. cbn. rewrite Hc, Hp. reflexivity.
  - destruct (Nat.ltb (S i) Tries) eqn:El; (destruct (Z.leb_spec until (now s)) as [E|E]).
    all: try solve [eexists [], (LWake t), _, _; split; [apply Nat.eqb_refl|]; split; [auto|]; cbn [app run step]; rewrite Hc, Hp, (proj2 (Z.leb_le _ _) E), El; reflexivity].
    all: eexists [LTick (until - now s)], (LWake t), _, _; split; [apply Nat.eqb_refl|]; split; [eauto|];
      cbn [app run step]; rewrite (proj2 (Z.ltb_lt _ _)) by lia; cbn [calls now]; rewrite Hc, Hp;
      rewrite (proj2 (Z.leb_le _ _)) by lia; rewrite El; reflexivity.
Qed.

(** ** Results *)
Record Res (evs : list event) (s : state) : Prop := {
  q_got : forall t c x, nth_error (calls s) t = Some c -> c_pc c = Got x -> In (EGot t) evs;
  q_fail : forall t c, nth_error (calls s) t = Some c -> c_pc c = Failed -> In (EFailed t) evs }.
Lemma res_upd evs s s' t c p e : Res evs s -> nth_error (calls s) t = Some c ->
  calls s' = upd (calls s) t (mkCall (c_tok c) (c_val c) p) ->
  (forall x, p = Got x -> In (EGot t) e) -> (p = Failed -> In (EFailed t) e) -> Res (evs ++ e) s'.
Proof.
  intros [A B] Hc E H1 H2. constructor.
  - intros u d x Hd Hx. rewrite E in Hd. apply in_or_app. apply (upd_case _ _ _ _ _ _ Hc) in Hd as [[-> ->]|[_ Hd]]; [right; eauto|left; eauto].
  - intros u d Hd Hx. rewrite E in Hd. apply in_or_app. apply (upd_case _ _ _ _ _ _ Hc) in Hd as [[-> ->]|[_ Hd]]; [right; eauto|left; eauto].
Qed.
Lemma res_same evs s s' e : Res evs s -> calls s' = calls s -> Res (evs ++ e) s'.
Proof. intros [A B] E. constructor; rewrite E; intros; apply in_or_app; left; eauto. Qed.
Lemma res_step evs s l s' e : Res evs s -> step s l = Some (s', e) -> Res (evs ++ e) s'.
Proof.
  intros HI H. destruct l as [d|tok v|t|t|k dl|k|t|t|t|t|tok v|tok v ex]; cbn [step] in H.
  - destruct (0 <? d); [|discriminate]. injection H as <- <-. now apply res_same with (s := s).
  - destruct HI as [A B]. destruct (String.eqb tok ""); injection H as <- <-; constructor; cbn [calls with_calls].
    + intros u c x Hc Hx. apply in_or_app. apply snoc_case in Hc as [[-> ->]|Hc]; [discriminate|left; eauto].
    + intros u c Hc Hx. apply in_or_app. apply snoc_case in Hc as [[-> ->]|Hc]; [right; right; now left|left; eauto].
    + intros u c x Hc Hx. apply in_or_app. apply snoc_case in Hc as [[-> ->]|Hc]; [discriminate|left; eauto].
    + intros u c Hc Hx. apply in_or_app. apply snoc_case in Hc as [[-> ->]|Hc]; [discriminate|left; eauto].
  - destruct (nth_error (calls s) t) as [c|] eqn:Hc; [|discriminate]. destruct (c_pc c) eqn:Hp; try discriminate. injection H as <- <-.
    eapply res_upd; [exact HI|exact Hc|reflexivity|discriminate|discriminate].
  - destruct (nth_error (calls s) t) as [c|] eqn:Hc; [|discriminate]. destruct (c_pc c) eqn:Hp; try discriminate. injection H as <- <-. now apply res_same with (s := s).
  - destruct (nth_error (flight s) k) as [[t i]|] eqn:Hf; [|discriminate].
    destruct (nth_error (calls s) t) as [c|] eqn:Hc; [|discriminate]. injection H as <- <-.
    destruct (c_pc c) eqn:Hp; try (apply res_same with (s := s); [exact HI|reflexivity]).
    destruct (dl && Nat.eqb i i0); [|apply res_same with (s := s); [exact HI|reflexivity]].
    eapply res_upd; [exact HI|exact Hc|reflexivity|discriminate|discriminate].
  - destruct (nth_error (flight s) k) as [[t i]|]; [|discriminate]. injection H as <- <-. now apply res_same with (s := s).
  - destruct (nth_error (calls s) t) as [c|] eqn:Hc; [|discriminate]. destruct (c_pc c) as [| |i sent [|]| | | |] eqn:Hp; try discriminate; injection H as <- <-;
      (eapply res_upd; [exact HI|exact Hc|reflexivity| |discriminate]); [intros; now left|discriminate].
  - destruct (nth_error (calls s) t) as [c|] eqn:Hc; [|discriminate]. destruct (c_pc c) eqn:Hp; try discriminate; injection H as <- <-;
      (eapply res_upd; [exact HI|exact Hc|reflexivity|discriminate|discriminate]).
  - destruct (nth_error (calls s) t) as [c|] eqn:Hc; [|discriminate]. destruct (c_pc c) eqn:Hp; try discriminate.
    destruct (until <=? now s); [|discriminate]. destruct (Nat.ltb (S i) Tries); injection H as <- <-;
      (eapply res_upd; [exact HI|exact Hc|reflexivity|discriminate|]); [discriminate|intros; now left].
  - destruct (nth_error (calls s) t) as [c|] eqn:Hc; [|discriminate]. injection H as <- <-.
    eapply res_upd; [exact HI|exact Hc|reflexivity|discriminate|discriminate].
  - destruct (String.eqb v ""); [injection H as <- <-; now apply res_same with (s := s)|].
    destruct (del_script s tok v) as [d ok] eqn:Ed. injection H as <- <-. now apply res_same with (s := s).
  - destruct (String.eqb v ""); [injection H as <- <-; now apply res_same with (s := s)|]. destruct ex; injection H as <- <-; now apply res_same with (s := s).
Qed.
Lemma res_run sched s evs : run step init sched = Some (s, evs) -> Res evs s.
Proof.
  revert sched s evs. apply (run_inv _ _ (fun _ evs s => Res evs s)).
  - constructor; cbn; intros; destruct t; discriminate.
  - intros sched e s l s' e' _ HI H. eapply res_step; eauto.
Qed.

(** A live key refuses every request. *)
Lemma live_refuses s k d t i c s' e w : nth_error (flight s) k = Some (t, i) -> nth_error (calls s) t = Some c ->
  live s (c_tok c) = Some w -> step s (LExec k d) = Some (s', e) -> e = [] /\ db s' = db s.
Proof. intros Hf Hc Hl H. cbn [step] in H. rewrite Hf, Hc, Hl in H. injection H as <- <-. auto. Qed.
