(** Proofs about the gRPC client. *)
From Coq Require Import List Arith Bool Lia.
From Verif Require Import Machine ClientModel ClientSpec.
Import ListNotations.

Definition b2n (b : bool) : nat := if b then 1 else 0.
Lemma cnt_upd {A} (f : A -> bool) l i x y : nth_error l i = Some x ->
  length (filter f (upd l i y)) + b2n (f x) = length (filter f l) + b2n (f y).
Proof.
  revert i. induction l as [|a l IH]; intros [|i] H; cbn in *; try discriminate.
  - injection H as ->. destruct (f x), (f y); cbn; lia.
  - specialize (IH i H). destruct (f a); cbn; lia.
Qed.
Lemma cnt_snoc {A} (f : A -> bool) l x : length (filter f (l ++ [x])) = length (filter f l) + b2n (f x).
Proof. rewrite filter_app, app_length. cbn. destruct (f x); reflexivity. Qed.
Lemma cnt_le {A} (f g : A -> bool) l : (forall x, f x = true -> g x = true) -> length (filter f l) <= length (filter g l).
Proof. intros H. induction l as [|a l IH]; cbn; [lia|]. specialize (H a). destruct (f a), (g a); cbn; try lia. Qed.
Lemma cnt_pos {A} (f : A -> bool) l i x : nth_error l i = Some x -> f x = true -> 0 < length (filter f l).
Proof.
  revert i. induction l as [|a l IH]; intros [|i] H Hf; cbn in *; try discriminate.
  - injection H as ->. rewrite Hf. cbn. lia.
  - specialize (IH i H Hf). destruct (f a); cbn; lia.
Qed.
Lemma client_shape n addrs : exists m d, client n addrs = mkS n 0 m d [] false.
Proof.
  unfold client. assert (G : forall l d0 m0, exists m d, fold_left connect l (mkS n 0 m0 d0 [] false) = mkS n 0 m d [] false);
    [|apply G]. induction l as [|a r IH]; intros d0 m0; cbn; [eauto|]. apply IH.
Qed.

Ltac inv_step H :=
  unfold step in H; match type of H with (if crashed ?s then _ else _) = _ => let E := fresh "Ecr" in destruct (crashed s) eqn:E; [discriminate|] end;
  repeat match type of H with
  | match nth_error (calls ?s) ?i with _ => _ end = _ => let E := fresh "En" in destruct (nth_error (calls s) i) as [[]|] eqn:E; try discriminate
  | (if ?b then _ else _) = _ => let E := fresh "Eb" in destruct b eqn:E; try discriminate
  | match slots ?s with _ => _ end = _ => let E := fresh "Es" in destruct (slots s) eqn:E; try discriminate
  end.

(** ** Slots *)
Definition slots_ok (n : nat) (s : state) : Prop := cap s = n /\ slots s = count holds_slot s /\ slots s <= n.
Lemma slots_step n s l s' e : slots_ok n s -> step s l = Some (s', e) -> slots_ok n s'.
Proof.
  intros (Hc & Hs & Hl) H. unfold slots_ok, count in *. destruct l; inv_step H; injection H as <- <-; cbn [cap slots calls set];
    rewrite ?cnt_snoc; cbn [holds_slot b2n];
    try (match goal with En : nth_error (calls s) ?i = Some ?x |- context [upd (calls s) ?i ?y] => pose proof (cnt_upd holds_slot (calls s) i x y En) as Hu; cbn [holds_slot b2n] in Hu end).
  all: try (apply Nat.ltb_lt in Eb); try lia.
  - destruct (load a (conns s)); cbn [holds_slot b2n] in *; lia.
  - destruct (load a (conns s)); cbn [holds_slot b2n] in *; lia.
Qed.
Lemma slots_reach n addrs sched s evs : run step (client n addrs) sched = Some (s, evs) -> slots_ok n s.
Proof.
  apply (run_inv_state step (slots_ok n)).
  - intros. eapply slots_step; eauto.
  - destruct (client_shape n addrs) as (m & d & ->). unfold slots_ok, count. cbn. lia.
Qed.
Lemma call_cap n addrs sched s evs : run step (client n addrs) sched = Some (s, evs) -> count by_call s <= n.
Proof.
  intros H. destruct (slots_reach _ _ _ _ _ H) as (_ & Hs & Hl). pose proof (cnt_le by_call holds_slot (calls s)) as Hle. unfold count in *.
  assert (length (filter by_call (calls s)) <= length (filter holds_slot (calls s))) by (apply Hle; intros []; cbn; congruence). lia.
Qed.
Lemma rest_free n addrs sched s evs : run step (client n addrs) sched = Some (s, evs) -> (forall p, In p (calls s) -> returned p = true) -> free s = n.
Proof.
  intros H Hr. destruct (slots_reach _ _ _ _ _ H) as (Hc & Hs & Hl). unfold free, count in *.
  assert (length (filter holds_slot (calls s)) = 0).
  { clear -Hr. induction (calls s) as [|p l IH]; [reflexivity|]. cbn. assert (returned p = true) by (apply Hr; now left).
    destruct p; try discriminate; apply IH; intros q Hq; apply Hr; now right. }
  lia.
Qed.

(** A call can always finish, whatever the others do. *)
Definition alone (i : nat) (l : label) : Prop :=
  match l with LTake j | LCancel j | LConn j | LOpts j | LInvoked j _ | LRelease j => j = i | _ => False end.
Lemma nth_upd_same {A} (l : list A) i x y : nth_error l i = Some x -> nth_error (upd l i y) i = Some y.
Proof. intros H. apply nth_upd_eq. apply nth_error_Some. congruence. Qed.
Lemma release_now n s i r : slots_ok n s -> crashed s = false -> nth_error (calls s) i = Some (QRelease r) ->
  exists s', step s (LRelease i) = Some (s', [EReturn i r]) /\ nth_error (calls s') i = Some (QDone r).
Proof.
  intros (_ & Hs & _) Hc Hn. unfold step. rewrite Hc, Hn. assert (0 < slots s) by (rewrite Hs; eapply cnt_pos; [exact Hn|reflexivity]).
  destruct (slots s); [lia|]. eexists. split; [reflexivity|]. cbn. eapply nth_upd_same; eauto.
Qed.
Lemma finish n s i p : slots_ok n s -> crashed s = false -> nth_error (calls s) i = Some p ->
  match p with QSelect _ _ | QConn _ _ | QOpts _ _ | QInvoke _ | QRelease _ => True | _ => False end ->
  exists sched s' evs r, run step s sched = Some (s', evs) /\ (forall l, In l sched -> alone i l) /\ nth_error (calls s') i = Some (QDone r) /\ In (EReturn i r) evs.
Proof.
  intros Hok Hc Hn Hp.
  assert (G : forall s l s1 e1, slots_ok n s -> step s l = Some (s1, e1) -> alone i l ->
     (exists sched s' evs r, run step s1 sched = Some (s', evs) /\ (forall l, In l sched -> alone i l) /\ nth_error (calls s') i = Some (QDone r) /\ In (EReturn i r) evs) ->
     exists sched s' evs r, run step s sched = Some (s', evs) /\ (forall l, In l sched -> alone i l) /\ nth_error (calls s') i = Some (QDone r) /\ In (EReturn i r) evs).
  { intros s0 l s1 e1 _ Hl Ha (sched & s' & evs & r & Hr & Hal & Hd & Hin). exists (l :: sched), s', (e1 ++ evs), r. split; [cbn [run]; now rewrite Hl, Hr|].
    split; [intros x [<-|Hx]; auto|]. split; [exact Hd|]. apply in_or_app. now right. }
  assert (R : forall s r, slots_ok n s -> crashed s = false -> nth_error (calls s) i = Some (QRelease r) ->
     exists sched s' evs r, run step s sched = Some (s', evs) /\ (forall l, In l sched -> alone i l) /\ nth_error (calls s') i = Some (QDone r) /\ In (EReturn i r) evs).
  { intros s0 r H0 H1 H2. destruct (release_now n s0 i r H0 H1 H2) as (s' & Hs' & Hd). exists [LRelease i], s', [EReturn i r], r.
    split; [now apply run_one|]. split; [intros l [<-|[]]; reflexivity|]. split; [exact Hd|now left]. }
  assert (I : forall s c, slots_ok n s -> crashed s = false -> nth_error (calls s) i = Some (QInvoke c) ->
     exists sched s' evs r, run step s sched = Some (s', evs) /\ (forall l, In l sched -> alone i l) /\ nth_error (calls s') i = Some (QDone r) /\ In (EReturn i r) evs).
  { intros s0 c H0 H1 H2. assert (E : step s0 (LInvoked i true) = Some (set s0 i (QRelease ROk), [])) by (unfold step; now rewrite H1, H2).
    eapply G; [exact H0|exact E|reflexivity|]. eapply R; [eapply slots_step; eauto|exact H1|cbn; eapply nth_upd_same; eauto]. }
  assert (O : forall s c o, slots_ok n s -> crashed s = false -> nth_error (calls s) i = Some (QOpts c o) ->
     exists sched s' evs r, run step s sched = Some (s', evs) /\ (forall l, In l sched -> alone i l) /\ nth_error (calls s') i = Some (QDone r) /\ In (EReturn i r) evs).
  { intros s0 c o H0 H1 H2. destruct o.
    - assert (E : step s0 (LOpts i) = Some (set s0 i (QInvoke c), [EInvoke i c])) by (unfold step; now rewrite H1, H2).
      eapply G; [exact H0|exact E|reflexivity|]. eapply I; [eapply slots_step; eauto|exact H1|cbn; eapply nth_upd_same; eauto].
    - assert (E : step s0 (LOpts i) = Some (set s0 i (QRelease RBadOption), [])) by (unfold step; now rewrite H1, H2).
      eapply G; [exact H0|exact E|reflexivity|]. eapply R; [eapply slots_step; eauto|exact H1|cbn; eapply nth_upd_same; eauto]. }
  destruct p; try contradiction.
  - exists [LCancel i], (set s i (QDone RAcquire)), [EReturn i RAcquire], RAcquire.
    split; [apply run_one; unfold step; now rewrite Hc, Hn|]. split; [intros l [<-|[]]; reflexivity|]. split; [cbn; eapply nth_upd_same; eauto|now left].
  - destruct (load a (conns s)) as [c|] eqn:El.
    + assert (E : step s (LConn i) = Some (set s i (QOpts c opts), [])) by (unfold step; now rewrite Hc, Hn, El).
      eapply G; [exact Hok|exact E|reflexivity|]. eapply O; [eapply slots_step; eauto|exact Hc|cbn; eapply nth_upd_same; eauto].
    + assert (E : step s (LConn i) = Some (set s i (QRelease RNoConn), [])) by (unfold step; now rewrite Hc, Hn, El).
      eapply G; [exact Hok|exact E|reflexivity|]. eapply R; [eapply slots_step; eauto|exact Hc|cbn; eapply nth_upd_same; eauto].
  - eapply O; eauto.
  - eapply I; eauto.
  - eapply R; eauto.
Qed.

(** CallWait is not limited. *)
Lemma waits n : forall k, exists sched s evs, run step (client n [0]) sched = Some (s, evs) /\ calls s = repeat (WInvoke 0) k /\ conns s = [(0, 0)] /\ crashed s = false.
Proof.
  induction k as [|k (sched & s & evs & Hr & Hc & Hm & Hx)].
  - exists [], (client n [0]), []. cbn. auto.
  - exists (sched ++ [LCallWait 0 true; LConn k; LOpts k]).
    assert (E : exists s' e, run step s [LCallWait 0 true; LConn k; LOpts k] = Some (s', e) /\ calls s' = repeat (WInvoke 0) (S k) /\ conns s' = [(0, 0)] /\ crashed s' = false).
    { assert (Hk : forall (x : pc), nth_error (repeat (WInvoke 0) k ++ [x]) k = Some x) by (intros x; rewrite nth_error_app2; rewrite repeat_length; [now rewrite Nat.sub_diag|lia]).
      assert (Hu : forall x y : pc, upd (repeat (WInvoke 0) k ++ [x]) k y = repeat (WInvoke 0) k ++ [y]).
      { intros x y. clear. induction k as [|k IH]; [reflexivity|]. cbn. now rewrite IH. }
      cbn [run]. unfold step at 1. rewrite Hx. cbn [run]. unfold step at 1. cbn [crashed calls]. rewrite Hc, Hk. cbn [conns]. rewrite Hm. cbn [load Nat.eqb].
      unfold step at 1. cbn [crashed set calls]. rewrite Hu, Hk. eexists _, _. split; [reflexivity|]. cbn [set calls conns crashed]. rewrite Hu. split; [|split; reflexivity].
      clear. induction k as [|k IH]; [reflexivity|]. cbn in *. now rewrite IH. }
    destruct E as (s' & e & He & Hc' & Hm' & Hx'). exists s', (evs ++ e). split; [eapply run_app; eauto|auto].
Qed.

(** ** Connections *)
Lemma load_save a b c m : load a (save b c m) = if b =? a then Some c else load a m.
Proof.
  induction m as [|[a' c'] m IH]; cbn; [reflexivity|]. destruct (Nat.eqb_spec a' b) as [->|]; cbn.
  - destruct (b =? a); reflexivity.
  - rewrite IH. destruct (Nat.eqb_spec a' a) as [->|]; [|reflexivity]. destruct (Nat.eqb_spec b a); [congruence|reflexivity].
Qed.
Definition kept (s : state) : Prop :=
  (forall c, c < dialed s -> (exists a, load a (conns s) = Some c) \/ exists i a o, nth_error (calls s) i = Some (WStore a c o)) /\
  (forall i a p, nth_error (calls s) i = Some p -> connecting p a -> load a (conns s) = None) /\
  (forall i a c o, nth_error (calls s) i = Some (WStore a c o) -> c < dialed s).
Lemma upd_at {A} (l : list A) i j x y z : nth_error l i = Some z -> nth_error (upd l i x) j = Some y -> (i = j /\ y = x) \/ (i <> j /\ nth_error l j = Some y).
Proof. intros H1 H2. rewrite nth_upd in H2 by (apply nth_error_Some; congruence). destruct (Nat.eqb_spec i j); [left; split; congruence|auto]. Qed.
Lemma snoc_at {A} (l : list A) j x y : nth_error (l ++ [x]) j = Some y -> (j = length l /\ y = x) \/ nth_error l j = Some y.
Proof.
  intros H. destruct (Nat.lt_ge_cases j (length l)); [rewrite nth_error_app1 in H by assumption; auto|]. rewrite nth_error_app2 in H by assumption.
  destruct (j - length l) eqn:E; [injection H as <-; left; split; [lia|reflexivity]|destruct n; discriminate].
Qed.
Lemma kept_upd s i p q sl cr : kept s -> nth_error (calls s) i = Some p -> (forall a c o, p <> WStore a c o) ->
  (forall a, connecting q a -> load a (conns s) = None) -> (forall a c o, q <> WStore a c o) ->
  kept (mkS (cap s) sl (conns s) (dialed s) (upd (calls s) i q) cr).
Proof.
  intros (K1 & K2 & K3) Hn Hp Hq Hq'. split; [|split]; cbn [dialed conns calls].
  - intros c Hc. destruct (K1 c Hc) as [H|(j & a & o & H)]; [auto|]. right. exists j, a, o. rewrite nth_upd_neq; [exact H|]. intros ->. rewrite Hn in H. injection H as ->. exact (Hp _ _ _ eq_refl).
  - intros j a x Hx Hcx. apply (upd_at _ _ _ _ _ _ Hn) in Hx as [[<- ->]|[_ Hx]]; [auto|eapply K2; eauto].
  - intros j a c o Hx. apply (upd_at _ _ _ _ _ _ Hn) in Hx as [[<- Hx]|[_ Hx]]; [symmetry in Hx; destruct (Hq' _ _ _ Hx)|eapply K3; eauto].
Qed.
Lemma kept_snoc s q : kept s -> (forall a, ~ connecting q a) -> kept (mkS (cap s) (slots s) (conns s) (dialed s) (calls s ++ [q]) false).
Proof.
  intros (K1 & K2 & K3) Hq. split; [|split]; cbn [dialed conns calls].
  - intros c Hc. destruct (K1 c Hc) as [H|(j & a & o & H)]; [auto|]. right. exists j, a, o. rewrite nth_error_app1; [exact H|]. apply nth_error_Some. congruence.
  - intros j a x Hx Hcx. apply snoc_at in Hx as [[_ ->]|Hx]; [destruct (Hq _ Hcx)|eapply K2; eauto].
  - intros j a c o Hx. apply snoc_at in Hx as [[_ Hx]|Hx]; [|eapply K3; eauto]. exfalso. apply (Hq a). right. eauto.
Qed.
Ltac no_conn := let a := fresh in let H := fresh in intros a H; exfalso; destruct H as [(? & H)|(? & ? & H)]; discriminate.
Lemma kept_step s l s' e : one_at_a_time s -> kept s -> step s l = Some (s', e) -> kept s'.
Proof.
  intros H1 HK H. destruct l; inv_step H; injection H as <- <-.
  all: try (apply kept_snoc; [exact HK|no_conn]).
  all: try (eapply kept_upd; [exact HK|eassumption|discriminate|no_conn|discriminate]).
  - destruct (load a (conns s)); (eapply kept_upd; [exact HK|eassumption|discriminate|no_conn|discriminate]).
  - destruct (load a (conns s)) eqn:El; (eapply kept_upd; [exact HK|eassumption|discriminate| |discriminate]); [no_conn|].
    intros b [(o & X)|(c & o & X)]; [injection X as <- _; exact El|discriminate].
  - exact HK.
  - destruct HK as (K1 & K2 & K3). split; [|split]; cbn [dialed conns calls].
    + intros c Hc. destruct (Nat.eq_dec c (dialed s)) as [->|Hne]; [right; exists i, a, opts; eapply nth_upd_same; eauto|].
      destruct (K1 c ltac:(lia)) as [H|(j & b & o & H)]; [auto|]. right. exists j, b, o. rewrite nth_upd_neq; [exact H|]. intros ->. congruence.
    + intros j b x Hx Hcx. apply (upd_at _ _ _ _ _ _ En) in Hx as [[<- ->]|[_ Hx]]; [|eapply K2; eauto].
      destruct Hcx as [(o & X)|(c & o & X)]; [discriminate|]. injection X as <- _ _. eapply K2; [exact En|left; eauto].
    + intros j b c o Hx. apply (upd_at _ _ _ _ _ _ En) in Hx as [[<- X]|[_ Hx]]; [injection X as -> -> ->; lia|]. specialize (K3 _ _ _ _ Hx). lia.
  - destruct HK as (K1 & K2 & K3). split; [|split]; cbn [dialed conns calls].
    + intros d Hd. destruct (K1 d Hd) as [(b & H)|(j & b & o & H)].
      * left. exists b. rewrite load_save. destruct (Nat.eqb_spec a b) as [<-|]; [|exact H]. rewrite (K2 i a _ En) in H by (right; eauto). discriminate.
      * destruct (Nat.eq_dec i j) as [<-|Hne].
        -- rewrite En in H. injection H as <- <- <-. left. exists a. rewrite load_save, Nat.eqb_refl. reflexivity.
        -- right. exists j, b, o. rewrite nth_upd_neq; [exact H|exact Hne].
    + intros j b x Hx Hcx. apply (upd_at _ _ _ _ _ _ En) in Hx as [[<- ->]|[Hne Hx]]; [destruct Hcx as [(o & X)|(c' & o & X)]; discriminate|].
      rewrite load_save. destruct (Nat.eqb_spec a b) as [<-|]; [|eapply K2; eauto]. exfalso. apply Hne. apply (H1 i j a _ _ En Hx); [right; eauto|exact Hcx].
    + intros j b d o Hx. apply (upd_at _ _ _ _ _ _ En) in Hx as [[<- X]|[_ Hx]]; [discriminate|eapply K3; eauto].
Qed.
Lemma client_conns addrs : forall s, (forall c, c < dialed s -> exists a, load a (conns s) = Some c) -> calls s = [] ->
  NoDup addrs -> (forall a, In a addrs -> load a (conns s) = None) ->
  let s' := fold_left connect addrs s in (forall c, c < dialed s' -> exists a, load a (conns s') = Some c) /\ calls s' = [].
Proof.
  induction addrs as [|a r IH]; intros s H Hc Hn Hl; cbn; [auto|]. inversion Hn; subst. apply IH; [|exact Hc|assumption|].
  - intros c Hlt. cbn in *. destruct (Nat.eq_dec c (dialed s)) as [->|Hne]; [exists a; now rewrite load_save, Nat.eqb_refl|].
    destruct (H c ltac:(lia)) as (b & Hb). exists b. rewrite load_save. destruct (Nat.eqb_spec a b) as [<-|]; [|exact Hb]. rewrite Hl in Hb by now left. discriminate.
  - intros b Hb. cbn. rewrite load_save. destruct (Nat.eqb_spec a b) as [<-|]; [contradiction|]. apply Hl. now right.
Qed.
Lemma no_lost n addrs sched s evs : NoDup addrs -> run step (client n addrs) sched = Some (s, evs) -> always one_at_a_time (client n addrs) sched -> forall c, ~ lost s c.
Proof.
  intros Hn Hr Ha.
  assert (K : kept s).
  { revert s evs Hr Ha. induction sched as [|l sched IH] using rev_ind; intros s evs Hr Ha.
    - injection Hr as <- _. destruct (client_conns addrs (mkS n 0 [] 0 [] false)) as [C1 C2]; [intros c Hc; cbn in Hc; lia|reflexivity|exact Hn|reflexivity|].
      fold (client n addrs) in C1, C2. split; [|split]; [auto| |]; rewrite C2; intros [|i]; discriminate.
    - apply run_app_inv in Hr as (s1 & e1 & e2 & R1 & R2 & ->). apply run_one_inv in R2. eapply kept_step; [|eapply IH; [exact R1|]|exact R2].
      + eapply Ha; [reflexivity|exact R1].
      + intros pre suf x y -> Hx. eapply Ha; [rewrite <- app_assoc; reflexivity|exact Hx]. }
  intros c (Hc & Hm & Hp). destruct K as (K1 & _ & _). destruct (K1 c Hc) as [(a & Ha')|(i & a & o & Hi)]; [exact (Hm a Ha')|].
  eapply Hp; [eapply nth_error_In; exact Hi|]. exists a, o. reflexivity.
Qed.

(** ** A Call with a bad option *)
Definition bad (p : pc) : Prop :=
  match p with QSelect _ false | QConn _ false | QOpts _ false | QRelease (RNoConn | RBadOption) | QDone (RAcquire | RNoConn | RBadOption) => True | _ => False end.
Lemma bad_step s l s' e i : (exists p, nth_error (calls s) i = Some p /\ bad p) -> step s l = Some (s', e) ->
  (exists p, nth_error (calls s') i = Some p /\ bad p) /\ (forall c, ~ In (EInvoke i c) e) /\ ~ In (EReturn i ROk) e.
Proof.
  intros (p & Hp & Hb) H.
  assert (Hl : i < length (calls s)) by (apply nth_error_Some; congruence).
  assert (U : forall j q x, nth_error (calls s) j = Some x -> (bad x -> bad q) -> exists p, nth_error (upd (calls s) j q) i = Some p /\ bad p).
  { intros j q x Hx Hq. destruct (Nat.eq_dec j i) as [->|Hne]; [exists q; split; [eapply nth_upd_same; eauto|apply Hq; congruence]|].
    exists p. rewrite nth_upd_neq by assumption. auto. }
  assert (NE : forall j x, nth_error (calls s) j = Some x -> ~ bad x -> j <> i) by (intros j x Hx Hnb ->; apply Hnb; congruence).
  destruct l; inv_step H; injection H as <- <-; unfold set; cbn [calls].
  all: try (split; [exists p; rewrite nth_error_app1 by assumption; auto|split; [intros ? []|intros []]]).
  all: try (split; [exists p; split; assumption|split; [intros ? [X|[]]; discriminate|intros [X|[]]; discriminate]]).
  all: (split; [eapply U; [eassumption|]; cbn [bad]; repeat match goal with |- context [match ?b with _ => _ end] => destruct b end; tauto|]).
  all: split; [intros d X|intros X]; cbn [In] in X; try contradiction; destruct X as [X|[]]; try discriminate.
  all: try (injection X as <- X); try (injection X as <-); eapply NE; [eassumption| |reflexivity]; subst; cbn; try tauto.
Qed.
Lemma bad_run i : forall sched s s' evs, (exists p, nth_error (calls s) i = Some p /\ bad p) -> run step s sched = Some (s', evs) ->
  (forall c, ~ In (EInvoke i c) evs) /\ ~ In (EReturn i ROk) evs.
Proof.
  induction sched as [|l sched IH]; intros s s' evs Hb H; cbn [run] in H; [injection H as <- <-; split; [intros ? []|intros []]|].
  destruct (step s l) as [[s1 e1]|] eqn:E; [|discriminate]. destruct (run step s1 sched) as [[s2 e2]|] eqn:R; [|discriminate]. injection H as <- <-.
  destruct (bad_step _ _ _ _ _ Hb E) as (Hb' & A & B). destruct (IH _ _ _ Hb' R) as (C & D).
  split; [intros c X; apply in_app_or in X as [X|X]; [eapply A|eapply C]; eauto|intros X; apply in_app_or in X as [X|X]; auto].
Qed.
