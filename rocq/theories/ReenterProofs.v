(** Proofs about re-entrant calls. *)
From Coq Require Import List Arith Bool Lia.
From Verif Require ReporterProofs.
From Verif Require Import Machine ClientProofs ReenterModel ReenterSpec.
Import ListNotations.

Ltac inv_step H :=
  unfold step, on_call, complete in H; match type of H with (if crashed ?s then _ else _) = _ => let E := fresh "Ecr" in destruct (crashed s) eqn:E; [discriminate|] end;
  repeat match type of H with
  | match nth_error (calls ?s) ?i with _ => _ end = _ => let E := fresh "En" in let x := fresh "x" in destruct (nth_error (calls s) i) as [x|] eqn:E; try discriminate
  | match nth_error (tasks ?s) ?i with _ => _ end = _ => let E := fresh "En" in let x := fresh "x" in destruct (nth_error (tasks s) i) as [x|] eqn:E; try discriminate
  | match loop ?s with _ => _ end = _ => let E := fresh "El" in destruct (loop s) eqn:E; try discriminate
  | match rq ?s with _ => _ end = _ => let E := fresh "Eq" in destruct (rq s) as [|[? ?] ?] eqn:E; try discriminate
  | match cb ?x with _ => _ end = _ => let E := fresh "Eb" in destruct (cb x) eqn:E; try discriminate
  | match watch ?x with _ => _ end = _ => let E := fresh "Ew" in destruct (watch x) eqn:E; try discriminate
  | match caller ?x with _ => _ end = _ => let E := fresh "Ek" in destruct (caller x) eqn:E; try discriminate
  | match cf ?x with _ => _ end = _ => let E := fresh "Ef" in destruct (cf x) eqn:E; try discriminate
  | match tst ?x with _ => _ end = _ => let E := fresh "Et" in destruct (tst x) eqn:E; try discriminate
  | match rf ?x with _ => _ end = _ => let E := fresh "Er" in destruct (rf x) eqn:E; try discriminate
  | (if ctx ?x then _ else _) = _ => let E := fresh "Ex" in destruct (ctx x) eqn:E; try discriminate
  | (if thirty ?x then _ else _) = _ => let E := fresh "Ex" in destruct (thirty x) eqn:E; try discriminate
  | Some (match rf ?x with _ => _ end) = _ => let E := fresh "Er" in destruct (rf x) eqn:E; cbn [rf] in E
  | _ => progress cbn [rf] in H
  end; try discriminate.

Lemma upd_inv {A} (l : list A) u (y : A) t x : nth_error (upd l u y) t = Some x -> (u = t /\ x = y) \/ (u <> t /\ nth_error l t = Some x).
Proof.
  intros H. destruct (Nat.eq_dec u t) as [->|Hn]; [left|right; rewrite nth_upd_neq in H; auto]. split; [reflexivity|].
  destruct (nth_error l t) as [z|] eqn:E; [erewrite nth_upd_same in H by exact E; congruence|]. assert (X : nth_error (upd l t y) t = None) by (apply nth_error_None; rewrite upd_length; now apply nth_error_None). congruence.
Qed.
Lemma snoc_inv {A} (l : list A) y t x : nth_error (l ++ [y]) t = Some x -> nth_error l t = Some x \/ (t = length l /\ x = y).
Proof.
  intros H. destruct (Nat.lt_ge_cases t (length l)) as [Hl|Hl]; [left; now rewrite nth_error_app1 in H|right].
  rewrite nth_error_app2 in H by exact Hl. destruct (t - length l) as [|m] eqn:E; cbn in H; [injection H as <-; split; [lia|reflexivity]|destruct m; discriminate].
Qed.

Definition fresh_call : call := mkC false false WWait KCalling None BNone None [].
Definition getc (s : state) (c : nat) : call := nth c (calls s) fresh_call.
Lemma getc_some s c x : nth_error (calls s) c = Some x -> getc s c = x.
Proof. intros H. unfold getc. now apply nth_error_nth. Qed.
Lemma nth_upd_d {A} (l : list A) c d x y dflt : nth_error l c = Some y -> nth d (upd l c x) dflt = if c =? d then x else nth d l dflt.
Proof.
  revert c d. induction l as [|a l IH]; intros [|c] [|d] H; try discriminate; try reflexivity. cbn in *. apply IH. exact H.
Qed.
Lemma getc_new l d : nth d (l ++ [fresh_call]) fresh_call = nth d l fresh_call.
Proof.
  destruct (Nat.lt_ge_cases d (length l)) as [H|H]; [now rewrite app_nth1|]. rewrite app_nth2, (nth_overflow l) by exact H. destruct (d - length l) as [|[|m]]; reflexivity.
Qed.

(** ** What a history says about a call *)
Fixpoint ret (c : nat) (evs : list event) : option outcome :=
  match evs with [] => None | EReturn d o :: r => if d =? c then Some o else ret c r | _ :: r => ret c r end.
Fixpoint res (c : nat) (evs : list event) : option seen :=
  match evs with [] => None | EResolve d v :: r => if d =? c then Some v else res c r | _ :: r => res c r end.
Fixpoint nret (c : nat) (evs : list event) : nat :=
  match evs with [] => 0 | EReturn d o :: r => (if d =? c then 1 else 0) + nret c r | _ :: r => nret c r end.
Fixpoint nres (c : nat) (evs : list event) : nat :=
  match evs with [] => 0 | EResolve d o :: r => (if d =? c then 1 else 0) + nres c r | _ :: r => nres c r end.
Fixpoint ctxd (c : nat) (evs : list event) : bool :=
  match evs with [] => false | ECtx d :: r => (d =? c) || ctxd c r | _ :: r => ctxd c r end.
Fixpoint acted (c : nat) (evs : list event) : bool :=
  match evs with [] => false | EActEnd d :: r => (d =? c) || acted c r | _ :: r => acted c r end.
Lemma ret_app c a b : ret c (a ++ b) = match ret c a with Some o => Some o | None => ret c b end.
Proof. induction a as [|e a IH]; [reflexivity|]. cbn. destruct e; auto. destruct (_ =? _); auto. Qed.
Lemma res_app c a b : res c (a ++ b) = match res c a with Some o => Some o | None => res c b end.
Proof. induction a as [|e a IH]; [reflexivity|]. cbn. destruct e; auto. destruct (_ =? _); auto. Qed.
Lemma nret_app c a b : nret c (a ++ b) = nret c a + nret c b.
Proof. induction a as [|e a IH]; [reflexivity|]. cbn. destruct e; auto. rewrite IH. lia. Qed.
Lemma nres_app c a b : nres c (a ++ b) = nres c a + nres c b.
Proof. induction a as [|e a IH]; [reflexivity|]. cbn. destruct e; auto. rewrite IH. lia. Qed.
Lemma ctxd_app c a b : ctxd c (a ++ b) = ctxd c a || ctxd c b.
Proof. induction a as [|e a IH]; [reflexivity|]. cbn. destruct e; auto. rewrite IH. now rewrite orb_assoc. Qed.
Lemma acted_app c a b : acted c (a ++ b) = acted c a || acted c b.
Proof. induction a as [|e a IH]; [reflexivity|]. cbn. destruct e; auto. rewrite IH. now rewrite orb_assoc. Qed.
Lemma nres_resolved c evs : nres c evs = resolved c evs.
Proof. unfold resolved. induction evs as [|e a IH]; [reflexivity|]. cbn. destruct e; auto. destruct (_ =? _); cbn; congruence. Qed.
Lemma ret_in c evs o : ret c evs = Some o -> In (EReturn c o) evs.
Proof. induction evs as [|e a IH]; [discriminate|]. cbn. destruct e; auto. destruct (Nat.eqb_spec c0 c) as [->|]; auto. intros H. injection H as ->. now left. Qed.
Lemma res_in c evs o : res c evs = Some o -> In (EResolve c o) evs.
Proof. induction evs as [|e a IH]; [discriminate|]. cbn. destruct e; auto. destruct (Nat.eqb_spec c0 c) as [->|]; auto. intros H. injection H as ->. now left. Qed.
Lemma ctxd_in c evs : ctxd c evs = true <-> In (ECtx c) evs.
Proof.
  induction evs as [|e a IH]; [split; [discriminate|intros []]|]. cbn. destruct e; rewrite ?orb_true_iff, ?Nat.eqb_eq, IH; split; intros X; intuition (try congruence).
Qed.
Lemma acted_in c evs : acted c evs = true <-> In (EActEnd c) evs.
Proof.
  induction evs as [|e a IH]; [split; [discriminate|intros []]|]. cbn. destruct e; rewrite ?orb_true_iff, ?Nat.eqb_eq, IH; split; intros X; intuition (try congruence).
Qed.
Lemma nret_in c evs o : In (EReturn c o) evs -> 1 <= nret c evs.
Proof. induction evs as [|e a IH]; [intros []|]. cbn. intros [->|X]; [rewrite Nat.eqb_refl; lia|]. specialize (IH X). destruct e; lia. Qed.
Lemma nres_in c evs o : In (EResolve c o) evs -> 1 <= nres c evs.
Proof. induction evs as [|e a IH]; [intros []|]. cbn. intros [->|X]; [rewrite Nat.eqb_refl; lia|]. specialize (IH X). destruct e; lia. Qed.
Lemma in_ret c evs o : nret c evs <= 1 -> In (EReturn c o) evs -> ret c evs = Some o.
Proof.
  induction evs as [|e a IH]; [intros _ []|]. cbn. intros Hn [->|X]; [now rewrite Nat.eqb_refl|]. destruct e; auto. destruct (Nat.eqb_spec c0 c) as [->|]; auto. pose proof (nret_in _ _ _ X). lia.
Qed.
Lemma in_res c evs o : nres c evs <= 1 -> In (EResolve c o) evs -> res c evs = Some o.
Proof.
  induction evs as [|e a IH]; [intros _ []|]. cbn. intros Hn [->|X]; [now rewrite Nat.eqb_refl|]. destruct e; auto. destruct (Nat.eqb_spec c0 c) as [->|]; auto. pose proof (nres_in _ _ _ X). lia.
Qed.

(** ** The invariant of one call *)
Definition hist (evs : list event) (c : nat) (x : call) : Prop :=
  ret c evs = match caller x with KCalling => None | KComplete o => Some o | KGone => cf x end /\
  nret c evs = match ret c evs with Some _ => 1 | None => 0 end /\
  res c evs = rf x /\
  nres c evs = match rf x with Some _ => 1 | None => 0 end /\
  ctxd c evs = ctx x /\
  (acted c evs = true -> rf x <> None).
Definition shape (q : list (nat * outcome)) (l : lpc) (c : nat) (x : call) : Prop :=
  (watch x = WComplete -> ctx x = true) /\
  (watch x = WGone -> rf x <> None \/ cf x <> None) /\
  match caller x with KGone => cf x <> None | _ => cf x = None end /\
  match cb x with
  | BNone => True
  | BWaiting => cf x = None
  | BSpawned o => cf x = Some o
  | BPushed => exists o, cf x = Some o /\ (In (c, o) q \/ l = Action c o \/ rf x <> None)
  end /\
  (forall o, In (c, o) q \/ l = Action c o -> cf x = Some o /\ cb x = BPushed) /\
  (l = Acted c -> rf x <> None).

Lemma shape_step s l s' e : (forall c, shape (rq s) (loop s) c (getc s c)) -> step s l = Some (s', e) -> forall c, shape (rq s') (loop s') c (getc s' c).
Proof.
  intros HI H c. pose proof (HI c) as G.
  destruct l as [|u|u|u|u o|u|u|u|u|u| | | | | |u|u|u|u]; inv_step H; injection H as <- <-; unfold getc in *; cbn [calls set with_loop rq loop].
  all: rewrite ?getc_new; try (erewrite nth_upd_d by exact En).
  all: try exact G.
  all: try (destruct (Nat.eqb_spec u c) as [->|Hne]; [rewrite (nth_error_nth _ _ fresh_call En) in G|try exact G]).
  all: try (match goal with |- context [?n =? ?m] => destruct (Nat.eqb_spec n m) as [->|Hne]; [rewrite (nth_error_nth _ _ fresh_call En) in G|try exact G] end).
  all: destruct G as (A2 & A3 & A4 & A5 & A6 & A7); rewrite ?Ek, ?Eb, ?Ef, ?Ew, ?Er, ?Ex in *.
  all: unfold shape; cbn [ctx watch caller cf cb rf ucbs]; rewrite ?Eb, ?Ew.
  all: split; [|split; [|split; [|split; [|split]]]].
  all: try assumption.
  all: try (solve [intuition (eauto; try congruence)]).
  all: try (destruct (cf x) eqn:Ecf; exact A4 || reflexivity).
  all: try (intros o1 X; pose proof (A6 o1) as A6'; rewrite ?in_app_iff in X; cbn [In] in *; solve [intuition (try congruence)]).
  all: try (match goal with |- match cb ?y with _ => _ end => destruct (cb y); try assumption end; destruct A5 as (o1 & B1 & B2); exists o1; split; [assumption|]; rewrite ?in_app_iff; cbn [In] in *; solve [intuition (try congruence)]).
  - destruct (cb x); try reflexivity; try congruence. destruct A5 as (o1 & B1 & _). congruence.
  - exists o. split; [assumption|]. left. apply in_or_app. right. now left.
  - intros o1 X. apply A6. left. destruct X as [X|X]; [now right|left; congruence].
Qed.

Lemma hist_step evs s l s' e : (forall c, shape (rq s) (loop s) c (getc s c)) -> (forall c, hist evs c (getc s c)) -> step s l = Some (s', e) -> forall c, hist (evs ++ e) c (getc s' c).
Proof.
  intros HS HI H c. pose proof (HI c) as G. pose proof (HS c) as G'.
  destruct l as [|u|u|u|u o|u|u|u|u|u| | | | | |u|u|u|u]; inv_step H; injection H as <- <-; unfold getc in *; cbn [calls set with_loop rq loop].
  all: rewrite ?app_nil_r, ?getc_new; try (erewrite nth_upd_d by exact En).
  all: try exact G.
  all: try (destruct (Nat.eqb_spec u c) as [->|Hne]; [rewrite (nth_error_nth _ _ fresh_call En) in G, G'|try exact G]).
  all: try (match goal with |- context [if ?n =? ?m then _ else _] => destruct (Nat.eqb_spec n m) as [->|Hne]; [rewrite (nth_error_nth _ _ fresh_call En) in G, G'|try exact G] end).
  all: destruct G as (A1 & A2 & A3 & A4 & A5 & A6).
  all: unfold hist; rewrite ?ret_app, ?res_app, ?nret_app, ?nres_app, ?ctxd_app, ?acted_app; cbn [ret res nret nres ctxd acted]; rewrite ?Nat.eqb_refl, ?(proj2 (Nat.eqb_neq _ _) Hne); cbn [ctx watch caller cf cb rf ucbs orb];
    rewrite ?orb_false_r, ?orb_true_r, ?Nat.add_0_r.
  all: try (match goal with |- context [match ret ?c ?e with Some o => Some o | None => None end] => replace (match ret c e with Some o => Some o | None => None end) with (ret c e) by (destruct (ret c e); reflexivity) end).
  all: try (match goal with |- context [match res ?c ?e with Some o => Some o | None => None end] => replace (match res c e with Some o => Some o | None => None end) with (res c e) by (destruct (res c e); reflexivity) end).
  all: try (split; [exact A1|]; split; [exact A2|]; split; [exact A3|]; split; [exact A4|]; split; [first [exact A5|reflexivity]|exact A6]; fail).
  all: try (destruct (Nat.eqb_spec c0 c) as [->|Hc0]; [|rewrite orb_false_r; tauto]).
  all: rewrite ?Ek, ?Er, ?Ef, ?Ex in *; try rewrite A1 in *; try rewrite A3 in *.
  all: try (split; [assumption || reflexivity|]; split; [lia|]; split; [assumption || reflexivity|]; split; [lia|]; split; [assumption || reflexivity|]; intros X; first [discriminate|exact (A6 X)|auto]; fail).
  - repeat (split; [assumption || reflexivity|]). intros _. destruct G' as (_ & _ & _ & _ & _ & X). now apply X.
  - rewrite (nth_error_nth _ _ fresh_call En), Er. repeat (split; [assumption || reflexivity|]). exact A6.
  - rewrite (nth_error_nth _ _ fresh_call En), Er. repeat (split; [assumption || reflexivity|]). exact A6.
  - rewrite (nth_error_nth _ _ fresh_call En), Er. repeat (split; [assumption || reflexivity|]). exact A6.
Qed.

Lemma reach sched s evs : run step init sched = Some (s, evs) -> (forall c, shape (rq s) (loop s) c (getc s c)) /\ (forall c, hist evs c (getc s c)).
Proof.
  apply (run_inv step init (fun _ evs s => (forall c, shape (rq s) (loop s) c (getc s c)) /\ (forall c, hist evs c (getc s c)))).
  - split; intros c; replace (getc init c) with fresh_call by (unfold getc; cbn; now destruct c).
    + split; [discriminate|]. split; [discriminate|]. split; [reflexivity|]. split; [exact Logic.I|]. split; [intros o [[]|X]; discriminate|discriminate].
    + repeat (split; [reflexivity|]). discriminate.
  - clear. intros sched evs s l s' e _ [A B] H. split; [eapply shape_step; eassumption|eapply hist_step; eassumption].
Qed.
(** ** Results *)
Lemma resolved_once sched s evs c : run step init sched = Some (s, evs) -> resolved c evs <= 1.
Proof. intros H. destruct (reach _ _ _ H) as [_ G]. destruct (G c) as (_ & _ & _ & X & _). rewrite <- nres_resolved, X. destruct (rf _); lia. Qed.
Lemma returned_once sched s evs c o o' : run step init sched = Some (s, evs) -> In (EReturn c o) evs -> In (EReturn c o') evs -> o = o'.
Proof.
  intros H A B. destruct (reach _ _ _ H) as [_ G]. destruct (G c) as (_ & X & _). assert (nret c evs <= 1) by (rewrite X; destruct (ret c evs); lia).
  apply in_ret in A, B; try assumption. congruence.
Qed.
Lemma same_value sched s evs c v v' : run step init sched = Some (s, evs) -> In (EResolve c v) evs -> In (EResolve c v') evs -> v = v'.
Proof.
  intros H A B. pose proof (resolved_once _ _ _ c H) as X. rewrite <- nres_resolved in X. apply in_res in A, B; try assumption. congruence.
Qed.
Lemma action_shows o v : v = action o <-> shows o v.
Proof. split; [intros ->; destruct o as [e|[e|] r]; constructor|intros H; destruct H; reflexivity]. Qed.

Lemma cause sched s evs : run step init sched = Some (s, evs) -> forall c v a b, evs = a ++ EResolve c v :: b ->
  (v = VCtx /\ In (ECtx c) a) \/ exists o, In (EReturn c o) a /\ v = action o.
Proof.
  apply (run_inv step init (fun _ evs s => forall c v a b, evs = a ++ EResolve c v :: b -> (v = VCtx /\ In (ECtx c) a) \/ exists o, In (EReturn c o) a /\ v = action o)); [intros c v [|? ?] b; discriminate|].
  clear. intros sched evs s l s' e Hr IH H c v a b Hq. destruct (reach _ _ _ Hr) as [HS HH].
  apply ReporterProofs.snoc_split in Hq as [(b1 & Hb & ->)|(d1 & Hd & _)]; [|eapply IH; exact Hd].
  destruct l as [|u|u|u|u o|u|u|u|u|u| | | | | |u|u|u|u]; inv_step H; injection H as <- <-; try (destruct b1 as [|? [|? ?]]; discriminate).
  - destruct b1 as [|? [|? ?]]; try discriminate. injection Hb as <- <- <-. left. split; [reflexivity|]. rewrite app_nil_r. apply ctxd_in.
    destruct (HS u) as (X & _). destruct (HH u) as (_ & _ & _ & _ & Y & _). rewrite (getc_some _ _ _ En) in *. rewrite Y. now apply X.
  - destruct b1 as [|? [|? ?]]; try discriminate. injection Hb as <- <- <-. right. match goal with E : loop s = Action ?d ?o1 |- _ => rename d into dd; rename o1 into oo end. exists oo. split; [|reflexivity]. rewrite app_nil_r. apply ret_in.
    destruct (HS dd) as (_ & _ & X1 & _ & X2 & _). destruct (HH dd) as (Y & _). destruct (X2 oo (or_intror eq_refl)) as [Z _]. rewrite Y. rewrite Z in *. destruct (caller _); congruence.
Qed.
Lemma acted_resolved sched s evs c : run step init sched = Some (s, evs) -> In (EActEnd c) evs -> exists v, In (EResolve c v) evs.
Proof.
  intros H A. apply acted_in in A. destruct (reach _ _ _ H) as [_ G]. destruct (G c) as (_ & _ & X & _ & _ & Y). specialize (Y A). destruct (rf (getc s c)) as [v|]; [|congruence]. exists v. now apply res_in.
Qed.

(** Continuations. *)
Definition T (evs : list event) (s : state) : Prop :=
  (forall c x k, nth_error (calls s) c = Some x -> In k (ucbs x) -> In (EThen c k) evs) /\
  (forall t x, nth_error (tasks s) t = Some x -> exists c, In (EThen c (tcb x)) evs /\ In (EResolve c (targ x)) evs) /\
  (forall c k, In (EThen c k) evs -> k < ncb s) /\
  (forall c c' k, In (EThen c k) evs -> In (EThen c' k) evs -> c = c') /\
  (forall k v, In (EStart k v) evs -> exists c, In (EThen c k) evs /\ In (EResolve c v) evs).
Lemma T_step evs s l s' e : (forall c, hist evs c (getc s c)) -> T evs s -> step s l = Some (s', e) -> T (evs ++ e) s'.
Proof.
  intros HH (A & B & C & D & E) H.
  assert (Hthen : forall c k, In (EThen c k) e -> k = ncb s /\ ncb s' = S (ncb s) /\ e = [EThen c k]).
  { intros c k X. destruct l as [|u|u|u|u o|u|u|u|u|u| | | | | |u|u|u|u]; inv_step H; injection H as <- <-; cbn in X; repeat destruct X as [X|X]; try discriminate; try contradiction; injection X as <- <-; auto. }
  assert (Hncb : ncb s <= ncb s'). { clear -H. destruct l as [|u|u|u|u o|u|u|u|u|u| | | | | |u|u|u|u]; inv_step H; injection H as <- <-; cbn; lia. }
  unfold T. split; [|split; [|split; [|split]]].
  - intros c x k Hx Hk. rewrite in_app_iff.
    destruct l as [|u|u|u|u o|u|u|u|u|u| | | | | |u|u|u|u]; inv_step H; injection H as <- <-; cbn [calls set with_loop] in Hx; try (left; eapply A; eassumption).
    all: try (apply snoc_inv in Hx as [Hx|[-> ->]]; [left; eapply A; eassumption|destruct Hk]).
    all: apply upd_inv in Hx as [[-> ->]|[_ Hx]]; [|left; eapply A; eassumption]; cbn in Hk; try contradiction; try (left; eapply A; eassumption).
    all: apply in_app_or in Hk as [Hk|[<-|[]]]; [left; eapply A; eassumption|right; now left].
  - intros t x Hx. assert (Hold : nth_error (tasks s) t = Some x -> exists c, In (EThen c (tcb x)) (evs ++ e) /\ In (EResolve c (targ x)) (evs ++ e)).
    { intros Y. destruct (B _ _ Y) as (c & B1 & B2). exists c. rewrite !in_app_iff. auto. }
    destruct l as [|u|u|u|u o|u|u|u|u|u| | | | | |u|u|u|u]; inv_step H; injection H as <- <-; cbn [tasks set with_loop] in Hx; try (exact (Hold Hx)).
    (* completion *)
    all: try (destruct (Nat.lt_ge_cases t (length (tasks s))) as [Hl|Hl]; [rewrite nth_error_app1 in Hx by exact Hl; exact (Hold Hx)|];
      rewrite nth_error_app2 in Hx by exact Hl; apply nth_error_In in Hx; apply in_map_iff in Hx as (k & <- & Hk); cbn; cbn [ucbs] in Hk;
      eexists; rewrite !in_app_iff; split; [left; eapply A; eassumption|right; now left]).
    (* Then on a resolved one *)
    all: try (apply snoc_inv in Hx as [Hx|[-> ->]]; [exact (Hold Hx)|]; cbn; eexists; rewrite !in_app_iff; split; [right; left; reflexivity|left]; apply res_in;
      match goal with En : nth_error (calls _) ?u = Some _ |- _ => destruct (HH u) as (_ & _ & X & _); rewrite X, (getc_some _ _ _ En); exact Er end).
    all: apply upd_inv in Hx as [[-> ->]|[_ Hx]]; [|exact (Hold Hx)]; cbn; destruct (B _ _ En) as (c & B1 & B2); exists c; rewrite !in_app_iff; auto.
  - intros c k X. apply in_app_or in X as [X|X]; [specialize (C _ _ X); lia|]. destruct (Hthen _ _ X) as (-> & -> & _). lia.
  - intros c c' k X Y. apply in_app_or in X as [X|X]; apply in_app_or in Y as [Y|Y].
    + eauto.
    + destruct (Hthen _ _ Y) as (-> & _). specialize (C _ _ X). lia.
    + destruct (Hthen _ _ X) as (-> & _). specialize (C _ _ Y). lia.
    + destruct (Hthen _ _ X) as (_ & _ & Z). destruct (Hthen _ _ Y) as (_ & _ & Z'). congruence.
  - intros k v X. apply in_app_or in X as [X|X]; [destruct (E _ _ X) as (c & E1 & E2); exists c; rewrite !in_app_iff; auto|].
    assert (exists t x, nth_error (tasks s) t = Some x /\ tcb x = k /\ targ x = v) as (t & x & Ht & <- & <-).
    { destruct l as [|u|u|u|u o|u|u|u|u|u| | | | | |u|u|u|u]; inv_step H; injection H as <- <-; cbn in X; repeat destruct X as [X|X]; try discriminate; try contradiction; injection X as <- <-. eexists _, _; split; [exact En|auto]. }
    destruct (B _ _ Ht) as (c & E1 & E2). exists c. rewrite !in_app_iff. auto.
Qed.
Lemma reach_T sched s evs : run step init sched = Some (s, evs) -> T evs s.
Proof.
  apply (run_inv step init (fun _ evs s => T evs s)).
  - repeat split; try (intros; contradiction). all: intros; destruct c + destruct t; discriminate.
  - clear. intros sched evs s l s' e Hr IH H. eapply T_step; [apply (reach _ _ _ Hr)|exact IH|exact H].
Qed.
Lemma continuation_sees sched s evs c k v : run step init sched = Some (s, evs) -> In (EThen c k) evs -> In (EStart k v) evs -> In (EResolve c v) evs.
Proof. intros H A B. destruct (reach_T _ _ _ H) as (_ & _ & _ & D & E). destruct (E _ _ B) as (c' & E1 & E2). rewrite (D _ _ _ A E1). exact E2. Qed.

(** ** Progress *)
Lemma getc_exists s c : cf (getc s c) <> None \/ caller (getc s c) <> KCalling \/ ctx (getc s c) = true -> nth_error (calls s) c = Some (getc s c).
Proof.
  intros H. destruct (Nat.lt_ge_cases c (length (calls s))) as [Hl|Hl]; [now apply nth_error_nth'|].
  unfold getc in H. rewrite nth_overflow in H by exact Hl. cbn in H. destruct H as [H|[H|H]]; congruence.
Qed.
Lemma can_step c s l s' e : library l -> step s l = Some (s', e) -> can_resolve c s' -> can_resolve c s.
Proof.
  intros Hl H (sched & s2 & evs & v & A & B & C). exists (l :: sched), s2, (e ++ evs), v. split; [now constructor|]. split; [cbn [run]; now rewrite H, B|]. apply in_or_app. now right.
Qed.
Lemma can_now c s l s' e v : library l -> step s l = Some (s', e) -> In (EResolve c v) e -> can_resolve c s.
Proof. intros Hl H A. exists [l], s', (e ++ []), v. split; [repeat constructor; exact Hl|]. split; [cbn [run]; now rewrite H|]. rewrite app_nil_r. exact A. Qed.

Definition waiting (c : nat) (s : state) : Prop :=
  crashed s = false /\ (forall d, shape (rq s) (loop s) d (getc s d)) /\ rf (getc s c) = None /\ exists o, In (c, o) (rq s) \/ loop s = Action c o.
Definition work (s : state) : nat := 3 * length (rq s) + match loop s with Idle => 0 | Handler _ | Acted _ => 1 | Action _ _ => 2 end.
Lemma waiting_step c s : waiting c s -> exists l s' e, library l /\ step s l = Some (s', e) /\ ((exists v, In (EResolve c v) e) \/ (waiting c s' /\ work s' < work s)).
Proof.
  intros (Hc & HS & Hr & o & Ho). destruct (loop s) as [|h|d o'|d] eqn:El.
  - destruct Ho as [Ho|Ho]; [|discriminate]. destruct (rq s) as [|[d o'] q] eqn:Eq; [destruct Ho|].
    exists LTake, (with_loop s q (Action d o')), [EAct d]. assert (Hst : step s LTake = Some (with_loop s q (Action d o'), [EAct d])) by (unfold step; now rewrite Hc, El, Eq).
    split; [exact Logic.I|]. split; [exact Hst|]. right. split.
    + split; [exact Hc|]. split; [intros x; eapply shape_step; [|exact Hst]; rewrite El, Eq; exact HS|]. split; [exact Hr|]. destruct Ho as [X|X]; [injection X as -> ->; exists o; right; reflexivity|exists o; left; exact X].
    + unfold work. cbn [rq loop with_loop]. rewrite El, Eq. cbn. lia.
  - destruct Ho as [Ho|Ho]; [|discriminate]. assert (Hst : step s LHandlerEnd = Some (with_loop s (rq s) Idle, [EHandlerEnd h])) by (unfold step; now rewrite Hc, El).
    eexists LHandlerEnd, _, _. split; [exact Logic.I|]. split; [exact Hst|]. right. split.
    + split; [exact Hc|]. split; [intros x; eapply shape_step; [|exact Hst]; rewrite El; exact HS|]. split; [exact Hr|]. exists o. now left.
    + unfold work. cbn [rq loop with_loop]. rewrite El. lia.
  - destruct (HS d) as (_ & _ & _ & _ & X & _). destruct (X o' (or_intror eq_refl)) as [X1 _]. assert (En : nth_error (calls s) d = Some (getc s d)) by (apply getc_exists; left; congruence).
    destruct (step s LAct) as [[s' e]|] eqn:Hst; [|unfold step, on_call in Hst; rewrite Hc, El, En in Hst; discriminate].
    exists LAct, s', e. split; [exact Logic.I|]. split; [exact Hst|].
    pose proof Hst as Hst'. unfold step, on_call, complete in Hst'. rewrite Hc, El, En in Hst'. destruct (Nat.eq_dec d c) as [->|Hne].
    + left. rewrite Hr in Hst'. injection Hst' as <- <-. eexists. now left.
    + right. destruct Ho as [Ho|Ho]; [|congruence]. assert (HS' : forall x, shape (rq s') (loop s') x (getc s' x)) by (intros x; eapply shape_step; [|exact Hst]; rewrite El; exact HS).
      destruct (rf (getc s d)) eqn:Er; injection Hst' as <- <-; (split; [split; [exact Hc|]; split; [exact HS'|]; split; [unfold getc; cbn; erewrite nth_upd_d by exact En; rewrite (proj2 (Nat.eqb_neq d c)) by exact Hne; exact Hr|exists o; now left]|unfold work; cbn [rq loop with_loop set]; rewrite El; lia]).
  - destruct Ho as [Ho|Ho]; [|discriminate]. assert (Hst : step s LActEnd = Some (with_loop s (rq s) Idle, [EActEnd d])) by (unfold step; now rewrite Hc, El).
    eexists LActEnd, _, _. split; [exact Logic.I|]. split; [exact Hst|]. right. split.
    + split; [exact Hc|]. split; [intros x; eapply shape_step; [|exact Hst]; rewrite El; exact HS|]. split; [exact Hr|]. exists o. now left.
    + unfold work. cbn [rq loop with_loop]. rewrite El. lia.
Qed.
Lemma waiting_resolves c : forall n s, work s < n -> waiting c s -> can_resolve c s.
Proof.
  induction n as [|n IH]; intros s Hn Hw; [lia|]. destruct (waiting_step _ _ Hw) as (l & s' & e & Hl & Hst & [[v Hv]|[Hw' Hm]]).
  - eapply can_now; eassumption.
  - eapply can_step; [exact Hl|exact Hst|]. apply IH; [lia|exact Hw'].
Qed.
Definition sane (s : state) : Prop := crashed s = false /\ forall d, shape (rq s) (loop s) d (getc s d).
Lemma gone_resolves c s : sane s -> rf (getc s c) = None -> caller (getc s c) = KGone -> can_resolve c s.
Proof.
  intros [Hc HS] Hr Hk. pose proof (HS c) as (_ & _ & X1 & X2 & _). rewrite Hk in X1. assert (En := getc_exists s c (or_introl X1)).
  assert (Hpush : forall s o, crashed s = false -> (forall d, shape (rq s) (loop s) d (getc s d)) -> rf (getc s c) = None -> cb (getc s c) = BSpawned o -> can_resolve c s).
  { clear. intros s o Hc HS Hr Hb. pose proof (HS c) as (_ & _ & X1 & X2 & _). rewrite Hb in X2. assert (En : nth_error (calls s) c = Some (getc s c)) by (apply getc_exists; left; congruence).
    destruct (step s (LPush c)) as [[s' e]|] eqn:Hst; [|unfold step, on_call in Hst; rewrite Hc, En, Hb in Hst; discriminate].
    eapply can_step; [|exact Hst|]; [exact Logic.I|]. assert (HS' := fun x => shape_step _ _ _ _ HS Hst x).
    unfold step, on_call in Hst; rewrite Hc, En, Hb in Hst. injection Hst as <- <-. eapply (waiting_resolves c (S (work _))); [apply Nat.lt_succ_diag_r|].
    split; [exact Hc|]. split; [exact HS'|]. split; [unfold getc; cbn; erewrite nth_upd_d by exact En; rewrite Nat.eqb_refl; exact Hr|]. exists o. left. cbn. apply in_or_app. right. now left. }
  destruct (cb (getc s c)) as [| |o|] eqn:Eb.
  - destruct (step s (LRegister c)) as [[s' e]|] eqn:Hst; [|unfold step, on_call in Hst; rewrite Hc, En, Eb in Hst; discriminate].
    eapply can_step; [|exact Hst|]; [exact Logic.I|]. assert (HS' := fun x => shape_step _ _ _ _ HS Hst x).
    unfold step, on_call in Hst; rewrite Hc, En, Eb in Hst. injection Hst as <- <-. destruct (cf (getc s c)) as [o|] eqn:Ef; [|congruence].
    apply (Hpush _ o); [exact Hc|exact HS'|unfold getc; cbn; erewrite nth_upd_d by exact En; rewrite Nat.eqb_refl; exact Hr|unfold getc; cbn; erewrite nth_upd_d by exact En; rewrite Nat.eqb_refl; reflexivity].
  - congruence.
  - eapply Hpush; eassumption.
  - destruct X2 as (o & _ & X2). eapply (waiting_resolves c (S (work s))); [lia|]. split; [exact Hc|]. split; [exact HS|]. split; [exact Hr|]. exists o. tauto.
Qed.
Lemma returned_resolves c s : sane s -> rf (getc s c) = None -> caller (getc s c) <> KCalling -> can_resolve c s.
Proof.
  intros [Hc HS] Hr Hk. assert (En := getc_exists s c (or_intror (or_introl Hk))). destruct (caller (getc s c)) as [|o|] eqn:Ek; [congruence| |apply gone_resolves; [split| |]; assumption].
  destruct (step s (LCallComplete c)) as [[s' e]|] eqn:Hst; [|unfold step, on_call in Hst; rewrite Hc, En, Ek in Hst; discriminate].
  eapply can_step; [|exact Hst|]; [exact Logic.I|]. assert (HS' := fun x => shape_step _ _ _ _ HS Hst x).
  unfold step, on_call in Hst; rewrite Hc, En, Ek in Hst. injection Hst as <- <-.
  apply gone_resolves; [split; assumption| |]; unfold getc; cbn; erewrite nth_upd_d by exact En; rewrite Nat.eqb_refl; [exact Hr|reflexivity].
Qed.
Lemma ctx_resolves c s : sane s -> rf (getc s c) = None -> ctx (getc s c) = true -> can_resolve c s.
Proof.
  intros [Hc HS] Hr Hx. assert (En := getc_exists s c (or_intror (or_intror Hx))).
  assert (Hcomp : forall s, crashed s = false -> nth_error (calls s) c = Some (getc s c) -> rf (getc s c) = None -> watch (getc s c) = WComplete -> can_resolve c s).
  { clear. intros s Hc En Hr Hw. eapply (can_now c s (LWatchComplete c)); [exact Logic.I|unfold step, on_call, complete; rewrite Hc, En, Hw; cbn [rf]; rewrite Hr; reflexivity|now left]. }
  destruct (watch (getc s c)) eqn:Ew.
  - eapply (can_step c s (LWatchCtx c)); [exact Logic.I|unfold step, on_call; rewrite Hc, En, Ew, Hx; reflexivity|].
    apply Hcomp; [exact Hc|apply getc_exists; right; right| |]; unfold getc; cbn; try (erewrite nth_upd_d by exact En); rewrite ?Nat.eqb_refl; auto.
  - apply Hcomp; assumption.
  - pose proof (HS c) as (_ & X1 & X2 & _). destruct (X1 Ew) as [X|X]; [congruence|]. apply gone_resolves; [split; assumption|exact Hr|]. destruct (caller (getc s c)); congruence.
Qed.
Lemma progress sched s evs c : run step init sched = Some (s, evs) -> crashed s = false -> (exists o, In (EReturn c o) evs) \/ In (ECtx c) evs ->
  (exists v, In (EResolve c v) evs) \/ can_resolve c s.
Proof.
  intros H Hc HE. destruct (reach _ _ _ H) as [HS HH]. destruct (HH c) as (Y1 & Y2 & Y3 & _ & Y5 & _). destruct (rf (getc s c)) as [v|] eqn:Er; [left; exists v; now apply res_in|right].
  destruct HE as [[o HE]|HE].
  - apply returned_resolves; [split; assumption|exact Er|]. apply nret_in in HE. rewrite Y2, Y1 in HE. intros X. rewrite X in HE. lia.
  - apply ctx_resolves; [split; assumption|exact Er|]. rewrite <- Y5. now apply ctxd_in.
Qed.

(** ** Inside the loop *)
Lemma inside_app a : forall cur b, inside cur (a ++ b) = match inside cur a with Some cur' => inside cur' b | None => None end.
Proof.
  induction a as [|e a IH]; intros cur b; [reflexivity|]. destruct e; cbn; try apply IH.
  - destruct cur; [reflexivity|apply IH].
  - destruct cur as [[g|g]|]; try reflexivity. destruct (_ =? _); [apply IH|reflexivity].
  - destruct cur; [reflexivity|apply IH].
  - destruct cur as [[g|g]|]; try reflexivity. destruct (_ =? _); [apply IH|reflexivity].
Qed.
Lemma inside_ok sched s evs : run step init sched = Some (s, evs) ->
  inside None evs = Some (match loop s with Idle => None | Handler h => Some (inl h) | Action c _ | Acted c => Some (inr c) end).
Proof.
  apply (run_inv step init (fun _ evs s => inside None evs = Some (match loop s with Idle => None | Handler h => Some (inl h) | Action c _ | Acted c => Some (inr c) end))); [reflexivity|].
  clear. intros sched evs s l s' e _ IH H. rewrite inside_app, IH.
  destruct l as [|u|u|u|u o|u|u|u|u|u| | | | | |u|u|u|u]; inv_step H; injection H as <- <-; cbn; rewrite ?El, ?Nat.eqb_refl; reflexivity.
Qed.
Lemma crashed_in sched s evs : run step init sched = Some (s, evs) -> crashed s = existsb (fun e => match e with ECrash => true | _ => false end) evs.
Proof.
  apply (run_inv step init (fun _ evs s => crashed s = existsb (fun e => match e with ECrash => true | _ => false end) evs)); [reflexivity|].
  clear. intros sched evs s l s' e _ IH H. rewrite existsb_app, <- IH.
  destruct l as [|u|u|u|u o|u|u|u|u|u| | | | | |u|u|u|u]; inv_step H; injection H as <- <-; cbn; rewrite ?Ecr; reflexivity.
Qed.
Lemma library_quiet sched : forall s s' evs, Forall library sched -> run step s sched = Some (s', evs) ->
  forall e, In e evs -> match e with EReturn _ _ | ECtx _ => False | _ => True end.
Proof.
  induction sched as [|l sched IH]; intros s s' evs Hl H e He; cbn [run] in H; [injection H as <- <-; destruct He|].
  destruct (step s l) as [[s1 e1]|] eqn:E1; [|discriminate]. destruct (run step s1 sched) as [[s2 e2]|] eqn:E2; [|discriminate]. injection H as <- <-.
  inversion Hl as [|? ? Hl1 Hl2]; subst. apply in_app_or in He as [He|He]; [|eapply IH; eassumption].
  destruct l as [|u|u|u|u o|u|u|u|u|u| | | | | |u|u|u|u]; try contradiction; inv_step E1; injection E1 as <- <-; cbn in He; repeat destruct He as [<-|He]; try contradiction; exact Logic.I.
Qed.
