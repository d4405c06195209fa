(** Proofs about SpanModel: the cases of a step and the links between states and events. *)
From Coq Require Import List Arith Bool Lia.
From Verif Require Import Machine MachineMore SpanModel SpanSpec.
Import ListNotations.

Lemma some_lt {A} (l : list A) i x : nth_error l i = Some x -> i < length l.
Proof. intros H. apply nth_error_Some. rewrite H. discriminate. Qed.
Lemma upd_case {A} (l : list A) i j x y : i < length l -> nth_error (upd l i x) j = Some y -> (j = i /\ y = x) \/ (j <> i /\ nth_error l j = Some y).
Proof. intros L. rewrite nth_upd by exact L. destruct (Nat.eqb_spec i j) as [->|N]; intros H; [injection H as <-; auto|right; auto]. Qed.
Lemma snoc_case {A} (l : list A) x j y : nth_error (l ++ [x]) j = Some y -> nth_error l j = Some y \/ (j = length l /\ y = x).
Proof.
  intros H. destruct (Nat.lt_ge_cases j (length l)) as [L|L]; [rewrite nth_error_app1 in H by exact L; auto|].
  rewrite nth_error_app2 in H by exact L. destruct (j - length l) as [|m] eqn:D; [injection H as <-; right; split; auto; lia|destruct m; discriminate].
Qed.
Lemma nth_snoc {A} (l : list A) x j y : nth_error l j = Some y -> nth_error (l ++ [x]) j = Some y.
Proof. intros H. rewrite nth_error_app1; [exact H|exact (some_lt _ _ _ H)]. Qed.
Lemma nth_last {A} (l : list A) x : nth_error (l ++ [x]) (length l) = Some x.
Proof. rewrite nth_error_app2, Nat.sub_diag; auto. Qed.

(** ** The cases of a step *)
Inductive move (f : bool) (s : state) : label -> state -> list event -> Prop :=
| m_new : move f s (LWrap None) (with_wrappers s (wrappers s ++ [None])) [VWrap (length (wrappers s)) None]
| m_copy w x : nth_error (wrappers s) w = Some x -> move f s (LWrap (Some w)) (with_wrappers s (wrappers s ++ [x])) [VWrap (length (wrappers s)) (Some w)]
| m_call w x : nth_error (wrappers s) w = Some x -> move f s (LCall w) (with_calls s (calls s ++ [mkC w None None false PEntry])) [VCall (length (calls s)) w]
| m_start c w o i g par : f = true -> nth_error (calls s) c = Some (mkC w o i g PEntry) -> nth_error (wrappers s) w = Some par ->
    move f s (LBegin c) (goto (with_spans s (S (spans s))) c (mkC w (Some (spans s)) None false PStarted)) [VStart (spans s) par (SCall c)]
| m_skip c w o i g : f = false -> nth_error (calls s) c = Some (mkC w o i g PEntry) -> move f s (LBegin c) (goto s c (mkC w None None false PBegun)) []
| m_set c w k i g : nth_error (calls s) c = Some (mkC w (Some k) i g PStarted) ->
    move f s (LBegin c) (goto (with_wrappers s (upd (wrappers s) w (Some k))) c (mkC w (Some k) None false PBegun)) [VSet c k]
| m_remote c w o i g par : nth_error (calls s) c = Some (mkC w o i g PBegun) -> nth_error (wrappers s) w = Some par ->
    move f s (LRemote c) (goto (with_spans s (S (spans s))) c (mkC w o (Some (spans s)) false PClient)) [VStart (spans s) par (SClient c)]
| m_serve c w o kc p : nth_error (calls s) c = Some (mkC w o (Some kc) false p) ->
    move f s (LServe c) (goto (with_serves (with_wrappers (with_spans s (S (spans s))) (wrappers s ++ [Some (spans s)])) (serves s ++ [mkV (spans s) c true])) c (mkC w o (Some kc) true p))
      [VStart (spans s) (Some kc) (SServer (length (serves s))); VServe (length (serves s)) c (length (wrappers s))]
| m_served v k c : nth_error (serves s) v = Some (mkV k c true) -> move f s (LServed v) (with_serves s (upd (serves s) v (mkV k c false))) [VFinish k (SServer v); VServed v]
| m_reply c w o k g : nth_error (calls s) c = Some (mkC w o (Some k) g PClient) -> move f s (LReply c) (goto s c (mkC w o (Some k) g PReturned)) [VFinish k (SClient c); VReply c]
| m_return c w k i g p : (p = PBegun \/ p = PReturned) -> nth_error (calls s) c = Some (mkC w (Some k) i g p) -> move f s (LReturn c) (goto s c (mkC w (Some k) i g PEnd)) [VFinish k (SCall c); VReturn c]
| m_return0 c w i g p : (p = PBegun \/ p = PReturned) -> nth_error (calls s) c = Some (mkC w None i g p) -> move f s (LReturn c) (goto s c (mkC w None i g PEnd)) [VReturn c].
Lemma step_move f s l s' e : step f s l = Some (s', e) -> move f s l s' e.
Proof.
  intros H. unfold step in H.
  repeat (match type of H with context [match ?x with _ => _ end] => destruct x eqn:? end; try discriminate; subst);
  injection H as <- <-; try (econstructor; eauto; fail);
  first [eapply m_return; [|eassumption]; auto | eapply m_return0; [|eassumption]; auto].
Qed.
Ltac moves H := apply step_move in H; inversion H; subst; clear H.

(** ** What has happened to one call and to one request *)
Definition of_call (c : nat) (e : event) : bool :=
  match e with
  | VCall d _ | VStart _ _ (SCall d) | VStart _ _ (SClient d) | VSet d _ | VFinish _ (SCall d) | VFinish _ (SClient d) | VReply d | VReturn d => Nat.eqb d c
  | _ => false
  end.
Definition of_serve (v : nat) (e : event) : bool :=
  match e with
  | VStart _ _ (SServer d) | VServe d _ _ | VFinish _ (SServer d) | VServed d => Nat.eqb d v
  | _ => false
  end.
Inductive hist (c : nat) : call -> list event -> Prop :=
| hi_entry w : hist c (mkC w None None false PEntry) [VCall c w]
| hi_start w k p : hist c (mkC w (Some k) None false PStarted) [VCall c w; VStart k p (SCall c)]
| hi_skip w : hist c (mkC w None None false PBegun) [VCall c w]
| hi_set w k p : hist c (mkC w (Some k) None false PBegun) [VCall c w; VStart k p (SCall c); VSet c k]
| hi_remote w o l kc p g : hist c (mkC w o None false PBegun) l -> hist c (mkC w o (Some kc) g PClient) (l ++ [VStart kc p (SClient c)])
| hi_reply w o l kc g : hist c (mkC w o (Some kc) g PClient) l -> hist c (mkC w o (Some kc) g PReturned) (l ++ [VFinish kc (SClient c); VReply c])
| hi_return w k i l p g : p = PBegun \/ p = PReturned -> hist c (mkC w (Some k) i g p) l -> hist c (mkC w (Some k) i g PEnd) (l ++ [VFinish k (SCall c); VReturn c])
| hi_return0 w i l p g : p = PBegun \/ p = PReturned -> hist c (mkC w None i g p) l -> hist c (mkC w None i g PEnd) (l ++ [VReturn c]).
Inductive shist (v : nat) : serve -> list event -> Prop :=
| sh_run k kc c w : shist v (mkV k c true) [VStart k (Some kc) (SServer v); VServe v c w]
| sh_done k kc c w : shist v (mkV k c false) [VStart k (Some kc) (SServer v); VServe v c w; VFinish k (SServer v); VServed v].
Definition Hist (evs : list event) (s : state) : Prop := forall c,
  match nth_error (calls s) c with Some y => hist c y (filter (of_call c) evs) | None => filter (of_call c) evs = [] end.
Definition SHist (evs : list event) (s : state) : Prop := forall v,
  match nth_error (serves s) v with Some y => shist v y (filter (of_serve v) evs) | None => filter (of_serve v) evs = [] end.
Lemma nth_new {A} (l : list A) x j : nth_error (l ++ [x]) j = if Nat.eqb (length l) j then Some x else nth_error l j.
Proof.
  destruct (Nat.eqb_spec (length l) j) as [<-|N]; [apply nth_last|]. destruct (Nat.lt_ge_cases j (length l)) as [L|L]; [now rewrite nth_error_app1|].
  rewrite nth_error_app2 by exact L. rewrite (proj2 (nth_error_None l j) L). destruct (j - length l) as [|[|m]] eqn:D; auto; lia.
Qed.
Lemma hist_got c w o k g g' p l : hist c (mkC w o (Some k) g p) l -> hist c (mkC w o (Some k) g' p) l.
Proof.
  intros H. remember (mkC w o (Some k) g p) as y eqn:E. revert g' w o k g p E. induction H; intros g' w' o' k' g0 p0 E; inversion E; subst; try (econstructor; eauto; fail).
Qed.
Lemma hist_all f sched s evs : run (step f) init sched = Some (s, evs) -> Hist evs s.
Proof.
  intros R. apply (run_inv (step f) init (fun _ evs s => Hist evs s)) with (sched := sched); [intros c; destruct c; reflexivity| |exact R].
  clear. intros sched evs s l s' e _ IH H. moves H; intros d; specialize (IH d); cbn [calls with_calls with_wrappers with_spans with_serves goto];
  rewrite filter_app; cbn [filter of_call]; rewrite ?app_nil_r; try exact IH.
  1: rewrite nth_new; destruct (Nat.eqb_spec (length (calls s)) d) as [<-|N]; [|now rewrite app_nil_r];
     rewrite (proj2 (nth_error_None (calls s) _) (le_n _)) in IH; rewrite IH; constructor.
  all: match goal with X : nth_error (calls _) ?c = Some _ |- _ => rewrite nth_upd by exact (some_lt _ _ _ X); destruct (Nat.eqb_spec c d) as [->|N]; [rewrite X in IH|rewrite ?app_nil_r; exact IH] end.
  - inversion IH; subst. constructor.
  - inversion IH; subst. constructor.
  - inversion IH; subst. constructor.
  - assert (Q : i = None /\ g = false) by (inversion IH; auto). destruct Q as [-> ->]. constructor. exact IH.
  - exact (hist_got _ _ _ _ _ _ _ _ IH).
  - constructor. exact IH.
  - apply (hi_return d w k i _ p g); auto.
  - apply (hi_return0 d w i _ p g); auto.
Qed.
Lemma shist_all f sched s evs : run (step f) init sched = Some (s, evs) -> SHist evs s.
Proof.
  intros R. apply (run_inv (step f) init (fun _ evs s => SHist evs s)) with (sched := sched); [intros c; destruct c; reflexivity| |exact R].
  clear. intros sched evs s l s' e _ IH H. moves H; intros d; specialize (IH d); cbn [serves with_calls with_wrappers with_spans with_serves goto];
  rewrite filter_app; cbn [filter of_serve]; rewrite ?app_nil_r; try exact IH.
  - rewrite nth_new; destruct (Nat.eqb_spec (length (serves s)) d) as [<-|N]; [|now rewrite app_nil_r].
    rewrite (proj2 (nth_error_None (serves s) _) (le_n _)) in IH; rewrite IH; constructor.
  - rewrite nth_upd by exact (some_lt _ _ _ H0); destruct (Nat.eqb_spec v d) as [->|N]; [rewrite H0 in IH|rewrite ?app_nil_r; exact IH].
    inversion IH; subst. constructor.
Qed.

Ltac shapes := repeat match goal with
  | X : hist _ (mkC _ _ _ _ _) _ |- _ => inversion X; clear X; subst
  | X : _ \/ _ |- _ => destruct X; try discriminate; subst
  end.
Ltac chop H a := repeat (let h := fresh "h" in destruct a as [|h a]; cbn in H; try discriminate H; injection H; clear H; intros H; intros; subst; try discriminate).
(** The whole history of a call, in the order of its events. *)
Definition client_part (c : nat) (l : list event) : Prop := l = [] \/ exists kc p, l = [VStart kc p (SClient c); VFinish kc (SClient c); VReply c].
Definition own_part (c w : nat) (o : option nat) (l : list event) : Prop := match o with None => l = [VCall c w] | Some k => exists p, l = [VCall c w; VStart k p (SCall c); VSet c k] end.
Lemma hist_begun c w o g l : hist c (mkC w o None g PBegun) l -> own_part c w o l.
Proof. intros H. inversion H; subst; cbn; eauto. Qed.
Lemma hist_before c w o i g p l : p = PBegun \/ p = PReturned -> hist c (mkC w o i g p) l -> exists l1 l2, l = l1 ++ l2 /\ own_part c w o l1 /\ client_part c l2.
Proof.
  intros [-> | ->] H.
  - assert (i = None) as -> by (inversion H; auto). exists l, []. rewrite app_nil_r. split; [auto|split; [eapply hist_begun; eauto|left; auto]].
  - inversion H; subst. inversion H5; subst. exists l, [VStart kc p (SClient c); VFinish kc (SClient c); VReply c].
    split; [now rewrite <- app_assoc|split; [eapply hist_begun; eauto|right; eauto]].
Qed.
Lemma hist_end c y l : at_ y = PEnd -> hist c y l -> exists l1 l2 l3, l = l1 ++ l2 ++ l3 /\ own_part c (w_of y) (own y) l1 /\ client_part c l2 /\
  l3 = match own y with Some k => [VFinish k (SCall c); VReturn c] | None => [VReturn c] end.
Proof.
  intros E H. inversion H; subst; try discriminate.
  - destruct (hist_before _ _ _ _ _ _ _ H0 H1) as (l1 & l2 & -> & A & B). exists l1, l2, [VFinish k (SCall c); VReturn c]. rewrite app_assoc. auto.
  - destruct (hist_before _ _ _ _ _ _ _ H0 H1) as (l1 & l2 & -> & A & B). exists l1, l2, [VReturn c]. rewrite app_assoc. auto.
Qed.
(** The history of any call is a prefix of such a list. *)
Lemma hist_prefix c y l : hist c y l -> exists l' o l1 l2 l3, l ++ l' = l1 ++ l2 ++ l3 /\ own_part c (w_of y) o l1 /\ client_part c l2 /\
  l3 = match o with Some k => [VFinish k (SCall c); VReturn c] | None => [VReturn c] end.
Proof.
  assert (B : forall w o i g p l, p = PBegun \/ p = PReturned -> hist c (mkC w o i g p) l -> exists l' o l1 l2 l3, l ++ l' = l1 ++ l2 ++ l3 /\ own_part c w o l1 /\ client_part c l2 /\
    l3 = match o with Some k => [VFinish k (SCall c); VReturn c] | None => [VReturn c] end).
  { intros w o i g p l0 P H0. destruct (hist_before _ _ _ _ _ _ _ P H0) as (l1 & l2 & -> & X & Y).
    exists (match o with Some k => [VFinish k (SCall c); VReturn c] | None => [VReturn c] end), o, l1, l2, (match o with Some k => [VFinish k (SCall c); VReturn c] | None => [VReturn c] end).
    rewrite <- app_assoc. auto. }
  intros H. destruct (at_ y) eqn:E.
  - inversion H; subst; try discriminate. exists [VReturn c], None, [VCall c w], [], [VReturn c]. cbn. repeat split; auto. left; auto.
  - inversion H; subst; try discriminate. exists [VSet c k; VFinish k (SCall c); VReturn c], (Some k), [VCall c w; VStart k p (SCall c); VSet c k], [], [VFinish k (SCall c); VReturn c]. cbn. repeat split; eauto. left; auto.
  - destruct y as [w o i g p]. cbn in E. subst. eapply B; [|exact H]; auto.
  - inversion H; subst; try discriminate.
    destruct (B w o (Some kc) g PReturned ((l0 ++ [VStart kc p (SClient c)]) ++ [VFinish kc (SClient c); VReply c])) as (l' & o' & l1 & l2 & l3 & E1 & R); [auto|constructor; exact H|].
    exists ([VFinish kc (SClient c); VReply c] ++ l'), o', l1, l2, l3. rewrite app_assoc. auto.
  - destruct y as [w o i g p]. cbn in E. subst. eapply B; [|exact H]; auto.
  - destruct (hist_end c y l E H) as (l1 & l2 & l3 & -> & A & C & D). exists [], (own y), l1, l2, l3. rewrite app_nil_r. auto.
Qed.
(** The list itself, in one of four forms. *)
Definition full (c w : nat) (l : list event) : Prop :=
  l = [VCall c w; VReturn c] \/ (exists k p, l = [VCall c w; VStart k p (SCall c); VSet c k; VFinish k (SCall c); VReturn c]) \/
  (exists kc pc, l = [VCall c w; VStart kc pc (SClient c); VFinish kc (SClient c); VReply c; VReturn c]) \/
  (exists k p kc pc, l = [VCall c w; VStart k p (SCall c); VSet c k; VStart kc pc (SClient c); VFinish kc (SClient c); VReply c; VFinish k (SCall c); VReturn c]).
Lemma hist_full c y l : hist c y l -> exists l', full c (w_of y) (l ++ l').
Proof.
  intros H. destruct (hist_prefix c y l H) as (l' & o & l1 & l2 & l3 & E & A & B & ->). exists l'. rewrite E. unfold full.
  destruct o as [k|]; cbn in A; [destruct A as (p & ->)|subst l1]; (destruct B as [->|(kc & pc & ->)]); cbn; eauto 12.
Qed.

(** ** What the events of a call are *)
Lemma ev_call f sched s evs e c : run (step f) init sched = Some (s, evs) -> In e evs -> of_call c e = true -> exists y, nth_error (calls s) c = Some y /\ hist c y (filter (of_call c) evs) /\ In e (filter (of_call c) evs).
Proof.
  intros R I O. pose proof (hist_all _ _ _ _ R c) as H. assert (J : In e (filter (of_call c) evs)) by (apply filter_In; auto).
  destruct (nth_error (calls s) c) as [y|]; [eauto|rewrite H in J; destruct J].
Qed.
Lemma ev_serve f sched s evs e c : run (step f) init sched = Some (s, evs) -> In e evs -> of_serve c e = true -> exists y, nth_error (serves s) c = Some y /\ shist c y (filter (of_serve c) evs) /\ In e (filter (of_serve c) evs).
Proof.
  intros R I O. pose proof (shist_all _ _ _ _ R c) as H. assert (J : In e (filter (of_serve c) evs)) by (apply filter_In; auto).
  destruct (nth_error (serves s) c) as [y|]; [eauto|rewrite H in J; destruct J].
Qed.
Lemma ev_full f sched s evs e c : run (step f) init sched = Some (s, evs) -> In e evs -> of_call c e = true -> exists w l', full c w (filter (of_call c) evs ++ l').
Proof. intros R I O. destruct (ev_call _ _ _ _ _ _ R I O) as (y & _ & H & _). destruct (hist_full _ _ _ H) as (l' & F). eauto. Qed.
Lemma filter_mid {A} (g : A -> bool) a x b : g x = true -> filter g (a ++ x :: b) = filter g a ++ x :: filter g b.
Proof. intros G. rewrite filter_app. cbn. now rewrite G. Qed.
Lemma in_filter_l {A} (g : A -> bool) x l : In x (filter g l) -> In x l.
Proof. intros H. apply filter_In in H. tauto. Qed.

Lemma returned f sched s evs a c b : run (step f) init sched = Some (s, evs) -> evs = a ++ VReturn c :: b ->
  forall k p x, (x = SCall c \/ x = SClient c) -> In (VStart k p x) evs -> In (VFinish k x) a.
Proof.
  intros R -> k p x X I. assert (O : of_call c (VStart k p x) = true) by (destruct X as [-> | ->]; apply Nat.eqb_refl).
  destruct (ev_full _ _ _ _ _ _ R I O) as (w & l' & F). assert (J : In (VStart k p x) (filter (of_call c) (a ++ VReturn c :: b))) by (apply filter_In; auto).
  rewrite filter_mid in F, J by apply Nat.eqb_refl. apply (in_filter_l (of_call c)). generalize dependent (filter (of_call c) a). generalize dependent (filter (of_call c) b). intros b' a' F J.
  rewrite <- app_assoc in F. destruct F as [F|[(k1 & p1 & F)|[(k1 & p1 & F)|(k1 & p1 & k2 & p2 & F)]]]; chop F a'; try (apply app_eq_nil in F as [-> ->]);
  cbn in J |- *; destruct X as [-> | ->]; repeat match type of J with _ \/ _ => destruct J as [J|J] end; try discriminate J; try (injection J as <- <-); auto 12; destruct J.
Qed.

(** ** Spans are numbered once *)
Definition Fresh (evs : list event) (s : state) : Prop := (forall k p x, In (VStart k p x) evs -> k < spans s) /\
  (forall k p x p' x', In (VStart k p x) evs -> In (VStart k p' x') evs -> p = p' /\ x = x').
Lemma fresh_new evs n e k0 p0 x0 : (forall k p x, In (VStart k p x) evs -> k < n) -> (forall k p x p' x', In (VStart k p x) evs -> In (VStart k p' x') evs -> p = p' /\ x = x') ->
  k0 = n -> (forall k p x, In (VStart k p x) e -> k = k0 /\ p = p0 /\ x = x0) ->
  (forall k p x, In (VStart k p x) (evs ++ e) -> k < S n) /\ (forall k p x p' x', In (VStart k p x) (evs ++ e) -> In (VStart k p' x') (evs ++ e) -> p = p' /\ x = x').
Proof.
  intros A B -> C. split.
  - intros k p x I. apply in_app_iff in I as [I|I]; [apply A in I; lia|apply C in I as (-> & _); lia].
  - intros k p x p' x' I J. apply in_app_iff in I as [I|I]; apply in_app_iff in J as [J|J].
    + eapply B; eauto.
    + apply A in I. apply C in J as (-> & _). lia.
    + apply A in J. apply C in I as (-> & _). lia.
    + apply C in I as (_ & -> & ->). apply C in J as (_ & -> & ->). auto.
Qed.
Lemma fresh_all f sched s evs : run (step f) init sched = Some (s, evs) -> Fresh evs s.
Proof.
  intros R. apply (run_inv (step f) init (fun _ evs s => Fresh evs s)) with (sched := sched); [split; intros; contradiction| |exact R].
  clear. intros sched evs s l s' e _ [A B] H. moves H; unfold Fresh; cbn [spans with_calls with_wrappers with_spans with_serves goto]; rewrite ?app_nil_r; auto;
  try (split; [intros k0 p0 x0 I; apply in_app_iff in I as [I|I]; [eauto|cbn in I; intuition discriminate]
              |intros k0 p0 x0 p1 x1 I J; apply in_app_iff in I as [I|I]; apply in_app_iff in J as [J|J]; try (cbn in I, J; intuition discriminate); eauto]; fail).
  all: eapply fresh_new; eauto; intros k0 p0 x0 I; cbn in I; repeat destruct I as [I|I]; try discriminate I; try contradiction; injection I as <- <- <-; eauto.
Qed.
Lemma start_one f sched s evs k p x p' x' : run (step f) init sched = Some (s, evs) -> In (VStart k p x) evs -> In (VStart k p' x') evs -> p = p' /\ x = x'.
Proof. intros R. apply (proj2 (fresh_all _ _ _ _ R)). Qed.
Lemma started_once f sched s evs a k p x b : run (step f) init sched = Some (s, evs) -> evs = a ++ VStart k p x :: b -> forall p' x', ~ In (VStart k p' x') a.
Proof.
  intros R E p' x' I. destruct (run_split _ _ _ _ _ _ _ _ R E) as (x1 & l & y & t & t' & e1 & q1 & q2 & e2 & -> & H1 & H2 & H3 & -> & ->).
  pose proof (fresh_all _ _ _ _ H1) as [A _].
  assert (Q : k = spans t /\ q1 = []).
  { clear - H2. remember (q1 ++ VStart k p x :: q2) as e eqn:E. revert E. moves H2; intros E; destruct q1 as [|z [|z' q1]]; cbn in E; try discriminate E; injection E; clear E; intros; subst; try discriminate; auto; destruct q1; discriminate. }
  destruct Q as [-> ->]. rewrite app_nil_r in I. apply A in I. lia.
Qed.

(** ** Finished once *)
Lemma finish_call f sched s evs a k x c b : run (step f) init sched = Some (s, evs) -> evs = a ++ VFinish k x :: b -> (x = SCall c \/ x = SClient c) ->
  (exists p, In (VStart k p x) a) /\ ~ In (VFinish k x) a.
Proof.
  intros R -> X. assert (O : of_call c (VFinish k x) = true) by (destruct X as [-> | ->]; apply Nat.eqb_refl).
  destruct (ev_full _ _ _ _ (VFinish k x) c R (in_elt _ _ _) O) as (w & l' & F). rewrite filter_mid in F by exact O.
  enough (Q : (exists p, In (VStart k p x) (filter (of_call c) a)) /\ ~ In (VFinish k x) (filter (of_call c) a)).
  { destruct Q as [(p & Q1) Q2]. split; [exists p; eapply in_filter_l; eauto|intros I; apply Q2, filter_In; auto]. }
  generalize dependent (filter (of_call c) a). generalize dependent (filter (of_call c) b). intros b' a' F.
  rewrite <- app_assoc in F. destruct F as [F|[(k1 & p1 & F)|[(k1 & p1 & F)|(k1 & p1 & k2 & p2 & F)]]]; chop F a';
  destruct X; try discriminate; cbn; (split; [eexists; eauto 10|intuition discriminate]).
Qed.
Lemma shist_shape v y l : shist v y l -> exists k kc c w, (l = [VStart k (Some kc) (SServer v); VServe v c w] \/ l = [VStart k (Some kc) (SServer v); VServe v c w; VFinish k (SServer v); VServed v]) /\ sfrom y = c.
Proof. intros H. inversion H; subst; repeat eexists; eauto. Qed.
Lemma finish_serve f sched s evs a k v b : run (step f) init sched = Some (s, evs) -> evs = a ++ VFinish k (SServer v) :: b ->
  (exists p, In (VStart k p (SServer v)) a) /\ ~ In (VFinish k (SServer v)) a.
Proof.
  intros R ->. assert (O : of_serve v (VFinish k (SServer v)) = true) by apply Nat.eqb_refl.
  destruct (ev_serve _ _ _ _ (VFinish k (SServer v)) v R (in_elt _ _ _) O) as (y & _ & F & _). rewrite filter_mid in F by exact O.
  enough (Q : (exists p, In (VStart k p (SServer v)) (filter (of_serve v) a)) /\ ~ In (VFinish k (SServer v)) (filter (of_serve v) a)).
  { destruct Q as [(p & Q1) Q2]. split; [exists p; eapply in_filter_l; eauto|intros I; apply Q2, filter_In; auto]. }
  generalize dependent (filter (of_serve v) a). generalize dependent (filter (of_serve v) b). intros b' a' F.
  apply shist_shape in F as (k1 & kc & c & w & F' & _); destruct F' as [F'|F']; chop F' a'; try (destruct a'; discriminate); cbn; (split; [eexists; eauto 10|intuition discriminate]).
Qed.
Lemma finish_started f sched s evs a k x b : run (step f) init sched = Some (s, evs) -> evs = a ++ VFinish k x :: b -> (exists p, In (VStart k p x) a) /\ ~ In (VFinish k x) a.
Proof. intros R E. destruct x as [c|c|v]; [eapply finish_call|eapply finish_call|eapply finish_serve]; eauto. Qed.
Lemma finish_once f sched s evs a k x b : run (step f) init sched = Some (s, evs) -> evs = a ++ VFinish k x :: b -> forall x', ~ In (VFinish k x') a.
Proof.
  intros R E x' I. destruct (finish_started _ _ _ _ _ _ _ _ R E) as [(p & P) N].
  apply in_split in I as (a1 & a2 & ->). rewrite <- app_assoc in E. cbn in E.
  destruct (finish_started _ _ _ _ _ _ _ _ R E) as [(p' & P') _].
  assert (Q : x = x'). { apply (start_one f sched s evs k p x p' x' R); rewrite E. - rewrite in_app_iff in P |- *. cbn in *. rewrite in_app_iff. intuition. - apply in_app_iff. auto. }
  subst x'. apply N, in_elt.
Qed.
Lemma served f sched s evs a v b : run (step f) init sched = Some (s, evs) -> evs = a ++ VServed v :: b -> forall k p, In (VStart k p (SServer v)) evs -> In (VFinish k (SServer v)) a.
Proof.
  intros R -> k p I. assert (O : of_serve v (VStart k p (SServer v)) = true) by apply Nat.eqb_refl.
  destruct (ev_serve _ _ _ _ _ v R I O) as (y & _ & F & J). rewrite filter_mid in F, J by apply Nat.eqb_refl.
  apply (in_filter_l (of_serve v)). generalize dependent (filter (of_serve v) a). generalize dependent (filter (of_serve v) b). intros b' a' F J.
  apply shist_shape in F as (k1 & kc & c & w & F' & _); destruct F' as [F'|F']; chop F' a'; try (destruct a'; discriminate); subst; cbn in J |- *;
  repeat match type of J with _ \/ _ => destruct J as [J|J] end; try discriminate J; try (injection J as <- <-); auto 12; destruct J.
Qed.
