(** Invariants of [WrapModel]. *)
From Coq Require Import List Arith Lia.
From Verif Require Import Machine MachineMore WrapModel WrapSpec.
Import ListNotations.

Lemma nth_snoc_old {A} (l : list A) y i z : nth_error l i = Some z -> nth_error (l ++ y) i = Some z.
Proof. intros H. rewrite nth_error_app1; [exact H|]. apply nth_error_Some. congruence. Qed.
Lemma nth_snoc_new {A} (l : list A) y : nth_error (l ++ [y]) (length l) = Some y.
Proof. rewrite nth_error_app2, Nat.sub_diag by lia. reflexivity. Qed.
Lemma nth_snoc_inv {A} (l : list A) y i z : nth_error (l ++ [y]) i = Some z -> nth_error l i = Some z \/ (i = length l /\ z = y).
Proof.
  destruct (Nat.lt_ge_cases i (length l)) as [L|L]; [rewrite nth_error_app1 by exact L; auto|].
  rewrite nth_error_app2 by exact L. destruct (i - length l) as [|[|]] eqn:D; cbn; try discriminate. intros [= <-]. right. split; [lia|reflexivity].
Qed.

(** ** Wait groups.  [R] lists for every group the context that began it. *)
Record groups_ok (x : list event) (s : state) (R : list nat) : Prop := {
  g_len : length R = groups s;
  g_dup : NoDup R;
  g_below : forall r, In r R -> r < length (ctxs s);
  g_none : forall c, In (VContext c None) x -> nth_error (ctxs s) c = Some None;
  g_from : forall c p, In (VContext c (Some p)) x -> exists g, nth_error (ctxs s) c = Some g /\ nth_error (ctxs s) p = Some g;
  g_request : forall c, In (VRequest c) x -> exists g, nth_error (ctxs s) c = Some (Some g) /\ nth_error R g = Some c;
  g_swap : forall n m c, In (VSwap n m c) x -> exists g, nth_error (ctxs s) c = Some (Some g) /\ nth_error R g = Some c;
  g_new : forall n c c', In (VNew n c c') x -> exists g, nth_error (ctxs s) c' = Some (Some g) /\
    ((nth_error (ctxs s) c = Some None /\ nth_error R g = Some c') \/ nth_error (ctxs s) c = Some (Some g));
  g_bare : forall c, nth_error (ctxs s) c = Some None -> bare x c;
  g_tree : forall c g, nth_error (ctxs s) c = Some (Some g) -> exists r, nth_error R g = Some r /\ tree x c r;
  g_wrap : forall n w, nth_error (wraps s) n = Some w -> context_of x n (ctx w) /\ exists g, nth_error (ctxs s) (ctx w) = Some (Some g);
  g_ctx : forall n c, context_of x n c -> exists w, nth_error (wraps s) n = Some w /\ ctx w = c }.
Lemma bare_app x e c : bare x c -> bare (x ++ e) c.
Proof. induction 1; [apply bare_here|eapply bare_below; [|eassumption]]; apply in_or_app; auto. Qed.
Lemma tree_app x e c r : tree x c r -> tree (x ++ e) c r.
Proof.
  induction 1; [apply tree_request|eapply tree_swap|eapply tree_first; [|apply bare_app; eassumption]|eapply tree_new; [|eassumption]|eapply tree_below; [|eassumption]]; apply in_or_app; eauto.
Qed.
Lemma context_app x e n c : context_of x n c -> context_of (x ++ e) n c.
Proof. intros (k & [H|H]); exists k; [left|right]; apply in_or_app; auto. Qed.
(** The derivations say what the state says. *)
Lemma bare_state x s R c : groups_ok x s R -> bare x c -> nth_error (ctxs s) c = Some None.
Proof.
  intros I. induction 1 as [c H|c p H _ IH]; [now apply (g_none _ _ _ I)|]. destruct (g_from _ _ _ I _ _ H) as (g & A & B). congruence.
Qed.
Lemma tree_state x s R c r : groups_ok x s R -> tree x c r -> exists g, nth_error (ctxs s) c = Some (Some g) /\ nth_error R g = Some r.
Proof.
  intros I. induction 1 as [c H|n m c H|n c c' H B|n c c' r H _ (g & A & B)|c p r H _ (g & A & B)].
  - now apply (g_request _ _ _ I).
  - eapply (g_swap _ _ _ I); eauto.
  - apply (bare_state _ _ _ _ I) in B. destruct (g_new _ _ _ I _ _ _ H) as (g & C & [(_ & D)|D]); [eauto|congruence].
  - destruct (g_new _ _ _ I _ _ _ H) as (g' & C & [(D & _)|D]); [congruence|]. assert (g' = g) by congruence. subst. eauto.
  - destruct (g_from _ _ _ I _ _ H) as (g' & C & D). exists g. split; congruence.
Qed.
Lemma nodup_snoc (l : list nat) y : NoDup l -> ~ In y l -> NoDup (l ++ [y]).
Proof. intros N I. apply NoDup_rev in N. rewrite <- (rev_involutive (l ++ [y])), rev_app_distr. apply NoDup_rev. cbn. constructor; [now rewrite <- in_rev|exact N]. Qed.
(** An event that makes no context and no wrapper. *)
Definition still (v : event) : Prop := match v with VContext _ _ | VRequest _ | VNew _ _ _ | VSwap _ _ _ => False | _ => True end.
Lemma groups_still x s s' R v : groups_ok x s R -> still v -> ctxs s' = ctxs s -> groups s' = groups s -> wraps s' = wraps s -> groups_ok (x ++ [v]) s' R.
Proof.
  intros I Q E1 E2 E3. assert (K : forall u, ~ still u -> In u (x ++ [v]) -> In u x).
  { intros u N H. apply in_app_or in H as [H|[<-|[]]]; [exact H|contradiction]. }
  destruct I as [A B C D E F G H J L M N]. constructor; rewrite ?E1, ?E2, ?E3; [exact A|exact B|exact C|..].
  - intros c T. apply D. apply K in T; cbn; auto.
  - intros c p T. apply E. apply K in T; cbn; auto.
  - intros c T. apply F. apply K in T; cbn; auto.
  - intros n m c T. eapply G. apply K in T; cbn; eauto.
  - intros n c c' T. eapply H. apply K in T; cbn; eauto.
  - intros c T. apply bare_app. auto.
  - intros c g T. destruct (L _ _ T) as (r & T1 & T2). eauto using tree_app.
  - intros n w T. destruct (M _ _ T) as [T1 T2]. auto using context_app.
  - intros n c (k & [T|T]); apply K in T; cbn; auto; apply N; exists k; auto.
Qed.
Lemma groups_step x s R l s' e : groups_ok x s R -> step s l = Some (s', e) -> exists R', groups_ok (x ++ e) s' R'.
Proof.
  intros I H.
  assert (NEWR : NoDup (R ++ [length (ctxs s)])).
  { apply nodup_snoc; [exact (g_dup _ _ _ I)|]. intros K. apply (g_below _ _ _ I) in K. lia. }
  assert (LT : forall c o, nth_error (ctxs s) c = Some o -> c < length (ctxs s)) by (intros c o K; apply nth_error_Some; congruence).
  assert (RN : nth_error (R ++ [length (ctxs s)]) (groups s) = Some (length (ctxs s))).
  { rewrite <- (g_len _ _ _ I). apply nth_snoc_new. }
  destruct l as [from|from|c opts|n|n d v|n d|n|n]; cbn in H.
  - destruct (carried s from) as [g|] eqn:E; [|discriminate]. injection H as <- <-. exists R.
    assert (V : match from with None => g = None | Some p => nth_error (ctxs s) p = Some g end) by (destruct from; cbn in E; congruence).
    constructor; cbn.
    + exact (g_len _ _ _ I).
    + exact (g_dup _ _ _ I).
    + intros r K. rewrite app_length. apply (g_below _ _ _ I) in K. lia.
    + intros c K. apply in_app_or in K as [K|[[= <- ->]|[]]]; [apply nth_snoc_old; now apply (g_none _ _ _ I)|]. subst g. apply nth_snoc_new.
    + intros c p K. apply in_app_or in K as [K|[[= <- ->]|[]]].
      * destruct (g_from _ _ _ I _ _ K) as (h & A & B). exists h. split; now apply nth_snoc_old.
      * exists g. split; [apply nth_snoc_new|now apply nth_snoc_old].
    + intros c K. apply in_app_or in K as [K|[|[]]]; [|discriminate]. destruct (g_request _ _ _ I _ K) as (h & A & B). exists h. split; [now apply nth_snoc_old|exact B].
    + intros n m c K. apply in_app_or in K as [K|[|[]]]; [|discriminate]. destruct (g_swap _ _ _ I _ _ _ K) as (h & A & B). exists h. split; [now apply nth_snoc_old|exact B].
    + intros n c c' K. apply in_app_or in K as [K|[|[]]]; [|discriminate]. destruct (g_new _ _ _ I _ _ _ K) as (h & A & [(B & C)|B]); exists h; (split; [now apply nth_snoc_old|]); [left|right]; try split; try now apply nth_snoc_old. exact C.
    + intros c K. apply nth_snoc_inv in K as [K|(-> & <-)]; [apply bare_app; now apply (g_bare _ _ _ I)|].
      destruct from as [p|]; [|apply bare_here; apply in_elt]. eapply bare_below; [apply in_elt|]. apply bare_app. now apply (g_bare _ _ _ I).
    + intros c h K. apply nth_snoc_inv in K as [K|(-> & <-)]; [destruct (g_tree _ _ _ I _ _ K) as (r & A & B); eauto using tree_app|].
      destruct from as [p|]; [|discriminate]. destruct (g_tree _ _ _ I _ _ V) as (r & A & B). exists r. split; [exact A|]. eapply tree_below; [apply in_elt|]. now apply tree_app.
    + intros n w K. destruct (g_wrap _ _ _ I _ _ K) as (A & h & B). split; [now apply context_app|]. exists h. now apply nth_snoc_old.
    + intros n c (k & [K|K]); apply in_app_or in K as [K|[|[]]]; try discriminate; apply (g_ctx _ _ _ I); exists k; auto.
  - destruct (carried s from) as [g|] eqn:E; [|discriminate]. injection H as <- <-. exists (R ++ [length (ctxs s)]).
    constructor; cbn.
    + rewrite app_length, (g_len _ _ _ I). cbn. lia.
    + exact NEWR.
    + intros r K. rewrite app_length. cbn. apply in_app_or in K as [K|[<-|[]]]; [apply (g_below _ _ _ I) in K|]; lia.
    + intros c K. apply in_app_or in K as [K|[|[]]]; [|discriminate]. apply nth_snoc_old; now apply (g_none _ _ _ I).
    + intros c p K. apply in_app_or in K as [K|[|[]]]; [|discriminate]. destruct (g_from _ _ _ I _ _ K) as (h & A & B). exists h. split; now apply nth_snoc_old.
    + intros c K. apply in_app_or in K as [K|[[= <-]|[]]]; [destruct (g_request _ _ _ I _ K) as (h & A & B); exists h; split; now apply nth_snoc_old|].
      exists (groups s). split; [apply nth_snoc_new|exact RN].
    + intros n m c K. apply in_app_or in K as [K|[|[]]]; [|discriminate]. destruct (g_swap _ _ _ I _ _ _ K) as (h & A & B). exists h. split; now apply nth_snoc_old.
    + intros n c c' K. apply in_app_or in K as [K|[|[]]]; [|discriminate]. destruct (g_new _ _ _ I _ _ _ K) as (h & A & [(B & C)|B]); exists h; (split; [now apply nth_snoc_old|]); [left|right]; try split; now apply nth_snoc_old.
    + intros c K. apply nth_snoc_inv in K as [K|(_ & K)]; [|discriminate]. apply bare_app. now apply (g_bare _ _ _ I).
    + intros c h K. apply nth_snoc_inv in K as [K|(-> & [= ->])]; [destruct (g_tree _ _ _ I _ _ K) as (r & A & B); exists r; split; [now apply nth_snoc_old|now apply tree_app]|].
      exists (length (ctxs s)). split; [exact RN|apply tree_request; apply in_elt].
    + intros n w K. destruct (g_wrap _ _ _ I _ _ K) as (A & h & B). split; [now apply context_app|]. exists h. now apply nth_snoc_old.
    + intros n c (k & [K|K]); apply in_app_or in K as [K|[|[]]]; try discriminate; apply (g_ctx _ _ _ I); exists k; auto.
  - destruct (nth_error (ctxs s) c) as [[h|]|] eqn:E; [| |discriminate]; injection H as <- <-; [exists R|exists (R ++ [length (ctxs s)])]; constructor; cbn.
    + exact (g_len _ _ _ I).
    + exact (g_dup _ _ _ I).
    + intros r K. rewrite app_length. apply (g_below _ _ _ I) in K. lia.
    + intros k K. apply in_app_or in K as [K|[|[]]]; [|discriminate]. apply nth_snoc_old; now apply (g_none _ _ _ I).
    + intros k p K. apply in_app_or in K as [K|[|[]]]; [|discriminate]. destruct (g_from _ _ _ I _ _ K) as (g & A & B). exists g. split; now apply nth_snoc_old.
    + intros k K. apply in_app_or in K as [K|[|[]]]; [|discriminate]. destruct (g_request _ _ _ I _ K) as (g & A & B); exists g; split; [now apply nth_snoc_old|exact B].
    + intros n m k K. apply in_app_or in K as [K|[|[]]]; [|discriminate]. destruct (g_swap _ _ _ I _ _ _ K) as (g & A & B). exists g. split; [now apply nth_snoc_old|exact B].
    + intros n k k' K. apply in_app_or in K as [K|[[= <- <- <-]|[]]].
      * destruct (g_new _ _ _ I _ _ _ K) as (g & A & [(B & C)|B]); exists g; (split; [now apply nth_snoc_old|]); [left|right]; try split; try now apply nth_snoc_old. exact C.
      * exists h. split; [apply nth_snoc_new|right; now apply nth_snoc_old].
    + intros k K. apply nth_snoc_inv in K as [K|(_ & K)]; [|discriminate]. apply bare_app. now apply (g_bare _ _ _ I).
    + intros k g K. apply nth_snoc_inv in K as [K|(-> & [= ->])]; [destruct (g_tree _ _ _ I _ _ K) as (r & A & B); eauto using tree_app|].
      destruct (g_tree _ _ _ I _ _ E) as (r & A & B). exists r. split; [exact A|]. eapply tree_new; [apply in_elt|now apply tree_app].
    + intros n w K. apply nth_snoc_inv in K as [K|(-> & ->)].
      * destruct (g_wrap _ _ _ I _ _ K) as (A & g & B). split; [now apply context_app|]. exists g. now apply nth_snoc_old.
      * cbn. split; [exists c; left; apply in_elt|]. exists h. apply nth_snoc_new.
    + intros n k (j & [K|K]); apply in_app_or in K as [K|[K|[]]]; try discriminate.
      * destruct (g_ctx _ _ _ I n k) as (w & A & B); [exists j; auto|]. exists w. split; [now apply nth_snoc_old|exact B].
      * injection K as <- <- <-. eexists. split; [apply nth_snoc_new|reflexivity].
      * destruct (g_ctx _ _ _ I n k) as (w & A & B); [exists j; auto|]. exists w. split; [now apply nth_snoc_old|exact B].
    + rewrite app_length, (g_len _ _ _ I). cbn. lia.
    + exact NEWR.
    + intros r K. rewrite app_length. cbn. apply in_app_or in K as [K|[<-|[]]]; [apply (g_below _ _ _ I) in K|]; lia.
    + intros k K. apply in_app_or in K as [K|[|[]]]; [|discriminate]. apply nth_snoc_old; now apply (g_none _ _ _ I).
    + intros k p K. apply in_app_or in K as [K|[|[]]]; [|discriminate]. destruct (g_from _ _ _ I _ _ K) as (g & A & B). exists g. split; now apply nth_snoc_old.
    + intros k K. apply in_app_or in K as [K|[|[]]]; [|discriminate]. destruct (g_request _ _ _ I _ K) as (g & A & B); exists g; split; now apply nth_snoc_old.
    + intros n m k K. apply in_app_or in K as [K|[|[]]]; [|discriminate]. destruct (g_swap _ _ _ I _ _ _ K) as (g & A & B). exists g. split; now apply nth_snoc_old.
    + intros n k k' K. apply in_app_or in K as [K|[[= <- <- <-]|[]]].
      * destruct (g_new _ _ _ I _ _ _ K) as (g & A & [(B & C)|B]); exists g; (split; [now apply nth_snoc_old|]); [left|right]; try split; now apply nth_snoc_old.
      * exists (groups s). split; [apply nth_snoc_new|left; split; [now apply nth_snoc_old|exact RN]].
    + intros k K. apply nth_snoc_inv in K as [K|(_ & K)]; [|discriminate]. apply bare_app. now apply (g_bare _ _ _ I).
    + intros k g K. apply nth_snoc_inv in K as [K|(-> & [= ->])]; [destruct (g_tree _ _ _ I _ _ K) as (r & A & B); exists r; split; [now apply nth_snoc_old|now apply tree_app]|].
      exists (length (ctxs s)). split; [exact RN|]. eapply tree_first; [apply in_elt|apply bare_app; now apply (g_bare _ _ _ I)].
    + intros n w K. apply nth_snoc_inv in K as [K|(-> & ->)].
      * destruct (g_wrap _ _ _ I _ _ K) as (A & g & B). split; [now apply context_app|]. exists g. now apply nth_snoc_old.
      * cbn. split; [exists c; left; apply in_elt|]. exists (groups s). apply nth_snoc_new.
    + intros n k (j & [K|K]); apply in_app_or in K as [K|[K|[]]]; try discriminate.
      * destruct (g_ctx _ _ _ I n k) as (w & A & B); [exists j; auto|]. exists w. split; [now apply nth_snoc_old|exact B].
      * injection K as <- <- <-. eexists. split; [apply nth_snoc_new|reflexivity].
      * destruct (g_ctx _ _ _ I n k) as (w & A & B); [exists j; auto|]. exists w. split; [now apply nth_snoc_old|exact B].
  - destruct (nth_error (wraps s) n) as [w0|] eqn:E; [|discriminate]. injection H as <- <-. exists (R ++ [length (ctxs s)]). constructor; cbn.
    + rewrite app_length, (g_len _ _ _ I). cbn. lia.
    + exact NEWR.
    + intros r K. rewrite app_length. cbn. apply in_app_or in K as [K|[<-|[]]]; [apply (g_below _ _ _ I) in K|]; lia.
    + intros k K. apply in_app_or in K as [K|[|[]]]; [|discriminate]. apply nth_snoc_old; now apply (g_none _ _ _ I).
    + intros k p K. apply in_app_or in K as [K|[|[]]]; [|discriminate]. destruct (g_from _ _ _ I _ _ K) as (g & A & B). exists g. split; now apply nth_snoc_old.
    + intros k K. apply in_app_or in K as [K|[|[]]]; [|discriminate]. destruct (g_request _ _ _ I _ K) as (g & A & B); exists g; split; now apply nth_snoc_old.
    + intros i m k K. apply in_app_or in K as [K|[[= <- <- <-]|[]]]; [destruct (g_swap _ _ _ I _ _ _ K) as (g & A & B); exists g; split; now apply nth_snoc_old|].
      exists (groups s). split; [apply nth_snoc_new|exact RN].
    + intros i k k' K. apply in_app_or in K as [K|[|[]]]; [|discriminate].
      destruct (g_new _ _ _ I _ _ _ K) as (g & A & [(B & C)|B]); exists g; (split; [now apply nth_snoc_old|]); [left|right]; try split; now apply nth_snoc_old.
    + intros k K. apply nth_snoc_inv in K as [K|(_ & K)]; [|discriminate]. apply bare_app. now apply (g_bare _ _ _ I).
    + intros k g K. apply nth_snoc_inv in K as [K|(-> & [= ->])]; [destruct (g_tree _ _ _ I _ _ K) as (r & A & B); exists r; split; [now apply nth_snoc_old|now apply tree_app]|].
      exists (length (ctxs s)). split; [exact RN|]. eapply tree_swap; apply in_elt.
    + intros i w K. apply nth_snoc_inv in K as [K|(-> & ->)].
      * destruct (g_wrap _ _ _ I _ _ K) as (A & g & B). split; [now apply context_app|]. exists g. now apply nth_snoc_old.
      * cbn. split; [exists n; right; apply in_elt|]. exists (groups s). apply nth_snoc_new.
    + intros i k (j & [K|K]); apply in_app_or in K as [K|[K|[]]]; try discriminate.
      * destruct (g_ctx _ _ _ I i k) as (w & A & B); [exists j; auto|]. exists w. split; [now apply nth_snoc_old|exact B].
      * destruct (g_ctx _ _ _ I i k) as (w & A & B); [exists j; auto|]. exists w. split; [now apply nth_snoc_old|exact B].
      * injection K as <- <- <-. eexists. split; [apply nth_snoc_new|reflexivity].
  - destruct (nth_error (wraps s) n); [|discriminate]. injection H as <- <-. exists R. eapply groups_still; [exact I|exact Logic.I|reflexivity..].
  - destruct (nth_error (wraps s) n); [|discriminate]. destruct (nth_error (msgs s) _); [|discriminate]. injection H as <- <-. exists R. eapply groups_still; [exact I|exact Logic.I|reflexivity..].
  - destruct (nth_error (wraps s) n); [|discriminate]. destruct (nth_error (ctxs s) _); [|discriminate]. injection H as <- <-. exists R. eapply groups_still; [exact I|exact Logic.I|reflexivity..].
  - destruct (nth_error (wraps s) n); [|discriminate]. injection H as <- <-. exists R. eapply groups_still; [exact I|exact Logic.I|reflexivity..].
Qed.
Lemma groups_run sched s x : run step init sched = Some (s, x) -> exists R, groups_ok x s R.
Proof.
  intros H. refine (run_inv step init (fun _ x s => exists R, groups_ok x s R) _ _ sched s x H).
  - exists []. constructor; cbn; try contradiction; auto using NoDup_nil; try (intros c; destruct c; discriminate); try (intros c g; destruct c; discriminate).
    intros n c (k & [[]|[]]).
  - intros sched' evs t l t' e _ (R & C) S. eapply groups_step; eauto.
Qed.

(** ** Messages *)
Record msgs_ok (x : list event) (s : state) : Prop := {
  m_even : exists k, length (msgs s) = 2 * k;
  m_pair : forall n w, nth_error (wraps s) n = Some w -> exists k, req w = 2 * k /\ res w = S (2 * k) /\ res w < length (msgs s);
  m_origin : forall n w, nth_error (wraps s) n = Some w -> exists o wo, swapped x n o /\ nth_error (wraps s) o = Some wo /\ req wo = req w;
  m_new : forall n c c', In (VNew n c c') x -> exists w, nth_error (wraps s) n = Some w;
  m_swap : forall n m c, In (VSwap n m c) x -> exists w w', nth_error (wraps s) n = Some w /\ nth_error (wraps s) m = Some w' /\ req w = req w';
  m_one : forall n m c c' d d' w w', In (VNew n c c') x -> In (VNew m d d') x -> nth_error (wraps s) n = Some w -> nth_error (wraps s) m = Some w' -> req w = req w' -> n = m;
  m_set : forall n d v, In (VSet n d v) x -> n < length (wraps s) }.
Lemma swapped_app x e n o : swapped x n o -> swapped (x ++ e) n o.
Proof. induction 1; [eapply swapped_not|eapply swapped_once; [|eassumption]]; apply in_or_app; eauto. Qed.
Lemma swapped_origin x n o : swapped x n o -> exists c c', In (VNew o c c') x.
Proof. induction 1; eauto. Qed.
Lemma swapped_state x s n o : msgs_ok x s -> swapped x n o -> exists w wo, nth_error (wraps s) n = Some w /\ nth_error (wraps s) o = Some wo /\ req w = req wo.
Proof.
  intros I Q. induction Q as [n c c' H|n m c q H _ (w & wo & A & B & C)].
  - destruct (m_new _ _ I _ _ _ H) as (w & A). eauto.
  - destruct (m_swap _ _ I _ _ _ H) as (w1 & w2 & D & E & F). exists w1, wo. repeat split; auto. congruence.
Qed.
Lemma akin_state x s m n : msgs_ok x s -> (akin x m n <-> exists w w', nth_error (wraps s) m = Some w /\ nth_error (wraps s) n = Some w' /\ req w = req w').
Proof.
  intros I. split.
  - intros (o & A & B). destruct (swapped_state _ _ _ _ I A) as (w1 & o1 & A1 & A2 & A3). destruct (swapped_state _ _ _ _ I B) as (w2 & o2 & B1 & B2 & B3).
    exists w1, w2. repeat split; auto. congruence.
  - intros (w & w' & A & B & C). destruct (m_origin _ _ I _ _ A) as (o1 & w1 & A1 & A2 & A3). destruct (m_origin _ _ I _ _ B) as (o2 & w2 & B1 & B2 & B3).
    destruct (swapped_origin _ _ _ A1) as (c1 & d1 & A4). destruct (swapped_origin _ _ _ B1) as (c2 & d2 & B4).
    assert (o1 = o2) as <- by (eapply (m_one _ _ I); [exact A4|exact B4|exact A2|exact B2|congruence]). exists o1. auto.
Qed.
Lemma msgs_still x s s' v : msgs_ok x s -> still v -> wraps s' = wraps s -> length (msgs s') = length (msgs s) ->
  (forall n d u, v = VSet n d u -> n < length (wraps s)) -> msgs_ok (x ++ [v]) s'.
Proof.
  intros I Q E1 E2 V. assert (K : forall u, ~ still u -> In u (x ++ [v]) -> In u x).
  { intros u N H. apply in_app_or in H as [H|[<-|[]]]; [exact H|contradiction]. }
  destruct I as [A B C D E F G]. constructor; rewrite ?E1, ?E2; [exact A|exact B|..].
  - intros n w H. destruct (C _ _ H) as (o & wo & C1 & C2 & C3). eauto 6 using swapped_app.
  - intros n c c' H. eapply D. apply K in H; cbn; eauto.
  - intros n m c H. eapply E. apply K in H; cbn; eauto.
  - intros n m c c' d d' w w' H1 H2. eapply F; (eapply K; [|eassumption]); cbn; auto.
  - intros n d u H. apply in_app_or in H as [H|[H|[]]]; [eauto|]. eapply V; eauto.
Qed.
Lemma msgs_step x s l s' e : msgs_ok x s -> step s l = Some (s', e) -> msgs_ok (x ++ e) s'.
Proof.
  intros I H. assert (LT : forall n w, nth_error (wraps s) n = Some w -> n < length (wraps s)) by (intros n w K; apply nth_error_Some; congruence).
  destruct l as [from|from|c opts|n|n d v|n d|n|n]; cbn in H.
  - destruct (carried s from) as [g0|]; [|discriminate]. injection H as <- <-. destruct I as [A B C D E F G]. constructor; cbn; [exact A|exact B|..].
    + intros n w H. destruct (C _ _ H) as (o & wo & C1 & C2 & C3). eauto 6 using swapped_app.
    + intros n c c' H. apply in_app_or in H as [H|[|[]]]; [|discriminate]. eauto.
    + intros n m c H. apply in_app_or in H as [H|[|[]]]; [|discriminate]. eauto.
    + intros n m c c' d d' w w' H1 H2. apply in_app_or in H1 as [H1|[|[]]]; [|discriminate]. apply in_app_or in H2 as [H2|[|[]]]; [|discriminate]. eauto.
    + intros n d v H. apply in_app_or in H as [H|[|[]]]; [|discriminate]. eauto.
  - destruct (carried s from) as [g0|]; [|discriminate]. injection H as <- <-. destruct I as [A B C D E F G]. constructor; cbn; [exact A|exact B|..].
    + intros n w H. destruct (C _ _ H) as (o & wo & C1 & C2 & C3). eauto 6 using swapped_app.
    + intros n c c' H. apply in_app_or in H as [H|[|[]]]; [|discriminate]. eauto.
    + intros n m c H. apply in_app_or in H as [H|[|[]]]; [|discriminate]. eauto.
    + intros n m c c' d d' w w' H1 H2. apply in_app_or in H1 as [H1|[|[]]]; [|discriminate]. apply in_app_or in H2 as [H2|[|[]]]; [|discriminate]. eauto.
    + intros n d v H. apply in_app_or in H as [H|[|[]]]; [|discriminate]. eauto.
  - assert (exists g k, s' = mkS (ctxs s ++ [Some g]) k (wraps s ++ [mkW (length (ctxs s)) (length (msgs s)) (S (length (msgs s))) default_codec]) (msgs s ++ [0; 0]) /\ e = [VNew (length (wraps s)) c (length (ctxs s))]) as (g & k & -> & ->).
    { destruct (nth_error (ctxs s) c) as [[h|]|]; [| |discriminate]; injection H as <- <-; eauto. }
    clear H. destruct (m_even _ _ I) as (z & Ez).
    assert (LO : forall n w, nth_error (wraps s) n = Some w -> req w <> length (msgs s)).
    { intros n w K. destruct (m_pair _ _ I _ _ K) as (y & P1 & P2 & P3). lia. }
    constructor; cbn.
    + exists (S z). rewrite app_length. cbn. lia.
    + intros n w K. rewrite app_length. cbn. apply nth_snoc_inv in K as [K|(-> & ->)].
      * destruct (m_pair _ _ I _ _ K) as (y & P1 & P2 & P3). exists y. repeat split; auto. lia.
      * cbn. exists z. repeat split; lia.
    + intros n w K. apply nth_snoc_inv in K as [K|(-> & ->)].
      * destruct (m_origin _ _ I _ _ K) as (o & wo & C1 & C2 & C3). exists o, wo. repeat split; auto using swapped_app. now apply nth_snoc_old.
      * eexists (length (wraps s)), _. split; [eapply swapped_not; apply in_elt|]. split; [apply nth_snoc_new|reflexivity].
    + intros n k0 k' K. apply in_app_or in K as [K|[[= <- <- <-]|[]]].
      * destruct (m_new _ _ I _ _ _ K) as (w & A). eauto using nth_snoc_old.
      * eexists. apply nth_snoc_new.
    + intros n m k0 K. apply in_app_or in K as [K|[|[]]]; [|discriminate]. destruct (m_swap _ _ I _ _ _ K) as (w & w' & A & B & C). eauto 7 using nth_snoc_old.
    + intros n m c1 c2 d1 d2 w w' K1 K2 A B E. apply nth_snoc_inv in A as [A|(-> & ->)]; apply nth_snoc_inv in B as [B|(-> & ->)].
      * apply in_app_or in K1 as [K1|[K1|[]]]; [|injection K1 as <- _ _; apply LT in A; lia].
        apply in_app_or in K2 as [K2|[K2|[]]]; [|injection K2 as <- _ _; apply LT in B; lia]. eapply (m_one _ _ I); [exact K1|exact K2|exact A|exact B|exact E].
      * elim (LO _ _ A). exact E.
      * elim (LO _ _ B). symmetry. exact E.
      * reflexivity.
    + intros n d v K. rewrite app_length. cbn. apply in_app_or in K as [K|[|[]]]; [|discriminate]. apply (m_set _ _ I) in K. lia.
  - destruct (nth_error (wraps s) n) as [w0|] eqn:E; [|discriminate]. injection H as <- <-. constructor; cbn.
    + exact (m_even _ _ I).
    + intros i w K. apply nth_snoc_inv in K as [K|(-> & ->)]; [eapply (m_pair _ _ I); eauto|exact (m_pair _ _ I _ _ E)].
    + intros i w K. apply nth_snoc_inv in K as [K|(-> & ->)].
      * destruct (m_origin _ _ I _ _ K) as (o & wo & C1 & C2 & C3). exists o, wo. repeat split; auto using swapped_app. now apply nth_snoc_old.
      * destruct (m_origin _ _ I _ _ E) as (o & wo & C1 & C2 & C3). exists o, wo. split; [eapply swapped_once; [apply in_elt|now apply swapped_app]|]. split; [now apply nth_snoc_old|exact C3].
    + intros i k0 k' K. apply in_app_or in K as [K|[|[]]]; [|discriminate]. destruct (m_new _ _ I _ _ _ K) as (w & A). eauto using nth_snoc_old.
    + intros i m k0 K. apply in_app_or in K as [K|[[= <- <- <-]|[]]]; [destruct (m_swap _ _ I _ _ _ K) as (w & w' & A & B & C); eauto 7 using nth_snoc_old|].
      eexists _, w0. split; [apply nth_snoc_new|]. split; [now apply nth_snoc_old|reflexivity].
    + intros i m c1 c2 d1 d2 w w' K1 K2 A B E'. apply in_app_or in K1 as [K1|[|[]]]; [|discriminate]. apply in_app_or in K2 as [K2|[|[]]]; [|discriminate].
      destruct (m_new _ _ I _ _ _ K1) as (w1 & A1). destruct (m_new _ _ I _ _ _ K2) as (w2 & B1).
      rewrite (nth_snoc_old _ _ _ _ A1) in A. rewrite (nth_snoc_old _ _ _ _ B1) in B. injection A as <-. injection B as <-. eapply (m_one _ _ I); [exact K1|exact K2|exact A1|exact B1|exact E'].
    + intros i d v K. rewrite app_length. cbn. apply in_app_or in K as [K|[|[]]]; [|discriminate]. apply (m_set _ _ I) in K. lia.
  - destruct (nth_error (wraps s) n) as [w|] eqn:E; [|discriminate]. injection H as <- <-. eapply msgs_still; [exact I|exact Logic.I|reflexivity|apply upd_length|]. intros i d' u [= <- _ _]. eauto.
  - destruct (nth_error (wraps s) n) as [w|] eqn:E; [|discriminate]. destruct (nth_error (msgs s) _); [|discriminate]. injection H as <- <-. eapply msgs_still; [exact I|exact Logic.I|reflexivity|reflexivity|discriminate].
  - destruct (nth_error (wraps s) n) as [w|] eqn:E; [|discriminate]. destruct (nth_error (ctxs s) _); [|discriminate]. injection H as <- <-. eapply msgs_still; [exact I|exact Logic.I|reflexivity|reflexivity|discriminate].
  - destruct (nth_error (wraps s) n) as [w|] eqn:E; [|discriminate]. injection H as <- <-. eapply msgs_still; [exact I|exact Logic.I|reflexivity|reflexivity|discriminate].
Qed.
Lemma msgs_run sched s x : run step init sched = Some (s, x) -> msgs_ok x s.
Proof.
  intros H. refine (run_inv step init (fun _ x s => msgs_ok x s) _ _ sched s x H).
  - constructor; cbn; try contradiction; try (exists 0; reflexivity); intros n; destruct n; discriminate.
  - intros sched' evs t l t' e _ C S. eapply msgs_step; eauto.
Qed.

(** ** Values *)
Definition values_ok (x : list event) (s : state) : Prop :=
  forall n w d, nth_error (wraps s) n = Some w -> exists v, nth_error (msgs s) (message_of w d) = Some v /\ last_set x n d v.
Lemma last_ext x s e n n' d v : msgs_ok x s -> (forall m u, ~ In (VSet m d u) e) -> last_set x n d v ->
  (forall m, m < length (wraps s) -> (akin (x ++ e) m n' <-> akin x m n)) -> last_set (x ++ e) n' d v.
Proof.
  intros I Q L A. destruct L as [(a & m & b & E & K & N)|(-> & N)].
  - left. exists a, m, (b ++ e). rewrite E at 1. rewrite <- app_assoc. split; [reflexivity|]. split.
    + apply A; [|exact K]. apply (m_set _ _ I m d v). rewrite E. apply in_elt.
    + intros m' v' K' H. apply in_app_or in H as [H|H]; [|exact (Q _ _ H)]. apply (N m' v'); [|exact H].
      apply A; [|exact K']. apply (m_set _ _ I m' d v'). rewrite E. apply in_or_app. right. now right.
  - right. split; [reflexivity|]. intros m' v' K' H. apply in_app_or in H as [H|H]; [|exact (Q _ _ H)]. apply (N m' v'); [|exact H].
    apply A; [|exact K']. exact (m_set _ _ I m' d v' H).
Qed.
Lemma values_step x s l s' e : msgs_ok x s -> values_ok x s -> step s l = Some (s', e) -> values_ok (x ++ e) s'.
Proof.
  intros I V H. pose proof (msgs_step _ _ _ _ _ I H) as I'.
  assert (LT : forall n w, nth_error (wraps s) n = Some w -> n < length (wraps s)) by (intros n w K; apply nth_error_Some; congruence).
  (* wrappers that were there are akin as before *)
  assert (OLD : (exists ws, wraps s' = wraps s ++ ws) -> forall n m, n < length (wraps s) -> m < length (wraps s) -> (akin (x ++ e) m n <-> akin x m n)).
  { intros (ws & E) n m Ln Lm. rewrite (akin_state _ _ _ _ I'), (akin_state _ _ _ _ I), E.
    rewrite !nth_error_app1 by assumption. reflexivity. }
  assert (SAME : (exists ws, wraps s' = wraps s ++ ws) -> msgs s' = msgs s -> (forall m d u, ~ In (VSet m d u) e) -> forall n w d, nth_error (wraps s) n = Some w ->
    exists v, nth_error (msgs s') (message_of w d) = Some v /\ last_set (x ++ e) n d v).
  { intros W M Q n w d K. destruct (V n w d K) as (v & A & L). exists v. rewrite M. split; [exact A|]. eapply last_ext; [exact I|intros; apply Q|exact L|].
    intros m Lm. apply OLD; eauto. }
  destruct l as [from|from|c opts|n|n d v|n d|n|n]; cbn in H.
  - destruct (carried s from) as [g0|]; [|discriminate]. injection H as <- <-. intros n w d. cbn [wraps]. apply SAME; [exists []; now rewrite app_nil_r|reflexivity|intros m d' u [|[]]; discriminate].
  - destruct (carried s from) as [g0|]; [|discriminate]. injection H as <- <-. intros n w d. cbn [wraps]. apply SAME; [exists []; now rewrite app_nil_r|reflexivity|intros m d' u [|[]]; discriminate].
  - assert (exists g k, s' = mkS (ctxs s ++ [Some g]) k (wraps s ++ [mkW (length (ctxs s)) (length (msgs s)) (S (length (msgs s))) default_codec]) (msgs s ++ [0; 0]) /\ e = [VNew (length (wraps s)) c (length (ctxs s))]) as (g & k & -> & ->).
    { destruct (nth_error (ctxs s) c) as [[h|]|]; [| |discriminate]; injection H as <- <-; eauto. }
    clear H SAME. intros n w d K. cbn [wraps msgs] in *. apply nth_snoc_inv in K as [K|(-> & ->)].
    + destruct (V n w d K) as (v & A & L). exists v. split; [now apply nth_snoc_old|]. eapply last_ext; [exact I|intros m u [|[]]; discriminate|exact L|].
      intros m Lm. apply OLD; eauto.
    + exists 0. split.
      * destruct d; cbn [message_of req res]; rewrite nth_error_app2 by lia; [rewrite Nat.sub_diag|replace (S _ - _) with 1 by lia]; reflexivity.
      * right. split; [reflexivity|]. intros m' v' K H. apply in_app_or in H as [H|[|[]]]; [|discriminate].
        apply (m_set _ _ I) in H. apply (akin_state _ _ _ _ I') in K as (w1 & w2 & A & B & C). cbn [wraps] in A, B. rewrite nth_snoc_new in B. injection B as <-.
        apply nth_snoc_inv in A as [A|(-> & _)]; [|lia]. destruct (m_pair _ _ I _ _ A) as (y & P1 & P2 & P3). cbn in C. lia.
  - destruct (nth_error (wraps s) n) as [w0|] eqn:E; [|discriminate]. injection H as <- <-. intros i w d K. cbn [wraps] in K. apply nth_snoc_inv in K as [K|(-> & ->)].
    + apply SAME; [eexists; reflexivity|reflexivity|intros m d' u [|[]]; discriminate|exact K].
    + destruct (V n w0 d E) as (v & A & L). exists v. split; [destruct d; exact A|]. eapply last_ext; [exact I|intros m u [|[]]; discriminate|exact L|].
      intros m Lm. rewrite (akin_state _ _ _ _ I'), (akin_state _ _ _ _ I). cbn [wraps]. rewrite nth_snoc_new, nth_error_app1 by exact Lm. rewrite E. split.
      * intros (w1 & w2 & A1 & [= <-] & A3). eauto.
      * intros (w1 & w2 & A1 & [= <-] & A3). eauto.
  - destruct (nth_error (wraps s) n) as [w0|] eqn:E; [|discriminate]. injection H as <- <-. intros i w d' K. cbn [wraps msgs] in *.
    assert (OLD' : forall i m, i < length (wraps s) -> m < length (wraps s) -> akin (x ++ [VSet n d v]) m i <-> akin x m i) by (apply OLD; exists []; now rewrite app_nil_r).
    destruct (m_pair _ _ I _ _ K) as (y & P1 & P2 & P3). destruct (m_pair _ _ I _ _ E) as (z & Q1 & Q2 & Q3).
    destruct (Nat.eq_dec (message_of w d') (message_of w0 d)) as [Em|Ne].
    + assert (d' = d /\ req w = req w0) as [-> Er] by (destruct d, d'; cbn in Em; split; (reflexivity || lia)).
      exists v. rewrite Em, nth_upd_eq by (destruct d; cbn; lia). split; [reflexivity|]. left. exists x, n, []. split; [reflexivity|]. split; [|intros m' v' _ []].
      apply (akin_state _ _ _ _ I'). cbn. exists w0, w. auto.
    + destruct (V i w d' K) as (u & A & L). exists u. rewrite nth_upd_neq by congruence. split; [exact A|].
      destruct L as [(a & m & b & Ex & Ka & N)|(-> & N)].
      * left. exists a, m, (b ++ [VSet n d v]). rewrite Ex at 1. rewrite <- app_assoc. split; [reflexivity|].
        assert (Lm : m < length (wraps s)) by (apply (m_set _ _ I m d' u); rewrite Ex; apply in_elt). split; [apply OLD'; eauto|].
        intros m' v' K' H. apply in_app_or in H as [H|[[= <- -> <-]|[]]].
        -- apply (N m' v'); [|exact H]. apply OLD'; [eauto| |exact K']. apply (m_set _ _ I m' d' v'). rewrite Ex. apply in_or_app. right. now right.
        -- apply OLD' in K'; eauto. apply (akin_state _ _ _ _ I) in K' as (w1 & w2 & A1 & A2 & A3). apply Ne. rewrite E in A1. rewrite K in A2. injection A1 as <-. injection A2 as <-. destruct d'; cbn; lia.
      * right. split; [reflexivity|]. intros m' v' K' H. apply in_app_or in H as [H|[[= <- -> <-]|[]]].
        -- apply (N m' v'); [|exact H]. apply OLD'; [eauto| |exact K']. exact (m_set _ _ I m' d' v' H).
        -- apply OLD' in K'; eauto. apply (akin_state _ _ _ _ I) in K' as (w1 & w2 & A1 & A2 & A3). apply Ne. rewrite E in A1. rewrite K in A2. injection A1 as <-. injection A2 as <-. destruct d'; cbn; lia.
  - destruct (nth_error (wraps s) n) as [w0|] eqn:E; [|discriminate]. destruct (nth_error (msgs s) _); [|discriminate]. injection H as <- <-. intros i w d'. apply SAME; [exists []; now rewrite app_nil_r|reflexivity|intros m d'' u [|[]]; discriminate].
  - destruct (nth_error (wraps s) n) as [w0|] eqn:E; [|discriminate]. destruct (nth_error (ctxs s) _); [|discriminate]. injection H as <- <-. intros i w d'. apply SAME; [exists []; now rewrite app_nil_r|reflexivity|intros m d'' u [|[]]; discriminate].
  - destruct (nth_error (wraps s) n) as [w0|] eqn:E; [|discriminate]. injection H as <- <-. intros i w d'. apply SAME; [exists []; now rewrite app_nil_r|reflexivity|intros m d'' u [|[]]; discriminate].
Qed.
Lemma values_run sched s x : run step init sched = Some (s, x) -> values_ok x s.
Proof.
  revert s x. induction sched as [|l sched IH] using rev_ind; intros s x H.
  - injection H as <- <-. intros n w d K. destruct n; discriminate.
  - apply run_app_inv in H as (t & e1 & e2 & H1 & H2 & ->). apply run_one_inv in H2. eapply values_step; [eapply msgs_run; eauto|eapply IH; eauto|exact H2].
Qed.

(** ** Wait groups that were read *)
Definition read_ok (x : list event) (s : state) : Prop :=
  forall n g, In (VWg n g) x -> exists w, nth_error (wraps s) n = Some w /\ nth_error (ctxs s) (ctx w) = Some g.
Lemma read_run sched s x : run step init sched = Some (s, x) -> read_ok x s.
Proof.
  intros H. refine (run_inv step init (fun _ x s => read_ok x s) _ _ sched s x H); [intros n g []|].
  intros sched' evs t l t' e _ C S n g K. apply in_app_or in K as [K|K].
  - destruct (C n g K) as (w & A & B). exists w. destruct l as [from|from|c opts|m|m d v|m d|m|m]; cbn in S.
    + destruct (carried t from); [|discriminate]. injection S as <- <-. cbn. auto using nth_snoc_old.
    + destruct (carried t from); [|discriminate]. injection S as <- <-. cbn. auto using nth_snoc_old.
    + destruct (nth_error (ctxs t) c) as [[h|]|]; [| |discriminate]; injection S as <- <-; cbn; auto using nth_snoc_old.
    + destruct (nth_error (wraps t) m); [|discriminate]. injection S as <- <-. cbn. auto using nth_snoc_old.
    + destruct (nth_error (wraps t) m); [|discriminate]. injection S as <- <-. cbn. auto.
    + destruct (nth_error (wraps t) m); [|discriminate]. destruct (nth_error (msgs t) _); [|discriminate]. injection S as <- <-. auto.
    + destruct (nth_error (wraps t) m); [|discriminate]. destruct (nth_error (ctxs t) _); [|discriminate]. injection S as <- <-. auto.
    + destruct (nth_error (wraps t) m); [|discriminate]. injection S as <- <-. auto.
  - destruct l as [from|from|c opts|m|m d v|m d|m|m]; cbn in S.
    + destruct (carried t from); [|discriminate]. injection S as <- <-. destruct K as [|[]]; discriminate.
    + destruct (carried t from); [|discriminate]. injection S as <- <-. destruct K as [|[]]; discriminate.
    + destruct (nth_error (ctxs t) c) as [[h|]|]; [| |discriminate]; injection S as <- <-; destruct K as [|[]]; discriminate.
    + destruct (nth_error (wraps t) m); [|discriminate]. injection S as <- <-. destruct K as [|[]]; discriminate.
    + destruct (nth_error (wraps t) m); [|discriminate]. injection S as <- <-. destruct K as [|[]]; discriminate.
    + destruct (nth_error (wraps t) m); [|discriminate]. destruct (nth_error (msgs t) _); [|discriminate]. injection S as <- <-. destruct K as [|[]]; discriminate.
    + destruct (nth_error (wraps t) m) as [w|] eqn:E; [|discriminate]. destruct (nth_error (ctxs t) _) as [h|] eqn:F; [|discriminate]. injection S as <- <-. destruct K as [[= <- <-]|[]]. eauto.
    + destruct (nth_error (wraps t) m); [|discriminate]. injection S as <- <-. destruct K as [|[]]; discriminate.
Qed.
Lemma one_event s l s' e : step s l = Some (s', e) -> exists v, e = [v].
Proof.
  destruct l as [from|from|c opts|m|m d v|m d|m|m]; cbn; intros S.
  - destruct (carried s from); [|discriminate]. injection S as <- <-. eauto.
  - destruct (carried s from); [|discriminate]. injection S as <- <-. eauto.
  - destruct (nth_error (ctxs s) c) as [[h|]|]; [| |discriminate]; injection S as <- <-; eauto.
  - destruct (nth_error (wraps s) m); [|discriminate]. injection S as <- <-. eauto.
  - destruct (nth_error (wraps s) m); [|discriminate]. injection S as <- <-. eauto.
  - destruct (nth_error (wraps s) m); [|discriminate]. destruct (nth_error (msgs s) _); [|discriminate]. injection S as <- <-. eauto.
  - destruct (nth_error (wraps s) m); [|discriminate]. destruct (nth_error (ctxs s) _); [|discriminate]. injection S as <- <-. eauto.
  - destruct (nth_error (wraps s) m); [|discriminate]. injection S as <- <-. eauto.
Qed.
Lemma run_next s sched s' v y : run step s sched = Some (s', v :: y) -> exists l c t, step s l = Some (t, [v]) /\ run step t c = Some (s', y).
Proof.
  destruct sched as [|l c]; cbn; [discriminate|]. destruct (step s l) as [[t e]|] eqn:S; [|discriminate]. destruct (run step t c) as [[s2 e2]|] eqn:R; [|discriminate].
  intros [= <- E]. destruct (one_event _ _ _ _ S) as (w & ->). injection E as -> ->. eauto.
Qed.
Lemma got_inv s l s' n d v : step s l = Some (s', [VGot n d v]) -> s' = s /\ exists w, nth_error (wraps s) n = Some w /\ nth_error (msgs s) (message_of w d) = Some v.
Proof.
  destruct l as [from|from|c opts|m|m d' v'|m d'|m|m]; cbn; intros S.
  - destruct (carried s from); [|discriminate]. discriminate.
  - destruct (carried s from); [|discriminate]. discriminate.
  - destruct (nth_error (ctxs s) c) as [[h|]|]; discriminate.
  - destruct (nth_error (wraps s) m); discriminate.
  - destruct (nth_error (wraps s) m); discriminate.
  - destruct (nth_error (wraps s) m) as [w|] eqn:E; [|discriminate]. destruct (nth_error (msgs s) _) as [u|] eqn:F; [|discriminate]. injection S as <- <- <- <-. eauto.
  - destruct (nth_error (wraps s) m); [|discriminate]. destruct (nth_error (ctxs s) _); discriminate.
  - destruct (nth_error (wraps s) m); discriminate.
Qed.
Lemma swap_inv s l s' n m c : step s l = Some (s', [VSwap n m c]) -> exists w w', nth_error (wraps s) m = Some w /\ nth_error (wraps s') n = Some w' /\ msgs s' = msgs s /\ req w' = req w /\ res w' = res w.
Proof.
  destruct l as [from|from|k opts|i|i d' v'|i d'|i|i]; cbn; intros S.
  - destruct (carried s from); [|discriminate]. discriminate.
  - destruct (carried s from); [|discriminate]. discriminate.
  - destruct (nth_error (ctxs s) k) as [[h|]|]; discriminate.
  - destruct (nth_error (wraps s) i) as [w|] eqn:E; [|discriminate]. injection S as <- <- <- <-. eexists w, _. split; [exact E|]. split; [apply nth_snoc_new|]. auto.
  - destruct (nth_error (wraps s) i); discriminate.
  - destruct (nth_error (wraps s) i) as [w|] eqn:E; [|discriminate]. destruct (nth_error (msgs s) _) as [u|] eqn:F; discriminate.
  - destruct (nth_error (wraps s) i); [|discriminate]. destruct (nth_error (ctxs s) _); discriminate.
  - destruct (nth_error (wraps s) i); discriminate.
Qed.
(** Two schedules that differ only in the options given to NewBuilder. *)
Lemma options_run sched : forall sched' s, Forall2 but_options sched sched' -> run step s sched = run step s sched'.
Proof.
  induction sched as [|l c IH]; intros sched' s F; inversion F as [|? l' ? c' B F']; subst; [reflexivity|]. cbn.
  assert (step s l = step s l') as -> by (destruct B; reflexivity). destruct (step s l') as [[t e]|]; [|reflexivity]. now rewrite (IH _ t F').
Qed.
