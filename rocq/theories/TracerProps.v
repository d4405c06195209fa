(** C136-C138: the configuration of the tracer. *)
From Coq Require Import List ZArith Bool Lia.
From Verif Require Import TracerModel TracerSpec.
Import ListNotations.
Local Open Scope Z_scope.

Lemma last_step {A} (pick : opt -> option A) (get : parm -> A) : (forall p x, get (apply p x) = match pick x with Some v => v | None => get p end) -> forall os p, last_of pick os (get p) (get (fold_left apply os p)).
Proof.
  intros S. induction os as [|x os IH]; intros p; cbn; [right; split; [intros y []|reflexivity]|]. destruct (IH (apply p x)) as [(a & y & b & -> & P & N)|(N & V)]; [left; exists (x :: a), y, b; auto|].
  rewrite S in V. destruct (pick x) as [v|] eqn:P; [left; exists [], x, os; rewrite V; auto|]. right. split; [intros y [<-|I]; auto|exact V].
Qed.
Lemma last_unique {A} (pick : opt -> option A) os d v w : last_of pick os d v -> last_of pick os d w -> v = w.
Proof.
  intros [(a & x & b & E & M & N)|(N & ->)] [(a' & x' & b' & E' & M' & N')|(N' & ->)]; try reflexivity.
  - rewrite E in E'. clear E. revert a' E'. induction a as [|y a IH]; intros [|y' a'] E'; cbn in E'; injection E' as -> E'.
    + congruence.
    + rewrite (N x') in M'; [discriminate|]. rewrite E'. apply in_elt.
    + rewrite (N' x) in M; [discriminate|]. rewrite <- E'. apply in_elt.
    + apply (IH a'). exact E'.
  - rewrite (N' x) in M; [discriminate|]. rewrite E. apply in_elt.
  - rewrite (N x') in M'; [discriminate|]. rewrite E'. apply in_elt.
Qed.
Lemma fold_factories os : forall p, factories (fold_left apply os p) = factories p ++ given os.
Proof. induction os as [|o os IH]; intros p; cbn; [symmetry; apply app_nil_r|]. rewrite IH. destruct o; cbn; rewrite <- ?app_assoc; reflexivity. Qed.
Lemma build_inv top os t : build top os = Some t -> table t = import (given os) /\ last_of rate_opt os top (param t) /\ last_of kind_opt os Const (decides t) /\ reporter t = prob top (param t) /\ (decides t = Probabilistic -> reporter t <> None).
Proof.
  unfold build. intros H. pose proof (fold_factories os (mkP 1%nat top Const 200 50 [])) as F. cbn in F.
  pose proof (last_step rate_opt rate ltac:(intros p []; reflexivity) os (mkP 1%nat top Const 200 50 [])) as R. pose proof (last_step kind_opt kind ltac:(intros p []; reflexivity) os (mkP 1%nat top Const 200 50 [])) as K. cbn in R, K.
  destruct (Nat.eqb _ 0); [discriminate|]. destruct (kind _) eqn:EK; destruct (prob top (rate _)) eqn:EP; try discriminate; injection H as <-; cbn; rewrite F; (split; [reflexivity|]); (split; [exact R|]); (split; [exact K|]); (split; [symmetry; exact EP|]); intros; discriminate.
Qed.
Lemma find_app (l m : list (nat * factory)) q : find q (l ++ m) = match find q l with Some x => Some x | None => find q m end.
Proof. induction l as [|x l IH]; cbn; [reflexivity|]. destruct (q x); [reflexivity|exact IH]. Qed.
Lemma import_find fs n : forall m, find (fun g => Nat.eqb (fst g) n) (fold_left (fun m f => if has m (fst f) then m else m ++ [f]) fs m) = find (fun g => Nat.eqb (fst g) n) (m ++ fs).
Proof.
  induction fs as [|[k g] fs IH]; intros m; cbn [fold_left fst]; [rewrite app_nil_r; reflexivity|]. destruct (has m k) eqn:H; rewrite IH; [|rewrite <- app_assoc; reflexivity].
  rewrite !find_app. cbn. destruct (find _ m) eqn:F; [reflexivity|]. destruct (Nat.eqb_spec k n) as [->|D]; [|reflexivity]. apply existsb_exists in H as (x & I & E). apply (find_none _ _ F) in I. cbn in I. congruence.
Qed.
Lemma find_first l n f : option_map snd (find (fun g : nat * factory => Nat.eqb (fst g) n) l) = Some f <-> first_of l n f.
Proof.
  induction l as [|[k g] l IH]; cbn; [split; [discriminate|intros ([|] & b & E & _); discriminate E]|]. destruct (Nat.eqb_spec k n) as [->|D].
  - cbn. split; [intros H; injection H as ->; exists [], l; auto|]. intros ([|y a] & b & E & N); cbn in E; [injection E as -> _; reflexivity|injection E as <- E]. destruct N. left. reflexivity.
  - rewrite IH. split; intros (a & b & E & N).
    + exists ((k, g) :: a), b. rewrite E. split; [reflexivity|]. intros [X|X]; [cbn in X; congruence|auto].
    + destruct a as [|y a]; cbn in E; [injection E as -> _ _; contradiction|injection E as <- E]. exists a, b. split; [exact E|]. intros X. apply N. right. exact X.
Qed.
Lemma find_none_iff l n : option_map snd (find (fun g : nat * factory => Nat.eqb (fst g) n) l) = None <-> ~ In n (map fst l).
Proof.
  destruct (find _ l) as [[k f]|] eqn:F; cbn.
  - split; [discriminate|]. apply find_some in F as [I E]. cbn in E. apply Nat.eqb_eq in E. subst k. intros N. destruct N. apply in_map_iff. exists (n, f). auto.
  - split; [|reflexivity]. intros _ I. apply in_map_iff in I as ([k f] & E & I). apply (find_none _ _ F) in I. cbn in *. subst k. rewrite Nat.eqb_refl in I. discriminate.
Qed.

(** C136.  GetSpan uses the first factory that the options give for the name, over all the
    options; a name without a factory is an error, and only such a name is. *)
Theorem C136_first : forall top os t n, build top os = Some t ->
  (forall f, get_span t n = Some f <-> first_of (given os) n f) /\ (get_span t n = None <-> ~ In n (map fst (given os))).
Proof.
  intros top os t n B. apply build_inv in B as (T & _). unfold get_span. rewrite T. unfold import. rewrite import_find. cbn [app]. split; [intros f; apply find_first|apply find_none_iff].
Qed.
Print Assumptions C136_first.
(** Nothing else about the options matters to it. *)
Theorem C136_only_factories : forall top top' os os' t t' n, build top os = Some t -> build top' os' = Some t' -> given os = given os' -> get_span t n = get_span t' n.
Proof. intros top top' os os' t t' n B B' E. apply build_inv in B as (T & _). apply build_inv in B' as (T' & _). unfold get_span. rewrite T, T', E. reflexivity. Qed.
Print Assumptions C136_only_factories.
Example C136_case : exists t, build 100 [WithSpanFactory [(1, 7); (2, 8)]; WithProbabilistic 3; WithSpanFactory [(1, 9); (3, 4)]]%nat = Some t /\ get_span t 1 = Some 7%nat /\ get_span t 3 = Some 4%nat /\ get_span t 5 = None.
Proof. eexists. repeat split. Qed.

(** C137.  What is configured as slow is always sent: it is not.  With a rate of 1 in [top] a
    span far above the configured limit is dropped. *)
Theorem C137_refuted : exists os t ms id duration, build 100 os = Some t /\ last_of slow_opt os 50 ms /\ ms < duration /\ 0 <= id <= 100 /\ finish t id duration = Skipped.
Proof.
  exists [WithProbabilistic 1; WithSlowSpan 10; WithSlowRequest 10]. eexists. exists 10, 60, 5000. split; [vm_compute; reflexivity|]. split; [|repeat split; lia].
  left. exists [WithProbabilistic 1], (WithSlowSpan 10), [WithSlowRequest 10]. repeat split. intros y [<-|[]]. reflexivity.
Qed.
Print Assumptions C137_refuted.
(** As coded: the limits and the duration have no say at all; a span is sent exactly when its
    trace id is within the rate and, for the constant sampler, the rate is not 0. *)
Theorem C137_sent_partial : forall top os t r k id duration, build top os = Some t -> last_of rate_opt os top r -> last_of kind_opt os Const k -> 0 <= r <= top ->
  (finish t id duration = Sent <-> id <= r /\ (k = Const -> r <> 0)) /\ (finish t id duration = Sent \/ finish t id duration = Skipped \/ finish t id duration = Unsampled).
Proof.
  intros top os t r k id duration B R K I. apply build_inv in B as (_ & R' & K' & P & _). rewrite <- (last_unique _ _ _ _ _ R R') in *. unfold finish, sampled. rewrite <- (last_unique _ _ _ _ _ R R') , <- (last_unique _ _ _ _ _ K K'), P. unfold prob.
  replace (0 <=? r) with true by (symmetry; apply Z.leb_le; lia). replace (r <=? top) with true by (symmetry; apply Z.leb_le; lia). cbn [andb].
  destruct k; [destruct (Z.eqb_spec r 0)|]; cbn [negb]; destruct (Z.leb_spec id r); cbn [negb]; split; auto; (split; [try discriminate; intros _; split; auto; try discriminate|intros [A C]; try reflexivity; try lia; exfalso; apply C; auto]).
Qed.
Print Assumptions C137_sent_partial.
(** With no rate given every span of every trace is sent. *)
Theorem C137_default : forall top os t id duration, build top os = Some t -> (forall o, In o os -> rate_opt o = None) -> 0 < top -> 0 <= id <= top -> finish t id duration = Sent.
Proof.
  intros top os t id duration B N T I. pose proof (build_inv _ _ _ B) as (_ & R & K & _). assert (R' : last_of rate_opt os top top) by (right; auto).
  apply (proj1 (C137_sent_partial top os t top (decides t) id duration B R' K ltac:(lia))). split; [lia|]. intros _. lia.
Qed.
Print Assumptions C137_default.
Example C137_case : exists t, build 100 [WithProbabilistic 40; WithSlowSpan 10] = Some t /\ finish t 40 1 = Sent /\ finish t 41 9000 = Skipped.
Proof. eexists. repeat split. Qed.

(** C138.  No rate brings the process down: one does.  It is accepted by the build. *)
Theorem C138_refuted : exists os t id duration, build 100 os = Some t /\ 0 <= id <= 100 /\ finish t id duration = Crash.
Proof. exists [WithProbabilistic 150]. eexists. exists 3, 1. split; [vm_compute; reflexivity|]. split; [lia|reflexivity]. Qed.
Print Assumptions C138_refuted.
(** As coded: the build panics exactly for a rate outside 0..1 with the probabilistic sampler
    and for an empty name of the service; with the constant one it succeeds, and then every span that ends is a crash. *)
Theorem C138_build_partial : forall top os r k n, last_of rate_opt os top r -> last_of kind_opt os Const k -> last_of name_opt os 1%nat n -> (build top os = None <-> n = 0%nat \/ (k = Probabilistic /\ ~ 0 <= r <= top)).
Proof.
  intros top os r k n R K M. pose proof (last_step rate_opt rate ltac:(intros p []; reflexivity) os (mkP 1%nat top Const 200 50 [])) as R'. pose proof (last_step kind_opt kind ltac:(intros p []; reflexivity) os (mkP 1%nat top Const 200 50 [])) as K'. pose proof (last_step name_opt pname ltac:(intros p []; reflexivity) os (mkP 1%nat top Const 200 50 [])) as M'. cbn in R', K', M'.
  unfold build. rewrite <- (last_unique _ _ _ _ _ R R'), <- (last_unique _ _ _ _ _ K K'), <- (last_unique _ _ _ _ _ M M'). unfold prob. destruct (Nat.eqb_spec n 0) as [->|D]; [split; auto|]. destruct (Z.leb_spec 0 r), (Z.leb_spec r top), k; cbn; split; try discriminate; try reflexivity; try (intros [?|[? ?]]; try discriminate; try contradiction; lia); intros _; right; split; auto; lia.
Qed.
Print Assumptions C138_build_partial.
Theorem C138_crash_partial : forall top os t r id duration, build top os = Some t -> last_of rate_opt os top r -> 0 < top -> (finish t id duration = Crash <-> ~ 0 <= r <= top).
Proof.
  intros top os t r id duration B R T. apply build_inv in B as (_ & R' & _ & P & D). rewrite <- (last_unique _ _ _ _ _ R R') in P. unfold finish, sampled. rewrite <- (last_unique _ _ _ _ _ R R'). unfold prob in P.
  destruct (decides t); destruct (reporter t) as [q|]; destruct (Z.leb_spec 0 r), (Z.leb_spec r top); cbn in P; try discriminate P; try (destruct (D eq_refl eq_refl)); try (injection P as ->).
  all: try (destruct (Z.eqb_spec r 0); cbn [negb]); try (destruct (Z.leb_spec id r); cbn [negb]); split; try discriminate; try reflexivity; intros; lia.
Qed.
Print Assumptions C138_crash_partial.
Example C138_case : exists t, build 100 [WithProbabilistic (-1)] = Some t /\ finish t 0 1 = Crash /\ build 100 [WithProbabilistic (-1); WithSamplerType Probabilistic] = None /\ (exists t', build 100 [WithProbabilistic (-1); WithProbabilistic 100] = Some t' /\ finish t' 0 1 = Sent).
Proof. eexists. repeat split. eexists. repeat split. Qed.
