(** C139-C141: the manager of Mongo clients. *)
From Coq Require Import List Bool Arith Permutation.
From Verif Require Import MgoModel MgoSpec.
Import ListNotations.

Definition keep (l : list conn) (c : conn) : list conn := if existsb (fun d => Nat.eqb (addr d) (addr c)) l then l else l ++ [c].
Definition kept (l : list conn) : list conn := fold_left keep l [].
Lemma fold_conns os : forall p, conns (fold_left apply os p) = fold_left keep (asked os) (conns p).
Proof. induction os as [|o os IH]; intros p; cbn; [reflexivity|]. rewrite IH. destruct o as [c| |]; cbn; try reflexivity. change (fold_left keep (asked os) (conns (apply p (AppendConn c))) = fold_left keep (asked os) (keep (conns p) c)). f_equal. cbn. unfold keep. destruct (existsb _ _); reflexivity. Qed.
Lemma has_addr l c : existsb (fun d => Nat.eqb (addr d) (addr c)) l = true <-> In (addr c) (map addr l).
Proof.
  rewrite existsb_exists, in_map_iff. split; intros (d & A & B); exists d.
  - apply Nat.eqb_eq in B. auto.
  - split; [exact B|]. rewrite A. apply Nat.eqb_refl.
Qed.
(** The kept connections: the same addresses as asked for, each once, by the first of its address. *)
Lemma kept_snoc l c : kept (l ++ [c]) = keep (kept l) c.
Proof. unfold kept. rewrite fold_left_app. reflexivity. Qed.
Lemma kept_addr l x : In x (map addr (kept l)) <-> In x (map addr l).
Proof.
  induction l as [|c l IH] using rev_ind; [reflexivity|]. rewrite kept_snoc, map_app, in_app_iff, <- IH. unfold keep. destruct (existsb _ _) eqn:E.
  - apply has_addr in E. cbn. split; [auto|]. intros [H|[<-|[]]]; assumption.
  - rewrite map_app, in_app_iff. reflexivity.
Qed.
Lemma kept_nodup l : NoDup (map addr (kept l)).
Proof.
  induction l as [|c l IH] using rev_ind; [constructor|]. rewrite kept_snoc. unfold keep. destruct (existsb _ _) eqn:E; [exact IH|].
  rewrite map_app. cbn. apply (Permutation.Permutation_NoDup (l := addr c :: map addr (kept l))); [apply Permutation.Permutation_cons_append|]. constructor; [|exact IH]. intros I. apply has_addr in I. congruence.
Qed.
Lemma first_snoc l c d : first_at (l ++ [c]) d <-> first_at l d \/ (d = c /\ ~ In (addr c) (map addr l)).
Proof.
  split.
  - intros (a & b & E & N). destruct b as [|x b] using rev_ind.
    + apply app_inj_tail in E as [-> ->]. auto.
    + rewrite app_comm_cons, app_assoc in E. apply app_inj_tail in E as [-> _]. left. exists a, b. auto.
  - intros [(a & b & -> & N)|[-> N]]; [exists a, (b ++ [c]); rewrite <- app_assoc; auto|exists l, []; auto].
Qed.
Lemma kept_first l d : In d (kept l) <-> first_at l d.
Proof.
  induction l as [|c l IH] using rev_ind; [split; [intros []|intros ([|] & b & E & _); discriminate E]|]. rewrite kept_snoc, first_snoc, <- IH. unfold keep. destruct (existsb _ _) eqn:E.
  - apply has_addr in E. rewrite kept_addr in E. split; [auto|]. intros [H|[_ H]]; [exact H|contradiction].
  - assert (N : ~ In (addr c) (map addr l)) by (rewrite <- kept_addr, <- has_addr, E; discriminate). rewrite in_app_iff. cbn. split; [intros [H|[<-|[]]]; auto|intros [H|[-> _]]; auto].
Qed.
Lemma dial_ok up cs : forall m, (snd (fst (dial up cs m)) = true <-> forall c, In c cs -> up (addr c) = true).
Proof.
  induction cs as [|c cs IH]; intros m; cbn; [split; [intros _ c []|reflexivity]|]. destruct (up (addr c)) eqn:U.
  - specialize (IH ((name c, addr c) :: m)). destruct (dial up cs _) as [[m' ok] es]. cbn in *. rewrite IH. split; [intros H d [<-|I]; auto|auto].
  - cbn. split; [discriminate|]. intros H. rewrite (H c) in U; auto.
Qed.
Lemma dial_map up cs : forall m, (forall c, In c cs -> up (addr c) = true) -> fst (fst (dial up cs m)) = rev (map (fun c => (name c, addr c)) cs) ++ m.
Proof.
  induction cs as [|c cs IH]; intros m U; cbn; [reflexivity|]. rewrite (U c (or_introl eq_refl)). specialize (IH ((name c, addr c) :: m) (fun d I => U d (or_intror I))). destruct (dial up cs _) as [[m' ok] es]. cbn in *. rewrite IH, <- app_assoc. reflexivity.
Qed.
Lemma first_build os up : snd (fst (build init os up)) = Ok -> (forall c, In c (kept (asked os)) -> up (addr c) = true) /\ ptr (fst (fst (build init os up))) = Some (mkM (rev (map (fun c => (name c, addr c)) (kept (asked os)))) (ptracer (fold_left apply os (mkP None [])))).
Proof.
  unfold build. cbn [once init]. rewrite (fold_conns os). cbn [conns]. change (fold_left keep (asked os) []) with (kept (asked os)).
  pose proof (dial_ok up (kept (asked os)) []) as D. pose proof (dial_map up (kept (asked os)) []) as M. destruct (dial up _ []) as [[m ok] es]. cbn in *. destruct ok; [|discriminate]. intros _. apply proj1 in D. specialize (D eq_refl). split; [exact D|]. rewrite (M D), app_nil_r. reflexivity.
Qed.
Lemma reaches_lookup s n a : reaches s n a <-> exists m, ptr s = Some m /\ lookup (clients m) n = Some a.
Proof.
  unfold reaches. cbn. unfold collection. destruct (ptr s) as [m|]; [|split; [intros H; discriminate (H (fun _ => true))|intros (m & E & _); discriminate E]].
  destruct (lookup _ _) as [b|] eqn:L; cbn; split.
  - intros H. exists m. specialize (H (fun _ => true)). injection H as <-. auto.
  - intros (m' & E & L') _. injection E as <-. congruence.
  - intros H. discriminate (H (fun _ => true)).
  - intros (m' & E & L'). injection E as <-. congruence.
Qed.
Lemma lookup_rev l n a : lookup (rev (map (fun c => (name c, addr c)) l)) n = Some a <-> exists x c y, l = x ++ c :: y /\ name c = n /\ addr c = a /\ ~ In n (map name y).
Proof.
  unfold lookup. induction l as [|c l IH] using rev_ind; [split; [discriminate|intros ([|? ?] & d & y & E & _); discriminate E]|]. rewrite map_app, rev_app_distr. cbn. destruct (Nat.eqb_spec (name c) n) as [E|D].
  - cbn. split.
    + intros H. injection H as H. exists l, c, []. repeat split; auto.
    + intros (x & d & y & F & N & A & I). destruct y as [|z y] using rev_ind; [apply app_inj_tail in F as [_ ->]; congruence|]. rewrite app_comm_cons, app_assoc in F. apply app_inj_tail in F as [_ <-]. destruct I. rewrite map_app, in_app_iff. right. left. exact E.
  - rewrite IH. split; intros (x & d & y & F & N & A & I).
    + exists x, d, (y ++ [c]). subst l. rewrite <- app_assoc. repeat split; auto. rewrite map_app, in_app_iff. intros [H|[H|[]]]; auto.
    + destruct y as [|z y] using rev_ind; [apply app_inj_tail in F as [_ <-]; contradiction|]. rewrite app_comm_cons, app_assoc in F. apply app_inj_tail in F as [-> _]. exists x, d, y. repeat split; auto. intros H. apply I. rewrite map_app, in_app_iff. auto.
Qed.

(** C139.  After a Build that succeeds every connection that was asked for serves its name: a
    second name at the address of the first is dropped, and its use panics. *)
Theorem C139_refuted : exists os up s es c, build init os up = (s, Ok, es) /\ In c (asked os) /\ fails s (name c).
Proof. exists [AppendConn (mkC 1 10); AppendConn (mkC 1 11)], (fun _ => true). do 2 eexists. exists (mkC 1 11). split; [vm_compute; reflexivity|]. split; [right; left; reflexivity|]. intros span. reflexivity. Qed.
Print Assumptions C139_refuted.
(** When the addresses differ and the names differ, they all do. *)
Theorem C139_distinct_partial : forall os up s es c, build init os up = (s, Ok, es) -> NoDup (map addr (asked os)) -> NoDup (map name (asked os)) -> In c (asked os) -> reaches s (name c) (addr c).
Proof.
  intros os up s es c B NA NN I. pose proof (first_build os up) as F. rewrite B in F. cbn in F. destruct (F eq_refl) as (_ & P). apply reaches_lookup. eexists. split; [exact P|]. cbn [clients]. assert (K : kept (asked os) = asked os).
  { clear - NA. induction (asked os) as [|c l IH] using rev_ind; [reflexivity|]. rewrite map_app in NA. cbn in NA. apply NoDup_remove in NA as [NA N]. rewrite app_nil_r in *. rewrite kept_snoc, (IH NA). unfold keep. destruct (existsb _ _) eqn:E; [|reflexivity]. apply has_addr in E. contradiction. }
  rewrite K. apply lookup_rev. apply in_split in I as (x & y & E). exists x, c, y. repeat split; auto. rewrite E, map_app in NN. cbn in NN. apply NoDup_remove_2 in NN. rewrite in_app_iff in NN. auto.
Qed.
Print Assumptions C139_distinct_partial.
(** As coded.  A name leads to an address only through a connection asked for, the first at its
    address; a name has a client exactly when there is such a connection; and every address asked for
    was answering. *)
Theorem C139_exact_partial : forall os up s es n, build init os up = (s, Ok, es) ->
  (forall a, reaches s n a -> first_at (asked os) (mkC a n)) /\
  ((exists c, first_at (asked os) c /\ name c = n) -> exists a, reaches s n a) /\
  (~ (exists c, first_at (asked os) c /\ name c = n) -> fails s n) /\
  (forall c, In c (asked os) -> up (addr c) = true).
Proof.
  intros os up s es n B. pose proof (first_build os up) as F. rewrite B in F. cbn in F. destruct (F eq_refl) as (U & P). repeat split.
  - intros a R. apply reaches_lookup in R as (m & E & L). rewrite P in E. injection E as <-. cbn [clients] in L. apply lookup_rev in L as (x & [a' n'] & y & E & N & A & _). cbn in N, A. subst. apply kept_first. rewrite E. apply in_elt.
  - intros ([a' n'] & X & <-). apply kept_first in X. cbn [name]. destruct (lookup (rev (map (fun c => (name c, addr c)) (kept (asked os)))) n') as [a|] eqn:L; [exists a; apply reaches_lookup; eexists; split; [exact P|exact L]|]. unfold lookup in L. destruct (find _ _) eqn:G; [discriminate|]. assert (I : In (n', a') (rev (map (fun c => (name c, addr c)) (kept (asked os))))) by (rewrite <- in_rev; apply in_map_iff; exists (mkC a' n'); auto). apply (find_none _ _ G) in I. cbn in I. rewrite Nat.eqb_refl in I. discriminate.
  - intros N span. cbn. unfold collection. rewrite P. cbn [clients]. destruct (lookup _ n) as [a|] eqn:L; [|reflexivity]. exfalso. apply N. apply lookup_rev in L as (x & c & y & E & M & _). exists c. split; [|exact M]. apply kept_first. rewrite E. apply in_elt.
  - intros c I. assert (J : In (addr c) (map addr (kept (asked os)))) by (apply kept_addr, in_map, I). apply in_map_iff in J as (d & E & J). rewrite <- E. auto.
Qed.
Print Assumptions C139_exact_partial.
(** A name asked for twice, at two addresses: the later one serves it. *)
Theorem C139_later_partial : forall os up s es x c y, build init os up = (s, Ok, es) -> NoDup (map addr (asked os)) -> asked os = x ++ c :: y -> ~ In (name c) (map name y) -> reaches s (name c) (addr c).
Proof.
  intros os up s es x c y B NA E N. pose proof (first_build os up) as F. rewrite B in F. cbn in F. destruct (F eq_refl) as (_ & P). apply reaches_lookup. eexists. split; [exact P|]. cbn [clients]. assert (K : kept (asked os) = asked os).
  { clear - NA. induction (asked os) as [|c l IH] using rev_ind; [reflexivity|]. rewrite map_app in NA. cbn in NA. apply NoDup_remove in NA as [NA N]. rewrite app_nil_r in *. rewrite kept_snoc, (IH NA). unfold keep. destruct (existsb _ _) eqn:E; [|reflexivity]. apply has_addr in E. contradiction. }
  rewrite K. apply lookup_rev. exists x, c, y. auto.
Qed.
Print Assumptions C139_later_partial.
Example C139_case : exists s es, build init [AppendConn (mkC 1 10); WithTimes; AppendConn (mkC 2 11); AppendConn (mkC 3 10); AppendConn (mkC 2 12)] (fun _ => true) = (s, Ok, es) /\ reaches s 10 3 /\ reaches s 11 2 /\ fails s 12.
Proof. do 2 eexists. split; [vm_compute; reflexivity|]. repeat split. Qed.

(** C140.  A Build that returns has connected what it was asked to: after one that panicked, and
    after one that succeeded with other options, it returns all the same. *)
Theorem C140_refuted : exists os up s o es os' up' c, build init os up = (s, o, es) /\ In c (asked os') /\ up' (addr c) = true /\ build s os' up' = (s, Ok, []) /\ fails s (name c) /\ o = Panic.
Proof. exists [AppendConn (mkC 1 10)], (fun _ => false). do 3 eexists. exists [AppendConn (mkC 1 10)], (fun _ => true), (mkC 1 10). split; [vm_compute; reflexivity|]. repeat split. left. reflexivity. Qed.
Print Assumptions C140_refuted.
(** As coded: from the first Build on, however it ended, nothing changes what any name leads to,
    and no connection is made again. *)
Theorem C140_once_partial : forall s os up s1 o es cs, build s os up = (s1, o, es) -> fst (calls s1 cs) = s1 /\ forall o' es', In (o', es') (snd (calls s1 cs)) -> ~ (exists a, In (Connected a) es').
Proof.
  intros s os up s1 o es cs B. assert (O : once s1 = true) by (unfold build in B; destruct (once s) eqn:O; [injection B as <- _ _; exact O|destruct (dial _ _ _) as [[m ok] e]; injection B as <- _ _; reflexivity]). clear B.
  induction cs as [|c cs IH]; cbn; [split; [reflexivity|intros ? ? []]|]. assert (S : fst (fst (step s1 c)) = s1 /\ ~ exists a, In (Connected a) (snd (step s1 c))).
  { destruct c as [os' up'|n span]; cbn; [unfold build; rewrite O; split; [reflexivity|intros (a & [])]|]. destruct (collection s1 n) as [l|]; cbn; (split; [reflexivity|]); intros (a & I); [|exact I]. unfold operate in I. destruct (ltrc l) as [t|]; [destruct (span t)|]; cbn in I; repeat destruct I as [I|I]; try discriminate; exact I. }
  destruct (step s1 c) as [[s2 o1] es1]. cbn in S. destruct S as [-> N]. destruct (calls s1 cs) as [s3 r]. cbn in *. destruct IH as [-> IH]. split; [reflexivity|]. intros o' es' [E|I]; [injection E as <- <-; exact N|eapply IH; exact I].
Qed.
Print Assumptions C140_once_partial.
(** The first Build panics exactly when some server asked for does not answer. *)
Theorem C140_panics_partial : forall os up s o es, build init os up = (s, o, es) -> (o = Panic <-> exists c, In c (asked os) /\ up (addr c) = false) /\ (o = Ok \/ o = Panic).
Proof.
  intros os up s o es B. unfold build in B. cbn [once init] in B. rewrite (fold_conns os) in B. cbn [conns] in B. change (fold_left keep (asked os) []) with (kept (asked os)) in B. pose proof (dial_ok up (kept (asked os)) []) as D. destruct (dial up _ []) as [[m ok] e]. cbn in D. injection B as _ <- _. destruct ok; (split; [|auto]).
  - split; [discriminate|]. intros (c & I & U). assert (J : In (addr c) (map addr (kept (asked os)))) by (apply kept_addr, in_map, I). apply in_map_iff in J as (d & E & J). rewrite <- E, (proj1 D eq_refl d J) in U. discriminate.
  - split; [|reflexivity]. intros _. destruct (existsb (fun c => negb (up (addr c))) (asked os)) eqn:X.
    + apply existsb_exists in X as (c & I & U). exists c. split; [exact I|]. destruct (up (addr c)); [discriminate|reflexivity].
    + exfalso. assert (F : false = true); [|discriminate]. apply D. intros c I. destruct (up (addr c)) eqn:U; [reflexivity|]. apply kept_first in I as (a & b & E & _). assert (Y : existsb (fun c => negb (up (addr c))) (asked os) = true); [|congruence]. apply existsb_exists. exists c. split; [rewrite E; apply in_elt|]. rewrite U. reflexivity.
Qed.
Print Assumptions C140_panics_partial.
(** Before the first Build every use panics. *)
Theorem C140_before : forall n, fails init n.
Proof. intros n span. reflexivity. Qed.
Print Assumptions C140_before.
Example C140_case : exists s es, build init [AppendConn (mkC 1 10); AppendConn (mkC 2 11); AppendConn (mkC 3 12)] (fun a => negb (Nat.eqb a 2)) = (s, Panic, es) /\ reaches s 10 1 /\ fails s 12 /\ build s [AppendConn (mkC 3 12)] (fun _ => true) = (s, Ok, []).
Proof. do 2 eexists. split; [vm_compute; reflexivity|]. repeat split. Qed.

(** C141.  With a tracer configured every operation is traced: none is. *)
Theorem C141_refuted : exists os up s es n span, build init os up = (s, Ok, es) /\ In (WithTracer 5) os /\ span 5 = true /\ snd (step s (Operate n span)) = [Done].
Proof. exists [WithTracer 5; AppendConn (mkC 1 10)], (fun _ => true). do 2 eexists. exists 10, (fun _ => true). split; [vm_compute; reflexivity|]. repeat split. left. reflexivity. Qed.
Print Assumptions C141_refuted.
(** As coded: in no history is a span begun; an operation is done once, or the name has no client. *)
Theorem C141_never_partial : forall cs o es, In (o, es) (snd (calls init cs)) -> (forall t, ~ In (Begin t) es) /\ (forall a, o = Client a -> es = [Done]).
Proof.
  intros cs. generalize init. induction cs as [|c cs IH]; intros s o es; cbn; [intros []|]. assert (S : (forall t, ~ In (Begin t) (snd (step s c))) /\ (forall a, snd (fst (step s c)) = Client a -> snd (step s c) = [Done])).
  { destruct c as [os up|n span]; cbn.
    - unfold build. destruct (once s); [split; [intros t []|discriminate]|]. generalize (conns (fold_left apply os (mkP None []))). intros l. assert (D : forall t m, ~ In (Begin t) (snd (dial up l m))).
      { induction l as [|c l IHl]; intros t m; cbn; [intros []|]. destruct (up (addr c)); [specialize (IHl t ((name c, addr c) :: m)); destruct (dial up l _) as [[m' ok] e]; cbn in *; intros [H|[H|H]]; try discriminate; auto|]. cbn. intros [H|[H|[]]]; discriminate. }
      specialize (fun t => D t []). destruct (dial up l []) as [[m ok] e]. cbn in *. split; [exact D|]. destruct ok; discriminate.
    - unfold collection. destruct (ptr s) as [m|]; [destruct (lookup _ _)|]; cbn; split; try discriminate; try (intros t [H|[]]; discriminate); try (intros t []); reflexivity. }
  destruct (step s c) as [[s1 o1] es1]. cbn in S. specialize (IH s1 o es). destruct (calls s1 cs) as [s2 r]. cbn in *. intros [E|I]; [injection E as <- <-; exact S|exact (IH I)].
Qed.
Print Assumptions C141_never_partial.
Example C141_case : map snd (snd (calls init [Build [WithTracer 5; AppendConn (mkC 1 10)] (fun _ => true); Operate 10 (fun _ => true); Operate 11 (fun _ => true)])) = [[Connected 1; Ping 1 true]; [Done]; []].
Proof. reflexivity. Qed.
