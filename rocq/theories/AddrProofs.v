(** Lemmas about the store and the invariant of orderly executions. *)
From Coq Require Import List String ZArith Bool Permutation Lia.
From Verif Require Import Machine AddrModel AddrSpec.
Import ListNotations.
Open Scope string_scope.
Open Scope list_scope.

(** ** Association lists *)
Lemma aget_aset {A} k (v : A) l j : aget j (aset k v l) = if String.eqb j k then Some v else aget j l.
Proof.
  induction l as [|[x w] l IH]; cbn.
  - reflexivity.
  - destruct (String.eqb_spec k x) as [->|Hk]; cbn.
    + destruct (String.eqb_spec j x); reflexivity.
    + rewrite IH. destruct (String.eqb_spec j x) as [->|Hj]; [|reflexivity].
      destruct (String.eqb_spec x k); congruence.
Qed.
Lemma aget_adel {A} k (l : list (string * A)) j : aget j (adel k l) = if String.eqb j k then None else aget j l.
Proof.
  unfold adel. induction l as [|[x w] l IH]; cbn.
  - now destruct (String.eqb j k).
  - destruct (String.eqb_spec k x) as [->|Hk]; cbn.
    + rewrite IH. destruct (String.eqb_spec j x); reflexivity.
    + rewrite IH. destruct (String.eqb_spec j x) as [->|Hj]; [|reflexivity].
      destruct (String.eqb_spec x k); congruence.
Qed.
Lemma field_eqb_spec f g : reflect (f = g) (field_eqb f g).
Proof.
  destruct f as [|a], g as [|b]; cbn; try (constructor; congruence).
  destruct (String.eqb_spec a b); constructor; congruence.
Qed.
Lemma fget_fincr f d l g : fget g (fincr f d l) =
  if field_eqb g f then Some ((match fget f l with Some z => z | None => 0 end) + d)%Z else fget g l.
Proof.
  induction l as [|[x w] l IH]; cbn.
  - reflexivity.
  - destruct (field_eqb_spec f x) as [->|Hf]; cbn.
    + destruct (field_eqb_spec g x); reflexivity.
    + rewrite IH. destruct (field_eqb_spec g x) as [->|Hg]; [|reflexivity].
      destruct (field_eqb_spec x f); congruence.
Qed.
Lemma fget_in f l z : fget f l = Some z -> In (f, z) l.
Proof.
  induction l as [|[x w] l IH]; cbn; [discriminate|].
  destruct (field_eqb_spec f x) as [->|]; [intros [= ->]; auto|auto].
Qed.
Lemma addr_eqb_spec a b : reflect (a = b) (addr_eqb a b).
Proof.
  destruct a as [n i t e], b as [n' i' t' e']. unfold addr_eqb. cbn.
  destruct (String.eqb_spec n n'), (String.eqb_spec i i'), (String.eqb_spec t t'), (Nat.eqb_spec e e');
    constructor; congruence.
Qed.
Lemma in_sadd a l b : In b (sadd a l) <-> b = a \/ In b l.
Proof.
  unfold sadd. destruct (existsb (addr_eqb a) l) eqn:E.
  - apply existsb_exists in E as (x & Hx & He). destruct (addr_eqb_spec a x); [subst|discriminate].
    split; [auto|intros [->|]; auto].
  - rewrite in_app_iff. cbn. intuition.
Qed.
Lemma in_srem a l b : In b (srem a l) <-> In b l /\ b <> a.
Proof.
  unfold srem. rewrite filter_In. destruct (addr_eqb_spec a b) as [->|H]; cbn; intuition; try discriminate; congruence.
Qed.
Lemma nodup_sadd a l : NoDup l -> NoDup (sadd a l).
Proof.
  intros H. unfold sadd. destruct (existsb (addr_eqb a) l) eqn:E; [exact H|].
  assert (~ In a l).
  { intros Hin. assert (existsb (addr_eqb a) l = true); [|congruence]. apply existsb_exists. exists a.
    split; [exact Hin|]. destruct (addr_eqb_spec a a); congruence. }
  apply Permutation_NoDup with (a :: l); [|now constructor].
  apply Permutation_cons_append.
Qed.
Lemma nodup_srem a l : NoDup l -> NoDup (srem a l).
Proof. apply NoDup_filter. Qed.

(** ** The store seen through its readers *)
Definition rec (s : store) (id : string) : option addr := aget id (ids s).
Definition mem (s : store) (ty : string) (a : addr) : Prop := In a (members s ty).
Definition ninfo (s : store) (n : string) : option nat := aget n (nodes s).
Definition fld (s : store) (n : string) (f : field) : option Z := fget f (fields s n).

Lemma rec_apply s c id : rec (apply s c) id =
  match c with
  | HSetId i a => if String.eqb id i then Some a else rec s id
  | HDelId i => if String.eqb id i then None else rec s id
  | _ => rec s id
  end.
Proof. destruct c; unfold rec; cbn; auto; [apply aget_aset|apply aget_adel]. Qed.
Lemma members_aset s ty l ty' nds nks i :
  members (mkStore i (aset ty l (tys s)) nds nks) ty' = if String.eqb ty' ty then l else members s ty'.
Proof. unfold members. cbn. rewrite aget_aset. now destruct (String.eqb ty' ty). Qed.
Lemma mem_apply s c ty a : mem (apply s c) ty a <->
  match c with
  | SAddTy t b => (ty = t /\ a = b) \/ mem s ty a
  | SRemTy t b => mem s ty a /\ ~ (ty = t /\ a = b)
  | _ => mem s ty a
  end.
Proof.
  destruct c; unfold mem; try tauto; cbn [apply]; rewrite members_aset;
  destruct (String.eqb_spec ty ty0) as [->|H].
  - rewrite in_sadd. tauto.
  - intuition.
  - rewrite in_srem. intuition.
  - intuition.
Qed.
Lemma ninfo_apply s c n : ninfo (apply s c) n =
  match c with
  | HSetNode m ep => if String.eqb n m then Some ep else ninfo s n
  | HDelNode m => if String.eqb n m then None else ninfo s n
  | _ => ninfo s n
  end.
Proof. destruct c; unfold ninfo; cbn; auto; [apply aget_aset|apply aget_adel]. Qed.
Lemma fld_apply s c n f : fld (apply s c) n f =
  match c with
  | HIncr m g d => if String.eqb n m && field_eqb f g
                   then Some ((match fld s m g with Some z => z | None => 0 end) + d)%Z else fld s n f
  | DelNode m => if String.eqb n m then None else fld s n f
  | _ => fld s n f
  end.
Proof.
  destruct c; unfold fld; auto; cbn [apply]; unfold fields; cbn [nkeys].
  - rewrite aget_aset. destruct (String.eqb_spec n n0) as [->|]; cbn [andb]; [|reflexivity].
    now rewrite fget_fincr.
  - rewrite aget_adel. now destruct (String.eqb n n0).
Qed.

(** Two stores that no reader can tell apart. *)
Definition veq (s t : store) : Prop :=
  (forall id, rec s id = rec t id) /\ (forall ty a, mem s ty a <-> mem t ty a) /\
  (forall n, ninfo s n = ninfo t n) /\ (forall n f, fld s n f = fld t n f).
Lemma veq_refl s : veq s s.
Proof. repeat split; auto. Qed.
Lemma veq_trans s t u : veq s t -> veq t u -> veq s u.
Proof.
  intros (A & B & C & D) (A' & B' & C' & D'). repeat split; intros.
  - now rewrite A. - now apply B', B. - now apply B, B'. - now rewrite C. - now rewrite D.
Qed.
Lemma veq_apply s t c : veq s t -> veq (apply s c) (apply t c).
Proof.
  intros (A & B & C & D). repeat split; intros.
  - rewrite !rec_apply. destruct c; auto; now rewrite A.
  - revert H. rewrite !mem_apply. destruct c; rewrite ?B; auto.
  - revert H. rewrite !mem_apply. destruct c; rewrite ?B; auto.
  - rewrite !ninfo_apply. destruct c; auto; now rewrite C.
  - rewrite !fld_apply. destruct c; auto; now rewrite ?D.
Qed.
Lemma veq_apply_all cs : forall s t, veq s t -> veq (apply_all s cs) (apply_all t cs).
Proof. induction cs as [|c cs IH]; intros s t H; [exact H|]. cbn. apply IH, veq_apply, H. Qed.

(** Commands that do not care about their order. *)
Definition indep_nodes (c d : cmd) : Prop :=
  match c, d with
  | HSetNode n e, HSetNode m e' => n = m -> e = e'
  | HSetNode n _, HDelNode m | HDelNode n, HSetNode m _ => n <> m
  | HIncr n _ _, DelNode m | DelNode n, HIncr m _ _ => n <> m
  | _, _ => True
  end.
Definition indep (c d : cmd) : Prop :=
  (forall id, In id (cmd_ids c) -> ~ In id (cmd_ids d)) /\ indep_nodes c d.
Lemma indep_sym c d : indep c d -> indep d c.
Proof.
  intros [A B]. split; [intros id H1 H2; exact (A id H2 H1)|].
  destruct c, d; cbn in *; auto; intros; symmetry; auto.
Qed.

Ltac seq := repeat match goal with
  | |- context [String.eqb ?a ?b] => destruct (String.eqb_spec a b); subst
  | |- context [field_eqb ?a ?b] => destruct (field_eqb_spec a b); subst
  end.
Lemma commute s c d : indep c d -> veq (apply (apply s c) d) (apply (apply s d) c).
Proof.
  intros [A B]. split; [|split; [|split]].
  - intros id. rewrite !rec_apply.
    destruct c, d; rewrite ?rec_apply; auto; cbn in A; seq; auto;
    exfalso; exact (A _ (or_introl eq_refl) (or_introl eq_refl)).
  - intros ty a. rewrite !mem_apply.
    destruct c, d; rewrite ?mem_apply; try tauto; cbn in A;
    split; intros HH; intuition (subst; try tauto); exfalso;
    exact (A _ (or_introl eq_refl) (or_introl eq_refl)).
  - intros n. rewrite !ninfo_apply.
    destruct c, d; rewrite ?ninfo_apply; auto; cbn in B; seq; auto; try congruence.
    now rewrite (B eq_refl).
  - intros n f. rewrite !fld_apply.
    destruct c, d; rewrite ?fld_apply; auto; cbn in B; seq; cbn [andb]; auto; try congruence;
    f_equal; try lia.
Qed.
