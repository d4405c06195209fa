(** Proofs about ContextModel. *)
From Coq Require Import List Arith Bool Lia.
From Verif Require Import Machine MachineMore ContextModel ContextSpec.
Import ListNotations.

Inductive move (s : state) : label -> state -> list event -> Prop :=
| m_with k v : move s (LWith (Some k) v) (mkS (cur s) (pending s ++ [Some ((KUser k, v) :: cur s)])) [VWith (length (pending s)) k v]
| m_panic v : move s (LWith None v) s [VPanic]
| m_write i c : nth_error (pending s) i = Some (Some c) -> move s (LWrite i) (mkS c (upd (pending s) i None)) [VSet i]
| m_get k : move s (LGet k) s [VGot k (value (cur s) (KUser k))]
| m_system : move s LSystem s [VSystem (value (cur s) KSystem)]
| m_actor : move s LActor s [VActor (value (cur s) KActor)].
Lemma step_move s l s' e : step s l = Some (s', e) -> move s l s' e.
Proof.
  intros H. destruct l as [[k|] v|i|k| |]; cbn in H; try (injection H as <- <-; constructor).
  destruct (nth_error (pending s) i) as [[c|]|] eqn:N; try discriminate. injection H as <- <-. constructor. exact N.
Qed.
Ltac moves H := apply step_move in H; inversion H; subst; clear H.
Lemma some_lt {A} (l : list A) i x : nth_error l i = Some x -> i < length l.
Proof. intros H. apply nth_error_Some. congruence. Qed.
Lemma upd_case {A} (l : list A) i j x y : i < length l -> nth_error (upd l i x) j = Some y -> (j = i /\ y = x) \/ (j <> i /\ nth_error l j = Some y).
Proof. intros L. rewrite nth_upd by exact L. destruct (Nat.eqb_spec i j) as [->|N]; intros H; [injection H as <-; auto|right; auto]. Qed.
Lemma snoc_case {A} (l : list A) x j y : nth_error (l ++ [x]) j = Some y -> nth_error l j = Some y \/ (j = length l /\ y = x).
Proof.
  intros H. destruct (Nat.lt_ge_cases j (length l)) as [L|L]; [rewrite nth_error_app1 in H by exact L; auto|].
  rewrite nth_error_app2 in H by exact L. destruct (j - length l) as [|m] eqn:D; [injection H as <-; right; split; auto; lia|destruct m; discriminate].
Qed.

Section Base.
Variables (base : ctx) (sys act : nat).
Notation run0 := (run step (init base sys act)).
Notation bottom := ((KActor, act) :: (KSystem, sys) :: base).

(** ** Layers of the user above the ones of the actor *)
Definition above (evs : list event) (c : ctx) : Prop := exists u, c = u ++ bottom /\ forall k v, In (k, v) u -> exists n i, k = KUser n /\ In (VWith i n v) evs.
Definition Inv (evs : list event) (s : state) : Prop :=
  above evs (cur s) /\ (forall i k v, In (VWith i k v) evs -> i < length (pending s)) /\ (forall i k v k' v', In (VWith i k v) evs -> In (VWith i k' v') evs -> k = k' /\ v = v') /\
  (forall i, In (VSet i) evs <-> nth_error (pending s) i = Some None) /\
  (forall i c, nth_error (pending s) i = Some (Some c) -> exists k v c', c = (KUser k, v) :: c' /\ above evs c' /\ In (VWith i k v) evs).
Lemma above_mono evs e c : above evs c -> above (evs ++ e) c.
Proof. intros (u & -> & U). exists u. split; [reflexivity|]. intros k v I. destruct (U k v I) as (n & i & -> & J). exists n, i. split; auto. apply in_app_iff. auto. Qed.
Lemma inv_quiet evs s e : (forall i k v, ~ In (VWith i k v) e) -> (forall i, ~ In (VSet i) e) -> Inv evs s -> Inv (evs ++ e) s.
Proof.
  intros N1 N2 (A & B & C & D & E). repeat apply conj.
  - now apply above_mono.
  - intros i k v I. apply in_app_iff in I as [I|I]; [eauto|destruct (N1 _ _ _ I)].
  - intros i k v k' v' I J. apply in_app_iff in I as [I|I]; [|destruct (N1 _ _ _ I)]. apply in_app_iff in J as [J|J]; [|destruct (N1 _ _ _ J)]. eauto.
  - intros i. rewrite in_app_iff, <- D. split; [intros [I|I]; [exact I|destruct (N2 _ I)]|auto].
  - intros i c N. destruct (E i c N) as (k & v & c' & -> & Q & I). exists k, v, c'. split; [reflexivity|split; [now apply above_mono|apply in_app_iff; auto]].
Qed.
Lemma inv_all sched s evs : run0 sched = Some (s, evs) -> Inv evs s.
Proof.
  intros R. apply (run_inv step (init base sys act) (fun _ evs s => Inv evs s)) with (sched := sched); [| |exact R].
  { repeat apply conj; try (intros; contradiction). - exists []. split; [reflexivity|intros k v []]. - intros [|i]; split; [intros []|discriminate|intros []|discriminate]. - intros [|i]; discriminate. }
  clear. intros sched evs s l s' e _ IH H. moves H; try (apply inv_quiet; [intros ? ? ? [X|[]]; discriminate|intros ? [X|[]]; discriminate|exact IH]); destruct IH as (A & B & C & D & E).
  - repeat apply conj; cbn [cur pending].
    + now apply above_mono.
    + intros i k0 v0 I. rewrite app_length. cbn. apply in_app_iff in I as [I|[I|[]]]; [apply B in I; lia|injection I as <- _ _; lia].
    + intros i k0 v0 k1 v1 I J. apply in_app_iff in I as [I|[I|[]]]; apply in_app_iff in J as [J|[J|[]]]; [eauto| | |].
      * injection J as <- _ _. apply B in I. lia.
      * injection I as <- _ _. apply B in J. lia.
      * injection I as _ <- <-. injection J as _ <- <-. auto.
    + intros i. rewrite in_app_iff, D. split.
      * intros [I|[I|[]]]; [|discriminate]. rewrite nth_error_app1 by exact (some_lt _ _ _ I). exact I.
      * intros I. apply snoc_case in I as [I|[_ I]]; [auto|discriminate].
    + intros i c I. apply snoc_case in I as [I|[-> I]].
      * destruct (E i c I) as (k1 & v1 & c' & -> & Q & J). exists k1, v1, c'. split; [reflexivity|split; [now apply above_mono|apply in_app_iff; auto]].
      * injection I as ->. exists k, v, (cur s). split; [reflexivity|split; [now apply above_mono|apply in_app_iff; right; left; reflexivity]].
  - pose proof (some_lt _ _ _ H0) as L. destruct (E i c H0) as (k & v & c' & -> & (u & -> & U) & I). repeat apply conj; cbn [cur pending].
    + exists ((KUser k, v) :: u). split; [reflexivity|]. intros k0 v0 [J|J].
      * injection J as <- <-. exists k, i. split; auto. apply in_app_iff. auto.
      * destruct (U _ _ J) as (n & j & -> & J'). exists n, j. split; auto. apply in_app_iff. auto.
    + intros j k0 v0 J. rewrite upd_length. apply in_app_iff in J as [J|[J|[]]]; [eauto|discriminate].
    + intros j k0 v0 k1 v1 I' J. apply in_app_iff in I' as [I'|[I'|[]]]; [|discriminate]. apply in_app_iff in J as [J|[J|[]]]; [eauto|discriminate].
    + intros j. rewrite in_app_iff, D. split.
      * intros [J|[J|[]]].
        -- rewrite nth_upd by exact L. destruct (Nat.eqb_spec i j); [reflexivity|exact J].
        -- injection J as <-. now apply nth_upd_eq.
      * intros J. apply upd_case in J as [[-> _]|[_ J]]; [right; left; reflexivity|auto|exact L].
    + intros j c0 J. apply upd_case in J as [[_ J]|[_ J]]; [discriminate| |exact L].
      destruct (E j c0 J) as (k1 & v1 & c1 & -> & Q & J'). exists k1, v1, c1. split; [reflexivity|split; [now apply above_mono|apply in_app_iff; auto]].
Qed.
Lemma value_above evs c : above evs c -> value c KSystem = Some sys /\ value c KActor = Some act /\
  forall k, (exists i v, value c (KUser k) = Some v /\ In (VWith i k v) evs) \/ value c (KUser k) = value base (KUser k).
Proof.
  intros (u & -> & U). induction u as [|[k v] u IH].
  - cbn. repeat split; auto.
  - destruct IH as (A & B & C); [intros; apply U; right; auto|]. destruct (U k v) as (n & i & -> & J); [left; reflexivity|]. cbn [app value].
    destruct (key_eq (KUser n) KSystem); [discriminate|]. destruct (key_eq (KUser n) KActor); [discriminate|]. repeat split; auto.
    intros k. destruct (key_eq (KUser n) (KUser k)) as [E|E]; [injection E as <-; left; exists i, v; auto|apply C].
Qed.

(** ** Serial calls *)
Lemma serial_app evs e : serial (evs ++ e) -> serial evs.
Proof. intros S a i k v b j c -> N. apply (S a i k v b j (c ++ e)); [|exact N]. rewrite <- !app_assoc. cbn. now rewrite <- app_assoc. Qed.
Definition Ser (evs : list event) (s : state) : Prop :=
  (forall k, latest base evs k (value (cur s) (KUser k))) /\ (forall i k v, nth_error (pending s) i <> Some None -> In (VWith i k v) evs -> nth_error (pending s) i = Some (Some ((KUser k, v) :: cur s))).
Lemma latest_quiet evs e k x : (forall j, ~ In (VSet j) e) -> (forall i v, In (VSet i) evs -> ~ In (VWith i k v) e) -> latest base evs k x -> latest base (evs ++ e) k x.
Proof.
  intros N M [(a & i & v & b & -> & I & -> & Q)|(-> & Q)].
  - left. exists a, i, v, (b ++ e). rewrite <- app_assoc. repeat split; auto. intros j u J K. apply in_app_iff in J as [J|J]; [|destruct (N _ J)].
    change ((a ++ (VSet i :: b) ++ e)) with (a ++ (VSet i :: b) ++ e) in K. rewrite app_assoc in K. apply in_app_iff in K as [K|K]; [exact (Q _ _ J K)|]. apply (M j u); [|exact K]. apply in_app_iff. right. right. exact J.
  - right. split; [reflexivity|]. intros j u J K. apply in_app_iff in J as [J|J]; [|destruct (N _ J)]. apply in_app_iff in K as [K|K]; [exact (Q _ _ J K)|exact (M _ _ J K)].
Qed.
Lemma ser_all sched s evs : run0 sched = Some (s, evs) -> serial evs -> Ser evs s.
Proof.
  intros R. apply (run_inv step (init base sys act) (fun _ evs s => serial evs -> Ser evs s)) with (sched := sched); [| |exact R].
  { intros _. split; [|intros i k v _ []]. intros k. right. cbn. split; [reflexivity|intros j u []]. }
  clear. intros sched evs s l s' e R IH H SE. destruct (IH (serial_app _ _ SE)) as [A B]. clear IH. destruct (inv_all _ _ _ R) as (I1 & I2 & I3 & I4 & I5).
  assert (Q : forall x, (forall i k v, x <> VWith i k v) -> (forall i, x <> VSet i) -> Ser (evs ++ [x]) s).
  { intros x N1 N2. split.
    - intros k. apply latest_quiet; [|intros i v _ [J|[]]; exact (N1 _ _ _ J)|apply A]. intros j [J|[]]. exact (N2 _ J).
    - intros i k v N I. apply B; [exact N|]. apply in_app_iff in I as [I|[I|[]]]; [exact I|destruct (N1 _ _ _ I)]. }
  moves H; try (apply Q; discriminate).
  - split; cbn [cur pending].
    + intros k0. apply latest_quiet; [intros j [J|[]]; discriminate| |apply A]. intros i v0 I [J|[]]. injection J as <- _ _. apply I4 in I. apply some_lt in I. lia.
    + intros i k0 v0 N I. apply in_app_iff in I as [I|[I|[]]].
      * assert (L : i < length (pending s)) by eauto. rewrite nth_error_app1 in N |- * by exact L. auto.
      * injection I as <- <- <-. rewrite nth_error_app2, Nat.sub_diag by lia. reflexivity.
  - pose proof (some_lt _ _ _ H0) as L. destruct (I5 i c H0) as (k & v & c' & -> & _ & J).
    assert (E : c' = cur s). { assert (X : nth_error (pending s) i = Some (Some ((KUser k, v) :: cur s))) by (apply B; [congruence|exact J]). congruence. } subst c'.
    split; cbn [cur pending].
    + intros k0. cbn [value]. destruct (key_eq (KUser k) (KUser k0)) as [X|X].
      * injection X as <-. left. exists evs, i, v, []. repeat split; auto.
      * assert (NK : forall u, ~ In (VWith i k0 u) evs) by (intros u U; apply X; destruct (I3 _ _ _ _ _ J U) as [-> _]; reflexivity).
        destruct (A k0) as [(a & i1 & v1 & b & E & K & V & M)|(V & M)].
        -- left. exists a, i1, v1, (b ++ [VSet i]). subst evs. rewrite <- app_assoc. cbn [app]. repeat split; auto.
           intros j u U W. change (a ++ VSet i1 :: b ++ [VSet i]) with (a ++ (VSet i1 :: b) ++ [VSet i]) in W. rewrite app_assoc in W. apply in_app_iff in W as [W|[W|[]]]; [|discriminate].
           apply in_app_iff in U as [U|[U|[]]]; [exact (M _ _ U W)|injection U as <-; exact (NK _ W)].
        -- right. split; [exact V|]. intros j u U W. apply in_app_iff in W as [W|[W|[]]]; [|discriminate].
           apply in_app_iff in U as [U|[U|[]]]; [exact (M _ _ U W)|injection U as <-; exact (NK _ W)].
    + intros j k0 v0 N I. exfalso. apply in_app_iff in I as [I|[I|[]]]; [|discriminate].
      destruct (Nat.eq_dec j i) as [->|NJ]; [apply N; now apply nth_upd_eq|]. rewrite nth_upd_neq in N by congruence.
      apply in_split in I as (a & b & E). assert (W : In (VSet j) b) by (apply (SE a j k0 v0 b i []); [rewrite E, <- app_assoc; reflexivity|congruence]).
      apply N. apply I4. rewrite E. apply in_app_iff. right. right. exact W.
Qed.
(** [latest] is a function. *)
Lemma latest_one sched s evs k x y : run0 sched = Some (s, evs) -> latest base evs k x -> latest base evs k y -> x = y.
Proof.
  intros R. destruct (inv_all _ _ _ R) as (_ & _ & ONE & _ & _).
  intros [(a & i & v & b & E & I & -> & Q)|(-> & Q)] [(a' & i' & v' & b' & E' & I' & -> & Q')|(-> & Q')]; auto.
  - assert (J : In (VWith i k v) evs) by (rewrite E; apply in_app_iff; auto). assert (J' : In (VWith i' k v') evs) by (rewrite E'; apply in_app_iff; auto).
    rewrite E in E'. apply app_split in E' as [(b1 & E1 & ->)|(d1 & -> & E1)].
    + destruct b1 as [|z b1]; cbn in E1; [injection E1 as <- _; destruct (ONE _ _ _ _ _ J J') as [_ ->]; reflexivity|injection E1 as _ E1].
      exfalso. apply (Q i' v'); [rewrite E1; apply in_app_iff; right; left; reflexivity|exact J'].
    + exfalso. apply (Q' i v); [rewrite E1; apply in_app_iff; right; left; reflexivity|exact J].
  - exfalso. apply (Q' i v); [rewrite E; apply in_app_iff; right; left; reflexivity|rewrite E; apply in_app_iff; auto].
  - exfalso. apply (Q i' v'); [rewrite E'; apply in_app_iff; right; left; reflexivity|rewrite E'; apply in_app_iff; auto].
Qed.
(** The steps that answer. *)
Lemma get_step t l t' q1 k x q2 : step t l = Some (t', q1 ++ VGot k x :: q2) -> q1 = [] /\ x = value (cur t) (KUser k).
Proof. intros H. remember (q1 ++ VGot k x :: q2) as e eqn:E. revert E. moves H; intros E; symmetry in E; destruct q1 as [|z [|z' q1]]; try discriminate E; injection E; intros; subst; try discriminate; auto. Qed.
(** The value last set stays until another is. *)
Lemma cur_stays sched s evs more s' e : run0 sched = Some (s, evs) -> run step s more = Some (s', e) -> (forall j, ~ In (VSet j) e) -> cur s' = cur s.
Proof.
  intros R. revert s' e. induction more as [|l more IH] using rev_ind; intros s' e H N; [injection H as <- _; reflexivity|].
  apply run_app_inv in H as (t & e1 & e2 & H1 & H2 & ->). apply run_one_inv in H2.
  assert (IH' : cur t = cur s) by (apply (IH t e1 H1); intros j J; apply (N j), in_app_iff; auto).
  moves H2; auto. exfalso. apply (N i). apply in_app_iff. right. left. reflexivity.
Qed.
End Base.
