(** Invariants of [TccModel]. *)
From Coq Require Import List Arith Bool Lia.
From Verif Require Import Machine MachineMore TccModel TccSpec.
Import ListNotations.

Lemma part_eqb_spec p q : reflect (p = q) (part_eqb p q).
Proof. destruct p, q; constructor; congruence. Qed.
Lemma nodup_snoc {A} (l : list A) x : NoDup l -> ~ In x l -> NoDup (l ++ [x]).
Proof. intros N K. apply NoDup_Add with (a := x) (l := l); [|auto]. rewrite <- (app_nil_r l) at 1. apply Add_app. Qed.
Lemma part_dec (p q : part) : {p = q} + {p <> q}. Proof. decide equality. Qed.

(** Messages of call [t] to [p]: handled, waiting, sent. *)
Definition hist1 (p : part) (t : nat) (e : event) : list kind :=
  match e with
  | VTry q u _ => if part_eqb q p && (u =? t) then [Try] else []
  | VConfirm q u _ => if part_eqb q p && (u =? t) then [Confirm] else []
  | _ => []
  end.
Definition sent1 (p : part) (t : nat) (e : event) : list kind :=
  match e with VSent q k u => if part_eqb q p && (u =? t) then [k] else [] | _ => [] end.
Definition box1 (t : nat) (m : kind * nat) : list kind := match m with (Cancel, _) => [] | (k, u) => if u =? t then [k] else [] end.
Definition hist p t x := flat_map (hist1 p t) x.
Definition sent p t x := flat_map (sent1 p t) x.
Definition boxed t b := flat_map (box1 t) b.
Lemma hist_app p t x y : hist p t (x ++ y) = hist p t x ++ hist p t y. Proof. apply flat_map_app. Qed.
Lemma sent_app p t x y : sent p t (x ++ y) = sent p t x ++ sent p t y. Proof. apply flat_map_app. Qed.
Lemma boxed_app t x y : boxed t (x ++ y) = boxed t x ++ boxed t y. Proof. apply flat_map_app. Qed.

(** ** How a step changes things *)
Lemma get_put s p x q : get (put s p x) q = if part_eqb p q then x else get s q.
Proof. now destruct p, q. Qed.
Lemma get_goto s r q : get (goto s r) q = get s q. Proof. now destruct q. Qed.

Definition queue_ok (x : list event) (s : state) : Prop := forall p t, hist p t x ++ boxed t (box (get s p)) = sent p t x.
Lemma queue_call x s p k t n s' e : k <> Cancel -> queue_ok x s -> call s p k t n = (s', e) -> queue_ok (x ++ e) s'.
Proof.
  intros K Q H q u. unfold call in H. destruct (open (get s p)); injection H as <- <-; rewrite hist_app, sent_app, get_goto;
    cbn [hist sent flat_map hist1 sent1]; rewrite !app_nil_r; [|apply Q].
  rewrite get_put. destruct (part_eqb_spec p q) as [->|N]; [|cbn [andb]; rewrite app_nil_r; apply Q].
  unfold push. cbn [box andb]. rewrite boxed_app, app_assoc, (Q q u). cbn. rewrite app_nil_r. now destruct k.
Qed.
Lemma queue_run sched s x : run step init sched = Some (s, x) -> queue_ok x s.
Proof.
  intros H. refine (run_inv step init (fun _ x s => queue_ok x s) _ _ sched s x H); [now intros [] t|].
  clear. intros _ x s l s' e _ Q H.
  assert (SAME : (forall p, box (get s' p) = box (get s p)) -> (forall p t, hist p t e = [] /\ sent p t e = []) -> queue_ok (x ++ e) s').
  { intros E F p t. destruct (F p t) as [F1 F2]. now rewrite hist_app, sent_app, F1, F2, !app_nil_r, E. }
  destruct l as [| |p|p t|p|p|t|t]; cbn in H.
  - injection H as <- <-. apply SAME; [now intros []|auto].
  - destruct (running s) as [[t [| | |]]|].
    + injection H as H. eapply queue_call; [|exact Q|exact H]. discriminate.
    + injection H as H. eapply queue_call; [|exact Q|exact H]. discriminate.
    + injection H as H. eapply queue_call; [|exact Q|exact H]. discriminate.
    + injection H as H. eapply queue_call; [|exact Q|exact H]. discriminate.
    + destruct (inbox s); [discriminate|]. injection H as <- <-. apply SAME; [now intros []|auto].
  - destruct (ended (get s p)); [discriminate|]. destruct (box (get s p)) as [|[k t] r] eqn:E; [discriminate|].
    destruct (handle p k t (get s p) r) as [y v] eqn:F. injection H as <- <-. intros q u. rewrite hist_app, sent_app, get_put, <- (Q q u).
    assert (box y = r /\ sent q u [v] = [] /\ hist q u [v] = if part_eqb p q then box1 u (k, t) else []) as (Ey & -> & ->).
    { destruct k; cbn in F; [|destruct (lookup t _)|destruct (lookup t _)]; injection F as <- <-; cbn; repeat split; destruct (part_eqb_spec p q); cbn; rewrite ?app_nil_r; auto. }
    rewrite app_nil_r. destruct (part_eqb_spec p q) as [->|N].
    + rewrite <- app_assoc, E, Ey. reflexivity.
    + now rewrite app_nil_r.
  - destruct (open (get s p)); [|discriminate]. injection H as <- <-. intros q u. rewrite app_nil_r, get_put. destruct (part_eqb_spec p q) as [->|N]; [|apply Q].
    unfold push. cbn [box]. rewrite boxed_app. cbn. rewrite app_nil_r. apply Q.
  - destruct (open (get s p)); [|discriminate]. injection H as <- <-. apply SAME; [|auto]. intros q. rewrite get_put. now destruct (part_eqb_spec p q) as [->|].
  - destruct (open (get s p)); [discriminate|]. injection H as <- <-. apply SAME; [|auto]. intros q. rewrite get_put. now destruct (part_eqb_spec p q) as [->|].
  - destruct (_ && _); [|discriminate]. injection H as <- <-. apply SAME; [now intros []|auto].
  - destruct (_ && _); [|discriminate]. injection H as <- <-. apply SAME; [now intros []|auto].
Qed.

(** ** What the coordinator has sent *)
Inductive place := Waiting | At (c : pc) | Over.
Definition loc (s : state) (t : nat) (w : place) : Prop :=
  match w with
  | Waiting => calls s <= t \/ In t (inbox s)
  | At c => running s = Some (t, c)
  | Over => t < calls s /\ ~ In t (inbox s) /\ forall c, running s <> Some (t, c)
  end.
Definition unrefused (x : list event) (t : nat) : Prop := forall p k, ~ In (VRefused p k t) x.
Definition full := [Try; Confirm].
Definition orderly (l : list kind) : Prop := l = [] \/ l = [Try] \/ l = full.
(** Holds at all times. *)
Definition fair (x : list event) (t : nat) : Prop :=
  (forall p, orderly (sent p t x)) /\ (forall q, In (VRefused q Try t) x -> forall p, ~ In Confirm (sent p t x)).
Definition plan (w : place) (x : list event) (t : nat) : Prop :=
  match w with
  | Waiting | At TryB => sent B t x = [] /\ sent C t x = [] /\ unrefused x t
  | At (TryC true) => sent B t x = [Try] /\ sent C t x = [] /\ unrefused x t
  | At (TryC false) => sent B t x = [] /\ sent C t x = [] /\ ~ unrefused x t
  | At ConfirmB => sent B t x = [Try] /\ sent C t x = [Try] /\ unrefused x t
  | At ConfirmC => sent C t x = [Try] /\ (sent B t x = full \/ sent B t x = [Try] /\ ~ unrefused x t) /\ (forall q, ~ In (VRefused q Try t) x) /\ (unrefused x t -> sent B t x = full)
  | Over => fair x t /\ (unrefused x t -> forall p, sent p t x = full)
  end.
Lemma plan_fair w x t : plan w x t -> fair x t.
Proof.
  destruct w as [|[|[|]| |]|]; cbn; unfold fair, orderly.
  - intros (A & D & U). split; [intros []; auto|]. intros q Hq. elim (U _ _ Hq).
  - intros (A & D & U). split; [intros []; auto|]. intros q Hq. elim (U _ _ Hq).
  - intros (A & D & U). split; [intros []; auto|]. intros q Hq. elim (U _ _ Hq).
  - intros (A & D & U). split; [intros []; auto|]. intros q _ []; [rewrite A|rewrite D]; auto.
  - intros (A & D & U). split; [intros []; auto|]. intros q Hq. elim (U _ _ Hq).
  - intros (A & D & U & _). split; [intros []; [|auto]; destruct D as [->|[-> _]]; auto|]. intros q Hq. elim (U _ Hq).
  - tauto.
Qed.
Lemma plan_same w x x' t : (forall p, sent p t x' = sent p t x) -> (forall p k, In (VRefused p k t) x' <-> In (VRefused p k t) x) -> plan w x t -> plan w x' t.
Proof.
  intros E F. assert (U : unrefused x' t <-> unrefused x t) by (unfold unrefused; split; intros H p k K; apply (H p k); now apply F).
  destruct w as [|[|[|]| |]|]; cbn; unfold fair; rewrite ?E, ?U; auto.
  - intros (A & D & G & H). repeat split; auto. intros q K. apply (G q). now apply F.
  - intros ((A & D) & G). repeat split.
    + intros p. rewrite E. apply A.
    + intros q K p. rewrite E. apply (D q). now apply F.
    + intros K p. rewrite E. now apply G.
Qed.
Record coord_ok (x : list event) (s : state) : Prop := {
  c_dup : NoDup (inbox s);
  c_in : forall t, In t (inbox s) -> t < calls s;
  c_run : forall t c, running s = Some (t, c) -> t < calls s /\ ~ In t (inbox s);
  c_plan : forall t w, loc s t w -> plan w x t }.
Lemma call_same s p k t n s' e : call s p k t n = (s', e) -> calls s' = calls s /\ inbox s' = inbox s /\ running s' = n (open (get s p)) /\
  e = [if open (get s p) then VSent p k t else VRefused p k t].
Proof. unfold call. destruct (open (get s p)); intros [= <- <-]; destruct p; auto. Qed.
Lemma coord_call x s p k t c n s' e : coord_ok x s -> running s = Some (t, c) -> call s p k t n = (s', e) ->
  (forall ok, match n ok with Some (u, _) => u = t | None => True end) ->
  (plan (At c) x t -> plan (match n (open (get s p)) with Some (_, d) => At d | None => Over end) (x ++ e) t) -> coord_ok (x ++ e) s'.
Proof.
  intros I R H N P. destruct (call_same _ _ _ _ _ _ _ H) as (E1 & E2 & E3 & E4). destruct (c_run _ _ I _ _ R) as [L1 L2]. constructor.
  - rewrite E2. apply (c_dup _ _ I).
  - rewrite E1, E2. apply (c_in _ _ I).
  - intros u d K. rewrite E1, E2. rewrite E3 in K. specialize (N (open (get s p))). rewrite K in N. now subst.
  - intros u w L. specialize (P (c_plan _ _ I _ (At c) R)). destruct (Nat.eq_dec u t) as [->|D].
    + assert (w = match n (open (get s p)) with Some (_, d) => At d | None => Over end) as ->; [|exact P].
      specialize (N (open (get s p))). destruct w as [|d|]; cbn in L; rewrite ?E1, ?E2, ?E3 in L.
      * destruct L as [L|L]; [lia|contradiction].
      * now rewrite L.
      * destruct L as (_ & _ & L). destruct (n _) as [[u d]|]; [|reflexivity]. subst. elim (L d). reflexivity.
    + eapply plan_same; [| |apply (c_plan _ _ I u w)].
      * intros q. rewrite sent_app, E4. destruct (open (get s p)); cbn; rewrite ?app_nil_r; [|reflexivity].
        destruct (Nat.eqb_spec t u); [congruence|]. rewrite andb_false_r. apply app_nil_r.
      * intros q j. rewrite in_app_iff, E4. split; [|auto]. intros [K|[K|[]]]; [exact K|]. destruct (open (get s p)); congruence.
      * specialize (N (open (get s p))). destruct w as [|d|]; cbn in L |- *; rewrite ?E1, ?E2, ?E3 in L.
        -- exact L.
        -- rewrite L in N. congruence.
        -- destruct L as (M1 & M2 & M3). repeat split; auto. intros d K. congruence.
Qed.
Lemma sent_snoc p t x q k u : sent p t (x ++ [VSent q k u]) = sent p t x ++ if part_eqb q p && (u =? t) then [k] else [].
Proof. rewrite sent_app. cbn. now rewrite app_nil_r. Qed.
Lemma sent_refused p t x q k u : sent p t (x ++ [VRefused q k u]) = sent p t x.
Proof. rewrite sent_app. cbn. apply app_nil_r. Qed.
Lemma refused_sent x q k u p j t : In (VRefused p j t) (x ++ [VSent q k u]) <-> In (VRefused p j t) x.
Proof. rewrite in_app_iff. split; [intros [H|[H|[]]]; [exact H|discriminate]|auto]. Qed.
Lemma unrefused_sent x q k u t : unrefused (x ++ [VSent q k u]) t <-> unrefused x t.
Proof. unfold unrefused. split; intros H p j K; apply (H p j); [now apply refused_sent|now apply refused_sent in K]. Qed.
Lemma unrefused_not x q k t : ~ unrefused (x ++ [VRefused q k t]) t.
Proof. intros H. apply (H q k). apply in_elt. Qed.
Lemma refused_try x q p t : In (VRefused p Try t) (x ++ [VRefused q Confirm t]) -> In (VRefused p Try t) x.
Proof. intros H. apply in_app_or in H as [H|[H|[]]]; [exact H|discriminate]. Qed.
Lemma coord_run sched s x : run step init sched = Some (s, x) -> coord_ok x s.
Proof.
  intros H. refine (run_inv step init (fun _ x s => coord_ok x s) _ _ sched s x H).
  { constructor; cbn; [constructor|contradiction|discriminate|]. intros t [| |]; cbn; [|discriminate|lia]. intros _. repeat split; auto. intros p k []. }
  clear. intros _ x s l s' e _ I H.
  assert (SAME : calls s' = calls s -> inbox s' = inbox s -> running s' = running s -> (forall p t, sent p t e = []) -> (forall p k t, ~ In (VRefused p k t) e) -> coord_ok (x ++ e) s').
  { intros E1 E2 E3 E4 E5. constructor; rewrite ?E1, ?E2, ?E3; try apply I. intros t w L. eapply plan_same; [| |apply (c_plan _ _ I)].
    - intros p. now rewrite sent_app, E4, app_nil_r.
    - intros p k. rewrite in_app_iff. split; [intros [K|K]; [exact K|elim (E5 _ _ _ K)]|auto].
    - destruct w; cbn in *; now rewrite ?E1, ?E2, ?E3 in L. }
  destruct l as [| |p|p t|p|p|t|t]; cbn in H.
  - injection H as <- <-. constructor; cbn.
    + apply nodup_snoc; [apply I|]. intros K. apply (c_in _ _ I) in K. lia.
    + intros t K. apply in_app_or in K as [K|[<-|[]]]; [apply (c_in _ _ I) in K; lia|lia].
    + intros t c K. destruct (c_run _ _ I _ _ K) as [K1 K2]. split; [lia|]. intros J. apply in_app_or in J as [J|[<-|[]]]; [auto|lia].
    + intros t w L. eapply plan_same; [| |apply (c_plan _ _ I)].
      * intros p. rewrite sent_app. apply app_nil_r.
      * intros p k. rewrite in_app_iff. split; [intros [K|[K|[]]]; [exact K|discriminate]|auto].
      * destruct w; cbn in *; [|exact L|].
        -- rewrite in_app_iff in L. destruct L as [L|[L|[<-|[]]]]; [left; lia|now right|left; lia].
        -- destruct L as (L1 & L2 & L3). rewrite in_app_iff in L2. destruct (Nat.eq_dec t (calls s)) as [->|D]; [elim L2; right; now left|].
           repeat split; auto. lia.
  - destruct (running s) as [[t [|bs| |]]|] eqn:R.
    + injection H as H. destruct (call_same _ _ _ _ _ _ _ H) as (_ & _ & _ & Ee). eapply coord_call; [exact I|exact R|exact H|now intros []|].
      rewrite Ee. destruct (open (get s B)); cbn; intros (P1 & P2 & P3).
      * rewrite !sent_snoc, unrefused_sent, P1, P2, Nat.eqb_refl. auto.
      * rewrite !sent_refused, P1, P2. auto using unrefused_not.
    + injection H as H. destruct (call_same _ _ _ _ _ _ _ H) as (_ & _ & _ & Ee). eapply coord_call; [exact I|exact R|exact H|now intros []; destruct bs|].
      rewrite Ee. destruct bs, (open (get s C)); cbn; intros (P1 & P2 & P3).
      * rewrite !sent_snoc, unrefused_sent, P1, P2, Nat.eqb_refl. auto.
      * split; [split|].
        -- intros []; rewrite sent_refused, ?P1, ?P2; unfold orderly; auto.
        -- intros q _ []; rewrite sent_refused, ?P1, ?P2; [intros [|[]]; discriminate|intros []].
        -- intros U. elim (unrefused_not _ _ _ _ U).
      * split; [split|].
        -- intros []; rewrite sent_snoc, ?P1, ?P2, Nat.eqb_refl; unfold orderly; auto.
        -- intros q _ []; rewrite sent_snoc, ?P1, ?P2, Nat.eqb_refl; [intros []|intros [|[]]; discriminate].
        -- rewrite unrefused_sent. contradiction.
      * split; [split|].
        -- intros []; rewrite sent_refused, ?P1, ?P2; unfold orderly; auto.
        -- intros q _ []; rewrite sent_refused, ?P1, ?P2; intros [].
        -- intros U. elim (unrefused_not _ _ _ _ U).
    + injection H as H. destruct (call_same _ _ _ _ _ _ _ H) as (_ & _ & _ & Ee). eapply coord_call; [exact I|exact R|exact H|now intros []|].
      rewrite Ee. destruct (open (get s B)); cbn; intros (P1 & P2 & P3).
      * rewrite !sent_snoc, unrefused_sent, P1, P2, Nat.eqb_refl. repeat split; auto. intros q K. apply refused_sent in K. exact (P3 _ _ K).
      * rewrite !sent_refused, P1, P2. repeat split; auto using unrefused_not. intros q K. apply refused_try in K. exact (P3 _ _ K).
        intros U. elim (unrefused_not _ _ _ _ U).
    + injection H as H. destruct (call_same _ _ _ _ _ _ _ H) as (_ & _ & _ & Ee). eapply coord_call; [exact I|exact R|exact H|now intros []|].
      rewrite Ee. destruct (open (get s C)); cbn; intros (P1 & P2 & P3 & P4).
      * split; [split|].
        -- intros []; rewrite sent_snoc, Nat.eqb_refl; cbn; [rewrite app_nil_r; unfold orderly; destruct P2 as [->|[-> _]]; auto|rewrite P1; unfold orderly; auto].
        -- intros q K. apply refused_sent in K. elim (P3 _ K).
        -- rewrite unrefused_sent. intros U []; rewrite sent_snoc, Nat.eqb_refl; cbn; [rewrite app_nil_r; auto|now rewrite P1].
      * split; [split|].
        -- intros []; rewrite sent_refused; unfold orderly; [destruct P2 as [->|[-> _]]; auto|rewrite P1; auto].
        -- intros q K. apply refused_try in K. elim (P3 _ K).
        -- intros U. elim (unrefused_not _ _ _ _ U).
    + destruct (inbox s) as [|t r] eqn:E; [discriminate|]. injection H as <- <-. rewrite app_nil_r. pose proof (c_dup _ _ I) as D. rewrite E in D. inversion D as [|? ? D1 D2]; subst.
      assert (Lt : t < calls s) by (apply (c_in _ _ I); rewrite E; now left). constructor; cbn.
      * exact D2.
      * intros u K. apply (c_in _ _ I). rewrite E. now right.
      * intros u c [= <- <-]. auto.
      * intros u w L. destruct w as [|c|]; cbn in L.
        -- apply (c_plan _ _ I u Waiting). cbn. rewrite E. destruct L; [now left|right; now right].
        -- injection L as <- <-. apply (c_plan _ _ I t Waiting). cbn. rewrite E. right. now left.
        -- destruct L as (L1 & L2 & L3). apply (c_plan _ _ I u Over). cbn. rewrite E, R. repeat split; [exact L1| |discriminate]. intros [->|K]; [elim (L3 TryB); reflexivity|auto].
  - destruct (ended (get s p)); [discriminate|]. destruct (box (get s p)) as [|[k t] r] eqn:E; [discriminate|].
    destruct (handle p k t (get s p) r) as [y v] eqn:F. injection H as <- <-. apply SAME; try (now destruct p).
    + intros q u. destruct k; cbn in F; [|destruct (lookup t _)|destruct (lookup t _)]; now injection F as <- <-.
    + intros q k' u [K|[]]. destruct k; cbn in F; [|destruct (lookup t _)|destruct (lookup t _)]; injection F as <- <-; discriminate.
  - destruct (open (get s p)); [|discriminate]. injection H as <- <-. apply SAME; try (now destruct p); auto.
  - destruct (open (get s p)); [|discriminate]. injection H as <- <-. apply SAME; try (now destruct p); auto. intros q k u [|[]]; discriminate.
  - destruct (open (get s p)); [discriminate|]. injection H as <- <-. apply SAME; try (now destruct p); auto.
  - destruct (_ && _); [|discriminate]. injection H as <- <-. apply SAME; auto. intros q k u [|[]]; discriminate.
  - destruct (_ && _); [|discriminate]. injection H as <- <-. apply SAME; auto. intros q k u [|[]]; discriminate.
Qed.

(** ** What the participants remember *)
Lemma lookup_delete t u m : lookup t (delete u m) = if u =? t then None else lookup t m.
Proof.
  induction m as [|[v o] m IH]; cbn; [now destruct (u =? t)|]. destruct (Nat.eqb_spec v u) as [->|N]; cbn; fold (delete u m).
  - rewrite IH. destruct (Nat.eqb_spec u t); reflexivity.
  - rewrite IH. destruct (Nat.eqb_spec v t) as [->|]; [|reflexivity]. destruct (Nat.eqb_spec u t); [congruence|reflexivity].
Qed.
Definition settled (x : list event) (p : part) (t : nat) : Prop := In (VConfirm p t true) x \/ cancelled x p t.
Record tries_ok (x : list event) (s : state) : Prop := {
  t_some : forall p t o, lookup t (tries (get s p)) = Some o -> live x p t o /\ ~ settled x p t;
  t_none : forall p t, lookup t (tries (get s p)) = None -> tried x p t -> settled x p t;
  t_past : forall p t, settled x p t -> tried x p t;
  t_shows : forall p, shows x p (value (get s p));
  t_open : forall p, open (get s p) = true -> ~ In (VClose p) x;
  t_refused : forall p k t, In (VRefused p k t) x -> In (VClose p) x;
  t_shut : forall p, open (get s p) = false -> In (VClose p) x }.
Lemma tried_hist x p t : tried x p t -> In Try (hist p t x).
Proof. intros (o & H). apply in_flat_map. exists (VTry p t o). split; [exact H|]. cbn. rewrite Nat.eqb_refl. destruct p; cbn; auto. Qed.
Lemma hist_tried x p t : In Try (hist p t x) -> tried x p t.
Proof.
  intros H. apply in_flat_map in H as (e & K & J). destruct e; cbn in J; try contradiction; destruct (part_eqb_spec p0 p), (Nat.eqb_spec t0 t); cbn in J; try contradiction; destruct J as [J|[]]; try discriminate. subst. eexists; eauto.
Qed.
Lemma hist_confirm x p t : In Confirm (hist p t x) -> exists f, In (VConfirm p t f) x.
Proof.
  intros H. apply in_flat_map in H as (e & K & J). destruct e; cbn in J; try contradiction; destruct (part_eqb_spec p0 p), (Nat.eqb_spec t0 t); cbn in J; try contradiction; destruct J as [J|[]]; try discriminate. subst. eexists; eauto.
Qed.
Lemma confirm_hist x p t f : In (VConfirm p t f) x -> In Confirm (hist p t x).
Proof. intros H. apply in_flat_map. exists (VConfirm p t f). split; [exact H|]. cbn. rewrite Nat.eqb_refl. destruct p; cbn; auto. Qed.
Lemma live_app x e p t o : live x p t o -> ~ settled e p t -> live (x ++ e) p t o.
Proof.
  intros (a & b & -> & N1 & N2) N. exists a, (b ++ e). rewrite <- app_assoc. split; [reflexivity|]. split.
  - intros H. apply in_app_or in H as [H|H]; [auto|]. apply N. now left.
  - intros r H. apply in_app_or in H as [H|H]; [elim (N2 _ H)|]. apply N. right. now exists r.
Qed.
Lemma settled_app x e p t : settled (x ++ e) p t <-> settled x p t \/ settled e p t.
Proof.
  unfold settled, cancelled. split.
  - intros [H|(r & H)]; apply in_app_or in H as [H|H]; eauto.
  - intros [[H|(r & H)]|[H|(r & H)]]; [left|right; exists r|left|right; exists r]; apply in_or_app; auto.
Qed.
Lemma tried_app x e p t : tried (x ++ e) p t <-> tried x p t \/ tried e p t.
Proof.
  unfold tried. split.
  - intros (o & H); apply in_app_or in H as [H|H]; eauto.
  - intros [(o & H)|(o & H)]; exists o; apply in_or_app; auto.
Qed.
Lemma shows_app x e p v : shows x p v -> (forall e' v', In e' e -> ~ sets e' p v') -> shows (x ++ e) p v.
Proof.
  intros [(a & y & b & -> & S & N)|(-> & N)] K.
  - left. exists a, y, (b ++ e). rewrite <- app_assoc. repeat split; auto. intros e' v' H. apply in_app_or in H as [H|H]; eauto.
  - right. split; [reflexivity|]. intros e' v' H. apply in_app_or in H as [H|H]; eauto.
Qed.
Lemma shows_now x e p v : sets e p v -> shows (x ++ [e]) p v.
Proof. intros S. left. exists x, e, []. repeat split; auto. Qed.
Lemma settled_one p t q u : settled [VConfirm q u true] p t <-> q = p /\ u = t.
Proof. unfold settled, cancelled. split; [intros [[H|[]]|(r & [H|[]])]; [injection H; auto|discriminate]|intros [-> ->]; left; now left]. Qed.
Lemma settled_one' p t q u r : settled [VCancel q u (Some r)] p t <-> q = p /\ u = t.
Proof. unfold settled, cancelled. split; [intros [[H|[]]|(r' & [H|[]])]; [discriminate|injection H; auto]|intros [-> ->]; right; exists r; now left]. Qed.
Lemma settled_other p t e : (forall q u, e <> VConfirm q u true) -> (forall q u r, e <> VCancel q u (Some r)) -> ~ settled [e] p t.
Proof. intros H K [[E|[]]|(r & [E|[]])]; [elim (H _ _ E)|elim (K _ _ _ E)]. Qed.
Lemma tried_one p t q u o : tried [VTry q u o] p t <-> q = p /\ u = t.
Proof. split; [intros (o' & [H|[]]); injection H; auto|intros [-> ->]; exists o; now left]. Qed.
Lemma tried_other p t e : (forall q u o, e <> VTry q u o) -> ~ tried [e] p t.
Proof. intros H (o & [E|[]]). elim (H _ _ _ E). Qed.
(** At most one try and one confirm of a call are handled, in this order. *)
Lemma hist_orderly sched s x p t : run step init sched = Some (s, x) -> orderly (hist p t x ++ boxed t (box (get s p))).
Proof.
  intros H. rewrite (queue_run _ _ _ H p t). pose proof (coord_run _ _ _ H) as I.
  assert (exists w, loc s t w) as (w & L); [|apply (plan_fair w x t); apply (c_plan _ _ I); exact L].
  destruct (le_lt_dec (calls s) t) as [L|L]; [exists Waiting; now left|]. destruct (in_dec Nat.eq_dec t (inbox s)) as [K|K]; [exists Waiting; now right|].
  destruct (running s) as [[u c]|] eqn:R; [|exists Over; cbn; rewrite R; repeat split; auto; discriminate].
  destruct (Nat.eq_dec u t) as [->|D]; [exists (At c); exact R|]. exists Over. cbn. rewrite R. repeat split; auto. intros d E. congruence.
Qed.
Lemma orderly_try h r : orderly (h ++ Try :: r) -> h = [].
Proof.
  destruct h as [|k h]; [reflexivity|]. unfold orderly, full. cbn. intros [O|[O|O]]; [discriminate| |].
  - injection O as _ O. now destruct h.
  - injection O as _ O. destruct h as [|k2 h]; [discriminate|]. injection O as _ O. now destruct h.
Qed.
Lemma orderly_confirm h r : orderly (h ++ Confirm :: r) -> h = [Try] /\ r = [].
Proof.
  unfold orderly, full. destruct h as [|k h]; cbn; intros [O|[O|O]]; try discriminate.
  - injection O as _ O. now destruct h.
  - injection O as -> O. destruct h as [|k2 h]; [injection O as ->; auto|]. injection O as _ O. now destruct h.
Qed.
Definition neutral (e : event) : Prop :=
  match e with VTry _ _ _ | VConfirm _ _ true | VCancel _ _ (Some _) | VClose _ | VRefused _ _ _ => False | _ => True end.
Lemma tries_same x s s' e : tries_ok x s -> (forall p, tries (get s' p) = tries (get s p) /\ value (get s' p) = value (get s p) /\ open (get s' p) = open (get s p)) ->
  (forall v, In v e -> neutral v) -> tries_ok (x ++ e) s'.
Proof.
  intros I E N. assert (N1 : forall p t, ~ settled e p t) by (intros p t [K|(r & K)]; exact (N _ K)).
  assert (N2 : forall p t, ~ tried e p t) by (intros p t (o & K); exact (N _ K)).
  constructor.
  - intros p t o K. destruct (E p) as (-> & _) in K. destruct (t_some _ _ I _ _ _ K) as [K1 K2]. split; [now apply live_app|]. rewrite settled_app. intros [J|J]; [auto|exact (N1 _ _ J)].
  - intros p t K. destruct (E p) as (-> & _) in K. rewrite tried_app, settled_app. intros [J|J]; [left; now apply (t_none _ _ I)|elim (N2 _ _ J)].
  - intros p t. rewrite tried_app, settled_app. intros [J|J]; [left; now apply (t_past _ _ I)|elim (N1 _ _ J)].
  - intros p. destruct (E p) as (_ & -> & _). apply shows_app; [apply I|]. intros e' v' K S. apply N in K. inversion S; subst; exact K.
  - intros p K. destruct (E p) as (_ & _ & -> ) in K. intros J. apply in_app_or in J as [J|J]; [exact (t_open _ _ I _ K J)|exact (N _ J)].
  - intros p k t J. apply in_or_app. left. apply in_app_or in J as [J|J]; [exact (t_refused _ _ I _ _ _ J)|elim (N _ J)].
  - intros p K. destruct (E p) as (_ & _ & -> ) in K. apply in_or_app. left. exact (t_shut _ _ I _ K).
Qed.
Lemma tries_call x s p k t n s' e : tries_ok x s -> call s p k t n = (s', e) -> tries_ok (x ++ e) s'.
Proof.
  intros I H. unfold call in H. destruct (open (get s p)) eqn:O; injection H as <- <-.
  - apply tries_same with (s := s); [exact I| |intros v [<-|[]]; exact Logic.I]. intros q. rewrite get_goto, get_put. destruct (part_eqb_spec p q) as [->|]; auto.
  - assert (N1 : forall q u, ~ settled [VRefused p k t] q u) by (intros; apply settled_other; discriminate).
    assert (N2 : forall q u, ~ tried [VRefused p k t] q u) by (intros; apply tried_other; discriminate).
    constructor; intros q; rewrite ?get_goto.
    + intros u o K. destruct (t_some _ _ I _ _ _ K) as [K1 K2]. split; [now apply live_app|]. rewrite settled_app. intros [J|J]; [auto|exact (N1 _ _ J)].
    + intros u K. rewrite tried_app, settled_app. intros [J|J]; [left; now apply (t_none _ _ I)|elim (N2 _ _ J)].
    + intros u. rewrite tried_app, settled_app. intros [J|J]; [left; now apply (t_past _ _ I)|elim (N1 _ _ J)].
    + apply shows_app; [apply I|]. intros e' v' [<-|[]] S. inversion S.
    + intros K J. apply in_app_or in J as [J|[J|[]]]; [exact (t_open _ _ I _ K J)|discriminate].
    + intros k' u J. apply in_or_app. left. apply in_app_or in J as [J|[[= <- <- <-]|[]]]; [exact (t_refused _ _ I _ _ _ J)|exact (t_shut _ _ I _ O)].
    + intros K. apply in_or_app. left. exact (t_shut _ _ I _ K).
Qed.
Lemma tries_run sched s x : run step init sched = Some (s, x) -> tries_ok x s.
Proof.
  intros H. refine (run_inv step init (fun _ x s => tries_ok x s) _ _ sched s x H).
  { constructor.
    - intros [] t o; discriminate.
    - intros p t _ (o & []).
    - intros p t [[]|(r & [])].
    - intros p. right. split; [now destruct p|intros e' v' []].
    - intros p _ [].
    - intros p k t [].
    - intros []; discriminate. }
  clear. intros sched x s l s' e Hx I H.
  destruct l as [| |p|p t|p|p|t|t]; cbn in H.
  - injection H as <- <-. apply tries_same with (s := s); [exact I|now intros []|intros v [<-|[]]; exact Logic.I].
  - destruct (running s) as [[t [|bs| |]]|]; [injection H as H; eapply tries_call; eauto..|].
    destruct (inbox s); [discriminate|]. injection H as <- <-. apply tries_same with (s := s); [exact I|now intros []|intros v []].
  - destruct (ended (get s p)); [discriminate|]. destruct (box (get s p)) as [|[k t] r] eqn:Eb; [discriminate|].
    pose proof (hist_orderly _ _ _ p t Hx) as Ord. rewrite Eb in Ord.
    destruct k; cbn in H.
    + (* a try: it is the first *)
      injection H as <- <-. cbn in Ord. rewrite Nat.eqb_refl in Ord.
      assert (NT : ~ tried x p t).
      { intros K. apply tried_hist in K. apply orderly_try in Ord. now rewrite Ord in K. }
      assert (NS : ~ settled x p t) by (intros K; apply NT; now apply (t_past _ _ I)).
      assert (N1 : forall q u, ~ settled [VTry p t (value (get s p))] q u) by (intros; apply settled_other; discriminate).
      constructor; intros q; rewrite ?get_put.
      * intros u o. destruct (part_eqb_spec p q) as [->|D]; cbn.
        -- destruct (Nat.eqb_spec t u) as [->|Du].
           ++ intros [= <-]. split; [|rewrite settled_app; intros [J|J]; [auto|exact (N1 _ _ J)]]. exists x, []. repeat split; auto.
           ++ rewrite lookup_delete. destruct (Nat.eqb_spec t u); [congruence|]. intros K. destruct (t_some _ _ I _ _ _ K) as [K1 K2]. split; [now apply live_app|]. rewrite settled_app. intros [J|J]; [auto|exact (N1 _ _ J)].
        -- intros K. destruct (t_some _ _ I _ _ _ K) as [K1 K2]. split; [now apply live_app|]. rewrite settled_app. intros [J|J]; [auto|exact (N1 _ _ J)].
      * intros u. rewrite tried_app, settled_app, tried_one. destruct (part_eqb_spec p q) as [->|D]; cbn.
        -- destruct (Nat.eqb_spec t u) as [->|Du]; [discriminate|]. rewrite lookup_delete. destruct (Nat.eqb_spec t u); [congruence|]. intros K [J|[_ J]]; [left; now apply (t_none _ _ I)|congruence].
        -- intros K [J|[J _]]; [left; now apply (t_none _ _ I)|congruence].
      * intros u. rewrite tried_app, settled_app. intros [J|J]; [left; now apply (t_past _ _ I)|elim (N1 _ _ J)].
      * destruct (part_eqb_spec p q) as [->|D]; cbn; [apply shows_now; constructor|]. apply shows_app; [apply I|]. intros e' v' [<-|[]] S. inversion S. congruence.
      * intros K J. apply in_app_or in J as [J|[J|[]]]; [|discriminate]. apply (t_open _ _ I q); [|exact J]. destruct (part_eqb_spec p q) as [->|D]; exact K.
      * intros k' u J. apply in_or_app. left. apply in_app_or in J as [J|[J|[]]]; [exact (t_refused _ _ I _ _ _ J)|discriminate].
      * intros K. apply in_or_app. left. apply (t_shut _ _ I q). destruct (part_eqb_spec p q) as [->|D]; exact K.
    + destruct (lookup t (tries (get s p))) as [o|] eqn:Lo; injection H as <- <-.
      * constructor; intros q; rewrite ?get_put.
        -- intros u o'. destruct (part_eqb_spec p q) as [->|D]; cbn.
           ++ rewrite lookup_delete. destruct (Nat.eqb_spec t u) as [->|Du]; [discriminate|]. intros K. destruct (t_some _ _ I _ _ _ K) as [K1 K2].
              split; [apply live_app; [exact K1|]|rewrite settled_app; intros [J|J]; [auto|]; revert J]; rewrite settled_one; intros [_ J]; congruence.
           ++ intros K. destruct (t_some _ _ I _ _ _ K) as [K1 K2].
              split; [apply live_app; [exact K1|]|rewrite settled_app; intros [J|J]; [auto|]; revert J]; rewrite settled_one; intros [J _]; congruence.
        -- intros u K. rewrite tried_app, settled_app, settled_one. intros [J|J]; [|destruct J as (? & [J|[]]); discriminate].
           destruct (part_eqb_spec p q) as [->|D]; cbn in K; [|left; now apply (t_none _ _ I)].
           rewrite lookup_delete in K. destruct (Nat.eqb_spec t u) as [->|Du]; [now right|]. left. now apply (t_none _ _ I).
        -- intros u. rewrite tried_app, settled_app, settled_one. intros H. left. destruct H as [J|[-> ->]]; [now apply (t_past _ _ I)|].
           destruct (t_some _ _ I _ _ _ Lo) as [(a & b & -> & _) _]. exists o. apply in_elt.
        -- apply shows_app; [destruct (part_eqb_spec p q) as [->|D]; apply I|]. intros e' v' [<-|[]] S. inversion S.
        -- intros K J. apply in_app_or in J as [J|[J|[]]]; [|discriminate]. apply (t_open _ _ I q); [|exact J]. destruct (part_eqb_spec p q) as [->|D]; exact K.
        -- intros k' u J. apply in_or_app. left. apply in_app_or in J as [J|[J|[]]]; [exact (t_refused _ _ I _ _ _ J)|discriminate].
        -- intros K. apply in_or_app. left. apply (t_shut _ _ I q). destruct (part_eqb_spec p q) as [->|D]; exact K.
      * apply tries_same with (s := s); [exact I| |intros v [<-|[]]; exact Logic.I]. intros q. rewrite get_put. destruct (part_eqb_spec p q) as [->|]; auto.
    + destruct (lookup t (tries (get s p))) as [o|] eqn:Lo; injection H as <- <-.
      * constructor; intros q; rewrite ?get_put.
        -- intros u o'. destruct (part_eqb_spec p q) as [->|D]; cbn.
           ++ rewrite lookup_delete. destruct (Nat.eqb_spec t u) as [->|Du]; [discriminate|]. intros K. destruct (t_some _ _ I _ _ _ K) as [K1 K2].
              split; [apply live_app; [exact K1|]|rewrite settled_app; intros [J|J]; [auto|]; revert J]; rewrite settled_one'; intros [_ J]; congruence.
           ++ intros K. destruct (t_some _ _ I _ _ _ K) as [K1 K2].
              split; [apply live_app; [exact K1|]|rewrite settled_app; intros [J|J]; [auto|]; revert J]; rewrite settled_one'; intros [J _]; congruence.
        -- intros u K. rewrite tried_app, settled_app, settled_one'. intros [J|J]; [|destruct J as (? & [J|[]]); discriminate].
           destruct (part_eqb_spec p q) as [->|D]; cbn in K; [|left; now apply (t_none _ _ I)].
           rewrite lookup_delete in K. destruct (Nat.eqb_spec t u) as [->|Du]; [now right|]. left. now apply (t_none _ _ I).
        -- intros u. rewrite tried_app, settled_app, settled_one'. intros H. left. destruct H as [J|[-> ->]]; [now apply (t_past _ _ I)|].
           destruct (t_some _ _ I _ _ _ Lo) as [(a & b & -> & _) _]. exists o. apply in_elt.
        -- destruct (part_eqb_spec p q) as [->|D]; cbn; [apply shows_now; constructor|]. apply shows_app; [apply I|]. intros e' v' [<-|[]] S. inversion S. congruence.
        -- intros K J. apply in_app_or in J as [J|[J|[]]]; [|discriminate]. apply (t_open _ _ I q); [|exact J]. destruct (part_eqb_spec p q) as [->|D]; exact K.
        -- intros k' u J. apply in_or_app. left. apply in_app_or in J as [J|[J|[]]]; [exact (t_refused _ _ I _ _ _ J)|discriminate].
        -- intros K. apply in_or_app. left. apply (t_shut _ _ I q). destruct (part_eqb_spec p q) as [->|D]; exact K.
      * apply tries_same with (s := s); [exact I| |intros v [<-|[]]; exact Logic.I]. intros q. rewrite get_put. destruct (part_eqb_spec p q) as [->|]; auto.
  - destruct (open (get s p)) eqn:O; [|discriminate]. injection H as <- <-. apply tries_same with (s := s); [exact I| |intros v []]. intros q. rewrite get_put. destruct (part_eqb_spec p q) as [->|]; auto.
  - destruct (open (get s p)) eqn:O; [|discriminate]. injection H as <- <-.
    assert (N1 : forall q u, ~ settled [VClose p] q u) by (intros; apply settled_other; discriminate).
    assert (N2 : forall q u, ~ tried [VClose p] q u) by (intros; apply tried_other; discriminate).
    constructor; intros q; rewrite ?get_put.
    + intros u o K. assert (K' : lookup u (tries (get s q)) = Some o) by (destruct (part_eqb_spec p q) as [->|D]; exact K).
      destruct (t_some _ _ I _ _ _ K') as [K1 K2]. split; [now apply live_app|]. rewrite settled_app. intros [J|J]; [auto|exact (N1 _ _ J)].
    + intros u K. assert (K' : lookup u (tries (get s q)) = None) by (destruct (part_eqb_spec p q) as [->|D]; exact K).
      rewrite tried_app, settled_app. intros [J|J]; [left; now apply (t_none _ _ I)|elim (N2 _ _ J)].
    + intros u. rewrite tried_app, settled_app. intros [J|J]; [left; now apply (t_past _ _ I)|elim (N1 _ _ J)].
    + apply shows_app; [destruct (part_eqb_spec p q) as [->|D]; apply I|]. intros e' v' [<-|[]] S. inversion S.
    + destruct (part_eqb_spec p q) as [->|D]; [discriminate|]. intros K J. apply in_app_or in J as [J|[J|[]]]; [exact (t_open _ _ I _ K J)|congruence].
    + intros k' u J. apply in_or_app. left. apply in_app_or in J as [J|[J|[]]]; [exact (t_refused _ _ I _ _ _ J)|discriminate].
    + intros K. apply in_or_app. destruct (part_eqb_spec p q) as [->|D]; [right; now left|]. left. exact (t_shut _ _ I _ K).
  - destruct (open (get s p)) eqn:O; [discriminate|]. injection H as <- <-. apply tries_same with (s := s); [exact I| |intros v []]. intros q. rewrite get_put. destruct (part_eqb_spec p q) as [->|]; auto.
  - destruct (_ && _); [|discriminate]. injection H as <- <-. apply tries_same with (s := s); [exact I|now intros []|intros v [<-|[]]; exact Logic.I].
  - destruct (_ && _); [|discriminate]. injection H as <- <-. apply tries_same with (s := s); [exact I|now intros []|intros v [<-|[]]; exact Logic.I].
Qed.

(** ** Steps by their events *)
Lemma orderly_prefix h r : orderly (h ++ r) -> orderly h.
Proof.
  unfold orderly, full. destruct h as [|k [|k2 h]]; cbn; intros [O|[O|O]]; auto; try discriminate.
  - injection O as -> _. auto.
  - injection O as -> _. auto.
  - injection O as -> -> O. destruct h; [auto|discriminate].
Qed.
Lemma unboxed t b : existsb (of_call t) b = false -> boxed t b = [].
Proof.
  induction b as [|[k u] b IH]; [reflexivity|]. cbn [existsb]. intros H. apply orb_false_iff in H as [H1 H2].
  change (box1 t (k, u) ++ boxed t b = []). rewrite (IH H2), app_nil_r. destruct k; cbn in *; now rewrite ?H1.
Qed.
Lemma event_alone s l s' p v q : step s l = Some (s', p ++ v :: q) -> p = [] /\ q = [].
Proof.
  assert (K : forall e, step s l = Some (s', e) -> e = [] \/ exists u, e = [u]).
  { destruct l as [| |r|r t|r|r|t|t]; cbn; intros e H.
    - injection H as <- <-. eauto.
    - destruct (running s) as [[t [|bs| |]]|]; [injection H as H; apply call_same in H as (_ & _ & _ & ->); eauto..|].
      destruct (inbox s); [discriminate|]. injection H as <- <-. auto.
    - destruct (ended _); [discriminate|]. destruct (box _) as [|[k t] z]; [discriminate|]. destruct (handle _ _ _ _ _). injection H as <- <-. eauto.
    - destruct (open _); [|discriminate]. injection H as <- <-. auto.
    - destruct (open _); [|discriminate]. injection H as <- <-. eauto.
    - destruct (open _); [discriminate|]. injection H as <- <-. auto.
    - destruct (_ && _); [|discriminate]. injection H as <- <-. eauto.
    - destruct (_ && _); [|discriminate]. injection H as <- <-. eauto. }
  intros H. destruct (K _ H) as [E|(u & E)]; [destruct p; discriminate|]. destruct p as [|a p]; [injection E as _ ->; auto|]. injection E as _ E. destruct p; discriminate.
Qed.
Lemma before sched s evs x v y : run step init sched = Some (s, evs) -> evs = x ++ v :: y ->
  exists a t t' l, run step init a = Some (t, x) /\ step t l = Some (t', [v]).
Proof.
  intros H E. destruct (run_split _ _ _ _ _ _ _ _ H E) as (a & l & b & t & t' & e1 & p & q & e2 & _ & H1 & S & _ & Ex & _).
  destruct (event_alone _ _ _ _ _ _ S) as [-> ->]. rewrite app_nil_r in Ex. subst e1. eauto 6.
Qed.
Definition by_participant (v : event) : Prop := match v with VTry _ _ _ | VConfirm _ _ _ | VCancel _ _ _ => True | _ => False end.
Lemma handle_inv s l s' v : step s l = Some (s', [v]) -> by_participant v -> exists p k t r, box (get s p) = (k, t) :: r /\ v = snd (handle p k t (get s p) r).
Proof.
  intros H N. destruct l as [| |p|p t|p|p|t|t]; cbn in H.
  - injection H as _ <-. contradiction.
  - destruct (running s) as [[t [|bs| |]]|]; [injection H as H; apply call_same in H as (_ & _ & _ & [= ->]); destruct (open _); contradiction..|].
    destruct (inbox s); discriminate.
  - destruct (ended _); [discriminate|]. destruct (box _) as [|[k t] z] eqn:E; [discriminate|]. destruct (handle p k t _ _) eqn:F. injection H as _ <-. exists p, k, t, z. now rewrite F.
  - destruct (open _); discriminate.
  - destruct (open _); [|discriminate]. injection H as _ <-. contradiction.
  - destruct (open _); discriminate.
  - destruct (_ && _); [|discriminate]. injection H as _ <-. contradiction.
  - destruct (_ && _); [|discriminate]. injection H as _ <-. contradiction.
Qed.
Lemma return_inv s l s' t : step s l = Some (s', [VReturn t]) -> t < calls s /\ busy s t = false.
Proof.
  intros H. destruct l as [| |p|p u|p|p|u|u]; cbn in H.
  - discriminate.
  - destruct (running s) as [[u [|bs| |]]|]; [injection H as H; apply call_same in H as (_ & _ & _ & [= E]); destruct (open _); discriminate..|].
    destruct (inbox s); discriminate.
  - destruct (ended _); [discriminate|]. destruct (box _) as [|[k u] z] eqn:E; [discriminate|]. destruct k; cbn in H; [|destruct (lookup _ _)|destruct (lookup _ _)]; discriminate.
  - destruct (open _); discriminate.
  - destruct (open _); discriminate.
  - destruct (open _); discriminate.
  - destruct (_ && _) eqn:E; [|discriminate]. injection H as _ <-. apply andb_prop in E as [E1 E2]. apply andb_prop in E1 as [E1 _]. apply Nat.ltb_lt in E1. apply negb_true_iff in E2. auto.
  - destruct (_ && _); discriminate.
Qed.
Lemma live_unsettled sched s x p t o : run step init sched = Some (s, x) -> live x p t o -> ~ settled x p t.
Proof.
  intros H (a & b & E & N1 & N2) K. destruct (before _ _ _ _ _ _ H E) as (sa & ta & ta' & l & Ha & _).
  assert (~ settled a p t).
  { intros J. apply (t_past _ _ (tries_run _ _ _ Ha)) in J. apply tried_hist in J.
    pose proof (orderly_prefix _ _ (hist_orderly _ _ _ p t H)) as O. rewrite E, hist_app in O. cbn in O. rewrite Nat.eqb_refl in O. destruct (part_eqb_spec p p); [|congruence]. cbn in O.
    apply orderly_try in O. now rewrite O in J. }
  rewrite E in K. change (a ++ VTry p t o :: b) with (a ++ [VTry p t o] ++ b) in K. rewrite !settled_app in K. destruct K as [K|[K|[K|(r & K)]]]; [auto| |auto|exact (N2 _ K)].
  revert K. apply settled_other; discriminate.
Qed.

(** ** Progress *)
Definition weight (s : state) : nat :=
  5 * length (inbox s) + match running s with None => 0 | Some (_, TryB) => 4 | Some (_, TryC _) => 3 | Some (_, ConfirmB) => 2 | Some (_, ConfirmC) => 1 end.
(** The same calls, and message loops that still run. *)
Definition keeps (s s' : state) : Prop := calls s' = calls s /\ returned s' = returned s /\ forall p, ended (get s' p) = ended (get s p).
Lemma keeps_refl s : keeps s s. Proof. repeat split. Qed.
Lemma keeps_trans a b c : keeps a b -> keeps b c -> keeps a c.
Proof. intros (A1 & A2 & A3) (B1 & B2 & B3). repeat split; [congruence|congruence|]. intros p. rewrite B3. apply A3. Qed.
Lemma call_keeps s p k t n s' e : call s p k t n = (s', e) -> keeps s s'.
Proof. unfold call. destruct (open (get s p)); intros [= <- <-]; destruct p; repeat split; now intros []. Qed.
Lemma coord_step s : weight s > 0 -> exists s' e, step s LStep = Some (s', e) /\ weight s' < weight s /\ keeps s s'.
Proof.
  intros W. destruct s as [n i r d b c] eqn:Es. rewrite <- Es in *. destruct (running s) as [[t q]|] eqn:R.
  - assert (exists p k f s' e, step s LStep = Some (s', e) /\ call s p k t f = (s', e) /\ forall ok, match f ok with None => True | Some (_, q') => match q, q' with TryB, TryC _ | TryC _, ConfirmB | ConfirmB, ConfirmC => True | _, _ => False end end) as (p & k & f & s' & e & H & K & F).
    { cbn [step]. rewrite R. destruct q as [|bs| |].
      - destruct (call s B Try t (fun ok => Some (t, TryC ok))) as [s' e] eqn:K. eexists _, _, _, s', e. split; [reflexivity|]. split; [exact K|]. now intros [].
      - destruct (call s C Try t (fun ok => if bs && ok then Some (t, ConfirmB) else None)) as [s' e] eqn:K. eexists _, _, _, s', e. split; [reflexivity|]. split; [exact K|]. intros []; destruct bs; exact Logic.I.
      - destruct (call s B Confirm t (fun _ => Some (t, ConfirmC))) as [s' e] eqn:K. eexists _, _, _, s', e. split; [reflexivity|]. split; [exact K|]. now intros [].
      - destruct (call s C Confirm t (fun _ => None)) as [s' e] eqn:K. eexists _, _, _, s', e. split; [reflexivity|]. split; [exact K|]. now intros []. }
    exists s', e. split; [exact H|]. split; [|eapply call_keeps; exact K]. destruct (call_same _ _ _ _ _ _ _ K) as (_ & E2 & E3 & _). unfold weight. rewrite E2, E3, R.
    specialize (F (open (get s p))). destruct (f _) as [[? []]|]; destruct q; try contradiction; lia.
  - cbn [step]. rewrite R. unfold weight in *. rewrite R in W. destruct (inbox s) as [|t l] eqn:I; [cbn in W; lia|].
    eexists _, _. split; [reflexivity|]. cbn. split; [lia|]. split; [reflexivity|]. split; [reflexivity|]. now intros [].
Qed.
Lemma coord_drain n : forall s, weight s <= n -> exists sched s' e, run step s sched = Some (s', e) /\ weight s' = 0 /\ keeps s s'.
Proof.
  induction n as [|n IH]; intros s L; [exists [], s, []; repeat split; lia|]. destruct (Nat.eq_dec (weight s) 0) as [Z|Z]; [exists [], s, []; repeat split; auto|].
  destruct (coord_step s) as (s1 & e1 & H1 & W1 & K1); [lia|]. destruct (IH s1) as (sched & s2 & e2 & H2 & W2 & K2); [lia|].
  exists (LStep :: sched), s2, (e1 ++ e2). cbn [run]. rewrite H1, H2. eauto using keeps_trans.
Qed.
Lemma box_drain p n : forall s, length (box (get s p)) <= n -> ended (get s p) = false ->
  exists sched s' e, run step s sched = Some (s', e) /\ box (get s' p) = [] /\ keeps s s' /\ weight s' = weight s /\ forall q, q <> p -> get s' q = get s q.
Proof.
  induction n as [|n IH]; intros s L E; (destruct (box (get s p)) as [|[k t] r] eqn:B; [exists [], s, []; repeat split; auto|cbn in L]); [lia|].
  destruct (handle p k t (get s p) r) as [x v] eqn:F. assert (box x = r /\ ended x = ended (get s p)) as [X1 X2].
  { destruct k; cbn in F; [|destruct (lookup t _)|destruct (lookup t _)]; now injection F as <- <-. }
  assert (H1 : step s (LHandle p) = Some (put s p x, [v])) by (cbn [step]; now rewrite E, B, F).
  assert (G : get (put s p x) p = x) by (rewrite get_put; now destruct p).
  destruct (IH (put s p x)) as (sched & s2 & e2 & H2 & B2 & K2 & W2 & O2); [rewrite G, X1; lia|rewrite G; congruence|].
  exists (LHandle p :: sched), s2, ([v] ++ e2). cbn [run]. rewrite H1, H2. repeat split; auto.
  - destruct K2 as (K & _). rewrite K. now destruct p.
  - destruct K2 as (_ & K & _). rewrite K. now destruct p.
  - intros q. destruct K2 as (_ & _ & K). rewrite K, get_put. destruct (part_eqb_spec p q) as [->|]; auto.
  - rewrite W2. now destruct p.
  - intros q N. rewrite (O2 q N), get_put. destruct (part_eqb_spec p q) as [->|]; [congruence|reflexivity].
Qed.
Lemma can_return s t : t < calls s -> ~ In t (returned s) -> (forall p, ended (get s p) = false) -> exists sched s' e, run step s sched = Some (s', e) /\ In (VReturn t) e.
Proof.
  intros L N E. destruct (coord_drain _ s (le_n _)) as (a & s1 & e1 & H1 & W1 & (K1 & K2 & K3)).
  destruct (box_drain B _ s1 (le_n _)) as (b & s2 & e2 & H2 & B2 & (K4 & K5 & K6) & W2 & _); [now rewrite K3|].
  destruct (box_drain C _ s2 (le_n _)) as (c & s3 & e3 & H3 & B3 & (K7 & K8 & K9) & W3 & O3); [now rewrite K6, K3|].
  assert (H4 : step s3 (LReturn t) = Some (mkS (calls s3) (inbox s3) (running s3) (t :: returned s3) (partB s3) (partC s3), [VReturn t])).
  { cbn [step]. assert (busy s3 t = false) as ->.
    { assert (W : weight s3 = 0) by congruence. unfold weight in W. assert (inbox s3 = []) as I by (destruct (inbox s3); [reflexivity|cbn in W; lia]).
      assert (running s3 = None) as R by (destruct (running s3) as [[? []]|]; [lia..|reflexivity]). unfold busy. rewrite I, R.
      change (partC s3) with (get s3 C). change (partB s3) with (get s3 B). now rewrite B3, (O3 B), B2 by discriminate. }
    assert (t <? calls s3 = true) as -> by (apply Nat.ltb_lt; congruence).
    assert (existsb (Nat.eqb t) (returned s3) = false) as ->; [|reflexivity].
    destruct (existsb _ _) eqn:X; [|reflexivity]. apply existsb_exists in X as (u & X & Y). apply Nat.eqb_eq in Y as <-. elim N. congruence. }
  exists (a ++ b ++ c ++ [LReturn t]). eexists _, _. split.
  - eapply run_app; [exact H1|]. eapply run_app; [exact H2|]. eapply run_app; [exact H3|]. cbn [run]. rewrite H4. reflexivity.
  - apply in_or_app. right. apply in_or_app. right. apply in_or_app. right. now left.
Qed.
Lemma called sched s x : run step init sched = Some (s, x) -> (forall t, In (VCall t) x -> t < calls s) /\ (forall t, In t (returned s) -> In (VReturn t) x \/ In (VTimeout t) x).
Proof.
  intros H. refine (run_inv step init (fun _ x s => (forall t, In (VCall t) x -> t < calls s) /\ (forall t, In t (returned s) -> In (VReturn t) x \/ In (VTimeout t) x)) _ _ sched s x H); [split; intros t []|].
  clear. intros _ x s l s' e _ [I J] H.
  assert (SAME : calls s' = calls s -> returned s' = returned s -> (forall t, ~ In (VCall t) e) -> (forall t, In (VCall t) (x ++ e) -> t < calls s') /\ (forall t, In t (returned s') -> In (VReturn t) (x ++ e) \/ In (VTimeout t) (x ++ e))).
  { intros E1 E2 E3. rewrite E1, E2. split; intros t K; [apply in_app_or in K as [K|K]; [auto|elim (E3 _ K)]|]. destruct (J t K); [left|right]; apply in_or_app; auto. }
  assert (CALL : forall p k t n, call s p k t n = (s', e) -> (forall t, In (VCall t) (x ++ e) -> t < calls s') /\ (forall t, In t (returned s') -> In (VReturn t) (x ++ e) \/ In (VTimeout t) (x ++ e))).
  { intros p k t n K. pose proof (call_keeps _ _ _ _ _ _ _ K) as (K1 & K2 & _). apply call_same in K as (_ & _ & _ & Ee). apply SAME; auto. rewrite Ee. intros u [F|[]]. destruct (open _); discriminate. }
  destruct l as [| |p|p t|p|p|t|t]; cbn in H.
  - injection H as <- <-. cbn. split; intros t K; [apply in_app_or in K as [K|[[= <-]|[]]]; [apply I in K; lia|lia]|]. destruct (J t K); [left|right]; apply in_or_app; auto.
  - destruct (running s) as [[t [|bs| |]]|]; [injection H as H; exact (CALL _ _ _ _ H)..|]. destruct (inbox s); [discriminate|]. injection H as <- <-. apply SAME; auto.
  - destruct (ended _); [discriminate|]. destruct (box _) as [|[k t] z] eqn:E; [discriminate|]. destruct (handle p k t (get s p) z) as [y v] eqn:F. injection H as <- <-.
    apply SAME; [now destruct p|now destruct p|]. intros u [K|[]]. destruct k; cbn in F; [|destruct (lookup _ _)|destruct (lookup _ _)]; injection F as _ <-; discriminate.
  - destruct (open _); [|discriminate]. injection H as <- <-. apply SAME; [now destruct p|now destruct p|auto].
  - destruct (open _); [|discriminate]. injection H as <- <-. apply SAME; [now destruct p|now destruct p|intros u [K|[]]; discriminate].
  - destruct (open _); [discriminate|]. injection H as <- <-. apply SAME; [now destruct p|now destruct p|auto].
  - destruct (_ && _); [|discriminate]. injection H as <- <-. cbn. split; intros u K; [apply in_app_or in K as [K|[K|[]]]; [auto|discriminate]|].
    destruct K as [<-|K]; [left; apply in_elt|]. destruct (J u K); [left|right]; apply in_or_app; auto.
  - destruct (_ && _); [|discriminate]. injection H as <- <-. cbn. split; intros u K; [apply in_app_or in K as [K|[K|[]]]; [auto|discriminate]|].
    destruct K as [<-|K]; [right; apply in_elt|]. destruct (J u K); [left|right]; apply in_or_app; auto.
Qed.
