(** Invariants of [ScanModel]. *)
From Coq Require Import List Arith Bool Lia.
From Verif Require Import Machine MachineMore ScanModel ScanSpec.
Import ListNotations.

Lemma has_in x l : has x l = true <-> In x l.
Proof.
  unfold has. rewrite existsb_exists. split; [intros (y & H & E); apply Nat.eqb_eq in E; now subst|].
  intros H. exists x. split; [exact H|apply Nat.eqb_refl].
Qed.
Lemma has_out x l : has x l = false <-> ~ In x l.
Proof. rewrite <- has_in. destruct (has x l); intuition congruence. Qed.
Lemma in_drop x y l : In x (drop y l) <-> In x l /\ x <> y.
Proof.
  unfold drop. rewrite filter_In. split; intros [H N]; (split; [exact H|]).
  - intros ->. rewrite Nat.eqb_refl in N. discriminate.
  - destruct (Nat.eqb_spec y x); [congruence|reflexivity].
Qed.
Lemma nodup_drop y l : NoDup l -> NoDup (drop y l).
Proof. apply NoDup_filter. Qed.

(** ** There *)
Definition quiet (e : list event) : Prop := (forall j id, ~ In (VPut j id) e) /\ (forall j id, ~ In (VDel j id) e).
Lemma there_quiet x e id : quiet e -> (there (x ++ e) id <-> there x id).
Proof.
  intros [P D]. split.
  - intros (a & b & j & E & N). apply app_split in E as [(b1 & -> & ->)|(d1 & -> & ->)].
    + elim (P j id). apply in_elt.
    + exists a, d1, j. split; [reflexivity|]. intros k H. apply (N k). apply in_or_app. auto.
  - intros (a & b & j & -> & N). exists a, (b ++ e), j. rewrite <- app_assoc. split; [reflexivity|].
    intros k H. apply in_app_or in H as [H|H]; [exact (N k H)|exact (D k id H)].
Qed.
Lemma there_put x j i id : there (x ++ [VPut j i]) id <-> id = i \/ there x id.
Proof.
  split.
  - intros (a & b & k & E & N). apply app_split in E as [(b1 & E & ->)|(d1 & -> & ->)].
    + apply in_single in E as (-> & -> & E). injection E as -> ->. auto.
    + right. exists a, d1, k. split; [reflexivity|]. intros k' H. apply (N k'). apply in_or_app. auto.
  - intros [->|(a & b & k & -> & N)].
    + exists x, [], j. split; [reflexivity|]. intros k [].
    + exists a, (b ++ [VPut j i]), k. rewrite <- app_assoc. split; [reflexivity|].
      intros k' H. apply in_app_or in H as [H|[H|[]]]; [exact (N k' H)|discriminate].
Qed.
Lemma there_del x j i id : there (x ++ [VDel j i]) id <-> id <> i /\ there x id.
Proof.
  split.
  - intros (a & b & k & E & N). apply app_split in E as [(b1 & E & ->)|(d1 & -> & ->)].
    + apply in_single in E as (_ & _ & E). discriminate.
    + split; [intros ->; apply (N j); apply in_or_app; right; now left|].
      exists a, d1, k. split; [reflexivity|]. intros k' H. apply (N k'). apply in_or_app. auto.
  - intros [Ne (a & b & k & -> & N)]. exists a, (b ++ [VDel j i]), k. rewrite <- app_assoc. split; [reflexivity|].
    intros k' H. apply in_app_or in H as [H|[H|[]]]; [exact (N k' H)|congruence].
Qed.
Lemma there_keeps x y id : there x id -> (forall k, ~ In (VDel k id) y) -> there (x ++ y) id.
Proof.
  intros (a & b & k & -> & N) D. exists a, (b ++ y), k. rewrite <- app_assoc. split; [reflexivity|].
  intros k' H. apply in_app_or in H as [H|H]; [exact (N k' H)|exact (D k' H)].
Qed.

(** ** What a step does to the map *)
Inductive change (s s' : state) (e : list event) : Prop :=
| ch_none : quiet e -> present s' = present s -> change s s' e
| ch_put j id : e = [VPut j id] -> (forall i, In i (present s') <-> i = id \/ In i (present s)) -> (NoDup (present s) -> NoDup (present s')) -> change s s' e
| ch_del j id : e = [VDel j id] -> (forall i, In i (present s') <-> i <> id /\ In i (present s)) -> (NoDup (present s) -> NoDup (present s')) -> change s s' e.
Lemma quiet_nil : quiet [].
Proof. split; intros j id []. Qed.
Ltac qt := first [exact quiet_nil | split; intros ? ? [|[]]; discriminate].
Lemma step_call_change s j c ok s' e : step_call s j c ok = Some (s', e) -> change s s' e.
Proof.
  unfold step_call, crash, goto. destruct c; intros H;
    repeat match type of H with (if ?b then _ else _) = _ => destruct b | match ?b with _ => _ end = _ => destruct b end; try discriminate;
    try (injection H as <- <-; apply ch_none; [qt|reflexivity]).
  destruct put.
  - injection H as <- <-. apply (ch_put _ _ _ j id); [reflexivity| |]; cbn; destruct (has id (present s)) eqn:E.
    + intros i. apply has_in in E. split; [auto|]. intros [->|H]; auto.
    + cbn. intuition.
    + auto.
    + intros N. constructor; [now apply has_out|exact N].
  - injection H as <- <-. apply (ch_del _ _ _ j id); [reflexivity| |]; cbn.
    + intros i. rewrite in_drop. tauto.
    + apply nodup_drop.
Qed.
Lemma step_change s l s' e : step s l = Some (s', e) -> change s s' e.
Proof.
  unfold step, crash. destruct (dead s); [discriminate|]. destruct l; intros H; try (injection H as <- <-; apply ch_none; [qt|reflexivity]).
  - destruct (locked s); [discriminate|]. destruct (writing s); injection H as <- <-; (apply ch_none; [qt|reflexivity]).
  - destruct (nth_error _ j); [|discriminate]. eapply step_call_change; eauto.
  - destruct (nth_error _ j) as [[]|]; try discriminate; destruct (writing s); try (injection H as <- <-; apply ch_none; [qt|reflexivity]);
      destruct (take w id); try discriminate; injection H as <- <-; apply ch_none; (qt || reflexivity).
Qed.
Definition content (x : list event) (s : state) : Prop := NoDup (present s) /\ forall id, In id (present s) <-> there x id.
Lemma content_step x s l s' e : content x s -> step s l = Some (s', e) -> content (x ++ e) s'.
Proof.
  intros [N C] H. destruct (step_change _ _ _ _ H) as [Q E|j i -> P D|j i -> P D].
  - split; [now rewrite E|]. intros id. rewrite E, there_quiet; auto.
  - split; [auto|]. intros id. rewrite P, there_put, C. tauto.
  - split; [auto|]. intros id. rewrite P, there_del, C. tauto.
Qed.
Lemma content_run sched s x : run step init sched = Some (s, x) -> content x s.
Proof.
  intros H. refine (run_inv step init (fun _ x s => content x s) _ _ sched s x H).
  - split; [constructor|]. intros id. split; [intros []|]. intros (a & b & j & E & _). destruct a; discriminate.
  - intros sched' evs t l t' e _ C S. eapply content_step; eauto.
Qed.

(** ** The lock *)
Definition holds (c : pc) : bool := match c with Write _ _ | Writing _ _ | Unlock => true | _ => false end.
Record lock_ok (s : state) : Prop := {
  k_locked : forall j c, nth_error (calls s) j = Some c -> holds c = true -> locked s = true;
  k_one : forall j k c d, nth_error (calls s) j = Some c -> nth_error (calls s) k = Some d -> holds c = true -> holds d = true -> j = k;
  k_writing : writing s = true -> exists k put id, nth_error (calls s) k = Some (Writing put id) }.
Lemma nth_upd_other {A} (l : list A) i j x y : nth_error (upd l i x) j = Some y -> (i = j /\ y = x) \/ (i <> j /\ nth_error l j = Some y).
Proof.
  destruct (Nat.eq_dec i j) as [->|Ne].
  - intros H. left. split; [reflexivity|]. assert (L : j < length (upd l j x)) by (apply nth_error_Some; congruence). rewrite upd_length in L.
    rewrite nth_upd_eq in H by exact L. now injection H.
  - rewrite nth_upd_neq by exact Ne. auto.
Qed.
Lemma holds_note put id c : holds (note put id c) = holds c.
Proof. destruct c; reflexivity. Qed.
Lemma writing_note put id put' id' c : note put id c = Writing put' id' <-> c = Writing put' id'.
Proof. destruct c; cbn; split; congruence. Qed.
(** A call that goes from [c] to [c'] while the others are at most told of a write. *)
Lemma lock_move s j c c' f p lk wr dd : lock_ok s -> (f = (fun c => c) \/ exists put id, f = note put id) -> nth_error (calls s) j = Some c ->
  (holds c' = true -> lk = true /\ (holds c = true \/ locked s = false)) -> (lk = locked s \/ (lk = true /\ locked s = false) \/ (lk = false /\ holds c = true /\ holds c' = false)) ->
  (wr = true -> (exists put id, c' = Writing put id) \/ (writing s = true /\ forall put id, c <> Writing put id)) ->
  lock_ok (mkS p lk wr (upd (map f (calls s)) j c') dd).
Proof.
  intros I F E A B W.
  assert (FH : forall d, holds (f d) = holds d) by (destruct F as [->|(? & ? & ->)]; [reflexivity|apply holds_note]).
  assert (LB : forall k d, nth_error (calls s) k = Some d -> holds d = true -> k <> j -> lk = true).
  { intros k d K Hd Ne. destruct B as [->|[(-> & _)|(-> & Hc & _)]]; [exact (k_locked _ I _ _ K Hd)|reflexivity|].
    elim Ne. exact (k_one _ I _ _ _ _ K E Hd Hc). }
  assert (NT : forall k d, nth_error (upd (map f (calls s)) j c') k = Some d -> (k = j /\ d = c') \/ (k <> j /\ exists d0, nth_error (calls s) k = Some d0 /\ holds d0 = holds d)).
  { intros k d K. apply nth_upd_other in K as [(<- & ->)|(Ne & K)]; [auto|]. right. split; [congruence|].
    rewrite nth_error_map in K. destruct (nth_error (calls s) k) as [d0|]; [|discriminate]. injection K as <-. eauto. }
  constructor; cbn.
  - intros k d K Hd. apply NT in K as [(-> & ->)|(Ne & d0 & K & Hd0)]; [now apply A|]. rewrite <- Hd0 in Hd. eapply LB; eauto.
  - intros k1 k2 d1 d2 K1 K2 H1 H2. apply NT in K1 as [(-> & ->)|(Ne1 & e1 & K1 & He1)]; apply NT in K2 as [(-> & ->)|(Ne2 & e2 & K2 & He2)].
    + reflexivity.
    + rewrite <- He2 in H2. destruct (A H1) as [_ [Hc|L]]; [exact (k_one _ I _ _ _ _ E K2 Hc H2)|]. rewrite (k_locked _ I _ _ K2 H2) in L. discriminate.
    + rewrite <- He1 in H1. destruct (A H2) as [_ [Hc|L]]; [exact (k_one _ I _ _ _ _ K1 E H1 Hc)|]. rewrite (k_locked _ I _ _ K1 H1) in L. discriminate.
    + rewrite <- He1 in H1. rewrite <- He2 in H2. exact (k_one _ I _ _ _ _ K1 K2 H1 H2).
  - intros Hw. destruct (W Hw) as [(put & id & ->)|(W0 & Nw)].
    + exists j, put, id. rewrite nth_upd_eq; [reflexivity|]. rewrite map_length. apply nth_error_Some. congruence.
    + destruct (k_writing _ I W0) as (k & put & id & K). exists k, put, id.
      assert (k <> j) by (intros ->; rewrite E in K; injection K as ->; now elim (Nw put id)).
      rewrite nth_upd_neq, nth_error_map, K by congruence. cbn. f_equal. destruct F as [->|(? & ? & ->)]; reflexivity.
Qed.
Lemma lock_dead s p lk wr : lock_ok s -> locked s = lk -> writing s = wr -> lock_ok (mkS p lk wr (calls s) true).
Proof. intros [A B C] <- <-. constructor; auto. Qed.
Ltac lkm I E := rewrite <- (map_id (calls _)) at 1; eapply (lock_move _ _ _ _ (fun c => c)); [exact I|left; reflexivity|exact E|cbn|cbn; auto|cbn];
  [try (intros; discriminate); auto|try (intros; discriminate); try (let H := fresh in intros H; right; split; [exact H|discriminate]); try (intros; left; eauto; fail); auto].
Lemma lock_ok_step s l s' e : lock_ok s -> step s l = Some (s', e) -> lock_ok s'.
Proof.
  intros I. assert (ADD : forall c, holds c = false -> lock_ok (add_call s c)).
  { intros c Hc. assert (N : forall j d, nth_error (calls s ++ [c]) j = Some d -> holds d = true -> nth_error (calls s) j = Some d).
    { intros j d K Hd. destruct (Nat.lt_ge_cases j (length (calls s))) as [L|L]; [now rewrite nth_error_app1 in K by exact L|].
      rewrite nth_error_app2 in K by exact L. destruct (j - length (calls s)) as [|[|]]; cbn in K; try discriminate. congruence. }
    constructor; cbn.
    - intros j d K Hd. exact (k_locked _ I _ _ (N _ _ K Hd) Hd).
    - intros j k d1 d2 K1 K2 H1 H2. exact (k_one _ I _ _ _ _ (N _ _ K1 H1) (N _ _ K2 H2) H1 H2).
    - intros W. destruct (k_writing _ I W) as (k & put & id & K). exists k, put, id. rewrite nth_error_app1; [exact K|]. apply nth_error_Some. congruence. }
  unfold step, crash. destruct (dead s); [discriminate|]. destruct l as [id lim|id| |id|j ok|j id]; intros H.
  - injection H as <- _. now apply ADD.
  - injection H as <- _. now apply ADD.
  - injection H as <- _. now apply ADD.
  - destruct (locked s) eqn:L; [discriminate|]. destruct (writing s) eqn:W; injection H as <- _; [|exact I]. now apply lock_dead.
  - destruct (nth_error (calls s) j) as [c|] eqn:E; [|discriminate].
    unfold step_call, crash, goto in H. destruct c.
    all: try (destruct limited).
    all: repeat match type of H with (if ?b then _ else _) = _ => destruct b eqn:? | match ?b with _ => _ end = _ => destruct b end; try discriminate.
    all: injection H as <- _.
    all: try (apply lock_dead; [exact I|reflexivity || assumption|assumption]; fail).
    all: try (lkm I E; fail).
    + rewrite <- (map_id (calls s)) at 1. eapply (lock_move _ _ _ _ (fun c => c)); [exact I|left; reflexivity|exact E|cbn|auto|eauto].
      intros _. split; [exact (k_locked _ I _ _ E eq_refl)|auto].
    + assert (L : locked s = true) by exact (k_locked _ I _ _ E eq_refl).
      destruct put, (has id (present s)); cbn [andb]; [rewrite <- (map_id (calls s)) at 1|..];
        (eapply lock_move; [exact I|eauto|exact E|auto|auto|discriminate]).
  - destruct (nth_error (calls s) j) as [[]|] eqn:E; try discriminate; destruct (writing s) eqn:W.
    1,3: injection H as <- _; now apply lock_dead.
    all: destruct (take w id) eqn:T; try discriminate; injection H as <- _; unfold goto; rewrite W; lkm I E.
Qed.
Lemma lock_ok_run sched s x : run step init sched = Some (s, x) -> lock_ok s.
Proof.
  intros H. refine (run_inv step init (fun _ _ s => lock_ok s) _ _ sched s x H).
  - constructor; cbn; try discriminate; intros j c; destruct j; discriminate.
  - intros sched' evs t l t' e _ C S. eapply lock_ok_step; eauto.
Qed.

(** ** Calls *)
Definition origin (x : list event) (j : nat) (c : pc) : Prop :=
  match c with
  | RCheck id limited => In (VCall j (LRegister id limited)) x
  | RRange _ | RWalk _ _ => exists id, In (VCall j (LRegister id true)) x
  | RBuild _ => exists id limited, In (VCall j (LRegister id limited)) x
  | UFind _ | UExit _ => exists id, In (VCall j (LUnregister id)) x
  | Lock _ _ | Write _ _ | Writing _ _ | Unlock => (exists id limited, In (VCall j (LRegister id limited)) x) \/ exists id, In (VCall j (LUnregister id)) x
  | ARange | AWalk _ => In (VCall j LActors) x
  | Done => True
  end.
Record calls_ok (x : list event) (s : state) : Prop := {
  o_origin : forall j c, nth_error (calls s) j = Some c -> origin x j c;
  o_open : forall j c, nth_error (calls s) j = Some c -> c <> Done -> unfinished x j;
  o_new : forall j, length (calls s) <= j -> unfinished x j /\ forall l, ~ In (VCall j l) x }.
Lemma origin_app x e j c : origin x j c -> origin (x ++ e) j c.
Proof.
  assert (K : forall v, In v x -> In v (x ++ e)) by (intros; apply in_or_app; auto).
  destruct c; cbn; intros H; repeat match goal with H : exists _, _ |- _ => destruct H | H : _ \/ _ |- _ => destruct H end; eauto.
Qed.
Lemma unfinished_app x e j : unfinished (x ++ e) j <-> unfinished x j /\ unfinished e j.
Proof.
  unfold unfinished. setoid_rewrite in_app_iff. split.
  - intros (A & B & C). repeat split; try (intros H; tauto); intros ids H; apply (C ids); auto.
  - intros ((A & B & C) & A' & B' & C'). repeat split; try tauto. intros ids [H|H]; [exact (C ids H)|exact (C' ids H)].
Qed.
Lemma note_origin x j put id c : origin x j (note put id c) <-> origin x j c.
Proof. destruct c; reflexivity. Qed.
Lemma note_done put id c : note put id c <> Done <-> c <> Done.
Proof. destruct c; cbn; split; congruence. Qed.
Lemma nth_map_note put id cs j c : nth_error (map (note put id) cs) j = Some c -> exists c0, nth_error cs j = Some c0 /\ c = note put id c0.
Proof. rewrite nth_error_map. destruct (nth_error cs j); [|discriminate]. intros [= <-]. eauto. Qed.

(** A call moves on; the others may be told of a write. *)
Record moved (s s' : state) (e : list event) (j : nat) (c c' : pc) (f : pc -> pc) : Prop := {
  m_f : f = (fun c => c) \/ exists put id, f = note put id;
  m_calls : calls s' = upd (map f (calls s)) j c';
  m_origin : forall x, origin x j c -> origin x j c';
  m_call : forall k l, ~ In (VCall k l) e;
  m_crash : ~ In VCrash e;
  m_others : forall k, k <> j -> unfinished e k;
  m_open : c' <> Done -> unfinished e j;
  m_done : c <> Done;
  m_writing : writing s' = true -> (exists put id, c' = Writing put id) \/ (writing s = true /\ forall put id, c <> Writing put id) }.
Ltac un := let H := fresh in
  split; [intros H|split; [intros H|intros ? H]]; cbn in H;
  repeat match type of H with _ \/ _ => destruct H as [H|H] end; (contradiction || discriminate || congruence).
Ltac mvd :=
  constructor; [left; reflexivity|cbn; rewrite ?map_id; reflexivity|cbn; intros x O; repeat match type of O with exists _, _ => destruct O as [? O] end; eauto 6
   |let H := fresh in intros ? ? H; cbn in H; repeat match type of H with _ \/ _ => destruct H as [H|H] end; (contradiction || discriminate)
   |let H := fresh in intros H; cbn in H; repeat match type of H with _ \/ _ => destruct H as [H|H] end; (contradiction || discriminate)
   |intros k Ne; un|intros Nd; try congruence; un|discriminate|let H := fresh in cbn; intros H; first [left; eauto; fail|right; split; [exact H|discriminate]|discriminate|congruence]].
Lemma step_call_moves s j c ok s' e : step_call s j c ok = Some (s', e) ->
  (s' = mkS (present s) (locked s) (writing s) (calls s) true /\ e = [VCrash] /\ writing s = true /\ ((exists i w, c = RWalk i w) \/ (exists w, c = AWalk w) \/ locked s = false \/ exists put id, c = Write put id)) \/
  exists c' f, moved s s' e j c c' f.
Proof.
  unfold step_call, crash, goto. destruct c; intros H;
    repeat match type of H with (if ?b then _ else _) = _ => destruct b eqn:? | match ?b with _ => _ end = _ => destruct b end; try discriminate;
    injection H as <- <-;
    try (left; repeat split; eauto 6; fail); right.
  all: try (eexists _, (fun c => c); mvd; fail).
  - destruct limited; eexists _, (fun c => c); mvd.
  - destruct put, (has id (present s)); cbn [andb]; [exists Unlock, (fun c => c)|exists Unlock, (note true id)|exists Unlock, (note false id)..];
      (constructor; [eauto|cbn; rewrite ?map_id; reflexivity|cbn; auto|intros k l [|[]]; discriminate|intros [|[]]; discriminate|intros k Ne; un|intros _; un|discriminate|discriminate]).
Qed.
Lemma step_moves s l s' e : step s l = Some (s', e) ->
  (exists c l0, calls s' = calls s ++ [c] /\ e = [VCall (length (calls s)) l0] /\ writing s' = writing s /\
     (forall x, origin (x ++ e) (length (calls s)) c) /\ c <> Done /\ c <> Unlock) \/
  (exists id yes, s' = s /\ e = [VFound id yes]) \/
  (s' = mkS (present s) (locked s) (writing s) (calls s) true /\ e = [VCrash] /\ writing s = true /\
     (locked s = false \/ exists j, (exists i w, nth_error (calls s) j = Some (RWalk i w)) \/ (exists w, nth_error (calls s) j = Some (AWalk w)) \/ exists put id, nth_error (calls s) j = Some (Write put id))) \/
  (exists j c c' f, nth_error (calls s) j = Some c /\ moved s s' e j c c' f).
Proof.
  unfold step, crash. destruct (dead s); [discriminate|]. destruct l as [id lim|id| |id|j ok|j id]; intros H.
  - injection H as <- <-. left. eexists _, _. repeat split; try reflexivity; try discriminate. intros x. cbn. apply in_elt.
  - injection H as <- <-. left. eexists _, _. repeat split; try reflexivity; try discriminate. intros x. cbn. exists id. apply in_elt.
  - injection H as <- <-. left. eexists _, _. repeat split; try reflexivity; try discriminate. intros x. cbn. apply in_elt.
  - destruct (locked s) eqn:L; [discriminate|]. destruct (writing s) eqn:W; injection H as <- <-; right; [right; left; auto|left; eauto].
  - destruct (nth_error (calls s) j) as [c|] eqn:E; [|discriminate]. right. right.
    destruct (step_call_moves _ _ _ _ _ _ H) as [(-> & -> & W & K)|(c' & f & M)].
    + left. repeat split; auto. destruct K as [(i & w & ->)|[(w & ->)|[L|(put & id & ->)]]]; eauto 8.
    + right. eauto 7.
  - destruct (nth_error (calls s) j) as [[]|] eqn:E; try discriminate; destruct (writing s) eqn:W; right; right.
    1,3: injection H as <- <-; left; repeat split; auto; right; exists j; rewrite E; eauto.
    all: destruct (take w id); try discriminate; injection H as <- <-; right; eexists j, _, _, (fun c => c); split; [exact E|]; unfold goto; mvd.
Qed.
Lemma nth_moved s s' e j c c' f k d : nth_error (calls s) j = Some c -> moved s s' e j c c' f -> nth_error (calls s') k = Some d ->
  (k = j /\ d = c') \/ (k <> j /\ exists d0, nth_error (calls s) k = Some d0 /\ d = f d0).
Proof.
  intros E M H. rewrite (m_calls _ _ _ _ _ _ _ M) in H. destruct (Nat.eq_dec k j) as [->|Ne].
  - rewrite nth_upd_eq in H; [injection H; auto|]. rewrite map_length. apply nth_error_Some. congruence.
  - right. split; [exact Ne|]. rewrite nth_upd_neq in H by congruence. rewrite nth_error_map in H. destruct (nth_error (calls s) k); [|discriminate].
    injection H as <-. eauto.
Qed.
Lemma calls_ok_step x s l s' e : calls_ok x s -> step s l = Some (s', e) -> calls_ok (x ++ e) s'.
Proof.
  intros I H. destruct (step_moves _ _ _ _ H) as [(c & l0 & EC & -> & EW & Or & _)|[(id & yes & -> & ->)|[(-> & -> & W & _)|(j & c & c' & f & Ec & M)]]].
  - assert (UE : forall k, unfinished [VCall (length (calls s)) l0] k) by (intros k; un).
    constructor.
    + intros j d. rewrite EC. intros K. destruct (Nat.lt_ge_cases j (length (calls s))) as [L|L].
      * rewrite nth_error_app1 in K by exact L. apply origin_app. now apply (o_origin _ _ I).
      * assert (j = length (calls s)) as ->.
        { assert (j < length (calls s ++ [c])) by (apply nth_error_Some; congruence). rewrite app_length in *. cbn in *. lia. }
        rewrite nth_error_app2, Nat.sub_diag in K by lia. injection K as <-. apply Or.
    + intros j d. rewrite EC. intros K Nd. apply unfinished_app. split; [|apply UE]. destruct (Nat.lt_ge_cases j (length (calls s))) as [L|L].
      * rewrite nth_error_app1 in K by exact L. eapply (o_open _ _ I); eauto.
      * now apply (o_new _ _ I).
    + intros j. rewrite EC, app_length. cbn. intros L. split; [apply unfinished_app; split; [apply (o_new _ _ I); lia|apply UE]|].
      intros l1 K. apply in_app_or in K as [K|[K|[]]]; [eapply (o_new _ _ I); [|exact K]; lia|]. injection K as K _. lia.
  - assert (UE : forall k, unfinished [VFound id yes] k) by (intros k; un).
    constructor.
    + intros j d K. apply origin_app. now apply (o_origin _ _ I).
    + intros j d K Nd. apply unfinished_app. split; [eapply (o_open _ _ I); eauto|apply UE].
    + intros j L. split; [apply unfinished_app; split; [now apply (o_new _ _ I)|apply UE]|].
      intros l1 K. apply in_app_or in K as [K|[K|[]]]; [|discriminate]. eapply (o_new _ _ I); eauto.
  - assert (UE : forall k, unfinished [VCrash] k) by (intros k; un).
    constructor; cbn.
    + intros j d K. apply origin_app. now apply (o_origin _ _ I).
    + intros j d K Nd. apply unfinished_app. split; [eapply (o_open _ _ I); eauto|apply UE].
    + intros j L. split; [apply unfinished_app; split; [now apply (o_new _ _ I)|apply UE]|].
      intros l1 K. apply in_app_or in K as [K|[K|[]]]; [|discriminate]. eapply (o_new _ _ I); eauto.
  - assert (F : forall k d, origin x k (f d) <-> origin x k d).
    { intros k d. destruct (m_f _ _ _ _ _ _ _ M) as [->|(put & id & ->)]; [reflexivity|apply note_origin]. }
    assert (FD : forall d, f d <> Done <-> d <> Done).
    { intros d. destruct (m_f _ _ _ _ _ _ _ M) as [->|(put & id & ->)]; [reflexivity|apply note_done]. }
    constructor.
    + intros k d K. apply origin_app. destruct (nth_moved _ _ _ _ _ _ _ _ _ Ec M K) as [(-> & ->)|(Ne & d0 & K0 & ->)].
      * apply (m_origin _ _ _ _ _ _ _ M). now apply (o_origin _ _ I).
      * apply F. now apply (o_origin _ _ I).
    + intros k d K Nd. apply unfinished_app. destruct (nth_moved _ _ _ _ _ _ _ _ _ Ec M K) as [(-> & ->)|(Ne & d0 & K0 & ->)].
      * split; [eapply (o_open _ _ I); [exact Ec|exact (m_done _ _ _ _ _ _ _ M)]|exact (m_open _ _ _ _ _ _ _ M Nd)].
      * split; [eapply (o_open _ _ I); [exact K0|now apply FD]|exact (m_others _ _ _ _ _ _ _ M k Ne)].
    + intros k. rewrite (m_calls _ _ _ _ _ _ _ M), upd_length, map_length. intros L.
      assert (k <> j). { assert (j < length (calls s)) by (apply nth_error_Some; congruence). lia. }
      split; [apply unfinished_app; split; [now apply (o_new _ _ I)|now apply (m_others _ _ _ _ _ _ _ M)]|].
      intros l1 K. apply in_app_or in K as [K|K]; [eapply (o_new _ _ I); eauto|exact (m_call _ _ _ _ _ _ _ M _ _ K)].
Qed.
Lemma calls_ok_run sched s x : run step init sched = Some (s, x) -> calls_ok x s.
Proof.
  intros H. refine (run_inv step init (fun _ x s => calls_ok x s) _ _ sched s x H).
  - constructor; cbn.
    + intros j c K. destruct j; discriminate.
    + intros j c K. destruct j; discriminate.
    + intros j _. split; [un|intros l []].
  - intros sched' evs t l t' e _ C S. eapply calls_ok_step; eauto.
Qed.
Lemma crash_cause sched s evs x z : run step init sched = Some (s, evs) -> evs = x ++ VCrash :: z ->
  exists j k, j <> k /\ walker x j /\ writer x k.
Proof.
  intros H E. destruct (run_split _ _ _ _ _ _ _ _ H E) as (a & l & c & t & t' & e1 & p & q & e2 & _ & R & S & _ & -> & _).
  pose proof (calls_ok_run _ _ _ R) as I. pose proof (lock_ok_run _ _ _ R) as LK.
  destruct (step_moves _ _ _ _ S) as [(c0 & l0 & _ & E0 & _)|[(id & yes & _ & E0)|[(_ & E0 & W & J)|(j & c0 & c' & f & Ec & M)]]].
  - destruct p as [|? [|]]; discriminate.
  - destruct p as [|? [|]]; discriminate.
  - destruct p as [|? [|]]; try discriminate. rewrite app_nil_r. destruct (k_writing _ LK W) as (k & put & id & K).
    pose proof (k_locked _ LK _ _ K eq_refl) as L.
    destruct J as [L'|(j & J)]; [congruence|].
    assert (J' : (exists i w, nth_error (calls t) j = Some (RWalk i w)) \/ exists w, nth_error (calls t) j = Some (AWalk w)).
    { destruct J as [J|[J|(put' & id' & J)]]; auto. pose proof (k_one _ LK _ _ _ _ J K eq_refl eq_refl) as ->. congruence. }
    clear J. rename J' into J. exists j, k. split; [|split].
    + intros ->. rewrite K in J. destruct J as [(? & ? & ?)|(? & ?)]; discriminate.
    + destruct J as [(i & w & J)|(w & J)]; (split; [eapply (o_open _ _ I); [exact J|discriminate]|]).
      * right. exact (o_origin _ _ I _ _ J).
      * left. exact (o_origin _ _ I _ _ J).
    + split; [eapply (o_open _ _ I); [exact K|discriminate]|]. exact (o_origin _ _ I _ _ K).
  - elim (m_crash _ _ _ _ _ _ _ M). apply in_elt.
Qed.

(** ** The loop of Actors *)
Inductive wstep (s s' : state) (e : list event) (j : nat) (w' : walk) : Prop :=
| ws_begin : nth_error (calls s) j = Some ARange -> e = [] -> present s' = present s -> w' = begin_walk s -> wstep s s' e j w'
| ws_take w id : nth_error (calls s) j = Some (AWalk w) -> e = [] -> present s' = present s -> take w id = Some w' -> wstep s s' e j w'
| ws_still : nth_error (calls s) j = Some (AWalk w') -> quiet e -> present s' = present s -> wstep s s' e j w'
| ws_again k id : nth_error (calls s) j = Some (AWalk w') -> e = [VPut k id] -> In id (present s) -> present s' = present s -> wstep s s' e j w'
| ws_put w k id : nth_error (calls s) j = Some (AWalk w) -> e = [VPut k id] -> ~ In id (present s) -> present s' = id :: present s -> w' = note_walk true id w -> wstep s s' e j w'
| ws_del w k id : nth_error (calls s) j = Some (AWalk w) -> e = [VDel k id] -> present s' = drop id (present s) -> w' = note_walk false id w -> wstep s s' e j w'.
Lemma walk_step s l s' e j w' : step s l = Some (s', e) -> nth_error (calls s') j = Some (AWalk w') -> wstep s s' e j w'.
Proof.
  assert (ADD : forall c, c <> AWalk w' -> nth_error (calls s ++ [c]) j = Some (AWalk w') -> nth_error (calls s) j = Some (AWalk w')).
  { intros c Nc K. destruct (Nat.lt_ge_cases j (length (calls s))) as [L|L]; [now rewrite nth_error_app1 in K by exact L|].
    rewrite nth_error_app2 in K by exact L. destruct (j - length (calls s)) as [|[|]]; cbn in K; try discriminate. congruence. }
  unfold step, crash. destruct (dead s); [discriminate|]. destruct l as [id lim|id| |id|i ok|i id]; intros H K.
  - injection H as <- <-. apply ws_still; [eapply ADD; [|exact K]; discriminate|qt|reflexivity].
  - injection H as <- <-. apply ws_still; [eapply ADD; [|exact K]; discriminate|qt|reflexivity].
  - injection H as <- <-. apply ws_still; [eapply ADD; [|exact K]; discriminate|qt|reflexivity].
  - destruct (locked s); [discriminate|]. destruct (writing s); injection H as <- <-; (apply ws_still; [exact K|qt|reflexivity]).
  - destruct (nth_error (calls s) i) as [c|] eqn:E; [|discriminate]. unfold step_call, crash, goto in H. destruct c;
      repeat match type of H with (if ?b then _ else _) = _ => destruct b eqn:? | match ?b with _ => _ end = _ => destruct b end; try discriminate;
      injection H as <- <-; cbn [calls] in K;
      try (apply ws_still; [exact K|qt|reflexivity]);
      try (apply nth_upd_other in K as [(-> & K)|(Ne & K)]; [first [destruct limited; discriminate|discriminate]|]; apply ws_still; [exact K|qt|reflexivity]).
    + apply nth_upd_other in K as [(-> & K)|(Ne & K)]; [discriminate|]. destruct put.
      * destruct (has id (present s)) eqn:Eh; cbn [andb] in K.
        -- eapply ws_again; [exact K|reflexivity|now apply has_in|reflexivity].
        -- apply nth_map_note in K as (c0 & K & Ec). destruct c0; try discriminate. injection Ec as ->.
           eapply ws_put; [exact K|reflexivity|now apply has_out|reflexivity|reflexivity].
      * cbn [andb] in K. apply nth_map_note in K as (c0 & K & Ec). destruct c0; try discriminate. injection Ec as ->.
        eapply ws_del; [exact K|reflexivity|reflexivity|reflexivity].
    + apply nth_upd_other in K as [(-> & K)|(Ne & K)].
      * injection K as ->. apply ws_begin; auto.
      * apply ws_still; [exact K|qt|reflexivity].
  - destruct (nth_error (calls s) i) as [[]|] eqn:E; try discriminate; destruct (writing s).
    1,3: injection H as <- <-; apply ws_still; [exact K|qt|reflexivity].
    all: destruct (take w id) eqn:T; try discriminate; injection H as <- <-; cbn [goto calls] in K; apply nth_upd_other in K as [(-> & K)|(Ne & K)].
    + discriminate.
    + apply ws_still; [exact K|qt|reflexivity].
    + injection K as ->. eapply ws_take; eauto.
    + apply ws_still; [exact K|qt|reflexivity].
Qed.

Record walk_ok (x y : list event) (j : nat) (s : state) (w : walk) : Prop := {
  w_all : forall id, there x id -> (forall k, ~ In (VDel k id) y) -> In id (todo w) \/ In id (taken w);
  w_now : forall id, In id (todo w) \/ In id (late w) -> In id (present s);
  w_only : forall id, In id (taken w) -> exists y1 y2, y = y1 ++ y2 /\ there (x ++ VCall j LActors :: y1) id;
  w_once : (forall k id, ~ In (VPut k id) y) -> late w = [] /\ NoDup (taken w ++ todo w) }.
Definition walks_ok (evs : list event) (s : state) : Prop :=
  forall x y j w, evs = x ++ VCall j LActors :: y -> nth_error (calls s) j = Some (AWalk w) -> walk_ok x y j s w.
Lemma take_spec w id w' : take w id = Some w' -> w' = mkW (drop id (todo w)) (drop id (late w)) (id :: taken w) /\ (In id (todo w) \/ In id (late w)).
Proof.
  unfold take. destruct (has id (todo w)) eqn:A; cbn; [|destruct (has id (late w)) eqn:B; [|discriminate]]; intros [= <-]; (split; [reflexivity|]).
  - left. now apply has_in.
  - right. now apply has_in.
Qed.
Lemma nodup_take id l t : NoDup (t ++ l) -> In id l -> NoDup ((id :: t) ++ drop id l).
Proof.
  intros N I. cbn. constructor.
  - intros K. apply in_app_or in K as [K|K]; [|apply in_drop in K; tauto].
    revert N. induction t as [|u t IH]; [contradiction|]. cbn. intros N. inversion N as [|? ? N1 N2]; subst. destruct K as [->|K]; [|now apply IH].
    apply N1. apply in_or_app. auto.
  - clear I. induction t as [|u t IH]; cbn in *; [now apply nodup_drop|]. inversion N as [|? ? N1 N2]; subst. constructor; [|now apply IH].
    intros K. apply N1. apply in_app_or in K as [K|K]; apply in_or_app; [auto|right; apply in_drop in K; tauto].
Qed.
Lemma nodup_del id l t : NoDup (t ++ l) -> NoDup (t ++ drop id l).
Proof.
  induction t as [|u t IH]; cbn; intros N; [now apply nodup_drop|]. inversion N as [|? ? N1 N2]; subst. constructor; [|now apply IH].
  intros K. apply N1. apply in_app_or in K as [K|K]; apply in_or_app; [auto|right; apply in_drop in K; tauto].
Qed.
Lemma walks_ok_step evs s l s' e : content evs s -> calls_ok evs s -> walks_ok evs s -> step s l = Some (s', e) -> walks_ok (evs ++ e) s'.
Proof.
  intros [CN CI] CO I H x y j w' E K. pose proof (walk_step _ _ _ _ _ _ H K) as WS.
  assert (LT : j < length (calls s)).
  { apply nth_error_Some. destruct WS; congruence. }
  assert (Y : exists y0, evs = x ++ VCall j LActors :: y0 /\ y = y0 ++ e).
  { apply app_split in E as [(b1 & -> & ->)|(d1 & -> & ->)]; [|exists d1; auto].
    exfalso. destruct (step_moves _ _ _ _ H) as [(c0 & l0 & _ & E0 & _)|[(id & yes & _ & E0)|[(_ & E0 & _)|(i & c0 & c' & f & Ec & M)]]].
    - destruct b1 as [|? [|]]; try discriminate. cbn in E0. injection E0 as -> _ _. lia.
    - destruct b1 as [|? [|]]; discriminate.
    - destruct b1 as [|? [|]]; discriminate.
    - apply (m_call _ _ _ _ _ _ _ M j LActors). apply in_elt. }
  destruct Y as (y0 & -> & ->). clear E.
  assert (ONLY : forall w0 e0 id, walk_ok x y0 j s w0 -> In id (taken w0) -> exists y1 y2, y0 ++ e0 = y1 ++ y2 /\ there (x ++ VCall j LActors :: y1) id).
  { intros w0 e0 id W T. destruct (w_only _ _ _ _ _ W id T) as (y1 & y2 & -> & Th). exists y1, (y2 ++ e0). now rewrite app_assoc. }
  assert (PRE : forall e0 id, (forall k, ~ In (VDel k id) (y0 ++ e0)) -> forall k, ~ In (VDel k id) y0).
  { intros e0 id D k D1. apply (D k). apply in_or_app. auto. }
  assert (PRP : forall e0, (forall k id, ~ In (VPut k id) (y0 ++ e0)) -> forall k id, ~ In (VPut k id) y0).
  { intros e0 D k id D1. apply (D k id). apply in_or_app. auto. }
  destruct WS as [K0 -> P ->|w id K0 -> P T|K0 Q P|k id K0 -> In0 P|w k id K0 -> In0 P ->|w k id K0 -> P ->].
  - constructor; cbn.
    + intros id Th D. left. apply CI. apply there_keeps; [exact Th|]. intros k [|D1]; [discriminate|]. apply (D k). rewrite app_nil_r. exact D1.
    + intros id [D|[]]. now rewrite P.
    + intros id [].
    + auto.
  - pose proof (I x y0 j w eq_refl K0) as W. apply take_spec in T as [-> T]. constructor; cbn.
    + intros i Th D. destruct (w_all _ _ _ _ _ W i Th (PRE _ _ D)) as [A|A]; [|auto].
      destruct (Nat.eq_dec i id) as [->|Ne]; [auto|]. left. apply in_drop. auto.
    + intros i D. rewrite P. apply (w_now _ _ _ _ _ W). rewrite !in_drop in D. tauto.
    + intros i [<-|D]; [|eapply ONLY; eauto]. exists y0, []. rewrite app_nil_r. split; [reflexivity|]. apply CI. now apply (w_now _ _ _ _ _ W).
    + intros D. destruct (w_once _ _ _ _ _ W (PRP _ D)) as [L N]. rewrite L in T |- *. split; [reflexivity|]. apply (nodup_take id _ _ N). destruct T as [T|[]]. exact T.
  - pose proof (I x y0 j w' eq_refl K0) as W. constructor.
    + intros i Th D. exact (w_all _ _ _ _ _ W i Th (PRE _ _ D)).
    + intros i D. rewrite P. now apply (w_now _ _ _ _ _ W).
    + intros i D. eapply ONLY; eauto.
    + intros D. exact (w_once _ _ _ _ _ W (PRP _ D)).
  - pose proof (I x y0 j w' eq_refl K0) as W. constructor.
    + intros i Th D. exact (w_all _ _ _ _ _ W i Th (PRE _ _ D)).
    + intros i D. rewrite P. now apply (w_now _ _ _ _ _ W).
    + intros i D. eapply ONLY; eauto.
    + intros D. exact (w_once _ _ _ _ _ W (PRP _ D)).
  - pose proof (I x y0 j w eq_refl K0) as W. constructor; cbn.
    + intros i Th D. exact (w_all _ _ _ _ _ W i Th (PRE _ _ D)).
    + intros i D. rewrite P. destruct D as [D|[<-|D]]; [right|now left|right]; apply (w_now _ _ _ _ _ W); auto.
    + intros i D. eapply ONLY; eauto.
    + intros D. elim (D k id). apply in_or_app. right. now left.
  - pose proof (I x y0 j w eq_refl K0) as W. constructor; cbn.
    + intros i Th D. destruct (w_all _ _ _ _ _ W i Th (PRE _ _ D)) as [A|A]; [|auto].
      left. apply in_drop. split; [exact A|]. intros ->. apply (D k). apply in_or_app. right. now left.
    + intros i D. rewrite P. rewrite !in_drop in D. apply in_drop. split; [apply (w_now _ _ _ _ _ W)|]; tauto.
    + intros i D. eapply ONLY; eauto.
    + intros D. destruct (w_once _ _ _ _ _ W (PRP _ D)) as [L N]. rewrite L. split; [reflexivity|]. now apply nodup_del.
Qed.
Lemma walks_ok_run sched s x : run step init sched = Some (s, x) -> walks_ok x s.
Proof.
  revert s x. induction sched as [|l sched IH] using rev_ind; intros s x H.
  - injection H as <- <-. intros a b j w _ K. destruct j; discriminate.
  - apply run_app_inv in H as (t & e1 & e2 & H1 & H2 & ->). apply run_one_inv in H2.
    eapply walks_ok_step; [eapply content_run; eauto|eapply calls_ok_run; eauto|eapply IH; eauto|exact H2].
Qed.
(** What a return of Actors is. *)
Lemma step_actors s l s' p j ids q : step s l = Some (s', p ++ VActors j ids :: q) ->
  p = [] /\ q = [] /\ exists w, nth_error (calls s) j = Some (AWalk w) /\ todo w = [] /\ ids = rev (taken w).
Proof.
  unfold step, crash. destruct (dead s); [discriminate|]. destruct l as [id lim|id| |id|i ok|i id]; intros H;
    try (injection H as _ H; destruct p as [|? [|]]; discriminate).
  - destruct (locked s); [discriminate|]. destruct (writing s); injection H as _ H; destruct p as [|? [|]]; discriminate.
  - destruct (nth_error (calls s) i) as [c|] eqn:E; [|discriminate]. unfold step_call, crash, goto in H. destruct c;
      repeat match type of H with (if ?b then _ else _) = _ => destruct b eqn:? | match ?b with _ => _ end = _ => destruct b eqn:? end; try discriminate;
      try (injection H as _ H; destruct p as [|? [|]]; discriminate).
    + injection H as _ H. destruct put, p as [|? [|]]; discriminate.
    + injection H as _ H. destruct p as [|? [|]]; try discriminate. injection H as <- <- <-. eauto 8.
  - destruct (nth_error (calls s) i) as [[]|] eqn:E; try discriminate; destruct (writing s).
    1,3: injection H as _ H; destruct p as [|? [|]]; discriminate.
    all: destruct (take w id) eqn:T; try discriminate; injection H as _ H; destruct p as [|? [|]]; discriminate.
Qed.
Lemma actors_ok sched s evs x j y ids z : run step init sched = Some (s, evs) -> evs = x ++ VCall j LActors :: y ++ VActors j ids :: z ->
  exists t w, walk_ok x y j t w /\ todo w = [] /\ ids = rev (taken w).
Proof.
  intros H E. change (VCall j LActors :: y ++ VActors j ids :: z) with ((VCall j LActors :: y) ++ VActors j ids :: z) in E. rewrite app_assoc in E.
  destruct (run_split _ _ _ _ _ _ _ _ H E) as (a & l & c & t & t' & e1 & p & q & e2 & _ & R & S & _ & E1 & _).
  destruct (step_actors _ _ _ _ _ _ _ S) as (-> & -> & w & K & T & ->). rewrite app_nil_r in E1. subst e1.
  exists t, w. split; [|auto]. exact (walks_ok_run _ _ _ R x y j w eq_refl K).
Qed.

(** ** What a call was asked to do *)
Definition job (x : list event) (j : nat) (c : pc) : Prop :=
  match c with
  | RCheck id _ | RRange id | RWalk id _ | RBuild id | Lock true id | Write true id | Writing true id => exists lim, In (VCall j (LRegister id lim)) x
  | UFind id | UExit id | Lock false id | Write false id | Writing false id => In (VCall j (LUnregister id)) x
  | Unlock => (exists id lim, In (VCall j (LRegister id lim)) x /\ In (VPut j id) x) \/ exists id, In (VCall j (LUnregister id)) x
  | ARange | AWalk _ | Done => True
  end.
Definition ended (x : list event) (j : nat) : Prop := job x j Unlock.
Lemma job_app x e j c : job x j c -> job (x ++ e) j c.
Proof.
  assert (K : forall v, In v x -> In v (x ++ e)) by (intros; apply in_or_app; auto).
  destruct c; cbn; intros H; repeat match goal with b : bool |- _ => destruct b end;
    repeat match goal with H : exists _, _ |- _ => destruct H | H : _ \/ _ |- _ => destruct H | H : _ /\ _ |- _ => destruct H end; eauto 7.
Qed.
Lemma job_note x j put id c : job x j (note put id c) <-> job x j c.
Proof. destruct c; reflexivity. Qed.
Definition works (x : list event) (s s' : state) (e : list event) (j : nat) (c c' : pc) (f : pc -> pc) : Prop :=
  (f = (fun c => c) \/ exists put id, f = note put id) /\ calls s' = upd (map f (calls s)) j c' /\
  (job x j c -> job (x ++ e) j c' /\ (forall k, In (VDone k) e -> k = j /\ ended (x ++ e) j) /\ forall k id, In (VDel k id) e -> In (VCall k (LUnregister id)) x) /\
  forall k l, ~ In (VCall k l) e.
Ltac nocall := let H := fresh in intros ? ? H; cbn in H; repeat match type of H with _ \/ _ => destruct H as [H|H] end; (contradiction || discriminate).
Lemma step_call_works x s j c ok s' e : step_call s j c ok = Some (s', e) -> (calls s' = calls s /\ e = [VCrash]) \/ exists c' f, works x s s' e j c c' f.
Proof.
  unfold step_call, crash, goto. destruct c; intros H;
    repeat match type of H with (if ?b then _ else _) = _ => destruct b eqn:? | match ?b with _ => _ end = _ => destruct b end; try discriminate;
    injection H as <- <-; try (left; split; reflexivity); right.
  all: try (eexists _, (fun c => c); split; [left; reflexivity|]; split; [cbn; rewrite ?map_id; reflexivity|]; split; [|nocall]; cbn; rewrite ?app_nil_r;
    intros J; split; [eauto|]; split; [|nocall]; intros k [|[]] || intros k []; discriminate).
  - destruct limited; eexists _, (fun c => c); (split; [left; reflexivity|]); (split; [cbn; rewrite ?map_id; reflexivity|]); (split; [|nocall]); cbn; rewrite ?app_nil_r;
    (intros J; split; [eauto|]; split; [|nocall]; intros k []).
  - eexists _, (fun c => c); (split; [left; reflexivity|]); (split; [cbn; rewrite ?map_id; reflexivity|]); (split; [|nocall]). cbn. intros J. split; [exact I|].
    split; [|nocall]. intros k [[= <-]|[]]. split; [reflexivity|]. right. exists id. apply in_or_app. auto.
  - destruct put, (has id (present s)); cbn [andb]; [exists Unlock, (fun c => c)|exists Unlock, (note true id)|exists Unlock, (note false id)..];
      (split; [eauto|]); (split; [cbn; rewrite ?map_id; reflexivity|]); (split; [|nocall]); cbn; intros J;
      (split; [|split; [intros k [|[]]; discriminate|]]).
    1,3: left; destruct J as (lim & J); exists id, lim; split; [apply in_or_app; auto|apply in_elt].
    1,2: intros k i [|[]]; discriminate.
    1,3: right; exists id; apply in_or_app; auto.
    all: intros k i [[= <- <-]|[]]; exact J.
  - eexists _, (fun c => c); (split; [left; reflexivity|]); (split; [cbn; rewrite ?map_id; reflexivity|]); (split; [|nocall]). cbn [job]. intros J. split; [exact I|].
    split; [|nocall]. intros k [[= <-]|[]]. split; [reflexivity|]. apply (job_app x [VDone j] j Unlock). exact J.
Qed.
Record jobs_ok (x : list event) (s : state) : Prop := {
  b_job : forall j c, nth_error (calls s) j = Some c -> job x j c;
  b_done : forall j, In (VDone j) x -> ended x j;
  b_del : forall k id, In (VDel k id) x -> In (VCall k (LUnregister id)) x;
  b_call : forall j l, In (VCall j l) x -> j < length (calls s);
  b_one : forall j l l', In (VCall j l) x -> In (VCall j l') x -> l = l' }.
Lemma jobs_ok_quiet x s s' e : jobs_ok x s -> calls s' = calls s -> (forall v, In v e -> match v with VCall _ _ | VDone _ | VDel _ _ => False | _ => True end) -> jobs_ok (x ++ e) s'.
Proof.
  intros B EC Q. constructor; rewrite ?EC.
  - intros j c K. apply job_app. now apply (b_job _ _ B).
  - intros j K. apply in_app_or in K as [K|K]; [apply (job_app x e j Unlock); now apply (b_done _ _ B)|now apply Q in K].
  - intros k id K. apply in_app_or in K as [K|K]; [apply in_or_app; left; now apply (b_del _ _ B)|now apply Q in K].
  - intros j l K. apply in_app_or in K as [K|K]; [now apply (b_call _ _ B) in K|now apply Q in K].
  - intros j l l' K K'. apply in_app_or in K as [K|K]; [|now apply Q in K]. apply in_app_or in K' as [K'|K']; [|now apply Q in K']. eapply (b_one _ _ B); eauto.
Qed.
Lemma jobs_ok_step x s l s' e : jobs_ok x s -> step s l = Some (s', e) -> jobs_ok (x ++ e) s'.
Proof.
  intros B. assert (ADD : forall c l0 s1, calls s1 = calls s ++ [c] -> job (x ++ [VCall (length (calls s)) l0]) (length (calls s)) c -> jobs_ok (x ++ [VCall (length (calls s)) l0]) s1).
  { intros c l0 s1 EC J. constructor; rewrite ?EC.
    - intros j d K. destruct (Nat.lt_ge_cases j (length (calls s))) as [L|L].
      + rewrite nth_error_app1 in K by exact L. apply job_app. now apply (b_job _ _ B).
      + rewrite nth_error_app2 in K by exact L. destruct (j - length (calls s)) as [|[|]] eqn:D; try discriminate. injection K as <-. assert (j = length (calls s)) as -> by lia. exact J.
    - intros j K. apply in_app_or in K as [K|[|[]]]; [|discriminate]. apply (job_app x _ j Unlock). now apply (b_done _ _ B).
    - intros k id K. apply in_app_or in K as [K|[|[]]]; [|discriminate]. apply in_or_app. left. now apply (b_del _ _ B).
    - intros j l1 K. rewrite app_length. cbn. apply in_app_or in K as [K|[[= <- _]|[]]]; [apply (b_call _ _ B) in K|]; lia.
    - intros j l1 l2 K K'. apply in_app_or in K as [K|[[= <- <-]|[]]]; apply in_app_or in K' as [K'|[K'|[]]].
      + eapply (b_one _ _ B); eauto.
      + injection K' as <- _. apply (b_call _ _ B) in K. lia.
      + apply (b_call _ _ B) in K'. lia.
      + congruence. }
  assert (WK : forall j c c' f, nth_error (calls s) j = Some c -> works x s s' e j c c' f -> jobs_ok (x ++ e) s').
  { intros j c c' f E (F & EC & J & NC). specialize (J (b_job _ _ B _ _ E)) as (J1 & J2 & J3). constructor.
    - intros k d K. rewrite EC in K. apply nth_upd_other in K as [(<- & ->)|(Ne & K)]; [exact J1|].
      rewrite nth_error_map in K. destruct (nth_error (calls s) k) eqn:K0; [|discriminate]. injection K as <-.
      apply job_app. apply (b_job _ _ B) in K0. destruct F as [->|(put & id & ->)]; [exact K0|now apply job_note].
    - intros k K. apply in_app_or in K as [K|K]; [apply (job_app x e k Unlock); now apply (b_done _ _ B)|]. apply J2 in K as [-> K]. exact K.
    - intros k id K. apply in_or_app. left. apply in_app_or in K as [K|K]; [now apply (b_del _ _ B)|now apply J3].
    - intros k l1 K. rewrite EC, upd_length, map_length. apply in_app_or in K as [K|K]; [now apply (b_call _ _ B) in K|now apply NC in K].
    - intros k l1 l2 K K'. apply in_app_or in K as [K|K]; [|now apply NC in K]. apply in_app_or in K' as [K'|K']; [|now apply NC in K']. eapply (b_one _ _ B); eauto. }
  unfold step, crash. destruct (dead s); [discriminate|]. destruct l as [id lim|id| |id|j ok|j id]; intros H.
  - injection H as <- <-. eapply ADD; [reflexivity|]. cbn. exists lim. apply in_elt.
  - injection H as <- <-. eapply ADD; [reflexivity|]. cbn. apply in_elt.
  - injection H as <- <-. eapply ADD; [reflexivity|]. exact I.
  - destruct (locked s); [discriminate|]. destruct (writing s); injection H as <- <-; (eapply jobs_ok_quiet; [exact B|reflexivity|]; intros v [<-|[]]; exact I).
  - destruct (nth_error (calls s) j) as [c|] eqn:E; [|discriminate]. destruct (step_call_works x _ _ _ _ _ _ H) as [(EC & ->)|(c' & f & W)].
    + eapply jobs_ok_quiet; [exact B|exact EC|]. intros v [<-|[]]. exact I.
    + eapply WK; eauto.
  - destruct (nth_error (calls s) j) as [[]|] eqn:E; try discriminate; destruct (writing s).
    1,3: injection H as <- <-; eapply jobs_ok_quiet; [exact B|reflexivity|]; intros v [<-|[]]; exact I.
    all: destruct (take w id) eqn:T; try discriminate; injection H as <- <-; eapply (WK j _ _ (fun c => c) E);
      (split; [left; reflexivity|]); (split; [cbn; rewrite map_id; reflexivity|]); (split; [|nocall]); cbn; rewrite app_nil_r; intros J; (split; [exact J|]); (split; [intros k []|nocall]).
Qed.
Lemma jobs_ok_run sched s x : run step init sched = Some (s, x) -> jobs_ok x s.
Proof.
  intros H. refine (run_inv step init (fun _ x s => jobs_ok x s) _ _ sched s x H).
  - constructor; cbn; try contradiction. intros j c K. destruct j; discriminate.
  - intros sched' evs t l t' e _ C S. eapply jobs_ok_step; eauto.
Qed.
(** An actor whose Register has returned without an error and whom nobody unregisters is there. *)
Lemma registered_there sched s evs j id lim : run step init sched = Some (s, evs) -> In (VCall j (LRegister id lim)) evs -> In (VDone j) evs ->
  (forall k, ~ In (VCall k (LUnregister id)) evs) -> there evs id.
Proof.
  intros H C D N. pose proof (jobs_ok_run _ _ _ H) as B. destruct (b_done _ _ B _ D) as [(i & l & C' & P)|(i & C')].
  - pose proof (b_one _ _ B _ _ _ C C') as [= <- _]. apply in_split in P as (a & b & ->). exists a, b, j. split; [reflexivity|].
    intros k K. apply (N k). apply (b_del _ _ B). apply in_or_app. right. now right.
  - pose proof (b_one _ _ B _ _ _ C C'). discriminate.
Qed.
Lemma run_prefix sched s evs x v z : run step init sched = Some (s, evs) -> evs = x ++ v :: z -> exists a t, run step init a = Some (t, x).
Proof.
  intros H E. destruct (run_split _ _ _ _ _ _ _ _ H E) as (a & l & c & t & t' & e1 & p & q & e2 & _ & R & S & _ & -> & _).
  assert (p = []) as ->.
  { assert (L : length (p ++ v :: q) <= 1).
    { destruct (step_moves _ _ _ _ S) as [(c0 & l0 & _ & -> & _)|[(id & yes & _ & ->)|[(_ & -> & _)|_]]]; cbn; auto.
      clear - S. unfold step, step_call, crash in S. destruct (dead t); [discriminate|].
      destruct l; try (injection S as _ <-; cbn; auto; fail).
      - destruct (locked t); [discriminate|]. destruct (writing t); injection S as _ <-; cbn; auto.
      - destruct (nth_error (calls t) j) as [[]|]; try discriminate;
          repeat match type of S with (if ?b then _ else _) = _ => destruct b | match ?b with _ => _ end = _ => destruct b end; try discriminate;
          injection S as _ <-; cbn; auto.
      - destruct (nth_error (calls t) j) as [[]|]; try discriminate; destruct (writing t); try (injection S as _ <-; cbn; auto; fail);
          destruct (take w id); try discriminate; injection S as _ <-; cbn; auto. }
    rewrite app_length in L. cbn in L. destruct p; [reflexivity|cbn in L; lia]. }
  rewrite app_nil_r. eauto.
Qed.
Lemma actors_prefix sched s evs x j y ids z : run step init sched = Some (s, evs) -> evs = x ++ VCall j LActors :: y ++ VActors j ids :: z ->
  exists a t, run step init a = Some (t, x ++ VCall j LActors :: y).
Proof.
  intros H E. apply (run_prefix sched s evs _ (VActors j ids) z H). rewrite E, <- app_assoc. reflexivity.
Qed.

(** ** Look-ups *)
Lemma step_found s l s' p id yes q : step s l = Some (s', p ++ VFound id yes :: q) -> p = [] /\ yes = has id (present s).
Proof.
  unfold step, crash. destruct (dead s); [discriminate|]. destruct l as [i lim|i| |i|j ok|j i]; intros H;
    try (injection H as _ H; destruct p as [|? [|]]; discriminate).
  - destruct (locked s); [discriminate|]. destruct (writing s); injection H as _ H; destruct p as [|? [|]]; try discriminate. injection H as <- <- _. auto.
  - destruct (nth_error (calls s) j) as [c|] eqn:E; [|discriminate]. unfold step_call, crash, goto in H. destruct c;
      repeat match type of H with (if ?b then _ else _) = _ => destruct b eqn:? | match ?b with _ => _ end = _ => destruct b eqn:? end; try discriminate;
      try (injection H as _ H; destruct p as [|? [|]]; discriminate).
    injection H as _ H. destruct put, p as [|? [|]]; discriminate.
  - destruct (nth_error (calls s) j) as [[]|] eqn:E; try discriminate; destruct (writing s).
    1,3: injection H as _ H; destruct p as [|? [|]]; discriminate.
    all: destruct (take w i) eqn:T; try discriminate; injection H as _ H; destruct p as [|? [|]]; discriminate.
Qed.
Lemma found sched s evs x id yes z : run step init sched = Some (s, evs) -> evs = x ++ VFound id yes :: z -> (yes = true <-> there x id).
Proof.
  intros H E. destruct (run_split _ _ _ _ _ _ _ _ H E) as (a & l & c & t & t' & e1 & p & q & e2 & _ & R & S & _ & -> & _).
  destruct (step_found _ _ _ _ _ _ _ S) as [-> ->]. rewrite app_nil_r. rewrite has_in. apply (content_run _ _ _ R).
Qed.
(** The lock is held by a call that has not returned. *)
Definition held (s : state) : Prop := locked s = true -> exists k c, nth_error (calls s) k = Some c /\ holds c = true.
Lemma held_step s l s' e : lock_ok s -> held s -> step s l = Some (s', e) -> held s'.
Proof.
  intros LK I.
  assert (MV : forall j c c' f lk p wr dd, (f = (fun c => c) \/ exists put id, f = note put id) -> nth_error (calls s) j = Some c ->
    (lk = true -> holds c' = true \/ (locked s = true /\ holds c = false)) ->
    held (mkS p lk wr (upd (map f (calls s)) j c') dd)).
  { intros j c c' f lk p wr dd F E A L. cbn in L. destruct (A L) as [Hc|(L0 & Hc)].
    - exists j, c'. split; [|exact Hc]. cbn. apply nth_upd_eq. rewrite map_length. apply nth_error_Some. congruence.
    - destruct (I L0) as (k & d & K & Hd). exists k, (f d).
      assert (k <> j) by (intros ->; congruence). cbn. rewrite nth_upd_neq, nth_error_map, K by congruence. split; [reflexivity|].
      destruct F as [->|(? & ? & ->)]; [exact Hd|now rewrite holds_note]. }
  assert (ADD : forall c, held (add_call s c)).
  { intros c L. destruct (I L) as (k & d & K & Hd). exists k, d. split; [|exact Hd]. cbn. rewrite nth_error_app1; [exact K|]. apply nth_error_Some. congruence. }
  unfold step, crash. destruct (dead s); [discriminate|]. destruct l as [id lim|id| |id|j ok|j id]; intros H.
  - injection H as <- _. apply ADD.
  - injection H as <- _. apply ADD.
  - injection H as <- _. apply ADD.
  - destruct (locked s) eqn:L; [discriminate|]. destruct (writing s) eqn:W; injection H as <- _; [intros L0; discriminate|exact I].
  - destruct (nth_error (calls s) j) as [c|] eqn:E; [|discriminate]. unfold step_call, crash, goto in H.
    assert (KL : holds c = true -> locked s = true) by (intros Hc; exact (k_locked _ LK _ _ E Hc)).
    destruct c; try (destruct limited).
    all: repeat match type of H with (if ?b then _ else _) = _ => destruct b eqn:? | match ?b with _ => _ end = _ => destruct b end; try discriminate.
    all: injection H as <- _.
    all: try (unfold held; cbn; discriminate).
    all: try (exact I).
    all: try (rewrite <- (map_id (calls s)) at 1; eapply (MV j _ _ (fun c => c)); [auto|exact E|cbn; auto]; fail).
    + destruct put, (has id (present s)); cbn [andb]; [rewrite <- (map_id (calls s)) at 1|..]; (eapply MV; [eauto|exact E|auto]).
  - destruct (nth_error (calls s) j) as [[]|] eqn:E; try discriminate; destruct (writing s) eqn:W.
    1,3: injection H as <- _; exact I.
    all: destruct (take w id) eqn:T; try discriminate; injection H as <- _; unfold goto; rewrite <- (map_id (calls s)) at 1; eapply (MV j _ _ (fun c => c)); [auto|exact E|cbn; auto].
Qed.
Lemma held_run sched s x : run step init sched = Some (s, x) -> held s.
Proof.
  revert s x. induction sched as [|l sched IH] using rev_ind; intros s x H.
  - injection H as <- <-. intros L. discriminate.
  - apply run_app_inv in H as (t & e1 & e2 & H1 & H2 & ->). apply run_one_inv in H2. eapply held_step; [eapply lock_ok_run; eauto|eapply IH; eauto|exact H2].
Qed.
Lemma dead_crash sched s x : run step init sched = Some (s, x) -> dead s = true -> In VCrash x.
Proof.
  intros H. refine (run_inv step init (fun _ x s => dead s = true -> In VCrash x) _ _ sched s x H); [discriminate|].
  intros sched' evs t l t' e _ I S D. apply in_or_app. right.
  unfold step, step_call, crash in S. destruct (dead t) eqn:Dt; [discriminate|].
  destruct l; try (injection S as <- <-; cbn in D; congruence).
  - destruct (locked t); [discriminate|]. destruct (writing t); injection S as <- <-; [now left|congruence].
  - destruct (nth_error (calls t) j) as [[]|]; try discriminate;
      repeat match type of S with (if ?b then _ else _) = _ => destruct b | match ?b with _ => _ end = _ => destruct b end; try discriminate;
      injection S as <- <-; cbn in D; try congruence; now left.
  - destruct (nth_error (calls t) j) as [[]|]; try discriminate; destruct (writing t); try (injection S as <- <-; now left);
      destruct (take w id); try discriminate; injection S as <- <-; cbn in D; congruence.
Qed.
(** When every call has returned a look-up is answered. *)
Lemma look_up sched s evs id : run step init sched = Some (s, evs) -> ~ In VCrash evs -> (forall j l, In (VCall j l) evs -> ~ unfinished evs j) ->
  exists yes, step s (LFind id) = Some (s, [VFound id yes]).
Proof.
  intros H NC F. unfold step. destruct (dead s) eqn:D; [elim NC; eapply dead_crash; eauto|].
  pose proof (calls_ok_run _ _ _ H) as CO. pose proof (lock_ok_run _ _ _ H) as LK.
  assert (NH : forall k c, nth_error (calls s) k = Some c -> holds c = true -> False).
  { intros k c K Hc. assert (c <> Done) by (intros ->; discriminate). pose proof (o_open _ _ CO _ _ K H0) as U.
    pose proof (o_origin _ _ CO _ _ K) as Or. destruct c; try discriminate; cbn in Or; destruct Or as [(i & lim & Or)|(i & Or)]; exact (F _ _ Or U). }
  destruct (locked s) eqn:L.
  - destruct (held_run _ _ _ H L) as (k & c & K & Hc). elim (NH k c K Hc).
  - destruct (writing s) eqn:W; [|eauto]. destruct (k_writing _ LK W) as (k & put & i & K). elim (NH k _ K eq_refl).
Qed.
(** What is put into the map somebody has asked to register. *)
Lemma put_asked sched s x j id : run step init sched = Some (s, x) -> In (VPut j id) x -> exists lim, In (VCall j (LRegister id lim)) x.
Proof.
  revert s x. induction sched as [|l sched IH] using rev_ind; intros s x H K.
  - injection H as <- <-. destruct K.
  - apply run_app_inv in H as (t & e1 & e2 & H1 & H2 & ->). apply run_one_inv in H2.
    apply in_app_or in K as [K|K]; [destruct (IH _ _ H1 K) as (lim & A); exists lim; apply in_or_app; auto|].
    pose proof (jobs_ok_run _ _ _ H1) as B. unfold step, crash in H2. destruct (dead t); [discriminate|].
    destruct l as [i lim|i| |i|k ok|k i]; try (injection H2 as _ <-; destruct K as [|[]]; discriminate).
    + destruct (locked t); [discriminate|]. destruct (writing t); injection H2 as _ <-; destruct K as [|[]]; discriminate.
    + destruct (nth_error (calls t) k) as [c|] eqn:E; [|discriminate]. unfold step_call, crash, goto in H2. destruct c;
        repeat match type of H2 with (if ?b then _ else _) = _ => destruct b eqn:? | match ?b with _ => _ end = _ => destruct b eqn:? end; try discriminate;
        try (injection H2 as _ <-; cbn in K; intuition discriminate).
      injection H2 as _ <-. destruct put; destruct K as [K|[]]; [|discriminate]. injection K as <- <-.
      destruct (b_job _ _ B _ _ E) as (lim & A). exists lim. apply in_or_app. auto.
    + destruct (nth_error (calls t) k) as [[]|] eqn:E; try discriminate; destruct (writing t); try (injection H2 as _ <-; destruct K as [|[]]; discriminate);
      destruct (take w i) eqn:T; try discriminate; injection H2 as _ <-; destruct K.
Qed.

(** ** After an Unregister *)
Definition ends (c : pc) : bool := match c with Unlock | Done => true | _ => false end.
Definition gone (x : list event) (s : state) : Prop := forall a k id b c, x = a ++ VCall k (LUnregister id) :: b -> (forall j, ~ In (VPut j id) b) ->
  nth_error (calls s) k = Some c -> ends c = true -> ~ In id (present s).
Lemma ends_step s l s' e k c' id : step s l = Some (s', e) -> nth_error (calls s') k = Some c' -> ends c' = true ->
  (forall x, jobs_ok x s -> calls_ok x s -> In (VCall k (LUnregister id)) x -> ~ In id (present s') \/ exists c, nth_error (calls s) k = Some c /\ ends c = true).
Proof.
  intros H K Ec x B CO C. unfold step, crash in H. destruct (dead s); [discriminate|].
  assert (ADD : forall c, ends c = false -> nth_error (calls s ++ [c]) k = Some c' -> exists c, nth_error (calls s) k = Some c /\ ends c = true).
  { intros c Hc N. destruct (Nat.lt_ge_cases k (length (calls s))) as [L|L]; [rewrite nth_error_app1 in N by exact L; eauto|].
    rewrite nth_error_app2 in N by exact L. destruct (k - length (calls s)) as [|[|]]; cbn in N; try discriminate. congruence. }
  destruct l as [i lim|i| |i|j ok|j i].
  - injection H as <- <-. right. eapply ADD; [|exact K]; reflexivity.
  - injection H as <- <-. right. eapply ADD; [|exact K]; reflexivity.
  - injection H as <- <-. right. eapply ADD; [|exact K]; reflexivity.
  - destruct (locked s); [discriminate|]. destruct (writing s); injection H as <- <-; right; eauto.
  - destruct (nth_error (calls s) j) as [c|] eqn:E; [|discriminate]. pose proof (b_job _ _ B _ _ E) as J.
    assert (UP : forall d, nth_error (upd (calls s) j d) k = Some c' -> (k = j /\ c' = d) \/ exists c, nth_error (calls s) k = Some c /\ ends c = true).
    { intros d N. apply nth_upd_other in N as [(<- & ->)|(Ne & N)]; [auto|right; eauto]. }
    assert (REG : forall i, k = j -> (exists lim, In (VCall j (LRegister i lim)) x) -> False).
    { intros i -> (lim & R). pose proof (b_one _ _ B _ _ _ C R). discriminate. }
    unfold step_call, crash, goto in H. destruct c; cbn in J;
      repeat match type of H with (if ?b then _ else _) = _ => destruct b eqn:? | match ?b with _ => _ end = _ => destruct b eqn:? end; try discriminate;
      injection H as <- <-; cbn [calls] in K; try (right; eauto; fail);
      try (apply UP in K as [(-> & ->)|K]; [|right; exact K]; first [discriminate Ec|exfalso; eapply REG; [reflexivity|exact J]|solve [right; rewrite E; eauto]|idtac]).
    + left. cbn. pose proof (b_one _ _ B _ _ _ C J) as [= <-]. now apply has_out.
    + apply nth_upd_other in K as [(<- & ->)|(Ne & K)].
      * destruct put; [exfalso; eapply REG; [reflexivity|exact J]|]. left. cbn. pose proof (b_one _ _ B _ _ _ C J) as [= <-]. rewrite in_drop. tauto.
      * right. destruct (put && has id0 (present s)); [eauto|]. apply nth_map_note in K as (c0 & K & ->). exists c0. split; [exact K|]. destruct c0; exact Ec.
    + exfalso. pose proof (o_origin _ _ CO _ _ E) as A. pose proof (b_one _ _ B _ _ _ C A). discriminate.
  - destruct (nth_error (calls s) j) as [[]|] eqn:E; try discriminate; destruct (writing s).
    1,3: injection H as <- <-; right; eauto.
    all: destruct (take w i) eqn:T; try discriminate; injection H as <- <-; cbn [goto calls] in K; apply nth_upd_other in K as [(<- & ->)|(Ne & K)]; [discriminate|right; eauto].
Qed.
Lemma gone_run sched s x : run step init sched = Some (s, x) -> gone x s.
Proof.
  revert s x. induction sched as [|l sched IH] using rev_ind; intros s x H.
  - injection H as <- <-. intros a k id b c _ _ K. destruct k; discriminate.
  - apply run_app_inv in H as (t & e1 & e2 & H1 & H2 & ->). apply run_one_inv in H2. specialize (IH _ _ H1).
    pose proof (jobs_ok_run _ _ _ H1) as B. pose proof (calls_ok_run _ _ _ H1) as CO.
    intros a k id b c E N K Ec.
    apply app_split in E as [(b1 & E & ->)|(d1 & -> & ->)].
    + exfalso. destruct (step_moves _ _ _ _ H2) as [(c0 & l0 & EC & E0 & _ & _ & D1 & D2)|[(i & yes & _ & E0)|[(_ & E0 & _)|(i & c0 & c' & f & Ei & M)]]].
      * rewrite E0 in E. destruct b1 as [|? [|]]; try discriminate. cbn in E. injection E as Ek El _. subst k l0. rewrite EC in K.
        rewrite nth_error_app2, Nat.sub_diag in K by lia. injection K as ->.
        destruct c; try discriminate; congruence.
      * rewrite E0 in E. destruct b1 as [|? [|]]; discriminate.
      * rewrite E0 in E. destruct b1 as [|? [|]]; discriminate.
      * apply (m_call _ _ _ _ _ _ _ M k (LUnregister id)). rewrite E. apply in_elt.
    + destruct (ends_step _ _ _ _ _ _ id H2 K Ec _ B CO (in_elt _ _ _)) as [G|(c0 & K0 & Ec0)]; [exact G|].
      assert (G : ~ In id (present t)). { eapply IH; [reflexivity| |exact K0|exact Ec0]. intros j P. apply (N j). apply in_or_app. auto. }
      destruct (step_change _ _ _ _ H2) as [_ ->|j i Ee P _|j i _ P _]; [exact G| |].
      * rewrite P. intros [->|A]; [|exact (G A)]. apply (N j). rewrite Ee. apply in_or_app. right. now left.
      * rewrite P. tauto.
Qed.
Lemma unregistered sched s evs x k id b : run step init sched = Some (s, evs) -> evs = x ++ VCall k (LUnregister id) :: b -> In (VDone k) b ->
  (forall j, ~ In (VPut j id) b) -> ~ there evs id.
Proof.
  intros H E D N. pose proof (calls_ok_run _ _ _ H) as CO. pose proof (jobs_ok_run _ _ _ H) as B.
  assert (C : In (VCall k (LUnregister id)) evs) by (rewrite E; apply in_elt).
  destruct (nth_error (calls s) k) as [c|] eqn:K; [|apply nth_error_None in K; pose proof (b_call _ _ B _ _ C); lia].
  assert (Dn : c = Done).
  { destruct c; try reflexivity; exfalso; (destruct (o_open _ _ CO _ _ K) as [A _]; [discriminate|]); apply A; rewrite E; apply in_or_app; right; right; exact D. }
  subst c. rewrite <- (proj2 (content_run _ _ _ H) id). exact (gone_run _ _ _ H _ _ _ _ _ E N K eq_refl).
Qed.
