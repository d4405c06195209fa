(** C143-C146: the nodes of a process. *)
From Coq Require Import List Arith Bool Lia.
From Verif Require Import NodeModel NodeSpec.
Import ListNotations.

Definition blank := mkP 0 0 home 0 None None None.
Lemma last_step {A} (says : opt -> option A) (get : parm -> A) : (forall p x, get (apply p x) = match says x with Some v => v | None => get p end) -> forall os p, last_of says os (get p) (get (fold_left apply os p)).
Proof.
  intros S. induction os as [|x os IH]; intros p; cbn; [right; split; [intros y []|reflexivity]|]. destruct (IH (apply p x)) as [(a & y & b & -> & P & N)|(N & V)]; [left; exists (x :: a), y, b; auto|].
  rewrite S in V. destruct (says x) as [v|] eqn:P; [left; exists [], x, os; rewrite V; auto|]. right. split; [intros y [<-|I]; auto|exact V].
Qed.
Lemma last_unique {A} (says : opt -> option A) os d v w : last_of says os d v -> last_of says os d w -> v = w.
Proof.
  intros [(a & x & b & E & M & N)|(N & ->)] [(a' & x' & b' & E' & M' & N')|(N' & ->)]; try reflexivity.
  - rewrite E in E'. clear E. revert a' E'. induction a as [|y a IH]; intros [|y' a'] E'; cbn in E'; injection E' as -> E'.
    + congruence.
    + rewrite (N x') in M'; [discriminate|]. rewrite E'. apply in_elt.
    + rewrite (N' x) in M; [discriminate|]. rewrite <- E'. apply in_elt.
    + apply (IH a'). exact E'.
  - rewrite (N' x) in M; [discriminate|]. rewrite E. apply in_elt.
  - rewrite (N x') in M'; [discriminate|]. rewrite E'. apply in_elt.
Qed.
Lemma nth_close l : forall k j, nth_error (close l k) j = if Nat.eqb j k then option_map (fun n => mkN (np n) (sys n) false) (nth_error l j) else nth_error l j.
Proof. induction l as [|n l IH]; intros [|k] [|j]; cbn; try reflexivity; [destruct (Nat.eqb j k); reflexivity|apply IH]. Qed.
Lemma close_length l : forall k, length (close l k) = length l.
Proof. induction l as [|n l IH]; intros [|k]; cbn; auto. Qed.

(** C143.  A node that is built has what the last option of each kind says, and listens exactly
    when it has a port. *)
Theorem C143_options : forall s os other s1 k, step s (Build os other) = (s1, Built k) -> exists y, seen s1 k = Some y /\
  last_of says_id os 0 (node_id y) /\ last_of says_ip os home (node_ip y) /\ last_of says_port os 0 (node_port y) /\ last_of says_trac os None (sys_trac y) /\
  last_of says_loader os None (Some (sys_loader y)) /\ last_of says_factory os None (Some (sys_factory y)) /\ (node_port y <> 0 <-> listens s1 k (node_port y)).
Proof.
  intros s os other s1 k H. cbn in H. fold blank in H. unfold build_system in H.
  pose proof (last_step says_id id ltac:(intros p []; reflexivity) os blank) as L1. pose proof (last_step says_ip ip ltac:(intros p []; reflexivity) os blank) as L2. pose proof (last_step says_port port ltac:(intros p []; reflexivity) os blank) as L3. pose proof (last_step says_trac trac ltac:(intros p []; reflexivity) os blank) as L4. pose proof (last_step says_loader loader ltac:(intros p []; reflexivity) os blank) as L5. pose proof (last_step says_factory factory ltac:(intros p []; reflexivity) os blank) as L6.
  cbn in L1, L2, L3, L4, L5, L6. set (p := fold_left apply os blank) in *. destruct (loader p) as [l|]; [|discriminate]. destruct (factory p) as [f|]; [|discriminate]. destruct (Nat.eqb_spec (port p) 0) as [Z|Z]; [|destruct (negb _ && negb _); [|discriminate]].
  all: injection H as <- <-; unfold seen; cbn [nodes]; rewrite nth_error_app2, Nat.sub_diag by lia; cbn; eexists; split; [reflexivity|]; cbn; do 6 (split; [assumption|]); unfold listens; cbn [nodes]; rewrite nth_error_app2, Nat.sub_diag by lia; cbn.
  - rewrite Z. split; [intros []; reflexivity|]. intros (n & E & O & _). injection E as <-. discriminate O.
  - split; [|auto]. intros _. eexists. split; [reflexivity|]. auto.
Qed.
Print Assumptions C143_options.
(** It panics exactly when there is no loader, no factory, or something listens at its port; a build
    that panics changes nothing. *)
Theorem C143_panics : forall s os other p l f, last_of says_port os 0 p -> last_of says_loader os None l -> last_of says_factory os None f ->
  (snd (step s (Build os other)) = Panic <-> l = None \/ f = None \/ (p <> 0 /\ (other p = true \/ exists k, listens s k p))) /\ (snd (step s (Build os other)) = Panic -> fst (step s (Build os other)) = s).
Proof.
  intros s os other p l f P L F. cbn. fold blank. unfold build_system.
  pose proof (last_step says_port port ltac:(intros q []; reflexivity) os blank) as L3. pose proof (last_step says_loader loader ltac:(intros q []; reflexivity) os blank) as L5. pose proof (last_step says_factory factory ltac:(intros q []; reflexivity) os blank) as L6. cbn in L3, L5, L6.
  rewrite <- (last_unique _ _ _ _ _ P L3), <- (last_unique _ _ _ _ _ L L5), <- (last_unique _ _ _ _ _ F L6). clear.
  assert (U : used s p = true <-> exists k, listens s k p).
  { unfold used, listens. rewrite existsb_exists. split.
    - intros (n & I & E). apply andb_prop in E as [O E]. apply Nat.eqb_eq in E. apply In_nth_error in I as (k & I). exists k, n. auto.
    - intros (k & n & I & O & E). exists n. split; [eapply nth_error_In; exact I|]. rewrite O, E. apply Nat.eqb_refl. }
  destruct l as [l|]; [|cbn; split; [split; auto|auto]]. destruct f as [f|]; [|cbn; split; [split; auto|auto]]. destruct (Nat.eqb_spec p 0) as [Z|Z]; cbn.
  - split; [|discriminate]. split; [discriminate|]. intros [H|[H|[H _]]]; try discriminate. contradiction.
  - destruct (other p) eqn:O; cbn; [split; [split; [|auto]|auto]; intros _; auto|]. destruct (used s p) eqn:V; cbn.
    + split; [|auto]. split; [|auto]. intros _. right. right. split; [exact Z|]. right. apply U. reflexivity.
    + split; [|discriminate]. split; [discriminate|]. intros [H|[H|[_ [H|H]]]]; try discriminate. apply U in H. discriminate.
Qed.
Print Assumptions C143_panics.
Example C143_case : exists s1 y, step init (Build [WithID 1; WithServiceInfo 5 80; WithLoader (Some 2); WithFactory (Some 3); WithPort 90] (fun _ => false)) = (s1, Built 0) /\ seen s1 0 = Some y /\ y = mkSys 1 5 90 None 2 3 true /\ snd (step s1 (Build [WithLoader (Some 2); WithFactory (Some 3); WithPort 90] (fun _ => false))) = Panic.
Proof. do 2 eexists. repeat split. Qed.

(** C144.  Every option of a node has an effect: its weight has none, nor has any option of
    Init. *)
Theorem C144_weight_refuted : forall s os other w, let r := step s (Build os other) in let r' := step s (Build (os ++ [WithWeight w]) other) in snd r' = snd r /\ forall k, seen (fst r') k = seen (fst r) k.
Proof.
  intros s os other w. cbn. fold blank. rewrite fold_left_app. cbn. set (p := fold_left apply os blank). unfold build_system. cbn. destruct (loader p), (factory p); cbn; auto. destruct (Nat.eqb (port p) 0); cbn; [|destruct (negb _ && negb _); cbn; [|auto]].
  all: split; [reflexivity|]; intros k; unfold seen; cbn [nodes]; destruct (lt_dec k (length (nodes s))); [rewrite !nth_error_app1 by lia; reflexivity|rewrite !nth_error_app2 by lia; destruct (k - length (nodes s)) as [|[|j]]; reflexivity].
Qed.
Print Assumptions C144_weight_refuted.
Theorem C144_init_refuted : exists s k os, reachable s /\ os <> [] /\ step s (Init k os) = step s (Init k []) /\ fst (step s (Init k os)) = s.
Proof. eexists. exists 0, [WithLoader (Some 7); WithID 4]. split; [exists [Build [WithLoader (Some 2); WithFactory (Some 3)] (fun _ => false)]; reflexivity|]. split; [discriminate|]. split; reflexivity. Qed.
Print Assumptions C144_init_refuted.
(** The others have: two nodes built with options that differ in what they say differ. *)
Theorem C144_effect_partial : forall s os other s1 k s' os' other' s1' k', step s (Build os other) = (s1, Built k) -> step s' (Build os' other') = (s1', Built k') -> seen s1 k = seen s1' k' ->
  (forall v w, last_of says_id os 0 v -> last_of says_id os' 0 w -> v = w) /\ (forall v w, last_of says_ip os home v -> last_of says_ip os' home w -> v = w) /\ (forall v w, last_of says_port os 0 v -> last_of says_port os' 0 w -> v = w) /\
  (forall v w, last_of says_trac os None v -> last_of says_trac os' None w -> v = w) /\ (forall v w, last_of says_loader os None v -> last_of says_loader os' None w -> v = w) /\ (forall v w, last_of says_factory os None v -> last_of says_factory os' None w -> v = w).
Proof.
  intros s os other s1 k s' os' other' s1' k' B B' E. destruct (C143_options _ _ _ _ _ B) as (y & Y & A1 & A2 & A3 & A4 & A5 & A6 & _). destruct (C143_options _ _ _ _ _ B') as (y' & Y' & B1 & B2 & B3 & B4 & B5 & B6 & _). rewrite E, Y' in Y. injection Y as <-.
  repeat split; intros v w V W.
  - rewrite (last_unique _ _ _ _ _ V A1). exact (last_unique _ _ _ _ _ B1 W).
  - rewrite (last_unique _ _ _ _ _ V A2). exact (last_unique _ _ _ _ _ B2 W).
  - rewrite (last_unique _ _ _ _ _ V A3). exact (last_unique _ _ _ _ _ B3 W).
  - rewrite (last_unique _ _ _ _ _ V A4). exact (last_unique _ _ _ _ _ B4 W).
  - rewrite (last_unique _ _ _ _ _ V A5). exact (last_unique _ _ _ _ _ B5 W).
  - rewrite (last_unique _ _ _ _ _ V A6). exact (last_unique _ _ _ _ _ B6 W).
Qed.
Print Assumptions C144_effect_partial.
(** Init hands the node to the loader that it was built with. *)
Theorem C144_assigned_partial : forall s os other s1 k cs os', step s (Build os other) = (s1, Built k) -> exists l, last_of says_loader os None (Some l) /\ snd (step (fst (calls s1 cs)) (Init k os')) = Assigned l k.
Proof.
  intros s os other s1 k cs os' B. pose proof (last_step says_loader loader ltac:(intros q []; reflexivity) os blank) as L. cbn in L. assert (I : exists n, nth_error (nodes s1) k = Some n /\ loader (np n) = loader (fold_left apply os blank) /\ loader (np n) <> None).
  { cbn in B. fold blank in B. unfold build_system in B. destruct (loader (fold_left apply os blank)) as [l|] eqn:E; [|discriminate]. destruct (factory _); [|discriminate]. destruct (Nat.eqb _ 0); [|destruct (negb _ && negb _); [|discriminate]].
    all: injection B as <- <-; cbn [nodes]; rewrite nth_error_app2, Nat.sub_diag by lia; cbn [nth_error]; eexists.
    all: split; [reflexivity|]; cbn [np]; rewrite E; split; [reflexivity|discriminate]. }
  destruct I as (n & N & E & D). destruct (loader (np n)) as [l|] eqn:X; [|contradiction]. exists l. rewrite E in *. split; [exact L|]. assert (K : exists n', nth_error (nodes (fst (calls s1 cs))) k = Some n' /\ np n' = np n).
  { clear - N. assert (M : exists n', nth_error (nodes s1) k = Some n' /\ np n' = np n) by eauto. clear N. revert s1 M. induction cs as [|c cs IH]; intros s1 (n' & N & E); cbn; [eauto|]. destruct (step s1 c) as [s2 r] eqn:S. specialize (IH s2). destruct (calls s2 cs) as [s3 rs]. cbn in *. apply IH. clear IH.
    destruct c as [os other|j os| |j]; cbn in S.
    - destruct (build_system _ _); injection S as <- _; [|eauto]. cbn [nodes]. exists n'. split; [|exact E]. rewrite nth_error_app1; [exact N|]. apply nth_error_Some. congruence.
    - destruct (nth_error (nodes s1) j) as [m|]; [destruct (loader (np m))|]; injection S as <- _; eauto.
    - injection S as <- _. eauto.
    - injection S as <- _. cbn [nodes]. rewrite nth_close, N. destruct (Nat.eqb k j); cbn; [eexists; split; [reflexivity|exact E]|eauto]. }
  destruct K as (n' & N' & E'). cbn. rewrite N', E', X, <- E. reflexivity.
Qed.
Print Assumptions C144_assigned_partial.

(** C145.  Two nodes of a process have different ids and ports: the ids may be equal. *)
Theorem C145_id_refuted : exists s y y', reachable s /\ seen s 0 = Some y /\ seen s 1 = Some y' /\ node_id y = node_id y' /\ accepts y = true /\ accepts y' = true.
Proof. do 3 eexists. split; [exists [Build [WithID 9; WithPort 1; WithLoader (Some 2); WithFactory (Some 3)] (fun _ => false); Build [WithID 9; WithPort 2; WithLoader (Some 2); WithFactory (Some 3)] (fun _ => false)]; reflexivity|]. repeat split. Qed.
Print Assumptions C145_id_refuted.
Theorem C145_port_partial : forall s i j p, reachable s -> listens s i p -> listens s j p -> i = j.
Proof.
  intros s i j p (cs & <-). assert (G : forall cs s, (forall i j p, listens s i p -> listens s j p -> i = j) -> forall i j p, listens (fst (calls s cs)) i p -> listens (fst (calls s cs)) j p -> i = j).
  { clear. induction cs as [|c cs IH]; intros s U; cbn; [exact U|]. destruct (step s c) as [s1 r] eqn:S. specialize (IH s1). destruct (calls s1 cs) as [s2 rs]. cbn in *. apply IH. clear IH. destruct c as [os other|k os| |k]; cbn in S.
    - fold blank in S. set (q := fold_left apply os blank) in *. destruct (build_system _ q) as [y|] eqn:B; injection S as <- _; [|exact U]. assert (N : forall k n, nth_error (nodes s ++ [mkN q y (accepts y)]) k = Some n -> (k < length (nodes s) /\ nth_error (nodes s) k = Some n) \/ (k = length (nodes s) /\ n = mkN q y (accepts y))).
      { intros k n E. destruct (lt_dec k (length (nodes s))); [rewrite nth_error_app1 in E by lia; auto|]. rewrite nth_error_app2 in E by lia. destruct (k - length (nodes s)) as [|[|d]] eqn:D; cbn in E; try discriminate. injection E as <-. right. split; [lia|reflexivity]. }
      assert (F : accepts y = true -> forall k, ~ listens s k (port q)).
      { intros A k (n & I & O & P). unfold build_system in B. destruct (loader q), (factory q); try discriminate. destruct (Nat.eqb (port q) 0); [injection B as <-; discriminate A|]. destruct (negb (other (port q)) && negb (used s (port q))) eqn:V; [|discriminate]. apply andb_prop in V as [_ V]. assert (X : used s (port q) = true); [|rewrite X in V; discriminate]. apply existsb_exists. exists n. split; [eapply nth_error_In; exact I|]. rewrite O, P. apply Nat.eqb_refl. }
      intros i j p (n & I & O & P) (m & J & O' & P'). cbn [nodes] in I, J. apply N in I as [[L I]|[-> ->]]; apply N in J as [[L' J]|[-> ->]]; cbn in *; [eapply U; [exists n; eauto|exists m; eauto]| | |reflexivity].
      + exfalso. subst p. apply (F O' i). exists n. auto.
      + exfalso. subst p. apply (F O j). exists m. auto.
    - destruct (nth_error (nodes s) k) as [m|]; [destruct (loader (np m))|]; injection S as <- _; exact U.
    - injection S as <- _. exact U.
    - injection S as <- _. intros i j p (n & I & O & P) (m & J & O' & P'). cbn [nodes] in I, J. rewrite nth_close in I, J. destruct (Nat.eqb i k); [destruct (nth_error _ i); cbn in I; [injection I as <-|]; discriminate|]. destruct (Nat.eqb j k); [destruct (nth_error _ j); cbn in J; [injection J as <-|]; discriminate|]. eapply U; [exists n; eauto|exists m; eauto]. }
  apply G. clear. intros i j p (n & I & _). destruct i; discriminate I.
Qed.
Print Assumptions C145_port_partial.
(** A port is free again after Exit. *)
Theorem C145_again : forall s k p, reachable s -> ~ listens (fst (step s (Exit k))) k p /\ forall j, j <> k -> (listens (fst (step s (Exit k))) j p <-> listens s j p).
Proof.
  intros s k p _. unfold listens. cbn. split.
  - intros (n & I & O & _). rewrite nth_close, Nat.eqb_refl in I. destruct (nth_error _ k); cbn in I; [injection I as <-|]; discriminate.
  - intros j D. rewrite nth_close, (proj2 (Nat.eqb_neq j k) D). reflexivity.
Qed.
Print Assumptions C145_again.
Example C145_case : exists s, fst (calls init [Build [WithPort 1; WithLoader (Some 2); WithFactory (Some 3)] (fun _ => false); Build [WithPort 1; WithLoader (Some 2); WithFactory (Some 3)] (fun _ => false); Exit 0; Build [WithPort 1; WithLoader (Some 2); WithFactory (Some 3)] (fun _ => false)]) = s /\ length (nodes s) = 2 /\ listens s 1 1 /\ ~ listens s 0 1.
Proof. eexists. split; [reflexivity|]. split; [reflexivity|]. split; [eexists; repeat split|]. intros (n & I & O & _). injection I as <-. discriminate O. Qed.

(** C146.  Get gives the node built last, and nil before any: before, it gives something that
    is not nil, and that no method can be called on. *)
Theorem C146_nil_refuted : exists i, snd (step init Get) = Got i /\ compares_nil i = false /\ i = IPtr None.
Proof. eexists. repeat split. Qed.
Print Assumptions C146_nil_refuted.
(** As coded: it never compares equal to nil, and after a build that succeeded it is that node
    until the next such build; a build that panics, Init and Exit do not change it. *)
Theorem C146_last_partial : forall s os other s1 k cs, step s (Build os other) = (s1, Built k) -> (forall k', ~ In (Built k') (snd (calls s1 cs))) -> snd (step (fst (calls s1 cs)) Get) = Got (IPtr (Some k)).
Proof.
  intros s os other s1 k cs B. assert (P : pcs s1 = Some k) by (cbn in B; destruct (build_system _ _); [injection B as <- <-; reflexivity|discriminate]). clear B. revert s1 P. induction cs as [|c cs IH]; intros s1 P N; cbn in *; [rewrite P; reflexivity|].
  destruct (step s1 c) as [s2 r] eqn:S. specialize (IH s2). destruct (calls s2 cs) as [s3 rs]. cbn in *. apply IH; [|intros k' I; apply (N k'); right; exact I]. clear IH. destruct c as [os' other'|j os'| |j]; cbn in S.
  - destruct (build_system _ _); injection S as <- <-; [|exact P]. destruct (N (length (nodes s1))). left. reflexivity.
  - destruct (nth_error (nodes s1) j) as [m|]; [destruct (loader (np m))|]; injection S as <- _; exact P.
  - injection S as <- _. exact P.
  - injection S as <- _. exact P.
Qed.
Print Assumptions C146_last_partial.
Theorem C146_never_nil_partial : forall s, exists i, snd (step s Get) = Got i /\ compares_nil i = false.
Proof. intros s. eexists. split; reflexivity. Qed.
Print Assumptions C146_never_nil_partial.
(** Each node built is a new one. *)
Theorem C146_new : forall s os other s1 k, step s (Build os other) = (s1, Built k) -> seen s k = None /\ forall j, j <> k -> seen s1 j = seen s j.
Proof.
  intros s os other s1 k B. cbn in B. destruct (build_system _ _) as [y|]; [|discriminate]. injection B as <- <-. unfold seen. cbn [nodes]. split; [rewrite (proj2 (nth_error_None _ _)) by lia; reflexivity|]. intros j D. destruct (lt_dec j (length (nodes s))); [rewrite nth_error_app1 by lia; reflexivity|]. rewrite nth_error_app2 by lia. rewrite (proj2 (nth_error_None (nodes s) j)) by lia. destruct (j - length (nodes s)) as [|[|d]] eqn:E; try reflexivity. lia.
Qed.
Print Assumptions C146_new.
Example C146_case : snd (calls init [Get; Build [WithLoader (Some 2); WithFactory (Some 3)] (fun _ => false); Build [] (fun _ => false); Get; Init 0 []; Build [WithLoader (Some 2); WithFactory (Some 3)] (fun _ => false); Get]) = [Got (IPtr None); Built 0; Panic; Got (IPtr (Some 0)); Assigned 2 0; Built 1; Got (IPtr (Some 1))].
Proof. reflexivity. Qed.
