(** C142: writing files. *)
From Coq Require Import List Bool Arith Lia.
From Verif Require Import FileModel.
Import ListNotations.

Definition path (o : op) : nat := match o with Save p _ | Write p _ => p end.
Definition after (s : store) (os : list op) : store := fold_left do os s.
Definition none : store := fun _ => None.

Lemma do_other s o q : path o <> q -> do s o q = s q.
Proof. destruct o; cbn; unfold save_file, write_json, put; intros N; rewrite (proj2 (Nat.eqb_neq q p)); auto. Qed.
Lemma after_other os : forall s q, (forall o, In o os -> path o <> q) -> after s os q = s q.
Proof. induction os as [|o os IH]; intros s q N; cbn; [reflexivity|]. change (fold_left do os (do s o) q) with (after (do s o) os q). rewrite IH by (intros; apply N; right; assumption). apply do_other, N. left. reflexivity. Qed.

(** C142.  After SaveFile or WriteJSON the file holds what was written: after WriteJSON it may
    go on with the end of what it held before. *)
Theorem C142_refuted : exists os p d, (forall o, In o os -> path o = p) /\ read_file (after none (os ++ [Write p d])) p <> Some d.
Proof. exists [Write 1 [5; 6; 7]], 1, [8]. split; [intros o [<-|[]]; reflexivity|]. vm_compute. discriminate. Qed.
Print Assumptions C142_refuted.
(** SaveFile does it in every store and whatever is done later to other files. *)
Theorem C142_save_partial : forall before p d later, (forall o, In o later -> path o <> p) -> read_file (after none (before ++ Save p d :: later)) p = Some d /\ exist (after none (before ++ Save p d :: later)) p = true.
Proof.
  intros before p d later N. assert (E : after none (before ++ Save p d :: later) p = Some d); [|unfold read_file, exist; rewrite E; auto].
  unfold after at 1. rewrite fold_left_app. cbn [fold_left]. change (fold_left do later ?s p) with (after s later p). rewrite after_other by exact N. cbn. unfold save_file, put. rewrite Nat.eqb_refl. reflexivity.
Qed.
Print Assumptions C142_save_partial.
(** WriteJSON does it exactly when the file was not longer than the data. *)
Theorem C142_json_partial : forall os p d, read_file (after none (os ++ [Write p d])) p = Some d <-> (forall old, read_file (after none os) p = Some old -> length old <= length d).
Proof.
  intros os p d. unfold read_file, after. rewrite fold_left_app. cbn. unfold write_json, put. rewrite Nat.eqb_refl. destruct (fold_left do os none p) as [old|]; [|rewrite skipn_nil, app_nil_r; split; [intros _ old E; discriminate E|reflexivity]].
  split.
  - intros E o H. injection H as <-. injection E as E. rewrite <- (app_nil_r d) in E at 3. apply app_inv_head in E. apply (f_equal (@length nat)) in E. rewrite skipn_length in E. cbn in E. lia.
  - intros H. rewrite skipn_all2 by (apply H; reflexivity). rewrite app_nil_r. reflexivity.
Qed.
Print Assumptions C142_json_partial.
(** A file written by WriteJSON alone never gets shorter: it begins with the last data and is as long as the longest. *)
Theorem C142_longest_partial : forall os p d, (forall o, In o os -> exists q e, o = Write q e) ->
  exists tail, read_file (after none (os ++ [Write p d])) p = Some (d ++ tail) /\ (forall e, In (Write p e) (os ++ [Write p d]) -> length e <= length (d ++ tail)) /\ (exists e, In (Write p e) (os ++ [Write p d]) /\ length e = length (d ++ tail)).
Proof.
  assert (L : forall os p, (forall o, In o os -> exists q e, o = Write q e) -> match after none os p with None => forall e, ~ In (Write p e) os | Some f => (forall e, In (Write p e) os -> length e <= length f) /\ exists e, In (Write p e) os /\ length e = length f end).
  { intros os p. induction os as [|o os IH] using rev_ind; intros W; [cbn; intros e []|]. specialize (IH (fun x I => W x (proj2 (in_app_iff _ _ _) (or_introl I)))). destruct (W o) as (q & d & ->); [apply in_elt|]. unfold after in *. rewrite fold_left_app. cbn. unfold write_json, put. destruct (Nat.eqb_spec p q) as [->|N].
    - destruct (fold_left do os none q) as [f|].
      + destruct IH as [B (e & I & E)]. rewrite app_length, skipn_length. split.
        * intros x J. apply in_app_iff in J as [J|[J|[]]]; [specialize (B x J); lia|injection J as <-; lia].
        * destruct (le_lt_dec (length f) (length d)); [exists d; split; [apply in_elt|lia]|exists e; split; [apply in_app_iff; auto|lia]].
      + rewrite skipn_nil, app_nil_r. split; [|exists d; split; [apply in_elt|reflexivity]]. intros x J. apply in_app_iff in J as [J|[J|[]]]; [destruct (IH x J)|injection J as <-; reflexivity].
    - destruct (fold_left do os none p) as [f|].
      + destruct IH as [B (e & I & E)]. split; [|exists e; split; [apply in_app_iff; auto|exact E]]. intros x J. apply in_app_iff in J as [J|[J|[]]]; [auto|congruence].
      + intros e J. apply in_app_iff in J as [J|[J|[]]]; [exact (IH e J)|congruence]. }
  intros os p d W. specialize (L (os ++ [Write p d]) p). assert (E : exists tail, after none (os ++ [Write p d]) p = Some (d ++ tail)) by (unfold after; rewrite fold_left_app; cbn; unfold write_json, put; rewrite Nat.eqb_refl; eexists; reflexivity).
  destruct E as (tail & E). rewrite E in L. exists tail. split; [exact E|]. apply L. intros o I. apply in_app_iff in I as [I|[<-|[]]]; [auto|eauto].
Qed.
Print Assumptions C142_longest_partial.
(** No write touches another file. *)
Theorem C142_other : forall before os q, (forall o, In o os -> path o <> q) -> read_file (after none (before ++ os)) q = read_file (after none before) q.
Proof. intros before os q N. unfold read_file, after. rewrite fold_left_app. apply (after_other os _ q N). Qed.
Print Assumptions C142_other.
Example C142_case : read_file (after none [Write 1 [5; 6; 7]; Save 2 [1]; Write 1 [8]; Write 2 [3; 4]]) 1 = Some [8; 6; 7] /\ read_file (after none [Write 1 [5; 6; 7]; Save 1 [1]; Write 1 [3; 4]]) 1 = Some [3; 4].
Proof. split; reflexivity. Qed.
