(** Invariants of the unbounded channel. *)
From Coq Require Import List.
From Verif Require Import Machine UnboundedModel UnboundedSpec.
Import ListNotations.

Section P.
Context {V : Type}.

Lemma puts_app (a b : list (label V)) : puts (a ++ b) = puts a ++ puts b.
Proof. induction a as [|[] a IH]; cbn; rewrite ?IH; auto. Qed.
Lemma received_app (a b : list (event V)) : received (a ++ b) = received a ++ received b.
Proof. induction a as [|[] a IH]; cbn; rewrite ?IH; auto. Qed.

Lemma conserve (sched : list (label V)) s evs : run step init sched = Some (s, evs) ->
  puts sched = received evs ++ buffered s /\ (holder s <> None -> backlog s = []).
Proof.
  revert sched s evs. apply run_inv; [cbn; auto|].
  intros sched evs s l s' e _ [IH HB] H. rewrite puts_app, received_app, IH.
  destruct l as [v| |c|c]; unfold step in H; unfold buffered in *.
  - destruct (holder s) eqn:Eh; [discriminate|].
    destruct (backlog s) as [|b bs] eqn:Eb; [destruct (chan s) eqn:Ec|];
      injection H as <- <-; cbn; rewrite ?app_nil_r.
    + split; [now rewrite <- !app_assoc|auto].
    + split; auto.
    + split; [|congruence]. now rewrite <- !app_assoc.
  - destruct (holder s) eqn:Eh; [|discriminate]. injection H as <- <-. cbn.
    split; [|congruence]. now rewrite !app_nil_r.
  - destruct (chan s) eqn:Ec; [|discriminate]. injection H as <- <-. cbn.
    split; [|auto]. now rewrite app_nil_r, <- !app_assoc.
  - destruct (holder s) eqn:Eh; [discriminate|].
    destruct (backlog s) as [|b bs] eqn:Eb; [|destruct (chan s) eqn:Ec]; injection H as <- <-;
      cbn; rewrite ?Eh, ?Eb, ?Ec, ?app_nil_r; cbn; rewrite ?app_nil_r; split; auto; try congruence.
Qed.

(** Whether a receive has happened since the last Load. *)
Fixpoint owes (acc : bool) (sched : list (label V)) : bool :=
  match sched with
  | [] => acc
  | LRecv _ :: r => owes true r
  | LLoad _ :: r => owes false r
  | _ :: r => owes acc r
  end.
Lemma owes_app a : forall acc b, owes acc (a ++ b) = owes (owes acc a) b.
Proof. induction a as [|[] a IH]; intros; cbn; auto. Qed.

Lemma owes_split sched : forall acc, owes acc sched = true ->
  (exists a c b, sched = a ++ LRecv c :: b /\ (forall d, ~ In (LLoad d) b)) \/
  (acc = true /\ forall d, ~ In (LLoad d) sched).
Proof.
  induction sched as [|l r IH]; intros acc H; cbn in H; [right; auto|].
  assert (K : forall acc', owes acc' r = true -> (acc' = true -> exists c, l = LRecv c) \/ True) by auto.
  destruct l as [v| |c|c].
  - destruct (IH _ H) as [(a & c & b & -> & Hb)|[-> Hn]].
    + left. exists (LPut v :: a), c, b. auto.
    + right. split; auto. intros d [E|Hd]; [discriminate|]. now apply (Hn d).
  - destruct (IH _ H) as [(a & c & b & -> & Hb)|[-> Hn]].
    + left. exists (LAppend :: a), c, b. auto.
    + right. split; auto. intros d [E|Hd]; [discriminate|]. now apply (Hn d).
  - destruct (IH _ H) as [(a & c' & b & -> & Hb)|[_ Hn]].
    + left. exists (LRecv c :: a), c', b. auto.
    + left. exists [], c, r. auto.
  - destruct (IH _ H) as [(a & c' & b & -> & Hb)|[Hf _]]; [|discriminate].
    left. exists (LLoad c :: a), c', b. auto.
Qed.

Lemma owes_inv (sched : list (label V)) s evs : run step init sched = Some (s, evs) ->
  chan s = None -> backlog s ++ olist (holder s) <> [] -> owes false sched = true.
Proof.
  revert sched s evs.
  apply (run_inv step init (fun sched _ s => chan s = None -> backlog s ++ olist (holder s) <> [] -> owes false sched = true)).
  - cbn. congruence.
  - intros sched evs s l s' e _ IH H Hc Hb. rewrite owes_app.
    destruct l as [v| |c|c]; unfold step in H.
    + destruct (holder s) eqn:Eh; [discriminate|].
      destruct (backlog s) as [|b bs] eqn:Eb; [destruct (chan s) eqn:Ec|];
        injection H as <- <-; cbn in *; try discriminate. apply IH; auto. discriminate.
    + destruct (holder s) eqn:Eh; [|discriminate]. injection H as <- <-. cbn in *.
      apply IH; auto. intros E. apply app_eq_nil in E. destruct E; discriminate.
    + reflexivity.
    + exfalso. destruct (holder s) eqn:Eh; [discriminate|].
      destruct (backlog s) as [|b bs] eqn:Eb; [|destruct (chan s) eqn:Ec]; injection H as <- <-;
        cbn in *; try congruence. rewrite Eb, Eh in Hb. cbn in Hb. congruence.
Qed.

Lemma no_stall (sched : list (label V)) s evs : run step init sched = Some (s, evs) ->
  all_loaded sched -> buffered s <> [] -> chan s <> None.
Proof.
  intros H HA HB Hc. unfold buffered in HB. rewrite Hc in HB. cbn in HB.
  pose proof (owes_inv _ _ _ H Hc HB) as Ho.
  destruct (owes_split _ _ Ho) as [(a & c & b & -> & Hb)|[Hf _]]; [|discriminate].
  apply (Hb c). exact (HA a c b eq_refl).
Qed.

Lemma recv_enabled (sched : list (label V)) s evs c : run step init sched = Some (s, evs) ->
  all_loaded sched -> forall v rest, puts sched = received evs ++ v :: rest ->
  exists s', step s (LRecv c) = Some (s', [ERecv c v]).
Proof.
  intros H HA v rest Hp. destruct (conserve _ _ _ H) as [Hq _]. rewrite Hp in Hq.
  apply app_inv_head in Hq.
  assert (Hn : chan s <> None).
  { apply (no_stall _ _ _ H HA). rewrite <- Hq. discriminate. }
  destruct (chan s) as [w|] eqn:Ec; [|congruence]. unfold buffered in Hq. rewrite Ec in Hq.
  cbn in Hq. injection Hq as -> _. unfold step. rewrite Ec. eexists. reflexivity.
Qed.
End P.
