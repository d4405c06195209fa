(** C133-C135: how a node takes requests. *)
From Coq Require Import List Arith Bool Lia.
From Verif Require Import AcceptModel AcceptSpec.
Import ListNotations.

Lemma fold_spec os : forall p, let q := fold_left apply os p in
  unary q = unary p ++ given os /\ stream q = stream p ++ given_stream os /\
  ((forall h, ~ In (RegisterHandler h) os) /\ service q = service p \/ exists h, last_handler os h /\ service q = Some h).
Proof.
  induction os as [|o os IH]; intros p; cbn.
  - rewrite !app_nil_r. split; [reflexivity|]. split; [reflexivity|]. left. auto.
  - destruct (IH (apply p o)) as (U & S & H). split; [rewrite U; destruct o; cbn; rewrite <- ?app_assoc; reflexivity|]. split; [rewrite S; destruct o; cbn; rewrite <- ?app_assoc; reflexivity|].
    destruct H as [(N & E)|(h & (a & b & -> & N) & E)]; [|right; exists h; split; [exists (o :: a), b; auto|exact E]].
    destruct o as [x| |is|i|h]; cbn in E; try (left; split; [intros h [F|F]; [discriminate F|exact (N h F)]|exact E]).
    right. exists h. split; [exists [], os; auto|exact E].
Qed.
Lemma build_spec os : match build os with
  | None => forall h, ~ In (RegisterHandler h) os
  | Some s => exists h, last_handler os h /\ answer s = chain (given os) h end.
Proof.
  unfold build. destruct (fold_spec os (mkP None [] [] None false)) as (U & _ & H). cbn in U, H. destruct H as [(N & ->)|(h & L & ->)]; [exact N|]. exists h. split; [exact L|]. cbn. rewrite U. destruct (given os); reflexivity.
Qed.

(** ** C133: a request never brings the node down *)
(** Whatever interceptors follow and whatever the handler does. *)
Theorem C133_recovers : forall os s rest, build os = Some s -> given os = recovery :: rest -> forall r, snd (answer s r) <> Panicked.
Proof.
  intros os s rest B G r. pose proof (build_spec os) as H. rewrite B in H. destruct H as (h & _ & ->). rewrite G. change (snd (recovery (chain rest h) r) <> Panicked). unfold recovery. destruct (chain rest h r) as [es [|]]; cbn; discriminate.
Qed.
Print Assumptions C133_recovers.
Theorem C133_node : forall port trac call, exists s, acceptor port trac call = Some s /\ at_addr s = Some port /\ waits s = true /\ forall r, snd (answer s r) <> Panicked.
Proof.
  intros port trac call. unfold acceptor. match goal with |- exists s, build ?os = _ /\ _ => destruct (build os) as [s|] eqn:B end.
  - exists s. split; [reflexivity|]. split; [unfold build in B; cbn in B; injection B as <-; reflexivity|]. split; [unfold build in B; cbn in B; injection B as <-; reflexivity|].
    eapply C133_recovers; [exact B|reflexivity].
  - exfalso. unfold build in B. cbn in B. discriminate.
Qed.
Print Assumptions C133_node.
(** Without the interceptor a request without header would. *)
Example C133_case : exists s t r, acceptor 80 true (fun _ _ => None) = Some s /\ build [RegisterHandler (routing (fun _ _ => None))] = Some t /\ snd (answer s r) = Answer None true /\ snd (answer t r) = Panicked.
Proof. eexists _, _, (mkR None). repeat split. Qed.

(** ** C134: a request is answered with the answer of its actor, or with an error *)
(** A request without message or header is answered with an error, and nothing is called; any
    other is passed to the system once, and answered with what the call leaves, without error. *)
Theorem C134_answer_partial : forall port trac call s, acceptor port trac call = Some s -> forall r,
  ((forall m h, ~ well_formed r m h) /\ snd (answer s r) = Answer None true /\ (forall m h, ~ In (ECall m h) (fst (answer s r)))) \/
  (exists m h, well_formed r m h /\ filter (fun e => match e with ECall _ _ => true | _ => false end) (fst (answer s r)) = [ECall m h] /\
    snd (answer s r) = match call m h with None => Answer None true | Some (res, _) => Answer (Some res) false end).
Proof.
  intros port trac call s A [[[[h|] n]|]]; unfold acceptor, build in A; cbn in A; destruct trac; injection A as <-; cbn; unfold chain, recovery, tracing, routing; cbn.
  1,2: right; exists (mkM (Some h) n), h; split; [split; reflexivity|]; cbn; split; [reflexivity|]; destruct (call _ _) as [[res e]|]; reflexivity.
  all: left; split; [intros m h [E F]; cbn in E; try discriminate; injection E as <-; discriminate F|]; split; [reflexivity|]; intros m h I; cbn in I; intuition discriminate.
Qed.
Print Assumptions C134_answer_partial.
(** An error of the call does not reach the caller: whatever the call leaves is answered as a
    success. *)
Theorem C134_error_refuted : exists call s r m h res, acceptor 80 true call = Some s /\ well_formed r m h /\ call m h = Some (res, true) /\ snd (answer s r) = Answer (Some res) false.
Proof. exists (fun _ _ => Some (0, true)). eexists. exists (mkR (Some (mkM (Some (mkH 4 1)) 3))), (mkM (Some (mkH 4 1)) 3), (mkH 4 1), 0. split; [reflexivity|]. repeat split. Qed.
Print Assumptions C134_error_refuted.
(** With a tracer every request has one span, finished last, also when the handler panics. *)
Theorem C134_span : forall port call s, acceptor port true call = Some s -> forall r, exists es, fst (answer s r) = ESpanStart :: es ++ [ESpanFinish] /\ ~ In ESpanStart es /\ ~ In ESpanFinish es.
Proof.
  intros port call s A [[[[h|] n]|]]; unfold acceptor, build in A; cbn in A; injection A as <-; cbn; unfold chain, recovery, tracing, routing; cbn.
  - exists [ECall (mkM (Some h) n) h]. split; [reflexivity|]. cbn. split; intros [E|[]]; discriminate.
  - exists []. repeat split; intros [].
  - exists []. repeat split; intros [].
Qed.
Print Assumptions C134_span.
Example C134_case : exists s, acceptor 80 true (fun m h => Some (payload m + target h, false)) = Some s /\ answer s (mkR (Some (mkM (Some (mkH 4 1)) 3))) = ([ESpanStart; ECall (mkM (Some (mkH 4 1)) 3) (mkH 4 1); ESpanFinish], Answer (Some 7) false).
Proof. eexists. split; reflexivity. Qed.

(** ** C135: interceptors run in the order given, each around the next *)
Theorem C135_order_partial : forall os s ns, build os = Some s -> given os = map noting ns -> exists h, last_handler os h /\ forall r,
  answer s r = (map (fun n => EUser (2 * n)) ns ++ fst (h r) ++ map (fun n => EUser (2 * n + 1)) (rev ns), snd (h r)).
Proof.
  intros os s ns B G. pose proof (build_spec os) as H. rewrite B in H. destruct H as (h & L & E). exists h. split; [exact L|]. intros r. rewrite E, G. clear. induction ns as [|n ns IH]; cbn [map fold_right chain rev].
  - rewrite !app_nil_r. apply surjective_pairing.
  - cbn in *. fold (chain (map noting ns) h). unfold noting at 1. rewrite IH. rewrite map_app. cbn. rewrite <- !app_assoc. reflexivity.
Qed.
Print Assumptions C135_order_partial.
(** For all interceptors: the first one given gets a handler that runs the rest. *)
Theorem C135_around : forall os s, build os = Some s -> exists h, last_handler os h /\ forall i rest, given os = i :: rest -> exists k, answer s = i k /\ forall os' s', build os' = Some s' -> given os' = rest -> last_handler os' h -> answer s' = k.
Proof.
  intros os s B. pose proof (build_spec os) as H. rewrite B in H. destruct H as (h & L & E). exists h. split; [exact L|]. intros i rest G. exists (chain rest h). split; [rewrite E, G; reflexivity|].
  intros os' s' B' G' L'. pose proof (build_spec os') as H. rewrite B' in H. destruct H as (h' & (a & b & E1 & N1) & ->). rewrite G'. f_equal. destruct L' as (a' & b' & E2 & N2).
  rewrite E1 in E2. clear - E2 N1 N2. revert a' E2. induction a as [|x a IH]; intros [|x' a'] E2; cbn in E2; [injection E2 as E2 _; exact E2|injection E2 as _ E2|injection E2 as _ E2|injection E2 as _ E2; exact (IH _ E2)].
  - destruct (N1 h). rewrite E2. apply in_elt.
  - destruct (N2 h'). rewrite <- E2. apply in_elt.
Qed.
Print Assumptions C135_around.
(** C133, what the caller gets: where the same server without the recovering interceptor would
    panic, an error; in all other cases the same, and the same happens before. *)
Theorem C133_error : forall os s rest os' s' h, build os = Some s -> given os = recovery :: rest -> last_handler os h -> build os' = Some s' -> given os' = rest -> last_handler os' h ->
  forall r, fst (answer s r) = fst (answer s' r) /\ (snd (answer s' r) = Panicked -> snd (answer s r) = Answer None true) /\ (snd (answer s' r) <> Panicked -> snd (answer s r) = snd (answer s' r)).
Proof.
  intros os s rest os' s' h B G L B' G' L' r. destruct (C135_around os s B) as (h' & L2 & A). destruct (A _ _ G) as (k & -> & K). assert (h' = h) as -> .
  { clear - L L2. destruct L as (a & b & E1 & N1), L2 as (a' & b' & E2 & N2). rewrite E1 in E2. clear E1. revert a' E2. induction a as [|x a IH]; intros [|x' a'] E2; cbn in E2; [injection E2 as -> _; reflexivity|injection E2 as _ E2|injection E2 as _ E2|injection E2 as _ E2; exact (IH _ E2)].
    - destruct (N1 h'). rewrite E2. apply in_elt.
    - destruct (N2 h). rewrite <- E2. apply in_elt. }
  rewrite (K _ _ B' G' L'). unfold recovery. destruct (k r) as [es [res e|]]; cbn; repeat split; try discriminate; try reflexivity. intros N. contradiction.
Qed.
Print Assumptions C133_error.
(** A server is built exactly when a handler is registered. *)
Theorem C135_handler : forall os, build os = None <-> forall h, ~ In (RegisterHandler h) os.
Proof.
  intros os. pose proof (build_spec os) as H. destruct (build os) as [s|]; [|split; [intros _; exact H|reflexivity]]. split; [discriminate|]. intros N. destruct H as (h & (a & b & -> & _) & _). destruct (N h). apply in_elt.
Qed.
Print Assumptions C135_handler.
(** Interceptors of streams are taken and never run. *)
Theorem C135_stream_refuted : forall n h, exists s, build [AppendStream (noting n); RegisterHandler h] = Some s /\ forall r, answer_stream s r = h r /\ fst (answer_stream s r) <> EUser (2 * n) :: fst (h r) ++ [EUser (2 * n + 1)].
Proof.
  intros n h. eexists. split; [reflexivity|]. intros r. split; [reflexivity|]. cbn [answer_stream]. intros E. apply (f_equal (@length event)) in E. cbn in E. rewrite app_length in E. cbn in E. lia.
Qed.
Print Assumptions C135_stream_refuted.
Example C135_case : exists s, build [AppendUnary [noting 1]; RegisterHandler (routing (fun _ _ => Some (5, false))); AppendUnary [noting 2]] = Some s /\ answer s (mkR (Some (mkM (Some (mkH 4 1)) 3))) = ([EUser 2; EUser 4; ECall (mkM (Some (mkH 4 1)) 3) (mkH 4 1); EUser 5; EUser 3], Answer (Some 5) false).
Proof. eexists. split; reflexivity. Qed.
