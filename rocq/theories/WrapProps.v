(** C166 to C169: what message wrappers share.
    Model: [WrapModel].  Vocabulary: [WrapSpec].  Invariants: [WrapProofs]. *)
From Coq Require Import List Arith Lia.
From Verif Require Import Machine MachineMore WrapModel WrapSpec WrapProofs.
Import ListNotations.

(** ** C166  Messages of one call tree are waited for together *)

(** Two wrappers hand out the same wait group exactly if their contexts belong to the same call
    tree: whoever waits for one of them waits for all of these and for no others. *)
Theorem C166_same sched s evs n m g h c d : run step init sched = Some (s, evs) ->
  In (VWg n g) evs -> In (VWg m h) evs -> context_of evs n c -> context_of evs m d ->
  (g = h <-> exists r, tree evs c r /\ tree evs d r).
Proof.
  intros H A B Cn Cm. destruct (groups_run _ _ _ H) as (R & G).
  destruct (read_run _ _ _ H _ _ A) as (w & A1 & A2). destruct (read_run _ _ _ H _ _ B) as (u & B1 & B2).
  destruct (g_ctx _ _ _ G _ _ Cn) as (w' & A3 & A4). destruct (g_ctx _ _ _ G _ _ Cm) as (u' & B3 & B4).
  rewrite A1 in A3. injection A3 as <-. rewrite B1 in B3. injection B3 as <-. rewrite A4 in A2. rewrite B4 in B2.
  destruct (g_wrap _ _ _ G _ _ A1) as (_ & i & A5). destruct (g_wrap _ _ _ G _ _ B1) as (_ & j & B5).
  rewrite A4, A2 in A5. rewrite B4, B2 in B5. injection A5 as ->. injection B5 as ->.
  destruct (g_tree _ _ _ G _ _ A2) as (r & A6 & A7). destruct (g_tree _ _ _ G _ _ B2) as (q & B6 & B7). split.
  - intros [= <-]. rewrite A6 in B6. injection B6 as <-. eauto.
  - intros (z & Z1 & Z2). destruct (tree_state _ _ _ _ _ G Z1) as (k1 & K1 & K2). destruct (tree_state _ _ _ _ _ G Z2) as (k2 & K3 & K4).
    rewrite A2 in K1. injection K1 as <-. rewrite B2 in K3. injection K3 as <-. f_equal.
    eapply (proj1 (NoDup_nth_error R) (g_dup _ _ _ G)); [apply nth_error_Some; congruence|congruence].
Qed.
Print Assumptions C166_same.

(** GetWg always finds a wait group. *)
Theorem C166_some sched s evs n : run step init sched = Some (s, evs) ->
  (exists c, context_of evs n c) -> exists g, step s (LWg n) = Some (s, [VWg n (Some g)]).
Proof.
  intros H (c & C). destruct (groups_run _ _ _ H) as (R & G). destruct (g_ctx _ _ _ G _ _ C) as (w & A & _).
  destruct (g_wrap _ _ _ G _ _ A) as (_ & g & B). exists g. cbn. now rewrite A, B.
Qed.
Print Assumptions C166_some.

(** Two messages are made from a context without a group, so each begins a tree; a third is made
    from the context of the first and shares its group. *)
Example C166_case : exists s evs, run step init [LContext None; LNew 0 []; LNew 0 []; LNew 1 []; LWg 0; LWg 1; LWg 2] = Some (s, evs) /\
  In (VWg 0 (Some 0)) evs /\ In (VWg 1 (Some 1)) evs /\ In (VWg 2 (Some 0)) evs /\ context_of evs 0 1 /\ context_of evs 1 2 /\ context_of evs 2 3.
Proof.
  eexists _, _. split; [reflexivity|]. cbn. do 3 (split; [tauto|]). split; [|split].
  - exists 0. left. cbn. tauto.
  - exists 0. left. cbn. tauto.
  - exists 1. left. cbn. tauto.
Qed.

(** ** C167  Swap exchanges request and reply *)
Definition other (d : side) : side := match d with Request => Reply | Reply => Request end.
(** What is read on one side of a wrapper is read on the other side of the wrapper swapped from it. *)
Definition exchanged (evs : list event) : Prop :=
  forall x y n m c d v u, evs = x ++ VGot m d v :: VSwap n m c :: VGot n (other d) u :: y -> u = v.
Theorem C167_refuted : exists sched s evs, run step init sched = Some (s, evs) /\ ~ exchanged evs.
Proof.
  exists [LContext None; LNew 0 []; LSet 0 Request 5; LGet 0 Request; LSwap 0; LGet 1 Reply].
  eexists _, _. split; [reflexivity|]. intros E. discriminate (E [_; _; _] [] 1 0 2 Request 5 0 eq_refl).
Qed.
Print Assumptions C167_refuted.

(** Swap leaves both sides where they are, in every run. *)
Theorem C167_kept sched s evs x y n m c d v u : run step init sched = Some (s, evs) ->
  evs = x ++ VGot m d v :: VSwap n m c :: VGot n d u :: y -> u = v.
Proof.
  intros H E. destruct (run_split _ _ _ _ _ _ _ _ H E) as (a & l & b & t & t' & e1 & p & q & e2 & _ & H1 & S & H2 & _ & E2).
  destruct (one_event _ _ _ _ S) as (w & W).
  assert (p = [] /\ q = []) as [-> ->] by (destruct p as [|? [|]]; cbn in W; [injection W as _ ->; auto|discriminate|discriminate]).
  cbn in E2, S. subst e2. apply got_inv in S as (-> & w1 & A1 & A2).
  apply run_next in H2 as (l2 & b2 & t2 & S2 & H2). apply swap_inv in S2 as (w2 & w3 & B1 & B2 & B3 & B4 & B5).
  apply run_next in H2 as (l3 & b3 & t3 & S3 & H2). apply got_inv in S3 as (-> & w4 & C1 & C2).
  rewrite A1 in B1. injection B1 as <-. rewrite B2 in C1. injection C1 as <-. rewrite B3 in C2. destruct d; cbn in *; congruence.
Qed.
Print Assumptions C167_kept.
Example C167_kept_case : exists s, run step init [LContext None; LNew 0 []; LSet 0 Request 5; LGet 0 Request; LSwap 0; LGet 1 Request] =
  Some (s, [VContext 0 None; VNew 0 0 1; VSet 0 Request 5] ++ VGot 0 Request 5 :: VSwap 1 0 2 :: VGot 1 Request 5 :: []).
Proof. eexists. reflexivity. Qed.

(** ** C168  A builder changes no message but its own *)

(** What a wrapper shows on one side was last written on that side through the wrapper itself, or
    through one that is the same but for swaps; if nothing was, it is empty. *)
Theorem C168_own sched s evs x z n d v : run step init sched = Some (s, evs) -> evs = x ++ VGot n d v :: z -> last_set x n d v.
Proof.
  intros H E. destruct (run_split _ _ _ _ _ _ _ _ H E) as (a & l & b & t & t' & e1 & p & q & e2 & _ & H1 & S & _ & Ex & _).
  destruct (one_event _ _ _ _ S) as (w & W).
  assert (p = [] /\ q = []) as [-> ->] by (destruct p as [|? [|]]; cbn in W; [injection W as _ ->; auto|discriminate|discriminate]).
  rewrite app_nil_r in Ex. subst x. cbn in S. apply got_inv in S as (_ & w1 & A1 & A2).
  destruct (values_run _ _ _ H1 n w1 d A1) as (u & B & L). congruence.
Qed.
Print Assumptions C168_own.
(** Both sides of every wrapper can be read. *)
Theorem C168_answered sched s evs n d : run step init sched = Some (s, evs) ->
  (exists c, context_of evs n c) -> exists v, step s (LGet n d) = Some (s, [VGot n d v]).
Proof.
  intros H (c & C). destruct (groups_run _ _ _ H) as (R & G). destruct (g_ctx _ _ _ G _ _ C) as (w & A & _).
  destruct (values_run _ _ _ H n w d A) as (v & B & _). exists v. cbn. now rewrite A, B.
Qed.
Print Assumptions C168_answered.
(** Two messages from one context; the second is swapped, and written through the swapped
    wrapper: the second shows it, the first does not, nor does the other side. *)
Example C168_case : exists s, run step init [LContext None; LNew 0 []; LNew 0 []; LSet 0 Request 5; LSwap 1; LSet 2 Request 7; LGet 1 Request; LGet 0 Request; LGet 1 Reply] =
  Some (s, [VContext 0 None; VNew 0 0 1; VNew 1 0 2; VSet 0 Request 5; VSwap 2 1 3; VSet 2 Request 7] ++ VGot 1 Request 7 :: [VGot 0 Request 5; VGot 1 Reply 0]).
Proof. eexists. reflexivity. Qed.

(** ** C169  Options given to NewBuilder take effect *)

(** A wrapper made with options writes custom fields in the encoding that the options choose.
    (Every call has one event.) *)
Definition options_used (sched : list label) (evs : list event) : Prop :=
  forall i c o n c' k, nth_error sched i = Some (LNew c o) -> nth_error evs i = Some (VNew n c c') ->
  In (VCodec n k) evs -> k = fold_left (fun x f => f x) o default_codec.
Theorem C169_refuted : exists sched s evs, run step init sched = Some (s, evs) /\ ~ options_used sched evs.
Proof.
  exists [LContext None; LNew 0 [fun _ => 1]; LEncode 0]. eexists _, _. split; [reflexivity|]. intros E.
  discriminate (E 1 0 [fun _ => 1] 0 1 0 eq_refl eq_refl (or_intror (or_intror (or_introl eq_refl)))).
Qed.
Print Assumptions C169_refuted.
(** Whatever options are given, everything happens as if none were. *)
Theorem C169_never sched sched' : Forall2 but_options sched sched' -> run step init sched = run step init sched'.
Proof. apply options_run. Qed.
Print Assumptions C169_never.
Example C169_never_case : Forall2 but_options [LContext None; LNew 0 [fun _ => 1]; LEncode 0] [LContext None; LNew 0 []; LEncode 0] /\
  exists s, run step init [LContext None; LNew 0 [fun _ => 1]; LEncode 0] = Some (s, [VContext 0 None; VNew 0 0 1; VCodec 0 0]).
Proof. split; [repeat constructor|eexists; reflexivity]. Qed.
