(** Theorems about builders and loaders: C100 to C104. *)
From Coq Require Import List ZArith Bool String Lia Arith Permutation.
From Verif Require Import Machine MsgModel MsgSpec MsgProofs LoaderModel LoaderSpec LoaderProofs.
Import ListNotations.
Open Scope nat_scope.
Open Scope list_scope.

(** Two types with a map each, as BuildActorFactory makes them. *)
Definition user := mkC (lit "user") (lit "user") 100 0 false true (Some 0).
Definition room := mkC (lit "") (lit "room") 50 3 true false (Some 1).
Definition shop : list (gostr * ctor) := [(lit "user", user); (lit "room", room)].
Lemma shop_separate : separate shop [[]; []].
Proof.
  split; intros ty.
  - intros c. cbn [find shop]. destruct (str_eq (lit "user") ty); [intros H; injection H as <-; exists 0; split; [reflexivity|cbn; lia]|].
    destruct (str_eq (lit "room") ty); [intros H; injection H as <-; exists 1; split; [reflexivity|cbn; lia]|discriminate].
  - intros ty' c c'. cbn [find shop].
    destruct (str_eqP (lit "user") ty) as [<-|]; [|destruct (str_eqP (lit "room") ty) as [<-|]; [|discriminate]];
    (destruct (str_eqP (lit "user") ty') as [<-|]; [|destruct (str_eqP (lit "room") ty') as [<-|]; [|discriminate]]);
    intros H H'; injection H as <-; injection H' as <-; try discriminate; reflexivity.
Qed.
Definition hp := lit "hp".

(** ** C100: options of builders *)
(** GetOpt gives what was last set through any builder of that type, else what the factory
    gave; the same for a loop over GetOptions. *)
Theorem C100_as_coded : forall f m0 sched s evs, separate f m0 -> run step (start f m0) sched = Some (s, evs) ->
  (forall pre post j i k v, evs = pre ++ EGot j i k v :: post ->
     exists ty, type_in pre i = Some ty /\ v = last_set (of_type pre ty) k pre (oget k (given f m0 ty))) /\
  (forall pre post j i m, evs = pre ++ EWalked j i m :: post ->
     exists ty, type_in pre i = Some ty /\ forall k, oget k m = last_set (of_type pre ty) k pre (oget k (given f m0 ty))).
Proof. intros f m0 sched s evs Hs H. split; intros; [eapply got_value|eapply walked_value]; eauto. Qed.
Print Assumptions C100_as_coded.
(** Hence, if options were set through no other builder of the type, a builder shows its
    own.  Missing from the full statement: that others do not matter. *)
Theorem C100_own_partial : forall f m0 sched s evs pre post j i k v, separate f m0 -> run step (start f m0) sched = Some (s, evs) ->
  evs = pre ++ EGot j i k v :: post ->
  (forall j' i' k' v', In (ESet j' i' k' v') pre -> type_in pre i' = type_in pre i -> i' = i) ->
  exists ty, type_in pre i = Some ty /\ v = last_set (Nat.eqb i) k pre (oget k (given f m0 ty)).
Proof.
  intros f m0 sched s evs pre post j i k v Hs H E Ho. destruct (got_value _ _ Hs _ _ _ _ _ _ _ _ _ H E) as (ty & T & ->). exists ty. split; [exact T|].
  apply last_set_ext. intros j' i' k' v' X. unfold of_type. destruct (Nat.eqb_spec i i') as [<-|Hn]; [rewrite T; apply str_eq_refl|].
  destruct (type_in pre i') as [t|] eqn:T'; [|reflexivity]. destruct (str_eqP t ty) as [->|]; [|reflexivity]. exfalso. apply Hn. symmetry. eapply Ho; eauto. congruence.
Qed.
Print Assumptions C100_own_partial.
(** In general it does not: what is set through one builder is seen through another one. *)
Theorem C100_refuted : exists sched s evs v, separate shop [[]; []] /\ run step (start shop [[]; []]) sched = Some (s, evs) /\
  (forall j k w, ~ In (ESet j 1 k w) evs) /\ In (EGot 1 1 hp v) evs /\ oget hp (given shop [[]; []] (lit "user")) = [] /\ v = lit "9".
Proof.
  exists [LBuild (lit "user"); LBegin 0 (OSet hp (lit "9")); LEnd 0; LBuild (lit "user"); LBegin 1 (OGet hp); LEnd 1].
  eexists _, _, _. split; [exact shop_separate|]. split; [vm_compute; reflexivity|]. split.
  - intros j k w X. cbn in X. repeat (destruct X as [X|X]; [discriminate|]). destruct X.
  - split; [cbn; auto 10|]. split; reflexivity.
Qed.
Print Assumptions C100_refuted.
(** A builder of another type in between changes nothing; the last of two writes counts. *)
Example C100_case : exists s evs, run step (start shop [[]; []])
    [LBuild (lit "user"); LBuild (lit "room"); LBegin 0 (OSet hp (lit "9")); LEnd 0; LBegin 1 (OSet hp (lit "7")); LEnd 1;
     LBegin 0 (OSet hp (lit "8")); LEnd 2; LBegin 0 (OGet hp); LEnd 3] = Some (s, evs) /\ In (EGot 3 0 hp (lit "8")) evs.
Proof. eexists _, _. split; [vm_compute; reflexivity|]. cbn. auto 15. Qed.

(** ** C101: builders used by several goroutines *)
(** Two goroutines with a builder each bring the process down. *)
Theorem C101_refuted : exists sched s evs, separate shop [[]; []] /\ run step (start shop [[]; []]) sched = Some (s, evs) /\
  In (EBegin 0 0 (OSet hp (lit "9"))) evs /\ In (EFatal 1 (OSet hp (lit "8"))) evs.
Proof.
  exists [LBuild (lit "user"); LBuild (lit "user"); LBegin 0 (OSet hp (lit "9")); LBegin 1 (OSet hp (lit "8"))].
  eexists _, _. split; [exact shop_separate|]. split; [vm_compute; reflexivity|]. cbn. auto 10.
Qed.
Print Assumptions C101_refuted.
(** It happens only when WithOpt overlaps another call on a builder of the same type: on a
    different builder, or a loop over the result of GetOptions. *)
Theorem C101_cause_partial : forall f m0 sched s evs pre post i o, separate f m0 -> run step (start f m0) sched = Some (s, evs) ->
  evs = pre ++ EFatal i o :: post ->
  post = [] /\ exists j i' o' ty, In (EBegin j i' o') pre /\ ~ ended pre j /\ type_in pre i = Some ty /\ type_in pre i' = Some ty /\
    (is_set o = true \/ is_set o' = true) /\ (i <> i' \/ o = OWalk \/ o' = OWalk).
Proof. intros. eapply fatal_cause; eauto. Qed.
Print Assumptions C101_cause_partial.
(** Calls end: none waits for another once it has begun. *)
Theorem C101_ends : forall f m0 sched s evs j i o, separate f m0 -> run step (start f m0) sched = Some (s, evs) -> crashed s = false ->
  nth_error (calls s) j = Some (Some (i, o)) -> step s (LEnd j) <> None.
Proof. intros. eapply can_end; eauto. Qed.
Print Assumptions C101_ends.
(** Two writers on one builder take turns. *)
Example C101_turns_case : run step (start shop [[]; []]) [LBuild (lit "user"); LBegin 0 (OSet hp (lit "9")); LBegin 0 (OSet hp (lit "8"))] = None /\
  exists s evs, run step (start shop [[]; []]) [LBuild (lit "user"); LBegin 0 (OSet hp (lit "9")); LEnd 0; LBegin 0 (OSet hp (lit "8"))] = Some (s, evs) /\
    crashed s = false /\ nth_error (calls s) 1 = Some (Some (0, OSet hp (lit "8"))).
Proof. split; [vm_compute; reflexivity|]. eexists _, _. split; [vm_compute; reflexivity|]. split; reflexivity. Qed.
(** A loop over GetOptions of the very builder an option is set on. *)
Example C101_walk_case : exists s evs, run step (start shop [[]; []]) [LBuild (lit "user"); LBegin 0 OWalk; LBegin 0 (OSet hp (lit "8"))] = Some (s, evs) /\ crashed s = true.
Proof. eexists _, _. split; [vm_compute; reflexivity|]. reflexivity. Qed.

(** ** C102: the id and type of a builder are its own *)
(** The getters give the id and type last set on this builder, else the factory's, and the
    factory's weight, limit and uniqueness, whatever is done with other builders. *)
Theorem C102_getters : forall f m0 sched s evs pre post i id ty w l u, run step (start f m0) sched = Some (s, evs) ->
  evs = pre ++ EInfo i id ty w l u :: post ->
  exists t c, type_in pre i = Some t /\ find t f = Some c /\ w = c_weight c /\ l = c_limit c /\ u = c_unique c /\
    id = last_id i pre (c_id c) /\ ty = last_type i pre (c_name c).
Proof. intros. eapply info_value; eauto. Qed.
Print Assumptions C102_getters.
(** No builder is ever given the empty id. *)
Theorem C102_not_empty : forall f m0 sched s evs i id, run step (start f m0) sched = Some (s, evs) -> In (ENamed i id) evs -> id <> [].
Proof. intros. eapply named_not_empty; eauto. Qed.
Print Assumptions C102_not_empty.
(** The empty id is refused with a panic and changes nothing; the other builder of the
    type keeps its own id. *)
Example C102_case : exists s evs, run step (start shop [[]; []])
    [LBuild (lit "user"); LBuild (lit "user"); LWithID 0 (lit "u1"); LWithID 0 []; LWithType 1 (lit "vip"); LInfo 0; LInfo 1; LBuild (lit "x")] = Some (s, evs) /\
  evs = [EBuilt (lit "user") (Some 0); EBuilt (lit "user") (Some 1); ENamed 0 (lit "u1"); EPanic 0; ETyped 1 (lit "vip");
         EInfo 0 (lit "u1") (lit "user") 100 0 false; EInfo 1 (lit "user") (lit "vip") 100 0 false; EBuilt (lit "x") None].
Proof. eexists _, _. split; vm_compute; reflexivity. Qed.

(** ** C103: actors created on demand *)
(** The options of the builder that Picker was called on reach the constructor on the
    chosen node, under the name made there.  What is not set shows what the map of that
    type held on that node. *)
Theorem C103_options_arrive : forall f m0 s opts id ty node uuid uid order c,
  factory s = f -> List.length (maps s) = List.length m0 -> separate f m0 -> find ty f = Some c ->
  NoDup (map fst opts) -> (forall k v, In (k, v) opts -> valid k /\ valid v) -> valid id -> valid ty -> valid node -> valid uuid ->
  (forall d, Permutation d (order d)) ->
  exists b1 b2 s' i b, pick opts id ty uid = Some b1 /\ picked node uuid b1 = Some b2 /\ registers s b2 order = Registers s' i /\
    nth_error (builders s') i = Some b /\ b_id b = node ++ underscore ++ ty ++ underscore ++ uuid /\ b_ty b = c_name c /\
    get_opt s' i actor_id_key = node ++ underscore ++ ty ++ underscore ++ uuid /\ get_opt s' i actor_ty_key = ty /\
    (forall k v, ~ reserved k -> In (k, v) opts -> get_opt s' i k = v) /\
    (forall k, ~ reserved k -> ~ In k (map fst opts) -> forall r m, c_opts c = Some r -> nth_error (maps s) r = Some m -> get_opt s' i k = oget k m).
Proof. exact on_demand. Qed.
Print Assumptions C103_options_arrive.
(** So an option that was not set is not empty: it has the value some earlier actor of the
    type was created with. *)
Theorem C103_leftover_refuted : exists a1 a2 s1 i1 b1 b2 s2 i2,
  pick [(hp, lit "9")] (lit "u") (lit "user") "1" = Some a1 /\ picked (lit "n") (lit "x") a1 = Some a2 /\
  registers (start shop [[]; []]) a2 (fun d => d) = Registers s1 i1 /\ get_opt s1 i1 hp = lit "9" /\
  pick [] (lit "u") (lit "user") "2" = Some b1 /\ picked (lit "n") (lit "y") b1 = Some b2 /\
  registers s1 b2 (fun d => d) = Registers s2 i2 /\ i2 <> i1 /\ get_opt s2 i2 hp = lit "9".
Proof.
  eexists _, _, _, _, _, _, _, _. split; [vm_compute; reflexivity|]. split; [vm_compute; reflexivity|]. split; [vm_compute; reflexivity|]. split; [vm_compute; reflexivity|].
  split; [vm_compute; reflexivity|]. split; [vm_compute; reflexivity|]. split; [vm_compute; reflexivity|]. split; [discriminate|vm_compute; reflexivity].
Qed.
Print Assumptions C103_leftover_refuted.
Example C103_case : factory (start shop [[]; []]) = shop /\ separate shop [[]; []] /\ find (lit "user") shop = Some user /\
  NoDup (map fst [(hp, lit "9"); (lit "hat", lit "red")]) /\ (forall k v, In (k, v) [(hp, lit "9"); (lit "hat", lit "red")] -> valid k /\ valid v) /\
  (forall d : list (gostr * gval), Permutation d (rev d)) /\ ~ reserved hp.
Proof.
  split; [reflexivity|]. split; [exact shop_separate|]. split; [reflexivity|]. split.
  { constructor; [intros [X|[]]; discriminate|]. constructor; [intros []|constructor]. }
  split; [intros k v [X|[X|[]]]; injection X as <- <-; split; apply lit_valid|]. split; [apply Permutation_rev|]. intros [X|X]; discriminate.
Qed.
(** A type the node does not know stops the handler, and so does a field that is no string. *)
Example C103_unknown_case : exists a1 a2, pick [] (lit "u") (lit "dragon") "1" = Some a1 /\ picked (lit "n") (lit "x") a1 = Some a2 /\
  registers (start shop [[]; []]) a2 (fun d => d) = Panics.
Proof. eexists _, _. split; [vm_compute; reflexivity|]. split; [vm_compute; reflexivity|]. vm_compute. reflexivity. Qed.
Example C103_number_case : exists a1 a2, pick [] (lit "u") (lit "user") "1" = Some a1 /\ WithCustomFields Req [(lit "level", GInt Int 3)] a1 = Some a2 /\
  registers (start shop [[]; []]) a2 (fun d => d) = Panics.
Proof. eexists _, _. split; [vm_compute; reflexivity|]. split; [vm_compute; reflexivity|]. vm_compute. reflexivity. Qed.

(** ** C104: the actors a node starts with *)
(** In whatever order the factory lists its constructors, Register is called for each one
    that is not dynamic and for no other, once, under the node's name. *)
Theorem C104_static : forall f node l, Permutation (map snd f) l -> NoDup (map fst f) -> (forall k c, In (k, c) f -> k = c_name c) ->
  exists regs, assign f node l = Some regs /\ NoDup (map snd regs) /\
    forall id ty, In (id, ty) regs <-> exists c, In c (map snd f) /\ c_dynamic c = false /\ ty = c_name c /\
      id = node ++ underscore ++ (match c_id c with [] => c_name c | x => x end).
Proof.
  intros f node l P Hn Hk.
  assert (Fi : forall k c, In (k, c) f -> find k f = Some c).
  { clear P Hk. induction f as [|[a c0] f IH]; intros k c H; [destruct H|]. cbn [find]. inversion Hn; subst. destruct H as [H|H].
    - injection H as -> ->. now rewrite str_eq_refl.
    - destruct (str_eqP a k) as [->|]; [exfalso; apply H2; apply in_map_iff; now exists (k, c)|]. now apply IH. }
  assert (Hl : forall c, In c l <-> In c (map snd f)) by (intros c; split; intros H; [eapply Permutation_in; [apply Permutation_sym; exact P|exact H]|eapply Permutation_in; [exact P|exact H]]).
  assert (Hname : map c_name (map snd f) = map fst f) by (rewrite map_map; apply map_ext_in; intros [k c] H; symmetry; eapply Hk; eauto).
  eexists. split; [apply assign_ok|].
  - intros c H D. apply Hl in H. apply in_map_iff in H as ([k c'] & E & H). cbn in E. subst c'. rewrite <- (Hk k c H). now apply Fi.
  - split.
    + rewrite map_map. cbn [snd]. assert (Hnl : NoDup (map c_name l)) by (eapply Permutation_NoDup; [apply Permutation_map; exact P|rewrite Hname; exact Hn]).
      clear - Hnl. induction l as [|c l IH]; cbn [filter map]; [constructor|]. cbn [map] in Hnl. inversion Hnl; subst. destruct (c_dynamic c); cbn [negb map]; [auto|].
      constructor; [|auto]. intros X. apply H1. apply in_map_iff in X as (c' & E & X). apply filter_In in X as [X _]. apply in_map_iff. now exists c'.
    + intros id ty. rewrite in_map_iff. split.
      * intros (c & E & X). apply filter_In in X as [X D]. injection E as <- <-. exists c. rewrite <- Hl. apply negb_true_iff in D. auto.
      * intros (c & X & D & -> & ->). exists c. split; [reflexivity|]. apply filter_In. rewrite Hl. split; [exact X|]. now rewrite D.
Qed.
Print Assumptions C104_static.
Example C104_case : Permutation (map snd shop) [room; user] /\ NoDup (map fst shop) /\ (forall k c, In (k, c) shop -> k = c_name c) /\
  assign shop (lit "n1") [room; user] = Some [(lit "n1_room", lit "room")].
Proof.
  split; [apply perm_swap|]. split; [constructor; [intros [X|[]]; discriminate|constructor; [intros []|constructor]]|]. split.
  - intros k c [X|[X|[]]]; injection X as <- <-; reflexivity.
  - vm_compute. reflexivity.
Qed.
(** A constructor listed under a name that is not its own stops the node. *)
Example C104_misnamed_case : assign [(lit "hall", room)] (lit "n1") [room] = None.
Proof. vm_compute. reflexivity. Qed.
