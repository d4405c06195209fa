(** Properties C52 and C53: cron fields. *)
From Coq Require Import List ZArith Bool Lia.
From Verif Require Import CronModel CronSpec CronProofs.
Import ListNotations.
Open Scope Z_scope.

(** ** C52: a field expression matches exactly the times it stands for.  Missing from
    the full statement: ranges that wrap around and have a step other than 1. *)
Theorem C52_field_matching_partial : forall t e, legal t e -> no_stepped_wrap e ->
  exists set, parseExpress 60 (write e) t = Some (Some set) /\
    forall x, IsMatch set t x = true <-> means t e (part t x).
Proof.
  intros t e Hl Hw. destruct (parse_ok t e Hl) as (l & E & HL). exists l. split; [exact E|].
  intros x. rewrite match_iff, HL, <- part_component. exact (does_means t e Hl Hw _).
Qed.
Print Assumptions C52_field_matching_partial.
(** "10-23/5" for hours: 10, 15, 20. *)
Definition str10 : gostring := [49; 48].   Definition str23 : gostring := [50; 51].   Definition str5 : gostring := [53].
Definition str3 : gostring := [51].        Definition str2 : gostring := [50].        Definition str7 : gostring := [55].
Ltac num := split; [discriminate|let x := fresh in let H := fresh in intros x H; cbn in H; repeat destruct H as [<-|H]; try contradiction; lia].
Ltac bnd := split; [num|vm_compute; split; discriminate].
Definition ex52 : expr := mkExpr (Items [Range str10 str23]) (Some str5).
Example C52_case : legal Hour ex52 /\ no_stepped_wrap ex52 /\ parseExpress 60 (write ex52) Hour = Some (Some [20; 15; 10]).
Proof.
  split; [|split; [right; intros a b [E|[]]; injection E as <- <-; vm_compute; discriminate|reflexivity]].
  split; [split; [discriminate|intros i [<-|[]]; split; bnd]|]. split; [num|vm_compute; split; reflexivity].
Qed.
(** A list with Sunday as 7 and a wrapped range: "2,5-7". *)
Example C52_case_list : let e := mkExpr (Items [Val str2; Range str5 str7]) None in
  legal Weekday e /\ no_stepped_wrap e /\ parseExpress 60 (write e) Weekday = Some (Some [0; 6; 5; 2]).
Proof.
  cbv zeta. split; [|split; [now left|reflexivity]]. split; [|exact I]. split; [discriminate|].
  intros i [<-|[<-|[]]]; [bnd|split; bnd].
Qed.
(** The full statement is false: for "23-3/2" hours the steps from 23 are 23, 1, 3; the
    code matches 23, 0 and 2. *)
Theorem C52_stepped_wrap_refuted : exists t e set x y,
  legal t e /\ parseExpress 60 (write e) t = Some (Some set) /\
  IsMatch set t x = true /\ ~ means t e (part t x) /\ IsMatch set t y = false /\ means t e (part t y).
Proof.
  exists Hour, (mkExpr (Items [Range str23 str3]) (Some str2)), [2; 0; 23], (mkTime 0 1 1 2 0 0), (mkTime 0 1 1 1 0 0).
  split; [split; [split; [discriminate|intros i [<-|[]]; split; bnd]|split; [num|vm_compute; split; reflexivity]]|].
  split; [reflexivity|]. split; [reflexivity|]. split.
  - intros (i & [<-|[]] & H). change (stepped 23 23 2 2 \/ 0 <= 2 /\ stepped 23 (3 + (23 - 0 + 1)) 2 (2 + (23 - 0 + 1))) in H.
    destruct H as [(k & H1 & H2 & H3)|(_ & k & H1 & H2 & H3)]; lia.
  - split; [reflexivity|]. exists (Range str23 str3). split; [now left|].
    change (stepped 23 23 2 1 \/ 0 <= 1 /\ stepped 23 (3 + (23 - 0 + 1)) 2 (1 + (23 - 0 + 1))). right. split; [lia|]. exists 1. lia.
Qed.
Print Assumptions C52_stepped_wrap_refuted.
(** The steps that are not legal there are those with which the sum wraps around: the range from
    59 to 59 with such a step matches minute 57. *)
Theorem C52_huge_step_refuted : exists t a b f set x, numeral a /\ numeral b /\ numeral f /\
  least t <= value a <= value b /\ value b <= greatest t /\ value f = 2 ^ 63 - 1 /\
  parseExpress 62 (write (mkExpr (Items [Range a b]) (Some f))) t = Some (Some set) /\
  IsMatch set t x = true /\ ~ value a <= part t x <= value b.
Proof.
  exists Minute, [53; 57], [53; 57], [57; 50; 50; 51; 51; 55; 50; 48; 51; 54; 56; 53; 52; 55; 55; 53; 56; 48; 55]. eexists. exists (mkTime 0 1 1 0 57 0).
  split; [num|]. split; [num|]. split; [num|]. split; [vm_compute; split; discriminate|]. split; [vm_compute; discriminate|]. split; [vm_compute; reflexivity|].
  split; [vm_compute; reflexivity|]. split; [vm_compute; reflexivity|]. vm_compute. intros [H _]. apply H. reflexivity.
Qed.
Print Assumptions C52_huge_step_refuted.
(** What the code does with every legal expression: after a wrap-around the step starts
    again from the smallest value. *)
Theorem C52_as_coded : forall t e, legal t e ->
  exists set, parseExpress 60 (write e) t = Some (Some set) /\ forall x, IsMatch set t x = true <-> does t e (part t x).
Proof. intros t e Hl. destruct (parse_ok t e Hl) as (l & E & HL). exists l. split; [exact E|]. intros x. rewrite match_iff, HL, <- part_component. reflexivity. Qed.
Print Assumptions C52_as_coded.

(** ** C53: building an expression never ends for some strings: with step 0 the loop runs
    for ever. *)
Theorem C53_zero_step_refuted : exists express t, forall fuel, parseExpress fuel express t = None.
Proof.
  exists [star; slash; 48], Second. intros fuel. unfold parseExpress.
  change (contains [star; slash; 48] slash) with true. cbv iota.
  change (atoi (subString [star; slash; 48] (index [star; slash; 48] slash + 1) (-1))) with (Some 0). cbv iota.
  change (subString [star; slash; 48] 0 (index [star; slash; 48] slash)) with [star].
  unfold parse_with. rewrite Z.eqb_refl. rewrite loop_zero by (cbn; lia). reflexivity.
Qed.
Print Assumptions C53_zero_step_refuted.
(** With a negative step every number of rounds below 2^63 / |step| is too small: "*/-1"
    needs 2^63 rounds. *)
Theorem C53_negative_step_refuted : forall t d fuel, numeral d -> 0 < value d <= 2 ^ 63 -> Z.of_nat fuel * value d <= 2 ^ 63 ->
  parseExpress fuel ([42; 47; 45] ++ d) t = None. (* "*/-d" *)
Proof.
  intros t d fuel Hn Hv Hfu0. assert (Ha : atoi (dash :: d) = Some (- value d)).
  { unfold atoi. rewrite Z.eqb_refl, (digits_numeral d Hn). cbn [option_map]. unfold int64.
    destruct (Z.leb_spec (- 2 ^ 63) (- value d)); [|lia]. destruct (Z.ltb_spec (- value d) (2 ^ 63)); [reflexivity|lia]. }
  change ([42; 47; 45] ++ d) with ([star; slash] ++ dash :: d). set (s := dash :: d) in *. set (f := - value d) in *.
  assert (Hf : f < 0) by (unfold f; lia). assert (Hfu : Z.of_nat fuel * (- f) <= 2 ^ 63) by (unfold f; rewrite Z.opp_involutive; exact Hfu0). clearbody s f. change ([star; slash] ++ s) with ([star] ++ slash :: s).
  assert (Hp : plain slash [star]) by (intros x [<-|[]]; unfold star, slash; lia).
  unfold parseExpress. rewrite contains_app. replace (contains (slash :: s) slash) with true by reflexivity. rewrite orb_true_r.
  rewrite sub_before, sub_after by exact Hp. rewrite Ha. unfold parse_with. rewrite Z.eqb_refl. pose proof (bounds t).
  rewrite loop_neg by lia. reflexivity.
Qed.
Print Assumptions C53_negative_step_refuted.
Example C53_negative_case : forall n, Z.of_nat n <= 2 ^ 63 -> parseExpress n [42; 47; 45; 49] Minute = None.
Proof. intros n Hn. apply (C53_negative_step_refuted Minute [49]); [num|change (value [49]) with 1; lia|change (value [49]) with 1; lia]. Qed.
(** Every other string is dealt with in at most 62 rounds of any loop: those without a
    slash, those whose step is not a number, and those whose step is positive. *)
Theorem C53_terminates_partial : forall s t,
  (contains s slash = true -> forall f, atoi (subString s (index s slash + 1) (-1)) = Some f -> 0 < f) ->
  exists r, parseExpress 62 s t = Some r.
Proof. exact parse_ends. Qed.
Print Assumptions C53_terminates_partial.
(** "é-/,4-" is not an expression, and "1-90/3" leaves an empty set. *)
Example C53_case : parseExpress 60 [233; dash; slash; comma; 52; dash] Day = Some None /\
  parseExpress 60 [49; dash; 57; 48; slash; 51] Day = Some (Some []).
Proof. split; reflexivity. Qed.
(** The step 2^63 - 1: the sum wraps around 30 times before the loop ends. *)
Example C53_huge_case : let s := [53; 57; dash; 53; 57; slash] ++ [57; 50; 50; 51; 51; 55; 50; 48; 51; 54; 56; 53; 52; 55; 55; 53; 56; 48; 55] in
  atoi (subString s (index s slash + 1) (-1)) = Some (2 ^ 63 - 1) /\ parseExpress 60 s Minute = None /\
  exists l, parseExpress 62 s Minute = Some (Some l) /\ In 57 l.
Proof. cbv zeta. split; [vm_compute; reflexivity|]. split; [vm_compute; reflexivity|]. eexists. split; [vm_compute; reflexivity|]. vm_compute. tauto. Qed.
