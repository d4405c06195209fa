(** Properties C173 and C174: a number handed from actor to actor. *)
From Coq Require Import List ZArith Bool String Lia.
From Verif Require Import MsgModel MsgSpec MsgProofs NestModel NestSpec NestProofs.
Import ListNotations.
Open Scope Z_scope.
Open Scope list_scope.

(** Messages as a caller makes them. *)
Definition with_number (v : Z) : option builder := WithCustomFields Req [(randvalue, GInt Int v)] (NewBuilder [] "m").
Ltac settle := repeat (split; [vm_compute; reflexivity|]).
Lemma sound_new b : (exists h, hdr Req b = Some h /\ exists d, read_map (Custom h) = Some (Some d)) -> (exists h, hdr Res b = Some h /\ Custom h = CEmpty) -> reqH b <> resH b -> err b = false -> sound b.
Proof. intros (h & H & C) (h' & H' & C') N E. split; [exists h; auto|]. split; [exists h'; auto|]. auto. Qed.

(** ** C173: every actor on the way adds one *)
(** Wherever the three actors live, the response has the number of the request and three.
    Missing from the full statement: numbers near 2^53 and beyond, and requests whose custom
    fields are no JSON object. *)
Theorem C173_three_partial : forall pa pb pc b v, sound b -> holds Req b randvalue v -> Z.abs v + 3 <= 2 ^ 53 ->
  exists b', test_block pa pb pc b = Some b' /\ err b' = false /\ holds Res b' randvalue (v + 3).
Proof.
  intros pa pb pc b v S V Hz. destruct (call_ok pa [pb; pc] b v S V) as (b' & E & S' & V' & _); [cbn; lia|]. exists b'. split; [exact E|]. split; [apply S'|].
  cbn [List.length Z.of_nat] in V'. replace (v + 3) with (v + Z.of_nat 2 + 1) by lia. exact V'.
Qed.
Print Assumptions C173_three_partial.
(** Any number of actors: one more for each. *)
Theorem C173_any_partial : forall p ps b v, sound b -> holds Req b randvalue v -> Z.abs v + Z.of_nat (List.length (p :: ps)) <= 2 ^ 53 ->
  exists b', call p ps b = Some b' /\ err b' = false /\ holds Res b' randvalue (v + Z.of_nat (List.length (p :: ps))).
Proof.
  intros p ps b v S V Hz. cbn [List.length] in *. destruct (call_ok p ps b v S V) as (b' & E & S' & V' & _); [lia|]. exists b'. split; [exact E|]. split; [apply S'|].
  replace (v + Z.of_nat (Datatypes.S (List.length ps))) with (v + Z.of_nat (List.length ps) + 1) by lia. exact V'.
Qed.
Print Assumptions C173_any_partial.
(** At 2^53 nothing is added: JSON numbers are read as float64. *)
Theorem C173_large_refuted : exists b b', with_number (2 ^ 53) = Some b /\ sound b /\ holds Req b randvalue (2 ^ 53) /\
  test_block Local Local Local b = Some b' /\ err b' = false /\ holds Res b' randvalue (2 ^ 53).
Proof.
  eexists _, _. split; [vm_compute; reflexivity|]. split.
  { apply sound_new; [eexists; split; [reflexivity|eexists; vm_compute; reflexivity]|eexists; split; reflexivity|discriminate|reflexivity]. }
  settle. vm_compute. reflexivity.
Qed.
Print Assumptions C173_large_refuted.
(** A request that carries an object instead of fields: two of the actors add nothing, the call
    goes on and the response says 1. *)
Theorem C173_object_refuted : exists b b', WithCustomObject Req (Some (CBytes [129; 161; 97; 7])) (NewBuilder [] "m") = Some b /\
  test_block Local Local Local b = Some b' /\ holds Req b randvalue 0 /\ holds Res b' randvalue 1.
Proof. eexists _, _. settle. vm_compute. reflexivity. Qed.
Print Assumptions C173_object_refuted.
Example C173_case : exists b b', with_number (-7) = Some b /\ sound b /\ holds Req b randvalue (-7) /\ Z.abs (-7) + 3 <= 2 ^ 53 /\
  test_block Local (Remote "x") Local b = Some b' /\ holds Res b' randvalue (-4).
Proof.
  eexists _, _. split; [vm_compute; reflexivity|]. split.
  { apply sound_new; [eexists; split; [reflexivity|eexists; vm_compute; reflexivity]|eexists; split; reflexivity|discriminate|reflexivity]. }
  split; [vm_compute; reflexivity|]. split; [lia|]. split; [vm_compute; reflexivity|vm_compute; reflexivity].
Qed.
(** A message without the field counts as zero. *)
Example C173_missing_case : sound (NewBuilder [] "m") /\ holds Req (NewBuilder [] "m") randvalue 0.
Proof.
  split; [|vm_compute; reflexivity]. split; [eexists; split; [reflexivity|left; reflexivity]|]. split; [eexists; split; [reflexivity|left; reflexivity]|]. split; [discriminate|reflexivity].
Qed.

(** ** C174: where the actors live makes no difference to the caller *)
(** The response to a message whose response has no fields is the same document wherever the
    actors live. *)
Theorem C174_response_partial : forall p ps p' ps' b v h, sound b -> holds Req b randvalue v -> Z.abs v + Z.of_nat (List.length (p :: ps)) <= 2 ^ 53 ->
  hdr Res b = Some h -> Custom h = CEmpty -> List.length ps = List.length ps' ->
  exists b1 b2 h1 h2, call p ps b = Some b1 /\ call p' ps' b = Some b2 /\ hdr Res b1 = Some h1 /\ hdr Res b2 = Some h2 /\ Custom h1 = Custom h2 /\ Custom h1 <> CEmpty.
Proof.
  intros p ps p' ps' b v h S V Hz Hh Hc El. cbn [List.length] in Hz.
  destruct (call_ok p ps b v S V) as (b1 & E1 & _ & _ & _ & _ & _ & C1); [lia|]. destruct (call_ok p' ps' b v S V) as (b2 & E2 & _ & _ & _ & _ & _ & C2); [lia|].
  destruct (C1 h Hh Hc) as (h1 & H1 & X1), (C2 h Hh Hc) as (h2 & H2 & X2). exists b1, b2, h1, h2. repeat (split; [assumption|]). rewrite X1, X2, El. split; [reflexivity|discriminate].
Qed.
Print Assumptions C174_response_partial.
(** Other fields of the response stay as they were if no call leaves the node, and are gone
    otherwise; other fields of the request stay in any case. *)
Theorem C174_other_fields : forall p ps b v k, sound b -> holds Req b randvalue v -> Z.abs v + Z.of_nat (List.length (p :: ps)) <= 2 ^ 53 -> valid k -> k <> randvalue ->
  exists b', call p ps b = Some b' /\ alike Req b' b k /\
    forall t, GetCustomField Res b' k t = if forallb here (p :: ps) then GetCustomField Res b k t else Got (zero t).
Proof.
  intros p ps b v k S V Hz Hk Hne. cbn [List.length] in Hz. destruct (call_ok p ps b v S V) as (b' & E & _ & _ & _ & KQ & K & _); [lia|]. exists b'. split; [exact E|]. split; [now apply KQ|now apply K].
Qed.
Print Assumptions C174_other_fields.
(** The request itself is changed by the actors that share it with the caller: one for each that
    hands the number on before the first call to another node. *)
Theorem C174_request : forall p ps b v, sound b -> holds Req b randvalue v -> Z.abs v + Z.of_nat (List.length (p :: ps)) <= 2 ^ 53 ->
  exists b', call p ps b = Some b' /\ holds Req b' randvalue (match p with Local => v + bumps ps | Remote _ => v end).
Proof.
  intros p ps b v S V Hz. cbn [List.length] in Hz. destruct (call_ok p ps b v S V) as (b' & E & _ & _ & Q & _); [lia|]. exists b'. split; [exact E|exact Q].
Qed.
Print Assumptions C174_request.
(** So the caller sees the difference: in the request it sent, and in what the response held. *)
Theorem C174_refuted : exists b0 b b1 b2 k, with_number 5 = Some b0 /\ WithCustomFields Res [(k, GBool true)] b0 = Some b /\ sound b /\
  test_block Local Local Local b = Some b1 /\ test_block (Remote "x") Local Local b = Some b2 /\
  holds Req b1 randvalue 7 /\ holds Req b2 randvalue 5 /\
  GetCustomField Res b1 k TBool = Got (GBool true) /\ GetCustomField Res b2 k TBool = Got (GBool false).
Proof.
  eexists _, _, _, _, [Rune 97]. split; [vm_compute; reflexivity|]. split; [vm_compute; reflexivity|]. split.
  { split; [eexists; split; [reflexivity|right; eexists; vm_compute; reflexivity]|]. split; [eexists; split; [reflexivity|right; eexists; vm_compute; reflexivity]|]. split; [discriminate|reflexivity]. }
  settle. vm_compute. reflexivity.
Qed.
Print Assumptions C174_refuted.
Example C174_case : exists b h, with_number 5 = Some b /\ sound b /\ hdr Res b = Some h /\ Custom h = CEmpty /\ valid [Rune 97] /\ [Rune 97] <> randvalue /\
  bumps [Local; Remote "x"; Local] = 2.
Proof.
  eexists _, _. split; [vm_compute; reflexivity|]. split.
  { apply sound_new; [eexists; split; [reflexivity|eexists; vm_compute; reflexivity]|eexists; split; reflexivity|discriminate|reflexivity]. }
  split; [reflexivity|]. split; [reflexivity|]. split; [intros c [<-|[]]; eauto|]. split; [discriminate|reflexivity].
Qed.
