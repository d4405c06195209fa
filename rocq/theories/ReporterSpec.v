(** Vocabulary for C58, C80 and C81: what is read off a history of events. *)
From Coq Require Import List Arith ZArith Bool.
From Verif Require Import Machine ReporterModel.
Import ListNotations.

Definition pick (f : event -> option nat) (evs : list event) : list nat :=
  flat_map (fun e => match f e with Some x => [x] | None => [] end) evs.
Definition accepted := pick (fun e => match e with EQueued sp => Some sp | _ => None end).
Definition refused := pick (fun e => match e with EDropped sp => Some sp | _ => None end).
Definition handled := pick (fun e => match e with EQueued sp | EDropped sp => Some sp | _ => None end).
Definition decided := pick (fun e => match e with ESampled sp => Some sp | _ => None end).
Definition sent := pick (fun e => match e with EAppend sp => Some sp | _ => None end).
Definition retained := pick (fun e => match e with ERetain sp => Some sp | _ => None end).
Definition released := pick (fun e => match e with ERelease sp => Some sp | _ => None end).
(** The spans passed to Report. *)
Definition reports (sched : list label) : list nat := flat_map (fun l => match l with LReport sp => [sp] | _ => [] end) sched.

(** Spans in the reporter that the sampler has not seen. *)
Definition spans (q : list item) : list nat := flat_map (fun it => match it with ISpan sp => [sp] | IClose => [] end) q.
Definition in_hand (w : worker) : list nat := match w with WGot (ISpan sp) | WSample sp => [sp] | _ => [] end.
Definition waiting (s : state) : list nat := in_hand (work s) ++ spans (queue s).
(** Nothing is under way: Report and Close have returned, the worker is at its select or gone. *)
Definition at_rest (s : state) : Prop :=
  (forall p, In p (thr s) -> p = RDone \/ p = CDone) /\ (work s = WWait \/ work s = WDone true).
