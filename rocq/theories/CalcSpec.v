(** Vocabulary for the properties of the continuations that work on one variable. *)
From Coq Require Import List ZArith Bool.
From Verif Require Import MsgModel CalcModel.
Import ListNotations.
Open Scope Z_scope.

(** The field, spelled out. *)
Definition calculateVal : gostr := map Rune [99; 97; 108; 99; 117; 108; 97; 116; 101; 86; 97; 108].
(** Messages that were handled, of either kind; of kind "chain". *)
Fixpoint begun (sched : list label) : nat := match sched with [] => 0 | LBegin _ :: r => S (begun r) | _ :: r => begun r end.
Fixpoint chains (sched : list label) : nat := match sched with [] => 0 | LBegin Chain :: r => S (chains r) | _ :: r => chains r end.
(** Second continuations that have run. *)
Fixpoint seconds (evs : list event) : nat := match evs with [] => 0 | VSecond _ :: r => S (seconds r) | _ :: r => seconds r end.
(** Every call is answered with four; no context ends. *)
Definition fair (l : label) : Prop := match l with LReturn _ v => v = 4 | LCtx _ => False | _ => True end.
(** No context ends, whatever the answers are. *)
Definition lasting (l : label) : Prop := match l with LCtx _ => False | _ => True end.
(** Message j has been dealt with to the end: the first continuation has run, and for "chain" the
    second. *)
Definition over (evs : list event) (j : nat) (k : kind) : Prop := (exists v, In (VFirst j v) evs) /\ (k = Chain -> In (VSecond j) evs).
Definition all_over (evs : list event) : Prop := forall j k, In (VBegin j k) evs -> over evs j k.
