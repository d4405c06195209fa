(** Vocabulary for C25, C26, C85 and C86. *)
From Coq Require Import List Arith Bool.
From Verif Require Import Machine ReenterModel.
Import ListNotations.

Definition resolved (c : nat) (evs : list event) : nat := length (filter (fun e => match e with EResolve d _ => d =? c | _ => false end) evs).
(** What a continuation should find for an outcome of the call. *)
Inductive shows : outcome -> seen -> Prop :=
| shows_failed e : shows (Failed e) (VErr e)
| shows_error e r : shows (Fine (Some e) r) (VErr e)
| shows_response r : shows (Fine None r) (VRes r).
(** What the loop is doing after a history: [Some None] idle, [Some (Some _)] inside a
    handler (inl) or re-entry action (inr); [None] if two of these ever overlapped. *)
Fixpoint inside (cur : option (nat + nat)) (evs : list event) : option (option (nat + nat)) :=
  match evs with
  | [] => Some cur
  | EHandler h :: r => match cur with None => inside (Some (inl h)) r | Some _ => None end
  | EAct c :: r => match cur with None => inside (Some (inr c)) r | Some _ => None end
  | EHandlerEnd h :: r => match cur with Some (inl g) => if g =? h then inside None r else None | _ => None end
  | EActEnd c :: r => match cur with Some (inr d) => if d =? c then inside None r else None | _ => None end
  | EResolve c v :: r => inside cur r
  | _ :: r => inside cur r
  end.
(** Steps of the library itself, and the ending of a handler that runs: neither the
    outside world (the callee, the context, the clock) nor new requests. *)
Definition library (l : label) : Prop :=
  match l with
  | LRegister _ | LCallComplete _ | LWatchCtx _ | LWatchDone _ | LWatchComplete _ | LPush _ | LHandlerEnd | LTake | LAct | LActEnd => True
  | _ => False
  end.
Definition can_resolve (c : nat) (s : state) : Prop :=
  exists sched s' evs v, Forall library sched /\ run step s sched = Some (s', evs) /\ In (EResolve c v) evs.
(** How often continuation [k] was started. *)
Definition starts (k : nat) (evs : list event) : nat := length (filter (fun e => match e with EStart j _ => j =? k | _ => false end) evs).
