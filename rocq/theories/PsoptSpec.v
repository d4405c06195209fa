(** Vocabulary for C158-C160. *)
From Coq Require Import List ZArith.
From Verif Require Import PsoptModel.
Import ListNotations.
Open Scope Z_scope.

(** [t] is what the last option for the time to live says. *)
Definition last_ttl (opts : list topic_opt) (t : Z) : Prop :=
  exists a b, opts = a ++ WithTTL t :: b /\ forall u, ~ In (WithTTL u) b.
(** [m] is what the last read mode says, the end of the stream if there is none. *)
Definition last_mode (opts : list chan_opt) (m : mode) : Prop :=
  (exists a b, opts = a ++ WithReadMode m :: b /\ forall n, ~ In (WithReadMode n) b) \/
  (m = Latest /\ forall n, ~ In (WithReadMode n) opts).

(** Process [p] asks for the topic. *)
Definition asks (p : nat) (l : label) : Prop :=
  match l with Create q _ | SystemSub q _ _ => q = p | _ => False end.
(** The stream in Redis has time to live [t]; has none. *)
Definition lives (w : world) (t : Z) : Prop := exists s, store w = Some s /\ ttl s = Some t.
Definition no_ttl (w : world) : Prop := exists s, store w = Some s /\ ttl s = None.
(** Group [ch] was created at [m]. *)
Definition begins (w : world) (ch : nat) (m : mode) : Prop := exists s, store w = Some s /\ In (ch, m) (groups s).

(** The same label without callbacks. *)
Definition quiet_opts (opts : list topic_opt) : list topic_opt :=
  filter (fun o => match o with WithSubSuccCallback _ => false | _ => true end) opts.
Definition quiet (l : label) : label :=
  match l with
  | Create p o => Create p (quiet_opts o)
  | SystemSub p ch o => SystemSub p ch (quiet_opts o)
  | l => l
  end.
