(** Model of the options of topics and subscriptions: /repo/lib/pubsub/ps_opts.go 25-56, newTopic,
    Topic.Sub and getOrCreateChannel (ps_topic.go 24-68, 85-102, 141-157), newChannel
    (ps_channel.go 27-44), CreateTopic and GetOrCreateTopic (ps_mgr.go 41-60), System.Sub
    (/repo/core/node/system_impl.go 451-453).

    One topic, any number of processes.  Each call is one step and Redis commands do not fail for
    reasons of the network; interleavings and failures are in PubsubModel and TopicModel.  Entries
    are left out: of a group only the position it was created at is kept. *)
From Coq Require Import List ZArith Bool.
From Verif Require Import Machine.
Import ListNotations.
Open Scope Z_scope.

(** topicOptions and the functions that set them, ps_opts.go 41-56.  Callbacks are numbers. *)
Inductive topic_opt := WithTTL (t : Z) | WithSubSuccCallback (f : nat).
Record topic_options := mkO { o_ttl : Z; o_callback : option nat }.
Definition set (o : topic_options) (x : topic_opt) : topic_options :=
  match x with WithTTL t => mkO t (o_callback o) | WithSubSuccCallback f => mkO (o_ttl o) (Some f) end.

(** Channel options, ps_opts.go 20-35.  Sub takes values of any type (ps_topic.go 85); [Other] is
    one that is no ChannelOption. *)
Inductive mode := Latest | Beginning | At (id : nat).
Inductive chan_opt := WithReadMode (m : mode) | Other.
Definition set_mode (m : mode) (x : chan_opt) : mode := match x with WithReadMode n => n | Other => m end.

(** The stream in Redis: its time to live, and where each group was created. *)
Record stream := mkS { ttl : option Z; groups : list (nat * mode) }.
(** The processes whose map has the topic; the stream. *)
Record world := mkW { known : list nat; store : option stream }.
Definition init : world := mkW [] None.

Definition mem (x : nat) (l : list nat) : bool := existsb (Nat.eqb x) l.

(** newTopic, ps_topic.go 24-68: a stream that exists is left alone.  The callback is kept in the
    options and read nowhere. *)
Definition newTopic (opts : list topic_opt) (st : option stream) : option stream :=
  let o := fold_left set opts (mkO 0 None) in
  match st with
  | Some s => Some s
  | None => Some (mkS (if 0 <? o_ttl o then Some (o_ttl o) else None) [])
  end.

(** CreateTopic, ps_mgr.go 41-53; GetOrCreateTopic, 55-60, does the same when called alone. *)
Definition create (p : nat) (opts : list topic_opt) (w : world) : world :=
  if mem p (known w) then w else mkW (p :: known w) (newTopic opts (store w)).

(** Topic.Sub with newChannel: XGROUP CREATE without MKSTREAM fails if there is no stream; that
    the group exists already (BUSYGROUP) is not an error, ps_channel.go 37-40. *)
Definition topic_sub (ch : nat) (opts : list chan_opt) (w : world) : world * bool :=
  let m := fold_left set_mode opts Latest in
  match store w with
  | None => (w, false)
  | Some s => if mem ch (map fst (groups s)) then (w, true)
              else (mkW (known w) (Some (mkS (ttl s) ((ch, m) :: groups s))), true)
  end.

Inductive label :=
| Create (p : nat) (opts : list topic_opt)             (* GetOrCreateTopic in process p *)
| TopicSub (p ch : nat) (opts : list chan_opt)         (* Sub on the topic p has *)
| SystemSub (p ch : nat) (opts : list topic_opt)       (* System.Sub, as actors call it *)
| Vanish.                                              (* the stream expires or is deleted *)
Inductive event := Subscribed (p ch : nat) | Failed (p ch : nat).
Definition answer (p ch : nat) (r : world * bool) : world * list event :=
  (fst r, [if snd r then Subscribed p ch else Failed p ch]).

Definition step (w : world) (l : label) : option (world * list event) :=
  match l with
  | Create p opts => Some (create p opts w, [])
  | TopicSub p ch opts => if mem p (known w) then Some (answer p ch (topic_sub ch opts w)) else None
  | SystemSub p ch opts => Some (answer p ch (topic_sub ch [] (create p [] w)))   (* opts dropped, system_impl.go 452 *)
  | Vanish => Some (mkW (known w) None, [])
  end.
