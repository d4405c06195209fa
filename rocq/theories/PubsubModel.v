(** Model of /repo/lib/pubsub/ps_topic.go and ps_channel.go, and of the Redis streams they
    use, as one machine: any number of topics, channels (consumer groups), consumers and
    publishers on any number of nodes.

    Simplified: entry ids are drawn from one counter for the whole store (Redis takes them
    from its clock; the model assumes that the clock does not go back over the deletion of a
    stream); nobody else writes to the streams, so the type assertions in lines 60 and 70 of
    ps_channel.go succeed; the Redis set of topic names, which nothing reads, is left out;
    so are contexts, logging and tracing.  A call under way may go on after its process has
    died; executions in which it does not are among those considered. *)
From Coq Require Import List String Arith Bool.
From Verif Require Import Machine AddrModel.
From Verif Require UnboundedModel.
Import ListNotations.
Open Scope string_scope.
Open Scope list_scope.

(** An entry of a stream: id, and the fields "event" and "msg" (ps_topic.go 76-80). *)
Record entry := mkE { e_id : nat; e_ev : string; e_body : string }.
(** A consumer group: last delivered id, consumers known to it, pending entries (id, consumer). *)
Record group := mkG { g_last : nat; g_cons : list nat; g_pel : list (nat * nat) }.
(** A stream: entries, last generated id, groups, whether it has a time to live. *)
Record stream := mkS { s_ents : list entry; s_last : nat; s_grps : list (string * group); s_ttl : bool }.

(** addHandlers, ps_channel.go 82-116: the next line of a handler goroutine. *)
Inductive hpc :=
| HRecv                 (* line 86 *)
| HLoad (e : entry)     (* line 90 *)
| HPush (e : entry)     (* lines 99-103 *)
| HAck (e : entry)      (* lines 105, 108: XACK *)
| HDel (e : entry)      (* lines 106, 108: XDEL *).
(** A handler with the queue it pushes to. *)
Record handler := mkH { h_q : nat; h_pc : hpc }.
(** type Channel, ps_channel.go 18-25, with its goroutines: whether its process is up, what
    loop has read and not yet put (lines 57-76), the buffer, the handlers.  exitFlag is left
    out: nothing sets it, so the test in line 62 is false. *)
Record consumer := mkC { c_top : string; c_ch : string; c_up : bool; c_rd : list entry; c_buf : UnboundedModel.state entry; c_hs : list handler }.

(** Calls under way, by the command that comes next. *)
Inductive pc :=
| NAdd (t : string) (ttl : bool)            (* newTopic, ps_topic.go 41-44 *)
| NDel (t : string) (id : nat) (ttl : bool) (* newTopic, line 50 *)
| NTtl (t : string)                         (* newTopic, lines 51-52 *)
| KInfo (c : nat)                           (* Channel.Close, ps_channel.go 130 *)
| KDestroy (c : nat)                        (* Channel.Close, line 137 *)
| TLen (t : string)                         (* Topic.Close, ps_topic.go 118 *)
| TDel (t : string)                         (* Topic.Close, lines 124-128 *)
| PEnd.

Record state := mkState { strs : list (string * stream); next : nat; cons : list consumer; thrs : list pc }.
Definition init : state := mkState [] 1 [] [].

(** What becomes of a command: done; not done and an error; done, the reply lost and an error. *)
Inductive net := Ok | NotDone | NoReply.
(** ReadModeLatest and ReadModeBeginning, ps_opts.go 20-23. *)
Inductive mode := Latest | Begin.

Inductive label :=
| LNew (t : string) (ttl : bool) (r : net)   (* newTopic: EXISTS, ps_topic.go 39 *)
| LPub (t ev body : string) (r : net)        (* Topic.Pub, lines 70-83 *)
| LSub (t ch : string) (m : mode) (r : net)  (* Topic.Sub, lines 85-102, newChannel, ps_channel.go 27-44 *)
| LArrive (c q : nat)                        (* Arrived, ps_channel.go 118-120 *)
| LRead (c : nat) (r : net)                  (* loop: XREADGROUP, lines 49-55 *)
| LPut (c : nat)                             (* loop: msgCh.Put, line 74 *)
| LHand (c h : nat) (r : net)                (* handler h of c *)
| LClose (c : nat) (r : net)                 (* Channel.Close: XGROUP DELCONSUMER, line 124 *)
| LTClose (t : string) (r : net)             (* Topic.Close: XINFO GROUPS, ps_topic.go 107 *)
| LThr (i : nat) (r : net)                   (* next command of a call under way *)
| LCrash (c : nat)                           (* the process of c dies *)
| LExpire (t : string)                       (* the time to live of t is over *).

Inductive event :=
| EInit (t : string) (e : entry)             (* newTopic added its placeholder *)
| EPub (t : string) (e : entry)              (* Pub added an entry *)
| EPubErr (t : string)                       (* Pub returned an error *)
| ESub (c : nat) (t ch : string)             (* Sub returned consumer c *)
| ESubErr (t ch : string)                    (* Sub returned an error *)
| ERead (c : nat) (t ch : string) (e : entry)            (* the group handed e to c *)
| ELost (c : nat) (t ch : string) (e : entry)            (* the group handed e to c, but the reply was lost *)
| EPush (c : nat) (t ch : string) (q : nat) (e : entry)  (* c pushed e to the actor's queue q *)
| EDel (c : nat) (t ch : string) (id : nat)              (* c's handler removed the entry from the stream *)
| EClosed (c : nat)                          (* Channel.Close returned nil *)
| ECloseErr (c : nat)                        (* Channel.Close returned an error *)
| EDestroy (t ch : string)                   (* the group was destroyed *)
| EGone (t : string)                         (* the stream was deleted or expired *)
| ETClosed (t : string)                      (* Topic.Close returned nil *)
| ETCloseErr (t : string)
| ECrash (c : nat).

(** ** Redis commands *)
Definition empty_stream : stream := mkS [] 0 [] false.
Definition get_or_new (t : string) (m : list (string * stream)) : stream := match aget t m with Some s => s | None => empty_stream end.
(** XADD with id "*": creates the stream if there is none. *)
Definition xadd (t : string) (e : entry) (m : list (string * stream)) : list (string * stream) :=
  let s := get_or_new t m in aset t (mkS (s_ents s ++ [e]) (e_id e) (s_grps s) (s_ttl s)) m.
Definition on_stream (t : string) (f : stream -> stream) (m : list (string * stream)) : list (string * stream) :=
  match aget t m with Some s => aset t (f s) m | None => m end.
(** XDEL: the stream stays, even if empty. *)
Definition xdel (t : string) (id : nat) := on_stream t (fun s => mkS (filter (fun e => negb (Nat.eqb (e_id e) id)) (s_ents s)) (s_last s) (s_grps s) (s_ttl s)).
(** EXPIRE. *)
Definition expire (t : string) := on_stream t (fun s => mkS (s_ents s) (s_last s) (s_grps s) true).
Definition set_grps (s : stream) (g : list (string * group)) : stream := mkS (s_ents s) (s_last s) g (s_ttl s).
Definition find_group (t ch : string) (m : list (string * stream)) : option (stream * group) :=
  match aget t m with Some s => match aget ch (s_grps s) with Some g => Some (s, g) | None => None end | None => None end.
Definition set_group (t ch : string) (s : stream) (g : group) (m : list (string * stream)) := aset t (set_grps s (aset ch g (s_grps s))) m.
(** XGROUP CREATE without MKSTREAM: None if there is no stream; an existing group is kept
    (BUSYGROUP, which newChannel accepts). *)
Definition xgroup_create (t ch : string) (md : mode) (m : list (string * stream)) : option (list (string * stream)) :=
  match aget t m with
  | None => None
  | Some s => match aget ch (s_grps s) with
    | Some _ => Some m
    | None => Some (set_group t ch s (mkG (match md with Latest => s_last s | Begin => 0 end) [] []) m)
    end
  end.
(** The entries of a stream that a group has not handed out. *)
Definition fresh (s : stream) (g : group) : list entry := filter (fun e => Nat.ltb (g_last g) (e_id e)) (s_ents s).
Definition last_id (d : nat) (l : list entry) : nat := List.last (map e_id l) d.
(** XREADGROUP with ">" and COUNT 10: registers the consumer, hands out the first ten
    entries after the last delivered one and makes them pending. *)
Definition xreadgroup (t ch : string) (c : nat) (m : list (string * stream)) : option (list entry * list (string * stream)) :=
  match find_group t ch m with
  | None => None
  | Some (s, g) =>
    let l := firstn 10 (fresh s g) in
    Some (l, set_group t ch s (mkG (last_id (g_last g) l) (if existsb (Nat.eqb c) (g_cons g) then g_cons g else g_cons g ++ [c]) (g_pel g ++ map (fun e => (e_id e, c)) l)) m)
  end.
(** XACK. *)
Definition xack (t ch : string) (id : nat) (m : list (string * stream)) : list (string * stream) :=
  match find_group t ch m with
  | Some (s, g) => set_group t ch s (mkG (g_last g) (g_cons g) (filter (fun p => negb (Nat.eqb (fst p) id)) (g_pel g))) m
  | None => m
  end.
(** XGROUP DELCONSUMER: forgets the consumer and its pending entries; an error without group. *)
Definition xdelconsumer (t ch : string) (c : nat) (m : list (string * stream)) : option (list (string * stream)) :=
  match find_group t ch m with
  | Some (s, g) => Some (set_group t ch s (mkG (g_last g) (filter (fun d => negb (Nat.eqb d c)) (g_cons g)) (filter (fun p => negb (Nat.eqb (snd p) c)) (g_pel g))) m)
  | None => None
  end.
(** XGROUP DESTROY. *)
Definition xdestroy (t ch : string) := on_stream t (fun s => set_grps s (adel ch (s_grps s))).

(** ** The machine *)
Definition set_strs (s : state) (m : list (string * stream)) : state := mkState m (next s) (cons s) (thrs s).
Definition set_cons (s : state) (k : list consumer) : state := mkState (strs s) (next s) k (thrs s).
Definition set_thrs (s : state) (k : list pc) : state := mkState (strs s) (next s) (cons s) k.
Definition add_thr (s : state) (p : pc) : state := set_thrs s (thrs s ++ [p]).
Definition go (s : state) (i : nat) (p : pc) : state := set_thrs s (upd (thrs s) i p).
Definition add (s : state) (t ev body : string) : state := mkState (xadd t (mkE (next s) ev body) (strs s)) (S (next s)) (cons s) (thrs s).
(** The effect of a command that was carried out. *)
Definition done {A} (r : net) (yes no : A) : A := match r with NotDone => no | _ => yes end.
Definition fails (r : net) : bool := match r with Ok => false | _ => true end.
Definition set_buf (x : consumer) (rd : list entry) (b : UnboundedModel.state entry) : consumer := mkC (c_top x) (c_ch x) (c_up x) rd b (c_hs x).
Definition set_hs (x : consumer) (b : UnboundedModel.state entry) (hs : list handler) : consumer := mkC (c_top x) (c_ch x) (c_up x) (c_rd x) b hs.

(** Calls under way. *)
Definition thr_step (s : state) (i : nat) (p : pc) (r : net) : option (state * list event) :=
  match p with
  | NAdd t ttl => (* ps_topic.go 41-47: on an error nothing more is done *)
    let s1 := done r (add s t "" "init") s in
    Some (go s1 i (if fails r then PEnd else NDel t (next s) ttl), done r [EInit t (mkE (next s) "" "init")] [])
  | NDel t id ttl => Some (go (set_strs s (done r (xdel t id (strs s)) (strs s))) i (if ttl then NTtl t else PEnd), []) (* line 50, the result is not looked at *)
  | NTtl t => Some (go (set_strs s (done r (expire t (strs s)) (strs s))) i PEnd, [])
  | KInfo c => (* ps_channel.go 130-136 *)
    match nth_error (cons s) c with
    | None => None
    | Some x => match find_group (c_top x) (c_ch x) (strs s), r with
      | Some (_, g), Ok => match g_cons g with [] => Some (go s i (KDestroy c), []) | _ => Some (go s i PEnd, [EClosed c]) end
      | _, _ => Some (go s i PEnd, [ECloseErr c])
      end
    end
  | KDestroy c => (* lines 137-143: the inner err is another variable, nil is returned *)
    match nth_error (cons s) c with
    | None => None
    | Some x => Some (go (set_strs s (done r (xdestroy (c_top x) (c_ch x) (strs s)) (strs s))) i PEnd, done r [EDestroy (c_top x) (c_ch x); EClosed c] [EClosed c])
    end
  | TLen t => (* ps_topic.go 118-123, 134 *)
    match r with
    | Ok => match s_ents (get_or_new t (strs s)) with [] => Some (go s i (TDel t), []) | _ => Some (go s i PEnd, [ETClosed t]) end
    | _ => Some (go s i PEnd, [ETCloseErr t])
    end
  | TDel t => (* lines 124-131 *)
    Some (go (set_strs s (done r (adel t (strs s)) (strs s))) i PEnd, done r [EGone t] [] ++ [if fails r then ETCloseErr t else ETClosed t])
  | PEnd => None
  end.

(** A handler goroutine of consumer c. *)
Definition hand_step (s : state) (c : nat) (x : consumer) (h : nat) (y : handler) (r : net) : option (state * list event) :=
  let to p := set_cons s (upd (cons s) c (set_hs x (c_buf x) (upd (c_hs x) h (mkH (h_q y) p)))) in
  match h_pc y with
  | HRecv => (* line 86; msgCh is never closed *)
    match UnboundedModel.step (c_buf x) (UnboundedModel.LRecv h) with
    | Some (b, [UnboundedModel.ERecv _ e]) => Some (set_cons s (upd (cons s) c (set_hs x b (upd (c_hs x) h (mkH (h_q y) (HLoad e))))), [])
    | _ => None
    end
  | HLoad e =>
    match UnboundedModel.step (c_buf x) (UnboundedModel.LLoad h) with
    | Some (b, _) => Some (set_cons s (upd (cons s) c (set_hs x b (upd (c_hs x) h (mkH (h_q y) (HPush e))))), [])
    | None => None
    end
  | HPush e => Some (to (HAck e), [EPush c (c_top x) (c_ch x) (h_q y) e])
  | HAck e => (* the pipeline is not a transaction: it may stop before, between and after its commands *)
    match r with
    | NotDone => Some (to HRecv, [])
    | _ => Some (set_strs (to (HDel e)) (xack (c_top x) (c_ch x) (e_id e) (strs s)), [])
    end
  | HDel e => Some (set_strs (to HRecv) (done r (xdel (c_top x) (e_id e) (strs s)) (strs s)), done r [EDel c (c_top x) (c_ch x) (e_id e)] [])
  end.

Definition step (s : state) (l : label) : option (state * list event) :=
  match l with
  | LNew t ttl r => (* lines 39-40: an error counts as "does not exist" *)
    if (match aget t (strs s) with Some _ => true | None => false end) && negb (fails r) then Some (s, []) else Some (add_thr s (NAdd t ttl), [])
  | LPub t ev body r =>
    if ev =? "" then Some (s, [EPubErr t]) (* lines 72-74 *)
    else Some (done r (add s t ev body) s, done r [EPub t (mkE (next s) ev body)] [] ++ if fails r then [EPubErr t] else [])
  | LSub t ch md r =>
    match r, xgroup_create t ch md (strs s) with
    | Ok, Some m => Some (set_cons (set_strs s m) (cons s ++ [mkC t ch true [] UnboundedModel.init []]), [ESub (List.length (cons s)) t ch])
    | NoReply, Some m => Some (set_strs s m, [ESubErr t ch])
    | _, _ => Some (s, [ESubErr t ch])
    end
  | LThr i r => match nth_error (thrs s) i with Some p => thr_step s i p r | None => None end
  | LTClose t r => (* ps_topic.go 107-117 *)
    match r with
    | Ok => match s_grps (get_or_new t (strs s)) with [] => Some (add_thr s (TLen t), []) | _ => Some (s, [ETClosed t]) end
    | _ => Some (s, [ETCloseErr t])
    end
  | LExpire t => match aget t (strs s) with Some x => if s_ttl x then Some (set_strs s (adel t (strs s)), [EGone t]) else None | None => None end
  | LArrive c _ | LRead c _ | LPut c | LHand c _ _ | LClose c _ | LCrash c =>
    match nth_error (cons s) c with
    | None => None
    | Some x =>
      if negb (c_up x) then None else
      match l with
      | LArrive _ q => Some (set_cons s (upd (cons s) c (set_hs x (c_buf x) (c_hs x ++ [mkH q HRecv]))), [])
      | LRead _ r => (* one goroutine: it reads when it has put all it read before *)
        match c_rd x with
        | _ :: _ => None
        | [] =>
          match UnboundedModel.holder (c_buf x), r, xreadgroup (c_top x) (c_ch x) c (strs s) with
          | Some _, _, _ => None
          | None, NotDone, _ | None, _, None => Some (s, []) (* Val() is nil *)
          | None, Ok, Some (es, m) => Some (set_cons (set_strs s m) (upd (cons s) c (set_buf x es (c_buf x))), map (ERead c (c_top x) (c_ch x)) es)
          | None, NoReply, Some (es, m) => Some (set_strs s m, map (ELost c (c_top x) (c_ch x)) es)
          end
        end
      | LPut _ =>
        match UnboundedModel.holder (c_buf x) with
        | Some _ => match UnboundedModel.step (c_buf x) UnboundedModel.LAppend with Some (b, _) => Some (set_cons s (upd (cons s) c (set_buf x (c_rd x) b)), []) | None => None end
        | None => match c_rd x with
          | e :: es => match UnboundedModel.step (c_buf x) (UnboundedModel.LPut e) with Some (b, _) => Some (set_cons s (upd (cons s) c (set_buf x es b)), []) | None => None end
          | [] => None
          end
        end
      | LHand _ h r => match nth_error (c_hs x) h with Some y => hand_step s c x h y r | None => None end
      | LClose _ r => (* ps_channel.go 124-128 *)
        match r, xdelconsumer (c_top x) (c_ch x) c (strs s) with
        | Ok, Some m => Some (add_thr (set_strs s m) (KInfo c), [])
        | NoReply, Some m => Some (set_strs s m, [ECloseErr c])
        | _, _ => Some (s, [ECloseErr c])
        end
      | _ => Some (set_cons s (upd (cons s) c (mkC (c_top x) (c_ch x) false (c_rd x) (c_buf x) (c_hs x))), [ECrash c])
      end
    end
  end.
