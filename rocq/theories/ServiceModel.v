(** Model of the timer service, /repo/lib/timer/timer.go 86-181: the map from ids to tasks
    and the calls on it.  Each task is a state of TaskModel.

    Ids are numbers, compared only.  The map is written under taskMutex and read without it
    (124-134, 158-181); a write has a beginning and an end, and a read or another write between
    the two stops the process, as the Go runtime may do (it reports a write that overlaps
    when it sees it; that it then ends the process is taken as certain here).  A loop over the map is
    a sequence of reads, one for each entry, in any order; an entry deleted before its turn
    is not visited, one added meanwhile may or may not be (Go specification, "For
    statements").  [pos] is whether the interval of a task is positive: time.NewTicker
    panics otherwise, outside the handler's recover.
    Not modelled: the exception, begin and end handlers; handlerMap, which nothing uses;
    SetTimerService on a task after it was made. *)
From Coq Require Import List Arith Bool.
From Verif Require Import Machine.
From Verif Require TaskModel.
Import ListNotations.

(** The map.  At most one entry for an id. *)
Fixpoint get (id : nat) (m : list (nat * nat)) : option nat :=
  match m with [] => None | (a, k) :: r => if Nat.eqb a id then Some k else get id r end.
Definition del (id : nat) (m : list (nat * nat)) : list (nat * nat) := filter (fun p => negb (Nat.eqb (fst p) id)) m.
Definition put (id k : nat) (m : list (nat * nat)) : list (nat * nat) := (id, k) :: del id m.

(** A task, timer_tick.go 8-11 and timer.go 45-56: its id, whether its interval is
    positive, and its state. *)
Record item := mkI { name : nat; pos : bool; body : TaskModel.state }.

(** The calls.  [b] is true for start and false for stop. *)
Inductive call :=
| KNew (id : nat) (isrun pos svc : bool) (* NewTickTask, timer.go 136-144; without [svc]: NewTickTimer, timer_tick.go 33-48, and AddTask *)
| KAdd (k : nat)                (* AddTask of a task that was made before, 146-150 *)
| KRemove (id : nat)            (* RemoveTask, 152-156 *)
| KOne (b : bool) (id : nat)    (* StartTask, 165-170; StopTask, 158-163 *)
| KStop (id : nat)              (* Stop, 172-181 *)
| KAll (b : bool).              (* StartAllTask, 124-128; StopAllTask, 130-134 *)
(** What a write does to the map. *)
Inductive write := WPut (id k : nat) | WDel (id : nat).
Definition apply (w : write) (m : list (nat * nat)) : list (nat * nat) := match w with WPut id k => put id k m | WDel id => del id m end.
Definition key (w : write) : nat := match w with WPut id _ => id | WDel id => id end.
(** Where a call is. *)
Inductive pc :=
| PLock (w : write)             (* 147, 153: before the lock *)
| PWrite (w : write)            (* 148, 154: writing *)
| PLook1 (b : bool) (id : nat)  (* 159, 166: before the first lookup *)
| PLook2 (b : bool) (id : nat)  (* 162, 169: before the second *)
| PStop (id : nat)              (* 174: before the lookup *)
| PHave (b : bool) (k : nat)    (* 162, 169, 175: before the call on task k *)
| PLoop (b : bool) (todo seen : list nat) (* 125, 131: before the next entry; [todo]: entries there from the beginning and not visited; [seen]: visited *)
| PItem (b : bool) (k : nat) (todo seen : list nat) (* 126, 132: before the call on task k *)
| PDone.

Record state := mkS { heap : list item; tmap : list (nat * nat); calls : list pc; dead : bool }.
(** Init, 109-122. *)
Definition init : state := mkS [] [] [] false.

Inductive label :=
| LCall (c : call)              (* a goroutine begins a call *)
| LStep (j : nat)               (* call j goes on *)
| LNext (j id : nat)            (* the loop of call j takes the entry of id *)
| LTask (k : nat) (l : TaskModel.label). (* task k: its loops and tickers *)
Inductive cause := COverlap | CNil | CInterval | CTask.
Inductive event :=
| VCall (j : nat) (c : call)
| VMade (j k : nat)             (* call j made task k *)
| VPut (id k : nat) | VDel (id : nat) (* the map was changed *)
| VLook (j id : nat) (r : option nat) (* call j looked up id *)
| VAct (j k : nat) (b : bool)   (* call j starts or stops task k *)
| VTask (k : nat) (e : TaskModel.event)
| VRet (j : nat) (ok : bool)    (* call j returns; ok is false for the error of Stop *)
| VCrash (c : cause).

Definition with_calls (s : state) (c : list pc) : state := mkS (heap s) (tmap s) c (dead s).
Definition goto (s : state) (j : nat) (p : pc) : state := with_calls s (upd (calls s) j p).
Definition kill (s : state) : state := mkS (heap s) (tmap s) (calls s) true.
Definition writing (s : state) : bool := existsb (fun p => match p with PWrite _ => true | _ => false end) (calls s).
(** A write that deletes an entry takes it from the lists of the loops. *)
Definition drop (w : write) (p : pc) : pc :=
  match w, p with
  | WDel id, PLoop b todo seen => PLoop b (remove Nat.eq_dec id todo) (remove Nat.eq_dec id seen)
  | WDel id, PItem b k todo seen => PItem b k (remove Nat.eq_dec id todo) (remove Nat.eq_dec id seen)
  | _, _ => p
  end.
(** A step of task k; a task that crashes takes the process with it. *)
Definition tstep (s : state) (k : nat) (l : TaskModel.label) : option (state * list event) :=
  match nth_error (heap s) k with
  | Some t =>
    match TaskModel.step (body t) l with
    | Some (b', e) => Some (mkS (upd (heap s) k (mkI (name t) (pos t) b')) (tmap s) (calls s) (TaskModel.crashed b'), map (VTask k) e ++ (if TaskModel.crashed b' then [VCrash CTask] else []))
    | None => None
    end
  | None => None
  end.
(** start or stop of task k by call j, which goes on at p. *)
Definition act (s : state) (j : nat) (b : bool) (k : nat) (p : pc) (ret : list event) : option (state * list event) :=
  match tstep (goto s j p) k (if b then TaskModel.LStart else TaskModel.LStop) with
  | Some (s', e) => Some (s', VAct j k b :: e ++ (if dead s' then [] else ret))
  | None => None
  end.
(** A read of the map while it is written. *)
Definition read (s : state) (r : option (state * list event)) : option (state * list event) :=
  if writing s then Some (kill s, [VCrash COverlap]) else r.

Definition step (s : state) (l : label) : option (state * list event) :=
  if dead s then None else
  match l with
  | LCall c =>
    let j := length (calls s) in
    let begin p := Some (with_calls s (calls s ++ [p]), [VCall j c]) in
    match c with
    | KNew id isrun pos svc =>
      let k := length (heap s) in
      Some (mkS (heap s ++ [mkI id pos (TaskModel.task isrun svc)]) (tmap s) (calls s ++ [PLock (WPut id k)]) false, [VCall j c; VMade j k])
    | KAdd k => match nth_error (heap s) k with Some t => begin (PLock (WPut (name t) k)) | None => None end
    | KRemove id => begin (PLock (WDel id))
    | KOne b id => begin (PLook1 b id)
    | KStop id => begin (PStop id)
    | KAll b => begin (PLoop b (map fst (tmap s)) [])
    end
  | LStep j =>
    match nth_error (calls s) j with
    | Some (PLock w) => if writing s then None else Some (goto s j (PWrite w), [])
    | Some (PWrite w) =>
      if writing (goto s j PDone) then Some (kill s, [VCrash COverlap]) else (* another write: C108_writers *)
      Some (mkS (heap s) (apply w (tmap s)) (map (drop w) (upd (calls s) j PDone)) false, [match w with WPut id k => VPut id k | WDel id => VDel id end; VRet j true])
    | Some (PLook1 b id) =>
      read s (match get id (tmap s) with Some k => Some (goto s j (PLook2 b id), [VLook j id (Some k)]) | None => Some (goto s j PDone, [VLook j id None; VRet j true]) end)
    | Some (PLook2 b id) =>
      read s (match get id (tmap s) with Some k => Some (goto s j (PHave b k), [VLook j id (Some k)]) | None => Some (kill s, [VLook j id None; VCrash CNil]) end)
    | Some (PStop id) =>
      read s (match get id (tmap s) with Some k => Some (goto s j (PHave false k), [VLook j id (Some k)]) | None => Some (goto s j PDone, [VLook j id None; VRet j false]) end)
    | Some (PHave b k) => act s j b k PDone [VRet j true]
    | Some (PLoop b [] seen) => read s (Some (goto s j PDone, [VRet j true]))
    | Some (PLoop b (_ :: _) seen) => None
    | Some (PItem b k todo seen) => act s j b k (PLoop b todo seen) []
    | Some PDone | None => None
    end
  | LNext j id =>
    match nth_error (calls s) j with
    | Some (PLoop b todo seen) =>
      if in_dec Nat.eq_dec id seen then None else
      match get id (tmap s) with
      | Some k => read s (Some (goto s j (PItem b k (remove Nat.eq_dec id todo) (id :: seen)), [VLook j id (Some k)]))
      | None => None
      end
    | _ => None
    end
  | LTask k l =>
    match l with
    | TaskModel.LStart | TaskModel.LStop => None
    | TaskModel.LFire i =>
      match nth_error (heap s) k with
      | Some t =>
        match nth_error (TaskModel.loops (body t)) i with
        | Some TaskModel.PDue => if pos t then tstep s k l else Some (kill s, [VCrash CInterval]) (* timer_tick.go 80 *)
        | _ => None
        end
      | None => None
      end
    | _ => tstep s k l
    end
  end.
