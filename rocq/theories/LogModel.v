(** Model of the log (/repo/lib/log: helper.go 24-26, 51-115, 121-170, options.go 61-100 and the
    functions With... of 130-213, NewLogger 228-273, funcShortName 279-287, field.go 33-48,
    flow.go 22-58).

    Levels are zap's: debug -1, info 0, warn 1, error 2, dpanic 3, panic 4, fatal 5; other
    numbers are possible as arguments.  Texts are after Sprintf; the stack trace is an
    argument.  zap: an enabled entry is encoded and written to every writer of the logger;
    Debug to DPanic (outside development mode) then return, Panic panics and Fatal ends the
    process, both also without writing when the level is disabled.  What a file does with what
    is written, rotation, and errors of writing are not modelled. *)
From Coq Require Import List ZArith Bool Ascii String.
Import ListNotations.
Local Open Scope string_scope.
Local Open Scope list_scope.
Local Open Scope Z_scope.

(** ** Messages (helper.go) *)
Inductive val := VText (s : string) | VInt (z : Z).
Definition fields := list (string * val).
Record entry := mkE { elevel : Z; etext : string; efields : fields }.
Inductive ending := Returns | Panics | Exits.
(** What a call does: the entries that the logger writes, the levels and texts that are
    printed to standard output besides, and how it ends. *)
Record effect := mkF { entries : list entry; printed : list (Z * string); ends : ending }.
Definition nothing : effect := mkF [] [] Returns.
(** Core().Enabled *)
Definition enabled (min l : Z) : bool := min <=? l.
Record helper := mkH { hmin : Z; htag : string }.
(** getSystemFields, 121-130. *)
Definition system_fields (h : helper) (code : Z) (id path token ip : string) : fields :=
  [("ServerTag", VText (htag h)); ("accID", VText id); ("eCode", VInt code); ("path", VText path); ("token", VText token); ("realIP", VText ip)].
(** SystemLog, 51-68. *)
Definition system_log (h : helper) (l code : Z) (id path token ip msg : string) : effect :=
  if negb (enabled (hmin h) l) then nothing else
  let fs := system_fields h code id path token ip in
  if l =? -1 then mkF [mkE (-1) msg fs] [] Returns
  else if l =? 0 then mkF [mkE 0 msg fs] [] Returns
  else if l =? 1 then mkF [mkE 1 msg fs] [] Returns
  else if l =? 2 then mkF [mkE 2 msg fs] [] Returns
  else nothing.
(** SystemReqInfo, 70-76. *)
Definition system_req (h : helper) (id path token ip msg : string) : effect :=
  if negb (enabled (hmin h) 0) then nothing else
  mkF [mkE 0 msg [("ServerTag", VText (htag h)); ("accID", VText id); ("path", VText path); ("token", VText token); ("realIP", VText ip)]] [] Returns.
(** Log, 78-115. *)
Definition log (h : helper) (l : Z) (stack msg : string) : effect :=
  if negb (enabled (hmin h) l) then nothing else
  let out := if (l =? 2) || (l =? 1) then [(l, msg)] else [] in
  let tag := ("ServerTag", VText (htag h)) in
  let trace := ("stack_trace", VText stack) in
  if l =? -1 then mkF [mkE (-1) msg [tag]] out Returns
  else if l =? 0 then mkF [mkE 0 msg [tag]] out Returns
  else if l =? 1 then mkF [mkE 1 msg [tag; trace]] out Returns
  else if l =? 2 then mkF [mkE 2 msg [tag; trace]] out Returns
  else if l =? 3 then mkF [mkE 3 msg [tag]] out Returns
  else if l =? 4 then mkF [mkE 4 msg [tag]] out Panics
  else if l =? 5 then mkF [mkE 5 msg [tag]] out Exits
  else mkF [] out Returns.
(** The functions of the package, 132-170. *)
Inductive api :=
| DebugF (msg : string) | InfoF (msg : string) | WarnF (msg : string) | ErrorF (msg : string) | PanicF (msg : string)
| SystemDebug (code : Z) (id path token ip msg : string) | SystemInfo (code : Z) (id path token ip msg : string)
| SystemWarn (code : Z) (id path token ip msg : string) | SystemError (code : Z) (id path token ip msg : string)
| SystemReqInfo (id path token ip msg : string).
Definition call (h : helper) (stack : string) (a : api) : effect :=
  match a with
  | DebugF m => log h (-1) stack m
  | InfoF m => log h 0 stack m
  | WarnF m => log h 1 stack m
  | ErrorF m => log h 2 stack m
  | PanicF m => log h 4 stack m
  | SystemDebug c i p t r m => system_log h (-1) c i p t r m
  | SystemInfo c i p t r m => system_log h 0 c i p t r m
  | SystemWarn c i p t r m => system_log h 1 c i p t r m
  | SystemError c i p t r m => system_log h 2 c i p t r m
  | SystemReqInfo i p t r m => system_req h i p t r m
  end.

(** ** Building a logger (options.go) *)
(** How a caller is printed: zap's short form, the functions of 263-265 and 259-261, or one of
    the user's; and whether the configuration has a key for the function. *)
Inductive printer := Short | FileLine | FileLineFunc | Own (n : nat).
Record conf := mkC { cprint : printer; cfunc : bool }.
(** The encoder configurations in memory, by number; options refer to them. *)
Definition memory := list conf.
Fixpoint put (m : memory) (i : nat) (p : conf) : memory := match m, i with [], _ => [] | _ :: t, O => p :: t | a :: t, S j => a :: put t j p end.
Record options := mkO { ocell : nat; olevel : Z; ocaller : bool; ofunc : bool; oskip : Z; oglob : string; ostd : bool }.
(** The options of 130-213 that NewLogger reads, and any other; an option of the user may err.
    Not modelled: those that only NewRotation or nothing reads. *)
Inductive opt := WithOutStd (b : bool) | WithEncoderConf (cell : nat) | WithLevel (l : Z) | WithGlobPattern (g : string) | WithCaller (b : bool) | WithCallerFunc (b : bool) | WithCallerSkip (n : Z) | Other | Err.
Definition apply (x : opt) (o : options) : option options :=
  match x with
  | WithOutStd b => Some (mkO (ocell o) (olevel o) (ocaller o) (ofunc o) (oskip o) (oglob o) b)
  | WithEncoderConf c => Some (mkO c (olevel o) (ocaller o) (ofunc o) (oskip o) (oglob o) (ostd o))
  | WithLevel l => Some (mkO (ocell o) l (ocaller o) (ofunc o) (oskip o) (oglob o) (ostd o))
  | WithGlobPattern g => Some (mkO (ocell o) (olevel o) (ocaller o) (ofunc o) (oskip o) g (ostd o))
  | WithCaller b => Some (mkO (ocell o) (olevel o) b (ofunc o) (oskip o) (oglob o) (ostd o))
  | WithCallerFunc b => Some (mkO (ocell o) (olevel o) (ocaller o) b (oskip o) (oglob o) (ostd o))
  | WithCallerSkip n => Some (mkO (ocell o) (olevel o) (ocaller o) (ofunc o) n (oglob o) (ostd o))
  | Other => Some o
  | Err => None
  end.
(** 93-97. *)
Fixpoint apply_all (xs : list opt) (o : options) : option options :=
  match xs with [] => Some o | x :: r => match apply x o with Some o' => apply_all r o' | None => None end end.
(** NewOptions, 61-100: [cell] is the new encoder configuration of 69-80. *)
Definition new_options (cell : nat) (xs : list opt) : option options := apply_all xs (mkO cell 0 false false 0 "" false).
(** A logger: its level, its copy of an encoder configuration, whether it adds the caller and
    the frames it skips, whether it writes to standard output and to a file. *)
Record logger := mkL { llevel : Z; lconf : conf; lcaller : bool; lskip : Z; lstdout : bool; lfile : bool }.
(** NewLogger, 228-273; [rotates]: NewRotation does not err.  The encoder takes a copy of the
    configuration (251), which is written after (259-267). *)
Definition new_logger (m : memory) (xs : list opt) (rotates : bool) : memory * option logger :=
  let m := m ++ [mkC Short false] in
  match new_options (List.length m - 1) xs with
  | None => (m, None)
  | Some o =>
    let glob := negb (String.eqb (oglob o) "") in
    if glob && negb rotates then (m, None) else
    let out := if glob then ostd o else true in
    let copy := nth (ocell o) m (mkC Short false) in
    if ocaller o
    then (put m (ocell o) (mkC (if ofunc o then FileLineFunc else FileLine) false), Some (mkL (olevel o) copy true (oskip o) out glob))
    else (m, Some (mkL (olevel o) copy false 0 out glob))
  end.
(** Lines on standard output and entries in the file of what a call does through the helper
    of a logger (24-26); the prints of 92-94 come first. *)
Inductive line := Json (e : entry) | Printed (l : Z) (msg : string).
Definition helper_of (lg : logger) (tag : string) : helper := mkH (llevel lg) tag.
Definition stdout (lg : logger) (f : effect) : list line := map (fun p => Printed (fst p) (snd p)) (printed f) ++ (if lstdout lg then map Json (entries f) else []).
Definition file (lg : logger) (f : effect) : list entry := if lfile lg then entries f else [].
(** funcShortName, 279-287: from the last character back; [after] is what was passed. *)
Local Open Scope char_scope.
Fixpoint scan (back after : list ascii) : option (list ascii) :=
  match back with
  | [] => None
  | c :: r => if Ascii.eqb c "/" then None else if Ascii.eqb c "." then Some after else scan r (c :: after)
  end.
Definition short_name (name : list ascii) : list ascii := match scan (rev name) [] with Some s => s | None => name end.
Local Close Scope char_scope.

(** ** Fields (field.go, flow.go) *)
(** RegisterLogField, 37-48; None: the panic.  Calls do not overlap. *)
Definition registry := list (string * string).
Definition register (fs : registry) (k v : string) : option registry := if existsb (fun f => String.eqb (fst f) k) fs then None else Some (fs ++ [(k, v)]).
(** A sequence of calls, each recovered: whether it panicked. *)
Fixpoint registers (fs : registry) (l : list (string * string)) : registry * list bool :=
  match l with
  | [] => (fs, [])
  | (k, v) :: r => match register fs k v with Some fs' => let (g, b) := registers fs' r in (g, false :: b) | None => let (g, b) := registers fs r in (g, true :: b) end
  end.
(** ZapFields, 22-35. *)
Definition zap_fields (common : option fields) (own : fields) : fields := match common with Some c => c | None => [] end ++ own.
(** AddTo a MapObjectEncoder: a later value of a key replaces the earlier. *)
Fixpoint add_to (m : fields) (k : string) (v : val) : fields :=
  match m with [] => [(k, v)] | (k', v') :: r => if String.eqb k' k then (k', v) :: r else (k', v') :: add_to r k v end.
Inductive out := Plain (k : string) (v : val) | Object (k : string) (m : fields).
(** TaDataFields, 37-58: the loop of 45-52 with ret, enc.Fields and hasSubObject. *)
Fixpoint split_fields (sub : string -> bool) (fs : fields) (ret : list out) (enc : fields) (has : bool) : list out * fields * bool :=
  match fs with
  | [] => (ret, enc, has)
  | (k, v) :: r => if sub k then split_fields sub r ret (add_to enc k v) true else split_fields sub r (ret ++ [Plain k v]) enc has
  end.
Definition ta_fields (common : option fields) (own : fields) (key : string) (sub : string -> bool) : list out :=
  let fs := zap_fields common own in
  if (String.length key <=? 0)%nat then map (fun f => Plain (fst f) (snd f)) fs else
  let '(ret, enc, has) := split_fields sub fs [] [] false in
  if has then ret ++ [Object key enc] else ret.
