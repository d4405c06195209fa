(** Model of the transaction of the mock actors over Call: the coordinator's handler of tcc_succ,
    /repo/tests/mock/mock_actor_a.go 119-164, and the participants' handlers of tcc_succ,
    tcc_confirm and tcc_cancel, /repo/tests/mock/mock_actor_b.go 76-124, mock_actor_c.go 52-101,
    mock_tcc.go 5-14, on one node: a Call from a handler only puts the message in the mailbox of
    the target, /repo/core/node/system_impl.go 245-253, 293-345, and fails if the target is closed,
    /repo/core/actor/actor_runtime_impl.go 172-190.

    Any number of callers use the coordinator at once; anybody may send tcc_cancel (nobody in
    the repository does); a participant may be closed, and its loop may end with messages left
    (actor_runtime_impl.go 281-302, 354-362).  Transaction ids, made by uuid.New, are the numbers of the calls.
    A handler is one step; a
    participant that is no longer registered is taken for a closed one.  Left out: a closed coordinator; createdAt; status and currentValue,
    which nobody reads. *)
From Coq Require Import List Arith Bool.
From Verif Require Import Machine.
Import ListNotations.

Inductive part := B | C.
Definition part_eqb (p q : part) : bool := match p, q with B, B | C, C => true | _, _ => false end.
(** MockBTccValue, MockCTccValue (mock_actor_b.go 15, mock_actor_c.go 14) and what a try sets (88 and 65). *)
Definition first_value (p : part) : nat := match p with B => 11 | C => 22 end.
Definition new_value (p : part) : nat := match p with B => 111 | C => 222 end.

Inductive kind := Try | Confirm | Cancel.
Record participant := mkP {
  open : bool;                (* closed = 0 *)
  ended : bool;               (* the message loop has returned *)
  box : list (kind * nat);
  value : nat;
  tries : list (nat * nat) }. (* stateMap: transaction and originValue *)
(** The next step of the coordinator's handler. *)
Inductive pc := TryB | TryC (bsucc : bool) | ConfirmB | ConfirmC.
Record state := mkS {
  calls : nat;                 (* calls of tcc_succ *)
  inbox : list nat;            (* mailbox of the coordinator *)
  running : option (nat * pc);
  returned : list nat;
  partB : participant;
  partC : participant }.
Definition fresh (p : part) : participant := mkP true false [] (first_value p) [].
Definition init : state := mkS 0 [] None [] (fresh B) (fresh C).

Definition get (s : state) (p : part) : participant := match p with B => partB s | C => partC s end.
Definition put (s : state) (p : part) (x : participant) : state :=
  match p with
  | B => mkS (calls s) (inbox s) (running s) (returned s) x (partC s)
  | C => mkS (calls s) (inbox s) (running s) (returned s) (partB s) x
  end.
Definition goto (s : state) (r : option (nat * pc)) : state := mkS (calls s) (inbox s) r (returned s) (partB s) (partC s).

Inductive label :=
| LCall                      (* System.Call("mocka", "mocka", "tcc_succ", ...) *)
| LStep                      (* the coordinator *)
| LHandle (p : part)
| LCancel (p : part) (t : nat)
| LClose (p : part)
| LEnd (p : part)            (* the message loop ends *)
| LReturn (t : nat)          (* the call returns, all messages of its tree handled *)
| LTimeout (t : nat).        (* the call returns without that *)
Inductive event :=
| VCall (t : nat)
| VSent (p : part) (k : kind) (t : nat)     (* a Call of the coordinator returned nil *)
| VRefused (p : part) (k : kind) (t : nat)  (* it returned an error *)
| VTry (p : part) (t old : nat)             (* handled; the value was old *)
| VConfirm (p : part) (t : nat) (found : bool)
| VCancel (p : part) (t : nat) (restored : option nat)
| VClose (p : part)
| VReturn (t : nat)
| VTimeout (t : nat).

Fixpoint lookup (t : nat) (m : list (nat * nat)) : option nat :=
  match m with [] => None | (u, o) :: r => if u =? t then Some o else lookup t r end.
Definition delete (t : nat) (m : list (nat * nat)) : list (nat * nat) := filter (fun x => negb (fst x =? t)) m.

Definition push (x : participant) (k : kind) (t : nat) : participant := mkP (open x) (ended x) (box x ++ [(k, t)]) (value x) (tries x).
(** Call to participant p from the coordinator's handler. *)
Definition call (s : state) (p : part) (k : kind) (t : nat) (next : bool -> option (nat * pc)) : state * list event :=
  if open (get s p) then (goto (put s p (push (get s p) k t)) (next true), [VSent p k t])
  else (goto s (next false), [VRefused p k t]).

(** The handlers of a participant. *)
Definition handle (p : part) (k : kind) (t : nat) (x : participant) (rest : list (kind * nat)) : participant * event :=
  match k with
  | Try => (mkP (open x) (ended x) rest (new_value p) ((t, value x) :: delete t (tries x)), VTry p t (value x))          (* b 80-88 *)
  | Confirm =>
    match lookup t (tries x) with                                                                                      (* b 100-105 *)
    | Some _ => (mkP (open x) (ended x) rest (value x) (delete t (tries x)), VConfirm p t true)
    | None => (mkP (open x) (ended x) rest (value x) (tries x), VConfirm p t false)
    end
  | Cancel =>
    match lookup t (tries x) with                                                                                      (* b 115-121 *)
    | Some o => (mkP (open x) (ended x) rest o (delete t (tries x)), VCancel p t (Some o))
    | None => (mkP (open x) (ended x) rest (value x) (tries x), VCancel p t None)
    end
  end.

(** Some message of call t, sent by the coordinator, has not been handled. *)
Definition of_call (t : nat) (m : kind * nat) : bool := match m with (Cancel, _) => false | (_, u) => u =? t end.
Definition busy (s : state) (t : nat) : bool :=
  existsb (Nat.eqb t) (inbox s) || match running s with Some (u, _) => u =? t | None => false end ||
  existsb (of_call t) (box (partB s)) || existsb (of_call t) (box (partC s)).

Definition step (s : state) (l : label) : option (state * list event) :=
  match l with
  | LCall => Some (mkS (S (calls s)) (inbox s ++ [calls s]) (running s) (returned s) (partB s) (partC s), [VCall (calls s)])
  | LStep =>
    match running s with
    | None =>
      match inbox s with
      | t :: r => Some (mkS (calls s) r (Some (t, TryB)) (returned s) (partB s) (partC s), [])
      | [] => None
      end
    | Some (t, TryB) => Some (call s B Try t (fun ok => Some (t, TryC ok)))                                             (* a 128 *)
    | Some (t, TryC bsucc) => Some (call s C Try t (fun ok => if bsucc && ok then Some (t, ConfirmB) else None))       (* a 129, 133 *)
    | Some (t, ConfirmB) => Some (call s B Confirm t (fun _ => Some (t, ConfirmC)))                                   (* a 136 *)
    | Some (t, ConfirmC) => Some (call s C Confirm t (fun _ => None))                                                 (* a 147 *)
    end
  | LHandle p =>
    match ended (get s p), box (get s p) with
    | false, (k, t) :: r => let (x, e) := handle p k t (get s p) r in Some (put s p x, [e])
    | _, _ => None
    end
  | LCancel p t => if open (get s p) then Some (put s p (push (get s p) Cancel t), []) else None
  | LClose p =>
    let x := get s p in
    if open x then Some (put s p (mkP false (ended x) (box x) (value x) (tries x)), [VClose p]) else None
  | LEnd p =>
    let x := get s p in
    if open x then None else Some (put s p (mkP (open x) true (box x) (value x) (tries x)), [])
  | LReturn t =>
    if (t <? calls s) && negb (existsb (Nat.eqb t) (returned s)) && negb (busy s t)
    then Some (mkS (calls s) (inbox s) (running s) (t :: returned s) (partB s) (partC s), [VReturn t]) else None
  | LTimeout t =>
    if (t <? calls s) && negb (existsb (Nat.eqb t) (returned s))
    then Some (mkS (calls s) (inbox s) (running s) (t :: returned s) (partB s) (partC s), [VTimeout t]) else None
  end.
