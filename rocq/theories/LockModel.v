(** Model of the distributed lock, /repo/lib/dismutex/dismutex.go, against one Redis
    server with expiring keys.  Time is a number of milliseconds.

    A SETNX request travels: it can be executed late, also after the client gave up
    on it, be lost, or be sent again by the client library; its answer can be lost.
    Simplifications: one server and one clock (time.Sleep and the server's expiry run
    at the same speed); values are the label's (crypto/rand, lines 36-42, is an
    oracle; where they must differ a theorem says so); the error return of rand.Read
    (line 38) is not modelled; the context is never cancelled (a cancelled one makes
    requests fail, which is covered by [LGiveUp]). *)
From Coq Require Import List String ZArith Bool.
From Verif Require Import Machine AddrModel.
Import ListNotations.
Open Scope string_scope.
Open Scope list_scope.
Open Scope Z_scope.

(** Lines 14-23. *)
Definition Expiry : Z := 10000.
Definition Tries : nat := 4.
Definition Delay : Z := 700.

Inductive pc :=
| Try (i : nat)                         (* line 44, attempt i *)
| Wait (i : nat) (sent : Z)             (* line 45, request sent *)
| Ans (i : nat) (sent : Z) (ok : bool)  (* an answer is under way *)
| Sleep (i : nat) (until : Z)           (* line 50 *)
| Got (sent : Z)                        (* line 47: returned the value *)
| Failed                                (* line 53, or line 33 *)
| Dead.                                 (* the client crashed *)
Record call := mkCall { c_tok : string; c_val : string; c_pc : pc }.

(** [db]: key, value and expiry time; [flight]: requests not yet executed. *)
Record state := mkState { now : Z; db : list (string * (string * Z)); calls : list call; flight : list (nat * nat) }.
Definition init : state := mkState 0 [] [] [].

Inductive label :=
| LTick (d : Z)
| LLock (tok val : string)
| LSend (t : nat)
| LResend (t : nat)
| LExec (k : nat) (deliver : bool)      (* the server executes request k *)
| LLose (k : nat)                       (* request k never arrives *)
| LRecv (t : nat)
| LGiveUp (t : nat)                     (* an error instead of an answer *)
| LWake (t : nat)
| LCrash (t : nat)
| LUnlock (tok val : string)            (* Unlock is called, executed and answered *)
| LUnlockErr (tok val : string) (executed : bool).

Inductive event :=
| ELock (t : nat) (tok val : string)
| ESend (t : nat)
| EGrant (tok val : string) (at_ : Z)   (* the server set the key *)
| EGot (t : nat)
| EFailed (t : nat)
| EUnlock (tok val : string)            (* the script was executed *)
| ERet (tok val : string) (ok : bool).  (* Unlock returned *)

(** A key is there until its expiry time has passed. *)
Definition live (s : state) (tok : string) : option string :=
  match aget tok (db s) with
  | Some (v, x) => if x <? now s then None else Some v
  | None => None
  end.
Definition set_pc (s : state) (t : nat) (c : call) (p : pc) : list call := upd (calls s) t (mkCall (c_tok c) (c_val c) p).
Definition with_calls (s : state) (cs : list call) : state := mkState (now s) (db s) cs (flight s).
Fixpoint remove_nth {A} (k : nat) (l : list A) : list A :=
  match l, k with
  | [], _ => []
  | _ :: r, O => r
  | x :: r, S k => x :: remove_nth k r
  end.

(** delScript, lines 68-73. *)
Definition del_script (s : state) (tok v : string) : list (string * (string * Z)) * bool :=
  match live s tok with
  | Some w => if String.eqb w v then (adel tok (db s), true) else (db s, false)
  | None => (db s, false)
  end.

Definition step (s : state) (l : label) : option (state * list event) :=
  match l with
  | LTick d => if 0 <? d then Some (mkState (now s + d) (db s) (calls s) (flight s), []) else None
  | LLock tok v =>
    let t := List.length (calls s) in
    if String.eqb tok "" then Some (with_calls s (calls s ++ [mkCall tok v Failed]), [ELock t tok v; EFailed t])
    else Some (with_calls s (calls s ++ [mkCall tok v (Try 0)]), [ELock t tok v])
  | LSend t =>
    match nth_error (calls s) t with
    | Some c =>
      match c_pc c with
      | Try i => Some (mkState (now s) (db s) (set_pc s t c (Wait i (now s))) (flight s ++ [(t, i)]), [ESend t])
      | _ => None
      end
    | None => None
    end
  | LResend t =>
    match nth_error (calls s) t with
    | Some c =>
      match c_pc c with
      | Wait i _ => Some (mkState (now s) (db s) (calls s) (flight s ++ [(t, i)]), [])
      | _ => None
      end
    | None => None
    end
  | LExec k deliver =>
    match nth_error (flight s) k with
    | None => None
    | Some (t, i) =>
      match nth_error (calls s) t with
      | None => None
      | Some c =>
        let ok := match live s (c_tok c) with None => true | Some _ => false end in
        let answer := match c_pc c with
                      | Wait j sent => if deliver && Nat.eqb i j then set_pc s t c (Ans i sent ok) else calls s
                      | _ => calls s
                      end in
        Some (mkState (now s) (if ok then aset (c_tok c) (c_val c, now s + Expiry) (db s) else db s) answer (remove_nth k (flight s)),
              if ok then [EGrant (c_tok c) (c_val c) (now s)] else [])
      end
    end
  | LLose k =>
    match nth_error (flight s) k with
    | None => None
    | Some _ => Some (mkState (now s) (db s) (calls s) (remove_nth k (flight s)), [])
    end
  | LRecv t =>
    match nth_error (calls s) t with
    | Some c =>
      match c_pc c with
      | Ans i sent true => Some (with_calls s (set_pc s t c (Got sent)), [EGot t])
      | Ans i sent false => Some (with_calls s (set_pc s t c (Sleep i (now s + Delay))), [])
      | _ => None
      end
    | None => None
    end
  | LGiveUp t =>
    match nth_error (calls s) t with
    | Some c =>
      match c_pc c with
      | Wait i _ | Ans i _ _ => Some (with_calls s (set_pc s t c (Sleep i (now s + Delay))), [])
      | _ => None
      end
    | None => None
    end
  | LWake t =>
    match nth_error (calls s) t with
    | Some c =>
      match c_pc c with
      | Sleep i until =>
        if until <=? now s
        then if Nat.ltb (S i) Tries then Some (with_calls s (set_pc s t c (Try (S i))), [])
             else Some (with_calls s (set_pc s t c Failed), [EFailed t])
        else None
      | _ => None
      end
    | None => None
    end
  | LCrash t =>
    match nth_error (calls s) t with
    | Some c => Some (with_calls s (set_pc s t c Dead), [])
    | None => None
    end
  | LUnlock tok v =>
    if String.eqb v "" then Some (s, [ERet tok v false])
    else let '(d, ok) := del_script s tok v in
         Some (mkState (now s) d (calls s) (flight s), [EUnlock tok v; ERet tok v ok])
  | LUnlockErr tok v executed =>
    if String.eqb v "" then Some (s, [ERet tok v false])
    else if executed then Some (mkState (now s) (fst (del_script s tok v)) (calls s) (flight s), [EUnlock tok v; ERet tok v false])
    else Some (s, [ERet tok v false])
  end.
