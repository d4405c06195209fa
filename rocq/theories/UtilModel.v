(** Models of /repo/core/entity.go (versions), /repo/utils/file/file.go (names) and
    /repo/lib/errcode/errcode.go. *)
From Coq Require Import List ZArith Bool.
Import ListNotations.
Open Scope Z_scope.

(** ** core/entity.go.  A strategy is its version and a name for its reason and function;
    the lock is not modelled, registration takes none. *)
Record VerStrategy := mkVer { Version : Z; What : nat }.
(** RegisterVersionStrategy, lines 37-39. *)
Definition RegisterVersionStrategy (verList : list VerStrategy) (s : VerStrategy) : list VerStrategy := verList ++ [s].
(** GetVerStrategy, lines 43-53; [None] is ErrNotfoundVersion. *)
Fixpoint GetVerStrategy (verList : list VerStrategy) (ver : Z) : option VerStrategy :=
  match verList with
  | [] => None
  | v :: r => if Version v =? ver then Some v else GetVerStrategy r ver
  end.
(** GetNextVersion, lines 55-67. *)
Fixpoint GetNextVersion (verList : list VerStrategy) (ver : Z) : Z :=
  match verList with
  | [] => ver
  | v :: r => if ver <? Version v then Version v else GetNextVersion r ver
  end.

(** ** utils/file/file.go.  A string is its bytes. *)
Definition bytes := list Z.
Definition dot : Z := 46.
(** strings.LastIndex(s, "."). *)
Fixpoint LastIndex (s : bytes) : Z :=
  match s with
  | [] => -1
  | c :: r => let i := LastIndex r in if 0 <=? i then i + 1 else if c =? dot then 0 else -1
  end.
(** GetFileExt, lines 22-34. *)
Definition GetFileExt (fileName : bytes) : bytes :=
  match fileName with
  | [] => []
  | _ => let index := LastIndex fileName in if index <? 0 then [] else skipn (Z.to_nat index) fileName
  end.
(** GetFileRealName, lines 37-47. *)
Definition GetFileRealName (fileName : bytes) : bytes :=
  match fileName with
  | [] => []
  | _ => let idx := LastIndex fileName in if idx <? 0 then [] else firstn (Z.to_nat idx) fileName
  end.

(** ** lib/errcode/errcode.go.  The detail string, which holds the caller's line, is not
    modelled. *)
Record Code := mkCode { code : Z; msg : bytes }.
(** Values of type error: a Code, another error, the wrappers of pkg/errors (WithStack and
    WithMessage, which have a method Cause) and fmt.Errorf with %w (which has Unwrap only). *)
Inductive error :=
| ECode (c : Code) | EPlain (m : bytes) | EWithStack (e : error) | EWithMessage (m : bytes) (e : error) | EWrapf (m : bytes) (e : error).
Fixpoint Error (e : error) : bytes :=
  match e with
  | ECode c => msg c
  | EPlain m => m
  | EWithStack e => Error e
  | EWithMessage m e => m ++ [58; 32] ++ Error e
  | EWrapf m e => m ++ Error e
  end.
(** pkg/errors.Cause. *)
Fixpoint errors_Cause (e : error) : error :=
  match e with EWithStack e | EWithMessage _ e => errors_Cause e | _ => e end.
(** Add, OK, Unknow, New: lines 11-25.  [None] is a panic. *)
Definition Add (e : Z) (m : bytes) : Code := mkCode e m.
Definition OK : Code := Add 0 [].
Definition New (e : Z) (m : bytes) : option Code := if e <=? 0 then None else Some (Add e m).
(** String, lines 72-78. *)
Definition String (e : bytes) : Code := match e with [] => OK | _ => mkCode (-1) e end.
(** Cause, lines 81-90, of a nil or non-nil error. *)
Definition Cause (e : option error) : Code :=
  match e with
  | None => OK
  | Some e => match errors_Cause e with ECode c => c | _ => String (Error e) end
  end.
(** Equal, lines 93-101, and EqualError, 104-106. *)
Definition Equal (a b : option Code) : bool :=
  code (match a with Some c => c | None => OK end) =? code (match b with Some c => c | None => OK end).
Definition EqualError (c : Code) (e : option error) : bool := code (Cause e) =? code c.
