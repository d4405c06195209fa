(** Vocabulary for C125-C132. *)
From Coq Require Import List ZArith Bool Ascii String.
From Verif Require Import LogModel.
Import ListNotations.
Local Open Scope string_scope.
Local Open Scope list_scope.
Local Open Scope Z_scope.

(** The level, the text and the fields that a call asks for. *)
Definition severity (a : api) : Z :=
  match a with
  | DebugF _ | SystemDebug _ _ _ _ _ _ => -1
  | InfoF _ | SystemInfo _ _ _ _ _ _ | SystemReqInfo _ _ _ _ _ => 0
  | WarnF _ | SystemWarn _ _ _ _ _ _ => 1
  | ErrorF _ | SystemError _ _ _ _ _ _ => 2
  | PanicF _ => 4
  end.
Definition text (a : api) : string :=
  match a with
  | DebugF m | InfoF m | WarnF m | ErrorF m | PanicF m => m
  | SystemDebug _ _ _ _ _ m | SystemInfo _ _ _ _ _ m | SystemWarn _ _ _ _ _ m | SystemError _ _ _ _ _ m | SystemReqInfo _ _ _ _ m => m
  end.
Definition given (a : api) : list (string * val) :=
  match a with
  | DebugF _ | InfoF _ | WarnF _ | ErrorF _ | PanicF _ => []
  | SystemDebug c i p t r _ | SystemInfo c i p t r _ | SystemWarn c i p t r _ | SystemError c i p t r _ =>
    [("eCode", VInt c); ("accID", VText i); ("path", VText p); ("token", VText t); ("realIP", VText r)]
  | SystemReqInfo i p t r _ => [("accID", VText i); ("path", VText p); ("token", VText t); ("realIP", VText r)]
  end.
(** WarnF and ErrorF. *)
Definition loud (a : api) : bool := match a with WarnF _ | ErrorF _ => true | _ => false end.
Definition is_panic (a : api) : bool := match a with PanicF _ => true | _ => false end.

(** [v] is what the last of the options of a kind says, or the default [d]. *)
Definition last_of {A} (pick : opt -> option A) (xs : list opt) (d v : A) : Prop :=
  (exists a x b, xs = a ++ x :: b /\ pick x = Some v /\ forall y, In y b -> pick y = None) \/ ((forall y, In y xs -> pick y = None) /\ v = d).
Definition level_opt (x : opt) := match x with WithLevel l => Some l | _ => None end.
Definition caller_opt (x : opt) := match x with WithCaller b => Some b | _ => None end.
Definition func_opt (x : opt) := match x with WithCallerFunc b => Some b | _ => None end.
Definition skip_opt (x : opt) := match x with WithCallerSkip n => Some n | _ => None end.
Definition glob_opt (x : opt) := match x with WithGlobPattern g => Some g | _ => None end.
Definition std_opt (x : opt) := match x with WithOutStd b => Some b | _ => None end.
(** The user's encoder configuration, if there is one. *)
Definition conf_opt (x : opt) := match x with WithEncoderConf c => Some (Some c) | _ => None end.
(** How the comments of Options say that the caller is printed. *)
Definition wanted_print (func : bool) : printer := if func then FileLineFunc else FileLine.

(** The value of a key in an object. *)
Definition lookup (m : fields) (k : string) (v : val) : Prop := exists a b, m = a ++ (k, v) :: b /\ ~ In k (map fst a).
(** [v] is the last value of [k] in [fs]. *)
Definition last_value (fs : fields) (k : string) (v : val) : Prop := exists a b, fs = a ++ (k, v) :: b /\ ~ In k (map fst b).
Definition plain (f : string * val) : out := Plain (fst f) (snd f).
(** [l] is [l'] with some elements left out. *)
Inductive within {A} : list A -> list A -> Prop :=
| within_nil : within [] []
| within_skip x l l' : within l l' -> within l (x :: l')
| within_keep x l l' : within l l' -> within (x :: l) (x :: l').
