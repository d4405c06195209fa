(** Model of the helpers that read and write files (/repo/utils/file/file.go 49-87).

    A store maps a path, a number, to the bytes of its file.  Failures of the file system, modes and
    other processes are not modelled: an error of WriteJSON ends the process, and one of the
    others is returned as it is. *)
From Coq Require Import List Bool Arith.
Import ListNotations.

Definition store := nat -> option (list nat).
Definition put (s : store) (p : nat) (d : list nat) : store := fun q => if Nat.eqb q p then Some d else s q.
(** 50-53 *)
Definition exist (s : store) (p : nat) : bool := match s p with Some _ => true | None => false end.
(** 56-64 *)
Definition read_file (s : store) (p : nat) : option (list nat) := s p.
(** 67-73: WriteFile truncates the file. *)
Definition save_file (s : store) (p : nat) (d : list nat) : store := put s p d.
(** 76-87: the file is opened with O_RDWR and O_CREATE, and the bytes overwrite it from its start. *)
Definition write_json (s : store) (p : nat) (d : list nat) : store :=
  let old := match s p with Some o => o | None => [] end in put s p (d ++ skipn (length d) old).
Inductive op := Save (p : nat) (d : list nat) | Write (p : nat) (d : list nat).
Definition do (s : store) (o : op) : store := match o with Save p d => save_file s p d | Write p d => write_json s p d end.
