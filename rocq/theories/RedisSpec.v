(** Vocabulary for C122-C124. *)
From Coq Require Import List ZArith Bool.
From Verif Require Import RedisModel.
Import ListNotations.
Local Open Scope Z_scope.

(** The field that an option is for, by its name and comment, and the value. *)
Definition meant (o : opt) : option (field * Z) :=
  match o with
  | WithAddr _ => None
  | WithDomain z => Some (FAddr, z)
  | WithUsername z => Some (FUser, z)
  | WithPassword z => Some (FPassword, z)
  | WithReadTimeOut z => Some (FRead, z)
  | WithWriteTimeOut z => Some (FWrite, z)
  | WithConnectTimeOut z => Some (FDial, z)
  | WithIdleTimeout z => Some (FIdle, z)
  | WithMaxIdle z => Some (FMaxIdle, z)
  | WithMinIdle z => Some (FMinIdle, z)
  | WithPoolSize z => Some (FPool, z)
  | WithPoolTimeout z => Some (FPoolTimeout, z)
  | WithTracer z => Some (FTracer, z)
  end.
(** The defaults: 10 seconds for reading and writing, 128 idle connections, 1024 in all. *)
Definition default_of (f : field) (z : Z) : Prop :=
  match f with FRead => z = 10 | FWrite => z = 10 | FMinIdle => z = 128 | FPool => z = 1024 | _ => z = 0 end.
(** [z] is the value of the last option of [os] that is for field [f], or the default. *)
Definition asked (os : list opt) (f : field) (z : Z) : Prop :=
  (exists a o b, os = a ++ o :: b /\ meant o = Some (f, z) /\ forall o' z', In o' b -> meant o' <> Some (f, z')) \/
  ((forall o z', In o os -> meant o <> Some (f, z')) /\ default_of f z).
Definition is_addr (o : opt) : bool := match o with WithAddr _ => true | _ => false end.
Definition is_connect (o : opt) : bool := match o with WithConnectTimeOut _ => true | _ => false end.
(** The values of the commands that have one. *)
Definition vals_of (l : list cmd) : list Z := flat_map (fun c => match c with CVal v => [v] | _ => [] end) l.
(** The field that an option writes: as meant, but for WithConnectTimeOut. *)
Definition written (o : opt) : option (field * Z) := match o with WithConnectTimeOut z => Some (FLife, z) | _ => meant o end.
