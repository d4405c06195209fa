(** Vocabulary for the properties of the number handed from actor to actor. *)
From Coq Require Import List ZArith Bool String.
From Verif Require Import MsgModel NestModel.
Import ListNotations.
Open Scope Z_scope.
Open Scope list_scope.

(** A message whose fields can be read and written on both sides: each side has a header of its
    own, whose custom fields are empty or a JSON object, and no error is noted. *)
Definition writable (s : side) (b : builder) : Prop :=
  exists h, hdr s b = Some h /\ (Custom h = CEmpty \/ exists d, read_map (Custom h) = Some (Some d)).
Definition sound (b : builder) : Prop := writable Req b /\ writable Res b /\ reqH b <> resH b /\ err b = false.
(** The number under a key, on one side. *)
Definition holds (s : side) (b : builder) (k : gostr) (v : Z) : Prop := GetCustomField s b k (TInt Int) = Got (GInt Int v).
(** Both sides read alike under a key, as any type. *)
Definition alike (s : side) (b b' : builder) (k : gostr) : Prop := forall t, GetCustomField s b k t = GetCustomField s b' k t.
(** The field, spelled out. *)
Definition randvalue : gostr := map Rune [114; 97; 110; 100; 118; 97; 108; 117; 101].
(** How many numbers are put into the request of the first actor: one by each actor that hands
    on, up to the first that calls another node. *)
Fixpoint bumps (ps : list place) : Z := match ps with [] => 0 | Local :: r => 1 + bumps r | Remote _ :: _ => 1 end.
Definition here (p : place) : bool := match p with Local => true | Remote _ => false end.
