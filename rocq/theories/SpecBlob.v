(** SpecBlob.v -- where the placeholders of a state file point to (C70). *)
From Verif Require Import Base.

(** [placeholder dir f s file pickled]: in the checkpoint directory [dir], the placeholder
    [s] of the field [f] stands for [file], which is a pickle or not.  The first two were
    written by older versions. *)
Inductive placeholder (dir f : string) : string -> string -> bool -> Prop :=
| ph_blob : placeholder dir f "<BLOB>" (dir ++ "/" ++ f) true
| ph_pickle : placeholder dir f "<blob:pickle>" (dir ++ "/state." ++ f ++ ".pickle") true
| ph_msgpack : placeholder dir f "<blob:msgpack>" (dir ++ "/state." ++ f ++ ".msgpack") false.
