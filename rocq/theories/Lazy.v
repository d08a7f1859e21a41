(** Lazy.v -- hyperstate/lazy.py: attribute access on a [Lazy] object. *)
From Verif Require Import Base Value Schema Rewrite Sched Types Asdict FromDict.

(** An instance: class, attributes, and [_unloaded_lazy_fields] (lazy.py:41-44; set by
    hyperstate.py:295-296, empty when the attribute is missing). *)
Record inst := mkInst {
  i_cls : string;
  i_attrs : list (string * pyval);
  i_unloaded : list (string * lazyrec) }.

(** What an access does with files, by field name: open the blob, then parse it with
    msgpack or unpickle it. *)
Inductive file_event :=
| Opened (field : string)
| Parsed (field : string)
| Unpickled (field : string).

Section Access.
(** [ser_clz.deserialize(state_dict, config, self, ctx)]: user code; it gets the object
    itself, but may not change it or read its unloaded fields. *)
Variable deser : string -> pyval -> inst -> res pyval.
(** "UNSAFE_DESERIALIZE_PICKLE" in os.environ *)
Variable pickle_allowed : bool.
(** the files: contents by path *)
Variable disk : string -> option pyval.

(** lazy.py:40-71 [Lazy.__getattribute__].  An exception leaves the entry in place. *)
Definition lazy_get (o : inst) (name : string) : res pyval * inst * list file_event :=
  match aget name (i_unloaded o) with
  | Some r =>
      match disk (lz_file r) with
      | None => (Err FileNotFoundError, o, [])
      | Some data =>
          if lz_pickle r && negb pickle_allowed then (Err RuntimeError, o, [Opened name])
          else
            let ev := [Opened name; if lz_pickle r then Unpickled name else Parsed name] in
            match deser (lz_cls r) data o with
            | Err e => (Err e, o, ev)
            | Ok v => (Ok v, mkInst (i_cls o) (aset name v (i_attrs o)) (adel name (i_unloaded o)), ev)
            end
      end
  | None =>
      match aget name (i_attrs o) with
      | Some v => (Ok v, o, [])
      | None => (Err AttributeError, o, [])
      end
  end.

(** assignment is that of [object]: [Lazy] does not define [__setattr__] *)
Definition lazy_set (o : inst) (name : string) (v : pyval) : inst :=
  mkInst (i_cls o) (aset name v (i_attrs o)) (i_unloaded o).
End Access.

(** ** programs using a Lazy object *)
Inductive use :=
| Get (name : string)
| Put (name : string) (v : pyval).

(** a sequence of uses, each with the files as they are at that time; result of each
    [Get], final object, file events *)
Fixpoint uses (deser : string -> pyval -> inst -> res pyval) (pickle_allowed : bool)
    (l : list ((string -> option pyval) * use)) (o : inst) : list (res pyval) * inst * list file_event :=
  match l with
  | [] => ([], o, [])
  | (disk, Get n) :: r =>
      let '(v, o', ev) := lazy_get deser pickle_allowed disk o n in
      let '(vs, o'', evs) := uses deser pickle_allowed r o' in
      (v :: vs, o'', (ev ++ evs)%list)
  | (disk, Put n v) :: r => uses deser pickle_allowed r (lazy_set o n v)
  end.

(** the object [_typed_load] returns *)
Definition inst_of (l : loaded) : inst :=
  match l_value l with
  | VObj c d => mkInst c d (l_lazy l)
  | _ => mkInst "" [] (l_lazy l)
  end.

(** [asdict] reads every field with [getattr] (serde.py:78-86), which loads the unloaded
    ones; the object as it is dumped *)
Fixpoint load_fields deser pickle_allowed disk (names : list string) (o : inst) : res inst :=
  match names with
  | [] => Ok o
  | n :: r =>
      match lazy_get deser pickle_allowed disk o n with
      | (Ok _, o', _) => load_fields deser pickle_allowed disk r o'
      | (Err e, _, _) => Err e
      end
  end.
