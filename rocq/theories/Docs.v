(** Docs.v -- hyperstate/schema/types.py: the descriptions of fields, which
    [materialize_type] takes from the docstrings of a class and its bases. *)
From Verif Require Import Base Value Schema Rewrite Sched Types Asdict FromDict Checker.

(** A class as [_find_all_field_docs] looks at it: the parameters that [docstring_parser]
    finds in its docstring, in order, with their descriptions ([docstring_parser] is not
    modelled), and the base classes. *)
Inductive docclass : Type :=
| DC (params : list (string * option string)) (bases : list docclass).

(** [{f.arg_name: f.description for f in docs.params if f.description is not None}] *)
Definition param_docs (ps : list (string * option string)) : list (string * string) :=
  fold_left (fun d p => match snd p with Some x => aset (fst p) x d | None => d end) ps [].

(** [d.update(e)] *)
Definition dict_update {A} (d e : list (string * A)) : list (string * A) :=
  fold_left (fun d kv => aset (fst kv) (snd kv) d) e d.

(** types.py:350-358 [_find_all_field_docs] *)
Fixpoint field_docs (c : docclass) : list (string * string) :=
  match c with
  | DC ps bases => fold_left (fun d b => dict_update d (field_docs b)) bases (param_docs ps)
  end.

(** types.py:235-294 [materialize_type] with descriptions; [D] gives the docstrings of a
    dataclass.  Simplification: a class is identified by its name, version and fields. *)
Fixpoint materialize_docs (D : ty -> docclass) (t : ty) : res sty :=
  match t with
  | TInt => Ok (SPrim "int")
  | TStr => Ok (SPrim "str")
  | TBool => Ok (SPrim "bool")
  | TFloat => Ok (SPrim "float")
  | TList i => let* s := materialize_docs D i in Ok (SList s)
  | TTuple l => let* ss := rmap (materialize_docs D) l in Ok (STuple ss)
  | TDict k v => let* sk := materialize_docs D k in
                 let* sv := materialize_docs D v in Ok (SDict sk sv)
  | TOpt i => let* s := materialize_docs D i in Ok (SOption s)
  | TUnion l => let* ss := rmap (materialize_docs D) l in Ok (SUnion ss)
  | TData c fs =>
      let docs := field_docs (D t) in
      let* fields :=
        rmap (fun f : string * (ty * dflt) =>
                let '(n, (t', d)) := f in
                let* s := materialize_docs D t' in
                Ok (n, (s, mkF n (schema_default (default_value d)) (has_default d) (aget n docs)))) fs in
      Ok (SStruct (c_name c) fields
                  (match c_versioned c with Some (v, _) => Some v | None => None end))
  | TEnum n ms => Ok (SEnum n ms)
  | TLit l => Ok (SLit l)
  | TNoneType => Err ValueError
  | TSer _ => Err ValueError
  end.
