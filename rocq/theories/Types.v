(** Types.v -- Python classes as the code inspects them (annotations,
    [__dataclass_fields__], [Versioned]) and [materialize_type]. *)
From Verif Require Import Base Value Schema Rewrite.

(** [dataclasses.Field.default] / [default_factory] *)
Inductive dflt : Type :=
| DMissing
| DValue (v : pyval)
| DFactory (v : pyval)   (* the value a call of the factory returns *).

(** class name; for a subclass of [Versioned]: [version()] and [upgrade_rules()] *)
Record cinfo := mkC {
  c_name : string;
  c_versioned : option (Z * list (Z * list rule)) }.

(** Annotations supported by hyperstate.  [TOpt t] is [Union[t, None]] (serde.py:408-414),
    [TUnion] any other Union.  [TSer] is a class implementing [Serializable]. *)
Inductive ty : Type :=
| TInt | TFloat | TStr | TBool | TNoneType
| TList (inner : ty)
| TTuple (args : list ty)
| TDict (key val : ty)
| TOpt (inner : ty)
| TUnion (args : list ty)
| TData (c : cinfo) (fields : list (string * (ty * dflt)))
| TEnum (name : string) (members : list (string * pyval))
| TLit (args : list pyval)
| TSer (name : string).

Definition tfield : Type := ty * dflt.

Definition has_default (d : dflt) : bool :=
  match d with DMissing => false | _ => true end.

Definition default_value (d : dflt) : pyval :=
  match d with DMissing => VNone | DValue v => v | DFactory v => v end.

(** types.py:269-270: enum defaults are stored by value *)
Definition schema_default (v : pyval) : pyval :=
  match v with VEnum _ _ x => x | _ => v end.

Definition is_dataclass_ty (t : ty) : bool := match t with TData _ _ => true | _ => false end.

(** types.py:235-294 [materialize_type].  Descriptions are left out ([None]), see Docs.v.
    Unsupported annotations raise ValueError (after a [breakpoint()] call). *)
Fixpoint materialize_type (t : ty) : res sty :=
  match t with
  | TInt => Ok (SPrim "int")
  | TStr => Ok (SPrim "str")
  | TBool => Ok (SPrim "bool")
  | TFloat => Ok (SPrim "float")
  | TList i => let* s := materialize_type i in Ok (SList s)
  | TTuple l => let* ss := rmap materialize_type l in Ok (STuple ss)
  | TDict k v => let* sk := materialize_type k in
                 let* sv := materialize_type v in Ok (SDict sk sv)
  | TOpt i => let* s := materialize_type i in Ok (SOption s)
  | TUnion l => let* ss := rmap materialize_type l in Ok (SUnion ss)
  | TData c fs =>
      let* fields :=
        rmap (fun f : string * (ty * dflt) =>
                let '(n, (t', d)) := f in
                let* s := materialize_type t' in
                Ok (n, (s, mkF n (schema_default (default_value d)) (has_default d) None))) fs in
      Ok (SStruct (c_name c) fields
                  (match c_versioned c with Some (v, _) => Some v | None => None end))
  | TEnum n ms => Ok (SEnum n ms)
  | TLit l => Ok (SLit l)
  | TNoneType => Err ValueError
  | TSer _ => Err ValueError
  end.

(** [cls.__name__] as looked at in the Union branch (serde.py:196), Python 3.10 *)
Definition ty_name (t : ty) : string :=
  match t with
  | TInt => "int" | TFloat => "float" | TStr => "str" | TBool => "bool"
  | TNoneType => "NoneType"
  | TList _ => "List" | TTuple _ => "Tuple" | TDict _ _ => "Dict"
  | TOpt _ => "Optional" | TUnion _ => "Union"
  | TData c _ => c_name c
  | TEnum n _ => n
  | TLit _ => "Literal"
  | TSer n => n
  end.

(** [hasattr(arg, "__args__")] *)
Definition has_args (t : ty) : bool :=
  match t with
  | TList _ | TTuple _ | TDict _ _ | TOpt _ | TUnion _ | TLit _ => true
  | _ => false
  end.
