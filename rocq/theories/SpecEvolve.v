(** SpecEvolve.v -- the class a schema describes (C58). *)
From Verif Require Import Base Value Schema Rewrite Sched Types Asdict FromDict SpecTree SpecTypes SpecLoad SpecSubtype SpecCheck SpecCompat SpecMirror.

(** The annotation with this schema.  Versions are dropped; [Nothing], the type that the
    schema upgrade of AddDefault gives to new fields, has no values. *)
Fixpoint class_of (s : sty) : ty :=
  match s with
  | SPrim p =>
      if String.eqb p "int" then TInt else if String.eqb p "float" then TFloat
      else if String.eqb p "str" then TStr else if String.eqb p "bool" then TBool else TNoneType
  | SList i => TList (class_of i)
  | STuple l => TTuple (map class_of l)
  | SDict k v => TDict (class_of k) (class_of v)
  | SUnion l => TUnion (map class_of l)
  | SOption i => TOpt (class_of i)
  | SStruct n fs _ =>
      TData (mkC n None)
        (map (fun f : string * (sty * fmeta) =>
                (fst f, (class_of (fst (snd f)),
                         if fm_has_default (snd (snd f)) then DValue (fm_default (snd (snd f))) else DMissing))) fs)
  | SEnum n ms => TEnum n ms
  | SLit l => TLit l
  | SNothing => TNoneType
  end.

(** no Union and no [Nothing] inside, and no default is an enum member (schema files cannot
    contain any) *)
Fixpoint readable_schema (s : sty) : Prop :=
  match s with
  | SPrim p => In p ["int"; "float"; "str"; "bool"]
  | SList i | SOption i => readable_schema i
  | STuple l => all readable_schema l
  | SDict k v => readable_schema k /\ readable_schema v
  | SStruct _ fs _ =>
      all (fun f => readable_schema (fst (snd f)) /\ schema_default (fm_default (snd (snd f))) = fm_default (snd (snd f))) fs
  | SEnum _ _ | SLit _ => True
  | SUnion _ | SNothing => False
  end.

(** a schema such as an ordinary class has *)
Definition ordinary_schema (E : env) (s : sty) : Prop :=
  readable_schema s /\
  match class_of s with
  | TData c fs => ordinary E c fs /\ all (fun f => no_empty (fst (snd f))) fs
  | _ => False
  end.
