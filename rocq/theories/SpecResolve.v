(** SpecResolve.v -- vocabulary for "the proposed rules settle the report" (C69). *)
From Verif Require Import Base Value Schema Checker SpecTree.

(** no sub-config inside; enum values without repeated keys, literal values equal to
    themselves (not NaN) *)
Fixpoint plain_type (t : sty) : Prop :=
  match t with
  | SStruct _ _ _ | SNothing => False
  | SList i | SOption i => plain_type i
  | SEnum _ vs => forall v x, In (v, x) vs -> wf x = true
  | SLit l => forall x, In x l -> py_eq x x = true
  | _ => True
  end.
(** every field is a sub-config, with such fields again, or has no sub-config inside its type *)
Fixpoint plain_section (t : sty) : Prop :=
  match t with
  | SStruct _ fs _ => (fix go (l : list (string * sfield)) : Prop := match l with [] => True | (_, (ft, _)) :: r => plain_section ft /\ go r end) fs
  | _ => plain_type t
  end.
Definition plain_fields (fs : list (string * sfield)) : Prop := forall n f, In (n, f) fs -> plain_section (fst f).

(** the field at a path that is not a sub-config, and what is said about the sub-config at a path *)
Fixpoint field_at (fs : list (string * sfield)) (p : list string) : option sfield :=
  match p with
  | [] => None
  | k :: r => match aget k fs with
              | Some (SStruct _ gs _, _) => field_at gs r
              | Some f => match r with [] => Some f | _ => None end
              | None => None
              end
  end.
Fixpoint section_at (fs : list (string * sfield)) (p : list string) : option fmeta :=
  match p with
  | [] => None
  | k :: r => match aget k fs with
              | Some (SStruct _ gs _, m) => match r with [] => Some m | _ => section_at gs r end
              | _ => None
              end
  end.
(** the same sub-configs, at the same places *)
Definition same_places (fs gs : list (string * sfield)) : Prop := forall p, section_at fs p = None <-> section_at gs p = None.

(** primitive types, enums, literals and lists of these: types that can be compared and
    for which a subtype needs no rule *)
Fixpoint firm (t : sty) : Prop :=
  match t with
  | SPrim _ | SEnum _ _ | SLit _ => True
  | SList i => firm i
  | _ => False
  end.
Definition firm_pair (t u : sty) : Prop :=
  match t with
  | SOption i => firm i /\ exists j, u = SOption j /\ is_subtype i j = true
  | _ => firm t
  end.

(** Changes that the proposed rules settle.  [fs] and [gs] are the fields of the old and
    of the new schema. *)
Definition settled (fs gs : list (string * sfield)) (c : change) : Prop :=
  match c with
  | FieldAdded _ _ _ _ | FieldRemoved _ _ _ _ | EnumVariantAdded _ _ _ _ | LiteralValuesAdded _ _ => True
  | FieldRenamed p q => forall f g, field_at fs p = Some f -> field_at gs q = Some g -> firm_pair (fst f) (fst g)
  | DefaultValueChanged p o n => field_at gs p <> None /\ py_eq o o = true /\ py_eq n n = true
  | TypeChanged p o n => is_subtype o n = true \/ exists l m, n = SLit l /\ field_at fs p = Some (o, m)
  | EnumVariantValueChanged p _ v x y =>
      exists e ws m e' vs m', field_at fs p = Some (SEnum e ws, m) /\ field_at gs p = Some (SEnum e' vs, m') /\ In v (map fst vs) /\
        py_eq x x = true /\ py_eq y y = true /\
        forall w z, In (w, z) ws -> py_eq y z = false /\ (w <> v -> py_eq z x = false)
  | DefaultValueRemoved _ _ | EnumVariantRemoved _ _ _ _ | EnumVariantRenamed _ _ _ _ | LiteralValuesRemoved _ _ => False
  end.
