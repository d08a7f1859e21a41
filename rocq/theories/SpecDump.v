(** SpecDump.v -- what can be dumped, and what is left out (C60, C61). *)
From Verif Require Import Base Value Schema Types Asdict SpecTypes.

(** no dataclass instance in the value has a private field (instances inside a
    Serializable object are packed, not dumped) *)
Fixpoint public_fields (v : pyval) : Prop :=
  match v with
  | VObj _ d => Forall (fun k => public_name k = true) (map fst d) /\ all (fun kv => public_fields (snd kv)) d
  | VDict d | VNt _ d => all (fun kv => public_fields (snd kv)) d
  | VList l | VTuple l => all public_fields l
  | _ => True
  end.

(** no dataclass in the annotation has a private field; literals are scalars *)
Fixpoint public_class (t : ty) : Prop :=
  match t with
  | TList i | TOpt i => public_class i
  | TDict _ v => public_class v
  | TTuple l | TUnion l => all public_class l
  | TData _ fs =>
      Forall (fun k => public_name k = true) (field_names fs) /\
      all (fun f : string * (ty * dflt) => let '(_, (ft, _)) := f in public_class ft) fs
  | TLit l => Forall (fun a => scalar a = true) l
  | _ => True
  end.

(** numbers, strings and None in lists, tuples and dicts *)
Fixpoint bare (v : pyval) : bool :=
  match v with
  | VNone | VBool _ | VInt _ | VFloat _ | VStr _ => true
  | VList l | VTuple l => forallb bare l
  | VDict d => forallb (fun kv => bare (snd kv)) d
  | _ => false
  end.
