(** SpecNest.v -- vocabulary for "the proposed rules repair old files" for configs with
    sub-configs (C29). *)
From Verif Require Import Base Value Schema Rewrite Sched Types Asdict FromDict Checker SpecTypes SpecLoad SpecSubtype SpecCheck SpecCompat SpecFix.

(** the fields of the (sub-)config at a path *)
Fixpoint section (fs : list (string * (ty * dflt))) (p : list string) : option (list (string * (ty * dflt))) :=
  match p with
  | [] => Some fs
  | k :: r => match aget k fs with Some (TData _ gs, _) => section gs r | _ => None end
  end.
Definition is_section (fs : list (string * (ty * dflt))) (p : list string) : bool :=
  match section fs p with Some _ => true | None => false end.

(** the field at a path that is not a sub-config itself *)
Fixpoint leaf (fs : list (string * (ty * dflt))) (p : list string) : option (ty * dflt) :=
  match p with
  | [] => None
  | k :: r => match aget k fs with
              | Some (TData _ gs, _) => leaf gs r
              | Some f => match r with [] => Some f | _ => None end
              | None => None
              end
  end.

(** every field is a sub-config, with such fields again, or has no dataclass inside its type *)
Fixpoint sectioned (t : ty) : Prop :=
  match t with
  | TData _ fs => all (fun f => sectioned (fst (snd f))) fs
  | _ => dataless t
  end.
Definition all_sectioned (fs : list (string * (ty * dflt))) : Prop := all (fun f => sectioned (fst (snd f))) fs.

(** the same sub-configs, at the same places *)
Definition same_sections (fs gs : list (string * (ty * dflt))) : Prop := forall p, is_section fs p = is_section gs p.

(** what a file says at a path *)
Fixpoint value_at (v : pyval) (p : list string) : option pyval :=
  match p with
  | [] => Some v
  | k :: r => match v with
              | VDict m => match aget k m with Some w => value_at w r | None => None end
              | _ => None
              end
  end.

(** the file spells out every sub-config, as the files written by [dump] do *)
Definition sections_given (fs : list (string * (ty * dflt))) (d : pyval) : Prop :=
  forall p, is_section fs p = true -> exists m, value_at d p = Some (VDict m).

(** the report says something about the default of the field at [p] *)
Definition default_changed_at (p : list string) (cs : list change) : Prop :=
  exists o, In (DefaultValueRemoved p o) cs \/ exists n, In (DefaultValueChanged p o n) cs.

(** [repairable] for fields at any depth *)
Definition repairable_at (E : env) (fs gs : list (string * (ty * dflt))) (cs : list change) (c : change) : Prop :=
  match c with
  | TypeChanged p o n =>
      sflat o /\
      (is_subtype o n = true \/
       (exists i t d, n = SList i /\ leaf fs p = Some (t, d) /\ materialize_type t = Ok o /\ ~ default_changed_at p cs))
  | FieldRenamed p _ => forall t d s, leaf fs p = Some (t, d) -> materialize_type t = Ok s -> sflat s
  | DefaultValueChanged p o _ | DefaultValueRemoved p o => exists u d, leaf gs p = Some (u, d) /\ writable E u o
  | EnumVariantValueChanged p _ _ _ n =>
      exists t d ms u d' ms', leaf fs p = Some (t, d) /\ enum_of t = Some ms /\ leaf gs p = Some (u, d') /\ enum_of u = Some ms' /\
        exists m, In m ms' /\ py_eq (snd m) n = true
  | LiteralValuesRemoved _ _ => False
  | _ => True
  end.

(** the value of the attribute at a path of an object *)
Fixpoint attr_at (v : pyval) (p : list string) : option pyval :=
  match p with
  | [] => Some v
  | k :: r => match v with
              | VObj _ o => match aget k o with Some w => attr_at w r | None => None end
              | _ => None
              end
  end.

(** [becomes] for fields at any depth (C55) *)
Inductive becomes_at (cs : list change) (d : pyval) (p : list string) : pyval -> Prop :=
| ba_same w : value_at d p = Some w ->
    (forall c, In c cs -> change_field c = p -> about_default c \/ widens c) -> becomes_at cs d p w
| ba_wrapped w o i : value_at d p = Some w -> In (TypeChanged p o (SList i)) cs -> is_subtype o (SList i) = false ->
    becomes_at cs d p (VList [w])
| ba_mapped w e v x y : value_at d p = Some w -> In (EnumVariantValueChanged p e v x y) cs -> py_eq y x = false ->
    (forall c, In c cs -> change_field c = p -> c = EnumVariantValueChanged p e v x y \/ about_default c \/ widens c) ->
    becomes_at cs d p (if py_eq w x then y else w)
| ba_default x : value_at d p = None ->
    (In (DefaultValueRemoved p x) cs \/ exists y, In (DefaultValueChanged p x y) cs) ->
    (forall c, In c cs -> change_field c = p -> about_default c \/ widens c) -> becomes_at cs d p x
| ba_renamed a w : In (FieldRenamed a p) cs -> value_at d a = Some w -> becomes_at cs d p w.
