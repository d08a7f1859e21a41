(** SpecFix.v -- vocabulary for "the proposed rules repair old files" (C29). *)
From Verif Require Import Base Value Schema Rewrite Sched Types Asdict FromDict Checker SpecTypes SpecLoad SpecSubtype SpecCheck SpecCompat.

(** no dataclass inside *)
Fixpoint dataless (t : ty) : Prop :=
  match t with
  | TList i | TOpt i => dataless i
  | TTuple l | TUnion l => all dataless l
  | TDict k v => dataless k /\ dataless v
  | TData _ _ => False
  | _ => True
  end.

(** a config class without sub-configs *)
Definition one_level (fs : list (string * (ty * dflt))) : Prop := all (fun f => dataless (fst (snd f))) fs.

(** the members of an enum or of an optional enum *)
Definition enum_of (t : ty) : option (list (string * pyval)) :=
  match t with
  | TEnum _ ms | TOpt (TEnum _ ms) => Some ms
  | _ => None
  end.

(** the report says something about the default of field [f] *)
Definition default_changed (f : string) (cs : list change) : Prop :=
  exists o, In (DefaultValueRemoved [f] o) cs \/ exists n, In (DefaultValueChanged [f] o n) cs.

(** [x] can be written in a file for a field of type [t] *)
Definition writable (E : env) (t : ty) (x : pyval) : Prop :=
  is_weak x = false /\ forall allow ff, accepts E false allow ff false t x.

(** Changes whose proposed rule does its work.  [fs] are the fields of the old class,
    [gs] those of the new one, [cs] is the report. *)
Definition repairable (E : env) (fs gs : list (string * (ty * dflt))) (cs : list change) (c : change) : Prop :=
  match c with
  | TypeChanged p o n =>
      sflat o /\
      (is_subtype o n = true \/
       (exists i f t d, n = SList i /\ p = [f] /\ aget f fs = Some (t, d) /\ materialize_type t = Ok o /\ ~ default_changed f cs))
  | FieldRenamed p _ => forall f t d s, p = [f] -> aget f fs = Some (t, d) -> materialize_type t = Ok s -> sflat s
  | DefaultValueChanged p o _ | DefaultValueRemoved p o => forall f u d, p = [f] -> aget f gs = Some (u, d) -> writable E u o
  | EnumVariantValueChanged p _ _ _ n =>
      exists f t d ms u d' ms', p = [f] /\ aget f fs = Some (t, d) /\ enum_of t = Some ms /\ aget f gs = Some (u, d') /\ enum_of u = Some ms' /\
        exists m, In m ms' /\ py_eq (snd m) n = true
  | LiteralValuesRemoved _ _ => False
  | _ => True
  end.

(** ** What repaired files mean (C55) *)

(** the field that a change is about *)
Definition change_field (c : change) : list string :=
  match c with
  | FieldAdded p _ _ _ | FieldRemoved p _ _ _ | FieldRenamed p _ | DefaultValueChanged p _ _ | DefaultValueRemoved p _
  | TypeChanged p _ _ | EnumVariantValueChanged p _ _ _ _ | EnumVariantRemoved p _ _ _ | EnumVariantAdded p _ _ _
  | EnumVariantRenamed p _ _ _ | LiteralValuesAdded p _ | LiteralValuesRemoved p _ => p
  end.

(** changes that leave the value of a file alone *)
Definition about_default (c : change) : Prop :=
  match c with DefaultValueChanged _ _ _ | DefaultValueRemoved _ _ => True | _ => False end.

(** a type change that widens the type *)
Definition widens (c : change) : Prop :=
  match c with TypeChanged _ o n => is_subtype o n = true | EnumVariantAdded _ _ _ _ | EnumVariantRenamed _ _ _ _ | LiteralValuesAdded _ _ => True | _ => False end.

(** After the changes [cs], the old file [m] has to be read as if it said [w] about the
    field [n] of the new class. *)
Inductive becomes (cs : list change) (m : list (string * pyval)) (n : string) : pyval -> Prop :=
| bc_same w : aget n m = Some w ->
    (forall c, In c cs -> change_field c = [n] -> about_default c \/ widens c) -> becomes cs m n w
| bc_wrapped w o i : aget n m = Some w -> In (TypeChanged [n] o (SList i)) cs -> is_subtype o (SList i) = false ->
    becomes cs m n (VList [w])
| bc_mapped w e v x y : aget n m = Some w -> In (EnumVariantValueChanged [n] e v x y) cs -> py_eq y x = false ->
    (forall c, In c cs -> change_field c = [n] -> c = EnumVariantValueChanged [n] e v x y \/ about_default c \/ widens c) ->
    becomes cs m n (if py_eq w x then y else w)
| bc_default x : aget n m = None ->
    (In (DefaultValueRemoved [n] x) cs \/ exists y, In (DefaultValueChanged [n] x y) cs) ->
    (forall c, In c cs -> change_field c = [n] -> about_default c \/ widens c) -> becomes cs m n x
| bc_renamed a w : In (FieldRenamed [a] [n]) cs -> aget a m = Some w -> becomes cs m n w.
