(** SpecCompat.v -- vocabulary for "Schema compatible" (C28) and for proposed fixes (C29). *)
From Verif Require Import Base Value Schema Rewrite Sched Types Asdict FromDict SpecTypes SpecLoad SpecSubtype SpecCheck.

(** no section inside carries the mark that default rules leave *)
Fixpoint unmarked (v : pyval) : Prop :=
  match v with
  | VDict d => amem WEAK_REF d = false /\ all (fun kv => unmarked (snd kv)) d
  | VNt _ d => all (fun kv => unmarked (snd kv)) d
  | VList l | VTuple l => all unmarked l
  | _ => True
  end.

(** a marked section is a dict with no keys but fields of the dataclass, and so are its own sections *)
Fixpoint weak_known (t : ty) (w : pyval) : Prop :=
  match t, w with
  | TData _ fs, VDict m =>
      (forall k, In k (akeys m) -> k = WEAK_REF \/ k = "!__name__" \/ In k (field_names fs)) /\
      all (fun f : string * (ty * dflt) => match aget (fst f) m with Some v => weak_known (fst (snd f)) v | None => True end) fs
  | TData _ _, _ => False
  | _, _ => True
  end.

(** marked sections stand where the class has fields, and have no unknown keys *)
Fixpoint marks_ok (t : ty) (x : pyval) : Prop :=
  match t with
  | TData _ fs =>
      match items_of x with
      | Some items =>
          (forall k w, In (k, w) items -> is_weak w = true -> k = WEAK_REF \/ k = "!__name__" \/ In k (field_names fs)) /\
          all (fun f : string * (ty * dflt) =>
                 match aget (fst f) items with
                 | Some w => if is_weak w then weak_known (fst (snd f)) w else marks_ok (fst (snd f)) w
                 | None => True
                 end) fs
      | None => True
      end
  | TList i => match x with VList l => all (marks_ok i) l | _ => True end
  | TOpt i => marks_ok i x
  | _ => True
  end.

(** no field has the name of a mark (field names are identifiers) *)
Fixpoint plain_fields (t : ty) : Prop :=
  match t with
  | TList i | TOpt i => plain_fields i
  | TTuple l | TUnion l => all plain_fields l
  | TDict k v => plain_fields k /\ plain_fields v
  | TData _ fs => ~ In WEAK_REF (field_names fs) /\ all (fun f => plain_fields (fst (snd f))) fs
  | _ => True
  end.

(** no dataclass inside is a subclass of [Versioned] *)
Fixpoint unversioned (t : ty) : Prop :=
  match t with
  | TList i | TOpt i => unversioned i
  | TTuple l | TUnion l => all unversioned l
  | TDict k v => unversioned k /\ unversioned v
  | TData c fs => c_versioned c = None /\ all (fun f => unversioned (fst (snd f))) fs
  | _ => True
  end.

(** no dataclass inside is without fields *)
Fixpoint no_empty (t : ty) : Prop :=
  match t with
  | TList i | TOpt i => no_empty i
  | TTuple l | TUnion l => all no_empty l
  | TDict k v => no_empty k /\ no_empty v
  | TData _ fs => fs <> [] /\ all (fun f => no_empty (fst (snd f))) fs
  | _ => True
  end.

(** no Option, Union or Struct inside *)
Fixpoint sflat (s : sty) : Prop :=
  match s with
  | SPrim _ | SEnum _ _ | SLit _ => True
  | SList i => sflat i
  | STuple l => all sflat l
  | SDict k v => sflat k /\ sflat v
  | _ => False
  end.

(** the members of the enum of field [p], looking through List and Optional *)
Fixpoint enum_at (t : ty) (p : list string) {struct t} : option (list (string * pyval)) :=
  match t with
  | TEnum _ ms => match p with [] => Some ms | _ => None end
  | TList i | TOpt i => enum_at i p
  | TData _ fs =>
      match p with
      | [] => None
      | k :: r => (fix go (l : list (string * (ty * dflt))) :=
                     match l with
                     | [] => None
                     | (n, (ft, _)) :: l' => if String.eqb k n then enum_at ft r else go l'
                     end) fs
      end
  | _ => None
  end.

(** An enum value of the old class that its field no longer has is not a value of
    any other enum field of the new class either. *)
Definition lost_values_gone (old new : ty) : Prop :=
  forall p ms m, enum_at old p = Some ms -> In m ms ->
    (exists ms' m', enum_at new p = Some ms' /\ In m' ms' /\ py_eq (snd m) (snd m') = true) \/
    (forall q ms' m', enum_at new q = Some ms' -> In m' ms' -> py_eq (snd m) (snd m') = false).

(** An ordinary config class: field and member names differ, none is that of a mark, enum and literal values
    are None, bools, ints or strings, and only the config itself may be Versioned. *)
Definition ordinary (E : env) (c : cinfo) (fs : list (string * (ty * dflt))) : Prop :=
  loadable (TData c fs) /\ names_differ (TData c fs) /\ exact_values (TData c fs) /\ literals_load E (TData c fs) /\
  all (fun f => unversioned (fst (snd f))) fs /\ plain_fields (TData c fs).
