(** SpecTypes.v -- specification vocabulary for loading and dumping: when a
    Python value has an annotated type, and which types hyperstate documents as
    storable.  Independent of the model of [asdict] / [from_dict]. *)
From Verif Require Import Base Value Schema Rewrite Types Asdict.

(** pointwise relation between lists of the same length; with [short] the second
    list may stop early *)
Definition all2 {A B} (short : bool) (f : A -> B -> Prop) : list A -> list B -> Prop :=
  fix go l m :=
    match l, m with
    | [], [] => True
    | _ :: _, [] => short = true
    | [], _ :: _ => False
    | x :: xs, y :: ys => f x y /\ go xs ys
    end.

Definition any {A} (f : A -> Prop) : list A -> Prop :=
  fix go l := match l with [] => False | x :: xs => f x \/ go xs end.

Definition all {A} (f : A -> Prop) : list A -> Prop :=
  fix go l := match l with [] => True | x :: xs => f x /\ go xs end.

(** The value has the annotated type.  [bool] values count as [int] (Python's
    [isinstance]); a [Serializable] field may still be unloaded ([None]).
    With [short], a tuple may have fewer items than annotated. *)
Fixpoint conforms (short : bool) (t : ty) (v : pyval) {struct t} : Prop :=
  match t with
  | TInt => match v with VInt _ | VBool _ => True | _ => False end
  | TFloat => match v with VFloat _ => True | _ => False end
  | TStr => match v with VStr _ => True | _ => False end
  | TBool => match v with VBool _ => True | _ => False end
  | TNoneType => v = VNone
  | TList i => match v with VList l => Forall (conforms short i) l | _ => False end
  | TTuple ts => match v with VTuple l => all2 short (conforms short) ts l | _ => False end
  | TDict _ vt => match v with
                  | VDict d => Forall (fun kv => conforms short vt (snd kv)) d
                  | _ => False
                  end
  | TOpt i => v = VNone \/ conforms short i v
  | TUnion ts => any (fun a => conforms short a v) ts
  | TData c fs =>
      match v with
      | VObj n d =>
          n = c_name c /\
          all2 false (fun (f : string * (ty * dflt)) kv =>
                        let '(fn, (ft, _)) := f in
                        fst kv = fn /\ conforms short ft (snd kv)) fs d
      | _ => False
      end
  | TEnum n ms => match v with VEnum n' m x => n' = n /\ In (m, x) ms | _ => False end
  | TLit args => exists a, In a args /\ py_eq a v = true
  | TSer n => match v with VBlob n' _ => n' = n | VNone => True | _ => False end
  end.

Definition scalar (v : pyval) : bool :=
  match v with VNone | VBool _ | VInt _ | VFloat _ | VStr _ => true | _ => false end.

(** identifiers usable as file keys: not private, not one of the markers *)
Definition public_name (k : string) : bool :=
  match String.get 0 k with Some a => negb (Ascii.eqb a "_") | None => false end.
Definition field_name_ok (versioned : bool) (k : string) : bool :=
  public_name k && negb (String.eqb k "!__name__") && negb (String.eqb k WEAK_REF) &&
  negb (versioned && String.eqb k "version").

Definition field_names (fs : list (string * (ty * dflt))) : list string := map fst fs.

(** looking up a member's name among the member values gives that member *)
Definition enum_by_name (ms : list (string * pyval)) : Prop :=
  forall m x, In (m, x) ms ->
    List.find (fun mx => py_eq (snd mx) (VStr m)) ms = Some (m, x).

Definition is_some {A} (o : option A) : bool := match o with Some _ => true | None => false end.

(** Types whose values can be stored and read back.  [E] supplies the class
    table (which must describe the classes that occur) and Python's typing check
    of Literal arguments. *)
Fixpoint storable (E : env) (t : ty) {struct t} : Prop :=
  match t with
  | TInt | TFloat | TStr | TBool | TNoneType => True
  | TList i => storable E i
  | TTuple ts => all (storable E) ts
  | TDict k v => k = TStr /\ storable E v
  | TOpt i => storable E i
  | TUnion ts => all (fun a => is_dataclass_ty a = true /\ storable E a) ts /\
                 NoDup (map ty_name ts)
  | TData c fs =>
      NoDup (field_names fs) /\
      Forall (fun n => field_name_ok (is_some (c_versioned c)) n = true) (field_names fs) /\
      e_class E (c_name c) =
        mkCM (option_map fst (c_versioned c)) (map (fun f => (fst f, snd (snd f))) fs) /\
      (forall ver rules, c_versioned c = Some (ver, rules) ->
         Forall (fun kr => (fst kr < ver)%Z) rules) /\
      all (fun f : string * (ty * dflt) => let '(_, (ft, _)) := f in storable E ft) fs
  | TEnum n ms => enum_by_name ms
  | TLit args => Forall (fun a => scalar a = true /\ e_type_arg E a = None) args
  | TSer _ => False
  end.

(** no dict in the value uses the reserved marker key *)
Fixpoint clean (v : pyval) : bool :=
  match v with
  | VDict d => negb (amem WEAK_REF d) && forallb (fun kv => clean (snd kv)) d
  | VNt _ d | VObj _ d => forallb (fun kv => clean (snd kv)) d
  | VList l | VTuple l => forallb clean l
  | VEnum _ _ x => clean x
  | VBlob _ x => clean x
  | _ => true
  end.

(** [l] with some elements dropped (those allowed by [drop]) is related to [m] *)
Definition sub2 {A B} (drop : A -> Prop) (f : A -> B -> Prop) : list A -> list B -> Prop :=
  fix go l m :=
    match l with
    | [] => m = []
    | x :: xs => (drop x /\ go xs m) \/
                 match m with [] => False | y :: ys => f x y /\ go xs ys end
    end.

(** [d] is a dump of [v]: a dataclass instance becomes a named struct ([named])
    or a plain dict; if its class is versioned the first entry is the version;
    then come the fields, in order, of which some may be dropped ([drop] class
    field value); everything else is kept as it is *)
Fixpoint dumped_as (cls : string -> cmeta) (named : bool)
    (drop : string -> string -> pyval -> Prop) (v d : pyval) {struct v} : Prop :=
  match v with
  | VObj c fs =>
      exists items,
        d = (if named then VNt c items else VDict items) /\
        let fields := sub2 (fun kv => drop c (fst kv) (snd kv))
                           (fun kv kw => fst kw = fst kv /\
                                         dumped_as cls named drop (snd kv) (snd kw)) fs in
        match cm_version (cls c) with
        | Some z => exists rest, items = ("version", VInt z) :: rest /\ fields rest
        | None => fields items
        end
  | VList l => exists m, d = VList m /\ all2 false (dumped_as cls named drop) l m
  | VTuple l => exists m, d = VTuple m /\ all2 false (dumped_as cls named drop) l m
  | VDict l => exists m, d = VDict m /\
      all2 false (fun kv kw => fst kw = fst kv /\ dumped_as cls named drop (snd kv) (snd kw)) l m
  | VEnum _ m _ => d = VStr m
  | VBlob _ _ => d = VStr "<blob:msgpack>"
  | VNt _ l => exists m, d = VTuple m /\
      all2 false (fun kv w => dumped_as cls named drop (snd kv) w) l m
  | _ => d = v
  end.

(** the default of a field of a class *)
Definition default_for (cls : string -> cmeta) (c k : string) : option pyval :=
  match aget k (cm_fields (cls c)) with
  | Some (DValue x) | Some (DFactory x) => Some x
  | _ => None
  end.

(** every dataclass instance has exactly the fields its class declares *)
Fixpoint instances_ok (cls : string -> cmeta) (v : pyval) : Prop :=
  match v with
  | VObj c d =>
      map fst d = map fst (cm_fields (cls c)) /\ NoDup (map fst d) /\
      (is_some (cm_version (cls c)) = true -> ~ In "version" (map fst d)) /\
      all (fun kv => instances_ok cls (snd kv)) d
  | VDict d | VNt _ d => all (fun kv => instances_ok cls (snd kv)) d
  | VList l | VTuple l => all (instances_ok cls) l
  | _ => True
  end.

(** the declared defaults have the annotated types, at every depth *)
Fixpoint defaults_typed (t : ty) : Prop :=
  match t with
  | TList i => defaults_typed i
  | TTuple ts => all defaults_typed ts
  | TDict k v => defaults_typed v
  | TOpt i => defaults_typed i
  | TUnion ts => all defaults_typed ts
  | TData _ fs =>
      all (fun f : string * (ty * dflt) =>
             let '(_, (ft, d)) := f in
             (match d with
              | DMissing => True
              | DValue x | DFactory x => conforms false ft x
              end) /\ defaults_typed ft) fs
  | _ => True
  end.

(** the same value up to Python's [==], structurally *)
Inductive same : pyval -> pyval -> Prop :=
| same_refl v : same v v
| same_eq v w : py_eq v w = true -> same v w
| same_list l m : Forall2 same l m -> same (VList l) (VList m)
| same_tuple l m : Forall2 same l m -> same (VTuple l) (VTuple m)
| same_dict d e :
    Forall2 (fun kv kw => fst kv = fst kw /\ same (snd kv) (snd kw)) d e -> same (VDict d) (VDict e)
| same_obj c d e :
    Forall2 (fun kv kw => fst kv = fst kw /\ same (snd kv) (snd kw)) d e -> same (VObj c d) (VObj c e).

(** ** default construction (C04) *)

(** [v] is the instance of dataclass [t] in which every field has its declared
    default and every default-less field is a dataclass built the same way *)
Fixpoint default_of (t : ty) (v : pyval) {struct t} : Prop :=
  match t with
  | TData c fs =>
      exists d, v = VObj (c_name c) d /\
        all2 false (fun (f : string * (ty * dflt)) kv =>
                      let '(fn, (ft, fd)) := f in
                      fst kv = fn /\
                      match fd with
                      | DValue x | DFactory x => snd kv = x
                      | DMissing => default_of ft (snd kv)
                      end) fs d
  | _ => False
  end.

(** every field without a default is a dataclass that is itself constructible *)
Fixpoint constructible (t : ty) : bool :=
  match t with
  | TData _ fs =>
      forallb (fun f : string * (ty * dflt) =>
                 let '(_, (ft, fd)) := f in
                 match fd with DMissing => constructible ft | _ => true end) fs
  | _ => false
  end.

(** the required leaf fields of a dataclass: no default and not a dataclass *)
Definition required (fs : list (string * (ty * dflt))) : list string :=
  map fst (filter (fun f : string * (ty * dflt) =>
                     let '(_, (ft, fd)) := f in
                     match fd with DMissing => negb (is_dataclass_ty ft) | _ => false end) fs).

(** the sub-config reached from [t] through default-less fields *)
Fixpoint bare_subconfig (t : ty) (p : list string) : option ty :=
  match p with
  | [] => Some t
  | k :: r =>
      match t with
      | TData _ fs => match aget k fs with
                      | Some (t', DMissing) => bare_subconfig t' r
                      | _ => None
                      end
      | _ => None
      end
  end.

(** no dataclass has two fields of the same name or an empty field name *)
Fixpoint names_ok (t : ty) : Prop :=
  match t with
  | TList i | TOpt i => names_ok i
  | TDict _ v => names_ok v
  | TTuple l | TUnion l => all names_ok l
  | TData _ fs =>
      NoDup (field_names fs) /\ ~ In "" (field_names fs) /\
      all (fun f : string * (ty * dflt) => let '(_, (ft, _)) := f in names_ok ft) fs
  | _ => True
  end.
