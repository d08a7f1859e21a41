(** SpecLoad.v -- specification of loading: which object a parsed file value
    stands for at an annotated type.  No deserializer state, no paths, no order
    of evaluation, no exceptions: [denotes t x v] is a plain relation, defined by
    recursion over the type. *)
From Coq Require Import Permutation.
From Verif Require Import Base Value Schema Rewrite Sched Types Asdict FromDict SpecTree SpecTypes.

(** A value that can come out of the RON parser: no Python objects inside, and
    no dict has a key twice. *)
Fixpoint filev (v : pyval) : bool :=
  match v with
  | VDict d | VNt _ d => nodupb (map fst d) && forallb (fun kv => filev (snd kv)) d
  | VList l | VTuple l => forallb filev l
  | VObj _ _ | VEnum _ _ _ | VBlob _ _ => false
  | _ => true
  end.

(** rules that keep file values file values *)
Definition rule_filev (r : rule) : Prop :=
  match r with
  | MapFieldValue _ f _ => forall x y, filev x = true -> f x = Ok y -> filev y = true
  | ChangeDefault _ old _ => filev old = true
  | AddDefault _ d => filev d = true
  | _ => True
  end.

(** well-formed annotations: distinct field names that are not the marker of a
    named struct, and upgrade rules that keep file values file values *)
Fixpoint loadable (t : ty) : Prop :=
  match t with
  | TList i | TOpt i => loadable i
  | TDict _ v => loadable v
  | TTuple l | TUnion l => all loadable l
  | TData c fs =>
      NoDup (field_names fs) /\ ~ In "!__name__" (field_names fs) /\
      (forall ver rules i rs, c_versioned c = Some (ver, rules) -> In (i, rs) rules ->
         Forall rule_filev rs) /\
      all (fun f : string * (ty * dflt) => let '(_, (ft, _)) := f in loadable ft) fs
  | _ => True
  end.

(** the three texts that stand for a Serializable object stored in its own file *)
Definition blob_marker (s : string) : bool :=
  String.eqb s "<BLOB>" || String.eqb s "<blob:pickle>" || String.eqb s "<blob:msgpack>".

(** item i of a tuple has annotation i; there may be fewer items than annotations *)
Definition tuple_den (D : ty -> pyval -> pyval -> Prop)
  : list ty -> list pyval -> list pyval -> Prop :=
  fix go ts l m {struct ts} :=
    match ts, l, m with
    | _, [], [] => True
    | a :: ts', y :: l', w :: m' => D a y w /\ go ts' l' m'
    | _, _, _ => False
    end.

(** the first Union member whose class is called [nm] *)
Definition union_den (D : ty -> Prop) (nm : pyval) : list ty -> Prop :=
  fix go ts :=
    match ts with
    | [] => False
    | a :: r => if py_eq nm (VStr (ty_name a)) then D a else go r
    end.

Section Denotes.
  Variable E : env.
  Variable sch : bool.      (* may int/float fields be set to schedules? *)
  Variable allow : bool.    (* may a Versioned dataclass lack its version? *)
  Variable from_file : bool.

  (** the value of a scheduled field right after loading: the schedule at 0 *)
  Definition scheduled (to_int : bool) (s : string) (v : pyval) : Prop :=
    exists pw y, parse_schedule (e_float E) s = Ok pw /\
                 get_value (f64_ops E) pw f64_zero = Ok y /\ num_cast to_int y = Ok v.

  (** [f] is exactly the integer [z] *)
  Definition float_is (f : pyfloat) (z : Z) : Prop := Z_eq_float z f = true.

  Definition int_denotes (x v : pyval) : Prop :=
    match x with
    | VInt _ | VBool _ => v = x
    | VFloat f => exists z, float_is f z /\ v = VInt z
    | VStr s => if has_char "@" s then sch = true /\ scheduled true s v
                else exists f z, e_float E s = Some f /\ float_is f z /\ v = VInt z
    | _ => False
    end.

  Definition float_denotes (x v : pyval) : Prop :=
    match x with
    | VFloat _ => v = x
    | VInt z => exists f, py_float_of_Z z = Ok f /\ v = VFloat f
    | VBool b => exists f, py_float_of_Z (if b then 1 else 0) = Ok f /\ v = VFloat f
    | VStr s => if has_char "@" s then sch = true /\ scheduled false s v
                else exists f, e_float E s = Some f /\ v = VFloat f
    | _ => False
    end.

  (** a weak section (left by a default rule) fits the sub-configs built by
      default: it is a dict wherever such a sub-config has a default-less
      dataclass field *)
  Fixpoint weak_fits (t : ty) (w : pyval) {struct t} : Prop :=
    match t with
    | TData _ fs =>
        all (fun f : string * (ty * dflt) =>
               let '(n, (ft, fd)) := f in
               match fd with
               | DMissing =>
                   is_dataclass_ty ft = true ->
                   match w with
                   | VDict m => match aget n m with
                                | Some w' => weak_fits ft w'
                                | None => True
                                end
                   | _ => False
                   end
               | _ => True
               end) fs
    | _ => True
    end.

  (** the value of a field that the file does not give; [w] is its weak section *)
  Definition default_field (ft : ty) (fd : dflt) (w : pyval) (v : pyval) : Prop :=
    match fd with
    | DValue x | DFactory x => v = x
    | DMissing => default_of ft v /\ weak_fits ft w
    end.

  (** a bare identifier is read as its name *)
  Definition unit_text (x : pyval) : pyval := match x with VNt n [] => VStr n | _ => x end.

  (** the fields of a dataclass written as a dict, a (named) struct or () *)
  Definition items_of (x : pyval) : option (list (string * pyval)) :=
    match x with
    | VDict d | VNt _ d => Some d
    | VTuple [] => Some []
    | _ => None
    end.

  (** a value taken by a str, float or int member of a Union *)
  Definition union_scalar (args : list ty) (x v : pyval) : Prop :=
    match x with
    | VNt n [] => In TStr args /\ v = VStr n
    | VInt z => In TFloat args /\ exists f, py_float_of_Z z = Ok f /\ v = VFloat f
    | VBool b => In TFloat args /\ exists f, py_float_of_Z (if b then 1 else 0) = Ok f /\ v = VFloat f
    | VFloat f => In TInt args /\ exists z, float_is f z /\ v = VInt z
    | VStr s => (In TFloat args /\ exists f, e_float E s = Some f /\ v = VFloat f) \/
                (~ In TFloat args /\ In TInt args /\ exists f z, e_float E s = Some f /\ float_is f z /\ v = VInt z)
    | _ => False
    end.

  Fixpoint denotes (ig : bool) (t : ty) (x v : pyval) {struct t} : Prop :=
    match t with
    | TInt => int_denotes x v
    | TFloat => float_denotes x v
    | TStr => match unit_text x with VStr s => v = VStr s | _ => False end
    | TBool => match x with VBool _ => v = x | _ => False end
    | TNoneType => x = VNone /\ v = VNone
    | TOpt i => (x = VNone /\ v = VNone) \/ (x <> VNone /\ denotes ig i x v)
    | TList i => exists l m, x = VList l /\ v = VList m /\ Forall2 (denotes false i) l m
    | TTuple ts =>                       (* too few items are accepted *)
        exists l m, tuple_items x = Some l /\ v = VTuple m /\
          tuple_den (denotes false) ts l m
    | TDict _ vt =>
        exists d e, x = VDict d /\ v = VDict e /\
          Forall2 (fun kv kw => fst kw = fst kv /\ denotes false vt (snd kv) (snd kw)) d e
    | TUnion args =>
        union_scalar args x v \/        (* or the first member with that class name *)
        exists d nm, x = VDict d /\ aget "!__name__" d = Some nm /\
          union_den (fun a => denotes ig a x v) nm args
    | TData c fs =>
        exists y items o,
          deser_versioned (e_class E) allow t x = Ok y /\     (* upgraded, C14 and C16 *)
          items_of y = Some items /\ v = VObj (c_name c) o /\
          (forall k w, In (k, w) items ->
             k = "!__name__" \/ is_weak w = true \/ In k (field_names fs) \/ ig = true) /\
          all2 false (fun (f : string * (ty * dflt)) kv =>
                        let '(n, (ft, fd)) := f in
                        fst kv = n /\
                        match aget n items with
                        | None => default_field ft fd (VDict []) (snd kv)
                        | Some w => if is_weak w then default_field ft fd w (snd kv)
                                    else denotes false ft w (snd kv)
                        end) fs o
    | TEnum n ms =>
        exists m y, List.find (fun mx => py_eq (snd mx) x) ms = Some (m, y) /\ v = VEnum n m y
    | TLit args =>
        Forall (fun a => e_type_arg E a = None) args /\
        v = unit_text x /\ exists a, In a args /\ py_eq a v = true
    | TSer _ => from_file = true /\ v = VNone /\ exists s, x = VStr s /\ blob_marker s = true
    end.
End Denotes.

(** ** order of entries (C05) *)

(** [y] is [x] with the entries of dicts reordered, at any depth *)
Fixpoint dperm (x y : pyval) {struct x} : Prop :=
  let entries := all2 false (fun kv kw : string * pyval => fst kw = fst kv /\ dperm (snd kv) (snd kw)) in
  match x with
  | VDict d => exists m e, y = VDict e /\ Permutation m e /\ entries d m
  | VNt n d => exists m, y = VNt n m /\ entries d m
  | VObj n d => exists m, y = VObj n m /\ entries d m
  | VList l => exists m, y = VList m /\ all2 false dperm l m
  | VTuple l => exists m, y = VTuple m /\ all2 false dperm l m
  | _ => y = x
  end.

(** the functions in a MapFieldValue rule do not look at the order of dict entries *)
Definition rule_orderless (r : rule) : Prop :=
  match r with
  | MapFieldValue _ f _ =>
      forall x x' y, filev x = true -> dperm x x' -> f x = Ok y -> exists y', f x' = Ok y' /\ dperm y y'
  | _ => True
  end.

Fixpoint orderless (t : ty) : Prop :=
  match t with
  | TList i | TOpt i => orderless i
  | TDict _ v => orderless v
  | TTuple l | TUnion l => all orderless l
  | TData c fs =>
      (forall ver rules i rs, c_versioned c = Some (ver, rules) -> In (i, rs) rules ->
         Forall rule_orderless rs) /\
      all (fun f : string * (ty * dflt) => let '(_, (ft, _)) := f in orderless ft) fs
  | _ => True
  end.

(** the same environment with another iteration order of Python sets *)
Definition with_order (E : env) (o : list string -> list string) : env :=
  mkEnv (e_float E) (e_cos E) (e_ron E) (e_type_arg E) (e_class E) o.

(** ** unknown fields (C06) *)

(** In file value [x], read at type [t], there is a section (at any depth, after
    upgrades) with entries [d] for a dataclass with fields [fs]. *)
Inductive section_in (E : env) (allow : bool) : ty -> pyval -> list (string * (ty * dflt)) ->
    list (string * pyval) -> Prop :=
| si_here c fs x y d :
    deser_versioned (e_class E) allow (TData c fs) x = Ok y -> items_of y = Some d ->
    section_in E allow (TData c fs) x fs d
| si_field c fs x y d n ft fd w fs' d' :
    deser_versioned (e_class E) allow (TData c fs) x = Ok y -> items_of y = Some d ->
    aget n fs = Some (ft, fd) -> aget n d = Some w -> is_weak w = false ->
    section_in E allow ft w fs' d' -> section_in E allow (TData c fs) x fs' d'
| si_opt i x fs' d' : x <> VNone -> section_in E allow i x fs' d' -> section_in E allow (TOpt i) x fs' d'
| si_list i l w fs' d' : In w l -> section_in E allow i w fs' d' -> section_in E allow (TList i) (VList l) fs' d'
| si_tuple ts x l j a w fs' d' :
    tuple_items x = Some l -> nth_error ts j = Some a -> nth_error l j = Some w ->
    section_in E allow a w fs' d' -> section_in E allow (TTuple ts) x fs' d'
| si_dict kt vt d k w fs' d' :
    In (k, w) d -> section_in E allow vt w fs' d' -> section_in E allow (TDict kt vt) (VDict d) fs' d'
| si_union ts d nm a fs' d' :
    aget "!__name__" d = Some nm ->
    List.find (fun a => py_eq nm (VStr (ty_name a))) ts = Some a ->
    section_in E allow a (VDict d) fs' d' -> section_in E allow (TUnion ts) (VDict d) fs' d'.

(** [x'] is [x] with the one extra entry [k: w] in one section, at any depth, of a
    (not Versioned) dataclass called [cn] that has no field [k] *)
Inductive plus_key (k : string) (w : pyval) : ty -> pyval -> pyval -> string -> Prop :=
| pk_here c fs l1 l2 :
    c_versioned c = None -> ~ In k (field_names fs) -> k <> "!__name__" -> k <> WEAK_REF -> is_weak w = false ->
    plus_key k w (TData c fs) (VDict (l1 ++ l2)%list) (VDict (l1 ++ (k, w) :: l2)%list) (c_name c)
| pk_field c fs l1 l2 n ft fd y y' cn :
    c_versioned c = None -> aget n fs = Some (ft, fd) -> is_weak y = false -> plus_key k w ft y y' cn ->
    plus_key k w (TData c fs) (VDict (l1 ++ (n, y) :: l2)%list) (VDict (l1 ++ (n, y') :: l2)%list) cn
| pk_opt i y y' cn : y <> VNone -> plus_key k w i y y' cn -> plus_key k w (TOpt i) y y' cn
| pk_list i l1 l2 y y' cn :
    plus_key k w i y y' cn -> plus_key k w (TList i) (VList (l1 ++ y :: l2)%list) (VList (l1 ++ y' :: l2)%list) cn
| pk_tuple ts l1 l2 a y y' cn :
    nth_error ts (length l1) = Some a -> plus_key k w a y y' cn ->
    plus_key k w (TTuple ts) (VTuple (l1 ++ y :: l2)%list) (VTuple (l1 ++ y' :: l2)%list) cn
| pk_dict kt vt l1 l2 j y y' cn :
    plus_key k w vt y y' cn ->
    plus_key k w (TDict kt vt) (VDict (l1 ++ (j, y) :: l2)%list) (VDict (l1 ++ (j, y') :: l2)%list) cn
| pk_union ts d d' nm a cn :
    aget "!__name__" d = Some nm -> aget "!__name__" d' = Some nm ->
    List.find (fun a => py_eq nm (VStr (ty_name a))) ts = Some a ->
    plus_key k w a (VDict d) (VDict d') cn -> plus_key k w (TUnion ts) (VDict d) (VDict d') cn.

(** the entries that are not unknown *)
Definition known_entry (fs : list (string * (ty * dflt))) (kv : string * pyval) : bool :=
  String.eqb (fst kv) "!__name__" || existsb (String.eqb (fst kv)) (field_names fs).
