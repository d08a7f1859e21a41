(** SpecCheck.v -- vocabulary for schema files and the schema checker
    (C26, C27, C34). *)
From Verif Require Import Base Value Schema Rewrite Types Checker SpecTypes.

(** A value that a schema file can hold: no tuples, namedtuples, dataclass
    instances, enum members or blobs inside. *)
Fixpoint simple (v : pyval) : Prop :=
  match v with
  | VNone | VBool _ | VInt _ | VFloat _ | VStr _ => True
  | VList l => all simple l
  | VDict d => all (fun kv => simple (snd kv)) d
  | _ => False
  end.

(** the value is equal to itself (it has no NaN inside) *)
Definition self_equal (v : pyval) : Prop := py_eq v v = true.

(** what is recorded in a schema as the default of a field *)
Definition recorded (d : dflt) (v : pyval) : Prop :=
  match d with
  | DMissing => False
  | DValue w | DFactory w => v = match w with VEnum _ _ x => x | _ => w end
  end.

(** The annotations schema files support: no Tuple, Dict, Union or blob. *)
Fixpoint file_type (t : ty) : Prop :=
  match t with
  | TInt | TFloat | TStr | TBool => True
  | TList i | TOpt i => file_type i
  | TData _ fs => all (fun f => file_type (fst (snd f))) fs
  | TEnum _ _ | TLit _ => True
  | _ => False
  end.

(** every default, enum value and literal value inside satisfies [P] *)
Fixpoint values_in (P : pyval -> Prop) (t : ty) : Prop :=
  match t with
  | TList i | TOpt i => values_in P i
  | TTuple l | TUnion l => all (values_in P) l
  | TDict k v => values_in P k /\ values_in P v
  | TData _ fs => all (fun f => values_in P (fst (snd f)) /\ forall v, recorded (snd (snd f)) v -> P v) fs
  | TEnum _ ms => all (fun m => P (snd m)) ms
  | TLit l => all P l
  | _ => True
  end.

(** fields of a dataclass and members of an enum have different names *)
Fixpoint names_differ (t : ty) : Prop :=
  match t with
  | TList i | TOpt i => names_differ i
  | TTuple l | TUnion l => all names_differ l
  | TDict k v => names_differ k /\ names_differ v
  | TData _ fs => NoDup (map fst fs) /\ all (fun f => names_differ (fst (snd f))) fs
  | TEnum _ ms => NoDup (map fst ms)
  | _ => True
  end.

(** [s] is the worst severity in [l], INFO if [l] is empty *)
Inductive worst : list severity -> severity -> Prop :=
| worst_none : worst [] INFO
| worst_more x l s : worst l s -> (sev_value s <= sev_value x)%Z -> worst (x :: l) x
| worst_same x l s : worst l s -> (sev_value x <= sev_value s)%Z -> worst (x :: l) s.
