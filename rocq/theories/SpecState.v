(** SpecState.v -- vocabulary for configs with schedules and states with
    Serializable parts.  Independent of the model of dumping and loading. *)
From Verif Require Import Base Value Schema Rewrite Sched Types Asdict FromDict SpecTypes.

(** ** positions *)

(** the attribute reached by a path of attribute names *)
Fixpoint field_at (v : pyval) (p : list string) : option pyval :=
  match p with
  | [] => Some v
  | k :: r => match v with
              | VObj _ d => match aget k d with Some x => field_at x r | None => None end
              | _ => None
              end
  end.

(** the schedule at a path of attribute names *)
Fixpoint sched_at (t : stree) (p : list string) : option schedule :=
  match p, t with
  | [], SLeaf s => Some s
  | k :: r, SNode l => match aget k l with Some t' => sched_at t' r | None => None end
  | _, _ => None
  end.

(** ** types with Serializable parts *)

(** as [storable] (SpecTypes.v), but classes implementing Serializable are allowed
    with [blobs] *)
Fixpoint persistable (E : env) (blobs : bool) (t : ty) {struct t} : Prop :=
  match t with
  | TInt | TFloat | TStr | TBool | TNoneType => True
  | TList i => persistable E blobs i
  | TTuple ts => all (persistable E blobs) ts
  | TDict k v => k = TStr /\ persistable E blobs v
  | TOpt i => persistable E blobs i
  | TUnion ts => all (fun a => is_dataclass_ty a = true /\ persistable E blobs a) ts /\
                 NoDup (map ty_name ts)
  | TData c fs =>
      NoDup (field_names fs) /\
      Forall (fun n => field_name_ok (is_some (c_versioned c)) n = true /\
                       has_char "." n = false) (field_names fs) /\
      e_class E (c_name c) =
        mkCM (option_map fst (c_versioned c)) (map (fun f => (fst f, snd (snd f))) fs) /\
      (forall ver rules, c_versioned c = Some (ver, rules) ->
         Forall (fun kr => (fst kr < ver)%Z) rules) /\
      all (fun f : string * (ty * dflt) => let '(_, (ft, _)) := f in persistable E blobs ft) fs
  | TEnum n ms => enum_by_name ms
  | TLit args => Forall (fun a => scalar a = true /\ e_type_arg E a = None) args
  | TSer _ => blobs = true
  end.

(** The value has the annotated type and every Serializable object is there
    ([conforms] of SpecTypes.v also accepts one that is not loaded yet). *)
Fixpoint holds (t : ty) (v : pyval) {struct t} : Prop :=
  match t with
  | TInt => match v with VInt _ | VBool _ => True | _ => False end
  | TFloat => match v with VFloat _ => True | _ => False end
  | TStr => match v with VStr _ => True | _ => False end
  | TBool => match v with VBool _ => True | _ => False end
  | TNoneType => v = VNone
  | TList i => match v with VList l => Forall (holds i) l | _ => False end
  | TTuple ts => match v with VTuple l => all2 false holds ts l | _ => False end
  | TDict _ vt => match v with VDict d => Forall (fun kv => holds vt (snd kv)) d | _ => False end
  | TOpt i => v = VNone \/ holds i v
  | TUnion ts => any (fun a => holds a v) ts
  | TData c fs =>
      match v with
      | VObj n d =>
          n = c_name c /\
          all2 false (fun (f : string * (ty * dflt)) kv =>
                        let '(fn, (ft, _)) := f in fst kv = fn /\ holds ft (snd kv)) fs d
      | _ => False
      end
  | TEnum n ms => match v with VEnum n' m x => n' = n /\ In (m, x) ms | _ => False end
  | TLit args => exists a, In a args /\ py_eq a v = true
  | TSer n => match v with VBlob n' _ => n' = n | _ => False end
  end.

(** ** schedules that belong to a config *)

(** the annotation below any Optional *)
Fixpoint base_ty (t : ty) : ty := match t with TOpt i => base_ty i | _ => t end.

(** the fields of dataclass [n] where [t] is that dataclass, Optional of it or a
    Union with it *)
Fixpoint member_fields (t : ty) (n : string) {struct t} : option (list (string * (ty * dflt))) :=
  match t with
  | TData c fs => if String.eqb n (c_name c) then Some fs else None
  | TOpt i => member_fields i n
  | TUnion l =>
      (fix go l := match l with
                   | [] => None
                   | a :: r => match member_fields a n with Some fs => Some fs | None => go r end
                   end) l
  | _ => None
  end.

(** the value at 0, converted to int for int fields: what a scheduled field holds
    right after loading *)
Definition initial_value (E : env) (s : schedule) : res pyval :=
  let* y := get_value (f64_ops E) (sch_pw s) f64_zero in num_cast (sch_int s) y.

(** [s] is the schedule of an int or float field called [n] of annotation [t] *)
Definition leaf_fits (E : env) (n : string) (s : schedule) (t : ty) : Prop :=
  base_ty t = (if sch_int s then TInt else TFloat) /\
  sch_field s = n /\ has_char "@" (sch_unparsed s) = true /\
  parse_schedule (e_float E) (sch_unparsed s) = Ok (sch_pw s) /\
  exists v, initial_value E s = Ok v.

(** every schedule in [tr] sits at an int or float field of the config [v : t] *)
Fixpoint fits (E : env) (n : string) (tr : stree) (t : ty) (v : pyval)
  {struct tr} : Prop :=
  match tr with
  | SLeaf s => leaf_fits E n s t
  | SNode l =>
      all (fun kt : string * stree =>
             let '(k, tr') := kt in
             exists c d fs ft fd x,
               v = VObj c d /\ member_fields t c = Some fs /\
               aget k fs = Some (ft, fd) /\ aget k d = Some x /\ fits E k tr' ft x) l
  end.

(** the entry of a dumped config reached by a path of field names *)
Fixpoint entry_at (v : pyval) (p : list string) : option pyval :=
  match p with
  | [] => Some v
  | k :: r => match v with
              | VNt _ d => match aget k d with Some x => entry_at x r | None => None end
              | _ => None
              end
  end.

(** keys are unique at every level (it is a dict of dicts) and every schedule
    updates the field it sits at *)
Fixpoint named (k : string) (t : stree) : Prop :=
  match t with
  | SLeaf s => sch_field s = k
  | SNode l => NoDup (akeys l) /\ all (fun kt : string * stree => let '(k', t') := kt in named k' t') l
  end.

Fixpoint prefix_of (p q : list string) : Prop :=
  match p, q with
  | [], _ => True
  | a :: p, b :: q => a = b /\ prefix_of p q
  | _, [] => False
  end.

(** no schedule sits more than two levels deep *)
Definition shallow (l : list (string * stree)) : Prop :=
  forall p s, sched_at (SNode l) p = Some s -> length p <= 2.
