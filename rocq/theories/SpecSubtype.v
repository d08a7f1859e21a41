(** SpecSubtype.v -- vocabulary for the soundness of [is_subtype] (C30). *)
From Verif Require Import Base Value Schema Rewrite Sched Types Asdict FromDict SpecTypes SpecLoad.

(** the file value [x] is accepted for a field annotated with [t] *)
Definition accepts (E : env) (sch allow from_file ig : bool) (t : ty) (x : pyval) : Prop :=
  exists v, denotes E sch allow from_file ig t x v.

(** what may be written in [Literal[...]] (PEP 586), except enum members *)
Definition exact (v : pyval) : Prop :=
  match v with VNone | VBool _ | VInt _ | VStr _ => True | _ => False end.

(** the values of enums and literals inside are exact *)
Fixpoint exact_values (t : ty) : Prop :=
  match t with
  | TList i | TOpt i => exact_values i
  | TTuple l | TUnion l => all exact_values l
  | TDict k v => exact_values k /\ exact_values v
  | TData _ fs => all (fun f => exact_values (fst (snd f))) fs
  | TEnum _ ms => all (fun m => exact (snd m)) ms
  | TLit l => all exact l
  | _ => True
  end.

(** Python accepts [List[args]] for the arguments of every Literal inside *)
Fixpoint literals_load (E : env) (t : ty) : Prop :=
  match t with
  | TList i | TOpt i => literals_load E i
  | TTuple l | TUnion l => all (literals_load E) l
  | TDict k v => literals_load E k /\ literals_load E v
  | TData _ fs => all (fun f => literals_load E (fst (snd f))) fs
  | TLit l => all (fun a => e_type_arg E a = None) l
  | _ => True
  end.

(** no Optional, Union, dataclass or blob inside *)
Fixpoint flat (t : ty) : Prop :=
  match t with
  | TInt | TFloat | TStr | TBool | TEnum _ _ | TLit _ => True
  | TList i => flat i
  | TTuple l => all flat l
  | TDict k v => flat k /\ flat v
  | _ => False
  end.

(** every int inside can be converted to a float *)
Fixpoint floatable (v : pyval) : Prop :=
  match v with
  | VInt z => exists f, py_float_of_Z z = Ok f
  | VList l | VTuple l => all floatable l
  | VDict d | VNt _ d => all (fun kv => floatable (snd kv)) d
  | _ => True
  end.
