(** SpecDocs.v -- what descriptions of fields mean, independently of Docs.v: which
    descriptions the classes give, and schemas without descriptions. *)
From Verif Require Import Base Value Schema Types Checker Docs SpecTree SpecTypes.

(** the descriptions of field [n], in the order class, then bases from left to right, each
    with its own bases *)
Fixpoint given (c : docclass) (n : string) : list string :=
  match c with
  | DC ps bases =>
      (flat_map (fun p => match snd p with
                          | Some x => if String.eqb (fst p) n then [x] else []
                          | None => []
                          end) ps ++
       flat_map (fun b => given b n) bases)%list
  end.

(** [s] is the schema of [t], and somewhere inside they are the class [k] and its fields [gs] *)
Inductive inside : ty -> sty -> ty -> list (string * sfield) -> Prop :=
| in_here c fs n gs v : inside (TData c fs) (SStruct n gs v) (TData c fs) gs
| in_list i s k gs : inside i s k gs -> inside (TList i) (SList s) k gs
| in_opt i s k gs : inside i s k gs -> inside (TOpt i) (SOption s) k gs
| in_key a b s u k gs : inside a s k gs -> inside (TDict a b) (SDict s u) k gs
| in_val a b s u k gs : inside b u k gs -> inside (TDict a b) (SDict s u) k gs
| in_tuple l ss i t s k gs : nth_error l i = Some t -> nth_error ss i = Some s -> inside t s k gs ->
    inside (TTuple l) (STuple ss) k gs
| in_union l ss i t s k gs : nth_error l i = Some t -> nth_error ss i = Some s -> inside t s k gs ->
    inside (TUnion l) (SUnion ss) k gs
| in_field c fs n hs v i x t d s m k gs : nth_error fs i = Some (x, (t, d)) -> nth_error hs i = Some (x, (s, m)) ->
    inside t s k gs -> inside (TData c fs) (SStruct n hs v) k gs.

(** a schema without its descriptions *)
Fixpoint bare (t : sty) : sty :=
  match t with
  | SList i => SList (bare i)
  | STuple l => STuple (map bare l)
  | SDict k v => SDict (bare k) (bare v)
  | SUnion l => SUnion (map bare l)
  | SStruct n fs ver =>
      SStruct n (map (fun kv : string * sfield =>
                        (fst kv, (bare (fst (snd kv)),
                                  mkF (fm_name (snd (snd kv))) (fm_default (snd (snd kv)))
                                      (fm_has_default (snd (snd kv))) None))) fs) ver
  | SOption i => SOption (bare i)
  | _ => t
  end.

(** a change, without the descriptions in the types it mentions *)
Definition bare_change (c : change) : change :=
  match c with
  | FieldAdded p t d h => FieldAdded p (bare t) d h
  | FieldRemoved p t d h => FieldRemoved p (bare t) d h
  | TypeChanged p o n => TypeChanged p (bare o) (bare n)
  | _ => c
  end.

(** a type that schema files can contain *)
Fixpoint in_schema_file (t : sty) : Prop :=
  match t with
  | SPrim _ | SLit _ | SEnum _ _ => True
  | SList i | SOption i => in_schema_file i
  | SStruct _ fs _ => all (fun kv : string * sfield => in_schema_file (fst (snd kv))) fs
  | _ => False
  end.

(** the dicts in a schema have distinct keys: fields, variants, and values of variants *)
Fixpoint regular (t : sty) : Prop :=
  match t with
  | SList i | SOption i => regular i
  | STuple l | SUnion l => all regular l
  | SDict k v => regular k /\ regular v
  | SStruct _ fs _ => NoDup (map fst fs) /\ all (fun kv : string * sfield => regular (fst (snd kv))) fs
  | SEnum _ vs => NoDup (map fst vs) /\ all (fun m : string * pyval => wf (snd m) = true) vs
  | _ => True
  end.

(** a type without classes inside *)
Fixpoint classless (t : sty) : Prop :=
  match t with
  | SList i | SOption i => classless i
  | STuple l | SUnion l => all classless l
  | SDict k v => classless k /\ classless v
  | SStruct _ _ _ => False
  | _ => True
  end.
