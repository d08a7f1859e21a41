(** SpecReport.v -- the differences between two schemas (C59). *)
From Verif Require Import Base Value Schema Checker SpecRenames.

Definition is_section (f : sfield) : bool := match fst f with SStruct _ _ _ => true | _ => false end.

(** [leaf_of f q h]: [h] is the field [f] itself or, if [f] is a section, a field at
    [q] inside it; [h] is not a section *)
Inductive leaf_of : sfield -> list string -> sfield -> Prop :=
| leaf_self f : is_section f = false -> leaf_of f [] f
| leaf_sub f n fs v k g q h : fst f = SStruct n fs v -> In (k, g) fs -> leaf_of g q h -> leaf_of f (k :: q) h.

(** the types at the same place of both schemas *)
Inductive compared (a b : sty) : list string -> sty -> sty -> Prop :=
| cm_root : compared a b [] a b
| cm_list p i j : compared a b p (SList i) (SList j) -> compared a b p i j
| cm_option p i j : compared a b p (SOption i) (SOption j) -> compared a b p i j
| cm_field p n fs v n' gs v' k f g :
    compared a b p (SStruct n fs v) (SStruct n' gs v') -> In (k, f) fs -> In (k, g) gs ->
    is_section f = is_section g -> compared a b (p ++ [k])%list (fst f) (fst g).

(** no field of this name among [gs], or a section instead of a value, or vice versa *)
Definition lacks (gs : list (string * sfield)) (k : string) (f : sfield) : Prop :=
  ~ In k (map fst gs) \/ exists g, In (k, g) gs /\ is_section g <> is_section f.

(** types of different kinds, or different primitive types *)
Definition kind (t : sty) : nat :=
  match t with
  | SPrim _ => 0 | SList _ => 1 | STuple _ => 2 | SDict _ _ => 3 | SUnion _ => 4
  | SStruct _ _ _ => 5 | SOption _ => 6 | SEnum _ _ => 7 | SLit _ => 8 | SNothing => 9
  end.
Definition clash (x y : sty) : Prop :=
  kind x <> kind y \/ exists p q, x = SPrim p /\ y = SPrim q /\ p <> q.

(** the values of [vs] that equal none of [ws] *)
Definition others (vs ws : list pyval) : list pyval :=
  filter (fun v => negb (existsb (fun w => py_eq w v) ws)) vs.

(** the differences between two types at the place [p] *)
Inductive local (p : list string) : sty -> sty -> change -> Prop :=
| l_type x y : clash x y -> local p x y (TypeChanged p x y)
| l_added n fs v n' gs v' k g q h : In (k, g) gs -> lacks fs k g -> leaf_of g q h ->
    local p (SStruct n fs v) (SStruct n' gs v')
      (FieldAdded (p ++ k :: q) (fst h) (fm_default (snd h)) (fm_has_default (snd h)))
| l_removed n fs v n' gs v' k f q h : In (k, f) fs -> lacks gs k f -> leaf_of f q h ->
    local p (SStruct n fs v) (SStruct n' gs v')
      (FieldRemoved (p ++ k :: q) (fst h) (fm_default (snd h)) (fm_has_default (snd h)))
| l_default_changed n fs v n' gs v' k f g : In (k, f) fs -> In (k, g) gs -> is_section f = is_section g ->
    fm_has_default (snd f) = true -> fm_has_default (snd g) = true ->
    py_eq (fm_default (snd f)) (fm_default (snd g)) = false ->
    local p (SStruct n fs v) (SStruct n' gs v')
      (DefaultValueChanged (p ++ [k]) (fm_default (snd f)) (fm_default (snd g)))
| l_default_removed n fs v n' gs v' k f g : In (k, f) fs -> In (k, g) gs -> is_section f = is_section g ->
    fm_has_default (snd f) = true -> fm_has_default (snd g) = false ->
    local p (SStruct n fs v) (SStruct n' gs v') (DefaultValueRemoved (p ++ [k]) (fm_default (snd f)))
| l_variant_added n ws m vs v x : In (v, x) vs -> ~ In v (map fst ws) ->
    local p (SEnum n ws) (SEnum m vs) (EnumVariantAdded p m v x)
| l_variant_removed n ws m vs v x : In (v, x) ws -> ~ In v (map fst vs) ->
    local p (SEnum n ws) (SEnum m vs) (EnumVariantRemoved p m v x)
| l_variant_value n ws m vs v x y : In (v, x) ws -> In (v, y) vs -> py_eq x y = false ->
    local p (SEnum n ws) (SEnum m vs) (EnumVariantValueChanged p m v x y)
| l_values_added ws vs : others vs ws <> [] -> local p (SLit ws) (SLit vs) (LiteralValuesAdded p (others vs ws))
| l_values_removed ws vs : others ws vs <> [] -> local p (SLit ws) (SLit vs) (LiteralValuesRemoved p (others ws vs)).

(** the differences between two schemas *)
Definition difference (old new : sty) (c : change) : Prop :=
  exists p x y, compared old new p x y /\ local p x y c.

(** no two tuples, dicts or unions at the same place: they cannot be compared *)
Definition comparable_pair (old new : sty) : Prop :=
  forall p x y, compared old new p x y -> kind x = kind y ->
    match x with STuple _ | SDict _ _ | SUnion _ | SNothing => False | _ => True end.

(** the values a config file can set: fields that are not sections, by path *)
Inductive value_field : sty -> list string -> sfield -> Prop :=
| vf n fs v k f q h : In (k, f) fs -> leaf_of f q h -> value_field (SStruct n fs v) (k :: q) h.

(** The entries of a report [cs] account for the differences between two schemas. *)
Record accounts (old new : sty) (cs : list change) : Prop := {
  (* changes of types, defaults and literals are reported as they are *)
  ac_types : forall p x y, In (TypeChanged p x y) cs <-> difference old new (TypeChanged p x y);
  ac_defaults : forall p x y, In (DefaultValueChanged p x y) cs <-> difference old new (DefaultValueChanged p x y);
  ac_no_default : forall p x, In (DefaultValueRemoved p x) cs <-> difference old new (DefaultValueRemoved p x);
  ac_literals_added : forall p l, In (LiteralValuesAdded p l) cs <-> difference old new (LiteralValuesAdded p l);
  ac_literals_removed : forall p l, In (LiteralValuesRemoved p l) cs <-> difference old new (LiteralValuesRemoved p l);
  (* removed and added fields are reported as such or as part of a rename, never both *)
  ac_removed : forall p t d h, In (FieldRemoved p t d h) cs <->
    difference old new (FieldRemoved p t d h) /\ forall q, ~ In (FieldRenamed p q) cs;
  ac_added : forall p t d h, In (FieldAdded p t d h) cs <->
    difference old new (FieldAdded p t d h) /\ forall q, ~ In (FieldRenamed q p) cs;
  (* a rename is a removed and an added field of compatible type, with the same default and
     names that are similar (more than 0.1), and no such fields are left *)
  ac_renamed : forall p q, In (FieldRenamed p q) cs -> exists t d t' d' h,
    difference old new (FieldRemoved p t d h) /\ difference old new (FieldAdded q t' d' h) /\
    is_subtype t t' = true /\ py_eq d d' = true /\ SFltb one_tenth (name_similarity (last p "") (last q "")) = true;
  ac_unpaired : forall p t d h q t' d', In (FieldRemoved p t d h) cs -> In (FieldAdded q t' d' h) cs ->
    is_subtype t t' = true -> py_eq d d' = true -> SFltb one_tenth (name_similarity (last p "") (last q "")) = false;
  ac_once : forall p q q', In (FieldRenamed p q) cs -> In (FieldRenamed p q') cs -> q = q';
  ac_once' : forall p p' q, In (FieldRenamed p q) cs -> In (FieldRenamed p' q) cs -> p = p';
  (* enum variants: a removed and an added one may be merged into one entry *)
  ac_variant_removed : forall p n v x, difference old new (EnumVariantRemoved p n v x) ->
    In (EnumVariantRemoved p n v x) cs \/ (exists q m w, In (EnumVariantRenamed q m v w) cs) \/
    exists m y, In (EnumVariantValueChanged p m v x y) cs;
  ac_variant_added : forall p n v x, difference old new (EnumVariantAdded p n v x) ->
    In (EnumVariantAdded p n v x) cs \/ (exists w, In (EnumVariantRenamed p n w v) cs) \/
    exists q w y, In (EnumVariantValueChanged q n w y x) cs;
  ac_variant_value : forall p n v x y, difference old new (EnumVariantValueChanged p n v x y) ->
    In (EnumVariantValueChanged p n v x y) cs;
  ac_variants : forall c, In c cs ->
    match c with
    | EnumVariantRemoved _ _ _ _ | EnumVariantAdded _ _ _ _ => difference old new c
    | EnumVariantRenamed p n v w => exists q m x y, py_eq x y = true /\
        difference old new (EnumVariantRemoved q m v x) /\ difference old new (EnumVariantAdded p n w y)
    | EnumVariantValueChanged p n v x y => difference old new c \/ exists q m w,
        difference old new (EnumVariantRemoved p m v x) /\ difference old new (EnumVariantAdded q n w y)
    | _ => True
    end }.
