(** SpecHistory.v -- vocabulary for "files survive a series of releases" (C71). *)
From Verif Require Import Base Value Schema Rewrite Sched Types Asdict FromDict Checker SpecTypes SpecLoad SpecSubtype SpecCheck SpecCompat SpecFix SpecNest.

(** The fields of a config class. *)
Definition fields : Type := list (string * (ty * dflt)).

(** The class called [n] as it was released with version [v]; [rules] are all the upgrade
    rules ever written, and a release has those for the versions before its own. *)
Definition release (n : string) (rules : list (Z * list rule)) (v : Z) : cinfo :=
  mkC n (Some (v, filter (fun kv => Z.ltb (fst kv) v) rules)).

(** What a proposed rule may write into a file: no marks of the library, and no number too
    large for a float. *)
Definition plain_value (x : pyval) : Prop := floatable x /\ unmarked x.
Definition tame (c : change) : Prop :=
  match c with
  | DefaultValueChanged _ x _ | DefaultValueRemoved _ x | EnumVariantValueChanged _ _ _ _ x => plain_value x
  | _ => True
  end.

(** Release [v] had the fields [fs], release [v + 1] has the fields [gs]; between the two,
    the schemas were compared, [cs] was reported, nothing as an error, and the rules
    proposed were kept as the rules of version [v]. *)
Definition next_release (E : env) (n : string) (rules : list (Z * list rule)) (v : Z) (fs gs : fields) (cs : list change) : Prop :=
  ordinary E (release n rules v) fs /\ one_level fs /\ ordinary E (release n rules (v + 1)) gs /\ one_level gs /\ ~ In "version" (field_names gs) /\
  lost_values_gone (TData (release n rules v) fs) (TData (release n rules (v + 1)) gs) /\
  exists s r k, materialize_type (TData (release n rules v) fs) = Ok s /\ materialize_type (TData (release n rules (v + 1)) gs) = Ok r /\
    compare_schemas s r = Ok k /\ ck_changes k = cs /\ rules_at rules v = ck_fixes k /\
    forall c, In c cs -> change_severity c <> ERROR /\ repairable E fs gs cs c /\ tame c.

(** From release [v] with the fields [fs] on, there were the releases [hs] (their fields,
    and what was reported about them); the last of them has version [w] and the fields [ks]. *)
Inductive history (E : env) (n : string) (rules : list (Z * list rule)) : Z -> fields -> list (fields * list change) -> Z -> fields -> Prop :=
| h_now v fs : history E n rules v fs [] v fs
| h_next v fs gs cs hs w ks : next_release E n rules v fs gs cs -> history E n rules (v + 1) gs hs w ks ->
    history E n rules v fs ((gs, cs) :: hs) w ks.

(** What a file said about the field [a] ([None]: nothing) has to be read, after the changes
    [cs], as if it said [x] about the field [b]. *)
Inductive read_as (cs : list change) (a : string) : option pyval -> string -> option pyval -> Prop :=
| ra_same w : (forall c, In c cs -> change_field c = [a] -> about_default c \/ widens c) -> read_as cs a (Some w) a (Some w)
| ra_wrapped w o i : In (TypeChanged [a] o (SList i)) cs -> is_subtype o (SList i) = false -> read_as cs a (Some w) a (Some (VList [w]))
| ra_mapped w e v x y : In (EnumVariantValueChanged [a] e v x y) cs -> py_eq y x = false ->
    (forall c, In c cs -> change_field c = [a] -> c = EnumVariantValueChanged [a] e v x y \/ about_default c \/ widens c) ->
    read_as cs a (Some w) a (Some (if py_eq w x then y else w))
| ra_default x : (In (DefaultValueRemoved [a] x) cs \/ exists y, In (DefaultValueChanged [a] x y) cs) ->
    (forall c, In c cs -> change_field c = [a] -> about_default c \/ widens c) -> read_as cs a None a (Some x)
| ra_renamed w b : In (FieldRenamed [a] [b]) cs -> read_as cs a (Some w) b (Some w)
| ra_absent : (forall c, In c cs -> change_field c <> [a]) -> read_as cs a None a None.

(** ... after all the releases [hs]. *)
Inductive carried : fields -> list (fields * list change) -> string -> option pyval -> string -> option pyval -> Prop :=
| ca_end fs a o : carried fs [] a o a o
| ca_step fs gs cs hs a o a' o' b y : In a (field_names fs) -> read_as cs a o a' o' -> In a' (field_names gs) -> carried gs hs a' o' b y ->
    carried fs ((gs, cs) :: hs) a o b y.

(** ** Classes with sub-configs *)
(** [next_release] for classes with sub-configs. *)
Definition next_release_at (E : env) (n : string) (rules : list (Z * list rule)) (v : Z) (fs gs : fields) (cs : list change) : Prop :=
  ordinary E (release n rules v) fs /\ all_sectioned fs /\ ordinary E (release n rules (v + 1)) gs /\ all_sectioned gs /\ same_sections fs gs /\ ~ In "version" (field_names gs) /\
  lost_values_gone (TData (release n rules v) fs) (TData (release n rules (v + 1)) gs) /\
  exists s r k, materialize_type (TData (release n rules v) fs) = Ok s /\ materialize_type (TData (release n rules (v + 1)) gs) = Ok r /\
    compare_schemas s r = Ok k /\ ck_changes k = cs /\ rules_at rules v = ck_fixes k /\
    forall c, In c cs -> change_severity c <> ERROR /\ repairable_at E fs gs cs c /\ tame c.

Inductive history_at (E : env) (n : string) (rules : list (Z * list rule)) : Z -> fields -> list (fields * list change) -> Z -> fields -> Prop :=
| ha_now v fs : history_at E n rules v fs [] v fs
| ha_next v fs gs cs hs w ks : next_release_at E n rules v fs gs cs -> history_at E n rules (v + 1) gs hs w ks ->
    history_at E n rules v fs ((gs, cs) :: hs) w ks.

(** [read_as] and [carried] for fields at any depth: what a file said at the path [p]. *)
Inductive read_as_at (cs : list change) (p : list string) : option pyval -> list string -> option pyval -> Prop :=
| raa_same w : (forall c, In c cs -> change_field c = p -> about_default c \/ widens c) -> read_as_at cs p (Some w) p (Some w)
| raa_wrapped w o i : In (TypeChanged p o (SList i)) cs -> is_subtype o (SList i) = false -> read_as_at cs p (Some w) p (Some (VList [w]))
| raa_mapped w e v x y : In (EnumVariantValueChanged p e v x y) cs -> py_eq y x = false ->
    (forall c, In c cs -> change_field c = p -> c = EnumVariantValueChanged p e v x y \/ about_default c \/ widens c) ->
    read_as_at cs p (Some w) p (Some (if py_eq w x then y else w))
| raa_default x : (In (DefaultValueRemoved p x) cs \/ exists y, In (DefaultValueChanged p x y) cs) ->
    (forall c, In c cs -> change_field c = p -> about_default c \/ widens c) -> read_as_at cs p None p (Some x)
| raa_renamed w q : In (FieldRenamed p q) cs -> read_as_at cs p (Some w) q (Some w)
| raa_absent : (forall c, In c cs -> change_field c <> p) -> read_as_at cs p None p None.

Inductive carried_at : fields -> list (fields * list change) -> list string -> option pyval -> list string -> option pyval -> Prop :=
| caa_end fs p o : carried_at fs [] p o p o
| caa_step fs gs cs hs p o p' o' q y : leaf fs p <> None -> read_as_at cs p o p' o' -> leaf gs p' <> None -> carried_at gs hs p' o' q y ->
    carried_at fs ((gs, cs) :: hs) p o q y.
