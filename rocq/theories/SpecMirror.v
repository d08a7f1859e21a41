(** SpecMirror.v -- vocabulary for "a rule does to the schema what it does to files" (C25). *)
From Verif Require Import Base Value Schema Rewrite SpecTree.

(** keys of a section that are not fields: the mark left by default rules and the
    struct name kept by the RON reader *)
Definition special (k : string) : bool := String.eqb k WEAK_REF || String.eqb k "!__name__".

(** a field that files may leave out: it has a default, or is a sub-config all fields of
    which may be left out *)
Inductive optional : sty -> fmeta -> Prop :=
| op_default t f : fm_has_default f = true -> optional t f
| op_struct n fs ver f : (forall k t g, aget k fs = Some (t, g) -> optional t g) -> optional (SStruct n fs ver) f.

(** [k] is not given: absent, or a section that only default rules put there *)
Definition not_given (m : list (string * pyval)) (k : string) : Prop :=
  forall v, aget k m = Some v -> is_weak v = true.

(** File value [x] conforms to schema type [s]: right types, no unknown fields and,
    when [complete], no missing ones.  Only fields carry the mark of default rules. *)
Inductive fits (complete : bool) : sty -> pyval -> Prop :=
| fi_int z : fits complete (SPrim "int") (VInt z)
| fi_float f : fits complete (SPrim "float") (VFloat f)
| fi_float_int z : fits complete (SPrim "float") (VInt z)
| fi_str s : fits complete (SPrim "str") (VStr s)
| fi_bool b : fits complete (SPrim "bool") (VBool b)
| fi_list i l :
    (forall x, In x l -> is_weak x = false) -> (forall x, In x l -> fits complete i x) -> fits complete (SList i) (VList l)
| fi_tuple ts l :
    length ts = length l -> (forall x, In x l -> is_weak x = false) ->
    (forall t x, In (t, x) (combine ts l) -> fits complete t x) -> fits complete (STuple ts) (VTuple l)
| fi_dict k v d :
    NoDup (akeys d) -> (forall j x, In (j, x) d -> is_weak x = false) -> (forall j x, In (j, x) d -> fits complete v x) ->
    fits complete (SDict k v) (VDict d)
| fi_none t : fits complete (SOption t) VNone
| fi_some t x : fits complete t x -> fits complete (SOption t) x
| fi_union ts t x : In t ts -> fits complete t x -> fits complete (SUnion ts) x
| fi_enum n vs k v x : In (k, v) vs -> py_eq x v = true -> fits complete (SEnum n vs) x
| fi_lit vs x : py_elem x vs = true -> fits complete (SLit vs) x
| fi_struct n fs ver m :
    NoDup (akeys fs) -> NoDup (akeys m) ->
    (forall k, In k (akeys m) -> special k = false -> In k (akeys fs)) ->
    (forall k v t f, aget k m = Some v -> special k = false -> aget k fs = Some (t, f) -> fits complete t v) ->
    (complete = true -> amem WEAK_REF m = false ->
       forall k t f, aget k fs = Some (t, f) -> not_given m k -> optional t f) ->
    fits complete (SStruct n fs ver) (VDict m).

(** under [Optional] *)
Fixpoint strip (s : sty) : sty := match s with SOption t => strip t | _ => s end.

(** no special key on the way *)
Fixpoint plain (p : list string) : Prop :=
  match p with [] => True | k :: r => special k = false /\ plain r end.

(** the way to [p] leads through sub-configs only (which may be Optional) *)
Fixpoint through (s : sty) (p : list string) : Prop :=
  match p with
  | [] => True
  | k :: r => special k = false /\
      exists n fs ver, strip s = SStruct n fs ver /\ NoDup (akeys fs) /\ forall t f, aget k fs = Some (t, f) -> through t r
  end.

(** the field of the schema at [p] *)
Fixpoint field_at (s : sty) (p : list string) : option (sty * fmeta) :=
  match p with
  | [] => None
  | k :: r =>
      match strip s with
      | SStruct _ fs _ =>
          match r with
          | [] => aget k fs
          | _ => match aget k fs with Some (t, _) => field_at t r | None => None end
          end
      | _ => None
      end
  end.

(** [f] maps equal values to equal values *)
Definition respects_eq (f : pyval -> res pyval) : Prop :=
  forall v w v' w', py_eq v w = true -> f v = Ok v' -> f w = Ok w' -> py_eq v' w' = true.

(** rules that keep files and schema in step, as far as types are concerned *)
Definition keeps_types (complete : bool) (s : sty) (r : rule) : Prop :=
  match r with
  | RenameField old new => through s old /\ through s new /\ plain new /\ (prefix old new \/ field_at s new = None)
  | DeleteField p => through s p
  | MapFieldValue p f _ =>
      through s p /\
      forall t g, field_at s p = Some (t, g) ->
        match t with
        | SEnum _ _ => respects_eq f
        | _ => forall v v', fits complete t v -> f v = Ok v' -> fits complete t v'
        end
  | ChangeDefault p old _ => through s p /\ forall t g, field_at s p = Some (t, g) -> fits complete t old
  | AddDefault p d => through s p /\ exists t g, field_at s p = Some (t, g) /\ fits complete t d
  | CheckValue p _ => through s p
  | RejectValues _ _ => False
  end.

(** the file gives every section of the schema on the way to [p], or says that it is None *)
Fixpoint given_or_none (s : sty) (x : pyval) (p : list string) : Prop :=
  match p with
  | [] => True
  | k :: r =>
      match r with
      | [] => True
      | _ => forall n fs ver t f m, strip s = SStruct n fs ver -> aget k fs = Some (t, f) -> x = VDict m ->
               exists c, aget k m = Some c /\ is_weak c = false /\ given_or_none t c r
      end
  end.

(** if the file sets the field at [p], it does so in sections that it gives *)
Definition set_in_given (x : pyval) (p : list string) : Prop :=
  lookup x p <> None -> forall q, proper_prefix q p -> given x q.

(** ... and as far as missing fields are concerned *)
Definition keeps_complete (s : sty) (x : pyval) (r : rule) : Prop :=
  match r with
  | RenameField old new =>
      given_or_none s x new /\
      ((forall q, proper_prefix q old -> given x q) \/ forall t f, field_at s old = Some (t, f) -> optional t f)
  | DeleteField _ => True
  | MapFieldValue p f _ => set_in_given x p /\ forall v v', f v = Ok v' -> is_weak v' = false
  | ChangeDefault p _ _ => set_in_given x p /\ forall t f, field_at s p = Some (t, f) -> fm_has_default f = true
  | AddDefault p _ => True
  | CheckValue p _ => forall t f, field_at s p = Some (t, f) -> fm_has_default f = true \/ forall n fs ver, t <> SStruct n fs ver
  | RejectValues _ _ => False
  end.

(** every rule of the sequence keeps files and schema in step, where it is applied *)
Fixpoint in_step (complete : bool) (s : sty) (x : pyval) (rs : list rule) : Prop :=
  match rs with
  | [] => True
  | r :: rest =>
      keeps_types complete s r /\ (complete = true -> keeps_complete s x r) /\
      forall s' x', apply_rule_schema r s = Ok s' -> apply_rule r x = Ok x' -> in_step complete s' x' rest
  end.
