(** Schema.v -- hyperstate/schema/types.py: schema descriptions, [is_subtype],
    [find_field], reading a schema file. *)
From Verif Require Import Base Value.

(** types.py:121-127 [Field] without its type. *)
Record fmeta := mkF {
  fm_name : string;
  fm_default : pyval;
  fm_has_default : bool;
  fm_doc : option string }.

(** types.py:16-27 and the dataclasses below it. *)
Inductive sty : Type :=
| SPrim (p : string)                                     (* types.py:30-46 *)
| SList (inner : sty)                                    (* types.py:49-61 *)
| STuple (inner : list sty)                              (* types.py:64-80 *)
| SDict (key val : sty)                                  (* types.py:83-100 *)
| SUnion (types : list sty)                              (* types.py:103-118 *)
| SStruct (name : string) (fields : list (string * (sty * fmeta)))
          (version : option Z)                           (* types.py:177-212 *)
| SOption (type : sty)                                   (* types.py:215-223 *)
| SEnum (name : string) (variants : list (string * pyval)) (* types.py:130-143 *)
| SLit (allowed : list pyval)                            (* types.py:146-174 *)
| SNothing                                               (* types.py:226-232 *).

Definition sfield : Type := sty * fmeta.

Definition opt_eqb {A} (f : A -> A -> bool) (a b : option A) : bool :=
  match a, b with
  | Some x, Some y => f x y
  | None, None => true
  | _, _ => false
  end.

(** dict equality: same number of keys and equal values under equal keys *)
Definition dict_eqb {A B} (f : A -> B -> bool)
    (d : list (string * A)) (e : list (string * B)) : bool :=
  Nat.eqb (length d) (length e) &&
  forallb (fun kv => match aget (fst kv) e with
                     | Some w => f (snd kv) w
                     | None => false
                     end) d.

Definition fmeta_eqb (a b : fmeta) : bool :=
  String.eqb (fm_name a) (fm_name b) &&
  py_eq (fm_default a) (fm_default b) &&
  Bool.eqb (fm_has_default a) (fm_has_default b) &&
  opt_eqb String.eqb (fm_doc a) (fm_doc b).

(** [set(a) == set(b)] *)
Definition set_eqb (a b : list pyval) : bool :=
  forallb (fun v => py_elem v b) a && forallb (fun v => py_elem v a) b.

(** dataclass-generated [__eq__] of the schema types (types.py:30, 49, ...),
    [Literal.__eq__] types.py:171-174 *)
Fixpoint sty_eqb (a b : sty) {struct a} : bool :=
  match a, b with
  | SPrim p, SPrim q => String.eqb p q
  | SList i, SList j => sty_eqb i j
  | STuple l, STuple m => list_eqb sty_eqb l m
  | SDict k v, SDict k' v' => sty_eqb k k' && sty_eqb v v'
  | SUnion l, SUnion m => list_eqb sty_eqb l m
  | SStruct n fs ver, SStruct n' fs' ver' =>
      String.eqb n n' &&
      (Nat.eqb (length fs) (length fs') &&
       forallb (fun kv => match aget (fst kv) fs' with
                          | Some tm => sty_eqb (fst (snd kv)) (fst tm) &&
                                       fmeta_eqb (snd (snd kv)) (snd tm)
                          | None => false
                          end) fs) &&
      opt_eqb Z.eqb ver ver'
  | SOption t, SOption u => sty_eqb t u
  | SEnum n vs, SEnum n' vs' => String.eqb n n' && dict_eqb py_eq vs vs'
  | SLit vs, SLit vs' => set_eqb vs vs'
  | SNothing, SNothing => true
  | _, _ => false
  end.

(** size, used as recursion fuel for [is_subtype] *)
Fixpoint sty_size (t : sty) : nat :=
  match t with
  | SPrim _ | SEnum _ _ | SLit _ | SNothing => 1
  | SList i | SOption i => S (sty_size i)
  | SDict k v => S (sty_size k + sty_size v)
  | STuple l | SUnion l => S (list_sum (map sty_size l))
  | SStruct _ fs _ => S (list_sum (map (fun kv => sty_size (fst (snd kv))) fs))
  end.

Definition is_str_val (v : pyval) : bool := match v with VStr _ => true | _ => false end.
(** [isinstance(v, int)]: True for bool as well *)
Definition is_int_val (v : pyval) : bool :=
  match v with VInt _ | VBool _ => true | _ => false end.

(** [all(t.is_subtype(o) for t, o in zip(l, m))] *)
Fixpoint forall_zip {A B} (f : A -> B -> bool) (l : list A) (m : list B) : bool :=
  match l, m with
  | x :: xs, y :: ys => f x y && forall_zip f xs ys
  | _, _ => true
  end.

(** The [is_subtype] methods, one branch per class:
    Primitive types.py:37-46, List 56-61, Tuple 71-80, Dict 91-100, Union 110-118,
    Enum 135-143, Literal 150-166, Struct 203-212, Option 222-223, Nothing 228-229.
    [fuel] only makes the recursion structural: [is_subtype] below supplies
    enough of it (proved in SchemaFacts.v: more fuel never changes the answer). *)
Fixpoint is_sub (fuel : nat) (a b : sty) {struct fuel} : bool :=
  match fuel with
  | O => false
  | S n =>
      let opt := match b with SOption o => is_sub n a o | _ => false end in
      match a with
      | SPrim p =>
          match b with SPrim q => String.eqb q p | _ => false end || opt ||
          (String.eqb p "int" && match b with SPrim q => String.eqb q "float" | _ => false end)
      | SList i =>
          sty_eqb a b || match b with SList j => is_sub n i j | _ => false end || opt
      | STuple l =>
          sty_eqb a b ||
          match b with
          | STuple m => forall_zip (is_sub n) l m && Nat.eqb (length l) (length m)
          | _ => false
          end || opt
      | SDict k v =>
          sty_eqb a b ||
          match b with SDict k' v' => sty_eqb k k' && is_sub n v v' | _ => false end || opt
      | SUnion l =>
          sty_eqb a b ||
          match b with SUnion _ => forallb (fun t => is_sub n t b) l | _ => false end || opt
      | SEnum nm vs =>
          match b with
          | SEnum nm' vs' =>
              String.eqb nm' nm &&
              forallb (fun kv => match aget (fst kv) vs' with
                                 | Some w => py_eq w (snd kv)
                                 | None => false
                                 end) vs
          | _ => false
          end || opt
      | SLit vs =>
          match b with SLit ws => forallb (fun v => py_elem v ws) vs | _ => false end ||
          match b with SPrim q => String.eqb q "str" && forallb is_str_val vs | _ => false end ||
          match b with SPrim q => String.eqb q "int" && forallb is_int_val vs | _ => false end ||
          opt
      | SStruct _ fs _ =>
          match b with
          | SStruct _ gs _ =>
              forallb (fun kv => match aget (fst kv) gs with
                                 | Some tm => is_sub n (fst tm) (fst (snd kv))
                                 | None => false
                                 end) fs
          | _ => false
          end || opt
      | SOption t =>
          match b with SOption o => is_sub n o t | _ => false end
      | SNothing => true
      end
  end.

Definition is_subtype (a b : sty) : bool := is_sub (sty_size a + sty_size b) a b.

(** types.py:195-196 the loop stripping [Option] in [find_field] *)
Fixpoint strip_option (t : sty) : sty :=
  match t with SOption t' => strip_option t' | _ => t end.

(** types.py:189-201 [Struct.find_field], on the dict of fields of the struct.
    The empty path cannot occur ([str.split] never returns an empty list). *)
Fixpoint find_field (fields : list (string * sfield)) (path : list string) {struct path} : option sfield :=
  match path with
  | [] => None
  | [k] => aget k fields
  | k :: rest =>
      match aget k fields with
      | None => None
      | Some (t, _) =>
          match strip_option t with
          | SStruct _ fs _ => find_field fs rest
          | _ => None
          end
      end
  end.

(** types.py:342-347 [_unwrap_container_type] *)
Fixpoint unwrap_container (t : sty) : sty :=
  match t with
  | SList i => unwrap_container i
  | SOption i => unwrap_container i
  | _ => t
  end.

(** The same walk, rebuilding the containers around a new innermost type.  In
    Python the innermost Struct is mutated in place. *)
Fixpoint rewrap_container (t inner : sty) : sty :=
  match t with
  | SList i => SList (rewrap_container i inner)
  | SOption i => SOption (rewrap_container i inner)
  | _ => inner
  end.

(** [getattr(namedtuple, name)] followed by [f]; structural in the tuple *)
Definition nt_attr {B} (f : pyval -> res B) (name : string) : list (string * pyval) -> res B :=
  fix go d :=
    match d with
    | [] => Err AttributeError
    | (k, v) :: r => if String.eqb name k then f v else go r
    end.

Definition py_as_str (v : pyval) : res string :=
  match v with VStr s => Ok s | _ => Err TypeError end.
Definition py_as_bool (v : pyval) : res bool :=
  match v with VBool b => Ok b | _ => Err TypeError end.
Definition py_as_optZ (v : pyval) : res (option Z) :=
  match v with VInt z => Ok (Some z) | VNone => Ok None | _ => Err TypeError end.

(** types.py:306-332 [schema_from_namedtuple].  Simplification: attributes that
    Python would store unchecked (e.g. a non-string name) raise TypeError. *)
Fixpoint schema_from_namedtuple (v : pyval) : res sty :=
  match v with
  | VNt cls d =>
      if String.eqb cls "Primitive" then
        let* s := nt_attr py_as_str "type" d in Ok (SPrim s)
      else if String.eqb cls "List" then
        let* t := nt_attr schema_from_namedtuple "inner" d in Ok (SList t)
      else if String.eqb cls "Struct" then
        let* fields :=
          nt_attr (fun fv =>
            match fv with
            | VDict fl =>
                (fix go (l : list (string * pyval)) : res (list (string * sfield)) :=
                   match l with
                   | [] => Ok []
                   | (n, f) :: r =>
                       match f with
                       | VNt _ fd =>
                           let* t := nt_attr schema_from_namedtuple "type" fd in
                           let* df := nt_attr Ok "default" fd in
                           let* hd := nt_attr py_as_bool "has_default" fd in
                           let* rest := go r in
                           Ok ((n, (t, mkF n df hd None)) :: rest)
                       | _ => Err AttributeError
                       end
                   end) fl
            | _ => Err AttributeError
            end) "fields" d in
        let* nm := nt_attr py_as_str "name" d in
        let* ver := nt_attr py_as_optZ "version" d in
        Ok (SStruct nm fields ver)
      else if String.eqb cls "Option" then
        let* t := nt_attr schema_from_namedtuple "type" d in Ok (SOption t)
      else if String.eqb cls "Enum" then
        let* vs := nt_attr (fun x => match x with VDict e => Ok e | _ => Err AttributeError end)
                           "variants" d in
        let* nm := nt_attr py_as_str "name" d in
        Ok (SEnum nm vs)
      else if String.eqb cls "Literal" then
        let* vs := nt_attr (fun x => match x with
                                     | VList l => Ok l | VTuple l => Ok l
                                     | _ => Err TypeError end) "allowed_values" d in
        Ok (SLit vs)
      else Err ValueError
  | _ => Err ValueError
  end.

(** types.py:335-339 [load_schema] after [pyron.load] *)
Definition load_schema (v : pyval) : res sty :=
  let* s := schema_from_namedtuple v in
  match s with SStruct _ _ _ => Ok s | _ => Err AssertionError end.
