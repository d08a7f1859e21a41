(** Value.v -- Python values handled by hyperstate and the Python operators
    ([==], [in], [hash], [isinstance], [float()], [int()]) the code applies to them. *)
From Verif Require Import Base.
From Coq Require Export Floats.SpecFloat.

Definition pyfloat := spec_float.

(** Dataclass instances carry the name of their class; the class itself is
    looked up in a class table (see Asdict.v).  Simplifications: dict keys are
    strings; subclassing between dataclasses is not modelled; an object
    implementing [Serializable] is its class name and what [serialize()] returns. *)
Inductive pyval : Type :=
| VNone
| VBool (b : bool)
| VInt (z : Z)
| VFloat (f : pyfloat)
| VStr (s : string)
| VList (l : list pyval)
| VTuple (l : list pyval)
| VDict (d : list (string * pyval))
| VNt (name : string) (d : list (string * pyval))   (* namedtuple *)
| VObj (cls : string) (d : list (string * pyval))   (* dataclass instance *)
| VEnum (cls member : string) (value : pyval)       (* enum.Enum member *)
| VBlob (cls : string) (payload : pyval)            (* Serializable object *).

(** ** Floats: IEEE binary64 as [spec_float] with prec 53, emax 1024 *)
Definition sf_of_Z (z : Z) : pyfloat := binary_normalize 53 1024 z 0 false.

(** [float(z)]: overflow raises *)
Definition py_float_of_Z (z : Z) : res pyfloat :=
  match sf_of_Z z with
  | S754_infinity _ => Err OverflowError
  | f => Ok f
  end.

(** [int(f)]: truncation toward zero *)
Definition py_int_of_float (f : pyfloat) : res Z :=
  match f with
  | S754_zero _ => Ok 0%Z
  | S754_infinity _ => Err OverflowError
  | S754_nan => Err ValueError
  | S754_finite s m e =>
      let a := if (0 <=? e)%Z then (Zpos m * 2 ^ e)%Z else (Zpos m / 2 ^ (- e))%Z in
      Ok (if s then (- a)%Z else a)
  end.

(** [z == f] for an int and a float: exact comparison *)
Definition Z_eq_float (z : Z) (f : pyfloat) : bool :=
  match f with
  | S754_zero _ => (z =? 0)%Z
  | S754_infinity _ => false
  | S754_nan => false
  | S754_finite s m e =>
      let a := if s then Zneg m else Zpos m in
      if (0 <=? e)%Z then (z =? a * 2 ^ e)%Z else (z * 2 ^ (- e) =? a)%Z
  end.

(** numbers: bool is a subclass of int *)
Definition as_int (v : pyval) : option Z :=
  match v with
  | VBool b => Some (if b then 1 else 0)%Z
  | VInt z => Some z
  | _ => None
  end.

Definition num_eq (a b : pyval) : bool :=
  match as_int a, as_int b with
  | Some x, Some y => (x =? y)%Z
  | Some x, None => match b with VFloat g => Z_eq_float x g | _ => false end
  | None, Some y => match a with VFloat f => Z_eq_float y f | _ => false end
  | None, None =>
      match a, b with VFloat f, VFloat g => SFeqb f g | _, _ => false end
  end.

Definition list_eqb {A B} (f : A -> B -> bool) : list A -> list B -> bool :=
  fix go l1 l2 :=
    match l1, l2 with
    | [], [] => true
    | x :: xs, y :: ys => f x y && go xs ys
    | _, _ => false
    end.

(** a namedtuple is a tuple *)
Definition tuple_items (v : pyval) : option (list pyval) :=
  match v with
  | VTuple l => Some l
  | VNt _ d => Some (map snd d)
  | _ => None
  end.

(** Python [==].  Dict equality ignores order; a namedtuple equals a tuple with
    the same items; dataclasses compare class and fields; enum members compare
    by identity.  The identity shortcut of list/dict comparison (relevant only
    for NaN) is not modelled. *)
Fixpoint py_eq (a b : pyval) {struct a} : bool :=
  match a with
  | VNone => match b with VNone => true | _ => false end
  | VBool _ | VInt _ | VFloat _ => num_eq a b
  | VStr s => match b with VStr t => String.eqb s t | _ => false end
  | VList l => match b with VList m => list_eqb py_eq l m | _ => false end
  | VTuple l =>
      match tuple_items b with Some m => list_eqb py_eq l m | None => false end
  | VNt _ d =>
      match tuple_items b with
      | Some m => list_eqb (fun kv w => py_eq (snd kv) w) d m
      | None => false
      end
  | VDict d =>
      match b with
      | VDict e =>
          Nat.eqb (length d) (length e) &&
          forallb (fun kv => match aget (fst kv) e with
                             | Some w => py_eq (snd kv) w
                             | None => false
                             end) d
      | _ => false
      end
  | VObj c d =>
      match b with
      | VObj c' e =>
          String.eqb c c' &&
          list_eqb (fun kv kw => String.eqb (fst kv) (fst kw) && py_eq (snd kv) (snd kw)) d e
      | _ => false
      end
  | VEnum c m _ =>
      match b with VEnum c' m' _ => String.eqb c c' && String.eqb m m' | _ => false end
  | VBlob c p =>
      match b with VBlob c' p' => String.eqb c c' && py_eq p p' | _ => false end
  end.

(** [v in container] for a list/tuple container *)
Definition py_elem (v : pyval) (l : list pyval) : bool := existsb (fun w => py_eq w v) l.

(** can [v] be looked up in a set? (lists, dicts and non-frozen dataclasses are unhashable) *)
Fixpoint hashable (v : pyval) : bool :=
  match v with
  | VList _ | VDict _ | VObj _ _ => false
  | VTuple l => forallb hashable l
  | VNt _ d => forallb (fun kv => hashable (snd kv)) d
  | _ => true
  end.

(** [v in some_set] *)
Definition py_in_set (v : pyval) (s : list pyval) : res bool :=
  if hashable v then Ok (py_elem v s) else Err TypeError.

(** [k in container] for a string [k] *)
Definition py_in (k : string) (c : pyval) : res bool :=
  match c with
  | VDict d => Ok (amem k d)
  | VList l => Ok (py_elem (VStr k) l)
  | VTuple l => Ok (py_elem (VStr k) l)
  | VNt _ d => Ok (py_elem (VStr k) (map snd d))
  | VStr s => Ok (str_contains k s)
  | _ => Err TypeError
  end.

(** [container[k]] for a string [k] *)
Definition py_getitem (c : pyval) (k : string) : res pyval :=
  match c with
  | VDict d => match aget k d with Some v => Ok v | None => Err KeyError end
  | _ => Err TypeError
  end.

(** [container[k] = v] for a string [k] *)
Definition py_setitem (c : pyval) (k : string) (v : pyval) : res pyval :=
  match c with
  | VDict d => Ok (VDict (aset k v d))
  | _ => Err TypeError
  end.

(** [getattr(obj, k)] on a dataclass instance *)
Definition py_getattr (c : pyval) (k : string) : res pyval :=
  match c with
  | VObj _ d => match aget k d with Some v => Ok v | None => Err AttributeError end
  | _ => Err AttributeError
  end.

(** [setattr(obj, k, v)] on a dataclass instance.  Simplification: setting a
    name that is not a dataclass field is dropped (it is invisible to dump, ==
    and schema code); plain values without __dict__ raise. *)
Definition py_setattr (c : pyval) (k : string) (v : pyval) : res pyval :=
  match c with
  | VObj n d => if amem k d then Ok (VObj n (aset k v d)) else Ok c
  | _ => Err AttributeError
  end.

Definition is_dict (v : pyval) : bool := match v with VDict _ => true | _ => false end.
Definition is_none (v : pyval) : bool := match v with VNone => true | _ => false end.
