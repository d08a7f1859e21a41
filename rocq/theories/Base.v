(** Base.v -- exceptions as values, Python strings and insertion-ordered dicts.
    No hyperstate code is modelled here; these are the Python primitives the
    other model files use. *)
From Coq Require Export String Ascii List ZArith Bool Lia.
Export ListNotations.
Open Scope list_scope.
Open Scope string_scope.

(** Python exceptions that the modelled code can raise.  Messages are dropped
    except where the property depends on them. *)
Inductive exc : Type :=
| TypeError
| ValueError
| KeyError
| AttributeError
| AssertionError
| IndexError
| ZeroDivisionError
| OverflowError
| SyntaxError
| UnboundLocalError
| RuntimeError
| FileNotFoundError
| DeserializeTypeError               (* serde.py:30 *)
| DeserializeValueError              (* serde.py:34 *)
| UnknownField (cls field : string)  (* serde.py:268, a DeserializeTypeError *)
| MissingFields (cls : string) (paths : list string)
                                     (* serde.py:346, a TypeError *)
| FieldNotFound (key : string)       (* hyperstate.py:204 *)
| FieldsNotFound (keys : list string)(* hyperstate.py:212 *).

Inductive res (A : Type) : Type :=
| Ok (a : A)
| Err (e : exc).
Arguments Ok {A} a.
Arguments Err {A} e.

Definition rbind {A B} (m : res A) (k : A -> res B) : res B :=
  match m with Ok a => k a | Err e => Err e end.

Declare Scope res_scope.
Delimit Scope res_scope with res.
Notation "'let*' x ':=' m 'in' k" := (rbind m (fun x => k))
  (at level 200, x pattern, m at level 100, k at level 200, right associativity) : res_scope.
Open Scope res_scope.

Definition is_ok {A} (m : res A) : bool := match m with Ok _ => true | Err _ => false end.

(** Run [f] over a list left to right, stopping at the first error. *)
Definition rmap {A B} (f : A -> res B) : list A -> res (list B) :=
  fix go l :=
    match l with
    | [] => Ok []
    | x :: xs => let* y := f x in let* ys := go xs in Ok (y :: ys)
    end.

(** ** Python dicts with string keys: insertion-ordered association lists *)
Section Dict.
  Context {A : Type}.
  Fixpoint aget (k : string) (d : list (string * A)) : option A :=
    match d with
    | [] => None
    | (k', v) :: r => if String.eqb k k' then Some v else aget k r
    end.
  Definition amem (k : string) (d : list (string * A)) : bool :=
    match aget k d with Some _ => true | None => false end.
  (** [d[k] = v]: replaces in place, or appends *)
  Fixpoint aset (k : string) (v : A) (d : list (string * A)) : list (string * A) :=
    match d with
    | [] => [(k, v)]
    | (k', v') :: r => if String.eqb k k' then (k', v) :: r else (k', v') :: aset k v r
    end.
  (** [del d[k]] / [d.pop(k, None)] *)
  Fixpoint adel (k : string) (d : list (string * A)) : list (string * A) :=
    match d with
    | [] => []
    | (k', v') :: r => if String.eqb k k' then r else (k', v') :: adel k r
    end.
  Definition akeys (d : list (string * A)) : list string := map fst d.
End Dict.

(** ** Python str operations *)
(** [c in s] for a one-character [c] *)
Fixpoint has_char (c : ascii) (s : string) : bool :=
  match s with
  | EmptyString => false
  | String a r => Ascii.eqb a c || has_char c r
  end.

(** [s.split(c)] for a one-character separator; never empty *)
Fixpoint split_on (c : ascii) (s : string) : list string :=
  match s with
  | EmptyString => [EmptyString]
  | String a r =>
      if Ascii.eqb a c then EmptyString :: split_on c r
      else match split_on c r with
           | [] => [String a EmptyString]
           | w :: ws => String a w :: ws
           end
  end.

(** [s.split(c, maxsplit=1)]: [None] when [c] does not occur *)
Fixpoint split_first (c : ascii) (s : string) : option (string * string) :=
  match s with
  | EmptyString => None
  | String a r =>
      if Ascii.eqb a c then Some (EmptyString, r)
      else match split_first c r with
           | Some (x, y) => Some (String a x, y)
           | None => None
           end
  end.

(** [sep.join(l)] *)
Fixpoint join (sep : string) (l : list string) : string :=
  match l with
  | [] => ""
  | [x] => x
  | x :: xs => x ++ sep ++ join sep xs
  end.

(** [s.replace(c, t)] for a one-character [c] *)
Fixpoint replace_char (c : ascii) (t : string) (s : string) : string :=
  match s with
  | EmptyString => EmptyString
  | String a r => if Ascii.eqb a c then t ++ replace_char c t r
                  else String a (replace_char c t r)
  end.

(** [p in s] (substring test) *)
Fixpoint str_contains (p s : string) : bool :=
  String.prefix p s ||
  match s with
  | EmptyString => false
  | String _ r => str_contains p r
  end.

(** decimal digits of a natural number, [str(i)] for [i >= 0] *)
Definition digit_char (d : N) : ascii := ascii_of_N (48 + d).
Fixpoint digits_fuel (fuel : nat) (n : N) : string :=
  match fuel with
  | O => EmptyString
  | S fuel' =>
      if N.ltb n 10 then String (digit_char n) EmptyString
      else digits_fuel fuel' (n / 10)%N ++ String (digit_char (n mod 10)) EmptyString
  end.
Definition show_N (n : N) : string := digits_fuel (S (N.size_nat n)) n.
Definition show_nat (n : nat) : string := show_N (N.of_nat n).

(** [f"{path}.{name}"] with the "no leading dot at the root" convention used
    in serde.py:84, 100, 110, 120, 276 and 334 *)
Definition path_join (path name : string) : string :=
  if String.eqb path "" then name else path ++ "." ++ name.
