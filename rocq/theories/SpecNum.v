(** SpecNum.v -- what numeric fields stand for, in terms of real numbers (C08).
    Reals and Flocq's rounding are used for the statement only. *)
From Coq Require Import Reals DecimalString.
From Flocq Require Import Core.
From Flocq Require BinarySingleNaN.
From Verif Require Import Base Value Asdict FromDict.

(** the real number that a finite double is *)
Definition real_of (f : pyfloat) : R := BinarySingleNaN.SF2R radix2 f.
Definition finite (f : pyfloat) : bool := BinarySingleNaN.is_finite_SF f.

(** the double nearest to [x], ties to even (IEEE binary64), as a real *)
Definition nearest (x : R) : R := round radix2 (FLT_exp (-1074) 53) ZnearestE x.

(** [f] is the integer [z] *)
Definition is_integer (f : pyfloat) (z : Z) : Prop := finite f = true /\ real_of f = IZR z.

(** a text that is the decimal numeral of [z] *)
Definition numeral (s : string) (z : Z) : Prop :=
  option_map Z.of_int (NilZero.int_of_string s) = Some z.

(** Python's [float()] on decimal numerals *)
Definition reads_numerals (E : env) : Prop := forall s z, numeral s z -> e_float E s = Some (sf_of_Z z).

(** what an int field holds when the file says [x] *)
Definition int_field (E : env) (x v : pyval) : Prop :=
  match x with
  | VInt _ | VBool _ => v = x
  | VFloat f => exists z, is_integer f z /\ v = VInt z
  | VStr s => has_char "@" s = false /\ exists f z, e_float E s = Some f /\ is_integer f z /\ v = VInt z
  | _ => False
  end.

(** what a float field holds when the file says [x] *)
Definition float_field (E : env) (x v : pyval) : Prop :=
  match x with
  | VFloat _ => v = x
  | VInt z => exists f, v = VFloat f /\ finite f = true /\ real_of f = nearest (IZR z)
  | VBool b => exists f, v = VFloat f /\ is_integer f (if b then 1 else 0)
  | VStr s => has_char "@" s = false /\ exists f, e_float E s = Some f /\ v = VFloat f
  | _ => False
  end.
