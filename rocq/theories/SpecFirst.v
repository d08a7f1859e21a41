(** SpecFirst.v -- fields whose values have no parts. *)
From Verif Require Import Base Value Types SpecOverride.

(** a number, text, truth value, enum or literal, or an Optional one *)
Definition scalar_field (t : ty) : Prop :=
  match strip_opt t with TInt | TFloat | TStr | TBool | TNoneType | TEnum _ _ | TLit _ => True | _ => False end.
