(** SpecNames.v -- what [levenshtein] and [name_similarity] stand for (C31, C32),
    stated without reference to rows and tables.  Costs are counted in quarters. *)
From Verif Require Import Base Value.

Definition capitals : string := "ABCDEFGHIJKLMNOPQRSTUVWXYZ".
Definition smalls : string := "abcdefghijklmnopqrstuvwxyz".

(** two characters that differ only in case *)
Definition case_variant (a b : ascii) : Prop :=
  exists i, (String.get i capitals = Some a /\ String.get i smalls = Some b) \/
            (String.get i capitals = Some b /\ String.get i smalls = Some a).

(** one edit of a whole string, with its cost in quarters *)
Inductive edit : string -> string -> nat -> Prop :=
| edit_insert x c y : edit (x ++ y) (x ++ String c y) 4
| edit_delete x c y : edit (x ++ String c y) (x ++ y) 4
| edit_case x a b y : case_variant a b -> edit (x ++ String a y) (x ++ String b y) 1
| edit_subst x a b y : edit (x ++ String a y) (x ++ String b y) 4.

(** a sequence of edits and its total cost *)
Inductive edits : string -> string -> nat -> Prop :=
| edits_none s : edits s s 0
| edits_then s t u m n : edits s t m -> edit t u n -> edits s u (m + n).

(** [n] is the least cost of turning [s] into [t] *)
Definition least_cost (s t : string) (n : nat) : Prop :=
  edits s t n /\ forall m, edits s t m -> (n <= m)%nat.

(** strings shorter than 2^50 characters *)
Definition short (s : string) : Prop := (Z.of_nat (String.length s) < 2 ^ 50)%Z.

(** the double nearest to 1.1 (C32_constant) *)
Definition one_point_one : pyfloat := S754_finite false 4953959590107546 (-52).
