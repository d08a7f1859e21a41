(** PropsNames.v -- name similarity: C31, C32.  Strings are shorter than 2^50
    characters, so that lengths are exact in binary64. *)
From Coq Require Import Reals Lra.
From Verif Require Import Base Value Checker FromDict SpecNum SpecSched SpecNames SpecRenames FloatFacts NamesFacts NamesFloat.

(** ** C31 *)
(** [levenshtein] is the least total cost of any sequence of edits (costs counted
    in quarters: 4 for an insertion, deletion or substitution, 1 for a change of case). *)
Theorem C31_least_cost : forall s t, short s -> short t ->
  exists n, least_cost s t n /\ double (levenshtein s t) /\ real_of (levenshtein s t) = (INR n / 4)%R.
Proof. exact lev_least. Qed.
Print Assumptions C31_least_cost.

Theorem C31_symmetric : forall s t, short s -> short t -> levenshtein s t = levenshtein t s.
Proof. exact lev_sym. Qed.
Print Assumptions C31_symmetric.

Theorem C31_zero_iff_equal : forall s t, short s -> short t ->
  (SFeqb (levenshtein s t) f64_zero = true <-> s = t).
Proof. exact lev_zero. Qed.
Print Assumptions C31_zero_iff_equal.

Theorem C31_bound : forall s t, short s -> short t ->
  (0 <= real_of (levenshtein s t) <= INR (Nat.max (String.length s) (String.length t)))%R.
Proof. exact lev_bound. Qed.
Print Assumptions C31_bound.

(** "Steps" into "step_s": a change of case and an insertion *)
Example C31_case : short "Steps" /\ short "step_s" /\
  levenshtein "Steps" "step_s" = f64_add f64_one f64_quarter /\
  edits "Steps" "step_s" 5.
Proof.
  split; [vm_compute; reflexivity|]. split; [vm_compute; reflexivity|]. split; [vm_compute; reflexivity|].
  apply (edits_then "Steps" "steps" "step_s" 1 4).
  - apply (edits_then "Steps" "Steps" "steps" 0 1); [constructor|].
    apply (edit_case "" "S" "s" "teps"). exists 18%nat. left. split; reflexivity.
  - apply (edit_insert "step" "_" "s").
Qed.

(** ** C32 *)
Theorem C32_symmetric : forall s t, short s -> short t -> name_similarity s t = name_similarity t s.
Proof. exact sim_sym. Qed.
Print Assumptions C32_symmetric.

(** 1.1 exactly for equal names *)
Theorem C32_equal : forall s t, short s -> short t -> (name_similarity s t = one_point_one <-> s = t).
Proof. exact sim_eq_iff. Qed.
Print Assumptions C32_equal.

(** both constants are as close to 1.1 and 0.1 as a double can be *)
Theorem C32_constant :
  (Rabs (real_of one_point_one - 11 / 10) < / 2 ^ 53)%R /\ (Rabs (real_of one_tenth - 1 / 10) < / 2 ^ 57)%R.
Proof.
  unfold one_point_one, one_tenth. rewrite !real_finite. split; apply Rabs_def1; simpl; lra.
Qed.
Print Assumptions C32_constant.

(** otherwise between 0 and 1 *)
Theorem C32_range : forall s t, short s -> short t -> s <> t ->
  double (name_similarity s t) /\ (0 <= real_of (name_similarity s t) <= 1)%R.
Proof. exact sim_range. Qed.
Print Assumptions C32_range.

(** equal, different only in underscores, initials, and a near miss *)
Example C32_case :
  name_similarity "lr" "lr" = one_point_one /\
  name_similarity "learning_rate" "learningrate" = f64_one /\
  name_similarity "learning_rate" "lr" = f64_one /\
  name_similarity "step" "steps" = f64_sub f64_one (f64_div f64_one (sf_of_Z 5)).
Proof. repeat split; vm_compute; reflexivity. Qed.
