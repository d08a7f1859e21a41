(** SpecKey.v -- the numbers schedules are evaluated at, and their values there (C38). *)
From Coq Require Import Reals.
From Flocq Require Import Core.
From Verif Require Import Base Value Sched Schema Rewrite Types Asdict FromDict SpecNum FloatFacts SpecSched.
Open Scope R_scope.

(** [x] is a number: [r].  Ints up to 2^53 in absolute value. *)
Inductive number : pyval -> R -> Prop :=
| num_float g : double g -> number (VFloat g) (real_of g)
| num_int z : (Z.abs z <= 2 ^ 53)%Z -> number (VInt z) (IZR z)
| num_bool (b : bool) : number (VBool b) (if b then 1 else 0).

(** two or more breakpoints that increase, and no numbers that overflow *)
Definition usable (p : piecewise pyfloat) : Prop :=
  pw_segments p <> [] /\
  forall sg, In sg (pw_segments p) -> good_segment sg /\ moderate (sg_initial sg) /\ moderate (sg_final sg).

(** [v] is the value of the schedule at [r]: exact outside the breakpoints and at them, up to rounding
    between them *)
Record value_near (p : piecewise pyfloat) (r v : R) : Prop := {
  vn_before : forall sg rest, pw_segments p = sg :: rest -> r <= real_of (sg_start sg) -> v = real_of (sg_initial sg);
  vn_at : forall sg, In sg (pw_segments p) -> r = real_of (sg_start sg) -> v = real_of (sg_initial sg);
  vn_after : forall sg rest, pw_segments p = (rest ++ [sg])%list -> real_of (sg_end sg) <= r ->
    v = real_of (match sg_interp sg with IStep => sg_initial sg | _ => sg_final sg end);
  vn_inside : forall sg, In sg (pw_segments p) -> real_of (sg_start sg) <= r < real_of (sg_end sg) ->
    between_up_to (slack (-50) sg) (real_of (sg_initial sg)) (real_of (sg_final sg)) v /\
    (sg_interp sg = ILin -> Rabs (v - shape (real_segment sg) r) <= slack (-48) sg) }.

(** what a field gets when its schedule has the value [y]: int fields are truncated *)
Definition scheduled_value (s : schedule) (y : pyfloat) : pyval :=
  if sch_int s then VInt (Ztrunc (real_of y)) else VFloat y.
