(** PropsSched.v -- schedules: C35 (values), C36 (syntax). *)
From Coq Require Import Reals Lra.
From Flocq Require Import Core.
From Verif Require Import Base Value Sched Asdict FromDict SpecNum FloatFacts SpecSched SchedFacts FloatOps FloatLerp Examples.

(** ** C36 *)
(** A text is accepted exactly if it is a list of breakpoints and interpolator
    names, and the result has one segment per pair of neighbouring breakpoints,
    joined as the most recent name says.  [fl] is [float()] on texts. *)
Theorem C36_schedule_syntax : forall (A : Type) (fl : string -> option A) s p,
  parse_schedule fl s = Ok p <-> schedule_text fl s p.
Proof. intros A. exact parse_iff. Qed.
Print Assumptions C36_schedule_syntax.

(** Everything else is rejected with ValueError or KeyError. *)
Theorem C36_others_rejected : forall (A : Type) (fl : string -> option A) s,
  (forall p, ~ schedule_text fl s p) -> parse_schedule fl s = Err ValueError \/ parse_schedule fl s = Err KeyError.
Proof.
  intros A fl s H. destruct (parse_schedule fl s) as [p|e] eqn:E.
  - exfalso. apply (H p). apply parse_iff. exact E.
  - destruct (parse_errors fl s e E) as [->| ->]; auto.
Qed.
Print Assumptions C36_others_rejected.

Definition dec (s : string) : option Z :=
  if String.eqb s "3" then Some 3%Z else if String.eqb s "0" then Some 0%Z else if String.eqb s "7" then Some 7%Z
  else if String.eqb s "10" then Some 10%Z else if String.eqb s "20" then Some 20%Z else None.

Example C36_ex :
  schedule_text dec "step: 3@0 cos 7@10 step 0@20"
    (mkPW [mkSeg 0 10 3 7 ICos; mkSeg 10 20 7 0 IStep]%Z "step") /\
  schedule_text dec "step: 3@0 7@10" (mkPW [mkSeg 0 10 3 7 ILin]%Z "step") /\
  parse_schedule dec "step: 3@0 exp 7@10" = Err KeyError /\
  parse_schedule dec "step: 3@0@1 7@10" = Err ValueError /\
  parse_schedule dec "step: 3@x 7@10" = Err ValueError /\
  (* the example in the comment at schedule.py:70 is not accepted *)
  parse_schedule dec "3@step=0 lin 7@10" = Ok (mkPW [] "3@step=").
Proof.
  split; [apply C36_schedule_syntax; vm_compute; reflexivity|].
  split; [apply C36_schedule_syntax; vm_compute; reflexivity|].
  repeat split; vm_compute; reflexivity.
Qed.

(** ** C35 *)
Open Scope R_scope.

(** Full claim, over the reals: a schedule text with increasing breakpoints has the
    first value before the first breakpoint, the last value after the last one and
    interpolates in between, so it takes the given value at every breakpoint.
    Holds if the last interpolator is not "step". *)
Theorem C35_values_partial : forall (fl : string -> option R) s p,
  parse_schedule fl s = Ok p -> pw_segments p <> [] -> increasing (pw_segments p) ->
  (forall sg r, pw_segments p = (r ++ [sg])%list -> sg_interp sg <> IStep) ->
  follows (get_value real_ops p) (pw_segments p).
Proof. intros fl s p H N I NS. apply follows_partial; auto. eapply parse_connected; eauto. Qed.
Print Assumptions C35_values_partial.

(** With any interpolators: a value is always computed, and only the one after the
    last breakpoint of a final "step" segment differs: it stays at the last but one. *)
Theorem C35_all_interpolators : forall (fl : string -> option R) s p,
  parse_schedule fl s = Ok p -> pw_segments p <> [] -> increasing (pw_segments p) ->
  forall x, exists v, get_value real_ops p x = Ok v /\
    (forall sg r, pw_segments p = sg :: r -> x <= sg_start sg -> v = sg_initial sg) /\
    (forall sg, In sg (pw_segments p) -> sg_start sg <= x < sg_end sg -> v = shape sg x) /\
    (forall sg r, pw_segments p = (r ++ [sg])%list -> sg_end sg <= x ->
       v = match sg_interp sg with IStep => sg_initial sg | _ => sg_final sg end).
Proof. intros fl s p H N I. apply get_value_total; auto. eapply parse_connected; eauto. Qed.
Print Assumptions C35_all_interpolators.

(** The interpolation stays between the values of its two breakpoints, is monotone,
    starts at the first and (except "step") ends at the second. *)
Theorem C35_between_and_monotone : forall sg, sg_start sg < sg_end sg ->
  shape sg (sg_start sg) = sg_initial sg /\
  (sg_interp sg <> IStep -> shape sg (sg_end sg) = sg_final sg) /\
  (forall x, sg_start sg <= x <= sg_end sg -> between (sg_initial sg) (sg_final sg) (shape sg x)) /\
  (forall x x', sg_start sg <= x -> x <= x' -> x' <= sg_end sg ->
     (sg_initial sg <= sg_final sg -> shape sg x <= shape sg x') /\
     (sg_final sg <= sg_initial sg -> shape sg x' <= shape sg x)).
Proof.
  intros sg L. split; [apply shape_start|]. split; [apply shape_end; auto|].
  split; [intros; apply shape_between; auto|intros; apply shape_monotone; auto].
Qed.
Print Assumptions C35_between_and_monotone.

Definition decR (s : string) : option R := option_map IZR (dec s).

(** "step: 3@0 step 7@10" never becomes 7. *)
Theorem C35_step_refuted : exists fl s p,
  parse_schedule fl s = Ok p /\ pw_segments p <> [] /\ increasing (pw_segments p) /\
  ~ follows (get_value real_ops p) (pw_segments p).
Proof.
  assert (P : parse_schedule decR "step: 3@0 step 7@10" = Ok (mkPW [mkSeg 0 10 3 7 IStep] "step")) by reflexivity.
  exists decR, "step: 3@0 step 7@10", (mkPW [mkSeg 0 10 3 7 IStep] "step").
  assert (I : increasing (pw_segments (mkPW [mkSeg 0 10 3 7 IStep] "step"))).
  { intros s [<-|[]]. simpl. lra. }
  split; [exact P|]. split; [discriminate|]. split; [exact I|].
  intros F. destruct (F 10) as (v & G & _ & _ & H).
  destruct (C35_all_interpolators _ _ _ P ltac:(discriminate) I 10) as (v' & G' & _ & _ & H').
  specialize (H _ [] eq_refl). specialize (H' _ [] eq_refl). simpl in H, H'.
  rewrite G in G'. injection G' as <-. specialize (H ltac:(lra)). specialize (H' ltac:(lra)). lra.
Qed.
Print Assumptions C35_step_refuted.

(** A schedule with a single breakpoint is accepted but has no value anywhere. *)
Theorem C35_single_point_refuted : exists fl s p,
  parse_schedule fl s = Ok p /\ schedule_text fl s p /\ forall x, get_value real_ops p x = Err AssertionError.
Proof.
  exists decR, "step: 3@0", (mkPW [] "step"). split; [reflexivity|].
  split; [apply C36_schedule_syntax; reflexivity|reflexivity].
Qed.
Print Assumptions C35_single_point_refuted.

(** *** The same for the numbers Python computes with (binary64) *)

(** Values at and outside the breakpoints are exact. *)
Theorem C35_python_breakpoints : forall E s p,
  cos_ok E -> parse_schedule (e_float E) s = Ok p -> pw_segments p <> [] ->
  (forall sg, In sg (pw_segments p) -> good_segment sg) ->
  forall x, double x -> moderate x -> exists v, get_value (f64_ops E) p x = Ok v /\
    (forall sg r, pw_segments p = sg :: r -> real_of x <= real_of (sg_start sg) ->
       double v /\ real_of v = real_of (sg_initial sg)) /\
    (forall sg, In sg (pw_segments p) -> real_of x = real_of (sg_start sg) ->
       double v /\ real_of v = real_of (sg_initial sg)) /\
    (forall sg r, pw_segments p = (r ++ [sg])%list -> real_of (sg_end sg) <= real_of x ->
       double v /\ real_of v = real_of (match sg_interp sg with IStep => sg_initial sg | _ => sg_final sg end)).
Proof. intros E s p C H N G. apply value64; auto. eapply parse_connected64; eauto. Qed.
Print Assumptions C35_python_breakpoints.

(** Inside a segment Python's value lies between the two breakpoints' values up to
    2^-50 of the larger, and for "lin" within 2^-48 of the exact interpolation. *)
Theorem C35_python_inside_partial : forall E s p sg x,
  cos_range E -> parse_schedule (e_float E) s = Ok p ->
  (forall sg, In sg (pw_segments p) -> good_segment sg) -> In sg (pw_segments p) ->
  moderate (sg_initial sg) -> moderate (sg_final sg) -> double x -> moderate x ->
  real_of (sg_start sg) <= real_of x < real_of (sg_end sg) ->
  exists v, get_value (f64_ops E) p x = Ok v /\ double v /\
    between_up_to (slack (-50) sg) (real_of (sg_initial sg)) (real_of (sg_final sg)) (real_of v) /\
    (sg_interp sg = ILin -> Rabs (real_of v - shape (real_segment sg) (real_of x)) <= slack (-48) sg).
Proof. intros E s p sg x C H G. apply inside_python; auto. eapply parse_connected64; eauto. Qed.
Print Assumptions C35_python_inside_partial.

Definition f_36 : pyfloat := S754_finite false 8106479329266893 (-51).  (* 3.6 *)
Definition cos_ex (f : pyfloat) : pyfloat :=
  match f with S754_zero _ => f64_one | _ => if SFeqb f f64_pi then S754_finite true 4503599627370496 (-52) else f64_zero end.
Definition sched_float (s : string) : option pyfloat :=
  if String.eqb s "3.6" then Some f_36 else if String.eqb s "439" then Some (sf_of_Z 439) else ex_float s.
Definition sched_env : env := mkEnv sched_float cos_ex ex_ron (fun _ => None) ex_class (fun l => l).

Lemma cos_ex_ok : cos_ok sched_env /\ cos_range sched_env.
Proof.
  split; [split; [intros []; reflexivity|vm_compute; reflexivity]|].
  intros f D. cbn [e_cos sched_env]. assert (K : double f64_zero /\ real_of f64_zero = 0) by apply double_zero.
  destruct K as [Kd Ke]. destruct double_one as [O Eo].
  assert (Z : double f64_zero /\ -1 <= real_of f64_zero <= 1) by (rewrite Ke; split; [auto|lra]).
  destruct f; cbn [cos_ex]; [rewrite Eo; split; [auto|lra]|destruct s; exact Z|exact Z|].
  destruct (SFeqb _ _); [|exact Z].
  split; [split; reflexivity|]. rewrite real_finite. simpl. lra.
Qed.

(** Exactly between is false: the constant schedule "step: 3.6@0 3.6@439" has the value
    3.6000000000000005 at step 314. *)
Theorem C35_python_between_refuted : exists E s p sg x v,
  cos_ok E /\ cos_range E /\ parse_schedule (e_float E) s = Ok p /\ In sg (pw_segments p) /\ good_segment sg /\
  real_of (sg_start sg) <= real_of x < real_of (sg_end sg) /\
  get_value (f64_ops E) p x = Ok v /\ ~ between (real_of (sg_initial sg)) (real_of (sg_final sg)) (real_of v).
Proof.
  set (sg := mkSeg (sf_of_Z 0) (sf_of_Z 439) f_36 f_36 ILin).
  exists sched_env, "step: 3.6@0 3.6@439", (mkPW [sg] "step"), sg, (sf_of_Z 314), (S754_finite false 8106479329266894 (-51)).
  destruct cos_ex_ok as [C1 C2]. split; [exact C1|]. split; [exact C2|].
  split; [reflexivity|]. split; [left; reflexivity|].
  destruct (sf_of_Z_small 0) as [_ Z0]; [lia|]. destruct (sf_of_Z_small 439) as [_ Z1]; [lia|]. destruct (sf_of_Z_small 314) as [_ Z2]; [lia|].
  assert (B : 439 <= bpow radix2 1022).
  { apply Rle_trans with (bpow radix2 9); [simpl; lra|]. apply bpow_le. lia. }
  split; [|split; [|split]].
  - unfold good_segment, sg, moderate. cbn [sg_start sg_end sg_initial sg_final]. rewrite Z0, Z1.
    repeat (split; [split; vm_compute; reflexivity|]).
    rewrite (Rabs_right 0), (Rabs_right 439) by lra. lra.
  - unfold sg. cbn [sg_start sg_end]. rewrite Z0, Z1, Z2. lra.
  - vm_compute; reflexivity.
  - unfold sg, between, f_36. cbn [sg_initial sg_final]. rewrite !real_finite. cbn [cond_Zopp].
    pose proof (bpow_gt_0 radix2 (-51)). lra.
Qed.
Print Assumptions C35_python_between_refuted.

(** Monotone is false too: "step: 1@0 3@1" has the value 2.646380814137342 at 0.8231904070686709 and
    2.6463808141373417 at 0.823190407068671. *)
Theorem C35_python_monotone_refuted : exists E s p sg x x' v v',
  cos_ok E /\ cos_range E /\ parse_schedule (e_float E) s = Ok p /\ In sg (pw_segments p) /\ good_segment sg /\
  sg_interp sg = ILin /\ real_of (sg_initial sg) < real_of (sg_final sg) /\ double x /\ double x' /\
  real_of (sg_start sg) <= real_of x /\ real_of x < real_of x' /\ real_of x' < real_of (sg_end sg) /\
  get_value (f64_ops E) p x = Ok v /\ get_value (f64_ops E) p x' = Ok v' /\ real_of v' < real_of v.
Proof.
  set (sg := mkSeg (sf_of_Z 0) (sf_of_Z 1) (sf_of_Z 1) (sf_of_Z 3) ILin).
  exists sched_env, "step: 1@0 3@1", (mkPW [sg] "step"), sg, (S754_finite false 7414640021058866 (-53)),
    (S754_finite false 7414640021058867 (-53)), (S754_finite false 5959119824214682 (-51)), (S754_finite false 5959119824214681 (-51)).
  destruct cos_ex_ok as [C1 C2]. split; [exact C1|]. split; [exact C2|].
  split; [reflexivity|]. split; [left; reflexivity|].
  destruct (sf_of_Z_small 0) as [_ Z0]; [lia|]. destruct (sf_of_Z_small 1) as [_ Z1]; [lia|]. destruct (sf_of_Z_small 3) as [_ Z3]; [lia|].
  assert (B : 1 <= bpow radix2 1022).
  { apply Rle_trans with (bpow radix2 0); [simpl; lra|]. apply bpow_le. lia. }
  split.
  { unfold good_segment, sg, moderate. cbn [sg_start sg_end sg_initial sg_final]. rewrite Z0, Z1.
    repeat (split; [split; vm_compute; reflexivity|]).
    rewrite (Rabs_right 0), (Rabs_right 1) by lra. lra. }
  split; [reflexivity|]. unfold sg. cbn [sg_start sg_end sg_initial sg_final]. rewrite Z0, Z1, Z3, !real_finite. cbn [cond_Zopp].
  split; [lra|]. split; [split; reflexivity|]. split; [split; reflexivity|].
  assert (Q : bpow radix2 (-53) = / 9007199254740992) by reflexivity.
  assert (Q1 : 0 < bpow radix2 (-51)) by apply bpow_gt_0. rewrite Q.
  split; [lra|]. split; [lra|]. split; [lra|]. split; [vm_compute; reflexivity|]. split; [vm_compute; reflexivity|lra].
Qed.
Print Assumptions C35_python_monotone_refuted.

Example C35_ex :
  follows (get_value real_ops (mkPW [mkSeg 0 10 3 7 ILin; mkSeg 10 20 7 0 ICos] "step"))
          [mkSeg 0 10 3 7 ILin; mkSeg 10 20 7 0 ICos] /\
  get_value (f64_ops sched_env) (mkPW [mkSeg (sf_of_Z 0) (sf_of_Z 10) (sf_of_Z 3) (sf_of_Z 7) ILin] "step") (sf_of_Z 5) = Ok (sf_of_Z 5) /\
  get_value (f64_ops sched_env) (mkPW [mkSeg (sf_of_Z 0) (sf_of_Z 10) (sf_of_Z 3) (sf_of_Z 7) ICos] "step") (sf_of_Z 12) = Ok (sf_of_Z 7).
Proof.
  split; [|split; vm_compute; reflexivity].
  apply (C35_values_partial decR "step: 3@0 7@10 cos 0@20"); [reflexivity|discriminate| |].
  - intros s [<-|[<-|[]]]; simpl; lra.
  - intros s [|a [|b [|c r]]] H; try discriminate; injection H; intros; subst; try discriminate.
Qed.
