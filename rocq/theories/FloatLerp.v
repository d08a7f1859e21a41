(** FloatLerp.v -- rounding errors of schedules computed in binary64. *)
From Coq Require Import Reals Lia Lra.
From Flocq Require Import Core BinarySingleNaN Plus_error Relative.
From Verif Require Import Base Value Sched Asdict FromDict SpecNum FloatFacts SpecSched SchedFacts FloatOps.
Open Scope R_scope.

Definition u : R := bpow radix2 (-53).
Definition eta : R := bpow radix2 (-1075).

Lemma u_pos : 0 < u. Proof. apply bpow_gt_0. Qed.
Lemma eta_pos : 0 < eta. Proof. apply bpow_gt_0. Qed.
Lemma eta_le_u : eta <= u. Proof. apply bpow_le. lia. Qed.
Lemma u_small : 1024 * u <= 1.
Proof. unfold u. replace 1024 with (bpow radix2 10) by (simpl; lra). rewrite <- bpow_plus. change 1 with (bpow radix2 0). apply bpow_le. lia. Qed.

Lemma u_ro_u : u_ro radix2 53 / (1 + u_ro radix2 53) <= u.
Proof.
  assert (E : u_ro radix2 53 = u). { unfold u_ro, u. change (- (53) + 1)%Z with (-52)%Z.
    replace (bpow radix2 (-53)) with (bpow radix2 (-1) * bpow radix2 (-52)) by (rewrite <- bpow_plus; reflexivity).
    change (bpow radix2 (-1)) with (/ 2). lra. }
  rewrite E. pose proof u_pos. apply Rmult_le_reg_r with (1 + u); [lra|]. unfold Rdiv. rewrite Rmult_assoc, Rinv_l by lra.
  assert (0 <= u * u) by (apply Rmult_le_pos; lra). lra.
Qed.

Lemma nearest_err a : exists e n, Rabs e <= u /\ Rabs n <= eta /\ nearest a = a * (1 + e) + n.
Proof.
  assert (P : (0 < 53)%Z) by lia.
  destruct (relative_error_N_FLT'_ex radix2 (-1074) 53 P (fun x => negb (Z.even x)) a) as (e & n & He & Hn & _ & E).
  exists e, n. split; [eapply Rle_trans; [exact He|exact u_ro_u]|]. split; [|exact E].
  eapply Rle_trans; [exact Hn|]. unfold eta.
  replace (bpow radix2 (-1075)) with (bpow radix2 (-1) * bpow radix2 (-1074)) by (rewrite <- bpow_plus; reflexivity).
  change (bpow radix2 (-1)) with (/ 2). lra.
Qed.

Lemma double_generic f : double f -> generic_format radix2 (FLT_exp (-1074) 53) (real_of f).
Proof. intros D. destruct (double_B f D) as [b [_ [_ ->]]]. apply (generic_format_B2R 53 1024 b). Qed.

Lemma nearest_sub_err x y : double x -> double y ->
  exists e, Rabs e <= u /\ nearest (real_of x - real_of y) = (real_of x - real_of y) * (1 + e).
Proof.
  intros X Y. assert (P : (0 < 53)%Z) by lia.
  assert (P' : FLX.Prec_gt_0 53) by exact P.
  destruct (FLT_plus_error_N_ex radix2 (-1074) 53 (fun x => negb (Z.even x)) (real_of x) (- real_of y)) as (e & He & E).
  - apply double_generic; auto.
  - apply generic_format_opp. apply double_generic; auto.
  - exists e. split; [eapply Rle_trans; [exact He|exact u_ro_u]|exact E].
Qed.

Lemma abs_mul a b A B : Rabs a <= A -> Rabs b <= B -> Rabs (a * b) <= A * B.
Proof. intros HA HB. rewrite Rabs_mult. apply Rmult_le_compat; auto; apply Rabs_pos. Qed.

Lemma nearest_abs a M : Rabs a <= M -> nearest M = M -> Rabs (nearest a) <= M.
Proof.
  intros H E. unfold nearest. rewrite <- round_NE_abs by (apply FLT_exp_valid; reflexivity).
  fold (nearest (Rabs a)). rewrite <- E. apply nearest_le. exact H.
Qed.

Lemma fits_le a M : Rabs a <= M -> nearest M = M -> M < bpow radix2 1024 -> fits a.
Proof. intros H E L. unfold fits. eapply Rle_lt_trans; [apply nearest_abs; eauto|auto]. Qed.

Lemma abs_of_le a b : - b <= a <= b -> Rabs a <= b.
Proof. intros H. apply Rabs_le. lra. Qed.

Lemma le_of_abs a b : Rabs a <= b -> - b <= a <= b.
Proof. intros H. pose proof (Rle_abs a). pose proof (Rle_abs (- a)). rewrite Rabs_Ropp in *. lra. Qed.

Ltac abs := repeat match goal with H : Rabs _ <= _ |- _ => apply le_of_abs in H end.

(** the larger of two doubles in absolute value is a double *)
Definition Mx (y0 y1 : pyfloat) : R := Rmax (Rabs (real_of y0)) (Rabs (real_of y1)).

Lemma Mx_spec y0 y1 : double y0 -> double y1 -> moderate y0 -> moderate y1 ->
  Rabs (real_of y0) <= Mx y0 y1 /\ Rabs (real_of y1) <= Mx y0 y1 /\ 0 <= Mx y0 y1 /\ nearest (Mx y0 y1) = Mx y0 y1 /\
  Mx y0 y1 <= bpow radix2 1022.
Proof.
  intros D0 D1 M0 M1. unfold Mx. split; [apply Rmax_l|]. split; [apply Rmax_r|].
  split; [eapply Rle_trans; [apply Rabs_pos|apply Rmax_l]|]. split; [|apply Rmax_lub; auto].
  assert (K : forall y, double y -> nearest (Rabs (real_of y)) = Rabs (real_of y)).
  { intros y D. unfold nearest. rewrite round_NE_abs by (apply FLT_exp_valid; reflexivity).
    fold (nearest (real_of y)). rewrite double_format by auto. reflexivity. }
  apply Rmax_case; apply K; auto.
Qed.

Lemma lerp_close w y0 y1 : double w -> 0 <= real_of w <= 1 -> double y0 -> double y1 -> moderate y0 -> moderate y1 ->
  let v := f64_add (f64_mul w y0) (f64_mul (f64_sub f64_one w) y1) in
  double v /\ Rabs (real_of v - (real_of w * real_of y0 + (1 - real_of w) * real_of y1)) <= 6 * u * Mx y0 y1 + 4 * eta.
Proof.
  intros W Bw Y0 Y1 M0 M1. destruct (Mx_spec y0 y1 Y0 Y1 M0 M1) as (A0 & A1 & Mp & Mf & Mb).
  set (M := Mx y0 y1) in *. destruct double_one as [O Eo]. cbv zeta.
  assert (ML : M < bpow radix2 1024). { eapply Rle_lt_trans; [exact Mb|]. apply bpow_lt. lia. }
  assert (P0 : Rabs (real_of w * real_of y0) <= M).
  { replace M with (1 * M) by ring. apply abs_mul; [apply abs_of_le; lra|auto]. }
  destruct (mul_real w y0 W Y0) as [D1 E1]; [eapply fits_le; eauto|].
  assert (Q0 : Rabs (real_of (f64_mul w y0)) <= M) by (rewrite E1; apply nearest_abs; auto).
  destruct (sub_real f64_one w O W) as [D2 E2].
  { rewrite Eo. apply fits_le with 1; [apply abs_of_le; lra|apply nearest_1|]. change 1 with (bpow radix2 0). apply bpow_lt. lia. }
  assert (B2 : 0 <= real_of (f64_sub f64_one w) <= 1).
  { rewrite E2, Eo. split; [rewrite <- nearest_0|rewrite <- nearest_1 at 2]; apply nearest_le; lra. }
  assert (P1 : Rabs (real_of (f64_sub f64_one w) * real_of y1) <= M).
  { replace M with (1 * M) by ring. apply abs_mul; [apply abs_of_le; lra|auto]. }
  destruct (mul_real _ y1 D2 Y1) as [D3 E3]; [eapply fits_le; eauto|].
  assert (Q1 : Rabs (real_of (f64_mul (f64_sub f64_one w) y1)) <= M) by (rewrite E3; apply nearest_abs; auto).
  set (w' := f64_sub f64_one w) in *. set (p0 := f64_mul w y0) in *. set (p1 := f64_mul w' y1) in *.
  assert (S : Rabs (real_of p0 + real_of p1) <= 2 * M). { abs. apply abs_of_le. lra. }
  destruct (add_real p0 p1 D1 D3) as [D4 E4].
  { apply fits_le with (bpow radix2 1023).
    - eapply Rle_trans; [exact S|]. replace (bpow radix2 1023) with (2 * bpow radix2 1022); [lra|].
      replace (bpow radix2 1023) with (bpow radix2 1 * bpow radix2 1022) by (rewrite <- bpow_plus; reflexivity).
      simpl (bpow radix2 1). lra.
    - unfold nearest. apply round_generic; [apply valid_rnd_N|]. apply generic_format_bpow. unfold FLT_exp. lia.
    - apply bpow_lt. lia. }
  split; [exact D4|]. rewrite E4.
  destruct (nearest_err (real_of p0 + real_of p1)) as (e3 & n3 & He3 & Hn3 & ->).
  destruct (nearest_err (real_of w * real_of y0)) as (e0 & n0 & He0 & Hn0 & R0). rewrite <- E1 in R0.
  destruct (nearest_sub_err f64_one w O W) as (e1 & He1 & R1). rewrite <- E2 in R1. rewrite Eo in R1.
  destruct (nearest_err (real_of w' * real_of y1)) as (e2 & n2 & He2 & Hn2 & R2). rewrite <- E3 in R2.
  assert (T3 : Rabs ((real_of p0 + real_of p1) * e3) <= 2 * M * u) by (apply abs_mul; auto).
  assert (T0 : Rabs (real_of w * real_of y0 * e0) <= M * u) by (apply abs_mul; auto).
  assert (T2 : Rabs (real_of w' * real_of y1 * e2) <= M * u) by (apply abs_mul; auto).
  assert (T1 : Rabs ((1 - real_of w) * e1 * real_of y1) <= 1 * u * M).
  { apply abs_mul; [apply abs_mul; [apply abs_of_le; lra|auto]|auto]. }
  replace ((real_of p0 + real_of p1) * (1 + e3) + n3 - (real_of w * real_of y0 + (1 - real_of w) * real_of y1))
    with ((real_of p0 + real_of p1) * e3 + n3 + real_of w * real_of y0 * e0 + n0 + (1 - real_of w) * e1 * real_of y1 + real_of w' * real_of y1 * e2 + n2).
  2:{ assert (real_of w' * real_of y1 = (1 - real_of w) * real_of y1 + (1 - real_of w) * e1 * real_of y1) by (rewrite R1; ring). lra. }
  clear - T3 T0 T2 T1 Hn3 Hn0 Hn2 Mp. pose proof u_pos. pose proof eta_pos. assert (0 <= u * M) by (apply Rmult_le_pos; lra).
  abs. apply abs_of_le. lra.
Qed.

(** the fraction of a segment that has passed *)
Lemma progress_close s x : good_segment s -> double x -> moderate x ->
  real_of (sg_start s) <= real_of x <= real_of (sg_end s) ->
  let r := f64_div (f64_sub x (sg_start s)) (f64_sub (sg_end s) (sg_start s)) in
  double r /\ 0 <= real_of r <= 1 /\ Rabs (real_of r - progress (real_segment s) (real_of x)) <= 6 * u.
Proof.
  intros G X M H. pose proof (length_pos s G) as [DL [EL PL]].
  destruct G as (Ds & De & Di & Df & Ms & Me & L). cbv zeta.
  destruct (sub_real x (sg_start s) X Ds) as [Dn En]; [apply moderate_sub; auto|].
  set (n := f64_sub x (sg_start s)) in *. set (len := f64_sub (sg_end s) (sg_start s)) in *.
  assert (N0 : 0 <= real_of n). { rewrite En, <- nearest_0. apply nearest_le. lra. }
  assert (N1 : real_of n <= real_of len). { rewrite En, EL. apply nearest_le. lra. }
  assert (IL : 0 < / real_of len) by (apply Rinv_0_lt_compat; auto).
  assert (IL' : real_of len * / real_of len = 1) by (apply Rinv_r; lra).
  assert (Q : 0 <= real_of n / real_of len <= 1).
  { unfold Rdiv. split; [apply Rmult_le_pos; lra|].
    assert (0 <= (real_of len - real_of n) * / real_of len) by (apply Rmult_le_pos; lra). lra. }
  assert (F : fits (real_of n / real_of len)).
  { apply fits_le with 1; [apply abs_of_le; lra|apply nearest_1|]. change 1 with (bpow radix2 0). apply bpow_lt. lia. }
  destruct (div_real n len Dn DL PL) as [[_ [Dr Er]]|[NF _]]; [|contradiction].
  split; [exact Dr|]. split.
  { rewrite Er. split; [rewrite <- nearest_0|rewrite <- nearest_1]; apply nearest_le; lra. }
  rewrite Er. destruct (nearest_err (real_of n / real_of len)) as (e3 & n3 & He3 & Hn3 & ->).
  destruct (nearest_sub_err x (sg_start s) X Ds) as (a & Ha & Ra). rewrite <- En in Ra.
  destruct (nearest_sub_err (sg_end s) (sg_start s) De Ds) as (b & Hb & Rb). rewrite <- EL in Rb.
  unfold progress, real_segment. cbn [sg_start sg_end].
  set (d := real_of (sg_end s) - real_of (sg_start s)) in *. set (t := real_of x - real_of (sg_start s)) in *.
  assert (Dp : 0 < d) by (unfold d; lra).
  pose proof u_pos. pose proof u_small. pose proof eta_le_u.
  assert (Hb' := le_of_abs _ _ Hb). assert (Ha' := le_of_abs _ _ Ha).
  assert (B1 : 0 < 1 + b) by lra.
  set (q := real_of n / real_of len) in *.
  assert (Eq : q = t / d + q * (a - b) - t / d * a * a + (t / d * a * a - q * (a - b) + (q - t / d))) by ring.
  assert (K : q * (1 + b) = t / d * (1 + a)). { unfold q. rewrite Ra, Rb. field. lra. }
  assert (Tp : 0 <= t / d <= 1).
  { assert (0 < / d) by (apply Rinv_0_lt_compat; auto). assert (d * / d = 1) by (apply Rinv_r; lra). unfold Rdiv, t in *.
    split; [apply Rmult_le_pos; lra|].
    assert (0 <= (d - (real_of x - real_of (sg_start s))) * / d) by (apply Rmult_le_pos; unfold d in *; lra). lra. }
  assert (T1 : Rabs (q * b) <= 1 * u) by (apply abs_mul; [apply abs_of_le; lra|auto]).
  assert (T2 : Rabs (t / d * a) <= 1 * u) by (apply abs_mul; [apply abs_of_le; lra|auto]).
  assert (T3 : Rabs (q * e3) <= 1 * u) by (apply abs_mul; [apply abs_of_le; lra|auto]).
  apply le_of_abs in T1. apply le_of_abs in T2. apply le_of_abs in T3. apply le_of_abs in Hn3. apply abs_of_le. lra.
Qed.

Lemma unclip r : double r -> 0 <= real_of r <= 1 ->
  (if SFltb r f64_zero then f64_zero else if SFltb f64_one r then f64_one else r) = r.
Proof.
  intros D B. destruct (double_zero false) as [Dz Ez]. destruct double_one as [O Eo].
  destruct (SFltb r f64_zero) eqn:B1. { apply ltb_real in B1; auto. unfold f64_zero in B1. lra. }
  destruct (SFltb f64_one r) eqn:B2; auto. apply ltb_real in B2; auto. lra.
Qed.

Lemma eval64_lin E s x : sg_interp s = ILin -> good_segment s -> moderate (sg_initial s) -> moderate (sg_final s) ->
  double x -> moderate x -> real_of (sg_start s) <= real_of x <= real_of (sg_end s) ->
  double (eval64 E s x) /\
  Rabs (real_of (eval64 E s x) - shape (real_segment s) (real_of x)) <= 20 * u * Mx (sg_initial s) (sg_final s) + 4 * eta.
Proof.
  intros I G Mi Mf X M H. destruct (progress_close s x G X M H) as [Dr [Br Cr]].
  destruct G as (Ds & De & Di & Df & Ms & Me & L). destruct double_one as [O Eo].
  unfold eval64. rewrite unclip by auto. rewrite I. cbn [interp_fn f64_ops n_sub n_one].
  set (r := f64_div (f64_sub x (sg_start s)) (f64_sub (sg_end s) (sg_start s))) in *.
  destruct (sub_real f64_one r O Dr) as [Dw Ew].
  { rewrite Eo. apply fits_le with 1; [apply abs_of_le; lra|apply nearest_1|]. change 1 with (bpow radix2 0). apply bpow_lt. lia. }
  destruct (nearest_sub_err f64_one r O Dr) as (e & He & Re). rewrite <- Ew, Eo in Re.
  assert (Bw : 0 <= real_of (f64_sub f64_one r) <= 1).
  { rewrite Ew, Eo. split; [rewrite <- nearest_0|rewrite <- nearest_1 at 2]; apply nearest_le; lra. }
  destruct (lerp_close _ _ _ Dw Bw Di Df Mi Mf) as [Dv Cv]. split; [exact Dv|].
  destruct (Mx_spec _ _ Di Df Mi Mf) as (A0 & A1 & Mp & _ & _).
  set (Mm := Mx (sg_initial s) (sg_final s)) in *. set (w := f64_sub f64_one r) in *.
  unfold shape. cbn [real_segment sg_interp sg_initial sg_final]. rewrite I.
  set (p := progress (real_segment s) (real_of x)) in *. set (v := f64_add _ _) in *.
  assert (T1 : Rabs ((1 - real_of r) * e) <= 1 * u) by (apply abs_mul; [apply abs_of_le; lra|auto]).
  assert (T2 : Rabs (real_of w - (1 - p)) <= 7 * u). { rewrite Re. abs. apply abs_of_le. lra. }
  assert (T3 : Rabs (real_of (sg_initial s) - real_of (sg_final s)) <= 2 * Mm). { abs. apply abs_of_le. lra. }
  assert (T4 := abs_mul _ _ _ _ T2 T3).
  replace (real_of v - (real_of (sg_initial s) + (real_of (sg_final s) - real_of (sg_initial s)) * p))
    with ((real_of v - (real_of w * real_of (sg_initial s) + (1 - real_of w) * real_of (sg_final s))) +
          (real_of w - (1 - p)) * (real_of (sg_initial s) - real_of (sg_final s))) by ring.
  apply le_of_abs in T4. apply le_of_abs in Cv. apply abs_of_le. lra.
Qed.

Lemma convex_bounds a b t : 0 <= t <= 1 -> Rmin a b <= t * a + (1 - t) * b <= Rmax a b.
Proof.
  intros H. destruct (Rle_dec a b) as [L|L].
  - rewrite Rmin_left, Rmax_right by lra. assert (0 <= t * (b - a)) by (apply Rmult_le_pos; lra).
    assert (0 <= (1 - t) * (b - a)) by (apply Rmult_le_pos; lra). lra.
  - rewrite Rmin_right, Rmax_left by lra. assert (0 <= t * (a - b)) by (apply Rmult_le_pos; lra).
    assert (0 <= (1 - t) * (a - b)) by (apply Rmult_le_pos; lra). lra.
Qed.

Lemma half_fits c : double c -> -1 <= real_of c <= 1 ->
  double (f64_add (f64_mul c f64_half) f64_half) /\ 0 <= real_of (f64_add (f64_mul c f64_half) f64_half) <= 1.
Proof.
  intros C B. destruct double_half as [H Eh]. destruct double_one as [O Eo].
  assert (Nh : nearest (1 / 2) = 1 / 2) by (rewrite <- Eh; apply double_format; auto).
  assert (L : 1 / 2 < bpow radix2 1024). { apply Rlt_trans with (bpow radix2 0); [simpl; lra|]. apply bpow_lt. lia. }
  assert (P : Rabs (real_of c * real_of f64_half) <= 1 / 2) by (rewrite Eh; apply abs_of_le; lra).
  destruct (mul_real c f64_half C H) as [D1 E1]; [eapply fits_le; eauto|].
  assert (P1 : Rabs (real_of (f64_mul c f64_half)) <= 1 / 2) by (rewrite E1; apply nearest_abs; auto).
  apply le_of_abs in P1.
  destruct (add_real _ f64_half D1 H) as [D2 E2].
  { apply fits_le with 1; [rewrite Eh; apply abs_of_le; lra|apply nearest_1|]. change 1 with (bpow radix2 0). apply bpow_lt. lia. }
  split; [exact D2|]. rewrite E2, Eh. split; [rewrite <- nearest_0|eapply Rle_trans; [|right; apply nearest_1]]; apply nearest_le; lra.
Qed.

Lemma interp_range E i r : cos_range E -> double r -> 0 <= real_of r <= 1 ->
  double (interp_fn (f64_ops E) i r) /\ 0 <= real_of (interp_fn (f64_ops E) i r) <= 1.
Proof.
  intros C D B. destruct double_one as [O Eo]. destruct i; cbn [interp_fn f64_ops n_sub n_one n_cosw].
  - destruct (sub_real f64_one r O D) as [Dw Ew].
    { rewrite Eo. apply fits_le with 1; [apply abs_of_le; lra|apply nearest_1|]. change 1 with (bpow radix2 0). apply bpow_lt. lia. }
    split; [auto|]. rewrite Ew, Eo. split; [rewrite <- nearest_0|rewrite <- nearest_1 at 2]; apply nearest_le; lra.
  - assert (Dp : double f64_pi) by (split; reflexivity).
    assert (Pm : Rabs (real_of f64_pi) <= bpow radix2 2).
    { unfold f64_pi. rewrite real_finite. cbn [cond_Zopp]. rewrite Rabs_mult.
      rewrite (Rabs_right (bpow radix2 (-51))) by (apply Rle_ge, bpow_ge_0).
      replace (bpow radix2 2) with (bpow radix2 53 * bpow radix2 (-51)) by (rewrite <- bpow_plus; reflexivity).
      apply Rmult_le_compat_r; [apply bpow_ge_0|]. rewrite Rabs_right by (apply Rle_ge, IZR_le; lia).
      replace (bpow radix2 53) with (IZR (2 ^ 53)) by reflexivity. apply IZR_le. lia. }
    assert (P : Rabs (real_of r * real_of f64_pi) <= bpow radix2 2).
    { replace (bpow radix2 2) with (1 * bpow radix2 2) by ring. apply abs_mul; [apply abs_of_le; lra|auto]. }
    destruct (mul_real r f64_pi D Dp) as [Dm _].
    { eapply fits_le; [exact P| |apply bpow_lt; lia]. unfold nearest. apply round_generic; [apply valid_rnd_N|].
      apply generic_format_bpow. unfold FLT_exp. lia. }
    destruct (C _ Dm) as [Dc Bc]. apply half_fits; auto.
  - rewrite Eo. split; [auto|lra].
Qed.

Lemma eval64_between E s x : cos_range E -> good_segment s -> moderate (sg_initial s) -> moderate (sg_final s) ->
  double x -> moderate x -> real_of (sg_start s) <= real_of x <= real_of (sg_end s) ->
  double (eval64 E s x) /\
  between_up_to (6 * u * Mx (sg_initial s) (sg_final s) + 4 * eta)
    (real_of (sg_initial s)) (real_of (sg_final s)) (real_of (eval64 E s x)).
Proof.
  intros C G Mi Mf X M H. destruct (progress_close s x G X M H) as [Dr [Br _]].
  destruct G as (Ds & De & Di & Df & Ms & Me & L).
  unfold eval64. rewrite unclip by auto.
  destruct (interp_range E (sg_interp s) _ C Dr Br) as [Dw Bw].
  destruct (lerp_close _ _ _ Dw Bw Di Df Mi Mf) as [Dv Cv]. split; [exact Dv|].
  apply le_of_abs in Cv. unfold between_up_to.
  pose proof (convex_bounds (real_of (sg_initial s)) (real_of (sg_final s)) _ Bw). lra.
Qed.

Lemma inside64 E p s x : pw_segments p <> [] -> (forall s, In s (pw_segments p) -> good_segment s) ->
  connected (map real_segment (pw_segments p)) -> In s (pw_segments p) -> double x ->
  real_of (sg_start s) <= real_of x < real_of (sg_end s) -> get_value (f64_ops E) p x = Ok (eval64 E s x).
Proof.
  intros N G Cn S X H. pose proof (increasing64 _ G) as I.
  destruct (pick64 E x (pw_segments p) None N X G) as (pre & s' & post & E1 & P & B & Q).
  rewrite E1, map_app in Cn, I. simpl in Cn, I.
  assert (Gs : good_segment s') by (apply G; rewrite E1, in_app_iff; right; left; auto).
  rewrite (get_value_eval64 E p x s' P Gs). f_equal. f_equal.
  rewrite E1 in S. apply in_app_iff in S. destruct S as [S|[S|S]].
  - specialize (B s S). lra.
  - auto.
  - pose proof (connected_mid _ _ _ Cn I (real_segment s) (in_map real_segment _ _ S)) as K. simpl in K.
    destruct Q as [Q| ->]; [lra|destruct S].
Qed.

Lemma slack_20 M : 0 <= M -> 20 * u * M + 4 * eta <= bpow radix2 (-48) * M + bpow radix2 (-1073).
Proof.
  intros H. pose proof u_pos. replace (bpow radix2 (-48)) with (32 * u).
  2:{ unfold u. replace 32 with (bpow radix2 5) by (simpl; lra). rewrite <- bpow_plus. reflexivity. }
  replace (bpow radix2 (-1073)) with (4 * eta).
  2:{ unfold eta. replace 4 with (bpow radix2 2) by (simpl; lra). rewrite <- bpow_plus. reflexivity. }
  assert (0 <= u * M) by (apply Rmult_le_pos; lra). lra.
Qed.

Lemma slack_6 M : 0 <= M -> 6 * u * M + 4 * eta <= bpow radix2 (-50) * M + bpow radix2 (-1073).
Proof.
  intros H. pose proof u_pos. replace (bpow radix2 (-50)) with (8 * u).
  2:{ unfold u. replace 8 with (bpow radix2 3) by (simpl; lra). rewrite <- bpow_plus. reflexivity. }
  replace (bpow radix2 (-1073)) with (4 * eta).
  2:{ unfold eta. replace 4 with (bpow radix2 2) by (simpl; lra). rewrite <- bpow_plus. reflexivity. }
  assert (0 <= u * M) by (apply Rmult_le_pos; lra). lra.
Qed.

Lemma inside_python E p s x : cos_range E -> (forall s, In s (pw_segments p) -> good_segment s) ->
  connected (map real_segment (pw_segments p)) -> In s (pw_segments p) ->
  moderate (sg_initial s) -> moderate (sg_final s) -> double x -> moderate x ->
  real_of (sg_start s) <= real_of x < real_of (sg_end s) ->
  exists v, get_value (f64_ops E) p x = Ok v /\ double v /\
    between_up_to (slack (-50) s) (real_of (sg_initial s)) (real_of (sg_final s)) (real_of v) /\
    (sg_interp s = ILin -> Rabs (real_of v - shape (real_segment s) (real_of x)) <= slack (-48) s).
Proof.
  intros C G Cn S Mi Mf X M H. assert (N : pw_segments p <> []) by (intros N; rewrite N in S; destruct S).
  exists (eval64 E s x). split; [apply inside64; auto|].
  assert (H' : real_of (sg_start s) <= real_of x <= real_of (sg_end s)) by lra.
  assert (Mp : 0 <= Mx (sg_initial s) (sg_final s)) by (eapply Rle_trans; [apply Rabs_pos|apply Rmax_l]).
  destruct (eval64_between E s x C (G s S) Mi Mf X M H') as [D B]. split; [exact D|]. split.
  - unfold between_up_to, slack in *. fold (Mx (sg_initial s) (sg_final s)). pose proof (slack_6 _ Mp). lra.
  - intros I. destruct (eval64_lin E s x I (G s S) Mi Mf X M H') as [_ B']. eapply Rle_trans; [exact B'|].
    unfold slack. fold (Mx (sg_initial s) (sg_final s)). apply slack_20; auto.
Qed.

Lemma parse_connected64 (fl : string -> option pyfloat) s p : parse_schedule fl s = Ok p ->
  connected (map real_segment (pw_segments p)).
Proof.
  intros H. apply parse_iff in H. destruct H as (first & ws & _ & _ & _ & _ & Es).
  apply connected_nth. intros n a b E E'. rewrite nth_error_map in E, E'.
  destruct (nth_error (pw_segments p) n) as [a0|] eqn:Ea; [|discriminate].
  destruct (nth_error (pw_segments p) (Datatypes.S n)) as [b0|] eqn:Eb; [|discriminate].
  injection E as <-. injection E' as <-. apply Es in Ea. apply Es in Eb.
  destruct (adjacent_segments fl ws n a0 b0 Ea Eb) as [H1 H2]. simpl. split; congruence.
Qed.
