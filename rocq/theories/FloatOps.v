(** FloatOps.v -- the binary64 operations of the model are correctly rounded
    (from Flocq), and what follows for schedules. *)
From Coq Require Import Reals Lia Lra.
From Flocq Require Import Core BinarySingleNaN Plus_error.
From Verif Require Import Base Value Sched Asdict FromDict SpecNum FloatFacts SpecSched SchedFacts.

Local Instance Hprec : FLX.Prec_gt_0 53 := eq_refl.
Local Instance Hmax : Prec_lt_emax 53 1024 := eq_refl.
Notation b64 := (binary_float 53 1024).

Lemma add_equiv (x y : b64) : f64_add (B2SF x) (B2SF y) = B2SF (Bplus mode_NE x y).
Proof.
  unfold f64_add. case x as [sx|sx| |sx mx ex Bx]; case y as [sy|sy| |sy my ey By];
  [now (trivial || simpl; case Bool.eqb).. | ].
  apply binary_normalize_equiv.
Qed.

Lemma sub_equiv (x y : b64) : f64_sub (B2SF x) (B2SF y) = B2SF (Bminus mode_NE x y).
Proof.
  unfold f64_sub. case x as [sx|sx| |sx mx ex Bx]; case y as [sy|sy| |sy my ey By];
  [now (trivial || simpl; case Bool.eqb).. | ].
  simpl. unfold Zminus. rewrite <- cond_Zopp_negb. apply binary_normalize_equiv.
Qed.

Lemma mul_equiv (x y : b64) : f64_mul (B2SF x) (B2SF y) = B2SF (Bmult mode_NE x y).
Proof.
  unfold f64_mul. case x as [sx|sx| |sx mx ex Bx]; case y as [sy|sy| |sy my ey By]; [now trivial.. | ].
  simpl. rewrite B2SF_SF2B. apply binary_round_aux_equiv.
Qed.

Lemma div_equiv (x y : b64) : f64_div (B2SF x) (B2SF y) = B2SF (Bdiv mode_NE x y).
Proof.
  unfold f64_div. case x as [sx|sx| |sx mx ex Bx]; case y as [sy|sy| |sy my ey By];
  [now (trivial || simpl; case Bool.eqb).. | ].
  simpl. rewrite B2SF_SF2B. set (melz := SFdiv_core_binary _ _ _ _ _ _).
  case melz as [[mz ez] lz]. apply binary_round_aux_equiv.
Qed.

Lemma double_B f : double f -> exists x : b64, f = B2SF x /\ is_finite x = true /\ real_of f = B2R x.
Proof.
  intros [V F]. exists (SF2B f V). split; [symmetry; apply B2SF_SF2B|].
  split; [rewrite is_finite_SF2B; exact F|symmetry; apply B2R_SF2B].
Qed.

Lemma B_double (x : b64) : is_finite x = true -> double (B2SF x) /\ real_of (B2SF x) = B2R x.
Proof.
  intros F. split; [split; [apply valid_binary_B2SF|]|].
  - unfold finite. rewrite is_finite_SF_B2SF. exact F.
  - unfold real_of. apply SF2R_B2SF.
Qed.

Open Scope R_scope.
Definition fits (r : R) : Prop := Rabs (nearest r) < bpow radix2 1024.

Lemma fits_bool r : fits r -> Rlt_bool (Rabs (round radix2 (SpecFloat.fexp 53 1024) (round_mode mode_NE) r)) (bpow radix2 1024) = true.
Proof. intros H. apply Rlt_bool_true. exact H. Qed.

Lemma fits_dec r : fits r \/ ~ fits r.
Proof. unfold fits. lra. Qed.

Lemma unfits_bool r : ~ fits r -> Rlt_bool (Rabs (round radix2 (SpecFloat.fexp 53 1024) (round_mode mode_NE) r)) (bpow radix2 1024) = false.
Proof. intros H. apply Rlt_bool_false. unfold fits in H. fold (nearest r). change (round radix2 (SpecFloat.fexp 53 1024) (round_mode mode_NE) r) with (nearest r). lra. Qed.

Lemma add_real x y : double x -> double y -> fits (real_of x + real_of y) ->
  double (f64_add x y) /\ real_of (f64_add x y) = nearest (real_of x + real_of y).
Proof.
  intros X Y H. destruct (double_B x X) as [bx [-> [Fx Rx]]]. destruct (double_B y Y) as [by_ [-> [Fy Ry]]].
  rewrite add_equiv. generalize (Bplus_correct 53 1024 _ _ mode_NE bx by_ Fx Fy).
  rewrite <- Rx, <- Ry, (fits_bool _ H). intros [A [B _]].
  destruct (B_double _ B) as [C D]. split; [exact C|]. rewrite D, A. reflexivity.
Qed.

Lemma sub_real x y : double x -> double y -> fits (real_of x - real_of y) ->
  double (f64_sub x y) /\ real_of (f64_sub x y) = nearest (real_of x - real_of y).
Proof.
  intros X Y H. destruct (double_B x X) as [bx [-> [Fx Rx]]]. destruct (double_B y Y) as [by_ [-> [Fy Ry]]].
  rewrite sub_equiv. generalize (Bminus_correct 53 1024 _ _ mode_NE bx by_ Fx Fy).
  rewrite <- Rx, <- Ry, (fits_bool _ H). intros [A [B _]].
  destruct (B_double _ B) as [C D]. split; [exact C|]. rewrite D, A. reflexivity.
Qed.

Lemma mul_real x y : double x -> double y -> fits (real_of x * real_of y) ->
  double (f64_mul x y) /\ real_of (f64_mul x y) = nearest (real_of x * real_of y).
Proof.
  intros X Y H. destruct (double_B x X) as [bx [-> [Fx Rx]]]. destruct (double_B y Y) as [by_ [-> [Fy Ry]]].
  rewrite mul_equiv. generalize (Bmult_correct 53 1024 _ _ mode_NE bx by_).
  rewrite <- Rx, <- Ry, (fits_bool _ H). intros [A [B _]]. rewrite Fx, Fy in B.
  destruct (B_double _ B) as [C D]. split; [exact C|]. rewrite D, A. reflexivity.
Qed.

Lemma sign_pos (b : b64) : is_finite b = true -> 0 < B2R b -> Bsign b = false.
Proof.
  destruct b as [s|s| |s m e V]; simpl; try discriminate; intros _ H; try lra.
  destruct s; auto. exfalso. revert H. apply Rle_not_lt. apply F2R_le_0. simpl. lia.
Qed.

Lemma sign_neg (b : b64) : is_finite b = true -> B2R b < 0 -> Bsign b = true.
Proof.
  destruct b as [s|s| |s m e V]; simpl; try discriminate; intros _ H; try lra.
  destruct s; auto. exfalso. revert H. apply Rle_not_lt. apply F2R_ge_0. simpl. lia.
Qed.

Lemma div_real x y : double x -> double y -> 0 < real_of y ->
  (fits (real_of x / real_of y) /\ double (f64_div x y) /\ real_of (f64_div x y) = nearest (real_of x / real_of y)) \/
  (~ fits (real_of x / real_of y) /\ (0 < real_of x -> f64_div x y = S754_infinity false) /\
   (real_of x < 0 -> f64_div x y = S754_infinity true)).
Proof.
  intros X Y P. destruct (double_B x X) as [bx [-> [Fx Rx]]]. destruct (double_B y Y) as [by_ [-> [Fy Ry]]].
  rewrite div_equiv. generalize (Bdiv_correct 53 1024 _ _ mode_NE bx by_).
  rewrite <- Rx, <- Ry. intros H. assert (NZ : real_of (B2SF by_) <> 0) by lra. specialize (H NZ).
  destruct (fits_dec (real_of (B2SF bx) / real_of (B2SF by_))) as [Q|Q].
  - left. rewrite (fits_bool _ Q) in H. destruct H as [A [B _]]. rewrite Fx in B.
    destruct (B_double _ B) as [C D]. split; [exact Q|]. split; [exact C|]. rewrite D, A. reflexivity.
  - right. rewrite (unfits_bool _ Q) in H. rewrite H. rewrite (sign_pos by_ Fy) by lra.
    split; [exact Q|]. split; intros S; [rewrite (sign_pos bx Fx) by lra|rewrite (sign_neg bx Fx) by lra]; reflexivity.
Qed.

Lemma ltb_real x y : double x -> double y -> SFltb x y = true <-> real_of x < real_of y.
Proof.
  intros X Y. destruct (double_B x X) as [bx [-> [Fx Rx]]]. destruct (double_B y Y) as [by_ [-> [Fy Ry]]].
  change (SFltb (B2SF bx) (B2SF by_)) with (Bltb bx by_). rewrite Bltb_correct by auto. rewrite Rx, Ry.
  case Rlt_bool_spec; intros H; split; intros; [auto|auto|discriminate|lra].
Qed.

Lemma eqb_real x y : double x -> double y -> SFeqb x y = true <-> real_of x = real_of y.
Proof.
  intros X Y. destruct (double_B x X) as [bx [-> [Fx Rx]]]. destruct (double_B y Y) as [by_ [-> [Fy Ry]]].
  change (SFeqb (B2SF bx) (B2SF by_)) with (Beqb bx by_). rewrite Beqb_correct by auto. rewrite Rx, Ry.
  case Req_bool_spec; intros H; split; intros; [auto|auto|discriminate|contradiction].
Qed.

(** ** Rounding *)
Lemma double_format f : double f -> nearest (real_of f) = real_of f.
Proof.
  intros D. destruct (double_B f D) as [b [_ [_ ->]]]. unfold nearest.
  apply round_generic; [apply valid_rnd_N|]. apply (generic_format_B2R 53 1024 b).
Qed.

Lemma double_fits f : double f -> fits (real_of f).
Proof.
  intros D. unfold fits. rewrite (double_format f D). destruct (double_B f D) as [b [_ [_ ->]]].
  apply (abs_B2R_lt_emax 53 1024 b).
Qed.

Lemma nearest_le a b : a <= b -> nearest a <= nearest b.
Proof. intros H. unfold nearest. apply round_le; [apply FLT_exp_valid; reflexivity|apply valid_rnd_N|auto]. Qed.

Lemma nearest_0 : nearest 0 = 0.
Proof. unfold nearest. apply round_0. apply valid_rnd_N. Qed.

Lemma double_one : double f64_one /\ real_of f64_one = 1.
Proof.
  split; [split; reflexivity|]. unfold f64_one. rewrite real_finite. simpl. lra.
Qed.

Lemma double_half : double f64_half /\ real_of f64_half = 1 / 2.
Proof.
  split; [split; reflexivity|]. unfold f64_half. rewrite real_finite. simpl. lra.
Qed.

Lemma double_zero b : double (S754_zero b) /\ real_of (S754_zero b) = 0.
Proof. split; [split; reflexivity|reflexivity]. Qed.

Lemma nearest_1 : nearest 1 = 1.
Proof. destruct double_one as [D R]. rewrite <- R at 1. rewrite (double_format _ D). exact R. Qed.

Lemma fits_0 : fits 0.
Proof. unfold fits. rewrite nearest_0, Rabs_R0. apply bpow_gt_0. Qed.

Lemma fits_1 : fits 1.
Proof. destruct double_one as [D R]. rewrite <- R. apply double_fits; auto. Qed.

Lemma real_inj x y : double x -> double y -> real_of x = real_of y -> real_of x <> 0 -> x = y.
Proof.
  intros X Y E N. destruct (double_B x X) as [bx [-> [Fx Rx]]]. destruct (double_B y Y) as [by_ [-> [Fy Ry]]].
  f_equal. rewrite Rx, Ry in E. rewrite Rx in N.
  destruct bx as [s|s| |s m e V]; simpl in *; try discriminate; try (exfalso; apply N; reflexivity).
  destruct by_ as [s'|s'| |s' m' e' V']; simpl in *; try discriminate; try (exfalso; rewrite E in N; apply N; reflexivity).
  apply (B2R_inj 53 1024); auto.
Qed.

Lemma real_zero f : double f -> real_of f = 0 -> exists b, f = S754_zero b.
Proof.
  intros D E. destruct f as [s|s| |s m e]; try (destruct D as [_ F]; discriminate F); [eauto|].
  rewrite real_finite in E. exfalso. apply Rmult_integral in E. destruct E as [E|E].
  - apply eq_IZR in E. destruct s; discriminate.
  - pose proof (bpow_gt_0 radix2 e). lra.
Qed.

(** differences of moderate numbers do not overflow *)
Lemma moderate_sub x y : double x -> double y -> moderate x -> moderate y -> fits (real_of x - real_of y).
Proof.
  intros X Y Mx My. unfold fits. apply Rle_lt_trans with (bpow radix2 1023).
  - unfold nearest. rewrite <- round_NE_abs by (apply FLT_exp_valid; reflexivity).
    replace (bpow radix2 1023) with (round radix2 (FLT_exp (-1074) 53) ZnearestE (bpow radix2 1023)).
    2:{ apply round_generic; [apply valid_rnd_N|]. apply generic_format_bpow. unfold FLT_exp. lia. }
    apply round_le; [apply FLT_exp_valid; reflexivity|apply valid_rnd_N|].
    unfold moderate in *. replace (bpow radix2 1023) with (bpow radix2 1022 + bpow radix2 1022).
    2:{ replace 1023%Z with (1022 + 1)%Z by lia. rewrite bpow_plus. simpl (bpow radix2 1). lra. }
    apply Rle_trans with (Rabs (real_of x) + Rabs (real_of y)); [|lra].
    unfold Rminus. eapply Rle_trans; [apply Rabs_triang|]. rewrite Rabs_Ropp. lra.
  - apply bpow_lt. lia.
Qed.

(** gradual underflow: distinct doubles have a non-zero difference *)
Lemma sub_pos x y : double x -> double y -> real_of y < real_of x -> 0 < nearest (real_of x - real_of y).
Proof.
  intros X Y L.
  assert (N : nearest (real_of x - real_of y) <> 0).
  { destruct (double_B x X) as [bx [-> [Fx Rx]]]. destruct (double_B y Y) as [by_ [-> [Fy Ry]]].
    rewrite Rx, Ry in *. unfold nearest. intros E.
    assert (F1 := generic_format_B2R 53 1024 bx). assert (F2 := generic_format_B2R 53 1024 by_).
    unfold Rminus in E.
    revert E. apply (round_plus_neq_0 radix2 (FLT_exp (-1074) 53)); [apply valid_rnd_N|exact F1|apply generic_format_opp; exact F2|lra]. }
  assert (0 <= nearest (real_of x - real_of y)) by (rewrite <- nearest_0; apply nearest_le; lra). lra.
Qed.

(** ** Interpolation at the ends of a segment *)
Lemma lerp_start w y0 y1 : double w -> real_of w = 1 -> double y0 -> double y1 ->
  let v := f64_add (f64_mul w y0) (f64_mul (f64_sub f64_one w) y1) in double v /\ real_of v = real_of y0.
Proof.
  intros W Ew Y0 Y1. destruct double_one as [O Eo]. cbv zeta.
  destruct (mul_real w y0 W Y0) as [D1 E1]. { rewrite Ew, Rmult_1_l. apply double_fits; auto. }
  rewrite Ew, Rmult_1_l, (double_format y0 Y0) in E1.
  destruct (sub_real f64_one w O W) as [D2 E2]. { rewrite Ew, Eo, Rminus_eq_0. apply fits_0. }
  rewrite Ew, Eo, Rminus_eq_0, nearest_0 in E2.
  destruct (mul_real _ y1 D2 Y1) as [D3 E3]. { rewrite E2, Rmult_0_l. apply fits_0. }
  rewrite E2, Rmult_0_l, nearest_0 in E3.
  destruct (add_real _ _ D1 D3) as [D4 E4]. { rewrite E1, E3, Rplus_0_r. apply double_fits; auto. }
  rewrite E1, E3, Rplus_0_r, (double_format y0 Y0) in E4. auto.
Qed.

Lemma lerp_end w y0 y1 : double w -> real_of w = 0 -> double y0 -> double y1 ->
  let v := f64_add (f64_mul w y0) (f64_mul (f64_sub f64_one w) y1) in double v /\ real_of v = real_of y1.
Proof.
  intros W Ew Y0 Y1. destruct double_one as [O Eo]. cbv zeta.
  destruct (mul_real w y0 W Y0) as [D1 E1]. { rewrite Ew, Rmult_0_l. apply fits_0. }
  rewrite Ew, Rmult_0_l, nearest_0 in E1.
  destruct (sub_real f64_one w O W) as [D2 E2]. { rewrite Ew, Eo, Rminus_0_r. apply fits_1. }
  rewrite Ew, Eo, Rminus_0_r, nearest_1 in E2.
  destruct (mul_real _ y1 D2 Y1) as [D3 E3]. { rewrite E2, Rmult_1_l. apply double_fits; auto. }
  rewrite E2, Rmult_1_l, (double_format y1 Y1) in E3.
  destruct (add_real _ _ D1 D3) as [D4 E4]. { rewrite E1, E3, Rplus_0_l. apply double_fits; auto. }
  rewrite E1, E3, Rplus_0_l, (double_format y1 Y1) in E4. auto.
Qed.

Lemma interp_start E i r : cos_ok E -> double r -> real_of r = 0 ->
  double (interp_fn (f64_ops E) i r) /\ real_of (interp_fn (f64_ops E) i r) = 1.
Proof.
  intros [C0 _] D Er. destruct double_one as [O Eo]. destruct i.
  - cbn [interp_fn f64_ops n_sub n_one]. destruct (sub_real f64_one r O D) as [D2 E2].
    { rewrite Er, Eo, Rminus_0_r. apply fits_1. }
    rewrite Er, Eo, Rminus_0_r, nearest_1 in E2. auto.
  - destruct (real_zero r D Er) as [b ->]. cbn [interp_fn f64_ops n_cosw].
    replace (f64_mul (S754_zero b) f64_pi) with (S754_zero b) by (destruct b; reflexivity).
    rewrite C0. exact double_one.
  - exact double_one.
Qed.

Lemma interp_end E i r : cos_ok E -> double r -> real_of r = 1 -> i <> IStep ->
  double (interp_fn (f64_ops E) i r) /\ real_of (interp_fn (f64_ops E) i r) = 0.
Proof.
  intros [_ C1] D Er NS. destruct double_one as [O Eo]. destruct i; [| |congruence].
  - cbn [interp_fn f64_ops n_sub n_one]. destruct (sub_real f64_one r O D) as [D2 E2].
    { rewrite Er, Eo, Rminus_eq_0. apply fits_0. }
    rewrite Er, Eo, Rminus_eq_0, nearest_0 in E2. auto.
  - assert (r = f64_one) as -> by (apply real_inj; auto; lra).
    cbn [interp_fn f64_ops n_cosw].
    replace (f64_mul f64_one f64_pi) with f64_pi by (vm_compute; reflexivity).
    unfold f64_pi. rewrite C1. replace (f64_add (f64_mul (S754_finite true 4503599627370496 (-52)) f64_half) f64_half) with (S754_zero false)
      by (vm_compute; reflexivity). apply double_zero.
Qed.

(** [get_value] once the segment is chosen *)
Definition eval64 (E : env) (s : segment pyfloat) (x : pyfloat) : pyfloat :=
  let r := f64_div (f64_sub x (sg_start s)) (f64_sub (sg_end s) (sg_start s)) in
  let r := if SFltb r f64_zero then f64_zero else if SFltb f64_one r then f64_one else r in
  let w := interp_fn (f64_ops E) (sg_interp s) r in
  f64_add (f64_mul w (sg_initial s)) (f64_mul (f64_sub f64_one w) (sg_final s)).

Lemma length_pos s : good_segment s -> let len := f64_sub (sg_end s) (sg_start s) in
  double len /\ real_of len = nearest (real_of (sg_end s) - real_of (sg_start s)) /\ 0 < real_of len.
Proof.
  intros (Ds & De & _ & _ & Ms & Me & L).
  destruct (sub_real (sg_end s) (sg_start s) De Ds) as [D E]; [apply moderate_sub; auto|].
  cbv zeta. rewrite E. split; [auto|]. split; [auto|]. apply sub_pos; auto.
Qed.

Lemma get_value_eval64 E p x s : pick_segment (f64_ops E) None (pw_segments p) x = Some s -> good_segment s ->
  get_value (f64_ops E) p x = Ok (eval64 E s x).
Proof.
  intros P G. unfold get_value. rewrite P. destruct (length_pos s G) as [D [_ L]].
  cbn [f64_ops n_sub n_is_zero n_div n_ltb n_zero n_one n_add n_mul].
  destruct (SFeqb (f64_sub (sg_end s) (sg_start s)) f64_zero) eqn:Z; [|reflexivity].
  apply eqb_real in Z; auto; [|apply double_zero]. destruct (double_zero false) as [_ Z0].
  unfold f64_zero in Z. rewrite Z0 in Z. lra.
Qed.

Lemma eval64_start E s x : cos_ok E -> good_segment s -> double x -> moderate x -> real_of x <= real_of (sg_start s) ->
  double (eval64 E s x) /\ real_of (eval64 E s x) = real_of (sg_initial s).
Proof.
  intros C G X M H. pose proof (length_pos s G) as [DL [EL PL]].
  destruct G as (Ds & De & Di & Df & Ms & Me & L).
  destruct (sub_real x (sg_start s) X Ds) as [Dn En]; [apply moderate_sub; auto|].
  assert (Nn : real_of (f64_sub x (sg_start s)) <= 0). { rewrite En, <- nearest_0. apply nearest_le. lra. }
  unfold eval64. set (n := f64_sub x (sg_start s)) in *. set (len := f64_sub (sg_end s) (sg_start s)) in *.
  assert (K : let r := f64_div n len in
    let r := if SFltb r f64_zero then f64_zero else if SFltb f64_one r then f64_one else r in double r /\ real_of r = 0).
  { cbv zeta. destruct (double_zero false) as [Dz Ez]. destruct double_one as [O Eo].
    destruct (div_real n len Dn DL PL) as [[F [Dr Er]]|[NF [_ Hn]]].
    - assert (real_of (f64_div n len) <= 0).
      { rewrite Er, <- nearest_0. apply nearest_le. unfold Rdiv.
        assert (0 < / real_of len) by (apply Rinv_0_lt_compat; auto).
        assert (0 <= (- real_of n) * / real_of len) by (apply Rmult_le_pos; lra). lra. }
      destruct (SFltb (f64_div n len) f64_zero) eqn:B1; [auto|].
      destruct (SFltb f64_one (f64_div n len)) eqn:B2.
      + apply ltb_real in B2; auto. lra.
      + split; [auto|]. destruct (Rlt_dec (real_of (f64_div n len)) 0) as [Q|Q]; [|lra].
        assert (SFltb (f64_div n len) f64_zero = true) by (apply ltb_real; auto; unfold f64_zero; lra). congruence.
    - destruct (Req_dec (real_of n) 0) as [Z|Z].
      + exfalso. apply NF. rewrite Z. unfold Rdiv. rewrite Rmult_0_l. apply fits_0.
      + rewrite Hn by lra. simpl. auto. }
  cbv zeta in K. destruct K as [Dr Er].
  set (r := if SFltb (f64_div n len) f64_zero then _ else _) in *.
  destruct (interp_start E (sg_interp s) r C Dr Er) as [Dw Ew]. apply lerp_start; auto.
Qed.

Lemma eval64_end E s x : cos_ok E -> good_segment s -> double x -> moderate x -> real_of (sg_end s) <= real_of x ->
  double (eval64 E s x) /\
  real_of (eval64 E s x) = real_of (match sg_interp s with IStep => sg_initial s | _ => sg_final s end).
Proof.
  intros C G X M H. pose proof (length_pos s G) as [DL [EL PL]].
  destruct G as (Ds & De & Di & Df & Ms & Me & L).
  destruct (sub_real x (sg_start s) X Ds) as [Dn En]; [apply moderate_sub; auto|].
  unfold eval64. set (n := f64_sub x (sg_start s)) in *. set (len := f64_sub (sg_end s) (sg_start s)) in *.
  assert (Nn : real_of len <= real_of n). { rewrite En, EL. apply nearest_le. lra. }
  assert (K : let r := f64_div n len in
    let r := if SFltb r f64_zero then f64_zero else if SFltb f64_one r then f64_one else r in double r /\ real_of r = 1).
  { cbv zeta. destruct (double_zero false) as [Dz Ez]. destruct double_one as [O Eo].
    destruct (div_real n len Dn DL PL) as [[F [Dr Er]]|[NF [Hp _]]].
    - assert (1 <= real_of (f64_div n len)).
      { rewrite Er, <- nearest_1. apply nearest_le. unfold Rdiv.
        assert (0 < / real_of len) by (apply Rinv_0_lt_compat; auto).
        assert (real_of len * / real_of len = 1) by (apply Rinv_r; lra).
        assert (0 <= (real_of n - real_of len) * / real_of len) by (apply Rmult_le_pos; lra). lra. }
      destruct (SFltb (f64_div n len) f64_zero) eqn:B1.
      + apply ltb_real in B1; auto. unfold f64_zero in B1. lra.
      + destruct (SFltb f64_one (f64_div n len)) eqn:B2; [auto|].
        split; [auto|]. destruct (Rlt_dec 1 (real_of (f64_div n len))) as [Q|Q]; [|lra].
        assert (SFltb f64_one (f64_div n len) = true) by (apply ltb_real; auto; lra). congruence.
    - rewrite Hp by lra. simpl. auto. }
  cbv zeta in K. destruct K as [Dr Er].
  set (r := if SFltb (f64_div n len) f64_zero then _ else _) in *.
  destruct (sg_interp s) eqn:I.
  - destruct (interp_end E ILin r C Dr Er) as [Dw Ew]; [discriminate|]. apply lerp_end; auto.
  - destruct (interp_end E ICos r C Dr Er) as [Dw Ew]; [discriminate|]. apply lerp_end; auto.
  - destruct double_one as [O Eo]. apply (lerp_start (interp_fn (f64_ops E) IStep r)); auto.
Qed.

Lemma pick64 E x l : forall cur, l <> [] -> double x -> (forall s, In s l -> good_segment s) ->
  exists pre s post, l = (pre ++ s :: post)%list /\ pick_segment (f64_ops E) cur l x = Some s /\
    (forall t, In t pre -> real_of (sg_end t) <= real_of x) /\ (real_of x < real_of (sg_end s) \/ post = []).
Proof.
  induction l as [|a r IH]; intros cur N X G; [congruence|].
  assert (Ga : good_segment a) by (apply G; left; auto). assert (De : double (sg_end a)) by apply Ga.
  cbn [pick_segment f64_ops n_ltb]. destruct (SFltb x (sg_end a)) eqn:L.
  - apply ltb_real in L; auto. exists [], a, r. simpl. intuition.
  - assert (L' : real_of (sg_end a) <= real_of x).
    { destruct (Rlt_dec (real_of x) (real_of (sg_end a))) as [Q|Q]; [|lra]. apply ltb_real in Q; auto. congruence. }
    destruct r as [|b r].
    + exists [], a, []. simpl. intuition.
    + destruct (IH (Some a)) as (pre & s & post & E1 & P & B & Q); [discriminate|auto|intros; apply G; right; auto|].
      exists (a :: pre), s, post. rewrite E1 in *. split; [reflexivity|]. split; [exact P|]. split; [|exact Q].
      intros t [<-|I]; [lra|auto].
Qed.

Lemma increasing64 l : (forall s, In s l -> good_segment s) -> increasing (map real_segment l).
Proof. intros G s I. apply in_map_iff in I. destruct I as [t [<- I]]. simpl. apply (G t I). Qed.

Lemma value64 E p : cos_ok E -> pw_segments p <> [] -> (forall s, In s (pw_segments p) -> good_segment s) ->
  connected (map real_segment (pw_segments p)) ->
  forall x, double x -> moderate x -> exists v, get_value (f64_ops E) p x = Ok v /\
    (forall s r, pw_segments p = s :: r -> real_of x <= real_of (sg_start s) -> double v /\ real_of v = real_of (sg_initial s)) /\
    (forall s, In s (pw_segments p) -> real_of x = real_of (sg_start s) -> double v /\ real_of v = real_of (sg_initial s)) /\
    (forall s r, pw_segments p = (r ++ [s])%list -> real_of (sg_end s) <= real_of x ->
       double v /\ real_of v = real_of (match sg_interp s with IStep => sg_initial s | _ => sg_final s end)).
Proof.
  intros C N G Cn x X M. pose proof (increasing64 _ G) as I.
  destruct (pick64 E x (pw_segments p) None N X G) as (pre & s & post & E1 & P & B & Q).
  assert (Gs : good_segment s) by (apply G; rewrite E1, in_app_iff; right; left; auto).
  exists (eval64 E s x). split; [apply get_value_eval64; auto|].
  rewrite E1, map_app in Cn, I. simpl in Cn, I.
  split; [|split].
  - intros s0 r E0 H. assert (G0 : good_segment s0) by (apply G; rewrite E0; left; auto).
    rewrite E0 in E1. destruct pre as [|a pre].
    + injection E1 as <- _. apply eval64_start; auto.
    + injection E1 as <- _. specialize (B s0 (or_introl eq_refl)). destruct G0 as (_ & _ & _ & _ & _ & _ & L). lra.
  - intros s' S H. pose proof (G s' S) as (_ & _ & _ & _ & _ & _ & L').
    rewrite E1 in S. apply in_app_iff in S. destruct S as [S|[<-|S]].
    + specialize (B s' S). lra.
    + apply eval64_start; auto. lra.
    + pose proof (connected_mid _ _ _ Cn I (real_segment s') (in_map real_segment _ _ S)) as K. simpl in K.
      destruct Q as [Q| ->]; [lra|destruct S].
  - intros s' r E' H.
    assert (S : In s' (s :: post) \/ In s' pre). { assert (In s' (pw_segments p)) by (rewrite E', in_app_iff; right; left; auto).
      rewrite E1, in_app_iff in H0. tauto. }
    destruct post as [|b post] using rev_ind.
    + rewrite E' in E1. apply app_inj_tail in E1. destruct E1 as [_ <-]. apply eval64_end; auto.
    + clear IHpost. destruct Q as [Q|Q]; [|destruct post; discriminate].
      rewrite E' in E1. replace (pre ++ s :: post ++ [b])%list with ((pre ++ s :: post) ++ [b])%list in E1
        by (rewrite <- app_assoc; reflexivity).
      apply app_inj_tail in E1. destruct E1 as [_ <-].
      assert (T : In (real_segment s') (map real_segment (post ++ [s'])%list)).
      { apply in_map. rewrite in_app_iff. right; left; reflexivity. }
      pose proof (connected_mid _ _ _ Cn I _ T) as K. simpl in K.
      assert (Gs' : good_segment s') by (apply G; rewrite E', in_app_iff; right; left; auto).
      destruct Gs' as (_ & _ & _ & _ & _ & _ & L). lra.
Qed.
