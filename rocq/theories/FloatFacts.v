(** FloatFacts.v -- [spec_float] conversions and real numbers. *)
From Coq Require Import Reals Lia Lra Psatz.
From Flocq Require Import Core BinarySingleNaN.
From Verif Require Import Base Value Schema Rewrite Sched Types Asdict FromDict SpecTypes AFacts
  FromDictFacts SpecLoad LoadFacts LoadSound LoadProps SpecNum.

Local Instance Hprec : FLX.Prec_gt_0 53 := eq_refl.
Local Instance Hmax : Prec_lt_emax 53 1024 := eq_refl.

Lemma round_nearest_even_equiv s m l :
  SpecFloat.round_nearest_even m l = choice_mode mode_NE s m l.
Proof. case l; [reflexivity|intro c]. case c; [|reflexivity..]. now simpl; unfold Round.cond_incr; case Z.even. Qed.

Lemma binary_round_aux_equiv sx mx ex lx :
  SpecFloat.binary_round_aux 53 1024 sx mx ex lx = BinarySingleNaN.binary_round_aux 53 1024 mode_NE sx mx ex lx.
Proof.
  unfold SpecFloat.binary_round_aux, BinarySingleNaN.binary_round_aux. set (mrse' := SpecFloat.shr_fexp _ _ _ _ _).
  case mrse'; intros mrs' e'; simpl. now rewrite (round_nearest_even_equiv sx).
Qed.

Lemma binary_normalize_equiv m e szero :
  SpecFloat.binary_normalize 53 1024 m e szero = B2SF (BinarySingleNaN.binary_normalize 53 1024 Hprec Hmax mode_NE m e szero).
Proof.
  assert (R : forall s m e, SpecFloat.binary_round 53 1024 s m e = BinarySingleNaN.binary_round 53 1024 mode_NE s m e).
  { intros s m0 e0. unfold SpecFloat.binary_round, BinarySingleNaN.binary_round, BinarySingleNaN.shl_align_fexp.
    set (mez := shl_align _ _ _); case mez as [mz ez]. apply binary_round_aux_equiv. }
  case m as [|p|p]; [now simpl| |]; simpl; rewrite B2SF_SF2B; apply R.
Qed.

Lemma real_finite s m e : real_of (S754_finite s m e) = (IZR (cond_Zopp s (Zpos m)) * bpow radix2 e)%R.
Proof. reflexivity. Qed.

Lemma Z_eq_float_iff z f : Z_eq_float z f = true <-> is_integer f z.
Proof.
  unfold is_integer, finite. destruct f as [s|s| |s m e]; cbn [Z_eq_float is_finite_SF].
  - unfold real_of; cbn [SF2R]. rewrite Z.eqb_eq. split; [intros ->; split; reflexivity|intros [_ H]]. now apply eq_IZR.
  - split; [discriminate|intros [H _]; discriminate].
  - split; [discriminate|intros [H _]; discriminate].
  - rewrite real_finite. set (a := cond_Zopp s (Zpos m)).
    assert (Ha : (if s then Zneg m else Zpos m) = a) by (unfold a; destruct s; reflexivity). rewrite Ha.
    destruct (0 <=? e)%Z eqn:Ee.
    + apply Z.leb_le in Ee. rewrite Z.eqb_eq. rewrite <- (IZR_Zpower radix2 e Ee), <- mult_IZR.
      split; [intros ->; split; auto|intros [_ H]; apply eq_IZR in H; now symmetry].
    + apply Z.leb_gt in Ee. rewrite Z.eqb_eq. assert (Hp : (0 <= - e)%Z) by lia.
      assert (Hb : (bpow radix2 e * bpow radix2 (- e) = 1)%R) by (rewrite <- bpow_plus, Z.add_opp_diag_r; reflexivity).
      assert (Hi : bpow radix2 (- e) = IZR (2 ^ (- e))) by (symmetry; apply (IZR_Zpower radix2 (- e) Hp)).
      split.
      * intros H. split; auto. rewrite <- H, mult_IZR, <- Hi, Rmult_assoc, (Rmult_comm _ (bpow radix2 e)), Hb. ring.
      * intros [_ H]. apply eq_IZR. rewrite mult_IZR, <- Hi, <- H, Rmult_assoc, Hb. ring.
Qed.

Lemma sf_of_Z_nearest z :
  (finite (sf_of_Z z) = true /\ real_of (sf_of_Z z) = nearest (IZR z)) \/
  ((bpow radix2 1024 <= Rabs (nearest (IZR z)))%R /\ exists s, sf_of_Z z = S754_infinity s).
Proof.
  unfold sf_of_Z. rewrite binary_normalize_equiv.
  pose proof (binary_normalize_correct 53 1024 Hprec Hmax mode_NE z 0 false) as H. cbv zeta in H.
  assert (Hx : F2R (Float radix2 z 0) = IZR z) by (unfold F2R; simpl; ring). rewrite Hx in H.
  change (round radix2 (SpecFloat.fexp 53 1024) (round_mode mode_NE) (IZR z)) with (nearest (IZR z)) in H.
  destruct (Rlt_bool_spec (Rabs (nearest (IZR z))) (bpow radix2 1024)) as [Hl|Hl].
  - left. destruct H as (H1 & H2 & _). unfold finite, real_of. rewrite is_finite_SF_B2SF, SF2R_B2SF. auto.
  - right. split; auto. rewrite H. simpl. eexists. reflexivity.
Qed.

Lemma py_float_spec z f : py_float_of_Z z = Ok f <->
  f = sf_of_Z z /\ finite f = true /\ real_of f = nearest (IZR z).
Proof.
  unfold py_float_of_Z. destruct (sf_of_Z_nearest z) as [[H1 H2]|[H1 [s H2]]].
  - destruct (sf_of_Z z); try discriminate; split; intros H; try (injection H as <-; auto); destruct H as [-> _]; reflexivity.
  - rewrite H2. split; [discriminate|]. intros (-> & H3 & _). discriminate.
Qed.

Lemma py_float_overflow z e : py_float_of_Z z = Err e -> e = OverflowError /\ (bpow radix2 1024 <= Rabs (nearest (IZR z)))%R.
Proof.
  unfold py_float_of_Z. destruct (sf_of_Z_nearest z) as [[H1 H2]|[H1 [s H2]]].
  - destruct (sf_of_Z z); try discriminate.
  - rewrite H2. intros [= <-]. auto.
Qed.

Lemma nearest_small z : (Z.abs z <= 2 ^ 53)%Z -> nearest (IZR z) = IZR z.
Proof.
  intros Hz. apply round_generic; [apply valid_rnd_N|].
  destruct (Z.eq_dec (Z.abs z) (2 ^ 53)) as [He|He].
  - assert (Hc : IZR z = (IZR (Z.sgn z) * bpow radix2 53)%R).
    { change (bpow radix2 53) with (IZR (2 ^ 53)). rewrite <- mult_IZR. f_equal. rewrite <- He. now rewrite Z.mul_comm, Z.abs_sgn. }
    rewrite Hc. apply generic_format_FLT. apply (FLT_spec _ _ _ _ (Float radix2 (Z.sgn z) 53)); simpl; try lia. reflexivity.
  - apply generic_format_FLT. apply (FLT_spec _ _ _ _ (Float radix2 z 0)); simpl; try lia. unfold F2R; simpl; ring.
Qed.

Lemma sf_of_Z_small z : (Z.abs z <= 2 ^ 53)%Z -> is_integer (sf_of_Z z) z.
Proof.
  intros Hz. destruct (sf_of_Z_nearest z) as [[H1 H2]|[H1 _]].
  - split; auto. now rewrite H2, nearest_small.
  - exfalso. rewrite nearest_small in H1 by auto. rewrite <- abs_IZR in H1.
    assert ((IZR (Z.abs z) <= bpow radix2 53)%R).
    { change (bpow radix2 53) with (IZR (2 ^ 53)). now apply IZR_le. }
    assert ((bpow radix2 53 < bpow radix2 1024)%R) by (apply bpow_lt; lia). lra.
Qed.

(** the loader's view of numeric fields is the specification's *)
Lemma int_field_iff E allow ff ig x v : denotes E false allow ff ig TInt x v <-> int_field E x v.
Proof.
  destruct x; try reflexivity.
  - cbn. unfold float_is. split; intros (z & H1 & H2); exists z; split; auto; now apply Z_eq_float_iff.
  - cbn. destruct (has_char "@" s); [split; [intros [H _]|intros [H _]]; discriminate|]. unfold float_is.
    split; [intros (f & z & H1 & H2 & H3); split; auto|intros (_ & f & z & H1 & H2 & H3)];
      exists f, z; (split; [auto|]); (split; [|auto]); now apply Z_eq_float_iff.
Qed.

Lemma float_field_iff E allow ff ig x v : denotes E false allow ff ig TFloat x v -> float_field E x v.
Proof.
  destruct x; try (intros H; exact H).
  - cbn. intros (f & H1 & ->). exists f. split; auto. apply py_float_spec in H1 as (_ & H1 & H2).
    split; auto. rewrite H2. destruct b; apply nearest_small; lia.
  - cbn. intros (f & H1 & ->). exists f. apply py_float_spec in H1 as (_ & H1 & H2). auto.
  - cbn. destruct (has_char "@" s); [intros [H _]; discriminate|]. auto.
Qed.

Lemma float_accepts E allow ff ig z : (Rabs (nearest (IZR z)) < bpow radix2 1024)%R ->
  exists v, denotes E false allow ff ig TFloat (VInt z) v.
Proof.
  intros H. destruct (py_float_of_Z z) as [f|e] eqn:Ef.
  - exists (VFloat f). exists f. auto.
  - apply py_float_overflow in Ef as [_ Ef]. lra.
Qed.

Lemma load_field_unscheduled E c fs x items dir allow ig L n ft fd w :
  order_ok E -> loadable (TData c fs) -> filev x = true -> c_versioned c = None -> items_of x = Some items ->
  typed_load E (TData c fs) x dir None allow ig = Ok L -> l_sched L = [] ->
  aget n fs = Some (ft, fd) -> aget n items = Some w -> is_weak w = false ->
  exists o v, l_value L = VObj (c_name c) o /\ aget n o = Some v /\ denotes E false allow (is_some dir) false ft w v.
Proof.
  intros Ho Hl Hx Hc Hi H Hs Hn Hw Hww. destruct (load_means _ _ _ _ _ _ _ Ho Hl Hx H) as [_ G]. specialize (G Hs).
  destruct G as (y & it & o & G1 & G2 & G3 & _ & G4). cbn [deser_versioned] in G1. rewrite Hc in G1. injection G1 as <-.
  rewrite Hi in G2. injection G2 as <-.
  assert (Hk : map fst o = field_names fs).
  { clear -G4. revert o G4. induction fs as [|[k [t d]] fs IH]; intros [|[j v] o] H; try easy.
    destruct H as [[H1 _] H]. simpl in *. f_equal; auto. }
  apply aget_some_in in Hn. destruct (all2_in_l _ _ _ _ G4 Hn) as ([k v] & Hin & Hk' & Hv).
  cbn [fst snd] in *. subst k. rewrite Hw, Hww in Hv. exists o, v. split; auto. split; auto.
  apply in_nodup_aget; auto. unfold akeys. rewrite Hk. apply Hl.
Qed.

Lemma load_one_field E c n ft fd w v : order_ok E -> c_versioned c = None -> n <> "!__name__" -> loadable ft ->
  filev w = true -> is_weak w = false -> denotes E false false false false ft w v ->
  hs_loads E (TData c [(n, (ft, fd))]) (VDict [(n, w)]) None false = Ok (VObj (c_name c) [(n, v)]).
Proof.
  intros Ho Hc Hn Hl Hw Hww Hd. apply loads_iff; auto.
  - simpl. split; [constructor; [simpl; tauto|constructor]|]. split; [intros [->|[]]; tauto|]. rewrite Hc. split; [discriminate|auto].
  - apply filev_dict. split; [simpl; constructor; [simpl; tauto|constructor]|]. intros k y [H|[]]. injection H as <- <-. auto.
  - exists (VDict [(n, w)]), [(n, w)], [(n, v)]. cbn [deser_versioned]. rewrite Hc. split; auto. split; auto. split; auto. split.
    + intros k y [H|[]]. injection H as <- <-. right; right; left. simpl; auto.
    + simpl. rewrite String.eqb_refl, Hww. auto.
Qed.

Lemma num_accepted E c n fd : order_ok E -> c_versioned c = None -> n <> "!__name__" ->
  (forall w v, filev w = true -> is_weak w = false -> int_field E w v ->
     hs_loads E (TData c [(n, (TInt, fd))]) (VDict [(n, w)]) None false = Ok (VObj (c_name c) [(n, v)])) /\
  (forall z, (Rabs (nearest (IZR z)) < bpow radix2 1024)%R -> exists f,
     hs_loads E (TData c [(n, (TFloat, fd))]) (VDict [(n, VInt z)]) None false = Ok (VObj (c_name c) [(n, VFloat f)]) /\
     finite f = true /\ real_of f = nearest (IZR z)).
Proof.
  intros Ho Hc Hn. split.
  - intros w v H1 H2 H3. apply load_one_field; auto; [exact I|]. now apply int_field_iff.
  - intros z Hz. destruct (float_accepts E false false false z Hz) as [v Hv]. assert (Hv' := Hv).
    apply float_field_iff in Hv' as (f & -> & Hf). exists f. split; auto. apply load_one_field; auto. exact I.
Qed.

Lemma numeral_accepted E c n fd s z :
  order_ok E -> reads_numerals E -> c_versioned c = None -> n <> "!__name__" ->
  numeral s z -> has_char "@" s = false -> (Z.abs z <= 2 ^ 53)%Z ->
  hs_loads E (TData c [(n, (TInt, fd))]) (VDict [(n, VStr s)]) None false = Ok (VObj (c_name c) [(n, VInt z)]).
Proof.
  intros Ho HE Hc Hn Hs Ha Hz. apply load_one_field; auto; [exact I|]. apply int_field_iff. split; auto.
  exists (sf_of_Z z), z. split; [now apply HE|]. split; auto. now apply sf_of_Z_small.
Qed.
