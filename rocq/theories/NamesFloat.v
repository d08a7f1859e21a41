(** NamesFloat.v -- the floating point table of [levenshtein] is exact. *)
From Coq Require Import Reals Lia Lra.
From Flocq Require Import Core BinarySingleNaN.
From Verif Require Import Base Value AFacts Sched Asdict FromDict Checker SpecNames NamesFacts SpecNum FloatFacts SpecSched FloatOps.

Local Open Scope nat_scope.

(** [f] is the number [n]/4 *)
Definition isq (f : pyfloat) (n : nat) : Prop := double f /\ real_of f = (INR n / 4)%R.

Definition small (n : nat) : Prop := (Z.of_nat n < 2 ^ 53)%Z.

Lemma nearest_q n : small n -> nearest (INR n / 4) = (INR n / 4)%R.
Proof.
  intros S. unfold nearest. apply round_generic; [apply valid_rnd_N|].
  apply generic_format_FLT. exists (Float radix2 (Z.of_nat n) (-2)).
  - unfold F2R. simpl. rewrite <- INR_IZR_INZ. lra.
  - simpl Fnum. rewrite Z.abs_eq by lia. exact S.
  - simpl. lia.
Qed.

Lemma fits_q n : small n -> fits (INR n / 4).
Proof.
  intros S. unfold fits. rewrite (nearest_q n S). rewrite Rabs_right.
  2:{ apply Rle_ge. pose proof (pos_INR n). lra. }
  apply Rlt_trans with (bpow radix2 53).
  - rewrite INR_IZR_INZ. replace (bpow radix2 53) with (IZR (2 ^ 53)) by reflexivity.
    apply Rle_lt_trans with (IZR (Z.of_nat n)); [|apply IZR_lt; exact S].
    assert (0 <= IZR (Z.of_nat n))%R by (apply IZR_le; lia). lra.
  - apply bpow_lt. lia.
Qed.

Lemma isq_add x y a b : isq x a -> isq y b -> small (a + b) -> isq (f64_add x y) (a + b).
Proof.
  intros [X Ex] [Y Ey] S.
  assert (E : (real_of x + real_of y = INR (a + b) / 4)%R) by (rewrite Ex, Ey, plus_INR; lra).
  destruct (add_real x y X Y) as [D R]; [rewrite E; now apply fits_q|].
  split; [exact D|]. rewrite R, E. now apply nearest_q.
Qed.

Lemma isq_ltb x y a b : isq x a -> isq y b -> SFltb x y = Nat.ltb a b.
Proof.
  intros [X Ex] [Y Ey]. pose proof (ltb_real x y X Y) as H. rewrite Ex, Ey in H.
  destruct (Nat.ltb_spec a b) as [L|L].
  - apply H. apply lt_INR in L. lra.
  - destruct (SFltb x y); [|reflexivity]. exfalso. apply le_INR in L. assert (INR a / 4 < INR b / 4)%R by now apply H. lra.
Qed.

Lemma isq_min2 x y a b : isq x a -> isq y b -> isq (py_min2 x y) (Nat.min a b).
Proof.
  intros X Y. unfold py_min2. rewrite (isq_ltb y x b a Y X). destruct (Nat.ltb_spec b a).
  - rewrite Nat.min_r by lia. exact Y.
  - rewrite Nat.min_l by lia. exact X.
Qed.

Lemma isq_one : isq f64_one 4.
Proof. destruct double_one as [D R]. split; [exact D|]. rewrite R. simpl. lra. Qed.
Lemma isq_zero : isq f64_zero 0.
Proof. destruct (double_zero false) as [D R]. split; [exact D|]. unfold f64_zero. rewrite R. simpl. lra. Qed.
Lemma isq_quarter : isq f64_quarter 1.
Proof. split; [split; reflexivity|]. unfold f64_quarter. rewrite real_finite. simpl. lra. Qed.

Lemma isq_cost a b : isq (substitution_cost a b) (qcost a b).
Proof.
  unfold substitution_cost, qcost. destruct (Ascii.eqb a b); [apply isq_zero|].
  destruct (Ascii.eqb (lower a) (lower b)); [apply isq_quarter|apply isq_one].
Qed.

Lemma nearest_nat n : small (4 * n) -> nearest (IZR (Z.of_nat n)) = IZR (Z.of_nat n).
Proof.
  intros S. rewrite <- INR_IZR_INZ. replace (INR n) with (INR (4 * n) / 4)%R by (rewrite mult_INR; simpl; lra).
  now apply nearest_q.
Qed.

Local Instance Hprec : FLX.Prec_gt_0 53 := eq_refl.
Local Instance Hmax : Prec_lt_emax 53 1024 := eq_refl.

Lemma isq_nat n : small (4 * n) -> isq (sf_of_Z (Z.of_nat n)) (4 * n).
Proof.
  intros S. unfold small in S. destruct (sf_of_Z_small (Z.of_nat n)) as [F R]; [lia|].
  split.
  - split; [|exact F]. unfold sf_of_Z. rewrite binary_normalize_equiv. apply valid_binary_B2SF.
  - rewrite R, mult_INR, (INR_IZR_INZ n). simpl. lra.
Qed.

(** reversed prefixes of [s], continuing the reversed prefix [q] *)
Fixpoint exts (q s : list ascii) : list (list ascii) :=
  match s with [] => [] | c :: r => (c :: q) :: exts (c :: q) r end.

Lemma exts_last q s d : last (q :: exts q s) d = (rev s ++ q)%list.
Proof.
  revert q. induction s as [|c s IH]; intros q; [reflexivity|].
  change (last ((c :: q) :: exts (c :: q) s) d = (rev (c :: s) ++ q)%list). rewrite IH. simpl.
  now rewrite <- app_assoc.
Qed.

Lemma exts_length q s : length (exts q s) = length s.
Proof. revert q. induction s; intros q; simpl; auto. Qed.

Lemma exts_in q s x : In x (exts q s) -> length x <= length q + length s.
Proof.
  revert q. induction s as [|c s IH]; intros q; [intros []|]. intros [<-|H]; simpl; [lia|].
  apply IH in H. simpl in H. lia.
Qed.

Definition row (f : list ascii -> nat) (qs : list (list ascii)) (fs : list pyfloat) : Prop :=
  Forall2 (fun x q => isq x (f q)) fs qs.

Definition within (N : nat) (p q : list ascii) : Prop := length p <= N /\ length q <= N.

Lemma dist_small N p q : small (4 * N + 8) -> within N p q -> dist p q <= 4 * N.
Proof. intros S [A B]. pose proof (dist_max p q). lia. Qed.

Lemma cells_ok N c1 p s2 : small (4 * N + 8) -> length p < N -> forall q prev left,
  length q + length s2 <= N ->
  row (dist p) (q :: exts q s2) prev -> isq left (dist (c1 :: p) q) ->
  row (dist (c1 :: p)) (exts q s2) (lev_cells c1 s2 prev left).
Proof.
  intros S P. induction s2 as [|c2 s2 IH]; intros q prev left L R Lf; [constructor|].
  cbn [exts] in R. inversion R as [|diag ? prev' ? Hd R']; subst. inversion R' as [|up ? rest ? Hu R'']; subst.
  cbn [lev_cells exts]. simpl in L.
  assert (HC : isq (py_min3 (f64_add up f64_one) (f64_add left f64_one) (f64_add diag (substitution_cost c1 c2)))
                   (dist (c1 :: p) (c2 :: q))).
  { rewrite dist_cons. unfold py_min3.
    assert (D1 : dist p (c2 :: q) <= 4 * N) by (apply dist_small; auto; split; simpl; lia).
    assert (D2 : dist (c1 :: p) q <= 4 * N) by (apply dist_small; auto; split; simpl; lia).
    assert (D3 : dist p q <= 4 * N) by (apply dist_small; auto; split; simpl; lia).
    pose proof (qcost_le c1 c2). unfold small in *.
    apply isq_min2; [apply isq_min2|].
    - apply isq_add; [exact Hu|apply isq_one|]. unfold small. lia.
    - apply isq_add; [exact Lf|apply isq_one|]. unfold small. lia.
    - apply isq_add; [exact Hd|apply isq_cost|]. unfold small. lia. }
  constructor; [exact HC|]. apply IH; [simpl; lia|exact R'|exact HC].
Qed.

Lemma rows_ok N s1 : forall p s2 prev, small (4 * N + 8) -> length p + length s1 <= N -> length s2 <= N ->
  row (dist p) ([] :: exts [] s2) prev ->
  row (dist (rev s1 ++ p)) ([] :: exts [] s2) (lev_rows s1 (length p) s2 prev).
Proof.
  induction s1 as [|c1 s1 IH]; intros p s2 prev S L L2 R; [exact R|].
  cbn [lev_rows rev]. rewrite <- app_assoc. change ([c1] ++ p)%list with (c1 :: p). simpl in L.
  assert (F : isq (sf_of_Z (Z.of_nat (Datatypes.S (length p)))) (dist (c1 :: p) [])).
  { rewrite dist_nil_r. apply isq_nat. unfold small in *. simpl length. lia. }
  apply (IH (c1 :: p)); [exact S|simpl; lia|exact L2|]. constructor; [exact F|].
  apply (cells_ok N); [exact S|lia|simpl; lia|exact R|exact F].
Qed.

Lemma row0_ok N s2 : small (4 * N + 8) -> length s2 <= N ->
  row (dist []) ([] :: exts [] s2) (map (fun j => sf_of_Z (Z.of_nat j)) (seq 0 (Datatypes.S (length s2)))).
Proof.
  intros S L.
  assert (H : forall s q, length q + length s <= N ->
    row (dist []) (q :: exts q s) (map (fun j => sf_of_Z (Z.of_nat j)) (seq (length q) (Datatypes.S (length s))))).
  { intros s. induction s as [|c s IH]; intros q Lq.
    - simpl. constructor; [|constructor]. rewrite dist_nil_l. apply isq_nat. unfold small in *. simpl in Lq. lia.
    - simpl in Lq. change (seq (length q) (Datatypes.S (length (c :: s)))) with (length q :: seq (length (c :: q)) (Datatypes.S (length s))).
      cbn [map exts]. constructor.
      + rewrite dist_nil_l. apply isq_nat. unfold small in *. lia.
      + apply IH. simpl. lia. }
  apply (H s2 []). simpl. exact L.
Qed.

Lemma row_last f qs fs d d' : row f qs fs -> qs <> [] -> isq (last fs d) (f (last qs d')).
Proof.
  intros R. induction R as [|x q fs qs H R IH]; intros N; [congruence|].
  destruct qs as [|q' qs].
  - inversion R; subst. exact H.
  - inversion R; subst. simpl in IH |- *. apply IH. discriminate.
Qed.

Definition lev_go (s1 s2 : list ascii) : pyfloat :=
  match s2 with
  | [] => sf_of_Z (Z.of_nat (length s1))
  | _ => last (lev_rows s1 0 s2
                 (map (fun j => sf_of_Z (Z.of_nat j)) (seq 0 (Datatypes.S (length s2))))) f64_zero
  end.

Lemma lev_unfold s t : levenshtein s t =
  if Nat.ltb (length (chars s)) (length (chars t)) then lev_go (chars t) (chars s) else lev_go (chars s) (chars t).
Proof. reflexivity. Qed.

Lemma lev_go_ok N s1 s2 : small (4 * N + 8) -> length s1 <= N -> length s2 <= N -> isq (lev_go s1 s2) (dist s1 s2).
Proof.
  intros S L1 L2. destruct s2 as [|c s2].
  - simpl. rewrite dist_nil_r. apply isq_nat. unfold small in *. lia.
  - set (t := c :: s2) in *.
    replace (lev_go s1 t) with (last (lev_rows s1 (length (@nil ascii)) t
      (map (fun j => sf_of_Z (Z.of_nat j)) (seq 0 (Datatypes.S (length t))))) f64_zero) by reflexivity.
    pose proof (rows_ok N s1 [] t _ S L1 L2 (row0_ok N t S L2)) as R.
    apply (row_last _ _ _ f64_zero []) in R; [|discriminate].
    rewrite exts_last, !app_nil_r, dist_rev in R. exact R.
Qed.

Lemma lev_ok s t : short s -> short t -> isq (levenshtein s t) (dist (chars s) (chars t)).
Proof.
  intros S T. unfold short in *. rewrite <- (chars_length s), <- (chars_length t) in *. rewrite lev_unfold.
  set (N := Nat.max (length (chars s)) (length (chars t))).
  assert (small (4 * N + 8)) by (unfold small; lia).
  destruct (Nat.ltb_spec (length (chars s)) (length (chars t))).
  - rewrite dist_sym. apply (lev_go_ok N); auto; lia.
  - apply (lev_go_ok N); auto; lia.
Qed.

Lemma isq_inj x y n : isq x n -> isq y n -> n <> 0 -> x = y.
Proof.
  intros [X Ex] [Y Ey] N. apply real_inj; auto; [congruence|]. rewrite Ex.
  assert (0 < INR n)%R by (apply lt_0_INR; lia). lra.
Qed.

Lemma lev_least s t : short s -> short t ->
  exists n, least_cost s t n /\ double (levenshtein s t) /\ real_of (levenshtein s t) = (INR n / 4)%R.
Proof.
  intros S T. exists (dist (chars s) (chars t)). split; [apply dist_least_cost|]. apply lev_ok; auto.
Qed.

Lemma lev_sym s t : short s -> short t -> levenshtein s t = levenshtein t s.
Proof.
  intros S T. destruct (Nat.eq_dec (dist (chars s) (chars t)) 0) as [E|E].
  - apply dist_0, chars_inj in E. now subst.
  - eapply isq_inj; [apply lev_ok; auto|rewrite dist_sym; apply lev_ok; auto|exact E].
Qed.

Lemma lev_zero s t : short s -> short t -> (SFeqb (levenshtein s t) f64_zero = true <-> s = t).
Proof.
  intros S T. destruct (lev_ok s t S T) as [D R]. destruct isq_zero as [D0 R0].
  rewrite (eqb_real _ _ D D0), R, R0. split.
  - intros E. apply chars_inj, dist_0. apply INR_eq. simpl in *. lra.
  - intros ->. assert (E : dist (chars t) (chars t) = 0) by now apply dist_0. now rewrite E.
Qed.

Lemma lev_bound s t : short s -> short t ->
  (0 <= real_of (levenshtein s t) <= INR (Nat.max (String.length s) (String.length t)))%R.
Proof.
  intros S T. destruct (lev_ok s t S T) as [D R]. rewrite R. pose proof (dist_max (chars s) (chars t)) as M.
  rewrite !chars_length in M. apply le_INR in M. rewrite mult_INR in M. simpl in M.
  pose proof (pos_INR (dist (chars s) (chars t))). lra.
Qed.

(** ** [name_similarity] *)
Lemma nearest_01 r : (0 <= r <= 1)%R -> (0 <= nearest r <= 1)%R.
Proof.
  intros [A B]. split.
  - rewrite <- nearest_0. now apply nearest_le.
  - rewrite <- nearest_1. now apply nearest_le.
Qed.

Lemma fits_01 r : (0 <= r <= 1)%R -> fits r.
Proof.
  intros H. unfold fits. pose proof (nearest_01 r H). rewrite Rabs_right by lra.
  apply Rle_lt_trans with 1%R; [lra|]. change 1%R with (bpow radix2 0). apply bpow_lt. lia.
Qed.

Lemma sim_rest s t : short s -> short t -> s <> t ->
  let x := f64_sub f64_one (f64_div (levenshtein s t)
             (sf_of_Z (Z.of_nat (Nat.max (String.length s) (String.length t))))) in
  double x /\ (0 <= real_of x <= 1)%R.
Proof.
  intros S T N x. subst x. set (m := Nat.max (String.length s) (String.length t)).
  assert (M : m <> 0).
  { unfold m. intros E. apply N. destruct s, t; simpl in E; auto; lia. }
  assert (Sm : small (4 * m)) by (unfold small, short in *; lia).
  destruct (isq_nat m Sm) as [Dm Rm]. assert (Em : real_of (sf_of_Z (Z.of_nat m)) = INR m) by (rewrite Rm, mult_INR; simpl; lra).
  assert (Pm : (0 < INR m)%R) by (apply lt_0_INR; lia).
  destruct (lev_ok s t S T) as [Dl _]. pose proof (lev_bound s t S T) as B. fold m in B.
  set (l := levenshtein s t) in *.
  assert (Q : (0 <= real_of l / INR m <= 1)%R).
  { split; [apply Rle_mult_inv_pos; lra|]. apply Rmult_le_reg_r with (INR m); [exact Pm|].
    unfold Rdiv. rewrite Rmult_assoc, Rinv_l by lra. lra. }
  destruct (div_real l (sf_of_Z (Z.of_nat m)) Dl Dm) as [[_ [Dd Rd]]|[F _]]; rewrite ?Em in *; [exact Pm| |].
  2:{ exfalso. apply F. now apply fits_01. }
  pose proof (nearest_01 _ Q) as Q'. rewrite <- Rd in Q'.
  destruct double_one as [D1 R1].
  assert (Q2 : (0 <= real_of f64_one - real_of (f64_div l (sf_of_Z (Z.of_nat m))) <= 1)%R) by (rewrite R1; lra).
  destruct (sub_real f64_one _ D1 Dd (fits_01 _ Q2)) as [Ds Rs].
  split; [exact Ds|]. rewrite Rs. now apply nearest_01.
Qed.

Lemma sim_sym s t : short s -> short t -> name_similarity s t = name_similarity t s.
Proof.
  intros S T. unfold name_similarity. rewrite (String.eqb_sym t s), (String.eqb_sym (replace_char "_" "" t)).
  rewrite (orb_comm (String.eqb t (initials s))). rewrite (lev_sym t s) by auto.
  rewrite (Nat.max_comm (String.length t)). reflexivity.
Qed.

Lemma sim_equal s : name_similarity s s = f64_1_1.
Proof. unfold name_similarity. now rewrite String.eqb_refl. Qed.

Lemma sim_range s t : short s -> short t -> s <> t ->
  double (name_similarity s t) /\ (0 <= real_of (name_similarity s t) <= 1)%R.
Proof.
  intros S T N. unfold name_similarity. rewrite (proj2 (String.eqb_neq s t) N).
  destruct double_one as [D1 R1].
  assert (O : double f64_one /\ (0 <= real_of f64_one <= 1)%R) by (split; [exact D1|rewrite R1; lra]).
  destruct (String.eqb (replace_char "_" "" s) (replace_char "_" "" t)); [exact O|].
  destruct (String.eqb s (initials t) || String.eqb t (initials s)); [exact O|].
  now apply sim_rest.
Qed.

Lemma f64_1_1_gt : double f64_1_1 /\ (1 < real_of f64_1_1)%R.
Proof. split; [split; reflexivity|]. unfold f64_1_1. rewrite real_finite. simpl. lra. Qed.

Lemma sim_eq_iff s t : short s -> short t -> (name_similarity s t = f64_1_1 <-> s = t).
Proof.
  intros S T. split; [|intros ->; apply sim_equal]. intros E. destruct (string_dec s t) as [->|N]; auto.
  destruct (sim_range s t S T N) as [_ B]. rewrite E in B. pose proof f64_1_1_gt. lra.
Qed.
