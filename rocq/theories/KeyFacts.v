(** KeyFacts.v -- the value of a schedule at the state's key (C38). *)
From Coq Require Import Reals Lia Lra.
From Flocq Require Import Core BinarySingleNaN.
From Verif Require Import Base Value Sched Types Asdict FromDict Manager SpecNum FloatFacts SpecSched SchedFacts FloatOps FloatLerp
  AFacts SpecTypes SpecState ResumeFacts ResumeProps SchedTree SpecKey.

Local Instance Hprec : FLX.Prec_gt_0 53 := eq_refl.
Local Instance Hmax : Prec_lt_emax 53 1024 := eq_refl.

Lemma sf_of_Z_double z : (Z.abs z <= 2 ^ 53)%Z -> double (sf_of_Z z) /\ real_of (sf_of_Z z) = IZR z.
Proof.
  intros Hz. destruct (sf_of_Z_small z Hz) as [H1 H2]. split; [|exact H2]. split; [|exact H1].
  unfold sf_of_Z. rewrite binary_normalize_equiv. apply valid_binary_B2SF.
Qed.

Lemma int_of_float_trunc f : finite f = true -> py_int_of_float f = Ok (Ztrunc (real_of f)).
Proof.
  assert (P : forall m e, (if (0 <=? e)%Z then (Zpos m * 2 ^ e)%Z else (Zpos m / 2 ^ (- e))%Z) = Ztrunc (F2R (Float radix2 (Zpos m) e))).
  { intros m e. unfold F2R. cbn [Fnum Fexp]. destruct (0 <=? e)%Z eqn:Ee.
    - apply Z.leb_le in Ee. change (2 ^ e)%Z with (Z.pow radix2 e). rewrite <- (IZR_Zpower radix2 e Ee), <- mult_IZR. now rewrite Ztrunc_IZR.
    - apply Z.leb_gt in Ee. assert (Hp : (0 <= - e)%Z) by lia. 
      replace (IZR (Zpos m) * bpow radix2 e)%R with (IZR (Zpos m) / IZR (2 ^ (- e)))%R.
      + rewrite Ztrunc_floor.
        * symmetry. apply Zfloor_div. assert (0 < 2 ^ (- e))%Z by (apply Z.pow_pos_nonneg; lia). lia.
        * apply Rmult_le_pos; [now apply IZR_le|]. apply Rlt_le, Rinv_0_lt_compat. apply IZR_lt. apply Z.pow_pos_nonneg; lia.
      + change (2 ^ (- e))%Z with (Z.pow radix2 (- e)). rewrite (IZR_Zpower radix2 (- e) Hp), bpow_opp. unfold Rdiv. now rewrite Rinv_inv. }
  destruct f as [s|s| |s m e]; try discriminate; intros _; cbn [py_int_of_float].
  - unfold real_of. cbn. change 0%R with (IZR 0). now rewrite Ztrunc_IZR.
  - rewrite P. unfold real_of. cbn [SF2R]. destruct s; [|reflexivity].
    rewrite F2R_cond_Zopp. cbn [cond_Ropp]. now rewrite Ztrunc_opp.
Qed.

Lemma float_of_Z z : double (sf_of_Z z) -> py_float_of_Z z = Ok (sf_of_Z z).
Proof. intros [_ F]. unfold py_float_of_Z. now destruct (sf_of_Z z). Qed.

(** a number as [get_value] sees it *)
Lemma key_number_ok x r : number x r -> exists f, key_number x = Ok f /\ double f /\ real_of f = r.
Proof.
  intros N. destruct N as [g D|z Z|b].
  - exists g. auto.
  - destruct (sf_of_Z_double z Z) as [D R]. exists (sf_of_Z z). split; [|auto]. unfold key_number. cbn [as_int]. now apply float_of_Z.
  - exists (sf_of_Z (if b then 1 else 0)%Z). assert (Z : (Z.abs (if b then 1 else 0) <= 2 ^ 53)%Z) by (destruct b; vm_compute; discriminate).
    destruct (sf_of_Z_double _ Z) as [D R]. split; [|split; [exact D|rewrite R; now destruct b]].
    unfold key_number. cbn [as_int]. now apply float_of_Z.
Qed.

(** where a number lies among the breakpoints *)
Lemma located (l : list (segment pyfloat)) x : l <> [] -> connected (map real_segment l) ->
  (forall s, In s l -> (real_of (sg_start s) < real_of (sg_end s))%R) ->
  (exists sg r, l = sg :: r /\ (x <= real_of (sg_start sg))%R) \/
  (exists sg, In sg l /\ (real_of (sg_start sg) <= x < real_of (sg_end sg))%R) \/
  (exists sg r, l = (r ++ [sg])%list /\ (real_of (sg_end sg) <= x)%R).
Proof.
  induction l as [|a [|b l] IH]; intros N C Inc; [now elim N| |].
  - destruct (Rle_or_lt x (real_of (sg_start a))); [left; eauto|]. destruct (Rlt_or_le x (real_of (sg_end a))).
    + right. left. exists a. split; [now left|]. lra.
    + right. right. exists a, []. auto.
  - destruct (Rle_or_lt x (real_of (sg_start a))); [left; eauto|]. destruct (Rlt_or_le x (real_of (sg_end a))).
    + right. left. exists a. split; [now left|]. lra.
    + destruct C as (C1 & _ & C). cbn [real_segment sg_start sg_end] in C1.
      destruct (IH) as [(sg & r & E & L)|[(sg & I & L)|(sg & r & E & L)]]; [discriminate|exact C|intros s I; apply Inc; now right| | |].
      * injection E as <- <-. right. left. exists b. split; [right; now left|]. pose proof (Inc b (or_intror (or_introl eq_refl))). lra.
      * right. left. exists sg. split; [now right|exact L].
      * right. right. exists sg, (a :: r). rewrite E. auto.
Qed.

Lemma value_computed E p x : cos_ok E -> cos_range E -> usable p -> connected (map real_segment (pw_segments p)) ->
  double x -> moderate x -> exists y, get_value (f64_ops E) p x = Ok y /\ double y /\ value_near p (real_of x) (real_of y).
Proof.
  intros C1 C2 [N G] Cn D M.
  assert (G' : forall s, In s (pw_segments p) -> good_segment s) by (intros s I; now apply G).
  destruct (value64 E p C1 N G' Cn x D M) as (y & Hy & B & A & L). exists y. split; [exact Hy|].
  assert (In' : forall sg, In sg (pw_segments p) -> (real_of (sg_start sg) <= real_of x < real_of (sg_end sg))%R -> double y /\
    between_up_to (slack (-50) sg) (real_of (sg_initial sg)) (real_of (sg_final sg)) (real_of y) /\
    (sg_interp sg = ILin -> (Rabs (real_of y - shape (real_segment sg) (real_of x)) <= slack (-48) sg)%R)).
  { intros sg I H. destruct (G sg I) as (_ & M1 & M2).
    destruct (inside_python E p sg x C2 G' Cn I M1 M2 D M H) as (z & Hz & P). rewrite Hy in Hz. injection Hz as <-. exact P. }
  split.
  - destruct (located (pw_segments p) (real_of x) N Cn) as [(sg & r & E1 & H)|[(sg & I & H)|(sg & r & E1 & H)]].
    + intros s I. apply G' in I. apply I.
    + eapply B; eauto.
    + eapply In'; eauto.
    + eapply L; eauto.
  - split; [intros sg r E1 H; eapply B; eauto|intros sg I H; eapply A; eauto|intros sg r E1 H; eapply L; eauto|intros sg I H; eapply In'; eauto].
Qed.

Lemma value_at_key E s n d x r : cos_ok E -> cos_range E -> usable (sch_pw s) -> connected (map real_segment (pw_segments (sch_pw s))) ->
  aget (pw_xname (sch_pw s)) d = Some x -> number x r -> (Rabs r <= bpow radix2 1022)%R ->
  exists y, double y /\ value_near (sch_pw s) r (real_of y) /\ schedule_value E s (VObj n d) = Ok (scheduled_value s y).
Proof.
  intros C1 C2 U Cn K Hn M. destruct (key_number_ok x r Hn) as (f & Hf & D & R).
  destruct (value_computed E (sch_pw s) f C1 C2 U Cn D) as (y & Hy & Dy & V); [unfold moderate; now rewrite R|].
  exists y. split; [exact Dy|]. split; [now rewrite <- R|]. unfold schedule_value. cbn [py_getattr rbind]. rewrite K. cbn [rbind].
  destruct U as [N _]. destruct (pw_segments (sch_pw s)) as [|sg l]; [now elim N|]. rewrite Hf. cbn [rbind]. rewrite Hy. cbn [rbind].
  unfold num_cast, scheduled_value. destruct (sch_int s); [|reflexivity]. rewrite int_of_float_trunc; [reflexivity|]. apply Dy.
Qed.

Lemma fits_parsed E tr : forall t v n p s, fits E n tr t v -> sched_at tr p = Some s -> parse_schedule (e_float E) (sch_unparsed s) = Ok (sch_pw s).
Proof.
  induction tr as [s0|l0 IH] using stree_ind'; intros t0 v0 n p s Hf Hp.
  - destruct p; [|discriminate]. injection Hp as ->. now destruct Hf as (_ & _ & _ & H & _).
  - destruct p as [|k p]; [discriminate|]. cbn [sched_at] in Hp. destruct (aget k l0) as [tr'|] eqn:Ek; [|discriminate].
    rewrite fits_node in Hf. rewrite Forall_forall in IH. assert (Hin := aget_some_in _ _ _ Ek).
    destruct (Hf k tr' Hin) as (c0 & d & fs0 & ft & fd & x & H1 & H2 & H3 & H4 & H5). eapply (IH (k, tr') Hin); eauto.
Qed.

Lemma number_fun x r r' : number x r -> number x r' -> r = r'.
Proof. intros H H'. destruct H; inversion H'; subst; reflexivity. Qed.

Lemma step_values E c fs v l n d : cos_ok E -> cos_range E -> persistable E false (TData c fs) -> holds (TData c fs) v ->
  fits E "" (SNode l) (TData c fs) v -> named "" (SNode l) ->
  (forall p s, sched_at (SNode l) p = Some s -> usable (sch_pw s) /\
     exists x r, aget (pw_xname (sch_pw s)) d = Some x /\ number x r /\ (Rabs r <= bpow radix2 1022)%R) ->
  exists v', apply_schedules E (VObj n d) l v = Ok v' /\ holds (TData c fs) v' /\
    (forall p s x r, sched_at (SNode l) p = Some s -> aget (pw_xname (sch_pw s)) d = Some x -> number x r ->
       exists y, double y /\ value_near (sch_pw s) r (real_of y) /\ field_at v' p = Some (scheduled_value s y)) /\
    (forall q, (forall p s, sched_at (SNode l) p = Some s -> ~ prefix_of p q /\ ~ prefix_of q p) -> field_at v' q = field_at v q).
Proof.
  intros C1 C2 Hp Hh Hf Hn K.
  assert (V : forall p s x r, sched_at (SNode l) p = Some s -> aget (pw_xname (sch_pw s)) d = Some x -> number x r ->
    exists y, double y /\ value_near (sch_pw s) r (real_of y) /\ schedule_value E s (VObj n d) = Ok (scheduled_value s y)).
  { intros p s x r Hs Hx Hr. destruct (K p s Hs) as (U & x' & r' & Hx' & Hr' & M). rewrite Hx in Hx'. injection Hx' as <-.
    rewrite (number_fun _ _ _ Hr' Hr) in M. eapply value_at_key; eauto. eapply parse_connected64. eapply fits_parsed; eauto. }
  destruct (step_total E c fs v l (VObj n d) Hp Hh Hf Hn) as (v' & H1 & H2 & _).
  { intros p s Hs. destruct (K p s Hs) as (U & x & r & Hx & Hr & M). destruct (V p s x r Hs Hx Hr) as (y & _ & _ & Hy). eauto. }
  exists v'. split; [exact H1|]. split; [exact H2|]. destruct (apply_sets _ _ _ _ _ Hn H1) as [A B]. split; [|exact B].
  intros p s x r Hs Hx Hr. destruct (V p s x r Hs Hx Hr) as (y & D & N & Hy). destruct (A p s Hs) as (z & Hz & F).
  rewrite Hy in Hz. injection Hz as <-. eauto.
Qed.
