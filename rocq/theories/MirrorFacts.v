(** MirrorFacts.v -- a rule does to the schema what it does to files (C25). *)
From Verif Require Import Base Value Schema Rewrite Sched Types FromDict Checker SpecTree SpecMirror AFacts RewriteFacts.

Lemma special_false k : special k = false -> k <> WEAK_REF /\ k <> "!__name__".
Proof. unfold special. intros H. apply Bool.orb_false_iff in H as [A B]. apply String.eqb_neq in A, B. auto. Qed.

Lemma weak_special k : k = WEAK_REF -> special k = true.
Proof. intros ->. reflexivity. Qed.

(** ** Optional sections *)
Lemma strip_unwrap t n fs ver : strip t = SStruct n fs ver -> unwrap_container t = SStruct n fs ver.
Proof. induction t; simpl; intros H; try discriminate; auto. Qed.

Lemma strip_rewrap t n fs ver n' fs' ver' :
  strip t = SStruct n fs ver -> strip (rewrap_container t (SStruct n' fs' ver')) = SStruct n' fs' ver'.
Proof. induction t; simpl; intros H; try discriminate; auto. Qed.

Lemma rewrap_rewrap t n fs ver n' fs' ver' u :
  strip t = SStruct n fs ver ->
  rewrap_container (rewrap_container t (SStruct n' fs' ver')) u = rewrap_container t u.
Proof. induction t; simpl; intros H; try discriminate; auto. now rewrite IHt. Qed.

Lemma fits_rewrap c t n fs ver u x : strip t = SStruct n fs ver -> fits c u x -> fits c (rewrap_container t u) x.
Proof. induction t; simpl; intros H F; try discriminate; auto. apply fi_some. auto. Qed.

Lemma fits_strip c t n fs ver x :
  fits c t x -> strip t = SStruct n fs ver ->
  (x = VNone /\ forall u, fits c (rewrap_container t u) VNone) \/
  exists m, x = VDict m /\ fits c (SStruct n fs ver) (VDict m).
Proof.
  induction t; simpl; intros F H; try discriminate.
  - right. inversion H; subst. inversion F; subst. eauto.
  - inversion F; subst.
    + left. split; auto. intros u. apply fi_none.
    + match goal with F1 : fits c t x |- _ => destruct (IHt F1 H) as [[-> G]|G] end; auto. left. split; auto. intros u. apply fi_none.
Qed.


Lemma optional_rewrap t n fs ver n' fs' ver' f :
  strip t = SStruct n fs ver -> optional t f ->
  ((forall k u g, aget k fs = Some (u, g) -> optional u g) -> forall k u g, aget k fs' = Some (u, g) -> optional u g) ->
  optional (rewrap_container t (SStruct n' fs' ver')) f.
Proof.
  intros S O H. inversion O; subst.
  - now apply op_default.
  - simpl in S. inversion S; subst. simpl. apply op_struct. apply H. auto.
Qed.

(** ** schema *)
Lemma remove_schema_ok p : forall n fs ver, p <> [] -> through (SStruct n fs ver) p ->
  exists fs', remove_schema (SStruct n fs ver) p = Ok (SStruct n fs' ver, field_at (SStruct n fs ver) p) /\
    NoDup (akeys fs') /\
    ((forall k t g, aget k fs = Some (t, g) -> optional t g) -> forall k t g, aget k fs' = Some (t, g) -> optional t g).
Proof.
  induction p as [|k p IH]; intros n fs ver Hp T; [congruence|].
  destruct T as (Sk & n0 & fs0 & ver0 & E & ND & T). simpl in E. inversion E; subst n0 fs0 ver0.
  destruct p as [|k2 r].
  - cbn [remove_schema field_at strip]. destruct (aget k fs) as [f|] eqn:A.
    + exists (adel k fs). repeat split; auto; [now apply nodup_adel|].
      intros H j t g J. destruct (String.eqb j k) eqn:Q.
      * apply String.eqb_eq in Q; subst. rewrite aget_adel_same in J by auto. discriminate.
      * apply String.eqb_neq in Q. rewrite aget_adel_other in J by auto. eauto.
    + exists fs. repeat split; auto.
  - change (remove_schema (SStruct n fs ver) (k :: k2 :: r)) with
      (match aget k fs with
       | None => Ok (SStruct n fs ver, None)
       | Some (t, m) => let* ur := remove_schema (unwrap_container t) (k2 :: r) in
                        Ok (SStruct n (aset k (rewrap_container t (fst ur), m) fs) ver, snd ur)
       end).
    change (field_at (SStruct n fs ver) (k :: k2 :: r)) with
      (match aget k fs with Some (t, _) => field_at t (k2 :: r) | None => None end).
    destruct (aget k fs) as [[t g]|] eqn:A; [|exists fs; repeat split; auto].
    specialize (T _ _ eq_refl). assert (T' := T). destruct T' as (S2 & n2 & fs2 & ver2 & E2 & ND2 & T2).
    rewrite (strip_unwrap _ _ _ _ E2).
    destruct (IH n2 fs2 ver2) as (fs' & R & N' & O); [discriminate| |].
    { split; auto. exists n2, fs2, ver2. auto. }
    rewrite R. cbn [rbind fst snd].
    exists (aset k (rewrap_container t (SStruct n2 fs' ver2), g) fs). repeat split.
    + f_equal. f_equal. cbn [field_at]. rewrite E2. reflexivity.
    + now apply nodup_aset.
    + intros H j u h J. rewrite aget_aset in J. destruct (String.eqb j k) eqn:Q; eauto.
      injection J as <- <-. eapply optional_rewrap; eauto.
Qed.

Definition empty_section : sty := SStruct "" [] (Some 0%Z).

Lemma insert_schema_cons n fs ver k k2 r x :
  insert_schema (SStruct n fs ver) (k :: k2 :: r) x =
  match aget k fs with
  | Some (t, m) => let* u := insert_schema (unwrap_container t) (k2 :: r) x in
                   Ok (SStruct n (aset k (rewrap_container t u, m) fs) ver)
  | None => let* u := insert_schema empty_section (k2 :: r) x in
            Ok (SStruct n (aset k (u, mkF k VNone false None) fs) ver)
  end.
Proof.
  change (insert_schema (SStruct n fs ver) (k :: k2 :: r) x) with
    (let fs1 := if amem k fs then fs else aset k (SStruct "" [] (Some 0%Z), mkF k VNone false None) fs in
     match aget k fs1 with
     | None => Ok (SStruct n fs ver)
     | Some (t, m) => let* u := insert_schema (unwrap_container t) (k2 :: r) x in
                      Ok (SStruct n (aset k (rewrap_container t u, m) fs1) ver)
     end).
  cbv zeta. rewrite amem_aget. destruct (aget k fs) as [[t g]|] eqn:A.
  - rewrite A. reflexivity.
  - rewrite aget_aset_same. cbn [unwrap_container rewrap_container]. unfold empty_section.
    destruct (insert_schema _ (k2 :: r) x); cbn [rbind]; auto. now rewrite aset_aset.
Qed.

Lemma empty_through p : plain p -> through empty_section p.
Proof.
  destruct p as [|k p]; simpl; auto. intros [A _]. split; auto. do 3 eexists.
  split; [reflexivity|]. split; [constructor|]. intros; discriminate.
Qed.

Lemma insert_schema_ok p : forall n fs ver t f, p <> [] -> plain p -> through (SStruct n fs ver) p ->
  exists fs', insert_schema (SStruct n fs ver) p (t, f) = Ok (SStruct n fs' ver) /\ NoDup (akeys fs') /\
    (optional t f -> (forall k u g, aget k fs = Some (u, g) -> optional u g) ->
     forall k u g, aget k fs' = Some (u, g) -> optional u g).
Proof.
  induction p as [|k p IH]; intros n fs ver t f Hp P T; [congruence|].
  destruct T as (Sk & n0 & fs0 & ver0 & E & ND & T). simpl in E. inversion E; subst n0 fs0 ver0. destruct P as [_ P].
  destruct p as [|k2 r].
  - cbn [insert_schema]. exists (aset k (t, f) fs). repeat split; [now apply nodup_aset|].
    intros O H j u g J. rewrite aget_aset in J. destruct (String.eqb j k); eauto. now injection J as <- <-.
  - rewrite insert_schema_cons. destruct (aget k fs) as [[t1 g]|] eqn:A.
    + specialize (T _ _ eq_refl). assert (T' := T). destruct T' as (S2 & n2 & fs2 & ver2 & E2 & ND2 & T2).
      rewrite (strip_unwrap _ _ _ _ E2).
      destruct (IH n2 fs2 ver2 t f) as (fs' & R & N' & O); [discriminate|exact P| |].
      { split; auto. exists n2, fs2, ver2. auto. }
      rewrite R. cbn [rbind]. eexists. split; [reflexivity|]. split; [now apply nodup_aset|].
      intros Q H j u h J. rewrite aget_aset in J. destruct (String.eqb j k) eqn:Z; eauto.
      injection J as <- <-. eapply optional_rewrap; eauto.
    + destruct (IH "" [] (Some 0%Z) t f) as (fs' & R & N' & O); [discriminate|exact P|now apply empty_through|].
      unfold empty_section. rewrite R. cbn [rbind]. eexists. split; [reflexivity|]. split; [now apply nodup_aset|].
      intros Q H j u h J. rewrite aget_aset in J. destruct (String.eqb j k) eqn:Z; eauto.
      injection J as <- <-. apply op_struct. apply O; auto. intros; discriminate.
Qed.

(** ** removing *)
Lemma not_given_none m k : aget k m = None -> not_given m k.
Proof. intros A v H. congruence. Qed.

Lemma not_given_same m m' k : aget k m' = aget k m -> not_given m' k -> not_given m k.
Proof. intros A H v V. apply H. congruence. Qed.

(** changing one field of the schema and its value *)
Lemma fits_change c n fs ver m k fs2 m2 :
  fits c (SStruct n fs ver) (VDict m) -> special k = false -> NoDup (akeys fs2) -> NoDup (akeys m2) ->
  (forall j, j <> k -> aget j fs2 = aget j fs) -> (forall j, j <> k -> aget j m2 = aget j m) ->
  (forall w, aget k m2 = Some w -> exists u g, aget k fs2 = Some (u, g) /\ fits c u w) ->
  (c = true -> amem WEAK_REF m = false -> forall u g, aget k fs2 = Some (u, g) -> not_given m2 k -> optional u g) ->
  fits c (SStruct n fs2 ver) (VDict m2).
Proof.
  intros F Sk N2 M2 A B V O. inversion F as [| | | | | | | | | | | | |? ? ? ? ND NM K T C]; subst.
  apply fi_struct; auto.
  - intros j J Sj. destruct (String.eqb j k) eqn:E.
    + apply String.eqb_eq in E; subst. apply inkeys_aget in J as [w J]. destruct (V _ J) as (u & g & Q & _).
      eapply aget_some_inkeys; eauto.
    + apply String.eqb_neq in E. apply inkeys_aget in J as [w J]. rewrite B in J by auto.
      assert (Q : In j (akeys fs)) by (apply K; auto; eapply aget_some_inkeys; eauto).
      apply inkeys_aget in Q as [x Q]. rewrite <- A in Q by auto. eapply aget_some_inkeys; eauto.
  - intros j v t f J Sj Q. destruct (String.eqb j k) eqn:E.
    + apply String.eqb_eq in E; subst. destruct (V _ J) as (u & g & Q' & Fu). rewrite Q in Q'. now injection Q' as <- <-.
    + apply String.eqb_neq in E. rewrite B in J by auto. rewrite A in Q by auto. eauto.
  - intros Ct W. assert (W' : amem WEAK_REF m = false).
    { rewrite amem_aget in *. rewrite <- B; auto. apply special_false in Sk. intuition congruence. }
    intros j t f J G. destruct (String.eqb j k) eqn:E.
    + apply String.eqb_eq in E; subst. eauto.
    + apply String.eqb_neq in E. rewrite A in J by auto. eapply C; eauto. eapply not_given_same; [symmetry; eauto|].
      intros v Hv. apply G. now rewrite B.
Qed.

Lemma aset_others {A} k (x : A) d j : j <> k -> aget j (aset k x d) = aget j d.
Proof. intros. now rewrite aget_aset_other. Qed.
Lemma adel_others {A} k (d : list (string * A)) j : j <> k -> aget j (adel k d) = aget j d.
Proof. intros. now rewrite aget_adel_other. Qed.
#[local] Hint Resolve aset_others adel_others nodup_aset nodup_adel : mirror.

Ltac change_at k :=
  eapply (fits_change _ _ _ _ _ k); [eassumption|assumption|now auto 4 with mirror|now auto 4 with mirror|now auto 4 with mirror|now auto 4 with mirror| |].

Lemma given_root m q k p : (forall q, proper_prefix q (k :: p) -> given (VDict m) q) -> proper_prefix q p ->
  exists c, aget k m = Some c /\ given c q.
Proof.
  intros G Q. assert (R := G (k :: q) (proper_cons _ _ _ Q)). apply given_cons in R. exact R.
Qed.

Lemma given_not_weak c : given c [] -> is_weak c = false /\ exists m, c = VDict m.
Proof.
  intros (m & L & W). simpl in L. injection L as ->. split; eauto. simpl. rewrite amem_aget.
  change "!weak ref" with WEAK_REF in W. now rewrite W.
Qed.

Lemma remove_mirror c p : forall n fs ver m, p <> [] -> through (SStruct n fs ver) p ->
  fits c (SStruct n fs ver) (VDict m) ->
  exists fs' m', remove_schema (SStruct n fs ver) p = Ok (SStruct n fs' ver, field_at (SStruct n fs ver) p) /\
    remove_path (VDict m) p = Ok (VDict m', lookup (VDict m) p) /\
    fits c (SStruct n fs' ver) (VDict m') /\ amem WEAK_REF m' = amem WEAK_REF m /\
    (forall v, lookup (VDict m) p = Some v -> exists t f, field_at (SStruct n fs ver) p = Some (t, f) /\ fits c t v) /\
    (c = true -> (forall q, proper_prefix q p -> given (VDict m) q) ->
     (forall v, lookup (VDict m) p = Some v -> is_weak v = true) ->
     forall t f, field_at (SStruct n fs ver) p = Some (t, f) -> optional t f) /\
    (lookup (VDict m) p = None -> m' = m).
Proof.
  induction p as [|k p IH]; intros n fs ver m Hp T F; [congruence|].
  assert (T' := T). destruct T' as (Sk & n0 & fs0 & ver0 & E & ND & Tk). simpl in E. inversion E; subst n0 fs0 ver0.
  assert (Nw : k <> WEAK_REF) by now apply special_false.
  inversion F as [| | | | | | | | | | | | |? ? ? ? _ NM K Tv C]; subst.
  destruct p as [|k2 r].
  - cbn [remove_schema remove_path field_at strip lookup].
    assert (B : forall v, (match aget k m with Some c => Some c | None => None end) = Some v ->
              exists t f, aget k fs = Some (t, f) /\ fits c t v).
    { intros v. destruct (aget k m) as [w|] eqn:A; intros V; inversion V; subst.
      assert (J : In k (akeys fs)) by (apply K; auto; eapply aget_some_inkeys; eauto).
      apply inkeys_aget in J as [[t f] J]. exists t, f. eauto. }
    assert (Q : c = true -> (forall q, proper_prefix q [k] -> given (VDict m) q) ->
      (forall v, match aget k m with Some c => Some c | None => None end = Some v -> is_weak v = true) ->
      forall t f, aget k fs = Some (t, f) -> optional t f).
    { intros Ct G W t f A. eapply C; eauto.
      - assert (R := G [] (proper_nil _ _)). apply given_not_weak in R as [R _]. exact R.
      - intros v V. apply W. now rewrite V. }
    destruct (aget k fs) as [x|] eqn:A.
    + exists (adel k fs). destruct (aget k m) as [w|] eqn:Am.
      * exists (adel k m). repeat split; auto; [|rewrite !amem_aget, aget_adel_other; auto|discriminate].
        change_at k.
        -- intros w' H. rewrite aget_adel_same in H by auto. discriminate.
        -- intros _ _ u g H. rewrite aget_adel_same in H by auto. discriminate.
      * exists m. repeat split; auto.
        change_at k; [congruence|].
        intros _ _ u g H. rewrite aget_adel_same in H by auto. discriminate.
    + assert (Am : aget k m = None).
      { destruct (aget k m) as [w|] eqn:Am; auto. destruct (B w eq_refl) as (t & f & H & _). discriminate. }
      exists fs, m. rewrite Am. repeat split; auto; intros; try discriminate.
  - change (remove_schema (SStruct n fs ver) (k :: k2 :: r)) with
      (match aget k fs with
       | None => Ok (SStruct n fs ver, None)
       | Some (t, m) => let* ur := remove_schema (unwrap_container t) (k2 :: r) in
                        Ok (SStruct n (aset k (rewrap_container t (fst ur), m) fs) ver, snd ur)
       end).
    change (field_at (SStruct n fs ver) (k :: k2 :: r)) with
      (match aget k fs with Some (t, _) => field_at t (k2 :: r) | None => None end).
    change (lookup (VDict m) (k :: k2 :: r)) with (match aget k m with Some c => lookup c (k2 :: r) | None => None end).
    rewrite remove_cons_dict.
    destruct (aget k fs) as [[t g]|] eqn:A.
    2:{ assert (Am : aget k m = None).
        { destruct (aget k m) as [w|] eqn:Am; auto. exfalso. eapply aget_none_notin; [exact A|]. apply K; auto.
          eapply aget_some_inkeys; eauto. }
        rewrite Am. exists fs, m. repeat split; auto; intros; discriminate. }
    specialize (Tk _ _ eq_refl). assert (T2 := Tk). destruct T2 as (S2 & n2 & fs2 & ver2 & E2 & ND2 & T2).
    rewrite (strip_unwrap _ _ _ _ E2).
    assert (Th : through (SStruct n2 fs2 ver2) (k2 :: r)) by (split; auto; exists n2, fs2, ver2; auto).
    assert (FA : field_at t (k2 :: r) = field_at (SStruct n2 fs2 ver2) (k2 :: r)).
    { cbn [field_at]. rewrite E2. reflexivity. }
    destruct (remove_schema_ok (k2 :: r) n2 fs2 ver2) as (fs' & R & N' & O); [discriminate|exact Th|].
    rewrite R. cbn [rbind fst snd]. rewrite FA.
    assert (Opt : c = true -> amem WEAK_REF m = false -> not_given m k -> optional (rewrap_container t (SStruct n2 fs' ver2)) g).
    { intros Ct W G. eapply optional_rewrap; eauto. }
    destruct (aget k m) as [w|] eqn:Am.
    + assert (Fw : fits c t w) by eauto.
      destruct (fits_strip _ _ _ _ _ _ Fw E2) as [[-> Fn]|[mc [-> Fs]]].
      * exists (aset k (rewrap_container t (SStruct n2 fs' ver2), g) fs), m. cbn [is_none lookup].
        repeat split; auto; try (intros; discriminate).
        -- change_at k.
           ++ intros w' H. exists (rewrap_container t (SStruct n2 fs' ver2)), g.
              split; [apply aget_aset_same|]. rewrite Am in H. injection H as <-. apply Fn.
           ++ intros Ct W u h H G. rewrite aget_aset_same in H. injection H as <- <-. auto.
        -- intros Ct G _ t' f' Ft. exfalso.
           destruct (given_root _ [] _ _ G (proper_nil _ _)) as (c0 & Hc & Gc).
           rewrite Am in Hc. injection Hc as <-. apply given_not_weak in Gc as [_ [m0 H0]]. discriminate.
      * cbn [is_none]. destruct (IH n2 fs2 ver2 mc) as (fs3 & mc' & R1 & R2 & F3 & W3 & V3 & C3 & M3); [discriminate|exact Th|exact Fs|].
        rewrite R in R1. injection R1 as <-. rewrite R2. cbn [rbind fst snd].
        exists (aset k (rewrap_container t (SStruct n2 fs' ver2), g) fs), (aset k (VDict mc') m).
        repeat split; auto; [|rewrite !amem_aget, aget_aset_other; auto| |
          intros L; rewrite (M3 L); now apply aset_same_id].
        -- change_at k.
           ++ intros w' H. exists (rewrap_container t (SStruct n2 fs' ver2)), g.
              split; [apply aget_aset_same|]. rewrite aget_aset_same in H. injection H as <-. eapply fits_rewrap; eauto.
           ++ intros Ct W u h H G. rewrite aget_aset_same in H. injection H as <- <-. apply Opt; auto.
              intros v Hv. rewrite Am in Hv. injection Hv as <-. specialize (G (VDict mc')). rewrite aget_aset_same in G.
              specialize (G eq_refl). simpl in *. congruence.
        -- intros Ct G W t' f' Ft. apply C3; auto. intros q Q.
           destruct (given_root _ _ _ _ G Q) as (c0 & Hc & Gc). rewrite Am in Hc. now injection Hc as <-.
    + exists (aset k (rewrap_container t (SStruct n2 fs' ver2), g) fs), m.
      repeat split; auto; try (intros; discriminate).
      * change_at k; [congruence|].
        intros Ct W u h H G. rewrite aget_aset_same in H. injection H as <- <-. auto.
      * intros Ct G _ t' f' Ft. exfalso.
        destruct (given_root _ [] _ _ G (proper_nil _ _)) as (c0 & Hc & Gc). congruence.
Qed.

(** ** inserting *)
Lemma fits_empty c n fs ver : NoDup (akeys fs) -> (c = true -> forall k t f, aget k fs = Some (t, f) -> optional t f) ->
  fits c (SStruct n fs ver) (VDict []).
Proof.
  intros ND O. apply fi_struct; auto.
  - constructor.
  - intros k [].
  - intros; discriminate.
  - intros Ct _ k t f A _. eauto.
Qed.

Lemma fits_mark c n fs ver : NoDup (akeys fs) -> fits c (SStruct n fs ver) (VDict [(WEAK_REF, VBool true)]).
Proof.
  intros ND. apply fi_struct; auto.
  - repeat constructor. intros [].
  - intros k [<-|[]] H. discriminate H.
  - intros k v t f H Sk. simpl in H. destruct (String.eqb k WEAK_REF) eqn:E; [|discriminate].
    apply String.eqb_eq in E. subst. discriminate.
  - intros _ H. discriminate.
Qed.

Lemma fits_unmark c n fs ver m : fits c (SStruct n fs ver) (VDict m) -> (c = true -> amem WEAK_REF m = false) ->
  fits c (SStruct n fs ver) (VDict (adel WEAK_REF m)).
Proof.
  intros F W. destruct (amem WEAK_REF m) eqn:E.
  - inversion F as [| | | | | | | | | | | | |? ? ? ? ND NM K T C]; subst. apply fi_struct; auto.
    + now apply nodup_adel.
    + intros k J Sk. apply K; auto. eapply in_akeys_adel; eauto.
    + intros k v t f J Sk A. rewrite aget_adel_other in J by now apply special_false. eauto.
    + intros ->. specialize (W eq_refl). discriminate.
  - apply amem_false in E. now rewrite adel_notin.
Qed.

Lemma insert_mirror c p : forall n fs ver m t f fs', p <> [] -> plain p -> through (SStruct n fs ver) p ->
  field_at (SStruct n fs ver) p = None -> fits c (SStruct n fs ver) (VDict m) ->
  insert_schema (SStruct n fs ver) p (t, f) = Ok (SStruct n fs' ver) ->
  ((c = true -> optional t f) -> fits c (SStruct n fs' ver) (VDict m)) /\
  (forall v cn, fits c t v ->
     (c = true -> cn = true -> given_or_none (SStruct n fs ver) (VDict m) p) ->
     (c = true -> cn = false \/ is_weak v = true -> optional t f) ->
     exists m', insert_path (VDict m) p v cn = Ok (VDict m') /\ fits c (SStruct n fs' ver) (VDict m') /\
       amem WEAK_REF m' = amem WEAK_REF m).
Proof.
  induction p as [|k p IH]; intros n fs ver m t f fs' Hp P Th N F I; [congruence|].
  assert (T' := Th). destruct T' as (Sk & n0 & fs0 & ver0 & E & ND & Tk). simpl in E. inversion E; subst n0 fs0 ver0.
  destruct P as [_ P]. assert (Nw : k <> WEAK_REF) by now apply special_false.
  inversion F as [| | | | | | | | | | | | |? ? ? ? _ NM K Tv C]; subst.
  destruct p as [|k2 r].
  - cbn [insert_schema] in I. injection I as <-. cbn [field_at strip] in N.
    assert (Am : aget k m = None).
    { destruct (aget k m) as [w|] eqn:Am; auto. exfalso. eapply aget_none_notin; [exact N|]. apply K; auto.
      eapply aget_some_inkeys; eauto. }
    split.
    + intros O. change_at k; [congruence|].
      intros Ct _ u g H _. rewrite aget_aset_same in H. injection H as <- <-. auto.
    + intros v cn Fv G O. cbn [insert_path py_setitem]. eexists. split; [reflexivity|]. split.
      * change_at k.
        -- intros w H. rewrite aget_aset_same in H. injection H as <-. rewrite aget_aset_same. eauto.
        -- intros Ct _ u g H Gv. rewrite aget_aset_same in H. injection H as <- <-. apply O; auto. right. apply Gv.
           now rewrite aget_aset_same.
      * rewrite !amem_aget, aget_aset_other; auto.
  - rewrite insert_schema_cons in I.
    change (field_at (SStruct n fs ver) (k :: k2 :: r)) with
      (match aget k fs with Some (t, _) => field_at t (k2 :: r) | None => None end) in N.
    destruct (aget k fs) as [[t1 g]|] eqn:A.
    + specialize (Tk _ _ eq_refl). assert (T2 := Tk). destruct T2 as (S2 & n2 & fs2 & ver2 & E2 & ND2 & T2).
      rewrite (strip_unwrap _ _ _ _ E2) in I.
      assert (Th2 : through (SStruct n2 fs2 ver2) (k2 :: r)) by (split; auto; exists n2, fs2, ver2; auto).
      assert (FA : field_at (SStruct n2 fs2 ver2) (k2 :: r) = None).
      { cbn [field_at] in N |- *. rewrite E2 in N. exact N. }
      destruct (insert_schema_ok (k2 :: r) n2 fs2 ver2 t f) as (fs3 & R & N3 & O3); [discriminate|exact P|exact Th2|].
      rewrite R in I. cbn [rbind] in I. injection I as <-.
      assert (Opt : c = true -> amem WEAK_REF m = false -> not_given m k -> optional t f ->
                optional (rewrap_container t1 (SStruct n2 fs3 ver2)) g).
      { intros Ct W G O. eapply optional_rewrap; eauto. }
      assert (Inner : forall mc, fits c (SStruct n2 fs2 ver2) (VDict mc) ->
        ((c = true -> optional t f) -> fits c (SStruct n2 fs3 ver2) (VDict mc)) /\
        (forall v cn, fits c t v ->
           (c = true -> cn = true -> given_or_none (SStruct n2 fs2 ver2) (VDict mc) (k2 :: r)) ->
           (c = true -> cn = false \/ is_weak v = true -> optional t f) ->
           exists m', insert_path (VDict mc) (k2 :: r) v cn = Ok (VDict m') /\ fits c (SStruct n2 fs3 ver2) (VDict m') /\
             amem WEAK_REF m' = amem WEAK_REF mc)).
      { intros mc Fc. apply IH; auto. discriminate. }
      split.
      * intros O. change_at k.
        -- intros w H. rewrite aget_aset_same. do 2 eexists. split; [reflexivity|].
           destruct (fits_strip _ _ _ _ _ w (Tv _ _ _ _ H Sk A) E2) as [[-> Fn]|[mc [-> Fs]]]; auto.
           eapply fits_rewrap; eauto. now apply (Inner mc).
        -- intros Ct W u h H G. rewrite aget_aset_same in H. injection H as <- <-. auto.
      * intros v cn Fv G O. rewrite insert_cons_dict.
        destruct (aget k m) as [w|] eqn:Am.
        -- destruct (fits_strip _ _ _ _ _ w (Tv _ _ _ _ Am Sk A) E2) as [[-> Fn]|[mc [-> Fs]]].
           ++ eexists. split; [reflexivity|]. split; auto.
              change_at k.
              ** intros w H. rewrite aget_aset_same. do 2 eexists. split; [reflexivity|]. rewrite Am in H. injection H as <-. apply Fn.
              ** intros Ct W u h H Gk. rewrite aget_aset_same in H. injection H as <- <-.
                 specialize (Gk _ Am). discriminate.
           ++ assert (Fs' : fits c (SStruct n2 fs2 ver2) (VDict (if cn then adel WEAK_REF mc else mc))).
              { destruct cn; auto. apply fits_unmark; auto. intros Ct.
                destruct (G Ct eq_refl _ _ _ _ _ _ eq_refl A eq_refl) as (c0 & H0 & W0 & _).
                rewrite Am in H0. injection H0 as <-. exact W0. }
              assert (Dn : (if cn then VDict (adel WEAK_REF mc) else VDict mc) = VDict (if cn then adel WEAK_REF mc else mc)) by now destruct cn.
              rewrite Dn. destruct (Inner _ Fs') as [_ In2].
              destruct (In2 v cn Fv) as (m' & I' & F' & W'); auto.
              { intros Ct ->. destruct (G Ct eq_refl _ _ _ _ _ _ eq_refl A eq_refl) as (c0 & H0 & W0 & G0).
                rewrite Am in H0. injection H0 as <-. simpl in W0. apply amem_false in W0. rewrite adel_notin by exact W0.
                revert G0. cbn [given_or_none]. rewrite E2. cbn [strip]. auto. }
              rewrite I'. cbn [rbind]. eexists. split; [reflexivity|].
              split; [|rewrite !amem_aget, aget_aset_other; auto].
              change_at k.
              ** intros w H. rewrite aget_aset_same in H. injection H as <-. rewrite aget_aset_same. do 2 eexists. split; [reflexivity|].
                 eapply fits_rewrap; eauto.
              ** intros Ct W u h H Gk. rewrite aget_aset_same in H. injection H as <- <-.
                 specialize (Gk (VDict m')). rewrite aget_aset_same in Gk. specialize (Gk eq_refl). simpl in Gk.
                 destruct cn.
                 --- rewrite W' in Gk. apply amem_true in Gk. exfalso.
                     destruct (G Ct eq_refl _ _ _ _ _ _ eq_refl A eq_refl) as (c0 & H0 & W0 & G0).
                     rewrite Am in H0. injection H0 as <-. simpl in W0. apply amem_false in W0.
                     apply W0. eapply in_akeys_adel; eauto.
                 --- apply Opt; auto. intros x Hx. rewrite Am in Hx. injection Hx as <-. simpl. congruence.
        -- destruct cn.
           ++ assert (Cf : c = false).
              { destruct c; auto. destruct (G eq_refl eq_refl _ _ _ _ _ _ eq_refl A eq_refl) as (c0 & H0 & _). congruence. }
              destruct (Inner []) as [_ In2]; [apply fits_empty; auto; congruence|].
              destruct (In2 v true Fv) as (m' & I' & F' & W'); try congruence.
              rewrite I'. cbn [rbind]. eexists. split; [reflexivity|].
              split; [|rewrite !amem_aget, aget_aset_other; auto].
              change_at k; [|congruence].
              intros w H. rewrite aget_aset_same in H. injection H as <-. rewrite aget_aset_same. do 2 eexists. split; [reflexivity|].
              eapply fits_rewrap; eauto.
           ++ destruct (Inner [(WEAK_REF, VBool true)]) as [_ In2]; [now apply fits_mark|].
              destruct (In2 v false Fv) as (m' & I' & F' & W'); try congruence; auto.
              rewrite I'. cbn [rbind]. eexists. split; [reflexivity|].
              split; [|rewrite !amem_aget, aget_aset_other; auto].
              change_at k.
              ** intros w H. rewrite aget_aset_same in H. injection H as <-. rewrite aget_aset_same. do 2 eexists. split; [reflexivity|].
                 eapply fits_rewrap; eauto.
              ** intros Ct W u h H Gk. rewrite aget_aset_same in H. injection H as <- <-.
                 apply Opt; auto. now apply not_given_none.
    + assert (Am : aget k m = None).
      { destruct (aget k m) as [w|] eqn:Am; auto. exfalso. eapply aget_none_notin; [exact A|]. apply K; auto.
        eapply aget_some_inkeys; eauto. }
      assert (Th2 := empty_through (k2 :: r) P).
      destruct (insert_schema_ok (k2 :: r) "" [] (Some 0%Z) t f) as (fs3 & R & N3 & O3); [discriminate|exact P|exact Th2|].
      unfold empty_section in I. rewrite R in I. cbn [rbind] in I. injection I as <-.
      assert (Opt : optional t f -> optional (SStruct "" fs3 (Some 0%Z)) (mkF k VNone false None)).
      { intros O. apply op_struct. apply O3; auto. intros; discriminate. }
      split.
      * intros O. change_at k; [congruence|].
        intros Ct W u h H G. rewrite aget_aset_same in H. injection H as <- <-. auto.
      * intros v cn Fv G O. rewrite insert_cons_dict, Am.
        assert (Fe : fits c empty_section (VDict (if cn then [] else [(WEAK_REF, VBool true)]))).
        { destruct cn; [apply fits_empty; [constructor|intros; discriminate]|apply fits_mark; constructor]. }
        destruct (IH "" [] (Some 0%Z) _ t f fs3 ltac:(discriminate) P Th2 ltac:(destruct r; reflexivity) Fe R) as [_ In2].
        destruct (In2 v cn Fv) as (m' & I' & F' & W'); auto.
        { intros _ _. cbn [given_or_none]. destruct r; auto. intros * E0 A0. inversion E0; subst. discriminate. }
        assert (Dn : (if cn then VDict [] else VDict [(WEAK_REF, VBool true)]) = VDict (if cn then [] else [(WEAK_REF, VBool true)])) by now destruct cn.
        rewrite Dn, I'. cbn [rbind]. eexists. split; [reflexivity|].
        split; [|rewrite !amem_aget, aget_aset_other; auto].
        change_at k.
        -- intros w H. rewrite aget_aset_same in H. injection H as <-. rewrite aget_aset_same. do 2 eexists. split; [reflexivity|]. exact F'.
        -- intros Ct W u h H Gk. rewrite aget_aset_same in H. injection H as <- <-. apply Opt.
           specialize (Gk (VDict m')). rewrite aget_aset_same in Gk. specialize (Gk eq_refl). simpl in Gk.
           destruct cn; [rewrite W' in Gk; discriminate|auto].
Qed.

(** ** other paths after a removal *)
Lemma through_strip t u q : strip t = strip u -> through t q -> through u q.
Proof. intros E. destruct q as [|k q]; simpl; auto. now rewrite E. Qed.

Lemma field_at_strip t u q : strip t = strip u -> field_at t q = field_at u q.
Proof. intros E. destruct q as [|k q]; simpl; auto. now rewrite E. Qed.

Lemma given_or_none_strip t u x q : strip t = strip u -> given_or_none t x q -> given_or_none u x q.
Proof. intros E. destruct q as [|k q]; simpl; auto. now rewrite E. Qed.

Lemma strip_strip t : strip (strip t) = strip t.
Proof. induction t; simpl; auto. Qed.

Lemma remove_schema_cons n fs ver k k2 r :
  remove_schema (SStruct n fs ver) (k :: k2 :: r) =
  match aget k fs with
  | None => Ok (SStruct n fs ver, None)
  | Some (t, m) => let* ur := remove_schema (unwrap_container t) (k2 :: r) in
                   Ok (SStruct n (aset k (rewrap_container t (fst ur), m) fs) ver, snd ur)
  end.
Proof. reflexivity. Qed.

Lemma field_at_cons n fs ver k k2 r :
  field_at (SStruct n fs ver) (k :: k2 :: r) = match aget k fs with Some (t, _) => field_at t (k2 :: r) | None => None end.
Proof. reflexivity. Qed.

Lemma remove_paths p : forall n fs ver fs' o q, through (SStruct n fs ver) p ->
  remove_schema (SStruct n fs ver) p = Ok (SStruct n fs' ver, o) ->
  (through (SStruct n fs ver) q -> through (SStruct n fs' ver) q) /\
  (field_at (SStruct n fs ver) q = None \/ prefix p q -> field_at (SStruct n fs' ver) q = None).
Proof.
  induction p as [|k p IH]; intros n fs ver fs' o q Th R; [discriminate|].
  assert (T' := Th). destruct T' as (Sk & n0 & fs0 & ver0 & E & ND & Tk). simpl in E. inversion E; subst n0 fs0 ver0.
  destruct q as [|j q].
  { split; [intros; exact I|]. intros _. reflexivity. }
  destruct p as [|k2 r].
  - cbn [remove_schema] in R. assert (G : forall i, aget i fs' = if String.eqb i k then None else aget i fs).
    { intros i. destruct (aget k fs) as [x|] eqn:A; injection R as <- _; destruct (String.eqb i k) eqn:Q.
      - apply String.eqb_eq in Q; subst. now apply aget_adel_same.
      - apply String.eqb_neq in Q. now apply aget_adel_other.
      - apply String.eqb_eq in Q; subst. exact A.
      - reflexivity. }
    assert (N' : NoDup (akeys fs')).
    { destruct (aget k fs); injection R as <- _; auto. now apply nodup_adel. }
    split.
    + intros (Sj & n0 & fs0 & ver0 & E0 & _ & Tj). simpl in E0. inversion E0; subst. split; auto.
      do 3 eexists. split; [reflexivity|]. split; auto. intros t f A. rewrite G in A. destruct (String.eqb j k); [discriminate|eauto].
    + cbn [field_at strip]. rewrite G. destruct (String.eqb j k) eqn:Q; [now destruct q|].
      intros [H|H]; auto. apply prefix_cons_inv in H as (q' & H & _). injection H as -> _. now rewrite String.eqb_refl in Q.
  - rewrite remove_schema_cons in R. destruct (aget k fs) as [[t g]|] eqn:A.
    2:{ injection R as <- _. split; auto. intros [H|H]; auto. apply prefix_cons_inv in H as (q' & H & P'). injection H as -> ->.
        apply prefix_cons_inv in P' as (q2 & -> & _). rewrite field_at_cons. now rewrite A. }
    specialize (Tk _ _ eq_refl). assert (T2 := Tk). destruct T2 as (S2 & n2 & fs2 & ver2 & E2 & ND2 & T2).
    rewrite (strip_unwrap _ _ _ _ E2) in R.
    assert (Th2 : through (SStruct n2 fs2 ver2) (k2 :: r)) by (split; auto; exists n2, fs2, ver2; auto).
    destruct (remove_schema_ok (k2 :: r) n2 fs2 ver2) as (fs3 & R3 & N3 & _); [discriminate|exact Th2|].
    rewrite R3 in R. cbn [rbind fst snd] in R. injection R as <- _.
    assert (Q := IH _ _ _ _ _ q Th2 R3). destruct Q as [Q1 Q2].
    assert (Se : strip (rewrap_container t (SStruct n2 fs3 ver2)) = strip (SStruct n2 fs3 ver2)).
    { erewrite strip_rewrap; eauto. }
    assert (St : strip t = strip (SStruct n2 fs2 ver2)) by exact E2.
    split.
    + intros (Sj & n0 & fs0 & ver0 & E0 & _ & Tj). simpl in E0. inversion E0; subst. split; auto.
      do 3 eexists. split; [reflexivity|]. split; [now apply nodup_aset|]. intros u f H. rewrite aget_aset in H.
      destruct (String.eqb j k) eqn:Qe; [|eauto]. apply String.eqb_eq in Qe. subst j. injection H as <- <-.
      eapply through_strip; [symmetry; exact Se|]. apply Q1. eapply through_strip; [exact St|]. eauto.
    + cbn [field_at strip]. rewrite aget_aset. destruct (String.eqb j k) eqn:Qe.
      * apply String.eqb_eq in Qe. subst j. rewrite A. intros H. destruct q as [|j2 q].
        -- destruct H as [H|H]; [discriminate|]. rewrite prefix_cons in H. apply prefix_cons_inv in H as (q' & H & _). discriminate.
        -- erewrite field_at_strip; [|exact Se]. apply Q2. destruct H as [H|H].
           ++ left. erewrite <- field_at_strip; [|exact St]. exact H.
           ++ right. now rewrite prefix_cons in H.
      * intros [H|H]; [exact H|]. apply prefix_cons_inv in H as (q' & H & _). injection H as -> _. now rewrite String.eqb_refl in Qe.
Qed.

Lemma remove_given_or_none c p : forall n fs ver m fs' o m' v q, through (SStruct n fs ver) p ->
  fits c (SStruct n fs ver) (VDict m) ->
  remove_schema (SStruct n fs ver) p = Ok (SStruct n fs' ver, o) ->
  remove_path (VDict m) p = Ok (VDict m', v) ->
  given_or_none (SStruct n fs ver) (VDict m) q -> given_or_none (SStruct n fs' ver) (VDict m') q.
Proof.
  induction p as [|k p IH]; intros n fs ver m fs' o m' v q Th F R D G; [discriminate|].
  assert (T' := Th). destruct T' as (Sk & n0 & fs0 & ver0 & E & ND & Tk). simpl in E. inversion E; subst n0 fs0 ver0.
  inversion F as [| | | | | | | | | | | | |? ? ? ? _ NM K Tv C]; subst.
  destruct q as [|j [|j2 q]]; [exact I|exact I|].
  cbn [given_or_none] in G |- *. intros n1 fs1 ver1 t f m1 Es A Em. simpl in Es. inversion Es; subst n1 fs1 ver1.
  injection Em as <-.
  destruct p as [|k2 r].
  - cbn [remove_schema] in R. cbn [remove_path] in D.
    assert (Aj : aget j fs = Some (t, f) /\ j <> k).
    { destruct (aget k fs) as [x|] eqn:Ak; injection R as <- _.
      - destruct (String.eqb j k) eqn:Q.
        + apply String.eqb_eq in Q; subst. rewrite aget_adel_same in A by auto. discriminate.
        + apply String.eqb_neq in Q. rewrite aget_adel_other in A by auto. auto.
      - split; auto. congruence. }
    destruct Aj as [Aj Nj]. destruct (G _ _ _ _ _ _ eq_refl Aj eq_refl) as (c0 & H0 & W0 & G0).
    exists c0. split; auto. destruct (aget k m); injection D as <- _; auto. now rewrite aget_adel_other.
  - rewrite remove_schema_cons in R. rewrite remove_cons_dict in D. destruct (aget k fs) as [[tk g]|] eqn:Ak.
    2:{ injection R as <- _. assert (Am : aget k m = None).
        { destruct (aget k m) as [w|] eqn:Am; auto. exfalso. eapply aget_none_notin; [exact Ak|]. apply K; auto.
          eapply aget_some_inkeys; eauto. }
        rewrite Am in D. injection D as <- _. eapply G; eauto. }
    specialize (Tk _ _ eq_refl). assert (T2 := Tk). destruct T2 as (S2 & n2 & fs2 & ver2 & E2 & ND2 & T2).
    rewrite (strip_unwrap _ _ _ _ E2) in R.
    assert (Th2 : through (SStruct n2 fs2 ver2) (k2 :: r)) by (split; auto; exists n2, fs2, ver2; auto).
    destruct (remove_schema_ok (k2 :: r) n2 fs2 ver2) as (fs3 & R3 & N3 & _); [discriminate|exact Th2|].
    rewrite R3 in R. cbn [rbind fst snd] in R. injection R as <- _.
    assert (Se : strip (rewrap_container tk (SStruct n2 fs3 ver2)) = strip (SStruct n2 fs3 ver2)).
    { erewrite strip_rewrap; eauto. }
    destruct (String.eqb j k) eqn:Q.
    + apply String.eqb_eq in Q. subst j. rewrite aget_aset_same in A. injection A as <- <-.
      destruct (G _ _ _ _ _ _ eq_refl Ak eq_refl) as (c0 & H0 & W0 & G0). rewrite H0 in D.
      destruct (fits_strip _ _ _ _ _ _ (Tv _ _ _ _ H0 Sk Ak) E2) as [[-> Fn]|[mc [-> Fs]]].
      * cbn [is_none] in D. injection D as <- _. exists VNone. split; [exact H0|]. split; [reflexivity|].
        destruct q; [exact I|]. intros ? ? ? ? ? ? _ _ H. discriminate.
      * cbn [is_none] in D. apply rbind_ok in D as ([d o'] & D & Q). cbn [fst snd] in Q. injection Q as <- <-.
        assert (exists mc', d = VDict mc' /\ amem WEAK_REF mc' = amem WEAK_REF mc) as (mc' & -> & Wm).
        { destruct (remove_mirror c (k2 :: r) n2 fs2 ver2 mc) as (_ & mc' & _ & D' & _ & W & _); [discriminate|exact Th2|exact Fs|].
          rewrite D in D'. injection D' as -> _. eauto. }
        exists (VDict mc'). split; [apply aget_aset_same|]. split; [simpl in *; congruence|].
        change (given_or_none (rewrap_container tk (SStruct n2 fs3 ver2)) (VDict mc') (j2 :: q)).
        change (given_or_none tk (VDict mc) (j2 :: q)) in G0.
        eapply given_or_none_strip; [symmetry; exact Se|].
        eapply (IH n2 fs2 ver2 mc); eauto. eapply given_or_none_strip; [|exact G0]. exact E2.
    + apply String.eqb_neq in Q. rewrite aget_aset_other in A by auto.
      destruct (G _ _ _ _ _ _ eq_refl A eq_refl) as (c0 & H0 & W0 & G0). exists c0. split; auto.
      destruct (aget k m) as [w|]; [|injection D as <- _; auto].
      destruct (is_none w); [injection D as <- _; auto|].
      apply rbind_ok in D as ([d o'] & D & Qd). injection Qd as <- _. now rewrite aget_aset_other.
Qed.

Lemma given_given_or_none p : forall s x, (forall q, proper_prefix q p -> given x q) -> given_or_none s x p.
Proof.
  induction p as [|k p IH]; intros s x G; [exact I|]. destruct p as [|k2 r]; [exact I|].
  cbn [given_or_none]. intros n fs ver t f m E A ->. destruct (given_root _ [] _ _ G (proper_nil _ _)) as (c & Hc & Gc).
  exists c. split; auto. split; [now apply given_not_weak|]. apply (IH t c). intros q Q.
  destruct (given_root _ _ _ _ G Q) as (c' & Hc' & Gc'). congruence.
Qed.

(** ** replacing the description of a field *)
Lemma replace_mirror c t' f' p : forall n fs ver fs1 t f, p <> [] -> plain p -> through (SStruct n fs ver) p ->
  remove_schema (SStruct n fs ver) p = Ok (SStruct n fs1 ver, Some (t, f)) ->
  (c = true -> optional t f -> optional t' f') ->
  exists fs2, insert_schema (SStruct n fs1 ver) p (t', f') = Ok (SStruct n fs2 ver) /\ NoDup (akeys fs2) /\
    (c = true -> (forall k u g, aget k fs = Some (u, g) -> optional u g) -> forall k u g, aget k fs2 = Some (u, g) -> optional u g) /\
    forall m, fits c (SStruct n fs ver) (VDict m) -> (forall v, lookup (VDict m) p = Some v -> fits c t' v) ->
      fits c (SStruct n fs2 ver) (VDict m).
Proof.
  induction p as [|k p IH]; intros n fs ver fs1 t f Hp P Th R O; [congruence|].
  assert (T' := Th). destruct T' as (Sk & n0 & fs0 & ver0 & E & ND & Tk). simpl in E. inversion E; subst n0 fs0 ver0.
  destruct P as [_ P]. destruct p as [|k2 r].
  - cbn [remove_schema] in R. destruct (aget k fs) as [x|] eqn:A; [|discriminate]. injection R as <- ->.
    cbn [insert_schema]. assert (G : forall j, j <> k -> aget j (aset k (t', f') (adel k fs)) = aget j fs).
    { intros j J. rewrite aget_aset_other, aget_adel_other; auto. }
    eexists. split; [reflexivity|]. split; [now apply nodup_aset, nodup_adel|]. split.
    + intros Ct H j u g J. destruct (String.eqb j k) eqn:Q.
      * apply String.eqb_eq in Q. subst. rewrite aget_aset_same in J. injection J as <- <-. apply O; eauto.
      * apply String.eqb_neq in Q. rewrite G in J by auto. eauto.
    + intros m F V. inversion F as [| | | | | | | | | | | | |? ? ? ? _ NM K Tv C]; subst.
      change_at k.
      * intros w H. rewrite aget_aset_same. do 2 eexists. split; [reflexivity|]. apply V. simpl. now rewrite H.
      * intros Ct W u g H N. rewrite aget_aset_same in H. injection H as <- <-. apply O; eauto.
  - rewrite remove_schema_cons in R. destruct (aget k fs) as [[tk g]|] eqn:A; [|discriminate].
    specialize (Tk _ _ eq_refl). assert (T2 := Tk). destruct T2 as (S2 & n2 & fs2 & ver2 & E2 & ND2 & T2).
    rewrite (strip_unwrap _ _ _ _ E2) in R.
    assert (Th2 : through (SStruct n2 fs2 ver2) (k2 :: r)) by (split; auto; exists n2, fs2, ver2; auto).
    destruct (remove_schema_ok (k2 :: r) n2 fs2 ver2) as (fs3 & R3 & N3 & _); [discriminate|exact Th2|].
    rewrite R3 in R. cbn [rbind fst snd] in R. injection R as <- Ho.
    change (field_at (SStruct n2 fs2 ver2) (k2 :: r) = Some (t, f)) in Ho. rewrite Ho in R3.
    destruct (IH n2 fs2 ver2 fs3 t f ltac:(discriminate) P Th2 R3 O) as (fs4 & I4 & N4 & O4 & F4).
    rewrite insert_schema_cons, aget_aset_same.
    assert (Se : strip (rewrap_container tk (SStruct n2 fs3 ver2)) = SStruct n2 fs3 ver2) by (eapply strip_rewrap; eauto).
    rewrite (strip_unwrap _ _ _ _ Se), I4. cbn [rbind]. rewrite aset_aset. erewrite rewrap_rewrap by eauto.
    eexists. split; [reflexivity|]. split; [now apply nodup_aset|]. split.
    + intros Ct H j u h J. rewrite aget_aset in J. destruct (String.eqb j k); eauto.
      injection J as <- <-. eapply optional_rewrap; eauto.
    + intros m F V. inversion F as [| | | | | | | | | | | | |? ? ? ? _ NM K Tv C]; subst.
      change_at k.
      * intros w H. rewrite aget_aset_same. do 2 eexists. split; [reflexivity|].
        destruct (fits_strip _ _ _ _ _ w (Tv _ _ _ _ H Sk A) E2) as [[-> Fn]|[mc [-> Fs]]]; auto.
        eapply fits_rewrap; eauto. apply F4; auto. intros v Hv. apply V.
        change (lookup (VDict m) (k :: k2 :: r)) with (match aget k m with Some c => lookup c (k2 :: r) | None => None end).
        now rewrite H.
      * intros Ct W u h H Gk. rewrite aget_aset_same in H. injection H as <- <-. eapply optional_rewrap; eauto.
Qed.

(** ** the rules *)
Lemma field_plain p : forall s x, through s p -> field_at s p = Some x -> plain p.
Proof.
  induction p as [|k p IH]; intros s x T F; [exact I|]. destruct T as (Sk & n & fs & ver & E & _ & T).
  split; auto. cbn [field_at] in F. rewrite E in F. destruct p as [|k2 r]; [exact I|].
  destruct (aget k fs) as [[t g]|] eqn:A; [|discriminate]. eapply IH; eauto.
Qed.

Lemma get_lookup p : forall d v, lookup d p = Some v -> p <> [] -> get_path d p = Ok (Some v).
Proof.
  induction p as [|k p IH]; intros d v L Hp; [congruence|].
  destruct d as [| | | | | | |m| | | |]; simpl in L; try discriminate.
  destruct (aget k m) as [c|] eqn:A; [|discriminate]. destruct p as [|k2 r].
  - simpl in L. injection L as ->. cbn [get_path py_in py_getitem]. rewrite amem_aget, A. reflexivity.
  - change (get_path (VDict m) (k :: k2 :: r)) with
      (let* present := py_in k (VDict m) in if negb present then Ok None else let* c := py_getitem (VDict m) k in get_path c (k2 :: r)).
    cbn [py_in py_getitem rbind]. rewrite amem_aget, A. cbn [negb rbind]. apply IH; auto. discriminate.
Qed.

Lemma map_variants_in f vs vs' k v : map_variants f vs = Ok vs' -> In (k, v) vs -> exists v', f v = Ok v' /\ In (k, v') vs'.
Proof.
  revert vs'. induction vs as [|[j w] vs IH]; intros vs' M H; [destruct H|]. simpl in M.
  apply rbind_ok in M as (w' & Hw & M). apply rbind_ok in M as (r' & Hr & M). injection M as <-.
  destruct H as [H|H].
  - injection H as -> ->. exists w'. split; auto. now left.
  - destruct (IH _ Hr H) as (v' & Hv & Hi). exists v'. split; auto. now right.
Qed.

Lemma optional_type t f t' f' : fm_has_default f' = fm_has_default f -> (forall n fs ver, t = SStruct n fs ver -> t' = t) ->
  optional t f -> optional t' f'.
Proof.
  intros D S O. inversion O; subst.
  - apply op_default. congruence.
  - rewrite (S _ _ _ eq_refl). now apply op_struct.
Qed.

(** a value that was taken out and is put back *)
Lemma put_back c p n fs ver m t f t' f' fs1 m1 v cn :
  p <> [] -> through (SStruct n fs ver) p -> fits c (SStruct n fs ver) (VDict m) ->
  field_at (SStruct n fs ver) p = Some (t, f) ->
  remove_schema (SStruct n fs ver) p = Ok (SStruct n fs1 ver, Some (t, f)) ->
  remove_path (VDict m) p = Ok (VDict m1, lookup (VDict m) p) ->
  fits c (SStruct n fs1 ver) (VDict m1) -> fits c t' v ->
  (c = true -> cn = true -> forall q, proper_prefix q p -> given (VDict m) q) ->
  (c = true -> cn = false \/ is_weak v = true -> optional t' f') ->
  exists fs2 m2, insert_schema (SStruct n fs1 ver) p (t', f') = Ok (SStruct n fs2 ver) /\
    insert_path (VDict m1) p v cn = Ok (VDict m2) /\ fits c (SStruct n fs2 ver) (VDict m2).
Proof.
  intros Hp Th F Fa Rs Rp F1 Fv G O.
  assert (P := field_plain _ _ _ Th Fa).
  destruct (remove_paths p _ _ _ _ _ p Th Rs) as [Th1 N1]. specialize (Th1 Th).
  assert (N : field_at (SStruct n fs1 ver) p = None) by (apply N1; right; exists []; now rewrite app_nil_r).
  destruct (insert_schema_ok p n fs1 ver t' f' Hp P Th1) as (fs2 & I & _).
  destruct (insert_mirror c p n fs1 ver m1 t' f' fs2 Hp P Th1 N F1 I) as [_ Ins].
  destruct (Ins v cn Fv) as (m2 & Ip & F2 & _); auto.
  { intros Ct Cn. apply (remove_given_or_none c p n fs ver m fs1 _ m1 _ p Th F Rs Rp). apply given_given_or_none. auto. }
  eauto.
Qed.

Theorem mirror_rule c n fs ver m r s' x' :
  fits c (SStruct n fs ver) (VDict m) -> keeps_types c (SStruct n fs ver) r ->
  (c = true -> keeps_complete (SStruct n fs ver) (VDict m) r) ->
  apply_rule_schema r (SStruct n fs ver) = Ok s' -> apply_rule r (VDict m) = Ok x' ->
  fits c s' x' /\ exists fs' m', s' = SStruct n fs' ver /\ x' = VDict m'.
Proof.
  intros F Kt Kc As Ax.
  destruct r as [old new|p|p f rd|p old new|p d|p vs|p vs]; cbn [apply_rule_schema apply_rule keeps_types keeps_complete] in *.
  - destruct Kt as (To & Tn & Pn & Nn).
    assert (Ho : old <> []) by (intros ->; discriminate).
    destruct (remove_mirror c old n fs ver m Ho To F) as (fs1 & m1 & Rs & Rp & F1 & _ & V & O & Sm).
    rewrite Rs in As. rewrite Rp in Ax. cbn [rbind fst snd] in *.
    destruct (field_at (SStruct n fs ver) old) as [[t f]|] eqn:Fa; [|discriminate].
    assert (Hn : new <> []) by (intros ->; discriminate).
    destruct (remove_paths old _ _ _ _ _ new To Rs) as [Th1 N1]. specialize (Th1 Tn).
    assert (N : field_at (SStruct n fs1 ver) new = None) by (apply N1; tauto).
    destruct (insert_schema_ok new n fs1 ver t f Hn Pn Th1) as (fs2 & I & _).
    rewrite I in As. injection As as <-.
    destruct (insert_mirror c new n fs1 ver m1 t f fs2 Hn Pn Th1 N F1 I) as [Same Ins].
    assert (Op : c = true -> (forall v, lookup (VDict m) old = Some v -> is_weak v = true) -> optional t f).
    { intros Ct W. destruct (Kc Ct) as [_ [G|G]]; [|now apply G]. apply O; auto. }
    destruct (lookup (VDict m) old) as [v|] eqn:L.
    + destruct (V v eq_refl) as (t0 & f0 & E0 & Fv). injection E0 as <- <-.
      destruct (Ins v true Fv) as (m2 & Ip & F2 & _).
      * intros Ct _. apply (remove_given_or_none c old n fs ver m fs1 _ m1 _ new To F Rs Rp). now apply Kc.
      * intros Ct [H|H]; [discriminate|]. apply Op; auto. intros w Hw. now injection Hw as <-.
      * rewrite Ip in Ax. injection Ax as <-. eauto.
    + injection Ax as <-. split; eauto. apply Same. intros Ct. apply Op; auto. discriminate.
  - assert (Hp : p <> []) by (intros ->; discriminate).
    destruct (remove_mirror c p n fs ver m Hp Kt F) as (fs1 & m1 & Rs & Rp & F1 & _ & V & O & Sm).
    rewrite Rs in As. rewrite Rp in Ax. cbn [rbind fst snd] in *. injection As as <-. injection Ax as <-. eauto.
  - destruct Kt as [Th Kt]. assert (Hp : p <> []) by (intros ->; discriminate).
    destruct (remove_mirror c p n fs ver m Hp Th F) as (fs1 & m1 & Rs & Rp & F1 & _ & V & O & Sm).
    rewrite Rs in As. rewrite Rp in Ax. cbn [rbind fst snd] in *.
    destruct (field_at (SStruct n fs ver) p) as [[t g]|] eqn:Fa; [|discriminate]. specialize (Kt _ _ eq_refl).
    assert (exists t', (forall v v', fits c t v -> f v = Ok v' -> fits c t' v') /\ insert_schema (SStruct n fs1 ver) p (t', g) = Ok s' /\
              (optional t g -> optional t' g)) as (t' & Ft & I & Ot).
    { destruct t as [| | | | | | |en vs| |]; cbn [fst] in As; try (exists t; eauto; fail);
      try (eexists; split; [exact Kt|split; [exact As|auto]]).
      apply rbind_ok in As as (vs' & Mv & As). exists (SEnum en vs'). unfold with_type in As. cbn [snd] in As. repeat split; auto.
      - intros v v' Fv Hv. inversion Fv as [| | | | | | | | | | |? ? k w ? Hin Heq| |]; subst.
        destruct (map_variants_in _ _ _ _ _ Mv Hin) as (w' & Hw & Hin'). eapply fi_enum; [exact Hin'|]. eapply Kt; eauto.
      - apply optional_type; auto. discriminate. }
    destruct (lookup (VDict m) p) as [v|] eqn:L.
    + apply rbind_ok in Ax as (v' & Hv & Ax). destruct (V v eq_refl) as (t0 & f0 & E0 & Fv). injection E0 as <- <-.
      destruct (put_back c p n fs ver m t g t' g fs1 m1 v' true) as (fs2 & m2 & I2 & Ip & F2); eauto.
      { now rewrite L. }
      { intros Ct _ q Q. destruct (Kc Ct) as [G _]. apply G; auto. congruence. }
      { intros Ct [H|H]; [discriminate|]. destruct (Kc Ct) as [_ W]. rewrite (W _ _ Hv) in H. discriminate. }
      rewrite I in I2. injection I2 as ->. rewrite Ip in Ax. injection Ax as <-. eauto.
    + injection Ax as <-.
      destruct (replace_mirror c t' g p n fs ver fs1 t g Hp (field_plain _ _ _ Th Fa) Th Rs) as (fs2 & I2 & _ & _ & F2); auto.
      rewrite I in I2. injection I2 as ->.
      rewrite (Sm eq_refl). split; eauto. apply F2; auto. rewrite L. discriminate.
  - destruct Kt as [Th Kt]. assert (Hp : p <> []) by (intros ->; discriminate).
    destruct (remove_mirror c p n fs ver m Hp Th F) as (fs1 & m1 & Rs & Rp & F1 & _ & V & O & Sm).
    rewrite Rs in As. rewrite Rp in Ax. cbn [rbind fst snd] in *.
    destruct (field_at (SStruct n fs ver) p) as [[t g]|] eqn:Fa; [|discriminate]. specialize (Kt _ _ eq_refl).
    destruct (py_eq _ _) eqn:Ed; [|discriminate]. unfold with_default in As. cbn [fst snd] in As.
    set (g' := mkF _ _ _ _) in As.
    assert (Og : c = true -> optional t g').
    { intros Ct. apply op_default. destruct (Kc Ct) as [_ D]. simpl. eauto. }
    assert (Put : forall v cn, fits c t v -> (c = true -> cn = true -> forall q, proper_prefix q p -> given (VDict m) q) ->
              insert_path (VDict m1) p v cn = Ok x' -> fits c s' x' /\ exists fs' m', s' = SStruct n fs' ver /\ x' = VDict m').
    { intros v cn Fv G Ip. destruct (put_back c p n fs ver m t g t g' fs1 m1 v cn) as (fs2 & m2 & I2 & Ip2 & F2); eauto.
      rewrite As in I2. injection I2 as ->. rewrite Ip in Ip2. injection Ip2 as ->. eauto. }
    destruct (lookup (VDict m) p) as [v|] eqn:L.
    + destruct (V v eq_refl) as (t0 & f0 & E0 & Fv). injection E0 as <- <-.
      destruct (is_weak v).
      * apply (Put old false); auto. discriminate.
      * apply (Put v true); auto. intros Ct _ q Q. destruct (Kc Ct) as [G _]. apply G; auto. congruence.
    + apply (Put old false); auto. discriminate.
  - destruct Kt as [Th (t & g & Fa & Fd)]. assert (Hp : p <> []) by (intros ->; discriminate).
    destruct (remove_mirror c p n fs ver m Hp Th F) as (fs1 & m1 & Rs & Rp & F1 & _ & V & O & Sm).
    rewrite Rs in As. rewrite Rp in Ax. cbn [rbind fst snd] in *. rewrite Fa in *.
    unfold with_default in As. cbn [fst snd] in As. set (g' := mkF _ _ _ _) in As.
    assert (Fv : fits c t (match lookup (VDict m) p with Some v => v | None => d end)).
    { destruct (lookup (VDict m) p) as [v|] eqn:L; auto. destruct (V v eq_refl) as (t0 & f0 & E0 & Fv). now injection E0 as <- <-. }
    destruct (put_back c p n fs ver m t g t g' fs1 m1 _ false Hp Th F Fa Rs Rp F1 Fv) as (fs2 & m2 & I2 & Ip & F2).
    { discriminate. }
    { intros _ _. now apply op_default. }
    rewrite I2 in As. injection As as <-. rewrite Ip in Ax. injection Ax as <-. eauto.
  - assert (Hp : p <> []) by (intros ->; discriminate).
    destruct (remove_mirror c p n fs ver m Hp Kt F) as (fs1 & m1 & Rs & Rp & F1 & _ & V & O & Sm).
    rewrite Rs in As. cbn [rbind fst snd] in *.
    destruct (field_at (SStruct n fs ver) p) as [[t g]|] eqn:Fa; [|discriminate].
    unfold with_type in As. cbn [snd] in As.
    destruct (replace_mirror c (SLit vs) g p n fs ver fs1 t g Hp (field_plain _ _ _ Kt Fa) Kt Rs) as (fs2 & I2 & _ & _ & F2).
    { intros Ct Ot. destruct (Kc Ct _ _ eq_refl) as [D|D]; [now apply op_default|].
      eapply optional_type; [reflexivity| |exact Ot]. intros * E. now apply D in E. }
    rewrite I2 in As. injection As as <-.
    assert (x' = VDict m) as -> by (eapply check_value_pure; exact Ax). split; eauto. apply F2; auto.
    intros v L. rewrite (get_lookup _ _ _ L) in Ax; [|now apply Hp]. cbn [rbind] in Ax.
    apply rbind_ok in Ax as (b & Hb & Ax). destruct b; [|discriminate]. apply fi_lit.
    unfold py_in_set in Hb. destruct (hashable v); [|discriminate]. now injection Hb.
  - destruct Kt.
Qed.

Theorem mirror_rules c n ver rs : forall fs m s' x',
  fits c (SStruct n fs ver) (VDict m) -> in_step c (SStruct n fs ver) (VDict m) rs ->
  apply_rules_schema rs (SStruct n fs ver) = Ok s' -> apply_rules rs (VDict m) = Ok x' ->
  fits c s' x' /\ exists fs' m', s' = SStruct n fs' ver /\ x' = VDict m'.
Proof.
  induction rs as [|r rs IH]; intros fs m s' x' F S As Ax; simpl in As, Ax.
  - injection As as <-. injection Ax as <-. eauto.
  - apply rbind_ok in As as (s1 & A1 & As). apply rbind_ok in Ax as (x1 & X1 & Ax). destruct S as (Kt & Kc & S).
    destruct (mirror_rule _ _ _ _ _ _ _ _ F Kt Kc A1 X1) as (F1 & fs1 & m1 & -> & ->). eapply IH; eauto.
Qed.

Lemma apply_rules_app a b x : apply_rules (a ++ b)%list x = (let* y := apply_rules a x in apply_rules b y).
Proof. revert x. induction a as [|r a IH]; intros x; simpl; auto. destruct (apply_rule r x); simpl; auto. Qed.

Lemma apply_rules_schema_app a b x : apply_rules_schema (a ++ b)%list x = (let* y := apply_rules_schema a x in apply_rules_schema b y).
Proof. revert x. induction a as [|r a IH]; intros x; simpl; auto. destruct (apply_rule_schema r x); simpl; auto. Qed.

Lemma steps_flat rules vs x : upgrade_steps rules vs x = apply_rules (flat_map (rules_at rules) vs) x.
Proof.
  revert x. induction vs as [|v vs IH]; intros x; simpl; auto. rewrite apply_rules_app.
  destruct (apply_rules (rules_at rules v) x); simpl; auto.
Qed.

Lemma schema_steps_flat rules vs x : schema_upgrade_steps rules vs x = apply_rules_schema (flat_map (rules_at rules) vs) x.
Proof.
  revert x. induction vs as [|v vs IH]; intros x; simpl; auto. rewrite apply_rules_schema_app.
  destruct (apply_rules_schema (rules_at rules v) x); simpl; auto.
Qed.

Theorem mirror_upgrades c n fs v m cur rules s' x' :
  fits c (SStruct n fs (Some v)) (VDict m) ->
  in_step c (SStruct n fs (Some v)) (VDict m) (flat_map (rules_at rules) (zrange v cur)) ->
  apply_schema_upgrades cur rules (SStruct n fs (Some v)) = Ok s' ->
  apply_upgrades cur rules (VDict m) (VInt v) = Ok x' -> fits c s' x'.
Proof.
  intros F S As Ax. unfold apply_schema_upgrades in As. cbn [schema_version] in As. rewrite schema_steps_flat in As.
  unfold apply_upgrades in Ax. destruct (forallb _ rules); [|discriminate]. cbn [as_int] in Ax. rewrite steps_flat in Ax.
  eapply mirror_rules; eauto.
Qed.

(** ** files that conform do not make the rules crash *)
Lemma insert_total p : forall m v cn, p <> [] -> exists m', insert_path (VDict m) p v cn = Ok (VDict m').
Proof.
  induction p as [|k p IH]; intros m v cn Hp; [congruence|]. destruct p as [|k2 r].
  - cbn [insert_path py_setitem]. eauto.
  - rewrite insert_cons_dict. destruct (aget k m) as [c|].
    + destruct c as [| | | | | | |mc| | | |]; eauto.
      assert (Dn : (if cn then VDict (adel WEAK_REF mc) else VDict mc) = VDict (if cn then adel WEAK_REF mc else mc)) by now destruct cn.
      rewrite Dn. destruct (IH (if cn then adel WEAK_REF mc else mc) v cn) as (m' & ->); [discriminate|]. cbn [rbind]. eauto.
    + assert (Dn : (if cn then VDict [] else VDict [(WEAK_REF, VBool true)]) = VDict (if cn then [] else [(WEAK_REF, VBool true)])) by now destruct cn.
      rewrite Dn. destruct (IH (if cn then [] else [(WEAK_REF, VBool true)]) v cn) as (m' & ->); [discriminate|]. cbn [rbind]. eauto.
Qed.

Theorem rule_runs c n fs ver m r s' :
  fits c (SStruct n fs ver) (VDict m) -> keeps_types c (SStruct n fs ver) r -> apply_rule_schema r (SStruct n fs ver) = Ok s' ->
  match r with
  | MapFieldValue p f _ => forall v, lookup (VDict m) p = Some v -> exists v', f v = Ok v'
  | CheckValue _ _ => False
  | _ => True
  end ->
  exists x', apply_rule r (VDict m) = Ok x'.
Proof.
  intros F Kt As Ok'.
  assert (Rm : forall p, through (SStruct n fs ver) p -> p <> [] -> exists m1, remove_path (VDict m) p = Ok (VDict m1, lookup (VDict m) p)).
  { intros p Th Hp. destruct (remove_mirror c p n fs ver m Hp Th F) as (fs1 & m1 & _ & Rp & _). eauto. }
  assert (Ne : forall p, p = [] -> remove_schema (SStruct n fs ver) p = Err AssertionError) by (intros ? ->; reflexivity).
  destruct r as [old new|p|p f rd|p old new|p d|p vs|p vs]; cbn [apply_rule_schema apply_rule keeps_types] in *; try tauto.
  - destruct Kt as (To & _). assert (Ho : old <> []) by (intros H; rewrite (Ne _ H) in As; discriminate).
    destruct (remove_mirror c old n fs ver m Ho To F) as (fs1 & m1 & Rs & Rp & _). rewrite Rs in As. rewrite Rp. cbn [rbind fst snd] in *.
    destruct (field_at _ old); [|discriminate].
    assert (Hn : new <> []) by (intros ->; discriminate).
    destruct (lookup (VDict m) old) as [v|]; eauto. destruct (insert_total new m1 v true Hn) as (m2 & ->). eauto.
  - assert (Ho : p <> []) by (intros H; rewrite (Ne _ H) in As; discriminate).
    destruct (Rm _ Kt Ho) as (m1 & ->). cbn [rbind fst]. eauto.
  - destruct Kt as (To & _). assert (Ho : p <> []) by (intros H; rewrite (Ne _ H) in As; discriminate).
    destruct (Rm _ To Ho) as (m1 & ->). cbn [rbind fst snd]. destruct (lookup (VDict m) p) as [v|]; eauto.
    destruct (Ok' _ eq_refl) as (v' & ->). cbn [rbind]. destruct (insert_total p m1 v' true Ho) as (m2 & ->). eauto.
  - destruct Kt as (To & _). assert (Ho : p <> []) by (intros H; rewrite (Ne _ H) in As; discriminate).
    destruct (Rm _ To Ho) as (m1 & ->). cbn [rbind fst snd].
    assert (G : forall v cn, exists x', insert_path (VDict m1) p v cn = Ok x').
    { intros v cn. destruct (insert_total p m1 v cn Ho) as (m2 & ->). eauto. }
    destruct (lookup (VDict m) p) as [v|]; auto. destruct (is_weak v); auto.
  - destruct Kt as (To & _). assert (Ho : p <> []) by (intros H; rewrite (Ne _ H) in As; discriminate).
    destruct (Rm _ To Ho) as (m1 & ->). cbn [rbind fst snd].
    destruct (insert_total p m1 (match lookup (VDict m) p with Some v => v | None => d end) false Ho) as (m2 & ->). eauto.
Qed.

(** the schema of a config never survives RejectValues *)
Lemma reject_schema n fs ver p bad : p <> [] -> through (SStruct n fs ver) p ->
  apply_rule_schema (RejectValues p bad) (SStruct n fs ver) = Err AssertionError.
Proof.
  intros Hp Th. cbn [apply_rule_schema]. destruct (remove_schema_ok p n fs ver Hp Th) as (fs1 & -> & _).
  cbn [rbind snd]. now destruct (field_at _ p).
Qed.

(** ** for examples: conformance entry by entry *)
Lemma fits_entries c n fs ver m : nodupb (akeys fs) = true -> nodupb (akeys m) = true ->
  Forall (fun kv => special (fst kv) = true \/ exists t f, aget (fst kv) fs = Some (t, f) /\ fits c t (snd kv)) m ->
  Forall (fun kf => (exists v, aget (fst kf) m = Some v /\ is_weak v = false) \/ optional (fst (snd kf)) (snd (snd kf))) fs ->
  fits c (SStruct n fs ver) (VDict m).
Proof.
  intros Nf Nm Fm Ff. apply nodupb_NoDup in Nf, Nm. rewrite Forall_forall in Fm, Ff. apply fi_struct; auto.
  - intros k J Sk. apply inkeys_aget in J as [v J]. destruct (Fm _ (aget_some_in _ _ _ J)) as [H|(t & f & H & _)]; simpl in H; [congruence|].
    eapply aget_some_inkeys; eauto.
  - intros k v t f J Sk A. destruct (Fm _ (aget_some_in _ _ _ J)) as [H|(t' & f' & H & Ft)]; simpl in H; [congruence|].
    rewrite A in H. now injection H as <- <-.
  - intros _ _ k t f A G. destruct (Ff _ (aget_some_in _ _ _ A)) as [(v & H & W)|H]; auto. simpl in H. rewrite (G _ H) in W. discriminate.
Qed.

Lemma optional_entries n fs ver f : Forall (fun kf => optional (fst (snd kf)) (snd (snd kf))) fs -> optional (SStruct n fs ver) f.
Proof. intros H. rewrite Forall_forall in H. apply op_struct. intros k t g A. apply (H _ (aget_some_in _ _ _ A)). Qed.

Lemma fits_struct_inv c n fs ver m : fits c (SStruct n fs ver) (VDict m) ->
  (forall k, In k (akeys m) -> special k = false -> In k (akeys fs)) /\
  (forall k v t f, aget k m = Some v -> special k = false -> aget k fs = Some (t, f) -> fits c t v) /\
  (c = true -> amem WEAK_REF m = false -> forall k t f, aget k fs = Some (t, f) -> not_given m k -> optional t f).
Proof. intros F. inversion F; subst. auto. Qed.

Lemma optional_prim p f : optional (SPrim p) f -> fm_has_default f = true.
Proof. intros O. now inversion O. Qed.
