(** ReportFacts.v -- [_find_changes] reports exactly the differences (C59). *)
From Coq Require Import Permutation.
From Verif Require Import Base Value Schema Induct AFacts Checker SpecRenames RenameFacts FindFacts SpecReport.

(** ** places *)
Lemma compared_trans a b p x y q u w : compared a b p x y -> compared x y q u w -> compared a b (p ++ q) u w.
Proof.
  intros C D. induction D; [now rewrite app_nil_r|now apply cm_list|now apply cm_option|].
  rewrite app_assoc. eapply cm_field; eauto.
Qed.

Lemma compared_list i j p x y : compared (SList i) (SList j) p x y -> (p = [] /\ x = SList i /\ y = SList j) \/ compared i j p x y.
Proof.
  induction 1; auto.
  - destruct IHcompared as [(-> & E & F)|C]; [injection E as ->; injection F as ->; right; constructor|right; now apply cm_list].
  - destruct IHcompared as [(-> & E & F)|C]; [discriminate|right; now apply cm_option].
  - destruct IHcompared as [(-> & E & F)|C]; [discriminate|right; eapply cm_field; eauto].
Qed.

Lemma compared_option i j p x y : compared (SOption i) (SOption j) p x y -> (p = [] /\ x = SOption i /\ y = SOption j) \/ compared i j p x y.
Proof.
  induction 1; auto.
  - destruct IHcompared as [(-> & E & F)|C]; [discriminate|right; now apply cm_list].
  - destruct IHcompared as [(-> & E & F)|C]; [injection E as ->; injection F as ->; right; constructor|right; now apply cm_option].
  - destruct IHcompared as [(-> & E & F)|C]; [discriminate|right; eapply cm_field; eauto].
Qed.

Lemma compared_struct n fs v n' gs v' p x y : compared (SStruct n fs v) (SStruct n' gs v') p x y ->
  (p = [] /\ x = SStruct n fs v /\ y = SStruct n' gs v') \/
  exists k f g q, In (k, f) fs /\ In (k, g) gs /\ is_section f = is_section g /\ p = k :: q /\ compared (fst f) (fst g) q x y.
Proof.
  induction 1; auto.
  - destruct IHcompared as [(-> & E & F)|(k & f & g & q & A & B & C & -> & D)]; [discriminate|right; exists k, f, g, q; repeat split; auto; now apply cm_list].
  - destruct IHcompared as [(-> & E & F)|(k & f & g & q & A & B & C & -> & D)]; [discriminate|right; exists k, f, g, q; repeat split; auto; now apply cm_option].
  - destruct IHcompared as [(-> & E & F)|(k1 & f1 & g1 & q & A & B & C & -> & D)].
    + injection E as -> -> ->. injection F as -> -> ->. right. exists k, f, g, []. repeat split; auto. constructor.
    + right. exists k1, f1, g1, (q ++ [k])%list. repeat split; auto. eapply cm_field; eauto.
Qed.

Lemma compared_other a b p x y : compared a b p x y -> kind a <> kind b \/ (kind a <> 1 /\ kind a <> 5 /\ kind a <> 6) ->
  p = [] /\ x = a /\ y = b.
Proof.
  intros C N. induction C; auto; destruct IHC as (-> & <- & <-); cbn [kind] in N; lia.
Qed.

(** ** new and removed sections *)
Lemma section_struct (f : sfield) : is_section f = is_struct (fst f).
Proof. unfold is_section, is_struct. now destruct (fst f). Qed.

Lemma all_new_in t : forall path c, In c (all_new t path) <->
  exists n fs v k g q h, t = SStruct n fs v /\ In (k, g) fs /\ leaf_of g q h /\
    c = FieldAdded (path ++ k :: q) (fst h) (fm_default (snd h)) (fm_has_default (snd h)).
Proof.
  induction t as [p|i IH|l IH|k v IHk IHv|l IH|n fs v IH|i IH|n ms|l| ] using sty_ind'; intros path c;
    try (split; [intros []|intros (n0 & fs0 & v0 & k0 & g0 & q0 & h0 & E & _); discriminate]).
  rewrite all_new_struct, in_flat_map. rewrite Forall_forall in IH. split.
  - intros ([k g] & I & J). cbn [fst snd] in J. specialize (IH _ I). cbn [fst snd] in IH. rewrite <- section_struct in J.
    destruct (is_section g) eqn:Sg.
    + apply IH in J. destruct J as (n1 & fs1 & v1 & k1 & g1 & q1 & h1 & E & I1 & L & ->). rewrite <- app_assoc. cbn [app].
      exists n, fs, v, k, g, (k1 :: q1), h1. repeat split; auto. eapply leaf_sub; eauto.
    + destruct J as [<-|[]]. exists n, fs, v, k, g, [], g. repeat split; auto. now constructor.
  - intros (n1 & fs1 & v1 & k & g & q & h & E & I & L & ->). injection E as <- <- <-. exists (k, g). split; [exact I|].
    cbn [fst snd]. specialize (IH _ I). cbn [fst snd] in IH. rewrite <- section_struct. destruct L as [f Sf|f n2 fs2 v2 k2 g2 q h Ef I2 L].
    + rewrite Sf. now left.
    + assert (Sf : is_section f = true) by (unfold is_section; now rewrite Ef). rewrite Sf. apply IH.
      exists n2, fs2, v2, k2, g2, q, h. rewrite <- app_assoc. auto.
Qed.

Lemma all_gone_in t : forall path c, In c (all_gone t path) <->
  exists n fs v k g q h, t = SStruct n fs v /\ In (k, g) fs /\ leaf_of g q h /\
    c = FieldRemoved (path ++ k :: q) (fst h) (fm_default (snd h)) (fm_has_default (snd h)).
Proof.
  induction t as [p|i IH|l IH|k v IHk IHv|l IH|n fs v IH|i IH|n ms|l| ] using sty_ind'; intros path c;
    try (split; [intros []|intros (n0 & fs0 & v0 & k0 & g0 & q0 & h0 & E & _); discriminate]).
  rewrite all_gone_struct, in_flat_map. rewrite Forall_forall in IH. split.
  - intros ([k g] & I & J). cbn [fst snd] in J. specialize (IH _ I). cbn [fst snd] in IH. rewrite <- section_struct in J.
    destruct (is_section g) eqn:Sg.
    + apply IH in J. destruct J as (n1 & fs1 & v1 & k1 & g1 & q1 & h1 & E & I1 & L & ->). rewrite <- app_assoc. cbn [app].
      exists n, fs, v, k, g, (k1 :: q1), h1. repeat split; auto. eapply leaf_sub; eauto.
    + destruct J as [<-|[]]. exists n, fs, v, k, g, [], g. repeat split; auto. now constructor.
  - intros (n1 & fs1 & v1 & k & g & q & h & E & I & L & ->). injection E as <- <- <-. exists (k, g). split; [exact I|].
    cbn [fst snd]. specialize (IH _ I). cbn [fst snd] in IH. rewrite <- section_struct. destruct L as [f Sf|f n2 fs2 v2 k2 g2 q h Ef I2 L].
    + rewrite Sf. now left.
    + assert (Sf : is_section f = true) by (unfold is_section; now rewrite Ef). rewrite Sf. apply IH.
      exists n2, fs2, v2, k2, g2, q, h. rewrite <- app_assoc. auto.
Qed.

(** the entries for one field that is only on one side *)
Lemma new_field_in path k g c :
  In c (if is_struct (fst g) then all_new (fst g) (path ++ [k])%list else [field_added path k g]) <->
  exists q h, leaf_of g q h /\ c = FieldAdded (path ++ k :: q) (fst h) (fm_default (snd h)) (fm_has_default (snd h)).
Proof.
  rewrite <- section_struct. destruct (is_section g) eqn:Sg.
  - rewrite all_new_in. split.
    + intros (n & fs & v & k1 & g1 & q & h & E & I & L & ->). rewrite <- app_assoc. exists (k1 :: q), h. split; [eapply leaf_sub; eauto|reflexivity].
    + intros (q & h & L & ->). destruct L as [f Sf|f n fs v k1 g1 q h Ef I L]; [congruence|].
      exists n, fs, v, k1, g1, q, h. rewrite <- app_assoc. auto.
  - split.
    + intros [<-|[]]. exists [], g. split; [now constructor|reflexivity].
    + intros (q & h & L & ->). destruct L as [f Sf|f n fs v k1 g1 q h Ef I L]; [now left|].
      unfold is_section in Sg. now rewrite Ef in Sg.
Qed.

Lemma old_field_in path k g c :
  In c (if is_struct (fst g) then all_gone (fst g) (path ++ [k])%list else [field_removed path k g]) <->
  exists q h, leaf_of g q h /\ c = FieldRemoved (path ++ k :: q) (fst h) (fm_default (snd h)) (fm_has_default (snd h)).
Proof.
  rewrite <- section_struct. destruct (is_section g) eqn:Sg.
  - rewrite all_gone_in. split.
    + intros (n & fs & v & k1 & g1 & q & h & E & I & L & ->). rewrite <- app_assoc. exists (k1 :: q), h. split; [eapply leaf_sub; eauto|reflexivity].
    + intros (q & h & L & ->). destruct L as [f Sf|f n fs v k1 g1 q h Ef I L]; [congruence|].
      exists n, fs, v, k1, g1, q, h. rewrite <- app_assoc. auto.
  - split.
    + intros [<-|[]]. exists [], g. split; [now constructor|reflexivity].
    + intros (q & h & L & ->). destruct L as [f Sf|f n fs v k1 g1 q h Ef I L]; [now left|].
      unfold is_section in Sg. now rewrite Ef in Sg.
Qed.

Lemma defaults_in path k (f g : sfield) c : In c (default_changes path k (snd f) (snd g)) <->
  (fm_has_default (snd f) = true /\ fm_has_default (snd g) = true /\ py_eq (fm_default (snd f)) (fm_default (snd g)) = false /\
   c = DefaultValueChanged (path ++ [k]) (fm_default (snd f)) (fm_default (snd g))) \/
  (fm_has_default (snd f) = true /\ fm_has_default (snd g) = false /\ c = DefaultValueRemoved (path ++ [k]) (fm_default (snd f))).
Proof.
  unfold default_changes. destruct (fm_has_default (snd f)), (fm_has_default (snd g)), (py_eq (fm_default (snd f)) (fm_default (snd g)));
    cbn [Bool.eqb negb andb In]; intuition congruence.
Qed.

Lemma sections_in fs gs path cs : sections fs gs path = Ok cs -> forall c, In c cs <->
  exists n g h, In (n, g) gs /\ field_section fs path n (fst g) (snd g) = Ok h /\ In c h.
Proof.
  revert cs. induction gs as [|[n [ft m]] gs IH]; intros cs H c.
  - injection H as <-. split; [intros []|intros (n & g & h & [] & _)].
  - apply sections_cons in H. destruct H as (here & rest & A & B & ->). rewrite in_app_iff, (IH _ B c). split.
    + intros [I|(n' & g & h & I & E & J)]; [exists n, (ft, m), here; repeat split; auto; now left|exists n', g, h; repeat split; auto; now right].
    + intros (n' & g & h & [I|I] & E & J); [injection I as <- <-; cbn [fst snd] in E; left; congruence|right; exists n', g, h; auto].
Qed.

(** what [field_section] says about one field of the new struct *)
Lemma field_section_in fs path n g h : field_section fs path n (fst g) (snd g) = Ok h -> NoDup (map fst fs) -> forall c, In c h <->
  (lacks fs n g /\ exists q e, leaf_of g q e /\ c = FieldAdded (path ++ n :: q) (fst e) (fm_default (snd e)) (fm_has_default (snd e))) \/
  (exists f, In (n, f) fs /\ is_section g <> is_section f /\ exists q e, leaf_of f q e /\
     c = FieldRemoved (path ++ n :: q) (fst e) (fm_default (snd e)) (fm_has_default (snd e))) \/
  (exists f, In (n, f) fs /\ is_section f = is_section g /\
     (In c (default_changes path n (snd f) (snd g)) \/
      exists cs, find_changes (fst f) (fst g) (path ++ [n])%list = Ok cs /\ In c cs)).
Proof.
  intros H N c. unfold field_section in H. destruct (aget n fs) as [[ot om]|] eqn:A.
  - assert (I : In (n, (ot, om)) fs) by now apply aget_some_in.
    assert (U : forall f, In (n, f) fs -> f = (ot, om)) by (intros f J; apply in_nodup_aget in J; [congruence|exact N]).
    destruct (Bool.bool_dec (is_section (ot, om)) (is_section g)) as [Q|Q].
    + replace (is_struct (fst g) && negb (is_struct ot)) with false in H
        by (rewrite !section_struct in Q; cbn [fst] in Q; rewrite Q; now destruct (is_struct (fst g))).
      replace (is_struct ot && negb (is_struct (fst g))) with false in H
        by (rewrite !section_struct in Q; cbn [fst] in Q; rewrite Q; now destruct (is_struct (fst g))).
      destruct (find_changes ot (fst g) (path ++ [n])) as [inner|] eqn:F; [|discriminate]. cbn [rbind] in H. injection H as <-.
      rewrite in_app_iff. split.
      * intros J. right. right. exists (ot, om). repeat split; auto. cbn [fst snd]. destruct J as [J|J]; [right; eauto|now left].
      * intros [([L|(f & J & L)] & _)|[(f & J & L & _)|(f & J & _ & K)]].
        -- exfalso. apply L. change n with (fst (n, (ot, om))). now apply in_map.
        -- apply U in J. subst f. congruence.
        -- apply U in J. subst f. congruence.
        -- apply U in J. subst f. cbn [fst snd] in K. destruct K as [K|(cs & E & K)]; [now right|left; congruence].
    + assert (Lg : lacks fs n g) by (right; exists (ot, om); auto).
      assert (X : In c h <->
        In c (if is_struct (fst g) then all_new (fst g) (path ++ [n])%list else [field_added path n g]) \/
        In c (if is_struct (fst (ot, om)) then all_gone (fst (ot, om)) (path ++ [n])%list else [field_removed path n (ot, om)])).
      { rewrite !section_struct in Q. cbn [fst] in Q |- *. destruct (is_struct (fst g)), (is_struct ot); try congruence; cbn [andb negb] in H;
          injection H as <-; cbn [In]; destruct g; cbn [fst snd]; tauto. }
      rewrite X, new_field_in, old_field_in. split.
      * intros [J|J]; [left; auto|right; left; exists (ot, om); auto].
      * intros [(_ & J)|[(f & J & _ & K)|(f & J & K & _)]]; [now left|apply U in J; subst f; now right|apply U in J; subst f; congruence].
  - injection H as <-. assert (NI : forall f, ~ In (n, f) fs) by (intros f J; apply in_nodup_aget in J; [congruence|exact N]).
    replace ((fst g, snd g)) with g by now destruct g. rewrite new_field_in. split.
    + intros J. left. split; [left; now apply aget_none_notin|exact J].
    + intros [(_ & J)|[(f & J & _)|(f & J & _)]]; [exact J|now apply NI in J|now apply NI in J].
Qed.

Lemma removed_in path gs fs c : In c (removed_fields path gs fs) <->
  exists k f, In (k, f) fs /\ ~ In k (map fst gs) /\ exists q h, leaf_of f q h /\
    c = FieldRemoved (path ++ k :: q) (fst h) (fm_default (snd h)) (fm_has_default (snd h)).
Proof.
  rewrite removed_fields_filter, in_flat_map. split.
  - intros ([k f] & I & J). apply filter_In in I. destruct I as [I M]. apply negb_true_iff, amem_in in M. cbn [fst] in M.
    unfold gone_section in J. cbn [fst snd] in J. apply old_field_in in J. eauto.
  - intros (k & f & I & M & J). exists (k, f). split.
    + apply filter_In. split; [exact I|]. apply negb_true_iff. cbn [fst]. unfold amem. destruct (aget k gs) as [g|] eqn:E; [|reflexivity].
      exfalso. apply M. apply aget_some_in in E. change k with (fst (k, g)). now apply in_map.
    + unfold gone_section. cbn [fst snd]. now apply old_field_in.
Qed.

Lemma find_struct_in n fs v n' gs v' path cs : NoDup (map fst fs) -> NoDup (map fst gs) ->
  find_changes (SStruct n fs v) (SStruct n' gs v') path = Ok cs -> forall c, In c cs <->
  local path (SStruct n fs v) (SStruct n' gs v') c \/
  exists k f g ds, In (k, f) fs /\ In (k, g) gs /\ is_section f = is_section g /\
    find_changes (fst f) (fst g) (path ++ [k])%list = Ok ds /\ In c ds.
Proof.
  intros Nf Ng H c. rewrite find_struct in H. destruct (sections fs gs path) as [ss|] eqn:S; [|discriminate]. cbn [rbind] in H. injection H as <-.
  assert (SF : forall k g, In (k, g) gs -> exists h, field_section fs path k (fst g) (snd g) = Ok h).
  { clear - S. revert ss S. induction gs as [|[k [ft m]] gs IH]; intros ss S k' g []; apply sections_cons in S; destruct S as (here & rest & A & B & ->).
    - injection H as <- <-. eauto.
    - eapply IH; eauto. }
  rewrite in_app_iff, (sections_in _ _ _ _ S), removed_in. split.
  - intros [(k & g & h & I & E & J)|(k & f & I & M & q & e & L & ->)].
    + apply (field_section_in _ _ _ _ _ E Nf) in J. destruct J as [(L & q & e & K & ->)|[(f & J & L & q & e & K & ->)|(f & J & L & [K|(ds & F & K)])]].
      * left. now apply l_added with g.
      * left. apply l_removed with f; auto. right. exists g. auto.
      * left. apply defaults_in in K. destruct K as [(A & B & C & ->)|(A & B & ->)]; [now apply l_default_changed|now apply l_default_removed with g].
      * right. exists k, f, g, ds. auto.
    + left. apply l_removed with f; auto. now left.
  - intros [L|(k & f & g & ds & A & B & C & D & E)].
    + inversion L as [x y K|n0 fs0 v0 n1 gs0 v1 k g q e I K M|n0 fs0 v0 n1 gs0 v1 k f q e I K M
        |n0 fs0 v0 n1 gs0 v1 k f g I J K A B C|n0 fs0 v0 n1 gs0 v1 k f g I J K A B| | | | |]; subst.
      * destruct K as [K|(p1 & p2 & K & _)]; [now elim K|discriminate].
      * left. destruct (SF k g I) as [h E]. exists k, g, h. repeat split; auto. apply (field_section_in _ _ _ _ _ E Nf). left. eauto.
      * destruct K as [K|(g & G & K)]; [right; eauto 10|]. left. destruct (SF k g G) as [h E]. exists k, g, h. repeat split; auto.
        apply (field_section_in _ _ _ _ _ E Nf). right. left. eauto 10.
      * left. destruct (SF k g J) as [h E]. exists k, g, h. repeat split; auto. apply (field_section_in _ _ _ _ _ E Nf).
        right. right. exists f. repeat split; auto. left. apply defaults_in. left. auto.
      * left. destruct (SF k g J) as [h E]. exists k, g, h. repeat split; auto. apply (field_section_in _ _ _ _ _ E Nf).
        right. right. exists f. repeat split; auto. left. apply defaults_in. right. auto.
    + left. destruct (SF k g B) as [h F]. exists k, g, h. repeat split; auto. apply (field_section_in _ _ _ _ _ F Nf).
      right. right. exists f. repeat split; auto. right. eauto.
Qed.

(** ** enums and literals *)
Lemma enum_in path n ws m vs c : NoDup (map fst ws) -> NoDup (map fst vs) ->
  In c (new_variants path m ws vs ++ gone_variants path m ws vs) <-> local path (SEnum n ws) (SEnum m vs) c.
Proof.
  intros Nw Nv. rewrite in_app_iff. unfold new_variants, gone_variants. rewrite !in_flat_map. split.
  - intros [([v x] & I & J)|([v x] & I & J)]; cbn [fst snd] in J.
    + destruct (aget v ws) as [w|] eqn:E.
      * destruct (py_eq w x) eqn:Q; [destruct J|]. destruct J as [<-|[]]. apply l_variant_value; auto. now apply aget_some_in.
      * destruct J as [<-|[]]. apply l_variant_added; auto. now apply aget_none_notin.
    + destruct (amem v vs) eqn:E; [destruct J|]. destruct J as [<-|[]]. apply l_variant_removed; auto. now apply amem_in.
  - intros L. inversion L as [x y K| | | | |n0 ws0 m0 vs0 v x I J|n0 ws0 m0 vs0 v x I J|n0 ws0 m0 vs0 v x y I J K| |]; subst.
    + destruct K as [K|(p1 & p2 & K & _)]; [now elim K|discriminate].
    + left. exists (v, x). split; [exact I|]. cbn [fst snd]. destruct (aget v ws) as [w|] eqn:E; [|now left].
      exfalso. apply J. apply aget_some_in in E. change v with (fst (v, w)). now apply in_map.
    + right. exists (v, x). split; [exact I|]. cbn [fst snd]. unfold amem. destruct (aget v vs) as [w|] eqn:E; [|now left].
      exfalso. apply J. apply aget_some_in in E. change v with (fst (v, w)). now apply in_map.
    + left. exists (v, y). split; [exact J|]. cbn [fst snd]. apply in_nodup_aget in I; [|exact Nw]. rewrite I, K. now left.
Qed.

Lemma literal_in path ws vs c : In c (literal_changes path ws vs) <-> local path (SLit ws) (SLit vs) c.
Proof.
  unfold literal_changes. rewrite in_app_iff.
  change (set_minus vs ws) with (others vs ws). change (set_minus ws vs) with (others ws vs). split.
  - intros [J|J].
    + destruct (others vs ws) eqn:E; [destruct J|]. destruct J as [<-|[]]. rewrite <- E. apply l_values_added. now rewrite E.
    + destruct (others ws vs) eqn:E; [destruct J|]. destruct J as [<-|[]]. rewrite <- E. apply l_values_removed. now rewrite E.
  - intros L. inversion L as [x y K| | | | | | | |ws0 vs0 N|ws0 vs0 N]; subst.
    + destruct K as [K|(p1 & p2 & K & _)]; [now elim K|discriminate].
    + left. destruct (others vs ws); [now elim N|now left].
    + right. destruct (others ws vs); [now elim N|now left].
Qed.

Lemma prim_in path p q c : In c (if String.eqb p q then [] else [TypeChanged path (SPrim p) (SPrim q)]) <-> local path (SPrim p) (SPrim q) c.
Proof.
  destruct (String.eqb_spec p q) as [->|N]; split.
  - intros [].
  - intros L. inversion L as [x y K| | | | | | | | |]; subst. destruct K as [K|(p1 & p2 & K1 & K2 & K)]; [now elim K|]. congruence.
  - intros [<-|[]]. apply l_type. right. eauto.
  - intros L. inversion L; subst. now left.
Qed.

Lemma clash_in path x y c : kind x <> kind y -> In c [TypeChanged path x y] <-> local path x y c.
Proof.
  intros K. split.
  - intros [<-|[]]. apply l_type. now left.
  - intros L. destruct L; try (cbn [kind] in K; congruence). now left.
Qed.

Lemma local_one a b path c : (kind a <> kind b \/ (kind a <> 1 /\ kind a <> 5 /\ kind a <> 6)) ->
  (exists p x y, compared a b p x y /\ local (path ++ p) x y c) <-> local path a b c.
Proof.
  intros N. split.
  - intros (p & x & y & C & L). destruct (compared_other _ _ _ _ _ C N) as (-> & -> & ->). now rewrite app_nil_r in L.
  - intros L. exists [], a, b. rewrite app_nil_r. split; [constructor|exact L].
Qed.

Lemma local_same x y path c : local path x y c -> kind x = kind y -> kind x = 0 \/ kind x = 5 \/ kind x = 7 \/ kind x = 8.
Proof. destruct 1; cbn [kind]; intros E; auto. destruct H as [H|(p & q & -> & _)]; [congruence|now left]. Qed.

(** ** the differences *)
Lemma find_report new : forall old path cs, distinct_names old -> distinct_names new ->
  find_changes old new path = Ok cs ->
  forall c, In c cs <-> exists p x y, compared old new p x y /\ local (path ++ p) x y c.
Proof.
  induction new as [p|i IH|l IH|k v IHk IHv|l IH|n gs ver IH|i IH|n ms|l| ] using sty_ind'; intros old path cs Do Dn H c;
    destruct old as [q|j|l'|k' v'|l'|n' fs ver'|j|n' ws|ws| ];
    try (cbn [find_changes] in H; injection H as <-; rewrite clash_in by (cbn [kind]; discriminate); symmetry; apply local_one; left; cbn [kind]; discriminate);
    try discriminate H.
  - cbn [find_changes] in H. injection H as <-. rewrite prim_in, local_one; [reflexivity|right; cbn [kind]; lia].
  - cbn [find_changes] in H. rewrite (IH j path cs Do Dn H c). split; intros (p & x & y & C & L).
    + exists p, x, y. split; [|exact L]. apply (compared_trans _ _ [] _ _ p _ _ (cm_list _ _ _ _ _ (cm_root _ _)) C).
    + apply compared_list in C. destruct C as [(-> & -> & ->)|C]; [|eauto].
      apply local_same in L; [|reflexivity]. cbn [kind] in L. lia.
  - apply distinct_struct in Dn, Do. destruct Dn as [Ng Dn]. destruct Do as [Nf Do]. rewrite Forall_forall in IH, Dn, Do.
    rewrite (find_struct_in _ _ _ _ _ _ _ _ Nf Ng H c). split.
    + intros [L|(k & f & g & ds & A & B & C & F & E)].
      * exists [], (SStruct n' fs ver'), (SStruct n gs ver). rewrite app_nil_r. split; [constructor|exact L].
      * apply (IH _ B (fst f) (path ++ [k])%list ds (Do _ A) (Dn _ B) F c) in E. destruct E as (p & x & y & Q & L).
        rewrite <- app_assoc in L. exists (k :: p), x, y. split; [|exact L].
        apply (compared_trans _ _ [k] (fst f) (fst g) p); [|exact Q]. change [k] with ([] ++ [k])%list. eapply cm_field; eauto. constructor.
    + intros (p & x & y & C & L). apply compared_struct in C. destruct C as [(-> & -> & ->)|(k & f & g & q & A & B & C & -> & Q)].
      * left. now rewrite app_nil_r in L.
      * right. rewrite find_struct in H. destruct (sections fs gs path) as [ss|] eqn:S; [|discriminate].
        assert (SF : exists h, field_section fs path k (fst g) (snd g) = Ok h).
        { clear - S B. revert ss S. induction gs as [|[k' [ft m]] gs IH]; intros ss S; apply sections_cons in S || destruct B.
          destruct S as (here & rest & A & B' & ->). destruct B as [B|B]; [injection B as <- <-; eauto|eapply IH; eauto]. }
        destruct SF as [h SF]. unfold field_section in SF. pose proof (in_nodup_aget _ _ _ Nf A) as AG. unfold sfield in *. rewrite AG in SF. destruct f as [ot om]. cbn [fst] in *.
        assert (FD : exists ds, find_changes ot (fst g) (path ++ [k])%list = Ok ds).
        { rewrite !section_struct in C. cbn [fst] in C. rewrite C in SF.
          destruct (find_changes ot (fst g) (path ++ [k])) as [ds|]; [eauto|]. destruct (is_struct (fst g)); discriminate SF. }
        destruct FD as [ds F]. exists k, (ot, om), g, ds. repeat split; auto.
        apply (proj2 (IH (k, g) B ot (path ++ [k])%list ds (Do _ A) (Dn _ B) F c)). exists q, x, y. rewrite <- app_assoc. auto.
  - cbn [find_changes] in H. rewrite (IH j path cs Do Dn H c). split; intros (p & x & y & C & L).
    + exists p, x, y. split; [|exact L]. apply (compared_trans _ _ [] _ _ p _ _ (cm_option _ _ _ _ _ (cm_root _ _)) C).
    + apply compared_option in C. destruct C as [(-> & -> & ->)|C]; [|eauto].
      apply local_same in L; [|reflexivity]. cbn [kind] in L. lia.
  - cbn [find_changes] in H. injection H as <-. rewrite (enum_in _ n') by assumption. rewrite local_one; [reflexivity|right; cbn [kind]; lia].
  - cbn [find_changes] in H. injection H as <-. rewrite literal_in, local_one; [reflexivity|right; cbn [kind]; lia].
Qed.

(** ** when the comparison succeeds *)
Lemma sections_ok fs gs path : (forall k g, In (k, g) gs -> exists h, field_section fs path k (fst g) (snd g) = Ok h) ->
  exists ss, sections fs gs path = Ok ss.
Proof.
  induction gs as [|[k [ft m]] gs IH]; intros H; [now exists []|].
  destruct (H k (ft, m) (or_introl eq_refl)) as [h E]. destruct IH as [ss S]; [intros k' g I; apply H; now right|].
  exists (h ++ ss)%list. cbn [sections]. cbn [fst snd] in E. rewrite E. cbn [rbind]. now rewrite S.
Qed.

Lemma sections_each fs gs path ss : sections fs gs path = Ok ss -> forall k g, In (k, g) gs ->
  exists h, field_section fs path k (fst g) (snd g) = Ok h.
Proof.
  revert ss. induction gs as [|[k [ft m]] gs IH]; intros ss S k' g I; [destruct I|]. apply sections_cons in S.
  destruct S as (here & rest & A & B & ->). destruct I as [I|I]; [injection I as <- <-; eauto|eapply IH; eauto].
Qed.

Lemma find_succeeds new : forall old path, distinct_names old -> distinct_names new ->
  (exists cs, find_changes old new path = Ok cs) <-> comparable_pair old new.
Proof.
  induction new as [p|i IH|l IH|k v IHk IHv|l IH|n gs ver IH|i IH|n ms|l| ] using sty_ind'; intros old path Do Dn;
    destruct old as [q|j|l'|k' v'|l'|n' fs ver'|j|n' ws|ws| ];
    try (split; [|intros _; eexists; reflexivity]; intros _ p0 x y C K;
         destruct (compared_other _ _ _ _ _ C ltac:(cbn [kind]; lia)) as (-> & -> & ->); (exact I || discriminate K));
    try (split; [intros [cs H]; discriminate H|intros H; destruct (H [] _ _ (cm_root _ _) eq_refl)]).
  - cbn [find_changes]. rewrite (IH j path Do Dn). split; intros H p x y C.
    + apply compared_list in C. destruct C as [(-> & -> & ->)|C]; [intros _; exact I|now apply (H p)].
    + apply (H p). apply (compared_trans _ _ [] _ _ p _ _ (cm_list _ _ _ _ _ (cm_root _ _)) C).
  - apply distinct_struct in Dn, Do. destruct Dn as [Ng Dn]. destruct Do as [Nf Do]. rewrite Forall_forall in IH, Dn, Do.
    assert (FD : forall k f g, In (k, f) fs -> In (k, g) gs -> is_section f = is_section g ->
      (exists h, field_section fs path k (fst g) (snd g) = Ok h) <-> exists ds, find_changes (fst f) (fst g) (path ++ [k])%list = Ok ds).
    { intros k f g A B C. unfold field_section. pose proof (in_nodup_aget _ _ _ Nf A) as AG. destruct f as [ot om]. unfold sfield in *. rewrite AG.
      rewrite !section_struct in C. cbn [fst] in C |- *. rewrite C.
      destruct (find_changes ot (fst g) (path ++ [k])) as [ds|]; destruct (is_struct (fst g)); cbn [andb negb rbind];
        (split; [intros [h E]; first [discriminate E|eauto]|intros [ds' E]; first [discriminate E|eauto]]). }
    rewrite find_struct. split.
    + intros [cs H] p x y C. destruct (sections fs gs path) as [ss|] eqn:Q; [|discriminate H].
      apply compared_struct in C. destruct C as [(-> & -> & ->)|(k & f & g & q & A & B & C & -> & W)]; [intros _; exact I|].
      assert (FS : exists ds, find_changes (fst f) (fst g) (path ++ [k])%list = Ok ds)
        by (apply FD; auto; eapply sections_each; eauto).
      apply (IH (k, g) B (fst f) (path ++ [k])%list (Do _ A) (Dn _ B)) in FS. now apply (FS q).
    + intros H. destruct (sections_ok fs gs path) as [ss ->]; [|cbn [rbind]; eauto].
      intros k g B. destruct (aget k fs) as [[ot om]|] eqn:AG.
      * assert (A : In (k, (ot, om)) fs) by now apply aget_some_in.
        destruct (Bool.bool_dec (is_section (ot, om)) (is_section g)) as [Q|Q].
        -- apply (FD k (ot, om) g A B Q). apply (IH (k, g) B ot (path ++ [k])%list (Do _ A) (Dn _ B)).
           intros p x y C. apply (H (k :: p)). apply (compared_trans _ _ [k] ot (fst g) p); [|exact C].
           change [k] with ([] ++ [k])%list. change ot with (fst (ot, om)). eapply cm_field; eauto. constructor.
        -- unfold field_section. unfold sfield in *. rewrite AG. rewrite !section_struct in Q. cbn [fst] in Q.
           destruct (is_struct (fst g)), (is_struct ot); try congruence; cbn [andb negb]; eauto.
      * unfold field_section. unfold sfield in *. rewrite AG. eauto.
  - cbn [find_changes]. rewrite (IH j path Do Dn). split; intros H p x y C.
    + apply compared_option in C. destruct C as [(-> & -> & ->)|C]; [intros _; exact I|now apply (H p)].
    + apply (H p). apply (compared_trans _ _ [] _ _ p _ _ (cm_option _ _ _ _ _ (cm_root _ _)) C).
Qed.

(** ** what the rename passes make of it *)
Section Passes.
  Variable isA isR : change -> bool.
  Variable sim : change -> change -> option pyfloat.
  Variable ren : change -> change -> change.

  Lemma matching_kept before after c : matching isA isR sim ren before after -> isA c = false -> isR c = false -> In c before -> In c after.
  Proof.
    intros (pairs & rest & -> & P & _ & Q & _) A R I. apply (Permutation_in _ P) in I. rewrite !in_app_iff in I. apply in_app_iff.
    destruct I as [I|[I|I]]; [now left| |]; apply in_map_iff in I; destruct I as ([r a] & E & I); cbn [fst snd] in E; subst; apply Q in I; intuition congruence.
  Qed.

  Lemma matching_from before after c : matching isA isR sim ren before after -> In c after ->
    In c before \/ exists r a, In r before /\ In a before /\ isR r = true /\ isA a = true /\ similar sim r a /\ c = ren a r.
  Proof.
    intros (pairs & rest & -> & P & _ & Q & _) I. apply in_app_iff in I. apply Permutation_sym in P. destruct I as [I|I].
    - left. apply (Permutation_in _ P). apply in_app_iff. now left.
    - right. apply in_map_iff in I. destruct I as ([r a] & <- & I). exists r, a. destruct (Q r a I) as (R & A & Z). repeat split; auto.
      + apply (Permutation_in _ P). rewrite !in_app_iff. right. left. change r with (fst (r, a)). now apply in_map.
      + apply (Permutation_in _ P). rewrite !in_app_iff. right. right. change a with (snd (r, a)). now apply in_map.
  Qed.

  Lemma matching_removed before after r : matching isA isR sim ren before after -> In r before -> isR r = true -> isA r = false ->
    In r after \/ exists a, isA a = true /\ In a before /\ In (ren a r) after.
  Proof.
    intros (pairs & rest & -> & P & _ & Q & _) I R NA. pose proof (Permutation_in _ P I) as J. rewrite !in_app_iff in J.
    destruct J as [J|[J|J]]; [left; apply in_app_iff; now left| |]; apply in_map_iff in J; destruct J as ([r' a] & E & J); cbn [fst snd] in E; subst.
    - right. exists a. destruct (Q _ _ J) as (_ & A & _). split; [exact A|]. split.
      + apply (Permutation_in _ (Permutation_sym P)). rewrite !in_app_iff. right. right. change a with (snd (r, a)). now apply in_map.
      + apply in_app_iff. right. apply in_map_iff. now exists (r, a).
    - apply Q in J. intuition congruence.
  Qed.

  Lemma matching_added before after a : matching isA isR sim ren before after -> In a before -> isA a = true -> isR a = false ->
    In a after \/ exists r, isR r = true /\ In r before /\ In (ren a r) after.
  Proof.
    intros (pairs & rest & -> & P & _ & Q & _) I A NR. pose proof (Permutation_in _ P I) as J. rewrite !in_app_iff in J.
    destruct J as [J|[J|J]]; [left; apply in_app_iff; now left| |]; apply in_map_iff in J; destruct J as ([r a'] & E & J); cbn [fst snd] in E; subst.
    - apply Q in J. intuition congruence.
    - right. exists r. destruct (Q _ _ J) as (R & _ & _). split; [exact R|]. split.
      + apply (Permutation_in _ (Permutation_sym P)). rewrite !in_app_iff. right. left. change r with (fst (r, a)). now apply in_map.
      + apply in_app_iff. right. apply in_map_iff. now exists (r, a).
  Qed.

  (* two similar entries are not both left *)
  Lemma matching_unpaired before after r a : matching isA isR sim ren before after ->
    (forall r a, isR r = true -> isA a = true -> isR (ren a r) = false /\ isA (ren a r) = false) ->
    In r after -> In a after -> isR r = true -> isA a = true -> ~ similar sim r a.
  Proof.
    intros (pairs & rest & -> & _ & _ & Q & L & _) NR Ir Ia R A. apply in_app_iff in Ir, Ia.
    assert (X : forall c, In c (map (fun p => ren (snd p) (fst p)) pairs) -> isR c = false /\ isA c = false).
    { intros c I. apply in_map_iff in I. destruct I as ([r' a'] & <- & I). destruct (Q _ _ I) as (R' & A' & _). now apply NR. }
    destruct Ir as [Ir|Ir]; [|apply X in Ir; destruct Ir; congruence]. destruct Ia as [Ia|Ia]; [|apply X in Ia; destruct Ia; congruence].
    now apply L.
  Qed.
End Passes.

Lemma nodup_key_eq (cs : list change) x y : NoDup (map change_key cs) -> In x cs -> In y cs -> change_key x = change_key y -> x = y.
Proof.
  induction cs as [|c cs IH]; intros N I J E; [destruct I|]. cbn [map] in N. inversion N; subst.
  destruct I as [<-|I], J as [<-|J]; auto.
  - elim H1. rewrite E. now apply in_map.
  - elim H1. rewrite <- E. now apply in_map.
Qed.

Lemma nodup_app_l {A} (l m : list A) : NoDup (l ++ m) -> NoDup l.
Proof. induction l as [|x l IH]; intros N; [constructor|]. inversion N; subst. constructor; [|now apply IH]. intros I. apply H1, in_app_iff. now left. Qed.
Lemma nodup_app_r {A} (l m : list A) : NoDup (l ++ m) -> NoDup m.
Proof. induction l as [|x l IH]; intros N; [exact N|]. inversion N; subst. now apply IH. Qed.
Lemma nodup_app_not {A} (l m : list A) x : NoDup (l ++ m) -> In x l -> In x m -> False.
Proof. induction l as [|y l IH]; intros N I J; [destruct I|]. inversion N; subst. destruct I as [->|I]; [apply H1, in_app_iff; now right|now apply IH]. Qed.

(** no field of a pair is reported again *)
Lemma renames_once before after : NoDup (map change_key before) -> (forall p q, ~ In (FieldRenamed p q) before) ->
  matching is_FieldAdded is_FieldRemoved field_similarity field_renamed before after ->
  (forall p q, In (FieldRenamed p q) after ->
     (forall t d h, ~ In (FieldRemoved p t d h) after) /\ (forall t d h, ~ In (FieldAdded q t d h) after) /\
     (forall q', In (FieldRenamed p q') after -> q = q') /\ (forall p', In (FieldRenamed p' q) after -> p = p')).
Proof.
  intros N NR (pairs & rest & -> & P & _ & Q & _).
  assert (N' : NoDup (map change_key (rest ++ map fst pairs ++ map snd pairs)))
    by (eapply Permutation_NoDup; [apply Permutation_map; exact P|exact N]).
  rewrite !map_app in N'.
  assert (RR : forall p q, ~ In (FieldRenamed p q) rest).
  { intros p q I. apply (NR p q). apply (Permutation_in _ (Permutation_sym P)), in_app_iff. now left. }
  assert (PR : forall p q, In (FieldRenamed p q) (rest ++ map (fun x => field_renamed (snd x) (fst x)) pairs) ->
    exists t d h t' d' h', In (FieldRemoved p t d h, FieldAdded q t' d' h') pairs).
  { intros p q I. apply in_app_iff in I. destruct I as [I|I]; [now apply RR in I|]. apply in_map_iff in I. destruct I as ([r a] & E & I).
    destruct (Q r a I) as (R & A & _). cbn [fst snd] in E. destruct r; try discriminate R. destruct a; try discriminate A.
    cbn [field_renamed] in E. injection E as -> ->. eauto 10. }
  assert (PN : forall c, In c (map (fun x => field_renamed (snd x) (fst x)) pairs) -> exists p q, c = FieldRenamed p q).
  { intros c I. apply in_map_iff in I. destruct I as ([r a] & <- & I). destruct (Q r a I) as (R & A & _).
    destruct r; try discriminate R. destruct a; try discriminate A. cbn. eauto. }
  intros p q I. destruct (PR p q I) as (t & d & h & t' & d' & h' & J).
  assert (Jr : In (FieldRemoved p t d h) (map fst pairs)) by exact (in_map fst _ _ J).
  assert (Ja : In (FieldAdded q t' d' h') (map snd pairs)) by exact (in_map snd _ _ J).
  repeat split.
  - intros t1 d1 h1 K. apply in_app_iff in K. destruct K as [K|K]; [|apply PN in K; destruct K as (a & b & K); discriminate].
    apply (nodup_app_not _ _ (change_key (FieldRemoved p t1 d1 h1)) N'); [now apply in_map|]. apply in_app_iff. left.
    apply (in_map change_key) in Jr. exact Jr.
  - intros t1 d1 h1 K. apply in_app_iff in K. destruct K as [K|K]; [|apply PN in K; destruct K as (a & b & K); discriminate].
    apply (nodup_app_not _ _ (change_key (FieldAdded q t1 d1 h1)) N'); [now apply in_map|]. apply in_app_iff. right.
    apply (in_map change_key) in Ja. exact Ja.
  - intros q' K. destruct (PR p q' K) as (t1 & d1 & h1 & t2 & d2 & h2 & L). apply nodup_app_r, nodup_app_l in N'. rewrite map_map in N'.
    assert (E : (FieldRemoved p t d h, FieldAdded q t' d' h') = (FieldRemoved p t1 d1 h1, FieldAdded q' t2 d2 h2)); [|congruence].
    clear - N' J L. induction pairs as [|x pairs IH]; [destruct J|]. cbn [map] in N'. inversion N'; subst.
    destruct J as [->|J], L as [E|L]; auto.
    + elim H1. apply (in_map (fun x => change_key (fst x))) in L. exact L.
    + subst x. elim H1. apply (in_map (fun x => change_key (fst x))) in J. exact J.
  - intros p' K. destruct (PR p' q K) as (t1 & d1 & h1 & t2 & d2 & h2 & L). apply nodup_app_r, nodup_app_r in N'. rewrite map_map in N'.
    assert (E : (FieldRemoved p t d h, FieldAdded q t' d' h') = (FieldRemoved p' t1 d1 h1, FieldAdded q t2 d2 h2)); [|congruence].
    clear - N' J L. induction pairs as [|x pairs IH]; [destruct J|]. cbn [map] in N'. inversion N'; subst.
    destruct J as [->|J], L as [E|L]; auto.
    + elim H1. apply (in_map (fun x => change_key (snd x))) in L. exact L.
    + subst x. elim H1. apply (in_map (fun x => change_key (snd x))) in J. exact J.
Qed.

Lemma no_renames old new c : difference old new c -> match c with FieldRenamed _ _ | EnumVariantRenamed _ _ _ _ => False | _ => True end.
Proof. intros (p & x & y & _ & L). destruct L; exact I. Qed.

Lemma variants_only c : is_VariantAdded c = true \/ is_VariantRemoved c = true -> is_FieldAdded c = false /\ is_FieldRemoved c = false.
Proof. destruct c; cbn; intuition discriminate. Qed.

Lemma report_accounts old new k : distinct_names old -> distinct_names new ->
  compare_schemas old new = Ok k -> accounts old new (ck_changes k).
Proof.
  intros Do Dn H. destruct (find_changes old new []) as [cs|] eqn:F; [|unfold compare_schemas in H; rewrite F in H; discriminate H].
  destruct (compare_ok _ _ _ Do Dn F) as (c2 & c3 & E & M2 & M3). rewrite E in H. injection H as <-. cbn [ck_changes]. clear E.
  assert (D : forall c, In c cs <-> difference old new c).
  { intros c. rewrite (find_report _ _ _ _ Do Dn F c). reflexivity. }
  destruct (find_keyed new old [] cs Dn Do F) as [N _].
  assert (NR : forall p q, ~ In (FieldRenamed p q) cs) by (intros p q I; apply D, no_renames in I; exact I).
  assert (VS : forall c, In c c2 -> (is_VariantAdded c = true \/ is_VariantRemoved c = true) -> In c cs).
  { intros c I V. destruct (matching_from _ _ _ _ _ _ _ M2 I) as [J|(r & a & _ & _ & R & A & _ & ->)]; [exact J|].
    destruct r; try discriminate R; destruct a; try discriminate A; destruct V; discriminate. }
  (* entries neither pass makes *)
  assert (PL : forall c, is_FieldAdded c = false -> is_FieldRemoved c = false -> is_VariantAdded c = false -> is_VariantRemoved c = false ->
    In c cs -> In c c3).
  { intros c A B C Dd I. apply (matching_kept _ _ _ _ _ _ _ M3 C Dd). now apply (matching_kept _ _ _ _ _ _ _ M2 A B). }
  assert (FR : forall c, In c c3 -> In c c2 \/ (exists p e v x p' e' v' x', In (EnumVariantAdded p e v x) cs /\ In (EnumVariantRemoved p' e' v' x') cs /\
      c = (if negb (py_eq x' x) then EnumVariantValueChanged p' e v' x' x else EnumVariantRenamed p e v' v))).
  { intros c I. destruct (matching_from _ _ _ _ _ _ _ M3 I) as [J|(r & a & Ir & Ia & R & A & _ & ->)]; [now left|]. right.
    apply VS in Ir, Ia; auto. destruct r; try discriminate R; destruct a; try discriminate A. cbn [enum_renamed]. do 8 eexists. eauto. }
  assert (BK : forall c, In c c2 -> In c cs \/ exists p q t d h t' d' h', In (FieldRemoved p t d h) cs /\ In (FieldAdded q t' d' h') cs /\
      similar field_similarity (FieldRemoved p t d h) (FieldAdded q t' d' h') /\ c = FieldRenamed p q).
  { intros c I. destruct (matching_from _ _ _ _ _ _ _ M2 I) as [J|(r & a & Ir & Ia & R & A & Z & ->)]; [now left|]. right.
    destruct r; try discriminate R; destruct a; try discriminate A. cbn [field_renamed]. do 8 eexists. eauto. }
  assert (OK : forall c, match c with EnumVariantValueChanged _ _ _ _ _ | EnumVariantRenamed _ _ _ _ | FieldRenamed _ _ => False | _ => True end -> In c c3 -> difference old new c).
  { intros c NC I. apply FR in I. destruct I as [I|(p & e & v & x & p' & e' & v' & x' & _ & _ & ->)]; [|destruct (negb _); destruct NC].
    apply BK in I. destruct I as [I|(p & q & t & d & h & t' & d' & h' & _ & _ & _ & ->)]; [now apply D|destruct NC]. }
  assert (K23 : forall c, is_VariantAdded c = false -> is_VariantRemoved c = false -> In c c2 -> In c c3)
    by (intros c A B; apply (matching_kept _ _ _ _ _ _ _ M3 A B)).
  assert (K32 : forall c, match c with EnumVariantValueChanged _ _ _ _ _ | EnumVariantRenamed _ _ _ _ => False | _ => True end -> In c c3 -> In c c2).
  { intros c NC I. apply FR in I. destruct I as [I|(p & e & v & x & p' & e' & v' & x' & _ & _ & ->)]; [exact I|destruct (negb _); destruct NC]. }
  pose proof (renames_once cs c2 N NR M2) as ONCE.
  constructor.
  - intros p x y. split; [now apply OK|]. intros I. apply PL; auto. now apply D.
  - intros p x y. split; [now apply OK|]. intros I. apply PL; auto. now apply D.
  - intros p x. split; [now apply OK|]. intros I. apply PL; auto. now apply D.
  - intros p x. split; [now apply OK|]. intros I. apply PL; auto. now apply D.
  - intros p x. split; [now apply OK|]. intros I. apply PL; auto. now apply D.
  - intros p t d h. split.
    + intros I. split; [now apply OK|]. intros q J. apply K32 in I, J; auto. destruct (ONCE _ _ J) as (X & _). now apply X in I.
    + intros [I X]. apply K23; auto. apply D in I. destruct (matching_removed _ _ _ _ _ _ _ M2 I eq_refl eq_refl) as [J|(a & A & Ia & J)]; [exact J|].
      destruct a; try discriminate A. cbn [field_renamed] in J. apply K23 in J; auto. now apply X in J.
  - intros p t d h. split.
    + intros I. split; [now apply OK|]. intros q J. apply K32 in I, J; auto. destruct (ONCE _ _ J) as (_ & X & _). now apply X in I.
    + intros [I X]. apply K23; auto. apply D in I. destruct (matching_added _ _ _ _ _ _ _ M2 I eq_refl eq_refl) as [J|(r & R & Ir & J)]; [exact J|].
      destruct r; try discriminate R. cbn [field_renamed] in J. apply K23 in J; auto. now apply X in J.
  - intros p q I. apply K32 in I; auto. apply BK in I. destruct I as [I|(p1 & q1 & t & d & h & t' & d' & h' & A & B & Z & E)]; [now apply NR in I|].
    injection E as -> ->. destruct Z as (x & Z & Zx). cbn [field_similarity] in Z.
    destruct (is_subtype t t') eqn:Z1; [|discriminate Z]. destruct (Bool.eqb h h') eqn:Z2; [|discriminate Z]. destruct (py_eq d d') eqn:Z3; [|discriminate Z].
    apply Bool.eqb_prop in Z2. subst h'. injection Z as <-. exists t, d, t', d', h. repeat split; auto; now apply D.
  - intros p t d h q t' d' I J Hs Hd. apply K32 in I, J; auto. destruct (SFltb one_tenth _) eqn:Q; [|reflexivity]. exfalso.
    refine (matching_unpaired _ _ _ _ _ _ _ _ M2 _ I J eq_refl eq_refl _).
    + intros r a R A. destruct r; try discriminate R. destruct a; try discriminate A. split; reflexivity.
    + eexists. split; [|exact Q]. cbn [field_similarity]. now rewrite Hs, Bool.eqb_reflx, Hd.
  - intros p q q' I J. apply K32 in I, J; auto. destruct (ONCE _ _ I) as (_ & _ & X & _). now apply X.
  - intros p p' q I J. apply K32 in I, J; auto. destruct (ONCE _ _ I) as (_ & _ & _ & X). now apply X.
  - intros p n v x I. apply D in I. apply (matching_kept _ _ _ _ _ _ _ M2) in I; [|reflexivity|reflexivity].
    destruct (matching_removed _ _ _ _ _ _ _ M3 I eq_refl eq_refl) as [J|(a & A & Ia & J)]; [now left|]. right.
    destruct a; try discriminate A. cbn [enum_renamed] in J. destruct (negb _); [right|left]; eauto.
  - intros p n v x I. apply D in I. apply (matching_kept _ _ _ _ _ _ _ M2) in I; [|reflexivity|reflexivity].
    destruct (matching_added _ _ _ _ _ _ _ M3 I eq_refl eq_refl) as [J|(r & R & Ir & J)]; [now left|]. right.
    destruct r; try discriminate R. cbn [enum_renamed] in J. destruct (negb _); [right|left]; eauto.
  - intros p n v x y I. apply PL; auto. now apply D.
  - intros c I. destruct c; try exact I.
    all: try exact Logic.I.
    + apply FR in I. destruct I as [I|(p & e & v & x & p' & e' & v' & x' & A & B & E)].
      * left. apply D. apply BK in I. destruct I as [I|(p & q & t & d & h & t' & d' & h' & _ & _ & _ & E)]; [exact I|discriminate E].
      * right. destruct (negb _); [|discriminate E]. injection E as -> -> -> -> ->. exists p, e', v. split; now apply D.
    + now apply OK.
    + now apply OK.
    + apply FR in I. destruct I as [I|(p & e & v & x & p' & e' & v' & x' & A & B & E)].
      * exfalso. apply BK in I. destruct I as [I|(p & q & t & d & h & t' & d' & h' & _ & _ & _ & E)]; [apply D, no_renames in I; exact I|discriminate E].
      * destruct (py_eq x' x) eqn:Q; cbn [negb] in E; [|discriminate E]. injection E as -> -> -> ->.
        exists p', e', x', x. split; [exact Q|]. split; now apply D.
Qed.

(** ** values by path *)
Lemma leaf_value f q h : leaf_of f q h -> is_section f = true -> value_field (fst f) q h.
Proof. intros L. destruct L as [f S|f n fs v k g q h E I L]; [congruence|]. intros _. rewrite E. econstructor; eauto. Qed.

Lemma leaf_plain f q h : leaf_of f q h -> is_section f = false -> q = [] /\ h = f.
Proof. intros L S. destruct L as [f _|f n fs v k g q h E I L]; [auto|]. unfold is_section in S. now rewrite E in S. Qed.

Lemma leaf_nonsection f q h : leaf_of f q h -> is_section h = false.
Proof. induction 1; auto. Qed.

Lemma value_nonsection t q h : value_field t q h -> is_section h = false.
Proof. destruct 1 as [n fs v k f q h I L]. exact (leaf_nonsection _ _ _ L). Qed.

Lemma value_leaf f q h : value_field (fst f) q h -> leaf_of f q h.
Proof. destruct f as [t m]. cbn [fst]. intros V. inversion V; subst. eapply leaf_sub; eauto. reflexivity. Qed.

(** a value of both schemas *)
Lemma values_compared a : forall b p f g, distinct_names a -> distinct_names b -> value_field a p f -> value_field b p g ->
  exists q n fs v n' gs v' k, compared a b q (SStruct n fs v) (SStruct n' gs v') /\ In (k, f) fs /\ In (k, g) gs /\ p = (q ++ [k])%list.
Proof.
  intros b p. revert a b. induction p as [|k p IH]; intros a b f g Da Db A B; inversion A as [n fs v k1 f1 q1 h1 I1 L1]; inversion B as [n' gs v' k2 g2 q2 h2 I2 L2]; subst.
  apply distinct_struct in Da, Db. destruct Da as [Nf Da]. destruct Db as [Ng Db]. rewrite Forall_forall in Da, Db.
  destruct (is_section f1) eqn:S1, (is_section g2) eqn:S2.
  - destruct (IH (fst f1) (fst g2) f g (Da _ I1) (Db _ I2) (leaf_value _ _ _ L1 S1) (leaf_value _ _ _ L2 S2)) as (q & n1 & fs1 & v1 & n2 & gs1 & v2 & j & C & X & Y & ->).
    exists (k :: q), n1, fs1, v1, n2, gs1, v2, j. repeat split; auto. apply (compared_trans _ _ [k] (fst f1) (fst g2) q); [|exact C].
    change [k] with ([] ++ [k])%list. eapply cm_field; eauto; first [congruence|constructor].
  - apply leaf_plain in L2; [|exact S2]. destruct L2 as [-> _]. apply leaf_value in L1; [|exact S1]. inversion L1.
  - apply leaf_plain in L1; [|exact S1]. destruct L1 as [-> _]. apply leaf_value in L2; [|exact S2]. inversion L2.
  - apply leaf_plain in L1; [|exact S1]. apply leaf_plain in L2; [|exact S2]. destruct L1 as [-> ->]. destruct L2 as [_ ->].
    exists [], n, fs, v, n', gs, v', k. repeat split; auto. constructor.
Qed.

Lemma section_inner f : is_section f = true -> exists n fs v, fst f = SStruct n fs v.
Proof. unfold is_section. destruct (fst f); try discriminate. eauto. Qed.

(** a value of the first schema only *)
Lemma value_gone p : forall n fs v n' gs v' f, distinct_names (SStruct n fs v) -> distinct_names (SStruct n' gs v') ->
  value_field (SStruct n fs v) p f -> (forall g, ~ value_field (SStruct n' gs v') p g) ->
  exists q n1 fs1 v1 n2 gs1 v2 k f1 r, compared (SStruct n fs v) (SStruct n' gs v') q (SStruct n1 fs1 v1) (SStruct n2 gs1 v2) /\
    In (k, f1) fs1 /\ lacks gs1 k f1 /\ leaf_of f1 r f /\ p = (q ++ k :: r)%list.
Proof.
  induction p as [|k p IH]; intros n fs v n' gs v' f Da Db A NB; inversion A as [n0 fs0 v0 k1 f1 q1 h1 I1 L1]; subst.
  apply distinct_struct in Da, Db. destruct Da as [Nf Da]. destruct Db as [Ng Db]. rewrite Forall_forall in Da, Db.
  destruct (aget k gs) as [g|] eqn:G.
  - assert (I2 : In (k, g) gs) by now apply aget_some_in. destruct (Bool.bool_dec (is_section g) (is_section f1)) as [E|E].
    + destruct (is_section f1) eqn:S1.
      * destruct (section_inner _ S1) as (n1 & fs1 & v1 & E1). destruct (section_inner _ E) as (n2 & gs1 & v2 & E2).
        pose proof (Da _ I1) as D1. pose proof (Db _ I2) as D2. cbn [snd] in D1, D2. rewrite E1 in D1. rewrite E2 in D2.
        apply leaf_value in L1; [|exact S1]. rewrite E1 in L1.
        destruct (IH n1 fs1 v1 n2 gs1 v2 f D1 D2 L1) as (q & n3 & fs3 & v3 & n4 & gs4 & v4 & j & f4 & r & C & X & Y & Z & ->).
        { intros h V. rewrite <- E2 in V. apply (NB h). econstructor; eauto. now apply value_leaf. }
        exists (k :: q), n3, fs3, v3, n4, gs4, v4, j, f4, r. repeat split; auto.
        rewrite <- E1, <- E2 in C. apply (compared_trans _ _ [k] (fst f1) (fst g) q); [|exact C].
        change [k] with ([] ++ [k])%list. eapply cm_field; eauto; first [congruence|constructor].
      * apply leaf_plain in L1; [|exact S1]. destruct L1 as [-> ->]. elim (NB g). econstructor; eauto. now constructor.
    + exists [], n, fs, v, n', gs, v', k, f1, p. repeat split; auto; [constructor|]. right. eauto.
  - exists [], n, fs, v, n', gs, v', k, f1, p. repeat split; auto; [constructor|]. left. now apply aget_none_notin.
Qed.

Lemma compared_sym a b p x y : compared a b p x y -> compared b a p y x.
Proof. induction 1; [constructor|now apply cm_list|now apply cm_option|]. eapply cm_field; eauto. Qed.

(** the differences between two classes as a user sees them *)
Lemma value_differences n fs v n' gs v' : let old := SStruct n fs v in let new := SStruct n' gs v' in
  distinct_names old -> distinct_names new ->
  (forall p f, value_field old p f -> (forall g, ~ value_field new p g) ->
     difference old new (FieldRemoved p (fst f) (fm_default (snd f)) (fm_has_default (snd f)))) /\
  (forall p g, value_field new p g -> (forall f, ~ value_field old p f) ->
     difference old new (FieldAdded p (fst g) (fm_default (snd g)) (fm_has_default (snd g)))) /\
  (forall p f g, value_field old p f -> value_field new p g ->
     (clash (fst f) (fst g) -> difference old new (TypeChanged p (fst f) (fst g))) /\
     (fm_has_default (snd f) = true -> fm_has_default (snd g) = true -> py_eq (fm_default (snd f)) (fm_default (snd g)) = false ->
        difference old new (DefaultValueChanged p (fm_default (snd f)) (fm_default (snd g)))) /\
     (fm_has_default (snd f) = true -> fm_has_default (snd g) = false ->
        difference old new (DefaultValueRemoved p (fm_default (snd f))))).
Proof.
  intros old new Do Dn. repeat split.
  - intros p f V NV. destruct (value_gone p n fs v n' gs v' f Do Dn V NV) as (q & n1 & fs1 & v1 & n2 & gs1 & v2 & k & f1 & r & C & I & L & Z & ->).
    exists q. do 2 eexists. split; [exact C|]. now apply l_removed with f1.
  - intros p f V NV. destruct (value_gone p n' gs v' n fs v f Dn Do V NV) as (q & n1 & fs1 & v1 & n2 & gs1 & v2 & k & f1 & r & C & I & L & Z & ->).
    exists q. do 2 eexists. split; [exact (compared_sym _ _ _ _ _ C)|]. now apply l_added with f1.
  - destruct (values_compared old new p f g Do Dn H H0) as (q & n1 & fs1 & v1 & n2 & gs1 & v2 & k & C & I & J & ->).
    intros K. exists (q ++ [k])%list, (fst f), (fst g). split; [|now apply l_type]. eapply cm_field; eauto.
    now rewrite (value_nonsection _ _ _ H), (value_nonsection _ _ _ H0).
  - destruct (values_compared old new p f g Do Dn H H0) as (q & n1 & fs1 & v1 & n2 & gs1 & v2 & k & C & I & J & ->).
    intros A B K. exists q. do 2 eexists. split; [exact C|]. apply l_default_changed; auto.
    now rewrite (value_nonsection _ _ _ H), (value_nonsection _ _ _ H0).
  - destruct (values_compared old new p f g Do Dn H H0) as (q & n1 & fs1 & v1 & n2 & gs1 & v2 & k & C & I & J & ->).
    intros A B. exists q. do 2 eexists. split; [exact C|]. apply l_default_removed with g; auto.
    now rewrite (value_nonsection _ _ _ H), (value_nonsection _ _ _ H0).
Qed.

Lemma path_eqb_refl p : path_eqb p p = true.
Proof. unfold path_eqb. induction p as [|x p IH]; [reflexivity|]. cbn. now rewrite String.eqb_refl. Qed.

Lemma checker_accounts old clz u k : schema_checker old clz u = Ok k ->
  distinct_names (ck_old k) -> distinct_names (ck_new k) -> accounts (ck_old k) (ck_new k) (ck_changes k).
Proof.
  intros H Do Dn.
  assert (C : compare_schemas (ck_old k) (ck_new k) = Ok k).
  { assert (P : forall a b k0, compare_schemas a b = Ok k0 -> ck_old k0 = a /\ ck_new k0 = b).
    { intros a b k0 E. unfold compare_schemas in E. apply rbind_ok in E as (c1 & _ & E). apply rbind_ok in E as (c2 & _ & E).
      apply rbind_ok in E as (c3 & _ & E). injection E as <-. auto. }
    unfold schema_checker in H. apply rbind_ok in H as (new & _ & H). destruct (negb (is_struct new)); [discriminate H|].
    apply rbind_ok in H as (old' & _ & H). destruct (P _ _ _ H) as [-> ->]. exact H. }
  now apply report_accounts.
Qed.

Lemma report_values old new k : distinct_names old -> distinct_names new ->
  is_struct old = true -> is_struct new = true -> compare_schemas old new = Ok k ->
  (forall p f, value_field old p f -> (forall g, ~ value_field new p g) ->
     In (FieldRemoved p (fst f) (fm_default (snd f)) (fm_has_default (snd f))) (ck_changes k) \/
     exists q, In (FieldRenamed p q) (ck_changes k)) /\
  (forall p g, value_field new p g -> (forall f, ~ value_field old p f) ->
     In (FieldAdded p (fst g) (fm_default (snd g)) (fm_has_default (snd g))) (ck_changes k) \/
     exists q, In (FieldRenamed q p) (ck_changes k)) /\
  (forall p f g, value_field old p f -> value_field new p g ->
     (clash (fst f) (fst g) -> In (TypeChanged p (fst f) (fst g)) (ck_changes k)) /\
     (fm_has_default (snd f) = true -> fm_has_default (snd g) = true -> py_eq (fm_default (snd f)) (fm_default (snd g)) = false ->
        In (DefaultValueChanged p (fm_default (snd f)) (fm_default (snd g))) (ck_changes k)) /\
     (fm_has_default (snd f) = true -> fm_has_default (snd g) = false ->
        In (DefaultValueRemoved p (fm_default (snd f))) (ck_changes k))).
Proof.
  intros Do Dn So Sn C. destruct old as [| | | | |n fs v| | | |]; try discriminate So. destruct new as [| | | | |n' gs v'| | | |]; try discriminate Sn.
  pose proof (report_accounts _ _ _ Do Dn C) as A. destruct (value_differences n fs v n' gs v' Do Dn) as (V1 & V2 & V3).
  assert (DEC : forall (P : change -> bool), (exists c, In c (ck_changes k) /\ P c = true) \/ forall c, In c (ck_changes k) -> P c = false).
  { intros P. destruct (existsb P (ck_changes k)) eqn:E; [left; now apply existsb_exists|right]. intros c I. destruct (P c) eqn:Q; [|reflexivity].
    assert (existsb P (ck_changes k) = true) by (apply existsb_exists; eauto). congruence. }
  repeat split.
  - intros p f V NV. specialize (V1 p f V NV).
    destruct (DEC (fun c => match c with FieldRenamed p' _ => path_eqb p' p | _ => false end)) as [(c & I & Q)|N].
    + right. destruct c; try discriminate Q. apply path_eqb_eq in Q. subst. eauto.
    + left. apply (ac_removed _ _ _ A). split; [exact V1|]. intros q I. apply N in I. cbn in I. now rewrite path_eqb_refl in I.
  - intros p f V NV. specialize (V2 p f V NV).
    destruct (DEC (fun c => match c with FieldRenamed _ p' => path_eqb p' p | _ => false end)) as [(c & I & Q)|N].
    + right. destruct c; try discriminate Q. apply path_eqb_eq in Q. subst. eauto.
    + left. apply (ac_added _ _ _ A). split; [exact V2|]. intros q I. apply N in I. cbn in I. now rewrite path_eqb_refl in I.
  - intros K. apply (ac_types _ _ _ A). now apply (V3 p f g).
  - intros X Y Z. apply (ac_defaults _ _ _ A). now apply (V3 p f g).
  - intros X Y. apply (ac_no_default _ _ _ A). now apply (V3 p f g).
Qed.

Lemma compare_succeeds old new : distinct_names old -> distinct_names new ->
  (exists k, compare_schemas old new = Ok k) <-> comparable_pair old new.
Proof.
  intros Do Dn. rewrite <- (find_succeeds new old [] Do Dn). split.
  - intros [k H]. unfold compare_schemas in H. apply rbind_ok in H as (cs & H & _). eauto.
  - intros [cs F]. destruct (compare_ok _ _ _ Do Dn F) as (c2 & c3 & E & _). eauto.
Qed.
