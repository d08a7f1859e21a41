(** NestValues.v -- what repaired files of configs with sub-configs mean (C55). *)
From Verif Require Import Base Value Schema Rewrite Sched Types Asdict FromDict Checker Induct AFacts SpecTypes SpecLoad SpecSubtype
  SpecRenames SpecCheck SpecCompat SpecFix SpecNest RoundTrip SchemaFacts RenameFacts FindFacts CheckFacts SubtypeFacts UpgradeFacts CompatFacts FromDictFacts LoadProps FixFacts
  NestFacts NestRules NestLoad NestFix.

Lemma flatc_field ch : change_field (flatc ch) = [enc (change_field ch)].
Proof. destruct ch; reflexivity. Qed.
Lemma flatc_about ch : about_default ch -> about_default (flatc ch).
Proof. now destruct ch. Qed.
Lemma flatc_widens ch : widens ch -> widens (flatc ch).
Proof. now destruct ch. Qed.

(** the object read from a file, leaf by leaf *)
Lemma all2_get E allow ff m hs o n : NoDup (field_names hs) -> all2 false (given E false allow ff m) hs o ->
  forall t d, aget n hs = Some (t, d) -> exists v, aget n o = Some v /\ read_at E allow ff t d (aget n m) v.
Proof.
  intros N A. revert o A. induction hs as [|[n0 [t0 d0]] hs IH]; intros [|[n1 v1] o] A t d G; cbn [all2] in A; try discriminate A; try discriminate G.
  destruct A as [[Q A1] A]. cbn [fst snd] in *. subst n1. inversion N as [|? ? N1 N2]; subst. cbn [aget] in G |- *.
  destruct (String.eqb_spec n n0) as [->|Hne]; [|now apply (IH N2 o A)]. injection G as <- <-. exists v1. split; [reflexivity|]. unfold read_at. destruct (aget n0 m); exact A1.
Qed.

Lemma split_value E allow ff q : forall c cn hs m o t d, names_differ (TData c hs) -> Inv (is_section hs) (VDict m) -> all (fun f : string * (ty * dflt) => unversioned (fst (snd f))) hs ->
  all2 false (given E false allow ff m) hs o -> leaf hs q = Some (t, d) -> exists v, attr_at (VObj cn o) q = Some v /\ read_at E allow ff t d (value_at (VDict m) q) v.
Proof.
  induction q as [|n q IH]; intros c cn hs m o t d [N1 N2] I U A L; [discriminate L|].
  destruct (leaf_case _ _ _ _ L) as [(c' & ts & d' & G & L')|(-> & G & D)].
  - destruct (all2_get E allow ff m hs o n N1 A _ _ G) as (v & Gv & R).
    destruct (inv_weak _ _ n I) as (mk & Gm & W); [unfold is_section; now rewrite section_cons, G|].
    rewrite all_in in U, N2. pose proof (U _ (aget_some_in _ _ _ G)) as [Uc Uf]. pose proof (N2 _ (aget_some_in _ _ _ G)) as Nk. cbn [fst snd] in *.
    unfold read_at in R. rewrite Gm, W in R. cbn [denotes] in R. destruct R as (y & items & o' & Ey & Ei & Ev & Kn & A'). cbn [deser_versioned] in Ey. rewrite Uc in Ey. injection Ey as <-. injection Ei as <-.
    cbn [attr_at value_at]. rewrite Gv, Gm, Ev. apply (IH c' (c_name c') ts mk o'); auto. eapply inv_section; eauto.
  - destruct (all2_get E allow ff m hs o n N1 A _ _ G) as (v & Gv & R). exists v. cbn [attr_at value_at]. rewrite Gv. split; [reflexivity|]. destruct (aget n m); exact R.
Qed.

Lemma nested_items E allow ff c fs c' gs c2 s r k v rules rules' d o :
  ordinary E c fs -> ordinary E c2 gs -> all_sectioned fs -> all_sectioned gs -> same_sections fs gs ->
  materialize_type (TData c fs) = Ok s -> materialize_type (TData c' gs) = Ok r ->
  compare_schemas s r = Ok k -> checker_severity k <> ERROR ->
  (forall ch, In ch (ck_changes k) -> repairable_at E fs gs (ck_changes k) ch) ->
  c_versioned c = Some (v, rules) -> c_versioned c2 = Some (v + 1, rules')%Z ->
  (forall i rs, In (i, rs) rules' -> (i < v + 1)%Z) -> rules_at rules' v = ck_fixes k ->
  filev (VDict d) = true -> unmarked (VDict d) -> aget "version" d = Some (VInt v) -> sections_given fs (VDict d) ->
  known fs (adel "version" d) -> all2 false (given E false allow ff (adel "version" d)) fs o ->
  exists m', deser_versioned (e_class E) allow (TData c2 gs) (VDict d) = Ok (VDict m') /\
    (apply_rules (ck_fixes k) (VDict (adel "version" d)) = Ok (VDict m') /\ ck_fixes k = flat_map fixes (ck_changes k) /\
     forall p, slot (is_section gs) p -> value_at (VDict m') p = fin (map flatr (ck_fixes k)) (look (VDict (adel "version" d))) (enc p)) /\ Inv (is_section fs) (VDict (adel "version" d)) /\ Inv (is_section gs) (VDict m') /\
    (forall p u fd w, leaf gs p = Some (u, fd) -> becomes_at (ck_changes k) (VDict (adel "version" d)) p w -> value_at (VDict m') p = Some w /\ is_weak w = false) /\
    (forall p, leaf fs p <> None -> leaf gs p <> None -> (forall ch, In ch (ck_changes k) -> change_field ch <> p) -> value_at (VDict m') p = value_at (VDict (adel "version" d)) p).
Proof.
  intros O1 O2 D1 D2 Ss Ms Mr C Sv Rep Vc Vc2 Hb Ra Hd Ud Gv Sg Kn A.
  destruct O1 as (Lo1 & Nm1 & X1 & Ll1 & V1 & P1). destruct O2 as (Lo2 & Nm2 & X2 & Ll2 & V2 & P2).
  assert (F : exists cs, find_changes s r [] = Ok cs).
  { pose proof C as C'. unfold compare_schemas in C'. apply rbind_ok in C'. destruct C' as (cs & F & _). eauto. }
  destruct F as [cs F].
  assert (Dn : distinct_names s) by exact (materialize_distinct _ _ Ms Nm1).
  assert (Dn' : distinct_names r) by exact (materialize_distinct _ _ Mr Nm2).
  destruct (compare_ok s r cs Dn Dn' F) as (c1 & c3 & C' & M2 & M3). rewrite C in C'. injection C' as ->. cbn [ck_changes ck_fixes] in *.
  destruct (find_keyed r s [] cs Dn' Dn F) as [Nk _].
  destruct (mat_data _ _ _ Ms) as (sf & ver & Mf & Qs). destruct (mat_data _ _ _ Mr) as (sg & ver' & Mg & Qr).
  assert (Mr2 : exists ver2, materialize_type (TData c2 gs) = Ok (SStruct (c_name c2) sg ver2)).
  { cbn [materialize_type]. eexists. rewrite Mg. reflexivity. }
  destruct Mr2 as [ver2 Mr2].
  assert (Fc : find_changes (SStruct (c_name c) sf ver) (SStruct (c_name c2) sg ver2) [] = Ok cs).
  { rewrite <- F, Qs, Qr. apply find_renamed. }
  rewrite Qs in Ms.
  assert (Sev : forall ch, In ch c3 -> change_severity ch <> ERROR).
  { intros ch I Q. apply Sv. pose proof (severity_worst (mkChk s r c3 (flat_map fixes c3))) as W. apply (worst_error _ _ W). cbn [ck_changes]. apply in_map_iff. eauto. }
  assert (NoSec : forall ch, In ch cs -> about_default ch -> is_section gs (kpath ch) = false).
  { intros ch I Ad. assert (J : In ch c3).
    { destruct (report_fate cs c1 c3 _ _ M2 M3 ch I) as [J|[(rr & aa & (_ & _ & Q1 & Q2 & _) & _ & K)|(rr & aa & (_ & _ & Q1 & Q2 & _) & _ & K)]]; [exact J| |];
        exfalso; destruct K as [<-|<-]; destruct ch; try (destruct Ad; fail); discriminate. }
    pose proof (Rep _ J) as R. destruct ch; try (destruct Ad; fail); cbn [repairable_at kpath] in *; destruct R as (u & fd & L & _); eapply leaf_not_section; eauto. }
  pose proof (adel_inv fs d v Hd Ud Gv Sg) as Inf.
  assert (Um : unmarked (VDict (adel "version" d))).
  { destruct Ud as [U1 U2]. split; [rewrite amem_aget in *; rewrite aget_adel_other; [exact U1|discriminate]|].
    rewrite all_in in U2 |- *. intros [k0 w] I. apply in_adel in I. exact (U2 _ I). }
  set (m0 := adel "version" d) in *.
  assert (Ak : all_known fs (VDict m0)) by (intros q ks mq Sc V; apply (split_known E allow ff q fs m0 o); auto).
  (* the flat report *)
  pose proof (flatf_nodup fs [] Nm1) as Nf1. pose proof (flatf_nodup gs [] Nm2) as Ng1.
  pose proof (flat_level c fs Nm1 D1) as L1. pose proof (flat_level c2 gs Nm2 D2) as L2.
  pose proof (flat_orig fs gs c c2 Nm1 Nm2 D1 D2 Ss sf sg Mf Mg cs _ _ _ _ Fc NoSec) as Orig.
  pose proof (flat_kept fs gs c c2 Nm1 Nm2 D2 Ss sf sg Mf Mg cs _ _ _ _ Fc) as KeptIn.
  pose proof (flat_added fs gs c c2 Nm1 Nm2 Ss sf sg Mf Mg cs _ _ _ _ Fc) as AddedIn.
  pose proof (flat_removed fs gs c c2 Nm1 Nm2 Ss sf sg Mf Mg cs _ _ _ _ Fc) as RemovedIn.
  pose proof (flatc_keys cs Nk) as Nk1. pose proof (fields_flat _ _ M2) as M21. pose proof (variants_flat _ _ M3) as M31.
  pose proof (get_f fs c Nm1) as Gf. pose proof (get_g gs c2 Nm2) as Gg.
  assert (Rep1 : forall ch, In ch (map flatc c3) -> repairable E (flatf [] fs) (flatf [] gs) (map flatc c3) ch).
  { intros ch I. apply in_map_iff in I. destruct I as (ch0 & <- & I). apply (flat_repairable fs gs c c2 Nm1 Nm2). now apply Rep. }
  assert (Sev1 : forall ch, In ch (map flatc c3) -> change_severity ch <> ERROR).
  { intros ch I. apply in_map_iff in I. destruct I as (ch0 & <- & I). rewrite flatc_severity. now apply Sev. }
  pose proof (fix_simple E _ _ L2 _ _ _ _ _ Orig M21 M31 Rep1) as Smp.
  pose proof (fix_keys _ _ _ _ _ _ _ Orig M21 M31) as Keys.
  assert (Sm : Forall simple_rule (flat_map fixes (map flatc c3))) by (apply Forall_forall; exact Smp).
  (* the flat file *)
  set (m1 := flat_items fs (VDict m0)).
  pose proof (flat_items_nodup c fs (VDict m0) Nm1) as N1.
  assert (G1 : forall q, aget (enc q) m1 = match leaf fs q with Some _ => value_at (VDict m0) q | None => None end).
  { intros q. unfold m1. rewrite flat_items_get, Gf, dec_enc. reflexivity. }
  assert (Ok1 : forall j w, aget j m1 = Some w -> is_weak w = false /\ (j = "!__name__" \/ exists p, aget j (flatf [] fs) = Some p)).
  { intros j w G. apply aget_some_in in G. destruct (flat_items_in _ _ _ _ G) as [K V]. split; [exact (unmarked_weak _ (unmarked_at _ _ _ Um V))|]. right.
    apply in_map_iff in K. destruct K as ([j' p] & Q & K). cbn [fst] in Q. subst j'. exists p. now apply in_nodup_aget. }
  destruct (rules_act _ m1 Sm N1) as (m1' & _ & N1' & G1').
  (* the rules on the file itself *)
  assert (Ing : Inv (is_section gs) (VDict m0)) by (apply (inv_ext (is_section fs)); auto).
  assert (Paths : forall r0 p, In r0 (flat_map fixes c3) -> In p (rule_paths r0) -> leaf fs p <> None \/ leaf gs p <> None).
  { intros r0 p I J. rewrite <- Gf, <- Gg. apply (Keys (flatr r0)).
    - rewrite flatc_all_fixes. now apply in_map.
    - rewrite flatr_touched. now apply in_map. }
  destruct (nest_rules (is_section gs) (flat_map fixes c3) (VDict m0)) as (d' & Ap & Inv' & Val); auto.
  { apply section_closed. }
  { rewrite <- flatc_all_fixes. exact Sm. }
  { intros r0 p I J. destruct (Paths r0 p I J) as [H|H].
    - destruct (leaf fs p) as [x|] eqn:L; [|now destruct H]. split; [|exact (plain_leaf _ _ _ _ P1 L)]. apply (slot_ext p (is_section fs)); [exact Ss|exact (leaf_slot _ _ _ L)].
    - destruct (leaf gs p) as [x|] eqn:L; [|now destruct H]. split; [exact (leaf_slot _ _ _ L)|exact (plain_leaf _ _ _ _ P2 L)]. }
  destruct (inv_root _ _ (section_closed gs) Inv') as (m' & -> & Nm' & _).
  rewrite <- flatc_all_fixes in Val.
  (* at the fields, the file and the flat file agree *)
  assert (Agree : forall p, slot (is_section gs) p -> leaf fs p <> None \/ leaf gs p <> None -> value_at (VDict m') p = aget (enc p) m1').
  { intros p Sp H. rewrite (Val p Sp), G1'.
    apply (fin_on (fun j => exists q, j = enc q /\ (leaf fs q <> None \/ leaf gs q <> None))); [| |now exists p].
    - intros r0 j I J. destruct (Keys r0 j I J) as [K|K].
      + destruct (aget j (flatf [] fs)) as [x|] eqn:G; [|now destruct K]. destruct (flatf_some fs j x Nm1 G) as (q & -> & L). exists q. split; [reflexivity|]. left. congruence.
      + destruct (aget j (flatf [] gs)) as [x|] eqn:G; [|now destruct K]. destruct (flatf_some gs j x Nm2 G) as (q & -> & L). exists q. split; [reflexivity|]. right. congruence.
    - intros j (q & -> & K). rewrite look_enc, G1. destruct (leaf fs q) as [x|] eqn:L; [reflexivity|].
      destruct (leaf gs q) as [x|] eqn:L'; [|destruct K as [K|K]; now destruct K]. apply (fresh_absent q fs gs c2 m0 x); auto. }
  exists m'. split; [apply (deser_fixed _ _ c2 gs v rules' d m'); auto; rewrite Ra; exact Ap|]. split; [split; [exact Ap|]; split; [reflexivity|]; intros p Sp; rewrite <- flatc_all_fixes; now apply Val|]. split; [exact Inf|]. split; [exact Inv'|].
  assert (Had : forall p x, leaf gs p <> None -> value_at (VDict m0) p = Some x -> aget (enc p) m1 = Some x).
  { intros p x H V. rewrite G1. destruct (leaf fs p) as [y|] eqn:L; [exact V|]. destruct (leaf gs p) as [y|] eqn:L'; [|now destruct H].
    rewrite (fresh_absent p fs gs c2 m0 y) in V; auto. }
  split.
  - intros p u fd w L B. rewrite (Agree p (leaf_slot _ _ _ L)) by (right; congruence). rewrite G1'.
    assert (Lp : leaf gs p <> None) by congruence.
    apply (fin_becomes E _ _ L2 _ _ _ _ _ Orig KeptIn Nk1 M21 M31 Rep1 Sev1 c2 (flat_exact c2 c2 gs Nm2 X2) m1 (enc p) u fd w); auto; [apply enc_name|now rewrite Gg|].
    assert (At : forall (P : change -> Prop) (Q : change -> Prop), (forall ch, P ch -> Q (flatc ch)) -> (forall ch, In ch c3 -> change_field ch = p -> P ch) ->
      forall ch, In ch (map flatc c3) -> change_field ch = [enc p] -> Q ch).
    { intros P Q PQ H ch I K. apply in_map_iff in I. destruct I as (ch0 & <- & I). rewrite flatc_field in K. injection K as K. apply enc_inj in K. apply PQ. now apply H. }
    destruct B as [w V Q|w o0 i V I Sb|w e v0 x y V I Qyx Q|x V I Q|a w I V].
    + apply bc_same; [now apply Had|]. apply (At (fun ch => about_default ch \/ widens ch)); [|exact Q]. intros ch [H|H]; [left; now apply flatc_about|right; now apply flatc_widens].
    + eapply bc_wrapped; [now apply Had| |exact Sb]. apply (in_map flatc) in I. exact I.
    + eapply bc_mapped; [now apply Had|apply (in_map flatc) in I; exact I|exact Qyx|].
      apply (At (fun ch => ch = EnumVariantValueChanged p e v0 x y \/ about_default ch \/ widens ch)); [|exact Q].
      intros ch [->|[H|H]]; [now left|right; left; now apply flatc_about|right; right; now apply flatc_widens].
    + apply bc_default.
      * rewrite G1. destruct (leaf fs p); [exact V|reflexivity].
      * destruct I as [I|[y I]]; apply (in_map flatc) in I; [left|right; exists y]; exact I.
      * apply (At (fun ch => about_default ch \/ widens ch)); [|exact Q]. intros ch [H|H]; [left; now apply flatc_about|right; now apply flatc_widens].
    + apply (in_map flatc) in I. apply (bc_renamed _ _ _ (enc a)); [exact I|]. rewrite G1.
      destruct (shape_renamed _ _ _ _ (shape_c3 _ _ _ _ _ _ _ Orig M21 M31 _ I)) as (a' & b' & Qa & _ & ((t & od & Ga) & _) & _). injection Qa as <-. rewrite Gf in Ga. now rewrite Ga.
  - intros p Hf Hg No. destruct (leaf gs p) as [[u fd]|] eqn:L; [|now destruct Hg]. destruct (leaf fs p) as [[t od]|] eqn:Lf; [|now destruct Hf].
    rewrite (Val p (leaf_slot _ _ _ L)), fin_untouched; [apply look_enc|].
    intros r0 Ir T. destruct (kept_rule _ _ _ _ _ _ _ Orig M21 M31 (enc p) r0) as (ch & Ic & _ & Kc & _); auto; [exists t, od, u, fd; now rewrite Gf, Gg|].
    apply in_map_iff in Ic. destruct Ic as (ch0 & <- & Ic). rewrite kpath_field, flatc_field in Kc. injection Kc as Kc. apply enc_inj in Kc. now apply (No ch0).
Qed.

Lemma nested_values E c fs c' gs c2 s r k v rules rules' d dir allow L L' :
  order_ok E -> ordinary E c fs -> ordinary E c2 gs -> all_sectioned fs -> all_sectioned gs -> same_sections fs gs ->
  materialize_type (TData c fs) = Ok s -> materialize_type (TData c' gs) = Ok r ->
  compare_schemas s r = Ok k -> checker_severity k <> ERROR ->
  (forall ch, In ch (ck_changes k) -> repairable_at E fs gs (ck_changes k) ch) ->
  c_versioned c = Some (v, rules) -> c_versioned c2 = Some (v + 1, rules')%Z ->
  (forall i rs, In (i, rs) rules' -> (i < v + 1)%Z) -> rules_at rules' v = ck_fixes k ->
  filev (VDict d) = true -> unmarked (VDict d) -> aget "version" d = Some (VInt v) -> sections_given fs (VDict d) ->
  typed_load E (TData c fs) (VDict d) dir None allow false = Ok L -> l_sched L = [] ->
  typed_load E (TData c2 gs) (VDict d) dir None allow false = Ok L' -> l_sched L' = [] ->
  let m := VDict (adel "version" d) in
  (forall p u fd w, leaf gs p = Some (u, fd) -> becomes_at (ck_changes k) m p w ->
     exists v', attr_at (l_value L') p = Some v' /\ denotes E false allow (is_some dir) false u w v') /\
  (forall p t od fd, leaf fs p = Some (t, od) -> leaf gs p = Some (t, fd) ->
     (forall ch, In ch (ck_changes k) -> change_field ch = p -> about_default ch) ->
     value_at m p <> None -> attr_at (l_value L') p = attr_at (l_value L) p) /\
  (forall p t od, leaf fs p = Some (t, od) -> leaf gs p = Some (t, od) ->
     (forall ch, In ch (ck_changes k) -> change_field ch <> p) -> attr_at (l_value L') p = attr_at (l_value L) p) /\
  (forall a b t od fd, leaf fs a = Some (t, od) -> leaf gs b = Some (t, fd) -> In (FieldRenamed a b) (ck_changes k) ->
     value_at m a <> None -> attr_at (l_value L') b = attr_at (l_value L) a).
Proof.
  intros HE O1 O2 D1 D2 Ss Ms Mr C Sv Rep Vc Vc2 Hb Ra Hd Ud Gv Sg H Hn H' Hn' m.
  destruct (load_means E _ _ dir allow false L HE (proj1 O1) Hd H) as [_ D]. specialize (D Hn).
  destruct (load_means E _ _ dir allow false L' HE (proj1 O2) Hd H') as [_ D']. specialize (D' Hn').
  destruct D as (y & items & o & Ey & Ei & Qo & Kn & A). pose proof (deser_current_inv _ _ _ _ _ _ _ _ Vc Gv Ey) as ->. cbn [items_of] in Ei. injection Ei as <-.
  destruct (nested_items E allow (is_some dir) c fs c' gs c2 s r k v rules rules' d o) as (m' & Dm & _ & If & Ig & Bc & Un); auto.
  destruct D' as (y & items & o' & Ey' & Ei & Qo' & Kn' & A'). rewrite Dm in Ey'. injection Ey' as <-. injection Ei as <-.
  destruct O1 as (_ & Nm1 & _ & _ & V1 & _). destruct O2 as (_ & Nm2 & _ & _ & V2 & _). rewrite Qo, Qo'.
  assert (Ro : forall p t od, leaf fs p = Some (t, od) -> exists v0, attr_at (VObj (c_name c) o) p = Some v0 /\ read_at E allow (is_some dir) t od (value_at m p) v0).
  { intros p t od Lp. apply (split_value E allow (is_some dir) p c (c_name c) fs (adel "version" d) o); auto. }
  assert (Ro' : forall p t od, leaf gs p = Some (t, od) -> exists v0, attr_at (VObj (c_name c2) o') p = Some v0 /\ read_at E allow (is_some dir) t od (value_at (VDict m') p) v0).
  { intros p t od Lp. apply (split_value E allow (is_some dir) p c2 (c_name c2) gs m' o'); auto. }
  assert (B1 : forall p u fd w, leaf gs p = Some (u, fd) -> becomes_at (ck_changes k) m p w ->
     exists v', attr_at (VObj (c_name c2) o') p = Some v' /\ denotes E false allow (is_some dir) false u w v').
  { intros p u fd w Lg B. destruct (Bc p u fd w Lg B) as [G W]. destruct (Ro' p u fd Lg) as (v' & Gv' & R). unfold read_at in R. rewrite G, W in R. eauto. }
  assert (Um : unmarked m).
  { destruct Ud as [U1 U2]. split; [rewrite amem_aget in *; rewrite aget_adel_other; [exact U1|discriminate]|].
    rewrite all_in in U2 |- *. intros [k0 w] I. apply in_adel in I. exact (U2 _ I). }
  assert (Wk : forall p w, value_at m p = Some w -> is_weak w = false).
  { intros p w V. apply unmarked_weak. exact (unmarked_at _ _ _ Um V). }
  split; [exact B1|]. split; [|split].
  - intros p t od fd Lf Lg Q G. destruct (value_at m p) as [w|] eqn:Gw; [|now destruct G].
    destruct (B1 p t fd w Lg) as (v' & Gv' & Dv'); [apply ba_same; auto|]. destruct (Ro p t od Lf) as (v0 & Gv0 & R). unfold read_at in R. rewrite Gw, (Wk _ _ Gw) in R.
    rewrite Gv', Gv0. f_equal. eapply OverrideLoad.denotes_fun; eauto.
  - intros p t od Lf Lg Q. destruct (Ro p t od Lf) as (v0 & Gv0 & R). destruct (Ro' p t od Lg) as (v' & Gv' & R'). rewrite Gv', Gv0. f_equal.
    rewrite (Un p) in R'; try congruence; auto. fold m in R'. unfold read_at in R, R'. destruct (value_at m p) as [w|] eqn:Gw.
    + rewrite (Wk _ _ Gw) in R, R'. eapply OverrideLoad.denotes_fun; eauto.
    + destruct od; cbn [default_field] in R, R'; try congruence. destruct R as [R _]. pose proof (leaf_dataless fs p t _ D1 Lf) as Dt. destruct t; try (destruct R; fail). destruct Dt.
  - intros a b t od fd Lf Lg I G. destruct (value_at m a) as [w|] eqn:Gw; [|now destruct G].
    destruct (B1 b t fd w Lg) as (v' & Gv' & Dv'); [eapply ba_renamed; eauto|]. destruct (Ro a t od Lf) as (v0 & Gv0 & R). unfold read_at in R. rewrite Gw, (Wk _ _ Gw) in R.
    rewrite Gv', Gv0. f_equal. eapply OverrideLoad.denotes_fun; eauto.
Qed.
