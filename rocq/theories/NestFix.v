(** NestFix.v -- the proposed rules repair files of configs with sub-configs (C29). *)
From Verif Require Import Base Value Schema Rewrite Sched Types Asdict FromDict Checker Induct AFacts SpecTypes SpecLoad SpecSubtype
  SpecRenames SpecCheck SpecCompat SpecFix SpecNest RoundTrip SchemaFacts RenameFacts FindFacts CheckFacts SubtypeFacts UpgradeFacts CompatFacts FromDictFacts LoadProps FixFacts
  NestFacts NestRules NestLoad.

Lemma leaf_not_section q : forall hs x, leaf hs q = Some x -> is_section hs q = false.
Proof.
  induction q as [|n q IH]; intros hs x L; [discriminate L|]. unfold is_section in *. rewrite section_cons.
  destruct (leaf_case _ _ _ _ L) as [(c & ts & d & G & L')|(-> & G & D)]; rewrite G.
  - exact (IH _ _ L').
  - destruct x as [t d]. destruct t; try reflexivity. discriminate D.
Qed.

Lemma enum_at_leaf q : forall c hs u d, names_differ (TData c hs) -> leaf hs q = Some (u, d) -> enum_at (TData c hs) q = enum_at u [].
Proof.
  induction q as [|n q IH]; intros c hs u d [N1 N2] L; [discriminate L|]. rewrite all_in in N2.
  destruct (leaf_case _ _ _ _ L) as [(c' & ts & d' & G & L')|(-> & G & D)]; apply aget_some_in in G; rewrite (enum_at_field _ _ _ _ _ _ N1 G); [|reflexivity].
  apply (IH _ _ _ d); auto. exact (N2 _ G).
Qed.

Lemma adel_inv fs d v : filev (VDict d) = true -> unmarked (VDict d) -> aget "version" d = Some (VInt v) -> sections_given fs (VDict d) ->
  Inv (is_section fs) (VDict (adel "version" d)).
Proof.
  intros Hd Ud Gv Sg p Hp.
  assert (Sd : forall k r, k <> "version" -> value_at (VDict (adel "version" d)) (k :: r) = value_at (VDict d) (k :: r)).
  { intros k r H. cbn [value_at]. now rewrite aget_adel_other. }
  destruct (Sg p Hp) as (m & V). destruct p as [|k p].
  - injection V as <-. exists (adel "version" d). split; [reflexivity|]. cbn [filev] in Hd. apply andb_true_iff in Hd. destruct Hd as [Hd _]. apply RewriteFacts.nodupb_NoDup in Hd.
    split; [now apply nodup_adel|]. pose proof (unmarked_weak _ Ud) as W. cbn [is_weak] in W. rewrite !amem_aget in *. rewrite aget_adel_other; [exact W|discriminate].
  - assert (Hk : k <> "version"). { intros ->. cbn [value_at] in V. rewrite Gv in V. destruct p; discriminate V. }
    exists m. split; [now rewrite Sd|]. pose proof (filev_at _ _ _ Hd V) as Hm. pose proof (unmarked_weak _ (unmarked_at _ _ _ Ud V)) as W.
    cbn [filev] in Hm. apply andb_true_iff in Hm. destruct Hm as [Hm _]. split; [now apply RewriteFacts.nodupb_NoDup|exact W].
Qed.

Lemma nested_accept E allow ff c fs c' gs c2 s r k v rules rules' d :
  ordinary E c fs -> ordinary E c2 gs -> all_sectioned fs -> all_sectioned gs -> same_sections fs gs ->
  lost_values_gone (TData c fs) (TData c' gs) ->
  materialize_type (TData c fs) = Ok s -> materialize_type (TData c' gs) = Ok r ->
  compare_schemas s r = Ok k -> checker_severity k <> ERROR ->
  (forall ch, In ch (ck_changes k) -> repairable_at E fs gs (ck_changes k) ch) ->
  c_versioned c = Some (v, rules) -> c_versioned c2 = Some (v + 1, rules')%Z ->
  (forall i rs, In (i, rs) rules' -> (i < v + 1)%Z) -> rules_at rules' v = ck_fixes k ->
  filev (VDict d) = true -> floatable (VDict (adel "version" d)) -> unmarked (VDict d) -> aget "version" d = Some (VInt v) -> sections_given fs (VDict d) ->
  accepts E false allow ff false (TData c fs) (VDict d) -> accepts E false allow ff false (TData c2 gs) (VDict d).
Proof.
  intros O1 O2 D1 D2 Ss Lost Ms Mr C Sv Rep Vc Vc2 Hb Ra Hd Fd Ud Gv Sg A.
  destruct O1 as (Lo1 & Nm1 & X1 & Ll1 & V1 & P1). destruct O2 as (Lo2 & Nm2 & X2 & Ll2 & V2 & P2).
  assert (F : exists cs, find_changes s r [] = Ok cs).
  { pose proof C as C'. unfold compare_schemas in C'. apply rbind_ok in C'. destruct C' as (cs & F & _). eauto. }
  destruct F as [cs F].
  assert (Dn : distinct_names s) by exact (materialize_distinct _ _ Ms Nm1).
  assert (Dn' : distinct_names r) by exact (materialize_distinct _ _ Mr Nm2).
  destruct (compare_ok s r cs Dn Dn' F) as (c1 & c3 & C' & M2 & M3). rewrite C in C'. injection C' as ->. cbn [ck_changes ck_fixes] in *.
  destruct (find_keyed r s [] cs Dn' Dn F) as [Nk _].
  destruct (mat_data _ _ _ Ms) as (sf & ver & Mf & Qs). destruct (mat_data _ _ _ Mr) as (sg & ver' & Mg & Qr).
  assert (Mr2 : exists ver2, materialize_type (TData c2 gs) = Ok (SStruct (c_name c2) sg ver2)).
  { cbn [materialize_type]. eexists. rewrite Mg. reflexivity. }
  destruct Mr2 as [ver2 Mr2].
  assert (Fc : find_changes (SStruct (c_name c) sf ver) (SStruct (c_name c2) sg ver2) [] = Ok cs).
  { rewrite <- F, Qs, Qr. apply find_renamed. }
  rewrite Qs in Ms.
  assert (Lost2 : lost_values_gone (TData c fs) (TData c2 gs)) by exact Lost.
  assert (Sev : forall ch, In ch c3 -> change_severity ch <> ERROR).
  { intros ch I Q. apply Sv. pose proof (severity_worst (mkChk s r c3 (flat_map fixes c3))) as W. apply (worst_error _ _ W). cbn [ck_changes]. apply in_map_iff. eauto. }
  assert (NoSec : forall ch, In ch cs -> about_default ch -> is_section gs (kpath ch) = false).
  { intros ch I Ad. assert (J : In ch c3).
    { destruct (report_fate cs c1 c3 _ _ M2 M3 ch I) as [J|[(rr & aa & (_ & _ & Q1 & Q2 & _) & _ & K)|(rr & aa & (_ & _ & Q1 & Q2 & _) & _ & K)]]; [exact J| |];
        exfalso; destruct K as [<-|<-]; destruct ch; try (destruct Ad; fail); discriminate. }
    pose proof (Rep _ J) as R. destruct ch; try (destruct Ad; fail); cbn [repairable_at kpath] in *; destruct R as (u & fd & L & _); eapply leaf_not_section; eauto. }
  destruct A as (val & y & items & o & Ey & Ei & -> & Kn & A).
  pose proof (deser_current_inv _ _ _ _ _ _ _ _ Vc Gv Ey) as ->. cbn [items_of] in Ei. injection Ei as <-.
  pose proof (adel_inv fs d v Hd Ud Gv Sg) as Inf.
  assert (Um : unmarked (VDict (adel "version" d))).
  { destruct Ud as [U1 U2]. split; [rewrite amem_aget in *; rewrite aget_adel_other; [exact U1|discriminate]|].
    rewrite all_in in U2 |- *. intros [k0 w] I. apply in_adel in I. exact (U2 _ I). }
  set (m0 := adel "version" d) in *.
  assert (Ak : all_known fs (VDict m0)) by (intros q ks mq Sc V; apply (split_known E allow ff q fs m0 o); auto).
  (* the flat report *)
  pose proof (flatf_nodup fs [] Nm1) as Nf1. pose proof (flatf_nodup gs [] Nm2) as Ng1.
  pose proof (flat_level c fs Nm1 D1) as L1. pose proof (flat_level c2 gs Nm2 D2) as L2.
  pose proof (flat_orig fs gs c c2 Nm1 Nm2 D1 D2 Ss sf sg Mf Mg cs _ _ _ _ Fc NoSec) as Orig.
  pose proof (flat_kept fs gs c c2 Nm1 Nm2 D2 Ss sf sg Mf Mg cs _ _ _ _ Fc) as KeptIn.
  pose proof (flat_added fs gs c c2 Nm1 Nm2 Ss sf sg Mf Mg cs _ _ _ _ Fc) as AddedIn.
  pose proof (flat_removed fs gs c c2 Nm1 Nm2 Ss sf sg Mf Mg cs _ _ _ _ Fc) as RemovedIn.
  pose proof (flatc_keys cs Nk) as Nk1. pose proof (fields_flat _ _ M2) as M21. pose proof (variants_flat _ _ M3) as M31.
  pose proof (get_f fs c Nm1) as Gf. pose proof (get_g gs c2 Nm2) as Gg.
  assert (Rep1 : forall ch, In ch (map flatc c3) -> repairable E (flatf [] fs) (flatf [] gs) (map flatc c3) ch).
  { intros ch I. apply in_map_iff in I. destruct I as (ch0 & <- & I). apply (flat_repairable fs gs c c2 Nm1 Nm2). now apply Rep. }
  assert (Sev1 : forall ch, In ch (map flatc c3) -> change_severity ch <> ERROR).
  { intros ch I. apply in_map_iff in I. destruct I as (ch0 & <- & I). rewrite flatc_severity. now apply Sev. }
  assert (Lost3 : forall n e v y p' e' v' y' u fd ms, In (EnumVariantRemoved [n] e v y) (map flatc cs) -> In (EnumVariantAdded p' e' v' y') (map flatc cs) -> py_eq y y' = true ->
    aget n (flatf [] gs) = Some (u, fd) -> enum_at u [] = Some ms -> exists m, In m ms /\ py_eq y (snd m) = true).
  { intros n e v0 y p' e' v' y' u fd ms R1 R2 Q Eg Em.
    apply in_map_iff in R1, R2. destruct R1 as (x1 & Q1 & R1), R2 as (x2 & Q2 & R2).
    destruct x1 as [| | | | | | |p1 e1 w1 y1| | | | ]; try discriminate Q1. destruct x2 as [| | | | | | | |p2 e2 w2 y2| | | ]; try discriminate Q2.
    cbn [repath] in Q1, Q2. injection Q1 as Qn -> -> ->. injection Q2 as _ -> -> ->. subst n. rewrite Gg in Eg.
    pose proof (variants_at _ _ _ _ [] cs _ Nm1 Nm2 Ms Mr2 Fc R1) as (q0 & ms0 & Eq0 & E0 & J0). cbn [app] in Eq0. subst q0.
    pose proof (variants_at _ _ _ _ [] cs _ Nm1 Nm2 Ms Mr2 Fc R2) as (q1 & ms1 & Eq1 & E1 & J1). cbn [app] in Eq1. subst q1.
    destruct (Lost2 _ _ _ E0 J0) as [(ms' & m' & Em' & Im & Qm)|No].
    - rewrite (enum_at_leaf _ _ _ _ _ Nm2 Eg), Em in Em'. injection Em' as <-. eauto.
    - specialize (No _ _ _ E1 J1). cbn [snd] in No. congruence. }
  pose proof (fix_simple E _ _ L2 _ _ _ _ _ Orig M21 M31 Rep1) as Smp.
  pose proof (fix_keys _ _ _ _ _ _ _ Orig M21 M31) as Keys.
  assert (Sm : Forall simple_rule (flat_map fixes (map flatc c3))) by (apply Forall_forall; exact Smp).
  (* the flat file *)
  set (m1 := flat_items fs (VDict m0)).
  pose proof (flat_items_nodup c fs (VDict m0) Nm1) as N1.
  assert (G1 : forall q, aget (enc q) m1 = match leaf fs q with Some _ => value_at (VDict m0) q | None => None end).
  { intros q. unfold m1. rewrite flat_items_get, Gf, dec_enc. reflexivity. }
  assert (Ok1 : forall k0 w, In (k0, w) m1 -> floatable w /\ unmarked w).
  { intros k0 w I. destruct (flat_items_in _ _ _ _ I) as [_ V]. split; [exact (floatable_at _ _ _ Fd V)|exact (unmarked_at _ _ _ Um V)]. }
  assert (Kn1 : known (flatf [] fs) m1).
  { intros k0 w I. right. right. left. apply (flat_items_in _ _ _ _ I). }
  assert (A1 : exists o1, all2 false (given E false allow ff m1) (flatf [] fs) o1).
  { apply all2_build. intros [n [t od]] I. destruct (flatf_in fs [] n (t, od) Nm1 I) as (q & -> & L). cbn [app].
    destruct (split_leaf E allow ff q fs m0 o t od Inf V1 A L) as [w W]. exists (enc q, w). split; [reflexivity|]. cbn [snd]. rewrite G1, L. unfold read_at in W.
    destruct (value_at (VDict m0) q); exact W. }
  destruct A1 as [o1 A1].
  destruct (rules_act _ m1 Sm N1) as (m1' & _ & N1' & G1').
  destruct (fixed_items E _ _ Nf1 Ng1 L1 L2 _ _ _ _ _ Orig KeptIn AddedIn RemovedIn Nk1 M21 M31 field_similar_flat Rep1 Sev1 c c2 Lost3
    (flat_names c c fs Nm1) (flat_names c2 c2 gs Nm2) (flat_exact c c fs Nm1 X1) (flat_exact c2 c2 gs Nm2 X2) (flat_literals E c2 c2 gs Nm2 Ll2) (flat_loadable c2 gs Nm2 Lo2)
    (flat_unversioned c fs Nm1 V1) (flat_unversioned c2 gs Nm2 V2) allow ff m1 m1' o1) as [Kn1' [o1' A1']]; auto.
  (* the rules on the file itself *)
  assert (Ing : Inv (is_section gs) (VDict m0)) by (apply (inv_ext (is_section fs)); auto).
  assert (Paths : forall r0 p, In r0 (flat_map fixes c3) -> In p (rule_paths r0) -> leaf fs p <> None \/ leaf gs p <> None).
  { intros r0 p I J. rewrite <- Gf, <- Gg. apply (Keys (flatr r0)).
    - rewrite flatc_all_fixes. now apply in_map.
    - rewrite flatr_touched. now apply in_map. }
  destruct (nest_rules (is_section gs) (flat_map fixes c3) (VDict m0)) as (d' & Ap & Inv' & Val); auto.
  { apply section_closed. }
  { rewrite <- flatc_all_fixes. exact Sm. }
  { intros r0 p I J. destruct (Paths r0 p I J) as [H|H].
    - destruct (leaf fs p) as [x|] eqn:L; [|now destruct H]. split; [|exact (plain_leaf _ _ _ _ P1 L)]. apply (slot_ext p (is_section fs)); [exact Ss|exact (leaf_slot _ _ _ L)].
    - destruct (leaf gs p) as [x|] eqn:L; [|now destruct H]. split; [exact (leaf_slot _ _ _ L)|exact (plain_leaf _ _ _ _ P2 L)]. }
  destruct (inv_root _ _ (section_closed gs) Inv') as (m' & -> & Nm' & _).
  rewrite <- flatc_all_fixes in Val.
  (* at the fields, the file and the flat file agree *)
  assert (Agree : forall p, slot (is_section gs) p -> leaf fs p <> None \/ leaf gs p <> None -> value_at (VDict m') p = aget (enc p) m1').
  { intros p Sp H. rewrite (Val p Sp), G1'.
    apply (fin_on (fun j => exists q, j = enc q /\ (leaf fs q <> None \/ leaf gs q <> None))); [| |now exists p].
    - intros r0 j I J. destruct (Keys r0 j I J) as [K|K].
      + destruct (aget j (flatf [] fs)) as [x|] eqn:G; [|now destruct K]. destruct (flatf_some fs j x Nm1 G) as (q & -> & L). exists q. split; [reflexivity|]. left. congruence.
      + destruct (aget j (flatf [] gs)) as [x|] eqn:G; [|now destruct K]. destruct (flatf_some gs j x Nm2 G) as (q & -> & L). exists q. split; [reflexivity|]. right. congruence.
    - intros j (q & -> & K). rewrite look_enc, G1. destruct (leaf fs q) as [x|] eqn:L; [reflexivity|].
      destruct (leaf gs q) as [x|] eqn:L'; [|destruct K as [K|K]; now destruct K]. apply (fresh_absent q fs gs c2 m0 x); auto. }
  destruct (build E allow ff (TData c2 gs) m') as (Kn' & o' & A'); auto.
  - intros q u fd L. destruct (all2_in _ _ _ _ A1' (flatf_out gs [] q _ Nm2 L)) as ([k0 w] & _ & _ & W). cbn [app snd] in W.
    exists w. unfold read_at. rewrite (Agree q (leaf_slot _ _ _ L)) by (right; congruence). destruct (aget (enc q) m1'); exact W.
  - intros q ks mq Sc V k0 w I.
    assert (Sq : is_section gs q = true) by (unfold is_section; now rewrite Sc).
    destruct (Inv' q Sq) as (mq' & Vq & Nq & _). rewrite V in Vq. injection Vq as <-.
    pose proof (in_nodup_aget k0 w mq Nq I) as Gk.
    assert (Vk : value_at (VDict m') (q ++ [k0]) = Some w) by (rewrite value_app, V; cbn [value_at]; now rewrite Gk).
    destruct (aget k0 ks) as [x|] eqn:Ek; [right; right; left; apply aget_some_in in Ek; apply in_map_iff; now exists (k0, x)|].
    assert (Lg : leaf gs (q ++ [k0]) = None) by (rewrite leaf_app, Sc; now apply leaf_none).
    assert (Sk : is_section gs (q ++ [k0]) = false) by (unfold is_section; rewrite section_app, Sc, section_cons, Ek; reflexivity).
    pose proof (slot_app (is_section gs) q k0 (section_closed gs) Sq Sk) as Slk.
    destruct (leaf fs (q ++ [k0])) as [x|] eqn:Lf.
    + rewrite (Agree _ Slk) in Vk by (left; congruence). destruct (Kn1' _ _ (aget_some_in _ _ _ Vk)) as [H|[H|[H|H]]]; [|now right; left| |discriminate H].
      * exfalso. now apply enc_name in H.
      * exfalso. apply in_map_iff in H. destruct H as ([j y0] & Q & H). cbn [fst] in Q. subst j. pose proof (in_nodup_aget _ _ _ Ng1 H) as G. rewrite Gg, Lg in G. discriminate G.
    + rewrite (Val _ Slk), fin_untouched in Vk.
      2:{ intros r0 J T. destruct (Keys r0 _ J T) as [K|K]; [rewrite Gf in K|rewrite Gg in K]; congruence. }
      rewrite look_enc, value_app in Vk. pose proof Sq as Sf. rewrite <- (Ss q) in Sf. destruct (Inf q Sf) as (mf & Vf & _). rewrite Vf in Vk. cbn [value_at] in Vk.
      destruct (aget k0 mf) as [w0|] eqn:Gm; [|discriminate Vk]. injection Vk as ->.
      unfold is_section in Sf. destruct (section fs q) as [kf|] eqn:Scf; [|discriminate Sf].
      destruct (Ak q kf mf Scf Vf k0 w (aget_some_in _ _ _ Gm)) as [H|[H|[H|H]]]; [now left|now right; left| |discriminate H].
      exfalso. pose proof (Ss (q ++ [k0])%list) as Sx. rewrite Sk in Sx. unfold is_section in Sx. rewrite section_app, Scf, section_cons in Sx. rewrite leaf_app, Scf, leaf_cons in Lf.
      assert (Gk' : exists y0, aget k0 kf = Some y0).
      { clear -H. induction kf as [|[a b] kf IH]; [destruct H|]. cbn [aget]. destruct (String.eqb_spec k0 a) as [->|Hne]; [eauto|]. destruct H as [H|H]; [cbn in H; congruence|auto]. }
      destruct Gk' as ([t0 d0] & Gk'). rewrite Gk' in Sx, Lf. destruct t0; try discriminate Lf. discriminate Sx.
  - exists (VObj (c_name c2) o'). cbn [denotes]. exists (VDict m'), m', o'. split; [|split; [reflexivity|split; [reflexivity|split; [exact Kn'|exact A']]]].
    apply (deser_fixed _ _ c2 gs v rules' d m'); auto. rewrite Ra. exact Ap.
Qed.

Lemma nested_load E c fs c' gs c2 s r k v rules rules' d dir allow L :
  order_ok E -> ordinary E c fs -> ordinary E c2 gs -> all_sectioned fs -> all_sectioned gs -> same_sections fs gs ->
  lost_values_gone (TData c fs) (TData c' gs) ->
  materialize_type (TData c fs) = Ok s -> materialize_type (TData c' gs) = Ok r ->
  compare_schemas s r = Ok k -> checker_severity k <> ERROR ->
  (forall ch, In ch (ck_changes k) -> repairable_at E fs gs (ck_changes k) ch) ->
  c_versioned c = Some (v, rules) -> c_versioned c2 = Some (v + 1, rules')%Z ->
  (forall i rs, In (i, rs) rules' -> (i < v + 1)%Z) -> rules_at rules' v = ck_fixes k ->
  filev (VDict d) = true -> floatable (VDict (adel "version" d)) -> unmarked (VDict d) -> aget "version" d = Some (VInt v) -> sections_given fs (VDict d) ->
  typed_load E (TData c fs) (VDict d) dir None allow false = Ok L -> l_sched L = [] ->
  exists L', typed_load E (TData c2 gs) (VDict d) dir None allow false = Ok L' /\ l_sched L' = [].
Proof.
  intros HE O1 O2 D1 D2 Ss Lost Ms Mr C Sv Rep Vc Vc2 Hb Ra Hd Fd Ud Gv Sg H Hn.
  destruct (load_means E _ _ dir allow false L HE (proj1 O1) Hd H) as [_ D]. specialize (D Hn).
  destruct (nested_accept E allow (is_some dir) c fs c' gs c2 s r k v rules rules' d) as [v' V]; auto; [now exists (l_value L)|].
  destruct (load_exists E _ _ dir allow false v' HE (proj1 O2) Hd V) as (L' & Q & _ & Q'). eauto.
Qed.

Lemma nested_check_schema E c fs c' gs c2 v v' rules0 rules file rep w fixes rules' d dir allow L :
  order_ok E -> ordinary E c fs -> ordinary E c2 gs -> all_sectioned fs -> all_sectioned gs -> same_sections fs gs ->
  lost_values_gone (TData c fs) (TData c' gs) ->
  c_versioned c = Some (v, rules0) -> c_versioned c' = Some (v', rules) -> (v' = v \/ v' = v + 1 /\ rules_at rules v = [])%Z ->
  file_type (TData c fs) -> values_in simple (TData c fs) ->
  dump_schema (TData c fs) = Ok file -> check_schema file (TData c' gs) = Ok rep ->
  (forall w ch, In (w, ch) (rp_lines rep) -> w <> ERROR /\ repairable_at E fs gs (map snd (rp_lines rep)) ch) ->
  rp_rules rep = Some (Some w, fixes) -> rules_at rules' w = fixes ->
  c_versioned c2 = Some (match rp_bump rep with Some b => b | None => v' end, rules') ->
  (forall i rs, In (i, rs) rules' -> (i <= w)%Z) ->
  filev (VDict d) = true -> floatable (VDict (adel "version" d)) -> unmarked (VDict d) -> aget "version" d = Some (VInt v) -> sections_given fs (VDict d) ->
  typed_load E (TData c fs) (VDict d) dir None allow false = Ok L -> l_sched L = [] ->
  exists L', typed_load E (TData c2 gs) (VDict d) dir None allow false = Ok L' /\ l_sched L' = [].
Proof.
  intros HE O1 O2 D1 D2 Ss Lost Vc Vc' Vv Ft Vs Du Ck Rep Rr Ra Vc2 Hb Hd Fd Ud Gv Sg H Hn.
  destruct (compat_checked c fs c' gs v v' rules0 rules file rep Vc Vc') as (s & r & k & Ms & Mr & C & Q & Sv & Sv'); auto.
  { destruct Vv as [->|[-> Vv]]; intros i Hi; [lia|]. replace i with v by lia. exact Vv. }
  assert (Rl : rp_lines rep = map (fun ch => (change_severity ch, ch)) (ck_changes k)) by now rewrite <- Q.
  assert (Rc : map snd (rp_lines rep) = ck_changes k) by (rewrite Rl, map_map; cbn; apply map_id).
  assert (Li : forall ch, In ch (ck_changes k) -> In (change_severity ch, ch) (rp_lines rep)).
  { intros ch I. rewrite Rl. apply in_map_iff. eauto. }
  assert (Ck2 : ck_old k = s /\ ck_new k = r).
  { unfold compare_schemas in C. apply rbind_ok in C as (c1 & _ & C). apply rbind_ok in C as (c3 & _ & C). apply rbind_ok in C as (c4 & _ & C).
    injection C as <-. auto. }
  destruct Ck2 as [Eo En].
  assert (P : w = v /\ fixes = ck_fixes k /\ match rp_bump rep with Some b => b | None => v' end = (v + 1)%Z).
  { rewrite <- Q in Rr |- *. unfold print_report in Rr |- *. cbn [rp_rules rp_bump] in Rr |- *. rewrite Eo, En, Sv, Sv' in *.
    destruct (checker_severity k); [discriminate Rr| |]; (destruct (ck_fixes k); [discriminate Rr|]); injection Rr as <- <-; (split; [reflexivity|]); (split; [reflexivity|]);
    unfold version_eqb; cbn [opt_eqb sev_gt andb]; destruct (Z.eqb_spec v v') as [<-|Nv]; cbn; try reflexivity; destruct Vv as [->|[-> _]]; congruence. }
  destruct P as (-> & -> & Pv). rewrite Pv in Vc2.
  apply (nested_load E c fs c' gs c2 s r k v rules0 rules' d dir allow L); auto.
  - intros Se. pose proof (worst_is_error _ _ (severity_worst k) Se) as I. apply in_map_iff in I. destruct I as (ch & Q1 & I). now apply (Rep _ _ (Li ch I)).
  - intros ch I. rewrite <- Rc. apply (Rep _ _ (Li ch I)).
  - intros i rs I. specialize (Hb i rs I). lia.
Qed.
