(** UpgradeProps.v -- C24: what [upgrade-config] does to a file. *)
From Verif Require Import Base AFacts Value Schema Rewrite Sched Types Asdict FromDict Manager
  Induct SpecTree SpecTypes RewriteFacts FromDictFacts RoundTrip ElideFacts ElideLoad SpecState
  ResumeFacts SchedTree ResumeProps SchedElide Checker SpecLoad LoadProps SpecPlaced PlacedFacts.

Lemma updated_id val v : forall tr, uniq v -> (forall p s, opt_at tr p = Some s -> field_at v p = Some (val s)) ->
  updated val v tr = v.
Proof.
  induction v as [|x|z|f|s|l IH|l IH|d IH|n d IH|n d IH|c m x IH|c x IH] using pyval_ind'; intros tr Hu H; cbn [updated];
    assert (H0 := H []); rewrite opt_at_leaf in H0; destruct (is_leaf tr) as [s0|];
    try (specialize (H0 _ eq_refl); cbn [field_at] in H0; congruence); auto.
  f_equal. cbn [uniq] in Hu. destruct Hu as [Hu1 Hu2]. apply all_Forall in Hu2. rewrite Forall_forall in IH, Hu2.
  rewrite <- (map_id d) at 2. apply map_ext_in. intros [k x] Hin. cbn [fst snd]. f_equal.
  apply (IH (k, x) Hin); [apply (Hu2 (k, x) Hin)|]. intros p s Hp. rewrite <- opt_at_child in Hp. apply H in Hp.
  cbn [field_at] in Hp. rewrite (in_nodup_aget k x d) in Hp by auto. exact Hp.
Qed.

Section Dump.
  Variables (E : env) (c : cinfo) (fs : list (string * (ty * dflt))) (v : pyval) (l : list (string * stree)) (el sh : bool).
  Let t := TData c fs.
  Hypothesis Hp : persistable E false t.
  Hypothesis Hc : conforms sh t v.
  Hypothesis Hf : fits E "" (SNode l) t v.

  Lemma no_empty_key : aget "" l = None.
  Proof using Hp Hc Hf.
    destruct (aget "" l) as [tr|] eqn:Ek; [|reflexivity]. exfalso.
    destruct (fits_segment _ _ _ _ _ _ _ Hf Ek) as (n & d & x & Hv & Hin).
    assert (D := conforms_dumpable2 E sh t v Hp Hc). rewrite Hv in D. simpl in D. apply andb_true_iff in D as [D _]. apply andb_true_iff in D as [_ D].
    rewrite forallb_forall in D. assert (X := D "" (in_map fst _ _ Hin)). discriminate.
  Qed.

  Lemma dump_elided : typed_dump (e_class E) v (Some l) el = Ok (etree2 (e_class E) el v (Some (SNode l)), []).
  Proof using Hp Hc Hf.
    unfold typed_dump. change ([LazySer; VersionedSer] ++ [ScheduleSer l] ++ (if el then [ElideSer] else []))%list with (ssE el l).
    apply asdict_etree2.
    - now apply (conforms_dumpable2 E sh t).
    - now apply (conforms_blobless E sh t).
    - apply (instances_conforms E sh t); auto. now apply persistable_storable.
    - now apply (fits_tree_ok_c E sh t "").
    - split.
      + intros rest. reflexivity.
      + intros _. split; [|reflexivity]. cbn [look sched_lookup]. now rewrite no_empty_key.
    - intros _. simpl in Hc. destruct v; try easy; exact I.
  Qed.
End Dump.

Section Upgrade.
  Variables (E : env) (c : cinfo) (fs : list (string * (ty * dflt))) (el : bool) (dir : string) (x : pyval) (L : loaded) (sh : bool).
  Let t := TData c fs.
  Let v := l_value L.
  Let l := l_sched L.
  Hypothesis HE : order_ok E.
  Hypothesis Hp : persistable E false t.
  Hypothesis Hd : defaults_typed t.
  Hypothesis Hc : conforms sh t v.
  Hypothesis Hcl : clean v = true.
  Hypothesis Hwf : wf v = true.
  Hypothesis Hf : fits E "" (SNode l) t v.
  Hypothesis Hn : named "" (SNode l).
  Hypothesis Hs : shallow l.
  Hypothesis H0 : forall p s, sched_at (SNode l) p = Some s -> exists r, initial_value E s = Ok r /\ field_at v p = Some r.
  Hypothesis HL : typed_load E t x (Some dir) None false false = Ok L.

  Let y := ron_view (etree2 (e_class E) el v (Some (SNode l))).

  Lemma upgrade_writes : upgrade_config E x dir t el false = Ok y.
  Proof using Hp Hc Hf HL.
    unfold upgrade_config. fold t. rewrite HL. cbn [rbind]. fold v l. rewrite (dump_elided E c fs v l el sh) by auto. reflexivity.
  Qed.

  Lemma resumed_self : resumed E v (Some (SNode l)) = v.
  Proof using Hp Hc Hf H0.
    rewrite (resumed_updated E v).
    - apply updated_id.
      + eapply dumpable_uniq. eapply (conforms_dumpable2 E sh t); eauto.
      + intros p s Hps. destruct (H0 p s Hps) as (r & R1 & R2). unfold val0. now rewrite R1.
    - now apply (conforms_blobless E sh t).
    - now apply (fits_tree_ok_c E sh t "").
    - intros s p Hps. destruct (H0 p s Hps) as (r & R1 & _). eauto.
  Qed.

  Lemma upgraded : exists L',
    typed_load E t y (Some dir) None false false = Ok L' /\
    same v (l_value L') /\ (el = false -> l_value L' = v) /\
    (forall p, sched_at (SNode (l_sched L')) p = sched_at (SNode l) p) /\ l_lazy L' = [] /\
    upgrade_config E y dir t el false = Ok y.
  Proof using All.
    assert (B := conforms_blobless E sh t v Hp Hc).
    assert (D := conforms_dumpable2 E sh t v Hp Hc).
    assert (T := fits_tree_ok_c E sh t "" v (Some (SNode l)) Hp Hc Hf).
    destruct (load_etree2 E HE false (Some dir) el sh t "" v (Some (SNode l)) "" false st_init Hp Hd Hc Hcl Hf Hn) as [w [Hw (B1 & B2 & B3 & B4 & B5)]].
    { discriminate. }
    assert (SEG : forall p s, In (ESched p s) (leff v (Some (SNode l)) "") -> sched_at (SNode l) (split_on "." p) = Some s).
    { intros p s Hin. destruct (leff_in (e_class E) v _ _ _ _ D T Hin) as (q & Q1 & Q2). cbn [segs] in Q1.
      assert (p <> "") by exact (leff_path_ne v (Some (SNode l)) "" p s (e_class E) D Hin eq_refl eq_refl T).
      unfold segs in Q1. rewrite eqb_neq_str in Q1 by auto. cbn in Q1. rewrite Q1. exact Q2. }
    destruct (run_good (fun p s => sched_at (SNode l) p = Some s) (Some dir) (leff v (Some (SNode l)) "") (shallow_good l Hs)
      SEG st_init (only_nil _)) as (st1 & R1 & R2 & R3 & R4 & R5).
    rewrite resumed_self in *.
    assert (L5 : forall p, sched_at (SNode (st_sched st1)) p = sched_at (SNode l) p).
    { intros p. destruct (sched_at (SNode l) p) as [s|] eqn:Ep.
      - destruct (leff_has E (e_class E) (SNode l) "" t v "" p s D Hf Ep) as (p' & P1 & P2).
        assert (Hne : p' <> "") by exact (leff_path_ne v (Some (SNode l)) "" p' s (e_class E) D P1 eq_refl eq_refl T).
        unfold segs in P2. rewrite eqb_neq_str in P2 by auto. cbn in P2. rewrite <- P2. apply R4. exact P1.
      - destruct (sched_at (SNode (st_sched st1)) p) as [s|] eqn:Ep'; [|reflexivity].
        apply (only_at _ _ _ _ R2) in Ep'. congruence. }
    assert (LD : typed_load E t y (Some dir) None false false = Ok (mkL w (st_sched st1) [])).
    { unfold typed_load, y. rewrite Hw, R1. cbn [rbind fst snd]. rewrite blobless_lazies in R5 by auto. rewrite R5. reflexivity. }
    exists (mkL w (st_sched st1) []). cbn [l_value l_sched l_lazy]. repeat (split; [now auto|]).
    unfold upgrade_config. rewrite LD. cbn [rbind l_value l_sched].
    rewrite (dump_elided E c fs w (st_sched st1) el sh); auto.
    - cbn [rbind fst]. f_equal. unfold y. f_equal.
      rewrite (etree2_ext _ _ w _ (Some (SNode l))) by (intros p; apply L5). auto.
    - eapply (only_fits E c fs _ l); eauto.
  Qed.
End Upgrade.

(** every Versioned section of the dump carries the current version *)
Lemma etree2_version cls el z cn d : cm_version (cls cn) = Some z -> forall p v tr m,
  dumpable2 cls v = true -> field_at v p = Some (VObj cn d) ->
  lookup (ron_view (etree2 cls el v tr)) p = Some (VDict m) -> aget "version" m = Some (VInt z).
Proof.
  intros Hz. induction p as [|k p IH]; intros v tr m Hd Hf Hm.
  - injection Hf as ->. cbn [lookup] in Hm. injection Hm as Hm. cbn [etree2] in Hm. destruct (is_leaf tr); [discriminate|].
    cbn [ron_view] in Hm. rewrite Hz in Hm. injection Hm as <-. reflexivity.
  - destruct v as [| | | | | | | | |c o| |]; try discriminate. cbn [field_at] in Hf. destruct (aget k o) as [x|] eqn:Ek; [|discriminate].
    cbn [etree2] in Hm. destruct (is_leaf tr); [discriminate|]. cbn [ron_view lookup] in Hm.
    simpl in Hd. apply andb_true_iff in Hd as [Hd D3]. apply andb_true_iff in Hd as [D1 D2]. rewrite forallb_forall in D2, D3.
    assert (Hin := aget_some_in _ _ _ Ek). assert (Hk := D2 k (in_map fst _ _ Hin)). apply andb_true_iff in Hk as [Hk _].
    unfold field_name_ok in Hk. apply andb_true_iff in Hk as [Hk K4]. apply andb_true_iff in Hk as [Hk K3]. apply andb_true_iff in Hk as [K1 K2].
    cbn [aget] in Hm. apply negb_true_iff in K2. rewrite K2 in Hm. apply nodupb_NoDup in D1.
    match type of Hm with match aget k ?l with _ => _ end = _ => assert (HG : forall w, aget k l = Some w ->
       w = ron_view (etree2 cls el x (child tr k))) end.
    { intros w Hw. apply aget_some_in in Hw. apply in_map_iff in Hw as ([k' w'] & E1 & Hw). injection E1 as -> <-.
      apply in_app_or in Hw as [Hw|Hw].
      - destruct (cm_version (cls c)); [|easy]. destruct Hw as [Hw|[]]. injection Hw as <- _. discriminate.
      - apply filter_In in Hw as [Hw _]. apply in_map_iff in Hw as ([k' x'] & E1 & Hw). injection E1 as -> <-. cbn [fst snd].
        assert (x' = x) as ->; [|reflexivity]. apply in_nodup_aget in Hw; auto. congruence. }
    match type of Hm with match ?a with _ => _ end = _ => destruct a as [w|]; [|discriminate] end. rewrite (HG w eq_refl) in Hm.
    eapply IH; [|exact Hf|exact Hm]. apply (D3 _ Hin).
Qed.

Lemma upgrade_config_ok E c fs el dir x L :
  order_ok E -> loadable (TData c fs) -> persistable E false (TData c fs) -> defaults_typed (TData c fs) ->
  filev x = true -> shallow_file E false (TData c fs) x ->
  typed_load E (TData c fs) x (Some dir) None false false = Ok L ->
  clean (l_value L) = true -> wf (l_value L) = true ->
  exists y L',
    upgrade_config E x dir (TData c fs) el false = Ok y /\
    typed_load E (TData c fs) y (Some dir) None false false = Ok L' /\
    (py_eq (l_value L) (l_value L) = true -> py_eq (l_value L) (l_value L') = true) /\
    (el = false -> l_value L' = l_value L) /\
    (forall p, sched_at (SNode (l_sched L')) p = sched_at (SNode (l_sched L)) p) /\
    (forall p cn d z m, field_at (l_value L) p = Some (VObj cn d) -> cm_version (e_class E cn) = Some z ->
       lookup y p = Some (VDict m) -> aget "version" m = Some (VInt z)) /\
    (exists m, y = VDict m) /\
    upgrade_config E y dir (TData c fs) el false = Ok y.
Proof.
  intros HE Hl Hp Hd Hx Hsh HL Hcl Hwf.
  assert (Hc : conforms true (TData c fs) (l_value L)).
  { destruct (load_means _ _ _ _ _ _ _ HE Hl Hx HL) as [D _]. eapply denotes_conforms; eauto. }
  assert (Hf := file_fits E false (Some dir) false false c fs x L HE Hl Hp Hx HL Hsh).
  assert (Hn := file_named E false (Some dir) false false c fs x L HE Hl Hp Hx HL Hsh).
  assert (Hs := file_shallow E false (Some dir) false false c fs x L HE Hl Hp Hx HL Hsh).
  assert (H0 := file_initial E false (Some dir) false false c fs x L HE Hl Hp Hx HL Hsh).
  assert (U := upgrade_writes E c fs el dir x L true Hp Hc Hf HL).
  destruct (upgraded E c fs el dir x L true HE Hp Hd Hc Hcl Hwf Hf Hn Hs H0 HL) as (L' & U1 & U2 & U3 & U4 & U5 & U6).
  eexists. exists L'. split; [exact U|]. split; [exact U1|]. split; [intros He; now apply same_py_eq|]. split; [exact U3|]. split; [exact U4|].
  split; [|split; [|exact U6]].
  - intros p cn d z m F1 F2 F3. eapply etree2_version; eauto. eapply (conforms_dumpable2 E true); eauto.
  - destruct (l_value L) as [| | | | | | | | |n d| |]; try easy. cbn [etree2 is_leaf ron_view]. eauto.
Qed.

Lemma upgrade_config_loads E x dir t el dry y : upgrade_config E x dir t el dry = Ok y ->
  exists L, typed_load E t x (Some dir) None false false = Ok L.
Proof. intros H. unfold upgrade_config in H. apply rbind_ok in H as [L [H _]]. eauto. Qed.

Lemma upgrade_config_dry E x dir t el y : upgrade_config E x dir t el true = Ok y -> y = x.
Proof.
  intros H. unfold upgrade_config in H. apply rbind_ok in H as [L [_ H]]. apply rbind_ok in H as [d [_ H]]. now injection H.
Qed.
