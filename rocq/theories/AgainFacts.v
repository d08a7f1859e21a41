(** AgainFacts.v -- giving the same overrides again when a dumped config is loaded. *)
From Coq Require Import Permutation.
From Verif Require Import Base AFacts Value Schema Rewrite Sched Types Asdict FromDict Induct SchedTree
  SpecTree SpecTypes SpecState RewriteFacts UpgradeFacts FromDictFacts RoundTrip SpecLoad LoadFacts LoadSound
  OverrideSim SpecOverride OverrideFacts OverrideLoad UpgradeFacts ResumeFacts ResumeProps SpecAgain SpecLazy ConfigFacts.
From Verif Require HelpFacts.

(** ** replacing an entry of the file by one that reads the same *)
Section Swap.
  Variable E : env.
  Variable allow : bool.
  Variable dir : option string.
  Let dss := typed_load_desers None allow dir.

  Definition settled_at (c : cinfo) (d : list (string * pyval)) (k : string) : Prop :=
    c_versioned c = None \/
    exists d0 cur rules z, VDict d = VDict d0 /\ c_versioned c = Some (cur, rules) /\
      aget "version" d0 = Some (VInt z) /\ (cur <= z)%Z /\ k <> "version".

  Definition body_items (c : cinfo) (d : list (string * pyval)) : list (string * pyval) :=
    match c_versioned c with None => d | Some _ => adel "version" d end.

  Lemma from_dict_items c fs d path ig st k : settled_at c d k ->
    (forall ver rules, c_versioned c = Some (ver, rules) -> Forall (fun kr => (fst kr < ver)%Z) rules) ->
    from_dict E dss (TData c fs) (VDict d) path ig st =
    data_body E (fun ft v p s => from_dict E dss ft v p false s) c fs path ig (body_items c d) st.
  Proof.
    intros Hs Hr. rewrite from_dict_main by discriminate. unfold from_main. subst dss.
    rewrite (deser_plain E None allow dir) by reflexivity. unfold body_items.
    destruct Hs as [Hc|(d0 & cur & rules & z & [= <-] & Hc & Hv & Hz & _)]; cbn [deser_versioned]; rewrite Hc.
    - destruct d; reflexivity.
    - assert (F : forallb (fun kv : Z * list rule => Z.ltb (fst kv) cur) rules = true).
      { apply forallb_forall. assert (Hr' := Hr _ _ Hc). rewrite Forall_forall in Hr'. intros x Hx. apply Z.ltb_lt. auto. }
      rewrite Hv. unfold apply_upgrades. rewrite F. cbn [as_int].
      rewrite zrange_empty by auto. cbn [rbind upgrade_steps]. destruct (adel "version" d); reflexivity.
  Qed.

  Lemma fields_loop_swap f cname ig k w w' g : forall items path kw weak st r,
    k <> "!__name__" -> is_weak w = false -> is_weak w' = false -> f k = Some g ->
    (forall p s x, g w p s = Ok x -> g w' p s = Ok x) -> aget k items = Some w ->
    fields_loop f cname path ig items kw weak st = Ok r ->
    fields_loop f cname path ig (aset k w' items) kw weak st = Ok r.
  Proof.
    intros items path kw weak st r Hk Hw Hw' Hf Hg. revert kw weak st.
    induction items as [|[j x] items IH]; intros kw weak st Ha H; [discriminate|].
    cbn [aset aget] in *. destruct (String.eqb k j) eqn:Ej.
    - apply String.eqb_eq in Ej as <-. injection Ha as ->. cbn [fields_loop] in *.
      rewrite eqb_neq_str in * by auto. rewrite Hw in H. rewrite Hw'. rewrite Hf in *.
      apply rbind_ok in H as [y [H1 H2]]. rewrite (Hg _ _ _ H1). exact H2.
    - cbn [fields_loop] in *. destruct (String.eqb j "!__name__"); auto. destruct (is_weak x); auto.
      destruct (f j); [|destruct ig; auto; discriminate]. apply rbind_ok in H as [y [H1 H2]]. rewrite H1. cbn [rbind]. auto.
  Qed.

  Lemma adel_aset_other {A} j k (x : A) d : j <> k -> adel j (aset k x d) = aset k x (adel j d).
  Proof.
    intros H. induction d as [|[i y] d IH].
    - cbn [aset adel]. now rewrite eqb_neq_str.
    - cbn [aset adel]. destruct (String.eqb k i) eqn:Ek.
      + apply String.eqb_eq in Ek as <-. cbn [adel]. rewrite (eqb_neq_str j k) by auto. cbn [aset]. now rewrite String.eqb_refl.
      + cbn [adel]. destruct (String.eqb j i); [reflexivity|]. cbn [aset]. now rewrite Ek, IH.
  Qed.

  (** [x] and [x'] are entries for a field of type [ft], and [x'] reads the same *)
  Definition reads_as (ft : ty) (x x' : pyval) : Prop :=
    forall path st r, from_dict E dss ft x path false st = Ok r -> from_dict E dss ft x' path false st = Ok r.

  Lemma data_body_swap c fs path ig d k ft fd w w' st r :
    NoDup (field_names fs) -> k <> "!__name__" -> aget k fs = Some (ft, fd) -> is_weak w = false -> is_weak w' = false ->
    aget k d = Some w -> reads_as ft w w' ->
    data_body E (fun ft v p s => from_dict E dss ft v p false s) c fs path ig d st = Ok r ->
    data_body E (fun ft v p s => from_dict E dss ft v p false s) c fs path ig (aset k w' d) st = Ok r.
  Proof.
    intros Hnd Hk Hf Hw Hw' Hd Hr. unfold data_body. intros H. apply rbind_ok in H as [z [H1 H2]].
    erewrite fields_loop_swap; [exact H2|exact Hk|exact Hw|exact Hw'| | |exact Hd|exact H1].
    - cbn beta. rewrite field_with_aget, Hf. reflexivity.
    - cbn beta. intros p s x. apply Hr.
  Qed.

  Lemma swap bl p : forall t y path ig st r w w' y' ft,
    persistable E bl t -> settled t y p -> type_at t p = Some ft ->
    lookup y p = Some w -> write y p w' = Some y' -> strong y p -> strong y' p ->
    p <> [] -> reads_as ft w w' ->
    from_dict E dss t y path ig st = Ok r -> from_dict E dss t y' path ig st = Ok r.
  Proof.
    induction p as [|k p IH]; [easy|]. intros t y path ig st r w w' y' ft Hp Hs Ht Hl Hw Hg Hg' _ Hr H.
    apply lookup_split in Hl as (d & c0 & -> & Hk & Hl). rewrite write_dict, Hk in Hw.
    destruct (write c0 p w') as [c0'|] eqn:Ew; [|discriminate]. injection Hw as <-.
    induction t as [| | | | | | | |t1 IHt| |c fs _| | |] using ty_ind';
      try (cbn [type_at strip_opt] in Ht; discriminate).
    - rewrite from_dict_eq in H |- *. cbn [is_none] in H |- *. apply IHt; [exact Hp|exact Hs|exact Ht|exact H].
    - cbn [type_at strip_opt settled strong] in *. rewrite aget_aset_same in Hg'. rewrite Hk in Hg.
      destruct (aget k fs) as [[ft0 fd]|] eqn:Ef; [|discriminate].
      destruct Hs as [Hs1 Hs2]. cbn [lookup] in Hs2. rewrite Hk in Hs2. destruct Hg as [G1 G2]. destruct Hg' as [G3 G4].
      destruct Hp as (P1 & P2 & P3 & P4 & P5).
      assert (Hkn : k <> "!__name__").
      { rewrite Forall_forall in P2. assert (Hin : In k (field_names fs)) by (apply aget_some_in in Ef; apply (in_map fst) in Ef; exact Ef).
        destruct (P2 _ Hin) as [X _]. intros ->. destruct (c_versioned c); discriminate. }
      assert (Hfp : persistable E bl ft0) by (apply all_Forall in P5; rewrite Forall_forall in P5; apply aget_some_in in Ef; apply (P5 _ Ef)).
      assert (S2 : settled_at c (aset k c0' d) k).
      { destruct Hs1 as [V|(d0 & cur & rules & z & [= <-] & V1 & V2 & V3 & V4)]; [now left|right].
        exists (aset k c0' d), cur, rules, z. split; [reflexivity|]. split; [exact V1|]. rewrite aget_aset_other by auto. auto. }
      rewrite (from_dict_items c fs d path ig st k) in H by auto.
      rewrite (from_dict_items c fs _ path ig st k) by auto.
      assert (Hb : body_items c (aset k c0' d) = aset k c0' (body_items c d)).
      { unfold body_items. destruct Hs1 as [V|(d0 & cur & rules & z & _ & V & _ & _ & V4)]; rewrite V; auto. apply adel_aset_other. auto. }
      assert (Hk2 : aget k (body_items c d) = Some c0).
      { unfold body_items. destruct Hs1 as [V|(d0 & cur & rules & z & _ & V & _ & _ & V4)]; rewrite V; auto. rewrite aget_adel_other; auto. }
      rewrite Hb. apply (data_body_swap c fs path ig (body_items c d) k ft0 fd c0 c0' st r); auto.
      destruct p as [|k2 p].
      + injection Ew as <-. injection Hl as <-. injection Ht as <-. exact Hr.
      + intros path' st' r'. apply (IH ft0 c0 path' false st' r' w w' c0' ft); auto. discriminate.
  Qed.
End Swap.

(** ** the entries of a dumped config *)
Section Dumped.
  Variable E : env.
  Let cls := e_class E.

  Lemma dump_markerless v : forall tr, dumpable2 cls v = true -> clean v = true ->
    markerless (ron_view (dtree2 cls v tr)) = true.
  Proof.
    induction v as [|x|z|f|s|l IH|l IH|d IH|n d IH|n d IH|c m x IH|c x IH] using pyval_ind'; intros tr Hd Hc;
      cbn [dtree2]; destruct (is_leaf tr) eqn:El; try reflexivity; try discriminate.
    - simpl in Hd, Hc. apply andb_true_iff in Hc as [Hc1 Hc2]. rewrite forallb_forall in Hd, Hc2. rewrite Forall_forall in IH.
      cbn [ron_view markerless]. rewrite !map_map. cbn [fst snd]. apply andb_true_iff. split.
      + apply negb_true_iff. destruct (existsb _ _) eqn:Ex; auto. apply existsb_exists in Ex as ([k x] & Hin & Hk).
        apply in_map_iff in Hin as ([k' x'] & [= <- _] & Hin). cbn [fst] in *. apply String.eqb_eq in Hk as ->.
        apply negb_true_iff, amem_false in Hc1. exfalso. apply Hc1. apply (in_map fst) in Hin. exact Hin.
      + apply forallb_forall. intros kv Hin. apply in_map_iff in Hin as ([k' x'] & <- & Hin). cbn [fst snd].
        apply (IH _ Hin); [apply (Hd _ Hin)|apply (Hc2 _ Hin)].
    - assert (Hw := is_weak_dumped2 E (VObj n d) tr Hd Hc). unfold cls in *. cbn [dtree2] in Hw. rewrite El in Hw.
      cbn [ron_view markerless is_weak] in *. apply andb_true_iff. split.
      + apply negb_true_iff. destruct (existsb _ _) eqn:Ex; auto. apply existsb_exists in Ex as ([k x] & Hin & Hk).
        cbn [fst] in Hk. apply String.eqb_eq in Hk as ->. apply amem_false in Hw. exfalso. apply Hw. apply (in_map fst) in Hin. exact Hin.
      + simpl in Hd, Hc. apply andb_true_iff in Hd as [_ Hd]. rewrite forallb_forall in Hd, Hc. rewrite Forall_forall in IH.
        apply forallb_forall. intros kv [<-|Hin]; [reflexivity|]. rewrite map_app in Hin. apply in_app_or in Hin as [Hin|Hin].
        * destruct (cm_version (e_class E n)); [|easy]. destruct Hin as [<-|[]]. reflexivity.
        * rewrite map_map in Hin. apply in_map_iff in Hin as ([k' x'] & <- & Hin). cbn [fst snd].
          apply (IH _ Hin); [apply (Hd _ Hin)|apply (Hc _ Hin)].
  Qed.

  Definition below (tr : option stree) (p : list string) : option stree := fold_left child p tr.

  Lemma holds_strip t : forall v n d, v = VObj n d -> holds t v -> holds (strip_opt t) v.
  Proof. induction t; intros v n0 d -> H; auto. cbn [strip_opt]. destruct H as [H|H]; [discriminate|]. eapply IHt; eauto. Qed.

  Lemma persistable_strip bl t : persistable E bl t -> persistable E bl (strip_opt t).
  Proof. induction t; intros H; auto. Qed.

  Lemma holds_field c fs n d k ft fd u : holds (TData c fs) (VObj n d) -> NoDup (field_names fs) ->
    aget k fs = Some (ft, fd) -> aget k d = Some u -> holds ft u.
  Proof.
    intros (_ & H) Hnd Hf Hd.
    assert (Hkd : map fst d = field_names fs).
    { clear -H. revert d H. induction fs as [|[fn [t f]] fs IH]; intros [|[j x] d] H; try easy. destruct H as [[H1 _] H2].
      simpl in *. f_equal; auto. }
    apply aget_some_in in Hf. destruct (all2_in_l _ _ _ _ H Hf) as ([k' u'] & Hin & Hk' & Hu). cbn [fst snd] in *. subst k'.
    rewrite (in_nodup_aget k u' d) in Hd; [now injection Hd as <-| |exact Hin]. unfold akeys. now rewrite Hkd.
  Qed.

  Lemma dump_at bl p : forall t v tr u ft, persistable E bl t -> holds t v -> type_at t p = Some ft -> obj_at v p = Some u ->
    (exists s, opt_at tr p = Some s) \/ (forall q s, opt_at tr q = Some s -> ~ prefix_of p q /\ ~ prefix_of q p) ->
    lookup (ron_view (dtree2 cls v tr)) p = Some (ron_view (dtree2 cls u (below tr p))) /\
    settled t (ron_view (dtree2 cls v tr)) p /\ holds ft u /\ persistable E bl ft.
  Proof.
    induction p as [|k p IH]; intros t v tr u ft Hp Hh Ht Hu Hq.
    - injection Ht as <-. injection Hu as <-. cbn [lookup settled below fold_left]. auto.
    - cbn [obj_at] in Hu. destruct v as [| | | | | | | | |n d| |]; try discriminate. destruct (aget k d) as [x|] eqn:Ek; [|discriminate].
      apply (holds_strip t _ _ _ eq_refl) in Hh. apply persistable_strip in Hp. cbn [type_at settled] in *.
      destruct (strip_opt t) as [| | | | | | | | | |c fs| | |]; try discriminate.
      destruct (aget k fs) as [[ft0 fd]|] eqn:Ef; [|discriminate].
      assert (Hn : n = c_name c) by apply Hh.
      destruct Hp as (P1 & P2 & P3 & P4 & P5).
      assert (Hfh := holds_field c fs n d k ft0 fd x Hh P1 Ef Ek).
      assert (Hfp : persistable E bl ft0) by (apply all_Forall in P5; rewrite Forall_forall in P5; apply aget_some_in in Ef; apply (P5 _ Ef)).
      assert (Hkn : field_name_ok (is_some (c_versioned c)) k = true).
      { rewrite Forall_forall in P2. assert (Hin : In k (field_names fs)) by (apply aget_some_in in Ef; apply (in_map fst) in Ef; exact Ef).
        apply (P2 _ Hin). }
      assert (Hk1 : k <> "!__name__") by (intros ->; destruct (c_versioned c); discriminate).
      assert (El : is_leaf tr = None).
      { rewrite <- opt_at_leaf. destruct Hq as [[s Hs]|Hq].
        - destruct tr as [[s0|l0]|]; cbn in *; try reflexivity; try discriminate.
        - destruct (opt_at tr []) as [s|] eqn:E1; [|reflexivity]. destruct (Hq [] s E1) as [_ X]. exfalso. apply X. exact I. }
      cbn [dtree2]. rewrite El. cbn [ron_view lookup].
      set (ver := match cm_version (cls n) with Some z => [("version", VInt z)] | None => [] end).
      assert (Hcv : cm_version (cls n) = option_map fst (c_versioned c)) by (unfold cls; rewrite Hn, P3; reflexivity).
      assert (Hk2 : aget k (("!__name__", VStr n) :: map (fun kv => (fst kv, ron_view (snd kv)))
          (ver ++ map (fun kv => (fst kv, dtree2 cls (snd kv) (child tr (fst kv)))) d)%list) =
          Some (ron_view (dtree2 cls x (child tr k)))).
      { cbn [aget]. rewrite eqb_neq_str by auto. rewrite map_app, map_map. cbn [fst snd].
        assert (X : aget k (map (fun kv => (fst kv, ron_view (dtree2 cls (snd kv) (child tr (fst kv))))) d) = Some (ron_view (dtree2 cls x (child tr k)))).
        { rewrite (aget_mapk (fun k x => ron_view (dtree2 cls x (child tr k)))), Ek. reflexivity. }
        unfold ver. rewrite Hcv. destruct (c_versioned c) as [[cur rules]|]; [|exact X]. cbn [option_map fst map app aget].
        rewrite eqb_neq_str; [exact X|]. intros ->. discriminate. }
      rewrite Hk2.
      destruct (IH ft0 x (child tr k) u ft Hfp Hfh Ht Hu) as (I1 & I2 & I3 & I4).
      { destruct Hq as [[s Hs]|Hq]; [left; exists s; now rewrite <- opt_at_child|right].
        intros q s Hqs. rewrite <- opt_at_child in Hqs. apply Hq in Hqs. cbn [prefix_of] in Hqs. tauto. }
      split; [exact I1|]. split; [|auto]. split; [|exact I2].
      destruct (c_versioned c) as [[cur rules]|] eqn:Ev; [right|now left].
      do 4 eexists. split; [reflexivity|]. split; [reflexivity|]. unfold ver. rewrite Hcv. cbn [option_map fst app map aget snd ron_view].
      split; [reflexivity|]. split; [apply Z.le_refl|]. intros ->. discriminate.
  Qed.
End Dumped.

(** ** several overrides *)
Lemma settled_write p : forall q t y y' val ft, settled t y p -> settled t y q -> type_at t q = Some ft ->
  write y q val = Some y' -> unrelated q p -> (exists w, lookup y p = Some w) -> settled t y' p.
Proof.
  induction p as [|k p IH]; intros q t y y' val ft Hp Hq Ht Hw Hu [w Hl]; [exact I|].
  destruct q as [|j q]; [now apply unrelated_nil_l in Hu|].
  apply lookup_split in Hl as (d & c0 & -> & Hk & Hl). rewrite write_dict in Hw.
  destruct (write _ q val) as [c1|] eqn:Ew; [|discriminate]. injection Hw as <-.
  cbn [settled type_at] in *. destruct (strip_opt t) as [| | | | | | | | | |c fs| | |]; auto.
  destruct Hp as [Hp1 Hp2]. destruct Hq as [Hq1 Hq2]. split.
  - destruct Hp1 as [V|(d0 & cur & rules & z & [= <-] & V1 & V2 & V3 & V4)]; [now left|right].
    exists (aset j c1 d), cur, rules, z. split; [reflexivity|]. split; [exact V1|].
    destruct Hq1 as [V|(d1 & cur1 & rules1 & z1 & _ & _ & _ & _ & V5)]; [congruence|].
    rewrite aget_aset_other by auto. auto.
  - cbn [lookup] in *. rewrite Hk in Hp2. destruct (string_dec k j) as [->|Hkj].
    + rewrite aget_aset_same. rewrite Hk in *. destruct (aget j fs) as [[ft0 fd]|]; [|discriminate].
      apply unrelated_cons in Hu. eapply (IH q ft0 c0 c1 val ft); eauto.
    + rewrite aget_aset_other by auto. rewrite Hk. destruct (aget k fs) as [[ft0 fd]|]; auto.
Qed.

Lemma write_exists p v : forall y w, lookup y p = Some w -> exists y', write y p v = Some y'.
Proof.
  induction p as [|k p IH]; intros y w H; [eexists; reflexivity|].
  apply lookup_split in H as (d & c0 & -> & Hk & H). rewrite write_dict, Hk. destruct (IH _ _ H) as [y' ->]. eauto.
Qed.

Lemma persistable_idents E bl p : forall t ft, persistable E bl t -> type_at t p = Some ft -> ~ In WEAK_REF p.
Proof.
  induction p as [|k p IH]; intros t ft Hp Ht; [easy|]. apply persistable_strip in Hp. cbn [type_at] in Ht.
  destruct (strip_opt t) as [| | | | | | | | | |c fs| | |]; try discriminate. destruct (aget k fs) as [[ft0 fd]|] eqn:Ef; [|discriminate].
  destruct Hp as (P1 & P2 & P3 & P4 & P5). apply aget_some_in in Ef. intros [->|H].
  - rewrite Forall_forall in P2. assert (Hin := in_map fst _ _ Ef). destruct (P2 _ Hin) as [X _]. discriminate.
  - apply all_Forall in P5. rewrite Forall_forall in P5. apply (IH ft0 ft (P5 _ Ef) Ht H).
Qed.

(** ** several overrides for one field *)
Lemma aset_swap {A} j k (x y : A) d : j <> k -> aget j d <> None -> aget k d <> None ->
  aset j x (aset k y d) = aset k y (aset j x d).
Proof.
  intros Hjk. induction d as [|[i z] d IH]; cbn [aget]; [easy|]. intros Hj Hk. cbn [aset].
  destruct (String.eqb_spec k i) as [->|Hki]; destruct (String.eqb_spec j i) as [->|Hji]; try congruence.
  - cbn [aset]. rewrite String.eqb_refl. destruct (String.eqb_spec j i); congruence.
  - cbn [aset]. rewrite String.eqb_refl. destruct (String.eqb_spec k i); congruence.
  - cbn [aset]. destruct (String.eqb_spec j i); [congruence|]. destruct (String.eqb_spec k i); [congruence|]. f_equal. now apply IH.
Qed.

Lemma write_write p v v1 : forall y y1 w, lookup y p = Some w -> write y p v = Some y1 -> write y1 p v1 = write y p v1.
Proof.
  induction p as [|k p IH]; intros y y1 w L W; [reflexivity|].
  apply lookup_split in L as (d & c0 & -> & Hk & L). rewrite write_dict, Hk in W. destruct (write c0 p v) as [c1|] eqn:Ew; [|discriminate].
  injection W as <-. rewrite !write_dict, aget_aset_same, Hk. rewrite (IH c0 c1 w L Ew). destruct (write c0 p v1); [|reflexivity]. now rewrite aset_aset.
Qed.

Lemma write_swap p v : forall q v1 y y1 y2 w w1, lookup y p = Some w -> lookup y q = Some w1 -> unrelated p q ->
  write y p v = Some y1 -> write y q v1 = Some y2 -> exists y3, write y1 q v1 = Some y3 /\ write y2 p v = Some y3.
Proof.
  induction p as [|k p IH]; intros q v1 y y1 y2 w w1 L L1 U W W1; [now apply unrelated_nil_l in U|].
  destruct q as [|j q]; [now apply unrelated_sym, unrelated_nil_l in U|].
  apply lookup_split in L as (d & c0 & -> & Hk & L). apply lookup_split in L1 as (d' & c1 & [= <-] & Hj & L1).
  rewrite write_dict, Hk in W. rewrite write_dict, Hj in W1. destruct (write c0 p v) as [a|] eqn:Ea; [|discriminate]. destruct (write c1 q v1) as [b|] eqn:Eb; [|discriminate].
  injection W as <-. injection W1 as <-. rewrite !write_dict. destruct (string_dec k j) as [->|Hkj].
  - rewrite Hk in Hj. injection Hj as <-. apply unrelated_cons in U. destruct (IH q v1 c0 a b w w1 L L1 U Ea Eb) as (y3 & X1 & X2).
    rewrite !aget_aset_same, X1, X2. eexists. split; [reflexivity|]. now rewrite !aset_aset.
  - rewrite !aget_aset_other by congruence. rewrite Hk, Hj, Ea, Eb. eexists. split; [reflexivity|]. rewrite aset_swap; congruence.
Qed.

Lemma apart_tail o ovs : apart (o :: ovs) -> apart ovs.
Proof. intros Ha l1 o1 l2 o' p1 q s s' -> Hi. apply (Ha (o :: l1) o1 l2 o' p1 q s s'); auto. Qed.

Lemma shadow E t p val ovs : forall y y' y1, apart ovs -> written E t ovs y y' -> write y p val = Some y1 ->
  (forall o q s, In o ovs -> names o q s -> unrelated p q \/ p = q) -> (exists o s, In o ovs /\ names o p s) ->
  (forall o q s, In o ovs -> names o q s -> exists w, lookup y q = Some w) -> (exists w, lookup y p = Some w) -> written E t ovs y1 y'.
Proof.
  induction ovs as [|o ovs IH]; intros y y' y1 Ha W W1 Hu (o2 & s2 & H2 & N2) Hl [w L]; [contradiction|].
  apply written_inv in W as (q & text & ft & v1 & y2 & G1 & G2 & G3 & G4 & G5).
  destruct (Hu o q text (or_introl eq_refl) G1) as [U| <-].
  - destruct (Hl o q text (or_introl eq_refl) G1) as [w1 L1]. destruct (write_swap p val q v1 y y1 y2 w w1 L L1 U W1 G4) as (y3 & X1 & X2).
    econstructor; [exact G1|exact G2|exact G3|exact X1|]. apply (IH y2 y' y3); auto.
    + eapply apart_tail; eauto.
    + intros o' q' s' Hi. apply Hu. now right.
    + destruct H2 as [<-|H2]; [|eauto]. destruct (names_fun _ _ _ _ _ G1 N2) as [-> _]. destruct U as [U _]. exfalso. apply U. exists []. now rewrite app_nil_r.
    + intros o' q' s' Hi Hn. destruct (Ha [] o ovs o' q q' text s' eq_refl Hi G1 Hn) as [U'| <-].
      * rewrite (write_other q v1 y y2 q' G4 U'). apply (Hl o' q' s'); auto. now right.
      * exists v1. eapply write_same; eauto.
    + exists w. rewrite (write_other q v1 y y2 p G4); auto using unrelated_sym.
  - econstructor; [exact G1|exact G2|exact G3| |exact G5]. rewrite (write_write p val v1 y y1 w L W1). exact G4.
Qed.

Lemma overridden_dec o p s l2 : names o p s -> overridden_again o l2 \/ ~ overridden_again o l2.
Proof.
  intros N. destruct (existsb (fun o' => String.prefix (join "." p ++ "=") o') l2) eqn:X.
  - left. apply existsb_exists in X as (o' & Hi & X). apply HelpFacts.prefix_app in X as [y ->]. exists (((join "." p) ++ "=") ++ y)%string, p, s, y.
    split; [exact Hi|]. split; [exact N|]. destruct N as (N1 & N2 & _). split; [exact N1|]. split; [exact N2|]. now rewrite append_assoc_str.
  - right. intros (o' & p' & s1 & s' & Hi & N1 & N2). destruct (names_fun _ _ _ _ _ N N1) as [-> _].
    rewrite <- Bool.not_true_iff_false, existsb_exists in X. apply X. exists o'. split; [exact Hi|]. apply HelpFacts.prefix_app. exists s'.
    destruct N2 as (_ & _ & ->). now rewrite append_assoc_str.
Qed.

Lemma obeys_readable E t cfg l ovs : obeys_all E t cfg l ovs -> forall o, In o ovs -> readable_override E t o.
Proof.
  induction ovs as [|o1 ovs IH]; intros H o Hi; [contradiction|]. destruct H as [H1 H2]. destruct Hi as [<-|Hi]; [|auto].
  destruct H1 as [[(p & text & ft & val & u & G1 & G2 & G3 & _) _]|[H1 _]]; [exists p, text, ft, val; auto|exact H1].
Qed.

Lemma obeys_all_impl E t cfg l cfg' l' ovs : (forall o, obeys E t cfg l o -> obeys E t cfg' l' o) -> obeys_all E t cfg l ovs -> obeys_all E t cfg' l' ovs.
Proof.
  intros H. induction ovs as [|o ovs IH]; [auto|]. intros [H1 H2]. split; [|auto]. destruct H1 as [[H1 A]|H1]; [left; auto|now right].
Qed.

Lemma obeys_all_intro E t cfg l ovs : (forall l1 o l2, ovs = (l1 ++ o :: l2)%list ->
  (obeys E t cfg l o /\ ~ overridden_again o l2) \/ (readable_override E t o /\ overridden_again o l2)) -> obeys_all E t cfg l ovs.
Proof.
  induction ovs as [|o ovs IH]; intros H; [exact I|]. split; [apply (H [] o ovs eq_refl)|]. apply IH. intros l1 o' l2 ->. apply (H (o :: l1)). reflexivity.
Qed.

Section Again.
  Variables (E : env) (bl allow : bool) (dir : option string) (t : ty).
  Hypothesis Hp : persistable E bl t.
  Hypothesis Hr : ron_file E.
  Let dss := typed_load_desers None allow dir.

  Definition ready (y : pyval) (o : string) : Prop :=
    exists p text ft val w, names o p text /\ type_at t p = Some ft /\ text_value E ft text val /\
      settled t y p /\ lookup y p = Some w /\ reads_as E allow dir ft w val.

  Fixpoint ready_all (y : pyval) (ovs : list string) : Prop :=
    match ovs with
    | [] => True
    | o :: r => ((ready y o /\ ~ overridden_again o r) \/ (readable_override E t o /\ overridden_again o r)) /\ ready_all y r
    end.

  Lemma ready_lookup y ovs : ready_all y ovs -> forall o q s, In o ovs -> names o q s -> exists w, lookup y q = Some w.
  Proof.
    induction ovs as [|o1 ovs IH]; intros H o q s Hi N; [contradiction|]. destruct H as [H1 H2]. destruct Hi as [<-|Hi]; [|eauto].
    destruct H1 as [[(p & text & ft & val & w & N' & _ & _ & _ & L & _) _]|[_ (o' & p & s1 & s' & Hi & N1 & N2)]].
    - destruct (names_fun _ _ _ _ _ N N') as [-> _]. eauto.
    - destruct (names_fun _ _ _ _ _ N N1) as [-> _]. eauto.
  Qed.

  Lemma ready_write y o p text ft val y1 ovs : names o p text -> type_at t p = Some ft -> settled t y p -> write y p val = Some y1 ->
    (forall o' q s, In o' ovs -> names o' q s -> unrelated p q) -> ready_all y ovs -> ready_all y1 ovs.
  Proof.
    intros N T S1 W. induction ovs as [|o2 ovs IH]; intros Hu H; [exact I|]. destruct H as [H1 H2]. split; [|apply IH; auto; intros; eapply Hu; eauto; now right].
    destruct H1 as [[(p2 & text2 & ft2 & val2 & w2 & N2 & T2 & V2 & S2 & L2 & R2) A]|H1]; [left; split; [|exact A]|now right].
    assert (U : unrelated p p2) by (eapply Hu; [now left|exact N2]).
    exists p2, text2, ft2, val2, w2. split; auto. split; auto. split; auto. split; [|split; [|exact R2]].
    - eapply (settled_write p2 p t y y1 val ft); eauto.
    - rewrite (write_other p val y y1 p2 W U). exact L2.
  Qed.

  Lemma written_again ovs : forall y ig r, apart ovs -> ready_all y ovs -> markerless y = true ->
    from_dict E dss t y "" ig st_init = Ok r ->
    exists y', written E t ovs y y' /\ from_dict E dss t y' "" ig st_init = Ok r.
  Proof.
    induction ovs as [|o ovs IH]; intros y ig r Ha Hf Hm H.
    - exists y. split; [constructor|exact H].
    - destruct Hf as [[[Hf1 Na]|[Hf1 Ag]] Hf2].
      + destruct Hf1 as (p & text & ft & val & w & N & T & V & S1 & L & R).
        destruct (write_exists p val y w L) as [y1 W].
        assert (Hw := persistable_idents _ _ _ _ _ Hp T).
        assert (Hm1 : markerless y1 = true) by (eapply markerless_write; [exact Hw|exact Hm|eapply text_markerless; eauto|exact W]).
        assert (H1 : from_dict E dss t y1 "" ig st_init = Ok r).
        { eapply (swap E allow dir bl p t y "" ig st_init r w val y1 ft); eauto using markerless_strong. apply N. }
        destruct (IH y1 ig r) as (y' & W1 & W2); auto.
        * eapply apart_tail; eauto.
        * eapply ready_write; eauto. intros o' q s Hi Nq. destruct (Ha [] o ovs o' p q text s eq_refl Hi N Nq) as [U| <-]; [exact U|].
          exfalso. apply Na. exists o', p, text, s. auto.
        * exists y'. split; [econstructor; eauto|exact W2].
      + destruct Hf1 as (p & text & ft & val & N & T & V). destruct Ag as (o' & p' & s1 & s' & Hi & N1 & N2).
        destruct (names_fun _ _ _ _ _ N N1) as [-> _].
        destruct (IH y ig r) as (y' & W1 & W2); auto; [eapply apart_tail; eauto|].
        destruct (ready_lookup y ovs Hf2 o' p s' Hi N2) as [w L]. destruct (write_exists p val y w L) as [y1 W].
        exists y'. split; [|exact W2]. econstructor; [exact N|exact T|exact V|exact W|].
        eapply (shadow E t p val ovs y y' y1); eauto; [eapply apart_tail; eauto| |eapply ready_lookup; eauto].
        intros o2 q s Hi2 Nq. eapply (Ha [] o ovs o2 p q text s); eauto.
  Qed.
End Again.

Lemma persistable_serless E t : persistable E false t -> serless t = true.
Proof.
  induction t as [| | | | |i IH|l IH|k v IHk IHv|i IH|l IH|c fs IH|n ms|l|n] using ty_ind'; intros H; try reflexivity; try (apply IH; exact H).
  - cbn [serless]. apply forallb_forall. simpl in H. apply all_Forall in H. rewrite Forall_forall in *. intros x Hx. apply IH; auto.
  - destruct H as [_ H]. apply IHv. exact H.
  - cbn [serless]. apply forallb_forall. destruct H as [H _]. apply all_Forall in H. rewrite Forall_forall in *. intros x Hx.
    apply IH; auto. now apply H.
  - cbn [serless]. apply forallb_forall. destruct H as (_ & _ & _ & _ & H). apply all_Forall in H. rewrite Forall_forall in *.
    intros [n0 [ft fd]] Hx. apply (IH _ Hx). apply (H _ Hx).
  - discriminate.
Qed.

Lemma loadable_at p : forall t ft, loadable t -> type_at t p = Some ft -> loadable ft.
Proof.
  induction p as [|k p IH]; intros t ft Hl Ht; [now injection Ht as <-|]. apply loadable_strip in Hl. cbn [type_at] in Ht.
  destruct (strip_opt t) as [| | | | | | | | | |c fs| | |]; try discriminate. destruct (aget k fs) as [[ft0 fd]|] eqn:Ef; [|discriminate].
  eapply IH; [|exact Ht]. eapply loadable_field; eauto.
Qed.

Lemma text_filev E ft text val : ron_file E -> text_value E ft text val -> filev val = true.
Proof.
  intros HE H. destruct ft; cbn in H; try (apply HE in H; tauto).
  - subst. reflexivity.
  - destruct H as (b & _ & ->). reflexivity.
Qed.

Lemma clean_at p : forall v u, clean v = true -> obj_at v p = Some u -> clean u = true.
Proof.
  induction p as [|k p IH]; intros v u Hc H; [now injection H as <-|]. cbn [obj_at] in H. destruct v as [| | | | | | | | |n d| |]; try discriminate.
  destruct (aget k d) as [x|] eqn:Ek; [|discriminate]. eapply IH; [|exact H]. simpl in Hc. rewrite forallb_forall in Hc.
  apply aget_some_in in Ek. apply (Hc _ Ek).
Qed.

Lemma below_at p : forall tr q, opt_at (below tr p) q = opt_at tr (p ++ q)%list.
Proof. induction p as [|k p IH]; intros tr q; [reflexivity|]. cbn [below fold_left app]. rewrite opt_at_child. apply (IH (child tr k) q). Qed.

Lemma prefix_of_app p q : prefix_of p (p ++ q)%list.
Proof. induction p as [|k p IH]; cbn; auto. Qed.

Section Obeyed.
  Variables (E : env) (c : cinfo) (fs : list (string * (ty * dflt))) (v : pyval) (l : list (string * stree)).
  Hypothesis HE : order_ok E.
  Hypothesis Hp : persistable E false (TData c fs).
  Hypothesis Hh : holds (TData c fs) v.
  Hypothesis Hc : clean v = true.
  Hypothesis Hl : loadable (TData c fs).
  Hypothesis Hr : ron_file E.

  Lemma obeys_ready dir o : is_some dir = true -> obeys E (TData c fs) v l o ->
    ready E true dir (TData c fs) (ron_view (dtree2 (e_class E) v (Some (SNode l)))) o.
  Proof.
    intros Hd (p & text & ft & val & u & N & T & V & U & Hs).
    destruct (dump_at E false p (TData c fs) v (Some (SNode l)) u ft Hp Hh T U) as (D1 & D2 & D3 & D4).
    { destruct Hs as [(s & Hs & _)|[Hs _]]; [left; eauto|right].
      intros q s Hq. destruct (Hs q s Hq). tauto. }
    do 5 eexists. split; [exact N|]. split; [exact T|]. split; [exact V|]. split; [exact D2|]. split; [exact D1|].
    destruct Hs as [(s & Hs & ->)|[Hs Hden]].
    - assert (L : is_leaf (below (Some (SNode l)) p) = Some s).
      { rewrite <- opt_at_leaf, below_at, app_nil_r. exact Hs. }
      replace (dtree2 (e_class E) u (below (Some (SNode l)) p)) with (VStr (sch_unparsed s)).
      + intros path st r H. exact H.
      + destruct u; cbn [dtree2]; rewrite L; reflexivity.
    - rewrite (dtree2_ext _ u (below (Some (SNode l)) p) None).
      + intros path st r H.
        assert (Hd' : false = true -> dir <> None) by discriminate.
        assert (X := load_tree E HE None true dir false Hd' ft "" u None path false st I D4 D3 (clean_at p v u Hc U) I).
        rewrite X in H by discriminate.
        assert (B := holds_blobless _ _ _ D4 D3).
        assert (NL : leff u None path = []).
        { destruct (leff u None path) as [|e es] eqn:El; [reflexivity|]. exfalso. destruct e as [p0 s0|p0 c0].
          - apply (leff_none u path p0 s0). rewrite El. now left.
          - apply (blobless_no_lazy u None path p0 c0 B). rewrite El. now left. }
        rewrite NL in H. cbn [run rbind] in H. rewrite resumed_none in H by exact B. rewrite <- H.
        apply (load_same E None true dir HE ft (loadable_at p _ _ Hl T) (persistable_serless E ft D4) val path false st u); auto.
        * eapply text_filev; eauto.
        * exact I.
        * rewrite Hd. exact Hden.
      + intros q. rewrite below_at. cbn [opt_at]. destruct (sched_at (SNode l) (p ++ q)%list) as [s|] eqn:Eq; [|reflexivity].
        destruct (Hs _ _ Eq) as [X _]. exfalso. apply X, prefix_of_app.
  Qed.

  Lemma overrides_again ovs d L dir ig : configurable (TData c fs) -> is_some dir = true ->
    fits E "" (SNode l) (TData c fs) v ->
    obeys_all E (TData c fs) v l ovs -> apart ovs ->
    typed_dump (e_class E) v (Some l) false = Ok (d, []) ->
    typed_load E (TData c fs) (ron_view d) dir None true ig = Ok L ->
    typed_load E (TData c fs) (ron_view d) dir (Some ovs) true ig = Ok L.
  Proof.
    intros Hcf Hd Hf Ho Ha Hdump H. rewrite (cfg_dump E false c fs v l) in Hdump by auto.
    injection Hdump as <- _. rewrite typed_load_overrides by reflexivity.
    unfold typed_load in H. apply rbind_ok in H as [r [H1 H2]].
    assert (D := holds_dumpable E false (TData c fs) v Hp Hh).
    destruct (written_again E false true dir (TData c fs) Hp Hr ovs (ron_view (dtree2 (e_class E) v (Some (SNode l)))) ig r) as (y' & W1 & W2); auto.
    - clear Ha. induction ovs as [|o ovs IH]; [exact I|]. destruct Ho as [Ho1 Ho2]. split; [|now apply IH].
      destruct Ho1 as [[Ho1 A]|Ho1]; [left; split; [apply obeys_ready; auto|exact A]|now right].
    - apply dump_markerless; auto.
    - assert (X : exists n d0, dtree2 (e_class E) v (Some (SNode l)) = VNt n d0).
      { destruct v; try easy. cbn [dtree2 is_leaf]. eauto. }
      destruct X as (n & d0 & X). rewrite X in *. cbn [ron_view] in *.
      apply overrides_ok_iff in W1; [|reflexivity| |now apply configurable_iff].
      + rewrite W1. cbn [rbind]. unfold typed_load. rewrite W2. exact H2.
      + intros o Hin (p & text & N & T & B). assert (X' := obeys_readable _ _ _ _ _ Ho o Hin).
        destruct X' as (p' & text' & ft' & val & N' & T' & V').
        destruct (names_fun _ _ _ _ _ N N') as [-> ->]. rewrite T in T'. injection T' as <-. destruct V' as (b & V' & _). apply (B b V').
  Qed.
End Obeyed.

(** ** a config loaded with overrides obeys them *)
Lemma denotes_from_file E sch allow ff t : forall ig x v, denotes E sch allow ff ig t x v -> denotes E sch allow true ig t x v.
Proof.
  induction t as [| | | | |i IH|l IH|kt vt IHk IHv|i IH|l IH|c fs IH|n ms|l|n] using ty_ind'; intros ig x v H; try exact H.
  - destruct H as (l & m & -> & -> & H). exists l, m. split; auto. split; auto. induction H; constructor; auto.
  - destruct H as (l0 & m & H1 & -> & H). exists l0, m. split; auto. split; auto. clear H1. revert l0 m H.
    induction l as [|a l IHl]; intros [|y l0] [|w m] H; try easy. inversion IH as [|? ? IHa IHr]; subst. destruct H as [G1 G2]. split; auto.
  - destruct H as (d & e & -> & -> & H). exists d, e. split; auto. split; auto. induction H as [|a b d e [A B] _ IHf]; constructor; auto.
  - destruct H as [H|[H1 H]]; [left; exact H|right; auto].
  - apply denotes_union in H. apply denotes_union. destruct (coerce_scalar E (TUnion l) x); [exact H|]. destruct H as (d & nm & -> & H1 & H).
    exists d, nm. split; auto. split; auto. clear H1. revert H. induction l as [|a l IHl]; intros H; [exact H|].
    inversion IH as [|? ? IHa IHr]; subst. cbn in *. destruct (py_eq nm _); auto.
  - destruct H as (y & items & o & H1 & H2 & -> & H3 & H4). exists y, items, o. split; auto. split; auto. split; auto. split; auto.
    revert H4. apply all2_impl. intros [n [ft fd]] [k w] Hf _ [-> Hr]. split; auto. cbn [fst snd] in *.
    destruct (aget n items); auto. destruct (is_weak p); auto. rewrite Forall_forall in IH. apply (IH _ Hf). exact Hr.
  - destruct H as (_ & H). split; auto.
Qed.

Lemma load_obeys E c fs d dir ovs ig L : order_ok E -> ron_file E -> loadable (TData c fs) -> field_idents (TData c fs) ->
  filev (VDict d) = true -> markerless (VDict d) = true -> (forall o, In o ovs -> ~ bad_bool (TData c fs) o) ->
  apart ovs -> (forall o p text, In o ovs -> names o p text -> untouched (TData c fs) p) ->
  typed_load E (TData c fs) (VDict d) dir (Some ovs) true ig = Ok L -> l_sched L = [] ->
  obeys_all E (TData c fs) (l_value L) [] ovs.
Proof.
  intros HE Hr Hl Hi Hf Hm Hb Ha Hu H Hs. apply obeys_all_intro. intros l1 o l2 ->.
  assert (Ho : In o (l1 ++ o :: l2)%list) by (apply in_or_app; right; now left).
  assert (W : exists x', written E (TData c fs) (l1 ++ o :: l2)%list (VDict d) x').
  { destruct (load_written E (TData c fs) d dir (l1 ++ o :: l2)%list true ig L eq_refl Hb H) as (x' & W & _). eauto. }
  destruct W as (x' & W).
  assert (N : exists p text ft val, names o p text /\ type_at (TData c fs) p = Some ft /\ text_value E ft text val).
  { clear -W. revert W. generalize (VDict d). induction l1 as [|o1 l1 IH]; intros x W;
      apply written_inv in W as (p & text & ft & val & y & G1 & G2 & G3 & G4 & G5); eauto 8. }
  destruct N as (p & text & ft & val0 & N & T & V0). destruct (overridden_dec o p text l2 N) as [Ag|Na]; [right|left]; (split; [|assumption]).
  { exists p, text, ft, val0. auto. }
  destruct (override_sets_gen E false (TData c fs) d dir l1 o l2 true ig L p text ft) as (val & u & V & U & D); auto.
  - intros o' q s Hin Hq. apply unrelated_sym. destruct (Ha l1 o l2 o' p q text s eq_refl Hin N Hq) as [X| <-]; [exact X|].
    exfalso. apply Na. exists o', p, text, s. auto.
  - left. eapply Hu; eauto.
  - exists p, text, ft, val, u. split; auto. split; auto. split; auto. split; auto. right. split; [|eapply denotes_from_file; eauto].
    intros q s Hq. destruct q; cbn in Hq; discriminate.
Qed.
