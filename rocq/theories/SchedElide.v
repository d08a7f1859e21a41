(** SchedElide.v -- dumping a config with its schedules, with or without
    [elide_defaults], and loading the result (C24). *)
From Coq Require Import Permutation.
From Verif Require Import Base AFacts Value Schema Rewrite Sched Types Asdict FromDict Manager
  Induct SpecTree SpecTypes RewriteFacts FromDictFacts RoundTrip ElideFacts ElideLoad SpecState
  ResumeFacts SchedTree ResumeProps.
From Verif Require OverrideFacts.

Lemma persistable_storable E t : persistable E false t -> storable E t.
Proof.
  induction t as [| | | | |i IH|l IH|kt vt IHk IHv|i IH|l IH|c fs IH|nn ms|l|nn] using ty_ind'; simpl; intros H; auto.
  - apply all_Forall in H. apply all_Forall. rewrite Forall_forall in *. auto.
  - tauto.
  - destruct H as [H1 H2]. split; auto. apply all_Forall in H1. apply all_Forall. rewrite Forall_forall in *.
    intros x Hx. destruct (H1 x Hx). auto.
  - destruct H as (H1 & H2 & H3 & H4 & H5). repeat split; auto.
    + eapply Forall_impl; [|exact H2]. simpl. tauto.
    + apply all_Forall in H5. apply all_Forall. rewrite Forall_forall in *. intros [k [ft fd]] Hk. apply (IH _ Hk). apply (H5 _ Hk).
  - discriminate.
Qed.

Lemma conforms_keys sh c fs d : conforms sh (TData c fs) (VObj (c_name c) d) -> map fst d = field_names fs.
Proof.
  simpl. intros [_ Hc]. revert d Hc. unfold field_names.
  induction fs as [|[fn [ft fd]] fs IHf]; destruct d as [|[k x] d]; simpl; intros Hc; try easy.
  destruct Hc as [[-> _] Hc]. f_equal; auto.
Qed.

Lemma conforms_field sh c fs d k x : conforms sh (TData c fs) (VObj (c_name c) d) -> In (k, x) d ->
  exists ft fd, In (k, (ft, fd)) fs /\ conforms sh ft x.
Proof.
  simpl. intros [_ Hc] Hin. revert d Hc Hin. induction fs as [|[fn [ft fd]] fs IHf]; destruct d as [|[k' x'] d]; simpl; intros Hc Hin; try easy.
  destruct Hc as [[-> Hx] Hc]. destruct Hin as [Hin|Hin].
  - injection Hin as -> ->. exists ft, fd; auto.
  - destruct (IHf d Hc Hin) as (ft' & fd' & H1 & H2). exists ft', fd'; auto.
Qed.

Lemma conforms_blobless E sh t : forall v, persistable E false t -> conforms sh t v -> blobless v = true.
Proof.
  induction t as [| | | | |i IH|l IH|kt vt IHk IHv|i IH|l IH|c fs IH|nn ms|l|nn] using ty_ind';
    intros v0 Hs Hc; simpl in Hc; try (destruct v0; simpl in *; try easy; reflexivity).
  - destruct v0; try easy. simpl. apply forallb_forall. rewrite Forall_forall in Hc. intros x Hx. apply IH; auto.
  - destruct v0 as [| | | | | |l0| | | | |]; try easy. simpl in Hs |- *. apply all_Forall in Hs.
    clear -IH Hs Hc. revert l0 Hc. induction l as [|t l IHl]; destruct l0 as [|x l0]; simpl; intros Hc; try easy.
    inversion IH; inversion Hs; subst. rewrite andb_true_iff. split; [apply H1; tauto|]. apply IHl; tauto.
  - destruct v0 as [| | | | | | |d| | | |]; try easy. simpl. apply forallb_forall. rewrite Forall_forall in Hc.
    intros kv Hx. apply IHv; auto. apply Hs.
  - destruct Hc as [->|Hc]; [reflexivity|]. apply IH; auto.
  - apply any_Exists in Hc as [t [Ht Hc]]. destruct Hs as [Hs _]. apply all_Forall in Hs.
    rewrite Forall_forall in *. apply (IH t Ht v0); auto. apply Hs; auto.
  - destruct v0 as [| | | | | | | | |n d| |]; try easy. destruct Hc as [-> Hc].
    destruct Hs as (Hnd & Hok & Hcl & _ & Hs). apply all_Forall in Hs. simpl.
    clear -IH Hs Hc. revert d Hc. induction fs as [|[fn [ft fd]] fs IHf]; destruct d as [|[k x] d]; simpl; intros Hc; try easy.
    inversion IH; inversion Hs; subst. destruct Hc as [[_ H3] H4]. rewrite andb_true_iff. split; auto.
  - destruct Hc as [a [Ha Hc]]. simpl in Hs. rewrite Forall_forall in Hs.
    destruct (Hs a Ha) as [Hsc _]. apply (scalar_eq a v0 Hsc) in Hc. destruct v0; try discriminate; reflexivity.
Qed.

Lemma conforms_dumpable2 E sh t : forall v, persistable E false t -> conforms sh t v -> dumpable2 (e_class E) v = true.
Proof.
  induction t as [| | | | |i IH|l IH|k v IHk IHv|i IH|l IH|c fs IH|n ms|l|n] using ty_ind';
    intros v0 Hs Hc; simpl in Hc; try (destruct v0; simpl in *; try easy; reflexivity).
  - destruct v0; try easy. simpl. apply forallb_forall. rewrite Forall_forall in Hc. intros x Hx. apply IH; auto.
  - destruct v0 as [| | | | | |l0| | | | |]; try easy. simpl in Hs |- *. apply all_Forall in Hs.
    clear -IH Hs Hc. revert l0 Hc. induction l as [|t l IHl]; destruct l0 as [|x l0]; simpl; intros Hc; try easy.
    inversion IH; inversion Hs; subst. rewrite andb_true_iff. split; [apply H1; tauto|]. apply IHl; tauto.
  - destruct v0 as [| | | | | | |d| | | |]; try easy. simpl. apply forallb_forall. rewrite Forall_forall in Hc.
    intros kv Hx. apply IHv; auto. apply Hs.
  - destruct Hc as [->|Hc]; [reflexivity|]. apply IH; auto.
  - apply any_Exists in Hc as [t [Ht Hc]]. destruct Hs as [Hs _]. apply all_Forall in Hs.
    rewrite Forall_forall in *. apply (IH t Ht v0); auto. apply Hs; auto.
  - destruct v0 as [| | | | | | | | |n d| |]; try easy. assert (n = c_name c) as -> by apply Hc.
    assert (Hk := conforms_keys sh c fs d Hc). destruct Hc as [_ Hc].
    destruct Hs as (Hnd & Hok & Hcl & _ & Hs). apply all_Forall in Hs.
    simpl. rewrite Hcl. cbn [cm_version]. rewrite Hk, !andb_true_iff. split; [split|].
    + now apply nodupb_NoDup.
    + apply forallb_forall. rewrite Forall_forall in Hok. intros x Hx. destruct (Hok x Hx) as [H1 H2].
      replace (is_some (option_map fst (c_versioned c))) with (is_some (c_versioned c)) by (destruct (c_versioned c); reflexivity).
      now rewrite H1, H2.
    + clear -IH Hs Hc. revert d Hc. induction fs as [|[fn [ft fd]] fs IHf]; destruct d as [|[k x] d]; simpl; intros Hc; try easy.
      inversion IH; inversion Hs; subst. destruct Hc as [[_ H3] H4]. rewrite andb_true_iff. split; auto.
  - destruct Hc as [a [Ha Hc]]. simpl in Hs. rewrite Forall_forall in Hs.
    destruct (Hs a Ha) as [Hsc _]. apply (scalar_eq a v0 Hsc) in Hc. destruct v0; try discriminate; reflexivity.
Qed.

Lemma fits_member_c E sh n tr l t v : fits_opt E n tr (TUnion l) v ->
  Forall (fun a => is_dataclass_ty a = true) l -> NoDup (map ty_name l) -> In t l -> conforms sh t v ->
  fits_opt E n tr t v.
Proof.
  intros Hf Hs Hnd Ht Hc. rewrite Forall_forall in Hs. assert (Hd := Hs t Ht).
  destruct t as [| | | | | | | | | |c fields| | |]; try discriminate. simpl in Hc.
  destruct v as [| | | | | | | | |nm d| |]; try easy. destruct Hc as [-> _].
  destruct tr as [[s|nl]|]; [| |exact I].
  { destruct Hf as [Hf _]. simpl in Hf. destruct (sch_int s); discriminate. }
  cbn [fits_opt] in *. rewrite fits_node in *.
  intros k tr' Hin. destruct (Hf k tr' Hin) as (c0 & d0 & fs0 & ft & fd & x & H1 & H2 & H3).
  exists c0, d0, fields, ft, fd, x. injection H1 as <- <-. split; auto.
  assert (member_fields (TData c fields) (c_name c) = Some fields) as Hm0 by (cbn [member_fields]; now rewrite String.eqb_refl).
  split; auto. assert (fs0 = fields) as <-; [|exact H3].
  clear -Hnd Ht Hs H2. cbn [member_fields] in H2. induction l as [|a l IHl]; [easy|]. simpl in Hnd. inversion Hnd as [|? ? N1 N2]; subst.
  destruct Ht as [->|Ht].
  - cbn [member_fields] in H2. rewrite String.eqb_refl in H2. congruence.
  - assert (Ha := Hs a (or_introl eq_refl)). destruct a as [| | | | | | | | | |c1 fs1| | |]; try discriminate.
    cbn [member_fields] in H2. rewrite eqb_neq_str in H2.
    + apply IHl; auto. intros y Hy. apply Hs; right; auto.
    + intros He. apply N1. simpl. rewrite <- He. apply in_map_iff. exists (TData c fields). split; auto.
Qed.

(** no schedule in the tree at this place *)
Definition barren (tr : option stree) : Prop := tr = None \/ tr = Some (SNode []).

Lemma barren_leaf tr : barren tr -> is_leaf tr = None.
Proof. intros [->| ->]; reflexivity. Qed.

Lemma barren_child tr k : barren tr -> child tr k = None.
Proof. intros [->| ->]; reflexivity. Qed.

Lemma tree_ok_none v : tree_ok v None.
Proof.
  induction v as [|x|z|f|s|l IH|l IH|d IH|n d IH|n d IH|c m x IH|c x IH] using pyval_ind'; cbn [tree_ok is_leaf child]; auto;
    try (split; [auto|]); apply all_Forall; auto.
Qed.

(** a schedule, a dataclass with schedules below it, or none *)
Lemma fits_cases E n tr t v : fits_opt E n tr t v ->
  barren tr \/ (exists s, tr = Some (SLeaf s) /\ leaf_fits E n s t) \/
  (exists l c d fs, tr = Some (SNode l) /\ v = VObj c d /\ member_fields t c = Some fs).
Proof.
  intros H. destruct tr as [[s|[|[k tr'] l]]|]; [right; left; exists s; auto|left; right; auto| |left; left; auto].
  right; right. cbn [fits_opt] in H. rewrite fits_node in H.
  destruct (H k tr' (or_introl eq_refl)) as (c & d & fs & ft & fd & x & H1 & H2 & _).
  exists ((k, tr') :: l), c, d, fs. auto.
Qed.

Lemma fits_tree_ok_c E sh t : forall n v tr, persistable E false t -> conforms sh t v -> fits_opt E n tr t v -> tree_ok v tr.
Proof.
  assert (LEAF : forall t n s v, leaf_fits E n s t -> conforms sh t v -> tree_ok v (Some (SLeaf s))).
  { intros t0 n s v [H _] Hc. assert (Hb : base_ty t0 = TInt \/ base_ty t0 = TFloat) by (destruct (sch_int s); auto). clear H.
    revert Hb Hc. induction t0; intros Hb Hc; simpl in Hb; try (destruct Hb; discriminate);
      try (destruct v; simpl in *; easy). destruct Hc as [->|Hc]; [exact I|]. auto. }
  assert (BAR : forall v tr, barren tr -> tree_ok v tr).
  { intros v tr Hb. destruct Hb as [->| ->]; [apply tree_ok_none|]. assert (N := tree_ok_none v).
    destruct v; cbn [tree_ok is_leaf] in *; auto; destruct N; auto. }
  induction t as [| | | | |i IH|l IH|kt vt IHk IHv|i IH|l IH|c fs IH|nn ms|l|nn] using ty_ind';
    intros n v tr Hs Hc Hf;
    destruct (fits_cases _ _ _ _ _ Hf) as [Hb|[(s & -> & Hl)|(nl & cn & d & fs' & -> & -> & Hm)]];
      try (apply BAR; exact Hb); try (eapply LEAF; eauto; fail); try discriminate.
  - destruct Hc as [Hc|Hc]; [discriminate|]. apply (IH n); auto.
  - simpl in Hc. apply any_Exists in Hc as [t [Ht Hc]]. destruct Hs as [Hs Hnd]. apply all_Forall in Hs.
    rewrite Forall_forall in *. apply (IH t Ht n); auto; [apply Hs; auto|].
    eapply fits_member_c; eauto. apply Forall_forall. intros a Ha. apply Hs; auto.
  - assert (cn = c_name c) as -> by apply Hc.
    destruct Hs as (Hnd & Hok & Hclass & Hrules & Hs). apply all_Forall in Hs. rewrite Forall_forall in Hs, IH.
    assert (Hk := conforms_keys _ _ _ _ Hc). cbn [tree_ok is_leaf]. apply all_Forall, Forall_forall. intros [k x] Hin.
    destruct (conforms_field _ _ _ _ _ _ Hc Hin) as (ft & fd & Hff & Hfx). cbn [fst snd].
    apply (IH _ Hff k); auto; [apply (Hs _ Hff)|].
    eapply fits_child; eauto. unfold akeys. now rewrite Hk.
Qed.

(** ** the dump *)
Section Dump2.
  Variable cls : string -> cmeta.
  Variable el : bool.

  Definition keepb (c : string) (kv : string * pyval) : bool := negb (el && dropb (cm_fields (cls c)) kv).

  Fixpoint etree2 (v : pyval) (tr : option stree) {struct v} : pyval :=
    match is_leaf tr with
    | Some s => VStr (sch_unparsed s)
    | None =>
        match v with
        | VObj c d =>
            VNt c ((match cm_version (cls c) with Some z => [("version", VInt z)] | None => [] end) ++
                   filter (keepb c) (map (fun kv => (fst kv, etree2 (snd kv) (child tr (fst kv)))) d))%list
        | VDict d => VDict (map (fun kv => (fst kv, etree2 (snd kv) None)) d)
        | VList l => VList (map (fun x => etree2 x None) l)
        | VTuple l => VTuple (map (fun x => etree2 x None) l)
        | VEnum _ m _ => VStr m
        | VBlob _ _ => VStr "<blob:msgpack>"
        | _ => v
        end
    end.

  Lemma etree2_barren v tr : barren tr -> etree2 v tr = etree2 v None.
  Proof. intros [->| ->]; destruct v; reflexivity. Qed.

  Lemma etree2_plain v : blobless v = true -> etree2 v None = if el then etree cls v else dtree cls v.
  Proof.
    unfold keepb. induction v as [|x|z|f|s|l IH|l IH|d IH|n d IH|n d IH|c m x IH|c x IH] using pyval_ind'; intros H;
      try (destruct el; reflexivity); try discriminate; cbn [etree2 is_leaf child]; simpl in H; rewrite forallb_forall in H;
      rewrite Forall_forall in IH.
    - transitivity (VList (map (fun x => if el then etree cls x else dtree cls x) l)).
      + f_equal. apply map_ext_in. intros; apply IH; auto.
      + destruct el; reflexivity.
    - transitivity (VTuple (map (fun x => if el then etree cls x else dtree cls x) l)).
      + f_equal. apply map_ext_in. intros; apply IH; auto.
      + destruct el; reflexivity.
    - transitivity (VDict (map (fun kv => (fst kv, if el then etree cls (snd kv) else dtree cls (snd kv))) d)).
      + f_equal. apply map_ext_in. intros; f_equal; apply IH; auto.
      + destruct el; reflexivity.
    - assert (map (fun kv => (fst kv, etree2 (snd kv) None)) d =
              map (fun kv => (fst kv, if el then etree cls (snd kv) else dtree cls (snd kv))) d) as ->.
      { apply map_ext_in. intros; f_equal; apply IH; auto. }
      unfold keepb. destruct el; cbn [andb negb etree dtree].
      + reflexivity.
      + f_equal. f_equal. induction (map _ d); simpl; congruence.
  Qed.

  Lemma etree2_ext v : forall tr tr', (forall p, opt_at tr p = opt_at tr' p) -> etree2 v tr = etree2 v tr'.
  Proof.
    induction v as [|x|z|f|s|l IH|l IH|d IH|n d IH|n d IH|c m x IH|c x IH] using pyval_ind'; intros tr tr' H;
      cbn [etree2]; rewrite <- !opt_at_leaf, !(H []); destruct (opt_at tr' []); auto.
    f_equal. f_equal. f_equal. apply map_ext_in. intros [k x] Hin. cbn [fst snd]. f_equal.
    rewrite Forall_forall in IH. apply (IH (k, x) Hin). intros p. rewrite <- !opt_at_child. apply H.
  Qed.

  Variable root : list (string * stree).

  Definition ssE : list serializer := (ssS (Some root) ++ (if el then [ElideSer] else []))%list.

  Lemma ser_ssE v path b : ser_all ssE v None path b = ser_all (ssS (Some root)) v None path b.
  Proof.
    unfold ssE. destruct el; [|now rewrite app_nil_r].
    unfold ssS. cbn [app ser_all rbind]. destruct (ser_one LazySer v path b) as [[o1 b1]|]; cbn [rbind fst snd]; auto.
  Qed.

  Lemma asdict_etree2 v : forall tr path b,
    dumpable2 cls v = true -> blobless v = true -> instances_ok cls v -> tree_ok v tr -> at_path (Some root) path tr ->
    (path = "" -> match v with VObj _ _ => True | _ => False end) ->
    asdict cls ssE true v path b = Ok (etree2 v tr, b).
  Proof.
    induction v as [|x|z|f|s|l IH|l IH|d IH|n d IH|n d IH|c m x IH|c x IH] using pyval_ind';
      intros tr path b Hd Hb Hi Ht Ha Hp; try discriminate;
      match goal with |- asdict _ _ _ ?v _ _ = _ => assert (S := ser_tree (Some root) v tr path b Ha) end;
      rewrite <- ser_ssE in S;
      cbn [asdict]; cbn [tree_ok] in Ht; cbn [etree2];
      destruct (is_leaf tr) as [s'|] eqn:El; try (rewrite S by exact I; reflexivity); try easy.
    - rewrite S by exact I. cbn [rbind fst snd].
      assert (Hpn : path <> "") by (intros ->; apply Hp; auto).
      assert (Ha' : at_path (Some root) path None).
      { destruct Ht as [[->| ->] _]; auto. destruct Ha as [A1 A2]. split; [|intros X; destruct (A2 X); auto].
        intros rest. rewrite A1. destruct rest; reflexivity. }
      rewrite (smapi_ok _ (fun x => etree2 x None)); [reflexivity|].
      intros i. apply Forall_forall. intros x Hx. simpl in Hd, Hb, Hi. rewrite forallb_forall in Hd, Hb. apply all_Forall in Hi. rewrite Forall_forall in IH, Hi. apply IH; auto.
      + destruct Ht as [_ Ht]. apply all_Forall in Ht. rewrite Forall_forall in Ht. auto.
      + now apply at_none.
      + unfold path_join. rewrite (eqb_neq_str path "") by auto. intros X. apply append_empty in X. tauto.
    - rewrite S by exact I. cbn [rbind fst snd].
      assert (Hpn : path <> "") by (intros ->; apply Hp; auto).
      assert (Ha' : at_path (Some root) path None).
      { destruct Ht as [[->| ->] _]; auto. destruct Ha as [A1 A2]. split; [|intros X; destruct (A2 X); auto].
        intros rest. rewrite A1. destruct rest; reflexivity. }
      rewrite (smapi_ok _ (fun x => etree2 x None)); [reflexivity|].
      intros i. apply Forall_forall. intros x Hx. simpl in Hd, Hb, Hi. rewrite forallb_forall in Hd, Hb. apply all_Forall in Hi. rewrite Forall_forall in IH, Hi. apply IH; auto.
      + destruct Ht as [_ Ht]. apply all_Forall in Ht. rewrite Forall_forall in Ht. auto.
      + now apply at_none.
      + unfold path_join. rewrite (eqb_neq_str path "") by auto. intros X. apply append_empty in X. tauto.
    - rewrite S by exact I. cbn [rbind fst snd].
      assert (Hpn : path <> "") by (intros ->; apply Hp; auto).
      assert (Ha' : at_path (Some root) path None).
      { destruct Ht as [[->| ->] _]; auto. destruct Ha as [A1 A2]. split; [|intros X; destruct (A2 X); auto].
        intros rest. rewrite A1. destruct rest; reflexivity. }
      rewrite (smap_ok _ (fun kv => (fst kv, etree2 (snd kv) None))); [reflexivity|].
      apply Forall_forall. intros [k x] Hx. cbn [fst snd]. simpl in Hd, Hb, Hi. rewrite forallb_forall in Hd, Hb. apply all_Forall in Hi. rewrite Forall_forall in IH, Hi.
      destruct Ht as [_ Ht]. apply all_Forall in Ht. rewrite Forall_forall in Ht.
      rewrite (IH (k, x) Hx None); [reflexivity|apply (Hd (k, x) Hx)|apply (Hb (k, x) Hx)|apply (Hi (k, x) Hx)|apply (Ht (k, x) Hx)|now apply at_none|].
      unfold path_join. rewrite (eqb_neq_str path "") by auto. intros X. apply append_empty in X. tauto.
    - rewrite S by exact I. cbn [rbind fst snd].
      simpl in Hd. apply andb_true_iff in Hd as [Hd H3]. apply andb_true_iff in Hd as [H1 H2].
      simpl in Hb. simpl in Hi. destruct Hi as (Hk & Hnd & Hver & Hi). apply all_Forall in Hi.
      rewrite forallb_forall in H2, H3, Hb. apply all_Forall in Ht. rewrite Forall_forall in Ht, IH, Hi.
      rewrite (smap_ok _ (fun kv => (fst kv, etree2 (snd kv) (child tr (fst kv))))).
      2:{ apply Forall_forall. intros [k x] Hx. cbn [fst snd].
          assert (Hk' := H2 k (in_map fst _ _ Hx)). apply andb_true_iff in Hk' as [Hk1 Hk2]. apply negb_true_iff in Hk2.
          assert (Hk0 : k <> "") by (intros ->; discriminate).
          rewrite (IH (k, x) Hx (child tr k)); [reflexivity|apply (H3 (k, x) Hx)|apply (Hb (k, x) Hx)|apply (Hi (k, x) Hx)|apply (Ht (k, x) Hx)|now apply at_child|].
          unfold path_join. intros X. exfalso. destruct (String.eqb_spec path ""); [tauto|]. apply append_empty in X. tauto. }
      cbn [rbind fst snd].
      apply nodupb_NoDup in H1.
      set (a := map (fun kv => (fst kv, etree2 (snd kv) (child tr (fst kv)))) d).
      assert (K : akeys a = map fst d).
      { unfold a, akeys. rewrite map_map. reflexivity. }
      set (a2 := match cm_version (cls n) with Some z => insert_version z a | None => a end).
      assert (Ha2 : a2 = ((match cm_version (cls n) with Some z => [("version", VInt z)] | None => [] end) ++ a)%list).
      { unfold a2. destruct (cm_version (cls n)); auto. rewrite insert_version_spec; auto; rewrite K; auto. }
      assert (Hm : modify_attrs ssE (cls n) a =
        Ok ((match cm_version (cls n) with Some z => [("version", VInt z)] | None => [] end) ++ filter (keepb n) a)%list).
      { unfold ssE, ssS, keepb. destruct el; cbn [app modify_attrs rbind].
        - fold a2. 
          assert (Hnd2 : NoDup (akeys a2)).
          { rewrite Ha2. destruct (cm_version (cls n)); cbn [app]; rewrite ?K; auto.
            simpl. constructor; [rewrite K; auto|rewrite K; auto]. }
          destruct (elide_ok (cm_fields (cls n)) a2) as [r Hr]; auto.
          { rewrite <- Hk; auto. }
          { intros m Hm. rewrite <- Hk in Hm. rewrite Ha2. unfold akeys. rewrite map_app. apply in_or_app. right.
            change (In m (akeys a)). rewrite K. exact Hm. }
          rewrite Hr. cbn [rbind]. apply elide_filter in Hr; auto; [|rewrite <- Hk; auto].
          rewrite Hr, Ha2. rewrite filter_app. f_equal. cbn [andb]. f_equal. destruct (cm_version (cls n)); auto.
          simpl. unfold dropb at 1, default_in. cbn [fst]. rewrite aget_notin; [reflexivity|].
          unfold akeys. rewrite <- Hk. auto.
        - fold a2. rewrite Ha2. cbn [andb negb]. f_equal. f_equal. clear. induction a; simpl; congruence. }
      rewrite Hm. cbn [rbind].
      assert (forallb nt_name_ok (akeys ((match cm_version (cls n) with Some z => [("version", VInt z)] | None => [] end) ++ filter (keepb n) a)%list) = true) as ->; [|reflexivity].
      unfold akeys. rewrite map_app, forallb_app. apply andb_true_iff. split.
      + destruct (cm_version (cls n)); reflexivity.
      + apply forallb_forall. intros k Hkk. apply in_map_iff in Hkk as [kv [<- Hkv]]. apply filter_In in Hkv as [Hkv _].
        assert (Hkk : In (fst kv) (map fst d)) by (rewrite <- K; now apply in_map).
        apply H2 in Hkk. apply andb_true_iff in Hkk as [Hkk _].
        eapply field_name_ok_nt; eauto.
  Qed.
End Dump2.

(** ** loading it *)
Lemma leff_blobless v : forall path tr, blobless v = true -> barren tr -> leff v tr path = [].
Proof.
  assert (IM : forall (g : nat -> pyval -> list eff) l, (forall i x, In x l -> g i x = []) -> forall i, concat (imap g i l) = []).
  { intros g l H. induction l as [|x l IHl]; intros i; [reflexivity|]. cbn [imap concat]. rewrite H by (left; auto). apply IHl. intros; apply H; right; auto. }
  assert (CM : forall {A} (g : A -> list eff) l, (forall x, In x l -> g x = []) -> concat (map g l) = []).
  { intros A g l H. induction l as [|x l IHl]; [reflexivity|]. cbn [map concat]. rewrite H by (left; auto). apply IHl. intros; apply H; right; auto. }
  assert (BN : barren None) by (left; auto).
  induction v as [|x|z|f|s|l IH|l IH|d IH|n d IH|n d IH|c m x IH|c x IH] using pyval_ind'; intros path tr H Hb; cbn [leff];
    rewrite (barren_leaf _ Hb); try reflexivity; try discriminate; simpl in H; rewrite forallb_forall in H; rewrite Forall_forall in IH.
  - apply IM. intros; apply IH; auto.
  - apply IM. intros; apply IH; auto.
  - apply CM. intros; apply IH; auto.
  - apply CM. intros; apply IH; auto. rewrite barren_child; auto.
Qed.

Lemma resumed_barren E v tr : blobless v = true -> barren tr -> resumed E v tr = v.
Proof.
  intros H [->| ->]; [now apply resumed_none|]. rewrite <- (resumed_none E v H) at 2. destruct v; reflexivity.
Qed.

Lemma fields_run_rel dir f cname path ig (rv : string -> pyval -> pyval) (R : string -> pyval -> pyval -> Prop)
    (e : string -> pyval -> list eff) : forall d2 d1 st,
  NoDup (akeys d1 ++ akeys d2)%list ->
  (forall k x, In (k, x) d2 -> k <> "!__name__" /\ is_weak (rv k x) = false /\
     exists h, f k = Some h /\ forall st, exists y,
       h (rv k x) (path_join path k) st = (let* st' := run dir (e k x) st in Ok (y, st')) /\ R k x y) ->
  exists ys,
  fields_loop f cname path ig (map (fun kv => (fst kv, rv (fst kv) (snd kv))) d2) d1 [] st =
  (let* st' := run dir (concat (map (fun kv => e (fst kv) (snd kv)) d2)) st in Ok ((d1 ++ ys)%list, [], st')) /\
  Forall2 (fun kv kw => fst kv = fst kw /\ R (fst kv) (snd kv) (snd kw)) d2 ys.
Proof.
  induction d2 as [|[k x] d2 IH]; intros d1 st Hn H; cbn [map fields_loop fst snd].
  - exists []. cbn [concat run rbind]. rewrite app_nil_r. auto.
  - destruct (H k x (or_introl eq_refl)) as (Hk & Hw & h & Hf & Hg). destruct (Hg st) as (y & Hy & HR).
    rewrite eqb_neq_str by exact Hk. rewrite Hw, Hf, Hy. cbn [concat]. rewrite run_app, !rbind_assoc.
    assert (Hkn : ~ In k (akeys d1)).
    { simpl in Hn. apply NoDup_remove_2 in Hn. intros H'. apply Hn, in_or_app; auto. }
    assert (Hn' : NoDup (akeys (d1 ++ [(k, y)])%list ++ akeys d2)%list).
    { unfold akeys in *. rewrite map_app. simpl. rewrite <- app_assoc. exact Hn. }
    assert (H' : forall k x, In (k, x) d2 -> k <> "!__name__" /\ is_weak (rv k x) = false /\
     exists h, f k = Some h /\ forall st, exists y,
       h (rv k x) (path_join path k) st = (let* st' := run dir (e k x) st in Ok (y, st')) /\ R k x y).
    { intros k' x' Hin. apply H; right; auto. }
    destruct (run dir (e k x) st) as [st1|er]; cbn [rbind fst snd].
    + rewrite akeys_aset_notin by exact Hkn. destruct (IH (d1 ++ [(k, y)])%list st1 Hn' H') as [ys [E1 E2]].
      exists ((k, y) :: ys). rewrite E1. rewrite <- app_assoc. auto.
    + destruct (IH (d1 ++ [(k, y)])%list st Hn' H') as [ys [E1 E2]]. exists ((k, y) :: ys). auto.
Qed.

Section Load2.
  Variable E : env.
  Hypothesis HE : order_ok E.
  Variable allow : bool.
  Variable dir : option string.
  Variable el : bool.
  Let dss := typed_load_desers None allow dir.
  Let cls := e_class E.

  Definition back2 (sh : bool) (n : string) (t : ty) (v : pyval) (tr : option stree) (w : pyval) : Prop :=
    same (resumed E v tr) w /\ (el = false -> w = resumed E v tr) /\ conforms sh t w /\ fits_opt E n tr t w /\
    (wf v = true -> etree2 cls el w tr = etree2 cls el v tr).

  Lemma load_plain sh n t v tr path ig st :
    persistable E false t -> defaults_typed t -> conforms sh t v -> clean v = true -> barren tr ->
    exists w, from_dict E dss t (ron_view (etree2 cls el v tr)) path ig st =
      (let* st' := run dir (leff v tr path) st in Ok (w, st')) /\ back2 sh n t v tr w.
  Proof.
    intros Hp Hd Hc Hcl Hb. assert (Hs := persistable_storable E t Hp).
    assert (B := conforms_blobless E sh t v Hp Hc). rewrite (leff_blobless v path tr B Hb). cbn [run rbind].
    assert (F : forall w, fits_opt E n tr t w) by (destruct Hb as [->| ->]; intros; exact I).
    unfold back2. rewrite (resumed_barren E v tr B Hb), (etree2_barren cls el v tr Hb), (etree2_plain cls el v B).
    unfold dss. destruct el.
    - destruct (load_elided E HE allow dir sh t v path ig st Hs Hd Hc Hcl) as [w [Hw (B1 & B2 & B3)]].
      exists w. split; [exact Hw|]. repeat split; auto; [discriminate|].
      intros Hwf. rewrite (etree2_barren cls true w tr Hb), (etree2_plain cls true w); auto. eapply conforms_blobless; eauto.
    - exists v. split; [apply (load_dumped E HE allow dir sh); auto|]. repeat split; auto; [apply same_refl|].
      intros _. now rewrite (etree2_barren cls false v tr Hb), (etree2_plain cls false v B).
  Qed.

  Lemma conforms_num sh t s v : base_ty t = (if sch_int s then TInt else TFloat) -> 
    match v with VInt _ => sch_int s = true | VFloat _ => sch_int s = false | _ => False end -> conforms sh t v.
  Proof.
    induction t; simpl; intros Hb Hv; try (destruct (sch_int s); discriminate).
    - destruct v; try easy. rewrite Hv in Hb. discriminate.
    - destruct v; try easy. rewrite Hv in Hb. discriminate.
    - right. auto.
  Qed.

  Lemma load_leaf2 sh n t v s path ig st : leaf_fits E n s t -> last (split_on "." path) "" = n ->
    exists w, from_dict E dss t (ron_view (etree2 cls el v (Some (SLeaf s)))) path ig st =
      (let* st' := run dir (leff v (Some (SLeaf s)) path) st in Ok (w, st')) /\ back2 sh n t v (Some (SLeaf s)) w.
  Proof.
    intros Hf Hl. assert (Hf' := Hf). destruct Hf' as (H1 & H2 & H3 & H4 & r & H5).
    assert (D : forall u, etree2 cls el u (Some (SLeaf s)) = VStr (sch_unparsed s)) by (destruct u; reflexivity).
    assert (L : leff v (Some (SLeaf s)) path = [ESched path s]) by (destruct v; reflexivity).
    assert (R : resumed E v (Some (SLeaf s)) = r) by (destruct v; cbn [resumed is_leaf]; rewrite H5; reflexivity).
    exists r. split.
    - rewrite D, L. cbn [ron_view]. unfold dss. rewrite (load_leaf E None allow dir false ltac:(discriminate) n) by (auto; exact I). rewrite H5. cbn [run].
      rewrite rbind_assoc. destruct (run1 dir (ESched path s) st); reflexivity.
    - unfold back2. rewrite R, !D. split; [apply same_refl|]. split; [auto|]. split; [|split; [exact Hf|auto]].
      apply (conforms_num sh t s r H1). now apply initial_type in H5.
  Qed.

  Lemma member_conforms_obj t c fs y : persistable E false t -> member_fields t c = Some fs -> conforms false t y ->
    y = VNone \/ exists c d, y = VObj c d.
  Proof.
    induction t as [| | | | |i IH|l IH|kt vt IHk IHv|i IH|l IH|ci fs' IH|nn ms|l|nn] using ty_ind'; intros Hp Hm Hc; try discriminate.
    - destruct Hc as [->|Hc]; auto.
    - simpl in Hc. apply any_Exists in Hc as [t [Ht Hc]]. destruct Hp as [Hp _]. apply all_Forall in Hp. rewrite Forall_forall in Hp.
      destruct (Hp t Ht) as [D _]. destruct t; try discriminate. simpl in Hc. destruct y; try easy. right; eauto.
    - simpl in Hc. destruct y; try easy. right; eauto.
  Qed.

  Lemma drop_barren n t x tr y : persistable E false t -> fits_opt E n tr t x -> conforms false t y ->
    py_eq (etree2 cls el x tr) y = true -> barren tr.
  Proof.
    intros Hp Hf Hy He. destruct (fits_cases _ _ _ _ _ Hf) as [Hb|[(s & -> & Hl)|(l & c & d & fs & -> & -> & Hm)]]; auto.
    - exfalso. assert (etree2 cls el x (Some (SLeaf s)) = VStr (sch_unparsed s)) as Hx by (destruct x; reflexivity).
      rewrite Hx in He. destruct y; try discriminate. destruct Hl as [Hl _]. clear -Hl Hy.
      induction t; simpl in *; try easy; try (destruct (sch_int s); discriminate). destruct Hy; [discriminate|]. auto.
    - exfalso. cbn [etree2 is_leaf] in He. destruct (member_conforms_obj t c fs y Hp Hm Hy) as [->|(c' & d' & ->)]; discriminate.
  Qed.

  Lemma is_weak_etree2 x tr :
    dumpable2 cls x = true -> clean x = true -> is_weak (ron_view (etree2 cls el x tr)) = false.
  Proof.
    destruct x as [| | | | | | |d| |n d| |]; intros Hd Hc; try discriminate; cbn [etree2]; destruct (is_leaf tr); auto.
    - simpl in *. apply andb_true_iff in Hc as [Hc _]. apply negb_true_iff in Hc.
      apply amem_false in Hc. apply amem_false. rewrite map_map. cbn [fst snd].
      unfold akeys in *. rewrite map_map. exact Hc.
    - simpl in *. apply andb_true_iff in Hd as [Hd _]. apply andb_true_iff in Hd as [_ Hd].
      rewrite forallb_forall in Hd. apply amem_false.
      intros Hin. unfold akeys in Hin. simpl in Hin. destruct Hin as [Hin|Hin]; [discriminate|].
      rewrite map_map in Hin. cbn [fst] in Hin. rewrite map_app in Hin.
      apply in_app_or in Hin as [Hin|Hin].
      + destruct (cm_version (cls n)); simpl in Hin; [destruct Hin as [Hin|[]]; discriminate|easy].
      + apply in_map_iff in Hin as [kv [Hkv Hin]]. apply filter_In in Hin as [Hin _].
        apply in_map_iff in Hin as [kv' [<- Hin]]. cbn [fst] in Hkv.
        assert (In (fst kv') (map fst d)) as H' by now apply in_map.
        apply Hd in H'. rewrite Hkv in H'. discriminate.
  Qed.

  Definition named_opt (n : string) (tr : option stree) : Prop := match tr with Some t => named n t | None => True end.

  Lemma named_child n tr k : named_opt n tr -> named_opt k (child tr k).
  Proof.
    destruct tr as [[s|l]|]; cbn [named_opt named child]; try easy. intros [H1 H2]. destruct (aget k l) as [t|] eqn:Eg; [|exact I].
    apply all_Forall in H2. rewrite Forall_forall in H2. exact (H2 _ (aget_some_in _ _ _ Eg)).
  Qed.

  Lemma load_etree2 sh t : forall n v tr path ig st,
    persistable E false t -> defaults_typed t -> conforms sh t v -> clean v = true -> fits_opt E n tr t v -> named_opt n tr ->
    (forall s, is_leaf tr = Some s -> last (split_on "." path) "" = n) ->
    exists w, from_dict E dss t (ron_view (etree2 cls el v tr)) path ig st =
      (let* st' := run dir (leff v tr path) st in Ok (w, st')) /\ back2 sh n t v tr w.
  Proof.
    induction t as [| | | | |i IH|l IH|kt vt IHk IHv|i IH|l IH|c fs IH|nn ms|l|nn] using ty_ind';
      intros n v tr path ig st Hs Hdt Hc Hcl Hf Hnm Hp;
      destruct (fits_cases _ _ _ _ _ Hf) as [Hb|[(s & -> & Hl)|(nl & cn & d & fs' & -> & -> & Hm)]];
      try (apply load_plain; auto; fail); try (apply load_leaf2; auto; apply (Hp s eq_refl)); try discriminate.
    - (* optional *)
      destruct Hc as [Hc|Hc]; [discriminate|].
      destruct (IH n (VObj cn d) (Some (SNode nl)) path ig st) as [w [Hw (B1 & B2 & B3 & B4 & B5)]]; auto.
      exists w. split.
      + rewrite from_dict_eq. exact Hw.
      + repeat split; auto. right; auto.
    - (* union *)
      simpl in Hc. apply any_Exists in Hc as [t [Ht Hc]]. assert (Hs0 := Hs). destruct Hs as [Hs Hnd]. apply all_Forall in Hs.
      simpl in Hdt. apply all_Forall in Hdt.
      assert (Hft : fits_opt E n (Some (SNode nl)) t (VObj cn d)).
      { eapply fits_member_c; eauto. rewrite Forall_forall in *. intros a Ha. apply Hs; auto. }
      rewrite Forall_forall in Hs, IH, Hdt. destruct (Hs t Ht) as [Hdd Hst].
      destruct (IH t Ht n (VObj cn d) (Some (SNode nl)) path ig st) as [w [Hw (B1 & B2 & B3 & B4 & B5)]]; auto.
      destruct t; try discriminate. assert (cn = c_name c) as -> by apply Hc.
      exists w. split.
      + rewrite from_dict_main by discriminate. unfold from_main, dss. rewrite deser_noop by reflexivity. cbn [rbind]. cbn [isinstance].
        assert (Hdict : exists m, ron_view (etree2 cls el (VObj (c_name c) d) (Some (SNode nl))) = VDict (("!__name__", VStr (c_name c)) :: m))
          by (eexists; reflexivity).
        destruct Hdict as [m Hdm]. rewrite Hdm in Hw |- *. cbn [coerce_scalar from_struct aget]. rewrite String.eqb_refl.
        rewrite (union_scan_hit _ (c_name c) l (TData c fields)); auto.
      + assert (exists d', w = VObj (c_name c) d') as [d' ->].
        { destruct w; simpl in B3; try easy. destruct B3 as [-> _]. eauto. }
        repeat split; auto.
        * simpl. apply any_Exists. exists (TData c fields); auto.
        * (* fits for the union *)
          cbn [fits_opt] in *. rewrite fits_node in *. intros k tr' Hin.
          destruct (B4 k tr' Hin) as (c0 & d0 & fs0 & ft & fd & x & F1 & F2 & F3 & F4 & F5).
          destruct (Hf k tr' Hin) as (c1 & d1 & fs1 & ft1 & fd1 & x1 & G1 & G2 & G3 & G4 & G5).
          destruct (Hft k tr' Hin) as (c2 & d2 & fs2 & ft2 & fd2 & x2 & K1 & K2 & K3 & K4 & K5).
          injection F1 as <- <-. injection G1 as <- <-. injection K1 as <- <-.
          assert (member_fields (TUnion l) (c_name c) = Some fields).
          { clear -Hnd Ht Hs. cbn [member_fields]. induction l as [|a l IHl]; [easy|]. simpl in Hnd. inversion Hnd as [|? ? N1 N2]; subst.
            destruct Ht as [->|Ht].
            - cbn [member_fields]. rewrite String.eqb_refl. reflexivity.
            - destruct (Hs a (or_introl eq_refl)) as [Ha _]. destruct a as [| | | | | | | | | |cc ff| | |]; try discriminate.
              cbn [member_fields]. rewrite eqb_neq_str.
              + apply IHl; auto. intros y Hy. apply Hs; right; auto.
              + intros He. apply N1. simpl. rewrite <- He. apply in_map_iff. exists (TData c fields). split; auto. }
          cbn [member_fields] in F2. rewrite String.eqb_refl in F2. injection F2 as <-.
          exists (c_name c), d', fields, ft, fd, x. auto 10.
    - (* dataclass *)
      set (tr := Some (SNode nl)) in *. assert (El : is_leaf tr = None) by reflexivity. clearbody tr. clear Hm fs'.
      assert (cn = c_name c) as -> by apply Hc. assert (Hc0 := Hc).
      assert (Hdump : dumpable2 cls (VObj (c_name c) d) = true) by (apply (conforms_dumpable2 E sh (TData c fs)); auto).
      assert (Hbl : blobless (VObj (c_name c) d) = true) by (apply (conforms_blobless E sh (TData c fs)); auto).
      assert (Hk := conforms_keys _ _ _ _ Hc). assert (Hfield := fun k x => conforms_field sh c fs d k x Hc).
      destruct Hs as (Hnd & Hok & Hclass & Hrules & Hs). apply all_Forall in Hs.
      simpl in Hdt. apply all_Forall in Hdt.
      set (ex := fun kv : string * pyval => (fst kv, etree2 cls el (snd kv) (child tr (fst kv)))).
      set (kept := fun kv : string * pyval => keepb cls el (c_name c) (ex kv)).
      set (d2 := filter kept d).
      assert (Hitems : filter (keepb cls el (c_name c)) (map ex d) = map ex d2).
      { unfold d2, kept. clear. induction d as [|x d IHd]; simpl; auto.
        destruct (keepb _ _ _ _); simpl; auto. f_equal; auto. }
      assert (Hdes : deser_all E dss (TData c fs) (ron_view (etree2 cls el (VObj (c_name c) d) tr)) VNone false path st =
                Ok (VDict (("!__name__", VStr (c_name c)) ::
                           map (fun kv => (fst kv, ron_view (etree2 cls el (snd kv) (child tr (fst kv))))) d2), VNone, false, st)).
      { cbn [etree2]. rewrite El. fold ex. rewrite Hitems. cbn [ron_view]. unfold cls at 1. rewrite Hclass. cbn [cm_version].
        destruct (c_versioned c) as [[ver rules]|] eqn:Ev; cbn [option_map].
        - rewrite map_app, map_map. cbn [map fst snd app ron_view].
          unfold dss. rewrite (deser_versioned_current E allow dir c fs ver rules _ path st (VInt ver) ver); auto; try lia.
          specialize (Hrules ver rules eq_refl). apply forallb_forall. intros kr Hkr. rewrite Forall_forall in Hrules.
          apply Z.ltb_lt. auto.
        - cbn [app]. rewrite map_map. cbn [fst snd]. unfold dss. apply deser_noop; auto.
          simpl. now rewrite Ev. }
      rewrite from_dict_main by discriminate. unfold from_main. rewrite Hdes. cbn [rbind isinstance coerce_scalar].
      cbn [from_struct dataclass_input rbind].
      cbn [fields_loop]. rewrite String.eqb_refl.
      simpl in Hdump. apply andb_true_iff in Hdump as [Hdump0 Hdump]. apply andb_true_iff in Hdump0 as [_ Hdots]. rewrite forallb_forall in Hdump, Hdots.
      simpl in Hcl. rewrite forallb_forall in Hcl. simpl in Hbl. rewrite forallb_forall in Hbl.
      assert (Hkd : NoDup (akeys d)) by (unfold akeys; rewrite Hk; exact Hnd).
      rewrite Forall_forall in IH, Hs, Hdt.
      assert (Hfc : forall k x ft fd, In (k, x) d -> In (k, (ft, fd)) fs -> fits_opt E k (child tr k) ft x).
      { intros k x ft fd Hin Hff. eapply fits_child; eauto. }
      assert (Hsame : forall k ft fd ft' fd', In (k, (ft, fd)) fs -> In (k, (ft', fd')) fs -> ft' = ft /\ fd' = fd).
      { intros k ft fd ft' fd' H1 H2. apply (in_nodup_aget k _ fs Hnd) in H1. apply (in_nodup_aget k _ fs Hnd) in H2.
        rewrite H1 in H2. injection H2 as <- <-. auto. }
      assert (Hsub : forall k x, In (k, x) d -> exists h,
                field_with (fun ft _ x p s => from_dict E dss ft x p false s) k fs = Some h /\ forall st, exists y,
                h (ron_view (etree2 cls el x (child tr k))) (path_join path k) st =
                (let* st' := run dir (leff x (child tr k) (path_join path k)) st in Ok (y, st')) /\
                forall ft fd, In (k, (ft, fd)) fs -> back2 sh k ft x (child tr k) y).
      { intros k x Hin. destruct (Hfield k x Hin) as (ft & fd & Hff & Hfx).
        eexists. split; [apply (field_with_in _ k ft fd fs Hnd Hff)|]. intros st1.
        assert (Hkin : In k (field_names fs)) by (rewrite <- Hk; now apply (in_map fst) in Hin).
        destruct (IH _ Hff k x (child tr k) (path_join path k) false st1) as [w [Hw B]]; auto.
        - apply (Hs _ Hff).
        - apply (Hdt _ Hff).
        - apply (Hcl (k, x) Hin).
        - eapply Hfc; eauto.
        - eapply named_child; eauto.
        - intros s _. rewrite <- Hk in Hkin. apply Hdots in Hkin. apply andb_true_iff in Hkin as [_ Hkin]. apply negb_true_iff in Hkin.
          unfold path_join. destruct (String.eqb path "").
          + now rewrite OverrideFacts.split_on_plain.
          + rewrite split_on_dot, (OverrideFacts.split_on_plain _ k) by auto. apply last_last.
        - exists w. split; [exact Hw|]. intros ft' fd' Hf'. destruct (Hsame _ _ _ _ _ Hff Hf') as [-> ->]. exact B. }
      destruct (fields_run_rel dir
                 (fun k => field_with (fun ft _ x p s => from_dict E dss ft x p false s) k fs)
                 (c_name c) path ig (fun k x => ron_view (etree2 cls el x (child tr k)))
                 (fun k x y => forall ft fd, In (k, (ft, fd)) fs -> back2 sh k ft x (child tr k) y)
                 (fun k x => leff x (child tr k) (path_join path k)) d2 [] st) as [ys [Hys HF]].
      { simpl. unfold d2. now apply NoDup_filter_keys. }
      { intros k x Hin. unfold d2 in Hin. apply filter_In in Hin as [Hin _]. split; [|split].
        - rewrite Forall_forall in Hok.
          assert (Hkin : In k (field_names fs)) by (rewrite <- Hk; now apply (in_map fst) in Hin).
          apply Hok in Hkin as [Hkin _]. intros ->. discriminate.
        - apply is_weak_etree2; [apply (Hdump (k, x) Hin)|apply (Hcl (k, x) Hin)].
        - apply Hsub; auto. }
      rewrite Hys. cbn [rbind app].
      assert (Hdef : forall n t df, In (n, (t, df)) fs -> default_in (cm_fields (cls (c_name c))) n =
                match df with DMissing => None | DValue x | DFactory x => Some x end).
      { intros n0 t df Hin. unfold default_in, cls. rewrite Hclass. cbn [cm_fields].
        assert (Ha : aget n0 (map (fun f : string * (ty * dflt) => (fst f, snd (snd f))) fs) = Some df).
        { apply in_nodup_aget.
          - unfold akeys. rewrite map_map. exact Hnd.
          - apply in_map_iff. exists (n0, (t, df)); auto. }
        now rewrite Ha. }
      (* a dropped field equals its default and carries no schedules *)
      assert (Hdrop : forall k x, In (k, x) d -> kept (k, x) = false -> exists t df y, In (k, (t, df)) fs /\
                (df = DValue y \/ df = DFactory y) /\ conforms sh t x /\ conforms false t y /\ el = true /\
                barren (child tr k) /\ py_eq (etree cls x) y = true).
      { intros k x Hin Hkept. destruct (Hfield k x Hin) as (t & df & Hff & Hfx).
        unfold kept, keepb in Hkept. apply negb_false_iff in Hkept. apply andb_true_iff in Hkept as [He Hkept].
        unfold dropb in Hkept. cbn [fst snd ex] in Hkept. rewrite (Hdef k t df Hff) in Hkept.
        destruct (Hdt _ Hff) as [Hdt1 _]. specialize (Hs _ Hff). simpl in Hs, Hdt1.
        assert (X : forall y, conforms false t y -> py_eq (etree2 cls el x (child tr k)) y = true ->
                  barren (child tr k) /\ py_eq (etree cls x) y = true).
        { intros y Hy Heq. assert (Bk : barren (child tr k)) by (eapply drop_barren; eauto). split; auto.
          rewrite (etree2_barren cls el x _ Bk), (etree2_plain cls el x (Hbl (k, x) Hin)), He in Heq. exact Heq. }
        destruct df as [|y|y]; [discriminate| |]; destruct (X y Hdt1 Hkept) as [X1 X2];
          [exists t, (DValue y), y|exists t, (DFactory y), y]; auto 12. }
      assert (Hdropped : forall n t df, In (n, (t, df)) fs -> aget n ys = None ->
                exists x0 x, In (n, x0) d /\ (df = DValue x \/ df = DFactory x) /\
                  conforms sh t x0 /\ conforms false t x /\ el = true /\ barren (child tr n) /\ py_eq (etree cls x0) x = true).
      { intros n0 t df Hin Hg.
        assert (Hn : In n0 (map fst d)). { rewrite Hk. apply in_map_iff. exists (n0, (t, df)); auto. }
        apply in_map_iff in Hn as [[n' x0] [Hn' Hn]]. simpl in Hn'; subst n'.
        assert (Hkept : kept (n0, x0) = false).
        { destruct (kept (n0, x0)) eqn:Ek; auto.
          assert (Hin2 : In (n0, x0) d2) by (apply filter_In; auto).
          clear -HF Hin2 Hg. exfalso. induction HF as [|a b ? ? [H1 H2] HF IHF]; [easy|].
          destruct b as [kb xb]. simpl in Hg, H1. destruct (String.eqb_spec n0 kb); [easy|].
          destruct Hin2 as [->|Hin2]; [simpl in H1; congruence|]. auto. }
        destruct (Hdrop n0 x0 Hn Hkept) as (t' & df' & y & D1 & D2 & D3 & D4 & D5 & D6 & D7).
        destruct (Hsame _ _ _ _ _ Hin D1) as [-> ->]. exists x0, y. auto 10. }
      assert (Hruns : concat (map (fun kv => leff (snd kv) (child tr (fst kv)) (path_join path (fst kv))) d2) =
                      concat (map (fun kv => leff (snd kv) (child tr (fst kv)) (path_join path (fst kv))) d)).
      { unfold d2. clear -Hdrop Hbl. induction d as [|[k x] d IHd]; [reflexivity|]. cbn [filter].
        assert (IH' : concat (map (fun kv => leff (snd kv) (child tr (fst kv)) (path_join path (fst kv))) (filter kept d)) =
                      concat (map (fun kv => leff (snd kv) (child tr (fst kv)) (path_join path (fst kv))) d)).
        { apply IHd; intros; [apply Hbl|apply Hdrop; auto]; right; auto. }
        destruct (kept (k, x)) eqn:Ek; cbn [map concat fst snd]; rewrite IH'; auto.
        destruct (Hdrop k x (or_introl eq_refl) Ek) as (t' & df' & y & _ & _ & _ & _ & _ & D6 & _).
        rewrite (leff_blobless x _ _ (Hbl (k, x) (or_introl eq_refl)) D6). reflexivity. }
      rewrite Hruns. cbn [leff]. rewrite El.
      set (fill := fun f : string * (ty * dflt) => (fst f, match aget (fst f) ys with
                     | Some v => v | None => default_value (snd (snd f)) end)) in *.
      exists (VObj (c_name c) (map fill fs)). split.
      { rewrite rbind_assoc.
        match goal with |- rbind ?m _ = _ => destruct m as [st1|er] end; cbn [rbind]; auto.
        rewrite try_defaults_skip.
        2:{ intros n0 Hn. apply (Permutation_in n0 (HE _)) in Hn. apply filter_In in Hn as [Hn Hm].
            apply in_map_iff in Hn as [[n' [t df]] [Hn' Hn]]. simpl in Hn'; subst n'.
            exists t, df. split; [now apply in_nodup_aget|].
            apply negb_true_iff in Hm. unfold amem in Hm. destruct (aget n0 ys) eqn:Eg; [discriminate|].
            destruct (Hdropped n0 t df Hn Eg) as (x0 & x & _ & [->| ->] & _); reflexivity. }
        cbn [rbind fst snd]. rewrite construct_fill; [reflexivity|].
        intros n0 t df Hin Hg. destruct (Hdropped n0 t df Hin Hg) as (x0 & x & _ & [->| ->] & _); reflexivity. }
      assert (Hgoal : forall f, In f fs -> forall x, In (fst f, x) d -> exists w,
                fill f = (fst f, w) /\ same (resumed E x (child tr (fst f))) w /\
                (el = false -> w = resumed E x (child tr (fst f))) /\ conforms sh (fst (snd f)) w /\
                fits_opt E (fst f) (child tr (fst f)) (fst (snd f)) w /\
                (wf x = true ->
                 (keepb cls el (c_name c) (fst f, etree2 cls el x (child tr (fst f))) = false /\
                  keepb cls el (c_name c) (fst f, etree2 cls el w (child tr (fst f))) = false) \/
                 etree2 cls el w (child tr (fst f)) = etree2 cls el x (child tr (fst f)))).
      { intros [n0 [t df]] Hff x Hx. unfold fill. cbn [fst snd] in *. destruct (aget n0 ys) as [y|] eqn:Eg.
        - exists y. split; auto.
          assert (Hnd2 : NoDup (akeys d2)) by now apply NoDup_filter_keys.
          assert (Hex : exists x', In (n0, x') d2 /\ forall ft fd, In (n0, (ft, fd)) fs -> back2 sh n0 ft x' (child tr n0) y).
          { clear -HF Eg. induction HF as [|a b ? ? [H1 H2] HF IHF]; [easy|].
            destruct b as [kb xb]. simpl in Eg, H1. destruct (String.eqb_spec n0 kb).
            - injection Eg as ->. subst kb. exists (snd a). split; [left|].
              + destruct a; simpl in *; congruence.
              + rewrite e. exact H2.
            - destruct (IHF Eg) as [x' [H3 H4]]. exists x'; split; [right|]; auto. }
          destruct Hex as [x' [Hx' Hsm]]. apply filter_In in Hx' as [Hx' _].
          apply in_nodup_aget in Hx; auto. apply in_nodup_aget in Hx'; auto. rewrite Hx in Hx'. injection Hx' as <-.
          destruct (Hsm _ _ Hff) as (B1 & B2 & B3 & B4 & B5). repeat split; auto.
        - destruct (Hdropped n0 t df Hff Eg) as (x0 & x1 & Hx0 & Hdf & C0 & C1 & He & Hbar & Heq).
          assert (Hxin := Hx).
          apply in_nodup_aget in Hx; auto. apply in_nodup_aget in Hx0; auto. rewrite Hx in Hx0. injection Hx0 as <-.
          assert (Hst : persistable E false t) by apply (Hs _ Hff).
          assert (Hst' := persistable_storable _ _ Hst).
          exists x1. split; [destruct Hdf as [->| ->]; reflexivity|].
          rewrite (resumed_barren E x _ (Hbl (n0, x) Hxin) Hbar). split; [|split; [|split; [|split]]].
          + apply same_eq. eapply (py_eq_etree E sh false t); eauto.
          + rewrite He; discriminate.
          + now apply conforms_weaken.
          + destruct Hbar as [->| ->]; exact I.
          + intros Hw. left.
            assert (Heq' : py_eq (etree cls x1) x1 = true) by (eapply (py_eq_self E sh false t); eauto).
            assert (B1 : blobless x1 = true) by (eapply (conforms_blobless E false t); eauto).
            unfold keepb, dropb. cbn [fst snd]. rewrite (Hdef n0 t df Hff).
            rewrite !(etree2_barren cls el _ _ Hbar), (etree2_plain cls el x (Hbl (n0, x) Hxin)), (etree2_plain cls el x1 B1), He.
            destruct Hdf as [->| ->]; rewrite Heq, Heq'; auto. }
      assert (HG : Forall2 (fun kv kw => fst kv = fst kw /\ same (snd kv) (snd kw))
                     (map (fun kv => (fst kv, resumed E (snd kv) (child tr (fst kv)))) d) (map fill fs) /\
                   (el = false -> map fill fs = map (fun kv => (fst kv, resumed E (snd kv) (child tr (fst kv)))) d) /\
                   all2 false (fun f kv => fst kv = fst f /\ conforms sh (fst (snd f)) (snd kv)) fs (map fill fs) /\
                   (forallb (fun kv => wf (snd kv)) d = true ->
                    filter (keepb cls el (c_name c)) (map ex (map fill fs)) = filter (keepb cls el (c_name c)) (map ex d))).
      { clear -Hgoal Hk. unfold field_names in Hk.
        revert d Hk Hgoal. induction fs as [|f fs IHf]; intros [|[k x] d] Hk Hgoal; try discriminate; [simpl; auto|].
        cbn [map all2 forallb fst snd].
        simpl in Hk. injection Hk as -> Hk.
        destruct (IHf d Hk) as (I1 & I2 & I3 & I4); [intros g Hg y Hy; apply Hgoal; simpl; auto|].
        destruct (Hgoal f (or_introl eq_refl) x (or_introl eq_refl)) as (w & Ew & W1 & W2 & W3 & W4 & W5).
        rewrite Ew. cbn [fst snd ex]. split; [constructor; auto|]. split; [|split].
        - intros He. rewrite I2, W2; auto.
        - auto.
        - intros Hw. apply andb_true_iff in Hw as [Hw1 Hw2]. cbn [map filter]. rewrite (I4 Hw2). unfold ex at 1 2 4 5. cbn [fst snd].
          destruct (W5 Hw1) as [[D1 D2]|D]; [rewrite D1, D2; auto|now rewrite D]. }
      destruct HG as (G1 & G2 & G3 & G4). unfold back2. cbn [resumed]. rewrite El. split; [now apply same_obj|]. split; [|split; [|split]].
      + intros He. now rewrite G2.
      + simpl. split; auto. clear -G3. revert G3. generalize (map fill fs). induction fs as [|[n0 [ft fd]] fs IHf]; intros [|[k y] l]; simpl; auto.
        intros [H1 H2]; auto.
      + destruct tr as [[s|tl]|]; [discriminate| |exact I]. cbn [fits_opt] in *. rewrite fits_node in *. intros k tr' Hin.
        destruct (Hf k tr' Hin) as (c0 & d0 & fs0 & ft & fd & x & F1 & F2 & F3 & F4 & F5).
        injection F1 as <- <-. cbn [member_fields] in F2. rewrite String.eqb_refl in F2. injection F2 as <-.
        assert (Hff := aget_some_in _ _ _ F3). assert (Hx := aget_some_in _ _ _ F4).
        destruct (Hgoal (k, (ft, fd)) Hff x Hx) as (w & Ew & W1 & W2 & W3 & W4 & W5). cbn [fst snd] in *.
        exists (c_name c), (map fill fs), fs, ft, fd, w. cbn [member_fields]. rewrite String.eqb_refl. repeat split; auto.
        * apply in_nodup_aget.
          -- unfold akeys. rewrite map_map. exact Hnd.
          -- apply in_map_iff. exists (k, (ft, fd)); auto.
        * cbn [named_opt named] in Hnm. destruct Hnm as [Hnm _]. cbn [child] in W4. rewrite (in_nodup_aget k tr' tl Hnm Hin) in W4. exact W4.
      + intros Hw. simpl in Hw. apply andb_true_iff in Hw as [_ Hw]. cbn [etree2]. rewrite El. fold ex. now rewrite G4.
  Qed.
End Load2.
