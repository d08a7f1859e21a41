(** RoundTrip.v -- dump followed by load is the identity (C01, C02, C15). *)
From Coq Require Import Permutation.
From Verif Require Import Base AFacts Value Schema Rewrite Sched Types Asdict FromDict
  Induct SpecTree SpecTypes RewriteFacts FromDictFacts.

(** ** combinators *)
Lemma smap_ok {A B St} (f : A -> St -> res (B * St)) (g : A -> B) l s :
  Forall (fun x => f x s = Ok (g x, s)) l -> smap f l s = Ok (map g l, s).
Proof.
  induction l as [|x l IH]; intros H; [reflexivity|].
  inversion H as [|? ? H1 H2]; subst. cbn [smap]. rewrite H1. cbn [rbind fst snd].
  change ((fix go (l0 : list A) (s0 : St) {struct l0} : res (list B * St) :=
     match l0 with
     | [] => Ok ([], s0)
     | x0 :: xs => let* y := f x0 s0 in let* ys := go xs (snd y) in Ok (fst y :: fst ys, snd ys)
     end) l s) with (smap f l s).
  rewrite IH by exact H2. reflexivity.
Qed.

Lemma smapi_cons {A B St} (f : nat -> A -> St -> res (B * St)) i x l s :
  smapi f i (x :: l) s =
  (let* y := f i x s in let* ys := smapi f (S i) l (snd y) in Ok (fst y :: fst ys, snd ys)).
Proof. reflexivity. Qed.

Lemma smap_cons {A B St} (f : A -> St -> res (B * St)) x l s :
  smap f (x :: l) s =
  (let* y := f x s in let* ys := smap f l (snd y) in Ok (fst y :: fst ys, snd ys)).
Proof. reflexivity. Qed.

Lemma smapi_ok {A B St} (f : nat -> A -> St -> res (B * St)) (g : A -> B) l s :
  forall i, (forall j, Forall (fun x => f j x s = Ok (g x, s)) l) -> smapi f i l s = Ok (map g l, s).
Proof.
  induction l as [|x l IH]; intros i H; [reflexivity|].
  rewrite smapi_cons. assert (H1 := H i). inversion H1 as [|? ? H1a H1b]; subst.
  rewrite H1a. cbn [rbind fst snd]. rewrite IH; [reflexivity|].
  intros j. specialize (H j). now inversion H.
Qed.

(** ** dumping *)
Fixpoint dtree (cls : string -> cmeta) (v : pyval) : pyval :=
  match v with
  | VObj c d =>
      VNt c ((match cm_version (cls c) with Some z => [("version", VInt z)] | None => [] end) ++
             map (fun kv => (fst kv, dtree cls (snd kv))) d)%list
  | VDict d => VDict (map (fun kv => (fst kv, dtree cls (snd kv))) d)
  | VList l => VList (map (dtree cls) l)
  | VTuple l => VTuple (map (dtree cls) l)
  | VEnum _ m _ => VStr m
  | _ => v
  end.

Fixpoint dumpable (cls : string -> cmeta) (v : pyval) : bool :=
  match v with
  | VObj c d =>
      nodupb (map fst d) &&
      forallb (field_name_ok (is_some (cm_version (cls c)))) (map fst d) &&
      forallb (fun kv => dumpable cls (snd kv)) d
  | VDict d => forallb (fun kv => dumpable cls (snd kv)) d
  | VList l | VTuple l => forallb (dumpable cls) l
  | VNt _ _ | VBlob _ _ => false
  | _ => true
  end.

Lemma insert_version_spec ver attrs :
  NoDup (akeys attrs) -> ~ In "version" (akeys attrs) ->
  insert_version ver attrs = ("version", VInt ver) :: attrs.
Proof.
  intros Hn Hv. unfold insert_version.
  assert (G : forall attrs acc : list (string * pyval), NoDup (akeys (acc ++ attrs)%list) ->
            fold_left (fun acc kv => aset (fst kv) (snd kv) acc) attrs acc = (acc ++ attrs)%list).
  { clear. induction attrs as [|[k v] attrs IH]; intros acc H; simpl; [now rewrite app_nil_r|].
    rewrite akeys_aset_notin.
    - rewrite IH; rewrite <- app_assoc; auto.
    - unfold akeys in *. rewrite map_app in H. simpl in H. apply NoDup_remove_2 in H.
      intros H'. apply H, in_or_app; auto. }
  rewrite G; [reflexivity|]. simpl. constructor; auto.
Qed.

Section Dump.
  Variable cls : string -> cmeta.
  Let ss := [LazySer; VersionedSer].

  Lemma ser_all_none v path b :
    (forall c p, v <> VBlob c p) -> ser_all ss v None path b = Ok (None, b).
  Proof. intros H. unfold ss. destruct v; try reflexivity. exfalso; eapply H; eauto. Qed.

  Lemma public_nt k : public_name k = nt_name_ok k.
  Proof. now destruct k. Qed.

  Lemma field_name_ok_nt b k : field_name_ok b k = true -> nt_name_ok k = true.
  Proof. rewrite <- public_nt. unfold field_name_ok. intros H. now apply andb_true_iff in H as [[[H _]%andb_true_iff _]%andb_true_iff _]. Qed.

  Lemma asdict_dtree v : forall path b, dumpable cls v = true ->
    asdict cls ss true v path b = Ok (dtree cls v, b).
  Proof.
    induction v as [|x|z|f|s|l IH|l IH|d IH|n d IH|n d IH|c m x IH|c x IH] using pyval_ind';
      intros path b Hd; try discriminate; try reflexivity.
    - (* list *)
      cbn [asdict]. rewrite ser_all_none by discriminate. cbn [rbind fst snd].
      rewrite (smapi_ok _ (dtree cls)); [reflexivity|].
      intros j. simpl in Hd. rewrite forallb_forall in Hd. rewrite Forall_forall in *. intros x Hx. apply IH; auto.
    - cbn [asdict]. rewrite ser_all_none by discriminate. cbn [rbind fst snd].
      rewrite (smapi_ok _ (dtree cls)); [reflexivity|].
      intros j. simpl in Hd. rewrite forallb_forall in Hd. rewrite Forall_forall in *. intros x Hx. apply IH; auto.
    - cbn [asdict]. rewrite ser_all_none by discriminate. cbn [rbind fst snd].
      rewrite (smap_ok _ (fun kv => (fst kv, dtree cls (snd kv)))); [reflexivity|].
      simpl in Hd. rewrite forallb_forall in Hd. rewrite Forall_forall in *. intros [k x] Hx.
      rewrite (IH (k, x) Hx) by (apply (Hd (k, x) Hx)). reflexivity.
    - cbn [asdict]. rewrite ser_all_none by discriminate. cbn [rbind fst snd].
      simpl in Hd. apply andb_true_iff in Hd as [Hd H3]. apply andb_true_iff in Hd as [H1 H2].
      rewrite (smap_ok _ (fun kv => (fst kv, dtree cls (snd kv)))).
      2:{ rewrite forallb_forall in H3. rewrite Forall_forall in *. intros [k x] Hx.
          rewrite (IH (k, x) Hx) by (apply (H3 (k, x) Hx)). reflexivity. }
      cbn [rbind fst snd]. unfold ss. cbn [modify_attrs rbind].
      apply nodupb_NoDup in H1. rewrite forallb_forall in H2.
      assert (K : akeys (map (fun kv => (fst kv, dtree cls (snd kv))) d) = map fst d) by apply akeys_map.
      destruct (cm_version (cls n)) as [ver|] eqn:Ev; cbn [is_some] in H2.
      + assert (Hnv : ~ In "version" (map fst d)).
        { intros Hin. apply H2 in Hin. discriminate. }
        rewrite insert_version_spec by (rewrite K; auto).
        assert (forallb nt_name_ok (akeys (("version", VInt ver)
                  :: map (fun kv => (fst kv, dtree cls (snd kv))) d)) = true) as ->.
        { cbn [akeys map fst forallb]. apply andb_true_iff; split; [reflexivity|]. apply forallb_forall. intros k Hk.
          change (In k (akeys (map (fun kv => (fst kv, dtree cls (snd kv))) d))) in Hk.
          rewrite K in Hk. eapply field_name_ok_nt; eauto. }
        cbn [dtree]. rewrite Ev. reflexivity.
      + rewrite K. assert (forallb nt_name_ok (map fst d) = true) as ->.
        { rewrite forallb_forall. intros k Hk. eapply field_name_ok_nt; eauto. }
        cbn [dtree]. rewrite Ev. reflexivity.
  Qed.
End Dump.

(** ** all2 / all / any *)
Lemma all2_length {A B} s (f : A -> B -> Prop) l m : s = false -> all2 s f l m -> length l = length m.
Proof.
  intros ->. revert m. induction l as [|x l IH]; destruct m; simpl; intros H; try easy.
  f_equal. apply IH, H.
Qed.

Lemma all_Forall {A} (f : A -> Prop) l : all f l <-> Forall f l.
Proof.
  induction l as [|x l IH]; simpl; split; intros H; auto.
  - constructor; [apply H|]. now apply IH.
  - inversion H; subst. split; auto. now apply IH.
Qed.

Lemma any_Exists {A} (f : A -> Prop) l : any f l <-> exists x, In x l /\ f x.
Proof.
  induction l as [|x l IH]; simpl; split; intros H; try easy.
  - destruct H as [x [[] _]].
  - destruct H as [H|H]; [exists x; auto|]. apply IH in H as [y [H1 H2]]. exists y; auto.
  - destruct H as [y [[->|H1] H2]]; [auto|]. right. apply IH. eauto.
Qed.

(** ** well-typed values of storable types can be dumped *)
Lemma scalar_eq a v : scalar a = true -> py_eq a v = true -> scalar v = true.
Proof.
  destruct a; simpl; try discriminate; intros _; destruct v; simpl; try discriminate; auto;
    unfold num_eq; simpl; try discriminate; auto.
Qed.

Lemma conforms_dumpable E sh t : forall v,
  storable E t -> conforms sh t v -> dumpable (e_class E) v = true.
Proof.
  induction t as [| | | | |i IH|l IH|k v IHk IHv|i IH|l IH|c fs IH|n ms|l|n] using ty_ind';
    intros v0 Hs Hc; simpl in Hc; try (destruct v0; simpl in *; try easy; reflexivity).
  - destruct v0; try easy. simpl. apply forallb_forall. rewrite Forall_forall in Hc.
    intros x Hx. apply IH; auto.
  - destruct v0 as [| | | | | |l0| | | | |]; try easy. simpl in Hs |- *. apply all_Forall in Hs.
    clear -IH Hs Hc. revert l0 Hc. induction l as [|t l IHl]; destruct l0 as [|x l0]; simpl; intros Hc; try easy.
    inversion IH; inversion Hs; subst. rewrite andb_true_iff. split; [apply H1; tauto|]. apply IHl; tauto.
  - destruct v0 as [| | | | | | |d| | | |]; try easy. simpl. apply forallb_forall. rewrite Forall_forall in Hc.
    intros kv Hx. apply IHv; auto. apply Hs.
  - destruct Hc as [->|Hc]; [reflexivity|]. apply IH; auto.
  - apply any_Exists in Hc as [t [Ht Hc]]. destruct Hs as [Hs _]. apply all_Forall in Hs.
    rewrite Forall_forall in *. apply (IH t Ht v0); auto. apply Hs; auto.
  - destruct v0 as [| | | | | | | | |n d| |]; try easy. destruct Hc as [-> Hc].
    destruct Hs as (Hnd & Hok & Hcl & _ & Hs). apply all_Forall in Hs.
    simpl. rewrite Hcl. cbn [cm_version].
    assert (Hk : map fst d = field_names fs).
    { clear -Hc. revert d Hc. unfold field_names.
      induction fs as [|[fn [ft fd]] fs IHf]; destruct d as [|[k x] d]; simpl; intros Hc; try easy.
      destruct Hc as [[-> _] Hc]. f_equal; auto. }
    rewrite Hk, !andb_true_iff. repeat split.
    + now apply nodupb_NoDup.
    + apply forallb_forall. rewrite Forall_forall in Hok. intros x Hx.
      replace (is_some (option_map fst (c_versioned c))) with (is_some (c_versioned c)); auto.
      destruct (c_versioned c); reflexivity.
    + clear -IH Hs Hc. revert d Hc. induction fs as [|[fn [ft fd]] fs IHf]; destruct d as [|[k x] d]; simpl; intros Hc; try easy.
      inversion IH; inversion Hs; subst. destruct Hc as [[_ H3] H4]. rewrite andb_true_iff. split; auto.
  - destruct Hc as [a [Ha Hc]]. simpl in Hs. rewrite Forall_forall in Hs.
    destruct (Hs a Ha) as [Hsc _]. apply (scalar_eq a v0 Hsc) in Hc. destruct v0; try discriminate; reflexivity.
Qed.

(** ** loading what was dumped *)
Lemma is_weak_dumped cls x :
  dumpable cls x = true -> clean x = true -> is_weak (ron_view (dtree cls x)) = false.
Proof.
  destruct x as [| | | | | | |d| |n d| |]; intros Hd Hc; try discriminate; auto.
  - simpl in *. apply andb_true_iff in Hc as [Hc _]. apply negb_true_iff in Hc.
    apply amem_false in Hc. apply amem_false. rewrite map_map. cbn [fst snd].
    unfold akeys in *. rewrite map_map. exact Hc.
  - simpl in *. apply andb_true_iff in Hd as [Hd _]. apply andb_true_iff in Hd as [_ Hd].
    rewrite forallb_forall in Hd. apply amem_false.
    intros Hin. unfold akeys in Hin. simpl in Hin. destruct Hin as [Hin|Hin]; [discriminate|].
    rewrite map_map in Hin. cbn [fst] in Hin. rewrite map_app in Hin.
    apply in_app_or in Hin as [Hin|Hin].
    + destruct (cm_version (cls n)); simpl in Hin; [destruct Hin as [Hin|[]]; discriminate|easy].
    + rewrite map_map in Hin. cbn [fst] in Hin. apply Hd in Hin. discriminate.
Qed.

Lemma fields_loop_all f cname path ig st (rv : pyval -> pyval) : forall d2 d1,
  NoDup (akeys (d1 ++ d2)%list) ->
  (forall k x, In (k, x) d2 -> k <> "!__name__" /\ is_weak (rv x) = false /\
     exists g, f k = Some g /\ g (rv x) (path_join path k) st = Ok (x, st)) ->
  fields_loop f cname path ig (map (fun kv => (fst kv, rv (snd kv))) d2) d1 [] st =
  Ok ((d1 ++ d2)%list, [], st).
Proof.
  induction d2 as [|[k x] d2 IH]; intros d1 Hn H; cbn [map fields_loop fst snd].
  - now rewrite app_nil_r.
  - destruct (H k x (or_introl eq_refl)) as (Hk & Hw & g & Hf & Hg).
    rewrite eqb_neq_str by exact Hk. rewrite Hw, Hf, Hg. cbn [rbind fst snd].
    rewrite akeys_aset_notin.
    + rewrite IH; rewrite <- ?app_assoc; auto. intros k' x' Hin. apply H; right; auto.
    + unfold akeys in *. rewrite map_app in Hn. simpl in Hn. apply NoDup_remove_2 in Hn.
      intros H'. apply Hn, in_or_app; auto.
Qed.

Lemma tuple_loop_cons f path t ts i x l st :
  tuple_loop f path (t :: ts) i (x :: l) st =
  (let* y := f t x (path ++ "[" ++ show_nat i ++ "]") st in
   let* ys := tuple_loop f path ts (S i) l (snd y) in
   Ok (fst y :: fst ys, snd ys)).
Proof. reflexivity. Qed.

Lemma filter_none {A} (f : A -> bool) l : (forall x, In x l -> f x = false) -> filter f l = [].
Proof.
  induction l as [|x l IH]; simpl; intros H; auto. rewrite H by auto. apply IH; auto.
Qed.

Lemma enum_lookup_find c ms v :
  enum_lookup c ms v =
  match List.find (fun mx => py_eq (snd mx) v) ms with
  | Some (n, x) => Ok (VEnum c n x)
  | None => Err ValueError
  end.
Proof.
  induction ms as [|[n x] ms IH]; simpl; auto. destruct (py_eq x v); auto.
Qed.

Lemma union_scan_hit f nm ts t :
  NoDup (map ty_name ts) -> In t ts -> nm = ty_name t ->
  union_scan f (VStr nm) ts = Some (f t).
Proof.
  intros Hn Hin ->. induction ts as [|u ts IH]; [easy|]. cbn [union_scan py_eq].
  inversion Hn as [|? ? H1 H2]; subst. destruct Hin as [->|Hin].
  - now rewrite String.eqb_refl.
  - rewrite eqb_neq_str; [apply IH; auto|]. intros He. apply H1. rewrite <- He. now apply in_map.
Qed.

Section Load.
  Variable E : env.
  Hypothesis HE : order_ok E.
  Variable allow : bool.
  Variable dir : option string.
  Let dss := typed_load_desers None allow dir.
  Let cls := e_class E.

  Lemma load_dumped sh t : forall v path ig st,
    storable E t -> conforms sh t v -> clean v = true ->
    from_dict E dss t (ron_view (dtree cls v)) path ig st = Ok (v, st).
  Proof.
    induction t as [| | | | |i IH|l IH|kt vt IHk IHv|i IH|l IH|c fs IH|n ms|l|n] using ty_ind';
      intros v path ig st Hs Hc Hcl.
    - (* int *)
      rewrite from_dict_main by discriminate. unfold from_main, dss.
      destruct v; simpl in Hc; try easy; rewrite deser_noop by reflexivity; reflexivity.
    - rewrite from_dict_main by discriminate. unfold from_main, dss.
      destruct v; simpl in Hc; try easy; rewrite deser_noop by reflexivity; reflexivity.
    - rewrite from_dict_main by discriminate. unfold from_main, dss.
      destruct v; simpl in Hc; try easy; rewrite deser_noop by reflexivity; reflexivity.
    - rewrite from_dict_main by discriminate. unfold from_main, dss.
      destruct v; simpl in Hc; try easy; rewrite deser_noop by reflexivity; reflexivity.
    - rewrite from_dict_main by discriminate. unfold from_main, dss.
      simpl in Hc; subst; rewrite deser_noop by reflexivity; reflexivity.
    - (* list *)
      destruct v as [| | | | |l| | | | | |]; simpl in Hc; try easy.
      rewrite from_dict_main by discriminate. unfold from_main, dss. rewrite deser_noop by reflexivity.
      cbn [dtree ron_view rbind isinstance coerce_scalar from_struct].
      rewrite map_map. 
      assert (G : forall j, smapi (fun i0 x s => from_dict E dss i x (path ++ "[" ++ show_nat i0 ++ "]") false s)
                  j (map (fun x => ron_view (dtree cls x)) l) st = Ok (l, st)).
      { simpl in Hcl. clear -IH Hc Hcl Hs. induction l as [|x l IHl]; intros j; [reflexivity|].
        cbn [map]. rewrite smapi_cons. inversion Hc; subst. simpl in Hcl. apply andb_true_iff in Hcl as [Hcx Hcl].
        rewrite IH by auto. cbn [rbind fst snd]. rewrite IHl by auto. reflexivity. }
      fold dss. rewrite G. reflexivity.
    - (* tuple *)
      destruct v as [| | | | | |vs| | | | |]; simpl in Hc; try easy.
      rewrite from_dict_main by discriminate. unfold from_main, dss. rewrite deser_noop by reflexivity.
      cbn [dtree ron_view rbind isinstance coerce_scalar from_struct tuple_items].
      rewrite map_map. fold dss.
      assert (G : forall j, tuple_loop (fun a x p s => from_dict E dss a x p false s) path l j
                  (map (fun x => ron_view (dtree cls x)) vs) st = Ok (vs, st)).
      { simpl in Hs, Hcl. apply all_Forall in Hs. revert vs Hc Hcl.
        induction l as [|t l IHl]; destruct vs as [|x vs]; simpl; intros Hc Hcl j; try easy.
        inversion IH; inversion Hs; subst. apply andb_true_iff in Hcl as [Hcx Hcl].
        fold (path ++ "[" ++ show_nat j ++ "]").
        rewrite H1 by tauto. cbn [rbind fst snd].
        change ((fix go (ts : list ty) (i : nat) (l0 : list pyval) (st0 : dstate) {struct l0} :
                 res (list pyval * dstate) :=
                 match l0 with
                 | [] => Ok ([], st0)
                 | x0 :: xs => match ts with
                     | [] => Err IndexError
                     | t0 :: ts' => let* y := from_dict E dss t0 x0 (path ++ "[" ++ show_nat i ++ "]") false st0 in
                       let* ys := go ts' (S i) xs (snd y) in Ok (fst y :: fst ys, snd ys)
                     end
                 end) l (S j) (map (fun x0 => ron_view (dtree cls x0)) vs) st)
          with (tuple_loop (fun a x p s => from_dict E dss a x p false s) path l (S j)
                  (map (fun x => ron_view (dtree cls x)) vs) st).
        rewrite IHl by tauto. reflexivity. }
      rewrite G. reflexivity.
    - (* dict *)
      destruct v as [| | | | | | |d| | | |]; simpl in Hc; try easy.
      rewrite from_dict_main by discriminate. unfold from_main, dss. rewrite deser_noop by reflexivity.
      cbn [dtree ron_view rbind isinstance coerce_scalar from_struct]. fold dss.
      rewrite map_map. cbn [fst snd].
      assert (G : smap (fun (kv : string * pyval) s =>
                    let* r := from_dict E dss vt (snd kv) (path ++ "." ++ fst kv) false s in
                    Ok ((fst kv, fst r), snd r)) (map (fun x => (fst x, ron_view (dtree cls (snd x)))) d) st
                  = Ok (d, st)).
      { simpl in Hcl. apply andb_true_iff in Hcl as [_ Hcl]. destruct Hs as [_ Hs].
        clear -IHv Hc Hcl Hs. induction d as [|[k x] d IHd]; [reflexivity|].
        cbn [map]. rewrite smap_cons. cbn [fst snd]. inversion Hc; subst. simpl in Hcl.
        apply andb_true_iff in Hcl as [Hcx Hcl].
        rewrite IHv by auto. cbn [rbind fst snd]. rewrite IHd by auto. reflexivity. }
      rewrite G. reflexivity.
    - (* optional *)
      rewrite from_dict_eq. simpl in Hc. destruct (is_none (ron_view (dtree cls v))) eqn:En.
      + destruct v; try discriminate; reflexivity.
      + destruct Hc as [->|Hc]; [discriminate|]. apply IH; auto.
    - (* union *)
      rewrite from_dict_main by discriminate. unfold from_main, dss.
      destruct Hs as [Hs Hnd]. apply all_Forall in Hs. simpl in Hc. apply any_Exists in Hc as [t [Ht Hc]].
      rewrite Forall_forall in Hs, IH. destruct (Hs t Ht) as [Hdt Hst].
      destruct t; try discriminate. assert (Hc' := Hc). simpl in Hc'. destruct v as [| | | | | | | | |nm d| |]; try easy.
      destruct Hc' as [-> _].
      rewrite deser_noop by reflexivity. cbn [rbind]. cbn [isinstance].
      assert (Hdict : exists m, ron_view (dtree cls (VObj (c_name c) d)) = VDict (("!__name__", VStr (c_name c)) :: m))
        by (eexists; reflexivity).
      destruct Hdict as [m Hm]. assert (Hv := IH _ Ht (VObj (c_name c) d) path ig st Hst Hc Hcl).
      rewrite Hm in Hv |- *. cbn [coerce_scalar from_struct aget]. rewrite String.eqb_refl.
      rewrite (union_scan_hit _ (c_name c) l (TData c fields)); auto.
    - (* dataclass *)
      destruct v as [| | | | | | | | |nm d| |]; simpl in Hc; try easy. destruct Hc as [-> Hc].
      assert (Hdump : dumpable cls (VObj (c_name c) d) = true).
      { apply (conforms_dumpable E sh (TData c fs)); auto. simpl; auto. }
      destruct Hs as (Hnd & Hok & Hclass & Hrules & Hs). apply all_Forall in Hs.
      assert (Hk : map fst d = field_names fs).
      { clear -Hc. revert d Hc. unfold field_names.
        induction fs as [|[fn [ft fd]] fs IHf]; destruct d as [|[k x] d]; simpl; intros Hc; try easy.
        destruct Hc as [[-> _] Hc]. f_equal; auto. }
      (* the value seen by the struct branch *)
      assert (Hdes : deser_all E dss (TData c fs) (ron_view (dtree cls (VObj (c_name c) d))) VNone false path st =
                Ok (VDict (("!__name__", VStr (c_name c)) ::
                           map (fun kv => (fst kv, ron_view (dtree cls (snd kv)))) d), VNone, false, st)).
      { cbn [dtree ron_view]. unfold cls at 1. rewrite Hclass. cbn [cm_version].
        destruct (c_versioned c) as [[ver rules]|] eqn:Ev; cbn [option_map].
        - rewrite map_app, map_map. cbn [map fst snd app ron_view].
          unfold dss. rewrite (deser_versioned_current E allow dir c fs ver rules _ path st (VInt ver) ver); auto; try lia.
          specialize (Hrules ver rules eq_refl). apply forallb_forall. intros kr Hkr. rewrite Forall_forall in Hrules.
          apply Z.ltb_lt. auto.
        - cbn [app]. rewrite map_map. cbn [fst snd]. unfold dss. apply deser_noop; auto.
          simpl. now rewrite Ev. }
      rewrite from_dict_main by discriminate. unfold from_main. rewrite Hdes. cbn [rbind isinstance coerce_scalar].
      cbn [from_struct dataclass_input rbind].
      cbn [fields_loop]. rewrite String.eqb_refl.
      simpl in Hdump. apply andb_true_iff in Hdump as [_ Hdump]. rewrite forallb_forall in Hdump.
      simpl in Hcl. rewrite forallb_forall in Hcl.
      assert (Hkd : NoDup (akeys d)) by (unfold akeys; rewrite Hk; exact Hnd).
      rewrite (fields_loop_all _ _ _ _ _ (fun x => ron_view (dtree cls x)) d []); auto.
      2:{ intros k x Hin. split; [|split].
          - rewrite Forall_forall in Hok.
            assert (Hkin : In k (field_names fs)).
            { rewrite <- Hk. apply in_map_iff. exists (k, x); auto. }
            apply Hok in Hkin. intros ->. discriminate.
          - apply is_weak_dumped; [apply (Hdump (k, x) Hin)|apply (Hcl (k, x) Hin)].
          - assert (exists ft fd, In (k, (ft, fd)) fs /\ conforms sh ft x) as (ft & fd & Hf & Hfc).
            { clear -Hc Hin. revert d Hc Hin. induction fs as [|[fn [ft fd]] fs IHf]; destruct d as [|[k' x'] d]; simpl; intros Hc Hin; try easy.
              destruct Hc as [[-> Hx] Hc]. destruct Hin as [Hin|Hin].
              - injection Hin as -> ->. exists ft, fd; auto.
              - destruct (IHf d Hc Hin) as (ft' & fd' & H1 & H2). exists ft', fd'; auto. }
            eexists. split.
            + apply (field_with_in _ k ft fd fs Hnd Hf).
            + rewrite Forall_forall in IH, Hs. apply (IH _ Hf); auto.
              * apply (Hs _ Hf).
              * apply (Hcl (k, x) Hin). }
      cbn [rbind app]. rewrite filter_none.
      2:{ intros n Hn. apply negb_false_iff, amem_true. unfold akeys. now rewrite Hk. }
      rewrite (order_nil E HE). cbn [try_create_defaults rbind fst snd].
      rewrite (construct_all fs d d); auto.
      intros n x Hin. now apply in_nodup_aget.
    - (* enum *)
      destruct v as [| | | | | | | | | |cn m x|]; simpl in Hc; try easy. destruct Hc as [-> Hc].
      rewrite from_dict_main by discriminate. unfold from_main, dss.
      cbn [dtree ron_view]. rewrite deser_noop by reflexivity. cbn [rbind isinstance coerce_scalar clz_or_arg is_TFloat is_TInt orb from_struct].
      rewrite enum_lookup_find. simpl in Hs. rewrite (Hs m x Hc). reflexivity.
    - (* literal *)
      destruct Hc as [a [Ha Hc]]. simpl in Hs. rewrite Forall_forall in Hs.
      assert (Hsv : scalar v = true) by (eapply scalar_eq; [apply (Hs a Ha)|exact Hc]).
      assert (Hv : ron_view (dtree cls v) = v) by (destruct v; try discriminate; reflexivity).
      rewrite Hv. rewrite from_dict_main by discriminate. unfold from_main, dss.
      rewrite deser_noop by reflexivity. cbn [rbind].
      assert (isinstance v (TLit l) = false) as -> by (destruct v; reflexivity).
      assert (coerce_scalar E (TLit l) v = None) as -> by (destruct v; try discriminate; reflexivity).
      cbn [from_struct].
      assert (typing_args_ok E l = Ok tt) as ->.
      { clear -Hs. induction l as [|x l IHl]; auto. simpl. destruct (Hs x (or_introl eq_refl)) as [_ ->].
        apply IHl. intros y Hy. apply Hs; right; auto. }
      cbn [rbind]. assert (unit_name v = None) as -> by (destruct v; try discriminate; reflexivity).
      assert (py_elem v l = true) as ->; [|reflexivity].
      apply existsb_exists. exists a; auto.
    - destruct Hs.
  Qed.
End Load.

(** ** the theorems *)
Lemma hs_dumps_dtree E v : dumpable (e_class E) v = true -> 
  typed_dump (e_class E) v None false = Ok (dtree (e_class E) v, []).
Proof. intros H. unfold typed_dump. cbn [app]. apply asdict_dtree, H. Qed.

Lemma round_trip : forall E sh t v ig,
  order_ok E -> storable E t -> conforms sh t v -> clean v = true ->
  exists d, hs_dumps E v false = Ok d /\ hs_loads E t (ron_view d) None ig = Ok v.
Proof.
  intros E sh t v ig HE Hs Hc Hcl. exists (dtree (e_class E) v). split.
  - unfold hs_dumps. rewrite hs_dumps_dtree; [reflexivity|]. eapply conforms_dumpable; eauto.
  - unfold hs_loads, typed_load. rewrite (load_dumped E HE _ _ sh) by auto. reflexivity.
Qed.

Lemma round_trip_file : forall E sh t v dir,
  order_ok E -> storable E t -> conforms sh t v -> clean v = true ->
  exists d, typed_dump (e_class E) v None false = Ok (d, []) /\
    typed_load E t (ron_view d) (Some dir) None false false = Ok (mkL v [] []).
Proof.
  intros E sh t v dir HE Hs Hc Hcl. exists (dtree (e_class E) v). split.
  - apply hs_dumps_dtree. eapply conforms_dumpable; eauto.
  - unfold typed_load. rewrite (load_dumped E HE _ _ sh) by auto. reflexivity.
Qed.

(** environments for the witnesses *)
Definition w_env (terr : pyval -> option exc) (fl : string -> option pyfloat) : env :=
  mkEnv fl (fun f => f) (fun _ => Err ValueError) terr (fun _ => mkCM None []) (fun l => l).

Lemma w_env_order terr fl : order_ok (w_env terr fl).
Proof. intros l. apply Permutation_refl. Qed.

Definition wA : ty := TData (mkC "A" None) [("a", (TInt, DMissing))].
Definition wB : ty := TData (mkC "B" None) [("b", (TInt, DMissing))].

Lemma optional_union_refuted :
  exists E t v d, order_ok E /\ conforms false t v /\ clean v = true /\
    hs_dumps E v false = Ok d /\
    hs_loads E t (ron_view d) None false = Err DeserializeValueError.
Proof.
  exists (w_env (fun _ => None) (fun _ => None)),
    (TData (mkC "C" None) [("x", (TUnion [wA; wB; TNoneType], DValue VNone))]),
    (VObj "C" [("x", VNone)]), (VNt "C" [("x", VNone)]).
  split; [apply w_env_order|]. repeat split; auto.
  simpl. tauto.
Qed.

Lemma literal_refuted :
  exists E t v d, order_ok E /\ conforms false t v /\ clean v = true /\
    hs_dumps E v false = Ok d /\
    hs_loads E t (ron_view d) None false = Err SyntaxError.
Proof.
  exists (w_env (fun v => match v with VStr s => if has_char " " s then Some SyntaxError else None | _ => None end)
                (fun _ => None)),
    (TData (mkC "C" None) [("x", (TLit [VStr "a b"; VStr "c"], DMissing))]),
    (VObj "C" [("x", VStr "a b")]), (VNt "C" [("x", VStr "a b")]).
  split; [apply w_env_order|]. repeat split; auto.
  simpl. exists (VStr "a b"); auto.
Qed.

Lemma scalar_union_refuted :
  exists E t v w d, order_ok E /\ conforms false t v /\ clean v = true /\
    hs_dumps E v false = Ok d /\
    hs_loads E t (ron_view d) None false = Ok w /\ py_eq v w = false.
Proof.
  exists (w_env (fun _ => None) (fun s => if String.eqb s "7" then Some (sf_of_Z 7) else None)),
    (TData (mkC "C" None) [("x", (TUnion [TStr; TFloat], DMissing))]),
    (VObj "C" [("x", VStr "7")]), (VObj "C" [("x", VFloat (sf_of_Z 7))]), (VNt "C" [("x", VStr "7")]).
  split; [apply w_env_order|]. repeat split; auto. simpl; auto.
Qed.

Lemma enum_refuted :
  exists E t v d, order_ok E /\ conforms false t v /\
    hs_dumps E v false = Ok d /\ hs_loads E t (ron_view d) None false = Err ValueError.
Proof.
  exists (w_env (fun _ => None) (fun _ => None)),
    (TData (mkC "C" None) [("x", (TEnum "Color" [("RED", VInt 1); ("BLUE", VInt 2)], DMissing))]),
    (VObj "C" [("x", VEnum "Color" "RED" (VInt 1))]), (VNt "C" [("x", VStr "RED")]).
  split; [apply w_env_order|]. repeat split; auto. simpl; auto.
Qed.

Lemma enum_swap_refuted :
  exists E t v w d, order_ok E /\ conforms false t v /\
    hs_dumps E v false = Ok d /\ hs_loads E t (ron_view d) None false = Ok w /\
    py_eq v w = false.
Proof.
  exists (w_env (fun _ => None) (fun _ => None)),
    (TData (mkC "C" None) [("x", (TEnum "E" [("A", VStr "B"); ("B", VStr "A")], DMissing))]),
    (VObj "C" [("x", VEnum "E" "A" (VStr "B"))]),
    (VObj "C" [("x", VEnum "E" "B" (VStr "A"))]), (VNt "C" [("x", VStr "A")]).
  split; [apply w_env_order|]. repeat split; auto. simpl; auto.
Qed.

Lemma enum_round_trip_iff : forall E c f n ms df m x ig,
  order_ok E -> c_versioned c = None -> cm_version (e_class E (c_name c)) = None ->
  field_name_ok false f = true -> In (m, x) ms ->
  exists d, hs_dumps E (VObj (c_name c) [(f, VEnum n m x)]) false = Ok d /\
    (hs_loads E (TData c [(f, (TEnum n ms, df))]) (ron_view d) None ig =
       Ok (VObj (c_name c) [(f, VEnum n m x)]) <->
     List.find (fun mx => py_eq (snd mx) (VStr m)) ms = Some (m, x)).
Proof.
  intros E c f n ms df m x ig HE Hv Hcm Hf Hin.
  exists (dtree (e_class E) (VObj (c_name c) [(f, VEnum n m x)])). split.
  - unfold hs_dumps. rewrite hs_dumps_dtree; [reflexivity|]. simpl. rewrite Hcm. simpl. now rewrite Hf.
  - cbn [dtree map fst snd]. rewrite Hcm. cbn [app ron_view map fst snd].
    unfold hs_loads, typed_load. rewrite from_dict_main by discriminate. unfold from_main.
    rewrite deser_noop; [|reflexivity|simpl; now rewrite Hv|reflexivity].
    cbn [rbind isinstance coerce_scalar from_struct dataclass_input].
    assert (f <> "!__name__") as Hn by (intros ->; discriminate).
    cbn [fields_loop]. rewrite String.eqb_refl, (eqb_neq_str f) by exact Hn.
    cbn [is_weak field_with]. rewrite String.eqb_refl.
    rewrite from_dict_main by discriminate. unfold from_main. rewrite deser_noop by reflexivity.
    cbn [rbind isinstance coerce_scalar clz_or_arg is_TFloat is_TInt orb from_struct].
    rewrite enum_lookup_find.
    destruct (List.find _ ms) as [[m' x']|]; cbn [rbind fst snd].
    + cbn [aset filter map fst fields_loop rbind snd]. unfold amem. cbn [aget]. rewrite String.eqb_refl. cbn [negb filter].
      rewrite (order_nil E HE). cbn [try_create_defaults rbind snd construct fst aget].
      rewrite String.eqb_refl. cbn [rbind l_value fst]. split; intros H.
      * injection H as -> ->. reflexivity.
      * injection H as -> ->. reflexivity.
    + split; discriminate.
Qed.
