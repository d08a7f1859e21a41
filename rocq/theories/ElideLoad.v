(** ElideLoad.v -- loading a file dumped with elided defaults (C03). *)
From Coq Require Import Permutation.
From Verif Require Import Base AFacts Value Schema Rewrite Sched Types Asdict FromDict
  Induct SpecTree SpecTypes RewriteFacts FromDictFacts RoundTrip ElideFacts.

Fixpoint etree (cls : string -> cmeta) (v : pyval) : pyval :=
  match v with
  | VObj c d =>
      VNt c ((match cm_version (cls c) with Some z => [("version", VInt z)] | None => [] end) ++
             filter (fun kv => negb (dropb (cm_fields (cls c)) kv))
               (map (fun kv => (fst kv, etree cls (snd kv))) d))%list
  | VDict d => VDict (map (fun kv => (fst kv, etree cls (snd kv))) d)
  | VList l => VList (map (etree cls) l)
  | VTuple l => VTuple (map (etree cls) l)
  | VEnum _ m _ => VStr m
  | _ => v
  end.

Lemma instances_conforms E sh t : forall v,
  storable E t -> conforms sh t v -> instances_ok (e_class E) v.
Proof.
  induction t as [| | | | |i IH|l IH|k v IHk IHv|i IH|l IH|c fs IH|n ms|l|n] using ty_ind';
    intros v0 Hs Hc; simpl in Hc; try (destruct v0; simpl in *; try easy; exact I).
  - destruct v0; try easy. simpl. apply all_Forall. rewrite Forall_forall in *. intros x Hx. apply IH; auto.
  - destruct v0 as [| | | | | |l0| | | | |]; try easy. simpl in Hs |- *. apply all_Forall in Hs.
    clear -IH Hs Hc. revert l0 Hc. induction l as [|t l IHl]; destruct l0 as [|x l0]; simpl; intros Hc; try easy.
    inversion IH; inversion Hs; subst. split; [apply H1; tauto|]. apply IHl; tauto.
  - destruct v0 as [| | | | | | |d| | | |]; try easy. simpl. apply all_Forall. rewrite Forall_forall in *.
    intros kv Hx. apply IHv; auto. apply Hs.
  - destruct Hc as [->|Hc]; [exact I|]. apply IH; auto.
  - apply any_Exists in Hc as [t [Ht Hc]]. destruct Hs as [Hs _]. apply all_Forall in Hs.
    rewrite Forall_forall in *. apply (IH t Ht v0); auto. apply Hs; auto.
  - destruct v0 as [| | | | | | | | |n d| |]; try easy. destruct Hc as [-> Hc].
    destruct Hs as (Hnd & Hok & Hcl & _ & Hs). apply all_Forall in Hs.
    simpl. rewrite Hcl. cbn [cm_version cm_fields].
    assert (Hk : map fst d = field_names fs).
    { clear -Hc. revert d Hc. unfold field_names.
      induction fs as [|[fn [ft fd]] fs IHf]; destruct d as [|[k x] d]; simpl; intros Hc; try easy.
      destruct Hc as [[-> _] Hc]. f_equal; auto. }
    rewrite Hk. rewrite map_map. cbn [fst]. repeat split; auto.
    + intros Hv Hin. rewrite Forall_forall in Hok. apply Hok in Hin.
      replace (is_some (c_versioned c)) with true in Hin; [discriminate|].
      destruct (c_versioned c); auto; discriminate.
    + clear -IH Hs Hc. revert d Hc. induction fs as [|[fn [ft fd]] fs IHf]; destruct d as [|[k x] d]; simpl; intros Hc; try easy.
      inversion IH; inversion Hs; subst. destruct Hc as [[_ H3] H4]. split; auto.
  - destruct Hc as [a [Ha Hc]]. simpl in Hs. rewrite Forall_forall in Hs.
    destruct (Hs a Ha) as [Hsc _]. apply (scalar_eq a v0 Hsc) in Hc. destruct v0; try discriminate; exact I.
Qed.

Section DumpElide.
  Variable cls : string -> cmeta.
  Let ss := dump_sers true true.

  Lemma asdict_etree v : forall path b, dumpable cls v = true -> instances_ok cls v ->
    asdict cls ss true v path b = Ok (etree cls v, b).
  Proof.
    induction v as [|x|z|f|s|l IH|l IH|d IH|n d IH|n d IH|c m x IH|c x IH] using pyval_ind';
      intros path b Hd Hi; try discriminate; try reflexivity.
    - cbn [asdict]. rewrite (ser_all_ss true true) by discriminate. cbn [rbind fst snd].
      rewrite (smapi_ok _ (etree cls)); [reflexivity|].
      intros j. simpl in Hd, Hi. rewrite forallb_forall in Hd. apply all_Forall in Hi.
      rewrite Forall_forall in *. intros x Hx. apply IH; auto.
    - cbn [asdict]. rewrite (ser_all_ss true true) by discriminate. cbn [rbind fst snd].
      rewrite (smapi_ok _ (etree cls)); [reflexivity|].
      intros j. simpl in Hd, Hi. rewrite forallb_forall in Hd. apply all_Forall in Hi.
      rewrite Forall_forall in *. intros x Hx. apply IH; auto.
    - cbn [asdict]. rewrite (ser_all_ss true true) by discriminate. cbn [rbind fst snd].
      rewrite (smap_ok _ (fun kv => (fst kv, etree cls (snd kv)))); [reflexivity|].
      simpl in Hd, Hi. rewrite forallb_forall in Hd. apply all_Forall in Hi. rewrite Forall_forall in *. intros [k x] Hx.
      rewrite (IH (k, x) Hx); [reflexivity|apply (Hd (k, x) Hx)|apply (Hi (k, x) Hx)].
    - cbn [asdict]. rewrite (ser_all_ss true true) by discriminate. cbn [rbind fst snd].
      simpl in Hd. apply andb_true_iff in Hd as [Hd H3]. apply andb_true_iff in Hd as [H1 H2].
      simpl in Hi. destruct Hi as (Hk & Hnd & Hver & Hi). apply all_Forall in Hi.
      rewrite (smap_ok _ (fun kv => (fst kv, etree cls (snd kv)))).
      2:{ rewrite forallb_forall in H3. rewrite Forall_forall in *. intros [k x] Hx.
          rewrite (IH (k, x) Hx); [reflexivity|apply (H3 (k, x) Hx)|apply (Hi (k, x) Hx)]. }
      cbn [rbind fst snd]. unfold ss. rewrite (modify_dump cls). cbn zeta.
      rewrite forallb_forall in H2.
      set (a := map (fun kv => (fst kv, etree cls (snd kv))) d).
      assert (K : akeys a = map fst d) by apply akeys_map.
      set (a2 := match cm_version (cls n) with Some z => insert_version z a | None => a end).
      assert (Ha2 : a2 = ((match cm_version (cls n) with Some z => [("version", VInt z)] | None => [] end) ++ a)%list).
      { unfold a2. destruct (cm_version (cls n)); auto. rewrite insert_version_spec; auto; rewrite K; auto. }
      assert (Hnd2 : NoDup (akeys a2)).
      { rewrite Ha2. destruct (cm_version (cls n)); cbn [app]; rewrite ?K; auto.
        simpl. constructor; [rewrite K; auto|rewrite K; auto]. }
      destruct (elide_ok (cm_fields (cls n)) a2) as [r Hr]; auto.
      { rewrite <- Hk; auto. }
      { intros m Hm. rewrite <- Hk in Hm. rewrite Ha2. unfold akeys. rewrite map_app. apply in_or_app. right.
        change (In m (akeys a)). rewrite K. exact Hm. }
      rewrite Hr. cbn [rbind]. apply elide_filter in Hr; auto; [|rewrite <- Hk; auto].
      assert (Hr2 : r = ((match cm_version (cls n) with Some z => [("version", VInt z)] | None => [] end) ++
                         filter (fun kv => negb (dropb (cm_fields (cls n)) kv)) a)%list).
      { rewrite Hr, Ha2. rewrite filter_app. f_equal. destruct (cm_version (cls n)); auto.
        simpl. unfold dropb at 1, default_in. cbn [fst]. rewrite aget_notin; [reflexivity|].
        unfold akeys. rewrite <- Hk. auto. }
      assert (forallb nt_name_ok (akeys r) = true) as ->.
      { apply forallb_forall. intros k Hkr. rewrite Hr2 in Hkr. unfold akeys in Hkr. rewrite map_app in Hkr.
        apply in_app_or in Hkr as [Hkr|Hkr].
        - destruct (cm_version (cls n)); simpl in Hkr; [destruct Hkr as [<-|[]]; reflexivity|easy].
        - apply in_map_iff in Hkr as [kv [<- Hkv]]. apply filter_In in Hkv as [Hkv _].
          eapply field_name_ok_nt. apply H2. rewrite <- K. now apply in_map. }
      cbn [etree]. fold a. rewrite <- Hr2. reflexivity.
  Qed.
End DumpElide.

(** ** a dumped value equal to a default was equal before dumping *)
Lemma py_eq_etree E sh sh' t : forall v x,
  storable E t -> conforms sh t v -> conforms sh' t x ->
  py_eq (etree (e_class E) v) x = true -> py_eq v x = true.
Proof.
  induction t as [| | | | |i IH|l IH|k tv IHk IHv|i IH|l IH|c fs IH|n ms|l|n] using ty_ind';
    intros v x Hs Hv Hx H; simpl in Hv, Hx; try (destruct v; easy).
  - destruct v as [| | | | |l| | | | | |]; try easy. destruct x as [| | | | |m| | | | | |]; try easy. simpl in H |- *. 
    revert m Hx H. induction l as [|a l IHl]; intros m Hx H; destruct m as [|b m]; simpl in *; try easy.
    apply andb_true_iff in H as [H1 H2]. inversion Hv; inversion Hx; subst.
    rewrite (IH a b); auto. simpl. apply IHl; auto.
  - destruct v as [| | | | | |vs| | | | |]; try easy. destruct x as [| | | | | |xs| | | | |]; try easy.
    simpl in H, Hs |- *. apply all_Forall in Hs. revert vs xs Hv Hx H.
    induction l as [|t l IHl]; intros [|a vs] [|b xs] Hv Hx H; simpl in *; try easy.
    inversion IH; inversion Hs; subst. apply andb_true_iff in H as [H1' H2'].
    rewrite (H2 a b); try tauto. simpl. apply IHl; tauto.
  - destruct v as [| | | | | | |d| | | |]; try easy. destruct x as [| | | | | | |e| | | |]; try easy.
    simpl in H |- *. rewrite map_length in H. apply andb_true_iff in H as [H1 H2]. rewrite H1. simpl.
    apply forallb_forall. rewrite forallb_forall in H2. intros kv Hkv.
    specialize (H2 (fst kv, etree (e_class E) (snd kv))). simpl in H2.
    rewrite Forall_forall in Hv, Hx. destruct (aget (fst kv) e) as [w|] eqn:Ew.
    + apply IHv; auto; [apply Hs|apply (Hx (fst kv, w)); now apply aget_some_in|].
      apply H2. apply in_map_iff. exists kv; auto.
    + discriminate H2. apply in_map_iff. exists kv; auto.
  - destruct Hv as [->|Hv]; [exact H|]. destruct Hx as [->|Hx]; [|apply IH; auto].
    destruct v; simpl in H; try discriminate; auto.
  - apply any_Exists in Hv as [t [Ht Hv]]. apply any_Exists in Hx as [t' [Ht' Hx]].
    destruct Hs as [Hs _]. apply all_Forall in Hs. rewrite Forall_forall in Hs.
    destruct (Hs t Ht) as [D _]. destruct (Hs t' Ht') as [D' _]. destruct t, t'; try discriminate.
    simpl in Hv, Hx. destruct v; try easy. destruct x; easy.
  - destruct v; try easy. destruct x; easy.
  - destruct v; try easy. destruct x; easy.
  - destruct Hv as [a [Ha Hc]]. simpl in Hs. rewrite Forall_forall in Hs.
    destruct (Hs a Ha) as [Hsc _]. apply (scalar_eq a v Hsc) in Hc.
    destruct v; try discriminate; exact H.
Qed.

(** and the default is then dropped as well *)
Lemma conforms_weaken sh t : forall v, conforms false t v -> conforms sh t v.
Proof.
  destruct sh; [|auto].
  induction t as [| | | | |i IH|l IH|kt vt IHk IHv|i IH|l IH|c fs IH|n ms|l|n] using ty_ind'; intros v H; auto.
  - destruct v; auto. cbn in *. eapply Forall_impl; [|exact H]. auto.
  - destruct v as [| | | | | |m| | | | |]; auto. cbn in *. revert m H. induction IH as [|t ts Ht _ IHl]; intros [|x m] H; simpl in *; auto.
    destruct H; auto.
  - destruct v; auto. cbn in *. eapply Forall_impl; [|exact H]. auto.
  - destruct H; [left|right]; auto.
  - cbn in *. induction IH as [|t ts Ht _ IHl]; auto. destruct H; [left|right]; auto.
  - destruct v as [| | | | | | | | |n o| |]; auto. destruct H as [H1 H2]. split; auto. clear -IH H2.
    revert o H2. induction IH as [|[n [ft fd]] fs Ht _ IHl]; intros [|[k x] o] H; simpl in *; auto.
    destruct H as [[H1 H2] H3]. auto.
Qed.

Lemma SFeqb_self f g : SFeqb f g = true -> SFeqb g g = true.
Proof.
  destruct f as [[]|[]| |[] m e]; destruct g as [[]|[]| |[] m' e']; try discriminate; auto;
    unfold SFeqb, SFcompare; rewrite ?Z.compare_refl, ?Pos.compare_refl, ?Pos.compare_cont_refl; auto.
Qed.

Lemma num_eq_self a b : num_eq a b = true -> num_eq b b = true.
Proof.
  unfold num_eq. intros H. destruct b as [|y|y|g| | | | | | | |]; cbn [as_int] in *; try (now rewrite Z.eqb_refl);
    destruct (as_int a) eqn:Ea; try discriminate; try (destruct a; discriminate).
  - unfold Z_eq_float in H. destruct g as [[]|[]| |[] m e]; try discriminate; auto;
    unfold SFeqb, SFcompare; rewrite ?Z.compare_refl, ?Pos.compare_refl, ?Pos.compare_cont_refl; auto.
  - destruct a; try discriminate. eapply SFeqb_self; eauto.
Qed.

Lemma py_eq_self E sh sh' t : forall v x,
  storable E t -> conforms sh t v -> conforms sh' t x -> wf v = true ->
  py_eq (etree (e_class E) v) x = true -> py_eq (etree (e_class E) x) x = true.
Proof.
  induction t as [| | | | |i IH|l IH|k tv IHk IHv|i IH|l IH|c fs IH|n ms|l|n] using ty_ind';
    intros v x Hs Hv Hx Hw H; simpl in Hv, Hx.
  1-5: destruct v; try easy; destruct x; try easy; cbn [etree py_eq] in *; eauto using num_eq_self;
       now rewrite String.eqb_refl.
  - destruct v as [| | | | |l| | | | | |]; try easy. destruct x as [| | | | |m| | | | | |]; try easy. simpl in H, Hw |- *. 
    revert m Hx H. induction l as [|a l IHl]; intros m Hx H; destruct m as [|b m]; simpl in *; try easy.
    apply andb_true_iff in H as [H1 H2]. apply andb_true_iff in Hw as [Hw1 Hw2]. inversion Hv; inversion Hx; subst.
    rewrite (IH a b); auto. simpl. apply IHl; auto.
  - destruct v as [| | | | | |vs| | | | |]; try easy. destruct x as [| | | | | |xs| | | | |]; try easy.
    simpl in H, Hs, Hw |- *. apply all_Forall in Hs. revert vs xs Hv Hx Hw H.
    induction l as [|t l IHl]; intros [|a vs] [|b xs] Hv Hx Hw H; simpl in *; try easy.
    inversion IH; inversion Hs; subst. apply andb_true_iff in H as [H1' H2']. apply andb_true_iff in Hw as [Hw1 Hw2].
    rewrite (H2 a b); try tauto. simpl. eapply IHl; eauto; tauto.
  - destruct v as [| | | | | | |d| | | |]; try easy. destruct x as [| | | | | | |e| | | |]; try easy.
    simpl in H, Hw |- *. rewrite map_length in *. rewrite Nat.eqb_refl. simpl.
    apply andb_true_iff in H as [H1 H2]. apply Nat.eqb_eq in H1. apply andb_true_iff in Hw as [Hn Hw].
    apply nodupb_NoDup in Hn. rewrite forallb_forall in H2, Hw. rewrite Forall_forall in Hv, Hx.
    assert (Hi : incl (map fst d) (map fst e)).
    { intros k0 Hk0. apply in_map_iff in Hk0 as [[k1 y] [Hk1 Hin]]. simpl in Hk1; subst k1.
      specialize (H2 (k0, etree (e_class E) y)). simpl in H2. destruct (aget k0 e) as [w|] eqn:Ew.
      - apply aget_some_in in Ew. now apply (in_map fst) in Ew.
      - discriminate H2. apply in_map_iff. exists (k0, y); auto. }
    assert (He : NoDup (map fst e)).
    { eapply NoDup_incl_NoDup; eauto. rewrite !map_length. lia. }
    assert (Hi' : incl (map fst e) (map fst d)).
    { eapply NoDup_length_incl; eauto. rewrite !map_length. lia. }
    apply forallb_forall. intros kv Hkv. apply in_map_iff in Hkv as [[k0 y] [<- Hin]]. cbn [fst snd].
    rewrite (in_nodup_aget k0 y e); auto.
    assert (Hk0 : In k0 (map fst d)) by (apply Hi'; now apply (in_map fst) in Hin).
    apply in_map_iff in Hk0 as [[k1 z] [Hk1 Hz]]. simpl in Hk1; subst k1.
    apply (IHv z y); auto; [apply Hs|apply (Hv _ Hz)|apply (Hx _ Hin)|apply (Hw _ Hz)|].
    specialize (H2 (k0, etree (e_class E) z)). simpl in H2. rewrite (in_nodup_aget k0 y e) in H2; auto.
    apply H2. apply in_map_iff. exists (k0, z); auto.
  - destruct Hv as [->|Hv].
    + destruct x; try discriminate. reflexivity.
    + destruct Hx as [->|Hx]; [reflexivity|]. eapply IH; eauto.
  - apply any_Exists in Hv as [t [Ht Hv]]. apply any_Exists in Hx as [t' [Ht' Hx]].
    destruct Hs as [Hs _]. apply all_Forall in Hs. rewrite Forall_forall in Hs.
    destruct (Hs t Ht) as [D _]. destruct (Hs t' Ht') as [D' _]. destruct t, t'; try discriminate.
    simpl in Hv, Hx. destruct v; try easy. destruct x; easy.
  - destruct v; try easy. destruct x; easy.
  - destruct v; try easy. destruct x; easy.
  - simpl in Hs. rewrite Forall_forall in Hs. destruct Hv as [a [Ha Hc]]. destruct Hx as [a' [Ha' Hc']].
    destruct (Hs a Ha) as [Hsc _]. apply (scalar_eq a v Hsc) in Hc.
    destruct (Hs a' Ha') as [Hsc' _]. apply (scalar_eq a' x Hsc') in Hc'.
    destruct v; try discriminate; destruct x; try discriminate; cbn [etree py_eq] in *; eauto using num_eq_self;
      now rewrite String.eqb_refl.
  - destruct Hs.
Qed.

(** ** loading *)
Lemma is_weak_etree cls x :
  dumpable cls x = true -> clean x = true -> is_weak (ron_view (etree cls x)) = false.
Proof.
  destruct x as [| | | | | | |d| |n d| |]; intros Hd Hc; try discriminate; auto.
  - simpl in *. apply andb_true_iff in Hc as [Hc _]. apply negb_true_iff in Hc.
    apply amem_false in Hc. apply amem_false. rewrite map_map. cbn [fst snd].
    unfold akeys in *. rewrite map_map. exact Hc.
  - simpl in *. apply andb_true_iff in Hd as [Hd _]. apply andb_true_iff in Hd as [_ Hd].
    rewrite forallb_forall in Hd. apply amem_false.
    intros Hin. unfold akeys in Hin. simpl in Hin. destruct Hin as [Hin|Hin]; [discriminate|].
    rewrite map_map in Hin. cbn [fst] in Hin. rewrite map_app in Hin.
    apply in_app_or in Hin as [Hin|Hin].
    + destruct (cm_version (cls n)); simpl in Hin; [destruct Hin as [Hin|[]]; discriminate|easy].
    + apply in_map_iff in Hin as [kv [Hkv Hin]]. apply filter_In in Hin as [Hin _].
      apply in_map_iff in Hin as [kv' [<- Hin]]. cbn [fst] in Hkv.
      assert (In (fst kv') (map fst d)) as H' by now apply in_map.
      apply Hd in H'. rewrite Hkv in H'. discriminate.
Qed.

Lemma fields_loop_rel f cname path ig st (rv : pyval -> pyval) (R : string -> pyval -> pyval -> Prop) : forall d2 d1,
  NoDup (akeys d1 ++ akeys d2)%list ->
  (forall k x, In (k, x) d2 -> k <> "!__name__" /\ is_weak (rv x) = false /\
     exists g y, f k = Some g /\ g (rv x) (path_join path k) st = Ok (y, st) /\ R k x y) ->
  exists ys,
  fields_loop f cname path ig (map (fun kv => (fst kv, rv (snd kv))) d2) d1 [] st =
  Ok ((d1 ++ ys)%list, [], st) /\
  Forall2 (fun kv kw => fst kv = fst kw /\ R (fst kv) (snd kv) (snd kw)) d2 ys.
Proof.
  induction d2 as [|[k x] d2 IH]; intros d1 Hn H; cbn [map fields_loop fst snd].
  - exists []. rewrite app_nil_r. auto.
  - destruct (H k x (or_introl eq_refl)) as (Hk & Hw & g & y & Hf & Hg & HR).
    rewrite eqb_neq_str by exact Hk. rewrite Hw, Hf, Hg. cbn [rbind fst snd].
    assert (Hkn : ~ In k (akeys d1)).
    { simpl in Hn. apply NoDup_remove_2 in Hn. intros H'. apply Hn, in_or_app; auto. }
    rewrite akeys_aset_notin by exact Hkn.
    destruct (IH (d1 ++ [(k, y)])%list) as [ys [E1 E2]].
    + unfold akeys in *. rewrite map_app. simpl. rewrite <- app_assoc. exact Hn.
    + intros k' x' Hin. apply H; right; auto.
    + exists ((k, y) :: ys). rewrite E1. rewrite <- app_assoc. split; auto.
Qed.

Lemma try_defaults_skip fs path kw : forall remaining,
  (forall n, In n remaining -> exists t d, aget n fs = Some (t, d) /\ has_default d = true) ->
  try_create_defaults fs remaining path [] kw [] = Ok (kw, []).
Proof.
  induction remaining as [|n rem IH]; intros H; [reflexivity|].
  destruct (H n (or_introl eq_refl)) as (t & d & Hg & Hd). cbn [try_create_defaults].
  rewrite field_with_aget, Hg. cbn [option_map fst snd aget].
  destruct d; [discriminate| |]; apply IH; intros m Hm; apply H; right; auto.
Qed.

Lemma construct_fill fs kw :
  (forall n t d, In (n, (t, d)) fs -> aget n kw = None -> has_default d = true) ->
  construct fs kw =
  Ok (map (fun f => (fst f, match aget (fst f) kw with
                            | Some v => v
                            | None => default_value (snd (snd f))
                            end)) fs).
Proof.
  induction fs as [|[n [t d]] fs IH]; intros H; [reflexivity|]. cbn [construct map fst snd].
  rewrite IH by (intros; eapply H; [right; eassumption|auto]).
  destruct (aget n kw) eqn:E; [reflexivity|].
  specialize (H n t d (or_introl eq_refl) E). destruct d; [discriminate| |]; reflexivity.
Qed.

Section LoadElided.
  Variable E : env.
  Hypothesis HE : order_ok E.
  Variable allow : bool.
  Variable dir : option string.
  Let dss := typed_load_desers None allow dir.
  Let cls := e_class E.

  (** what loading an elided dump of [v] gives *)
  Definition back (sh : bool) (t : ty) (v w : pyval) : Prop :=
    same v w /\ conforms sh t w /\ (wf v = true -> etree cls w = etree cls v).

  Lemma back_refl sh t v : conforms sh t v -> back sh t v v.
  Proof. intros H. split; [apply same_refl|auto]. Qed.

  Lemma back_list sh t l m : Forall2 (back sh t) l m ->
    Forall2 same l m /\ Forall (conforms sh t) m /\
    (forallb wf l = true -> map (etree cls) m = map (etree cls) l).
  Proof.
    induction 1 as [|x y l m (H1 & H2 & H3) HF (I1 & I2 & I3)]; simpl; auto.
    repeat split; auto. intros Hw. apply andb_true_iff in Hw as [Hw1 Hw2]. now rewrite H3, I3.
  Qed.

  Lemma load_elided sh t : forall v path ig st,
    storable E t -> defaults_typed t -> conforms sh t v -> clean v = true ->
    exists w, from_dict E dss t (ron_view (etree cls v)) path ig st = Ok (w, st) /\ back sh t v w.
  Proof.
    induction t as [| | | | |i IH|l IH|kt vt IHk IHv|i IH|l IH|c fs IH|n ms|l|n] using ty_ind';
      intros v path ig st Hs Hdt Hc Hcl.
    1-5: rewrite from_dict_main by discriminate; unfold from_main, dss; exists v; split; [|now apply back_refl];
         (destruct v; simpl in Hc; try easy; rewrite deser_noop by reflexivity; reflexivity).
    - destruct v as [| | | | |l| | | | | |]; simpl in Hc; try easy.
      rewrite from_dict_main by discriminate. unfold from_main, dss. rewrite deser_noop by reflexivity.
      cbn [etree ron_view rbind isinstance coerce_scalar from_struct].
      rewrite map_map.
      assert (G : forall j, exists l', smapi (fun i0 x s => from_dict E dss i x (path ++ "[" ++ show_nat i0 ++ "]") false s)
                  j (map (fun x => ron_view (etree cls x)) l) st = Ok (l', st) /\ Forall2 (back sh i) l l').
      { simpl in Hcl. clear -IH Hc Hcl Hs Hdt. induction l as [|x l IHl]; intros j; [exists []; auto|].
        cbn [map]. inversion Hc; subst. simpl in Hcl. apply andb_true_iff in Hcl as [Hcx Hcl].
        destruct (IH x (path ++ "[" ++ show_nat j ++ "]") false st) as [w [Hw1 Hw2]]; auto.
        destruct (IHl H2 Hcl (S j)) as [l' [Hl1 Hl2]].
        exists (w :: l'). rewrite smapi_cons. rewrite Hw1. cbn [rbind fst snd]. rewrite Hl1. auto. }
      fold dss. destruct (G 0) as [l' [-> HF]]. exists (VList l'). split; auto.
      apply back_list in HF as (F1 & F2 & F3). split; [now apply same_list|split; auto].
      simpl. intros Hw. now rewrite F3.
    - destruct v as [| | | | | |vs| | | | |]; simpl in Hc; try easy.
      rewrite from_dict_main by discriminate. unfold from_main, dss. rewrite deser_noop by reflexivity.
      cbn [etree ron_view rbind isinstance coerce_scalar from_struct tuple_items].
      rewrite map_map. fold dss.
      assert (G : forall j, exists l', tuple_loop (fun a x p s => from_dict E dss a x p false s) path l j
                  (map (fun x => ron_view (etree cls x)) vs) st = Ok (l', st) /\
                  Forall2 same vs l' /\ all2 sh (conforms sh) l l' /\
                  (forallb wf vs = true -> map (etree cls) l' = map (etree cls) vs)).
      { simpl in Hs, Hcl, Hdt. apply all_Forall in Hs. apply all_Forall in Hdt. revert vs Hc Hcl.
        induction l as [|t l IHl]; destruct vs as [|x vs]; intros Hc Hcl j; try easy.
        - exists []; repeat split; auto.
        - exists []; repeat split; auto.
        - inversion IH; inversion Hs; inversion Hdt; subst. simpl in Hcl, Hc. apply andb_true_iff in Hcl as [Hcx Hcl].
          destruct Hc as [Hc1 Hc2].
          destruct (H1 x (path ++ "[" ++ show_nat j ++ "]") false st) as [w [Hw1 (B1 & B2 & B3)]]; auto.
          destruct (IHl H2 H6 H10 vs Hc2 Hcl (S j)) as [l' [Hl1 (L1 & L2 & L3)]].
          exists (w :: l'). cbn [map]. rewrite tuple_loop_cons. rewrite Hw1. cbn [rbind fst snd]. rewrite Hl1.
          repeat split; auto. simpl. intros Hw. apply andb_true_iff in Hw as [Hw3 Hw4]. now rewrite B3, L3. }
      destruct (G 0) as [l' [-> HF]]. exists (VTuple l'). split; auto. destruct HF as (F1 & F2 & F3).
      split; [now apply same_tuple|split; auto]. simpl. intros Hw. now rewrite F3.
    - destruct v as [| | | | | | |d| | | |]; simpl in Hc; try easy.
      rewrite from_dict_main by discriminate. unfold from_main, dss. rewrite deser_noop by reflexivity.
      cbn [etree ron_view rbind isinstance coerce_scalar from_struct]. fold dss.
      rewrite map_map. cbn [fst snd].
      assert (G : exists d', smap (fun (kv : string * pyval) s =>
                    let* r := from_dict E dss vt (snd kv) (path ++ "." ++ fst kv) false s in
                    Ok ((fst kv, fst r), snd r)) (map (fun x => (fst x, ron_view (etree cls (snd x)))) d) st
                  = Ok (d', st) /\
                  Forall2 (fun kv kw => fst kv = fst kw /\ back sh vt (snd kv) (snd kw)) d d').
      { simpl in Hcl. apply andb_true_iff in Hcl as [_ Hcl]. destruct Hs as [_ Hs]. simpl in Hdt.
        clear -IHv Hc Hcl Hs Hdt. induction d as [|[k x] d IHd]; [exists []; auto|].
        inversion Hc; subst. simpl in Hcl. apply andb_true_iff in Hcl as [Hcx Hcl].
        destruct (IHv x (path ++ "." ++ k) false st) as [w [Hw1 Hw2]]; auto.
        destruct (IHd H2 Hcl) as [d' [Hd1 Hd2]].
        exists ((k, w) :: d'). cbn [map]. rewrite smap_cons. cbn [fst snd].
        rewrite Hw1. cbn [rbind fst snd]. rewrite Hd1. auto. }
      destruct G as [d' [-> HF]]. exists (VDict d'). split; auto.
      assert (HG : Forall2 (fun kv kw => fst kv = fst kw /\ same (snd kv) (snd kw)) d d' /\
                   Forall (fun kv => conforms sh vt (snd kv)) d' /\
                   (forallb (fun kv => wf (snd kv)) d = true ->
                    map (fun kv => (fst kv, etree cls (snd kv))) d' = map (fun kv => (fst kv, etree cls (snd kv))) d)).
      { clear -HF. induction HF as [|[k x] [k' y] d d' [H1 (B1 & B2 & B3)] HF (I1 & I2 & I3)]; simpl in *; auto.
        subst k'. repeat split; auto. intros Hw. apply andb_true_iff in Hw as [Hw1 Hw2]. now rewrite B3, I3. }
      destruct HG as (G1 & G2 & G3). split; [now apply same_dict|split; auto].
      simpl. intros Hw. apply andb_true_iff in Hw as [_ Hw]. now rewrite G3.
    - rewrite from_dict_eq. simpl in Hc. destruct (is_none (ron_view (etree cls v))) eqn:En.
      + destruct v; try discriminate. exists VNone. split; auto. apply back_refl. left; auto.
      + destruct Hc as [->|Hc]; [discriminate|]. destruct (IH v path ig st) as [w [Hw1 (B1 & B2 & B3)]]; auto.
        exists w. split; auto. split; auto. split; auto. right; auto.
    - rewrite from_dict_main by discriminate. unfold from_main, dss.
      destruct Hs as [Hs Hnd]. apply all_Forall in Hs. simpl in Hc. apply any_Exists in Hc as [t [Ht Hc]].
      simpl in Hdt. apply all_Forall in Hdt.
      rewrite Forall_forall in Hs, IH, Hdt. destruct (Hs t Ht) as [Hd Hst].
      destruct t; try discriminate. assert (Hc' := Hc). simpl in Hc'. destruct v as [| | | | | | | | |nm d| |]; try easy.
      destruct Hc' as [-> _].
      rewrite deser_noop by reflexivity. cbn [rbind]. cbn [isinstance].
      assert (Hdict : exists m, ron_view (etree cls (VObj (c_name c) d)) = VDict (("!__name__", VStr (c_name c)) :: m))
        by (eexists; reflexivity).
      destruct Hdict as [m Hm]. destruct (IH _ Ht (VObj (c_name c) d) path ig st Hst (Hdt _ Ht) Hc Hcl) as [w [Hw1 Hw2]].
      exists w. split; [|destruct Hw2 as (B1 & B2 & B3); split; auto; split; auto; simpl; apply any_Exists; exists (TData c fields); auto].
      rewrite Hm in Hw1 |- *. cbn [coerce_scalar from_struct aget]. rewrite String.eqb_refl.
      rewrite (union_scan_hit _ (c_name c) l (TData c fields)); auto.
    - (* dataclass *)
      destruct v as [| | | | | | | | |nm d| |]; simpl in Hc; try easy. destruct Hc as [-> Hc].
      assert (Hdump : dumpable cls (VObj (c_name c) d) = true).
      { apply (conforms_dumpable E sh (TData c fs)); auto. simpl; auto. }
      assert (Hs0 := Hs).
      destruct Hs as (Hnd & Hok & Hclass & Hrules & Hs). apply all_Forall in Hs.
      simpl in Hdt. apply all_Forall in Hdt.
      assert (Hk : map fst d = field_names fs).
      { clear -Hc. revert d Hc. unfold field_names.
        induction fs as [|[fn [ft fd]] fs IHf]; destruct d as [|[k x] d]; simpl; intros Hc; try easy.
        destruct Hc as [[-> _] Hc]. f_equal; auto. }
      set (kept := fun kv : string * pyval =>
             negb (dropb (cm_fields (cls (c_name c))) (fst kv, etree cls (snd kv)))).
      set (d2 := filter kept d).
      assert (Hitems : filter (fun kv => negb (dropb (cm_fields (cls (c_name c))) kv))
                 (map (fun kv => (fst kv, etree cls (snd kv))) d) = map (fun kv => (fst kv, etree cls (snd kv))) d2).
      { unfold d2, kept. clear. induction d as [|x d IHd]; simpl; auto.
        destruct (dropb _ _); simpl; auto. f_equal; auto. }
      assert (Hdes : deser_all E dss (TData c fs) (ron_view (etree cls (VObj (c_name c) d))) VNone false path st =
                Ok (VDict (("!__name__", VStr (c_name c)) ::
                           map (fun kv => (fst kv, ron_view (etree cls (snd kv)))) d2), VNone, false, st)).
      { cbn [etree ron_view]. rewrite Hitems. unfold cls at 1. rewrite Hclass. cbn [cm_version].
        destruct (c_versioned c) as [[ver rules]|] eqn:Ev; cbn [option_map].
        - rewrite map_app, map_map. cbn [map fst snd app ron_view].
          unfold dss. rewrite (deser_versioned_current E allow dir c fs ver rules _ path st (VInt ver) ver); auto; try lia.
          specialize (Hrules ver rules eq_refl). apply forallb_forall. intros kr Hkr. rewrite Forall_forall in Hrules.
          apply Z.ltb_lt. auto.
        - cbn [app]. rewrite map_map. cbn [fst snd]. unfold dss. apply deser_noop; auto.
          simpl. now rewrite Ev. }
      rewrite from_dict_main by discriminate. unfold from_main. rewrite Hdes. cbn [rbind isinstance coerce_scalar].
      cbn [from_struct dataclass_input rbind].
      cbn [fields_loop]. rewrite String.eqb_refl.
      simpl in Hdump. apply andb_true_iff in Hdump as [_ Hdump]. rewrite forallb_forall in Hdump.
      simpl in Hcl. rewrite forallb_forall in Hcl.
      assert (Hkd : NoDup (akeys d)) by (unfold akeys; rewrite Hk; exact Hnd).
      assert (Hfield : forall k x, In (k, x) d -> exists ft fd, In (k, (ft, fd)) fs /\ conforms sh ft x).
      { clear -Hc. intros k x Hin. revert d Hc Hin. induction fs as [|[fn [ft fd]] fs IHf]; destruct d as [|[k' x'] d]; simpl; intros Hc Hin; try easy.
        destruct Hc as [[-> Hx] Hc]. destruct Hin as [Hin|Hin].
        - injection Hin as -> ->. exists ft, fd; auto.
        - destruct (IHf d Hc Hin) as (ft' & fd' & H1 & H2). exists ft', fd'; auto. }
      destruct (fields_loop_rel
                 (fun k => field_with (fun ft _ x p s => from_dict E dss ft x p false s) k fs)
                 (c_name c) path ig st (fun x => ron_view (etree cls x)) 
                 (fun k x y => forall ft fd, In (k, (ft, fd)) fs -> back sh ft x y) d2 []) as [ys [Hys HF]].
      { simpl. unfold d2. now apply NoDup_filter_keys. }
      { intros k x Hin. unfold d2 in Hin. apply filter_In in Hin as [Hin _]. split; [|split].
        - rewrite Forall_forall in Hok.
          assert (Hkin : In k (field_names fs)).
          { rewrite <- Hk. apply in_map_iff. exists (k, x); auto. }
          apply Hok in Hkin. intros ->. discriminate.
        - apply is_weak_etree; [apply (Hdump (k, x) Hin)|apply (Hcl (k, x) Hin)].
        - destruct (Hfield k x Hin) as (ft & fd & Hf & Hfc).
          rewrite Forall_forall in IH, Hs, Hdt.
          destruct (IH _ Hf x (path_join path k) false st) as [w [Hw1 Hw2]]; auto.
          + apply (Hs _ Hf).
          + apply (Hdt _ Hf).
          + apply (Hcl (k, x) Hin).
          + eexists _, w. split; [apply (field_with_in _ k ft fd fs Hnd Hf)|]. split; [exact Hw1|].
            intros ft' fd' Hf'. apply (in_nodup_aget k _ fs Hnd) in Hf'. apply (in_nodup_aget k _ fs Hnd) in Hf.
            rewrite Hf in Hf'. injection Hf' as <- <-. exact Hw2. }
      rewrite Hys. cbn [rbind app].
      (* which fields were dropped *)
      assert (Hdef : forall n t df, In (n, (t, df)) fs -> default_in (cm_fields (cls (c_name c))) n =
                match df with DMissing => None | DValue x | DFactory x => Some x end).
      { intros n t df Hin. unfold default_in, cls. rewrite Hclass. cbn [cm_fields].
        assert (Ha : aget n (map (fun f : string * (ty * dflt) => (fst f, snd (snd f))) fs) = Some df).
        { apply in_nodup_aget.
          - unfold akeys. rewrite map_map. exact Hnd.
          - apply in_map_iff. exists (n, (t, df)); auto. }
        now rewrite Ha. }
      assert (Hdropped : forall n t df, In (n, (t, df)) fs -> aget n ys = None ->
                exists x0 x, In (n, x0) d /\ (df = DValue x \/ df = DFactory x) /\
                  conforms sh t x0 /\ conforms false t x /\ py_eq (etree cls x0) x = true).
      { intros n t df Hin Hg.
        assert (Hn : In n (map fst d)). { rewrite Hk. apply in_map_iff. exists (n, (t, df)); auto. }
        apply in_map_iff in Hn as [[n' x0] [Hn' Hn]]. simpl in Hn'; subst n'.
        assert (Hkept : kept (n, x0) = false).
        { destruct (kept (n, x0)) eqn:Ek; auto.
          assert (Hin2 : In (n, x0) d2) by (apply filter_In; auto).
          clear -HF Hin2 Hg. exfalso. induction HF as [|a b ? ? [H1 H2] HF IHF]; [easy|].
          destruct b as [kb xb]. simpl in Hg, H1. destruct (String.eqb_spec n kb); [easy|].
          destruct Hin2 as [->|Hin2]; [simpl in H1; congruence|]. auto. }
        unfold kept in Hkept. apply negb_false_iff in Hkept. unfold dropb in Hkept. cbn [fst snd] in Hkept.
        rewrite (Hdef n t df Hin) in Hkept.
        destruct (Hfield n x0 Hn) as (ft & fd & Hf & Hfc).
        assert (HH : aget n fs = Some (t, df) /\ aget n fs = Some (ft, fd)) by (split; apply in_nodup_aget; auto).
        destruct HH as [HH1 HH2]. rewrite HH1 in HH2. injection HH2 as <- <-.
        rewrite Forall_forall in Hdt. specialize (Hdt _ Hf). simpl in Hdt. destruct Hdt as [Hdt _].
        destruct df as [|x|x]; [discriminate| |]; exists x0, x; repeat split; auto. }
      rewrite try_defaults_skip.
      2:{ intros n Hn. apply (Permutation_in n (HE _)) in Hn. apply filter_In in Hn as [Hn Hm].
          apply in_map_iff in Hn as [[n' [t df]] [Hn' Hn]]. simpl in Hn'; subst n'.
          exists t, df. split; [now apply in_nodup_aget|].
          apply negb_true_iff in Hm. unfold amem in Hm. destruct (aget n ys) eqn:Eg; [discriminate|].
          destruct (Hdropped n t df Hn Eg) as (x0 & x & _ & [->| ->] & _); reflexivity. }
      cbn [rbind fst snd]. rewrite construct_fill.
      2:{ intros n t df Hin Hg. destruct (Hdropped n t df Hin Hg) as (x0 & x & _ & [->| ->] & _); reflexivity. }
      cbn [rbind]. eexists. split; [reflexivity|].
      assert (Hgoal : forall f, In f fs -> forall x, In (fst f, x) d -> exists w,
                match aget (fst f) ys with Some v => v | None => default_value (snd (snd f)) end = w /\
                same x w /\ conforms sh (fst (snd f)) w /\
                (wf x = true ->
                 (dropb (cm_fields (cls (c_name c))) (fst f, etree cls x) = true /\
                  dropb (cm_fields (cls (c_name c))) (fst f, etree cls w) = true) \/ etree cls w = etree cls x)).
      { intros [n [t df]] Hf x Hx. cbn [fst snd] in *. destruct (aget n ys) as [y|] eqn:Eg.
        - exists y. split; auto.
          assert (Hnd2 : NoDup (akeys d2)) by now apply NoDup_filter_keys.
          assert (Hex : exists x', In (n, x') d2 /\ forall ft fd, In (n, (ft, fd)) fs -> back sh ft x' y).
          { clear -HF Eg. induction HF as [|a b ? ? [H1 H2] HF IHF]; [easy|].
            destruct b as [kb xb]. simpl in Eg, H1. destruct (String.eqb_spec n kb).
            - injection Eg as ->. subst kb. exists (snd a). split; [left|].
              + destruct a; simpl in *; congruence.
              + rewrite e. exact H2.
            - destruct (IHF Eg) as [x' [H3 H4]]. exists x'; split; [right|]; auto. }
          destruct Hex as [x' [Hx' Hsm]]. apply filter_In in Hx' as [Hx' _].
          apply in_nodup_aget in Hx; auto. apply in_nodup_aget in Hx'; auto. rewrite Hx in Hx'. injection Hx' as <-.
          destruct (Hsm _ _ Hf) as (B1 & B2 & B3). auto.
        - destruct (Hdropped n t df Hf Eg) as (x0 & x1 & Hx0 & Hdf & C0 & C1 & Heq).
          apply in_nodup_aget in Hx; auto. apply in_nodup_aget in Hx0; auto. rewrite Hx in Hx0. injection Hx0 as <-.
          assert (Hst : storable E t) by (rewrite Forall_forall in Hs; apply (Hs _ Hf)).
          exists x1. split; [destruct Hdf as [->| ->]; reflexivity|]. split; [|split].
          + apply same_eq. eapply (py_eq_etree E sh false t); eauto.
          + now apply conforms_weaken.
          + intros Hw. left. unfold dropb. cbn [fst snd]. rewrite (Hdef n t df Hf).
            assert (Heq' : py_eq (etree cls x1) x1 = true) by (eapply (py_eq_self E sh false t); eauto).
            destruct Hdf as [->| ->]; auto. }
      set (fill := fun f : string * (ty * dflt) => (fst f, match aget (fst f) ys with
                     | Some v => v | None => default_value (snd (snd f)) end)) in *.
      assert (HG : Forall2 (fun kv kw => fst kv = fst kw /\ same (snd kv) (snd kw)) d (map fill fs) /\
                   all2 false (fun f kv => fst kv = fst f /\ conforms sh (fst (snd f)) (snd kv)) fs (map fill fs) /\
                   (forallb (fun kv => wf (snd kv)) d = true ->
                    filter (fun kv => negb (dropb (cm_fields (cls (c_name c))) kv))
                      (map (fun kv => (fst kv, etree cls (snd kv))) (map fill fs)) =
                    filter (fun kv => negb (dropb (cm_fields (cls (c_name c))) kv))
                      (map (fun kv => (fst kv, etree cls (snd kv))) d))).
      { clear -Hgoal Hk. unfold field_names in Hk.
        revert d Hk Hgoal. induction fs as [|f fs IHf]; intros [|[k x] d] Hk Hgoal; try discriminate; simpl; auto.
        simpl in Hk. injection Hk as -> Hk.
        destruct (IHf d Hk) as (I1 & I2 & I3); [intros g Hg y Hy; apply Hgoal; simpl; auto|].
        destruct (Hgoal f (or_introl eq_refl) x (or_introl eq_refl)) as (w & Ew & W1 & W2 & W3).
        rewrite !Ew. cbn [fst snd]. split; [constructor; [unfold fill; cbn [fst snd]; rewrite Ew|]; auto|split; [split; [split; [reflexivity|exact W2]|exact I2]|]].
        intros Hw. apply andb_true_iff in Hw as [Hw1 Hw2]. rewrite (I3 Hw2).
        destruct (W3 Hw1) as [[D1 D2]|D]; [rewrite D1, D2; auto|now rewrite D]. }
      destruct HG as (G1 & G2 & G3). split; [now apply same_obj|]. split.
      + simpl. split; auto. clear -G2. revert G2. generalize (map fill fs). induction fs as [|[n [ft fd]] fs IHf]; intros [|[k y] l]; simpl; auto.
        intros [H1 H2]; auto.
      + intros Hw. simpl in Hw. apply andb_true_iff in Hw as [_ Hw]. cbn [etree]. now rewrite G3.
    - destruct v as [| | | | | | | | | |cn m x|]; simpl in Hc; try easy. destruct Hc as [-> Hc].
      exists (VEnum n m x). split; [|apply back_refl; simpl; auto].
      rewrite from_dict_main by discriminate. unfold from_main, dss.
      cbn [etree ron_view]. rewrite deser_noop by reflexivity. cbn [rbind isinstance coerce_scalar clz_or_arg is_TFloat is_TInt orb from_struct].
      rewrite enum_lookup_find. simpl in Hs. rewrite (Hs m x Hc). reflexivity.
    - exists v. split; [|now apply back_refl].
      destruct Hc as [a [Ha Hc]]. assert (Hs' := Hs). simpl in Hs'. rewrite Forall_forall in Hs'.
      assert (Hsv : scalar v = true) by (eapply scalar_eq; [apply (Hs' a Ha)|exact Hc]).
      assert (Hv : ron_view (etree cls v) = ron_view (dtree cls v)) by (destruct v; try discriminate; reflexivity).
      rewrite Hv. apply (load_dumped E HE allow dir sh); auto. simpl. eauto.
    - destruct Hs.
  Qed.
End LoadElided.

Lemma Forall2_length {A B} (R : A -> B -> Prop) l m : Forall2 R l m -> length l = length m.
Proof. induction 1; simpl; auto. Qed.

(** ** [same] is Python equality for values that are equal to themselves *)
Lemma same_py_eq v : forall w, same v w -> wf v = true -> py_eq v v = true -> py_eq v w = true.
Proof.
  induction v as [|x|z|f|s|l IH|l IH|d IH|n d IH|n d IH|c m x IH|c x IH] using pyval_ind';
    intros w H Hwf Hr; inversion H; subst; auto.
  - simpl in *. revert m Hr H1 H. induction l as [|a l IHl]; intros m Hr H1 H; inversion H1; subst; auto.
    inversion IH; subst. simpl in *. apply andb_true_iff in Hr as [Hr1 Hr2]. apply andb_true_iff in Hwf as [Hw1 Hw2].
    rewrite H4; auto. simpl. apply IHl; auto. now apply same_list.
  - simpl in *. revert m Hr H1 H. induction l as [|a l IHl]; intros m Hr H1 H; inversion H1; subst; auto.
    inversion IH; subst. simpl in *. apply andb_true_iff in Hr as [Hr1 Hr2]. apply andb_true_iff in Hwf as [Hw1 Hw2].
    rewrite H4; auto. simpl. apply IHl; auto. now apply same_tuple.
  - simpl in *. apply andb_true_iff in Hwf as [Hn Hwf]. apply nodupb_NoDup in Hn.
    apply andb_true_iff in Hr as [_ Hr]. apply andb_true_iff. split.
    + apply Nat.eqb_eq. eapply Forall2_length; eauto.
    + apply forallb_forall. rewrite forallb_forall in Hr, Hwf. rewrite Forall_forall in IH. intros [k x] Hin.
      specialize (Hr _ Hin). specialize (Hwf _ Hin). specialize (IH _ Hin). cbn [fst snd] in *.
      rewrite (in_nodup_aget k x d) in Hr by auto.
      assert (Hex : exists y, aget k e = Some y /\ same x y).
      { clear -H1 Hin Hn. induction H1 as [|[ka xa] [kb xb] ? ? [H2 H3] HF IHF]; [easy|].
        simpl in *. subst kb. inversion Hn as [|? ? N1 N2]; subst. destruct Hin as [Hin|Hin].
        - injection Hin as -> ->. rewrite String.eqb_refl. eauto.
        - rewrite eqb_neq_str; auto. intros ->. apply N1. apply in_map_iff. exists (ka, x); auto. }
      destruct Hex as [y [-> Hy]]. auto.
  - simpl in *. rewrite String.eqb_refl in *. simpl in *.
    apply andb_true_iff in Hwf as [_ Hwf].
    match goal with HF : Forall2 _ d e |- _ => rename HF into HF0 end.
    clear H. revert e Hr HF0. induction d as [|a d IHd]; intros e Hr HF0; inversion HF0; subst; auto.
    inversion IH; subst. simpl in *. apply andb_true_iff in Hr as [Hr1 Hr2]. apply andb_true_iff in Hwf as [Hw1 Hw2].
    match goal with HF : fst a = fst y /\ _ |- _ => destruct HF as [Hf Hsm] end.
    match goal with HP : forall w, same (snd a) w -> _ |- _ => rename HP into HIa end.
    rewrite <- Hf. rewrite String.eqb_refl in *. simpl in *.
    rewrite HIa; auto. simpl. apply IHd; auto.
Qed.

(** ** which fields are omitted *)
Lemma etree_dumped E sh t : forall v,
  storable E t -> defaults_typed t -> conforms sh t v ->
  dumped_as (e_class E) true
    (fun c k x => exists y, default_for (e_class E) c k = Some y /\ py_eq x y = true)
    v (etree (e_class E) v).
Proof.
  set (P := fun c k x => exists y, default_for (e_class E) c k = Some y /\ py_eq x y = true).
  induction t as [| | | | |i IH|l IH|kt vt IHk IHv|i IH|l IH|c fs IH|n ms|l|n] using ty_ind';
    intros v Hs Hdt Hc; simpl in Hc; try (destruct v; try easy; reflexivity).
  - destruct v as [| | | | |l| | | | | |]; try easy. simpl. eexists; split; [reflexivity|].
    clear -IH Hc Hs Hdt. induction l as [|x l IHl]; simpl; auto. inversion Hc; subst. split; auto.
  - destruct v as [| | | | | |vs| | | | |]; try easy. simpl. eexists; split; [reflexivity|].
    simpl in Hs, Hdt. apply all_Forall in Hs. apply all_Forall in Hdt.
    revert vs Hc. induction l as [|t l IHl]; intros [|x vs] Hc; simpl in *; try easy.
    inversion IH; inversion Hs; inversion Hdt; subst. split; [apply H1; tauto|]. apply IHl; tauto.
  - destruct v as [| | | | | | |d| | | |]; try easy. simpl. eexists; split; [reflexivity|].
    destruct Hs as [_ Hs]. simpl in Hdt.
    clear -IHv Hc Hs Hdt. induction d as [|x d IHd]; simpl; auto. inversion Hc; subst. split; auto. 
  - destruct Hc as [->|Hc]; [reflexivity|]. apply IH; auto.
  - destruct Hs as [Hs Hnd]. apply all_Forall in Hs. apply any_Exists in Hc as [t [Ht Hc]].
    simpl in Hdt. apply all_Forall in Hdt. rewrite Forall_forall in *. apply (IH t Ht); auto. apply (Hs t Ht).
  - destruct v as [| | | | | | | | |nm d| |]; try easy. destruct Hc as [-> Hc].
    destruct Hs as (Hnd & Hok & Hclass & Hrules & Hs). apply all_Forall in Hs.
    simpl in Hdt. apply all_Forall in Hdt.
    assert (HA : all2 false (fun kv kw => fst kw = fst kv /\ dumped_as (e_class E) true P (snd kv) (snd kw))
                   d (map (fun kv => (fst kv, etree (e_class E) (snd kv))) d)).
    { clear Hok Hclass Hrules Hnd. revert d Hc. induction fs as [|[fn [ft fd]] fs IHf]; intros [|[k x] d] Hc; simpl in *; try easy.
      inversion IH; inversion Hs; inversion Hdt; subst. destruct Hc as [[-> Hx] Hc]. simpl in *.
      repeat split; auto. apply H1; tauto. }
    assert (HD : sub2 (fun kv => P (c_name c) (fst kv) (snd kv))
                  (fun kv kw => fst kw = fst kv /\ dumped_as (e_class E) true P (snd kv) (snd kw)) d
                  (filter (fun kv => negb (dropb (cm_fields (e_class E (c_name c))) kv))
                     (map (fun kv => (fst kv, etree (e_class E) (snd kv))) d))).
    { assert (Hdr : forall kv, In kv d -> dropb (cm_fields (e_class E (c_name c))) (fst kv, etree (e_class E) (snd kv)) = true ->
                P (c_name c) (fst kv) (snd kv)).
      { intros [k x] Hin Hdr. unfold dropb in Hdr. cbn [fst snd] in *.
        unfold P, default_for. unfold default_in in Hdr. rewrite Hclass in *. cbn [cm_fields] in *.
        assert (exists ft fd, In (k, (ft, fd)) fs /\ conforms sh ft x) as (ft & fd & Hf & Hfc).
        { clear -Hc Hin. revert d Hc Hin. induction fs as [|[fn [ft fd]] fs IHf]; destruct d as [|[k' x'] d]; simpl; intros Hc Hin; try easy.
          destruct Hc as [[-> Hx] Hc]. destruct Hin as [Hin|Hin].
          - injection Hin as -> ->. exists ft, fd; auto.
          - destruct (IHf d Hc Hin) as (ft' & fd' & H1 & H2). exists ft', fd'; auto. }
        assert (Ha : aget k (map (fun f : string * (ty * dflt) => (fst f, snd (snd f))) fs) = Some fd).
        { apply in_nodup_aget.
          - unfold akeys. rewrite map_map. exact Hnd.
          - apply in_map_iff. exists (k, (ft, fd)); auto. }
        rewrite Ha in *. rewrite Forall_forall in Hs, Hdt. specialize (Hs _ Hf). specialize (Hdt _ Hf). simpl in Hs, Hdt.
        destruct Hdt as [Hdt _].
        destruct fd as [|y|y]; [discriminate| |]; exists y; split; auto; eapply py_eq_etree; eauto. }
      clear -HA Hdr. induction d as [|[k x] d IHd]; simpl in *; auto.
      destruct HA as [HA1 HA2].
      destruct (dropb (cm_fields (e_class E (c_name c))) (k, etree (e_class E) x)) eqn:Ed; simpl.
      - left. split; [apply (Hdr (k, x)); auto|]. apply IHd; auto.
      - right. split; auto. }
    cbn [etree dumped_as]. eexists. split; [reflexivity|]. cbn zeta.
    destruct (cm_version (e_class E (c_name c))); cbn [app]; [eexists; split; [reflexivity|]|]; exact HD.
  - destruct Hc as [a [Ha Hc]]. simpl in Hs. rewrite Forall_forall in Hs.
    destruct (Hs a Ha) as [Hsc _]. apply (scalar_eq a v Hsc) in Hc. destruct v; try discriminate; reflexivity.
Qed.

Lemma elide_round_trip : forall E sh t v ig,
  order_ok E -> storable E t -> defaults_typed t -> conforms sh t v -> clean v = true ->
  exists d w,
    hs_dumps E v true = Ok d /\
    dumped_as (e_class E) true
      (fun c k x => exists y, default_for (e_class E) c k = Some y /\ py_eq x y = true) v d /\
    hs_loads E t (ron_view d) None ig = Ok w /\ same v w /\
    (wf v = true -> py_eq v v = true -> py_eq v w = true).
Proof.
  intros E sh t v ig HE Hs Hdt Hc Hcl.
  destruct (load_elided E HE false None sh t v "" ig st_init Hs Hdt Hc Hcl) as [w [Hw (Hsame & _)]].
  exists (etree (e_class E) v), w. split; [|split; [|split; [|split]]].
  - unfold hs_dumps, typed_dump. cbn [app].
    change [LazySer; VersionedSer; ElideSer] with (dump_sers true true).
    rewrite asdict_etree; [reflexivity| |].
    + eapply conforms_dumpable; eauto.
    + eapply instances_conforms; eauto.
  - eapply etree_dumped; eauto.
  - unfold hs_loads, typed_load. rewrite Hw. reflexivity.
  - exact Hsame.
  - intros. now apply same_py_eq.
Qed.
