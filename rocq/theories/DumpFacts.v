(** DumpFacts.v -- when dumping succeeds (C60) and which fields it leaves out (C61). *)
From Verif Require Import Base AFacts Value Schema Rewrite Sched Types Asdict FromDict
  Induct SpecTree SpecTypes SpecState SpecDump RewriteFacts FromDictFacts RoundTrip ElideFacts.

Lemma smap_total {A B St} (f : A -> St -> res (B * St)) l :
  (forall x s, In x l -> exists r, f x s = Ok r) -> forall s, exists r, smap f l s = Ok r.
Proof.
  induction l as [|x l IH]; intros H s; [eexists; reflexivity|]. rewrite smap_cons.
  destruct (H x s (or_introl eq_refl)) as [[y s1] ->]. cbn [rbind fst snd].
  destruct (IH (fun z t Hz => H z t (or_intror Hz)) s1) as [[ys s2] ->]. cbn [rbind]. eauto.
Qed.

Lemma smapi_total {A B St} (f : nat -> A -> St -> res (B * St)) l :
  (forall i x s, In x l -> exists r, f i x s = Ok r) -> forall i s, exists r, smapi f i l s = Ok r.
Proof.
  induction l as [|x l IH]; intros H i s; [eexists; reflexivity|]. rewrite smapi_cons.
  destruct (H i x s (or_introl eq_refl)) as [[y s1] ->]. cbn [rbind fst snd].
  destruct (IH (fun j z t Hz => H j z t (or_intror Hz)) (S i) s1) as [[ys s2] ->]. cbn [rbind]. eauto.
Qed.

Lemma smap_each {A B St} (f : A -> St -> res (B * St)) l : forall s r, smap f l s = Ok r ->
  forall x, In x l -> exists s0 y, f x s0 = Ok y.
Proof.
  induction l as [|x l IH]; intros s r H z Hz; [destruct Hz|]. rewrite smap_cons in H.
  apply rbind_ok in H as [y [Hy H]]. apply rbind_ok in H as [ys [Hys _]]. destruct Hz as [<-|Hz]; eauto.
Qed.

Lemma smapi_each {A B St} (f : nat -> A -> St -> res (B * St)) l : forall i s r, smapi f i l s = Ok r ->
  forall x, In x l -> exists j s0 y, f j x s0 = Ok y.
Proof.
  induction l as [|x l IH]; intros i s r H z Hz; [destruct Hz|]. rewrite smapi_cons in H.
  apply rbind_ok in H as [y [Hy H]]. apply rbind_ok in H as [ys [Hys _]]. destruct Hz as [<-|Hz]; eauto.
Qed.

Lemma insert_version_keys z attrs k : In k (akeys (insert_version z attrs)) <-> k = "version" \/ In k (akeys attrs).
Proof.
  unfold insert_version.
  assert (G : forall acc, In k (akeys (fold_left (fun acc kv => aset (fst kv) (snd kv) acc) attrs acc)) <-> In k (akeys acc) \/ In k (akeys attrs)).
  { induction attrs as [|[n x] attrs IH]; intros acc; cbn [fold_left fst snd]; [cbn; tauto|]. rewrite IH.
    assert (K : In k (akeys (aset n x acc)) <-> n = k \/ In k (akeys acc)).
    { clear. induction acc as [|[m y] acc IH]; cbn [aset akeys map fst In]; [tauto|]. destruct (String.eqb_spec n m) as [->|N]; cbn [akeys map fst In].
      - tauto.
      - unfold akeys in *. rewrite IH. tauto. }
    rewrite K. cbn [akeys map fst In]. tauto. }
  rewrite G. cbn [akeys map fst In]. intuition.
Qed.

Lemma smap_keys {St} (f : pyval -> string -> St -> res (pyval * St)) path (d : list (string * pyval)) : forall s r,
  smap (fun (kv : string * pyval) s => let '(k, x) := kv in
          let* ys := f x (path_join path k) s in Ok ((k, fst ys), snd ys)) d s = Ok r -> akeys (fst r) = map fst d.
Proof.
  induction d as [|[k x] d IH]; intros s r H; [injection H as <-; reflexivity|]. rewrite smap_cons in H.
  apply rbind_ok in H as [y [Hy H]]. apply rbind_ok in Hy as [w [_ Hy]]. injection Hy as <-. cbn [fst snd] in H.
  apply rbind_ok in H as [ys [Hys H]]. injection H as <-. cbn [fst akeys map]. f_equal. eapply IH. exact Hys.
Qed.

Section Dump.
  Variable cls : string -> cmeta.

  Lemma dump_total el v : (el = true -> instances_ok cls v) -> public_fields v -> forall path b,
    exists r, asdict cls (dump_sers true el) true v path b = Ok r.
  Proof.
    induction v as [|x|z|f|s|l IH|l IH|d0 IH|n d0 IH|n d0 IH|c m x IH|c x IH] using pyval_ind'; intros Hi P path b; cbn [asdict].
    12: { unfold dump_sers. destruct el; cbn; eauto. }
    all: rewrite ser_all_dump by discriminate; cbn [rbind fst snd].
    1-5,11: eauto.
    - cbn [public_fields instances_ok] in *. rewrite all_Forall, Forall_forall in P. rewrite Forall_forall in IH.
      destruct (smapi_total (fun i x s => asdict cls (dump_sers true el) true x (path_join path (show_nat i)) s) l) with (i := 0) (s := b) as [r ->]; [|cbn [rbind]; eauto].
      intros i x s Hx. apply IH; auto. intros E. specialize (Hi E). rewrite all_Forall, Forall_forall in Hi. auto.
    - cbn [public_fields instances_ok] in *. rewrite all_Forall, Forall_forall in P. rewrite Forall_forall in IH.
      destruct (smapi_total (fun i x s => asdict cls (dump_sers true el) true x (path_join path (show_nat i)) s) l) with (i := 0) (s := b) as [r ->]; [|cbn [rbind]; eauto].
      intros i x s Hx. apply IH; auto. intros E. specialize (Hi E). rewrite all_Forall, Forall_forall in Hi. auto.
    - cbn [public_fields instances_ok] in *. rewrite all_Forall, Forall_forall in P. rewrite Forall_forall in IH.
      match goal with |- context [smap ?f d0 b] => destruct (smap_total f d0) with (s := b) as [r ->] end; [|cbn [rbind]; eauto].
      intros [k x] s Hx. destruct (IH _ Hx) with (path := path_join path k) (b := s) as [r Hr']; [| |cbn [snd] in Hr'; rewrite Hr'; cbn [rbind]; eauto].
      + intros E. specialize (Hi E). rewrite all_Forall, Forall_forall in Hi. apply (Hi _ Hx).
      + apply (P _ Hx).
    - cbn [public_fields instances_ok] in *. rewrite all_Forall, Forall_forall in P. rewrite Forall_forall in IH.
      match goal with |- context [smapi ?f 0 d0 b] => destruct (smapi_total f d0) with (i := 0) (s := b) as [r ->] end; [|cbn [rbind]; eauto].
      intros i [k x] s Hx. apply (IH _ Hx).
      + intros E. specialize (Hi E). rewrite all_Forall, Forall_forall in Hi. apply (Hi _ Hx).
      + apply (P _ Hx).
    - cbn [public_fields] in P. destruct P as [PN P]. rewrite all_Forall, Forall_forall in P. rewrite Forall_forall in IH.
      match goal with |- context [smap ?f d0 b] => destruct (smap_total f d0) with (s := b) as [r Hr] end.
      { intros [k x] s Hx. destruct (IH _ Hx) with (path := path_join path k) (b := s) as [r Hr']; [| |cbn [snd] in Hr'; rewrite Hr'; cbn [rbind]; eauto].
        - intros E. specialize (Hi E). cbn [instances_ok] in Hi. destruct Hi as (_ & _ & _ & Hi). rewrite all_Forall, Forall_forall in Hi. apply (Hi _ Hx).
        - apply (P _ Hx). }
      rewrite Hr. cbn [rbind]. apply smap_keys in Hr.
      assert (M : exists attrs, modify_attrs (dump_sers true el) (cls n) (fst r) = Ok attrs /\
                    forall k, In k (akeys attrs) -> k = "version" \/ In k (map fst d0)).
      { rewrite (modify_dump cls). cbn zeta.
        assert (V : forall k, In k (akeys (match cm_version (cls n) with Some z => insert_version z (fst r) | None => fst r end)) -> k = "version" \/ In k (map fst d0)).
        { intros k. destruct (cm_version (cls n)); [rewrite insert_version_keys|]; rewrite Hr; auto. }
        destruct el; [|eauto]. specialize (Hi eq_refl). cbn [instances_ok] in Hi. destruct Hi as (Hk & Hnd & Hver & _).
        assert (K : exists ks, akeys (match cm_version (cls n) with Some z => insert_version z (fst r) | None => fst r end) = ks /\ NoDup ks /\ forall k, In k (map fst d0) -> In k ks).
        { destruct (cm_version (cls n)) as [z|].
          - rewrite insert_version_spec by (rewrite Hr; auto). eexists. split; [reflexivity|]. cbn [akeys map fst]. fold (akeys (fst r)). rewrite Hr.
            split; [constructor; auto|now right].
          - eexists. split; [reflexivity|]. rewrite Hr. auto. }
        destruct K as (ks & Ek & Nk & Sk). rewrite <- Ek in Nk.
        destruct (elide_ok (cm_fields (cls n)) (match cm_version (cls n) with Some z => insert_version z (fst r) | None => fst r end)) as [a Ha]; [rewrite <- Hk; auto|exact Nk| |].
        { intros k Hkk. rewrite Ek. apply Sk. now rewrite Hk. }
        exists a. split; [exact Ha|]. apply elide_filter in Ha; [|rewrite <- Hk; auto|exact Nk]. subst a.
        intros k Hkk. apply V. unfold akeys in *. apply in_map_iff in Hkk as [kv [<- Hkv]]. apply filter_In in Hkv as [Hkv _]. now apply in_map. }
      destruct M as (attrs & -> & K). cbn [rbind].
      assert (forallb nt_name_ok (akeys attrs) = true) as ->; [|eauto].
      apply forallb_forall. intros k Hk. apply K in Hk. destruct Hk as [->|Hk]; [reflexivity|]. rewrite <- public_nt.
      rewrite Forall_forall in PN. now apply PN.
  Qed.

  Lemma dump_only v : forall path b r, asdict cls (dump_sers true false) true v path b = Ok r -> public_fields v.
  Proof.
    induction v as [|x|z|f|s|l IH|l IH|d0 IH|n d0 IH|n d0 IH|c m x IH|c x IH] using pyval_ind'; intros path b r H; try exact I;
      cbn [asdict] in H; rewrite ser_all_dump in H by discriminate; cbn [rbind fst snd] in H; cbn [public_fields];
      rewrite all_Forall, ?Forall_forall in *.
    - apply rbind_ok in H as [w [H _]]. intros x Hx. destruct (smapi_each _ _ _ _ _ H x Hx) as (j & s0 & y & Hy). eapply IH; eauto.
    - apply rbind_ok in H as [w [H _]]. intros x Hx. destruct (smapi_each _ _ _ _ _ H x Hx) as (j & s0 & y & Hy). eapply IH; eauto.
    - apply rbind_ok in H as [w [H _]]. intros [k x] Hx. destruct (smap_each _ _ _ _ H _ Hx) as (s0 & y & Hy).
      apply rbind_ok in Hy as [y' [Hy _]]. eapply (IH _ Hx); eauto.
    - apply rbind_ok in H as [w [H _]]. intros [k x] Hx. destruct (smapi_each _ _ _ _ _ H _ Hx) as (j & s0 & y & Hy). eapply (IH _ Hx); eauto.
    - apply rbind_ok in H as [w [H H1]]. split.
      + intros k Hk. rewrite (modify_dump cls) in H1. cbn [rbind] in H1. apply smap_keys in H.
        match type of H1 with (if ?f then _ else _) = _ => destruct f eqn:F; [|discriminate H1] end. rewrite forallb_forall in F.
        rewrite public_nt. apply F. destruct (cm_version (cls n)); [apply insert_version_keys; right|]; now rewrite H.
      + intros [k x] Hx. destruct (smap_each _ _ _ _ H _ Hx) as (s0 & y & Hy). apply rbind_ok in Hy as [y' [Hy _]]. eapply (IH _ Hx); eauto.
  Qed.

  (** a bare value is written as it is *)
  Lemma bare_dump el v : bare v = true -> forall path b, asdict cls (dump_sers true el) true v path b = Ok (v, b).
  Proof.
    induction v as [|x|z|f|s|l IH|l IH|d0 IH|n d0 IH|n d0 IH|c m x IH|c x IH] using pyval_ind'; intros B path b; try discriminate B;
      cbn [asdict]; rewrite ser_all_dump by discriminate; cbn [rbind fst snd]; try reflexivity; cbn [bare] in B; rewrite forallb_forall in B; rewrite Forall_forall in IH.
    - rewrite (smapi_ok _ (fun x => x)); [cbn [rbind fst snd]; now rewrite map_id|]. intros j. apply Forall_forall. auto.
    - rewrite (smapi_ok _ (fun x => x)); [cbn [rbind fst snd]; now rewrite map_id|]. intros j. apply Forall_forall. auto.
    - rewrite (smap_ok _ (fun x => x)); [cbn [rbind fst snd]; now rewrite map_id|]. apply Forall_forall. intros [k x] Hx.
      now rewrite (IH _ Hx (B _ Hx)).
  Qed.

  Lemma all2_find {A} (R : string * pyval -> string * A -> Prop) l m k w : (forall x y, R x y -> fst y = fst x) ->
    all2 false R l m -> In (k, w) m -> exists x, In (k, x) l /\ R (k, x) (k, w).
  Proof.
    intros HR. revert m. induction l as [|[k' x] l IH]; intros [|[k2 y] m] H I; try easy. destruct H as [H1 H2].
    destruct I as [I|I].
    - injection I as -> ->. pose proof (HR _ _ H1) as E. cbn [fst] in E. subst k'. exists x. split; [now left|auto].
    - destruct (IH m H2 I) as (x' & I' & R'). exists x'. split; [now right|auto].
  Qed.

  (** the entries written for an instance *)
  Lemma object_all c fs path b d b' : instances_ok cls (VObj c fs) ->
    asdict cls (dump_sers true true) true (VObj c fs) path b = Ok (d, b') ->
    exists attrs, d = VNt c attrs /\ (forall k w, In (k, w) attrs ->
      (k = "version" /\ ~ In k (map fst fs)) \/
      exists x path' s s', In (k, x) fs /\ asdict cls (dump_sers true true) true x path' s = Ok (w, s') /\
        forall y, default_for cls c k = Some y -> py_eq w y = false) /\
      NoDup (akeys attrs) /\
      forall k x, In (k, x) fs -> exists w path' s s', asdict cls (dump_sers true true) true x path' s = Ok (w, s') /\
        (In (k, w) attrs \/ exists y, default_for cls c k = Some y /\ py_eq w y = true).
  Proof.
    intros (Hk & Hnd & Hver & _) H. cbn [asdict] in H. rewrite ser_all_dump in H by discriminate. cbn [rbind fst snd] in H.
    apply rbind_ok in H as [[l' s1] [H1 H2]]. cbn [fst snd] in H2. apply rbind_ok in H2 as [attrs [H2 H3]].
    destruct (forallb nt_name_ok (akeys attrs)); [|discriminate H3]. injection H3 as <- <-. exists attrs. split; [reflexivity|].
    assert (HA : all2 false (fun (kv kw : string * pyval) => fst kw = fst kv /\ exists path' s s', asdict cls (dump_sers true true) true (snd kv) path' s = Ok (snd kw, s')) fs l').
    { eapply smap_inv; [|exact H1]. apply Forall_forall. intros [k x] Hx s y s2 Hy.
      apply rbind_ok in Hy as [[w s3] [Hw Hy]]. cbn [fst snd] in Hy. injection Hy as <- <-. split; [reflexivity|]. cbn [snd]. eauto. }
    assert (Hkl : akeys l' = map fst fs) by (eapply all2_keys; [|exact HA]; simpl; tauto).
    rewrite (modify_dump cls) in H2. cbn zeta in H2.
    set (full := match cm_version (cls c) with Some z => insert_version z l' | None => l' end) in H2.
    assert (NF : NoDup (akeys full)).
    { unfold full. destruct (cm_version (cls c)); [rewrite insert_version_spec by (rewrite Hkl; auto); cbn [akeys map fst]; fold (akeys l'); constructor|]; rewrite Hkl; auto. }
    assert (IF : forall k w, In (k, w) full -> (k = "version" /\ ~ In k (map fst fs)) \/ In (k, w) l').
    { unfold full. intros k w. destruct (cm_version (cls c)) as [z|]; [|auto]. rewrite insert_version_spec by (rewrite Hkl; auto).
      intros [E|I]; [injection E as <- <-; auto|auto]. }
    apply elide_filter in H2; [|rewrite <- Hk; auto|exact NF]. subst attrs. split; [|split; [now apply NoDup_filter_keys|]].
    { intros k w I. apply filter_In in I as [I D].
    apply IF in I. destruct I as [I|I]; [now left|right].
    destruct (all2_find _ _ _ _ _ (fun x y HH => proj1 HH) HA I) as (x & Ix & _ & path' & s & s' & Hx). cbn [snd] in Hx.
    exists x, path', s, s'. split; [exact Ix|]. split; [exact Hx|]. intros y Hy. unfold dropb in D. cbn [fst snd] in D.
    unfold default_for in Hy. unfold default_in in D. destruct (aget k (cm_fields (cls c))) as [[|z|z]|]; try discriminate Hy; injection Hy as ->; now apply negb_true_iff in D. }
    intros k x Ix.
    assert (EX : exists w, In (k, w) l' /\ exists path' s s', asdict cls (dump_sers true true) true x path' s = Ok (w, s')).
    { clear - HA Ix. revert l' HA. induction fs as [|[k2 x2] fs IH]; intros [|[k3 w3] l'] HA; try easy. destruct HA as [[E HA1] HA2].
      destruct Ix as [Ix|Ix]; [|destruct (IH Ix l' HA2) as (w & I & W); exists w; split; [now right|exact W]].
      injection Ix as -> ->. cbn [fst snd] in *. subst k3. exists w3. split; [now left|exact HA1]. }
    destruct EX as (w & Iw & path' & s & s' & Hw). exists w, path', s, s'. split; [exact Hw|].
    assert (Iw' : In (k, w) full).
    { unfold full. destruct (cm_version (cls c)); [rewrite insert_version_spec by (rewrite Hkl; auto); now right|exact Iw]. }
    destruct (dropb (cm_fields (cls c)) (k, w)) eqn:Db.
    - right. unfold dropb in Db. cbn [fst snd] in Db. unfold default_in in Db. unfold default_for.
      destruct (aget k (cm_fields (cls c))) as [[|z|z]|]; try discriminate Db; eauto.
    - left. apply filter_In. split; [exact Iw'|]. now rewrite Db.
  Qed.


  
  Lemma object_entries c fs path b d b' : instances_ok cls (VObj c fs) ->
    asdict cls (dump_sers true true) true (VObj c fs) path b = Ok (d, b') ->
    exists attrs, d = VNt c attrs /\ forall k w, In (k, w) attrs ->
      (k = "version" /\ ~ In k (map fst fs)) \/
      exists x path' s s', In (k, x) fs /\ asdict cls (dump_sers true true) true x path' s = Ok (w, s') /\
        forall y, default_for cls c k = Some y -> py_eq w y = false.
  Proof.
    intros Hi H. destruct (object_all _ _ _ _ _ _ Hi H) as (attrs & E & A & _). eauto.
  Qed.

  Lemma elided_absent p : forall v c fs k x y path b d b', instances_ok cls v ->
    asdict cls (dump_sers true true) true v path b = Ok (d, b') ->
    field_at v p = Some (VObj c fs) -> In (k, x) fs -> default_for cls c k = Some y ->
    bare x = true -> py_eq x y = true -> k <> "!__name__" -> lookup (ron_view d) (p ++ [k])%list = None.
  Proof.
    induction p as [|k0 p IH]; intros v c fs k x y path b d b' Hi H Hf Hx Hy B Q Nk.
    - cbn [field_at] in Hf. injection Hf as ->. destruct (object_entries _ _ _ _ _ _ Hi H) as (attrs & -> & HE).
      cbn [app ron_view lookup aget]. rewrite eqb_neq_str by auto.
      match goal with |- match ?a with _ => _ end = None => destruct a as [w'|] eqn:A; [exfalso|reflexivity] end.
      apply aget_some_in in A. apply in_map_iff in A as [[k2 w] [E A]]. injection E as -> <-. apply HE in A.
      destruct A as [[_ A]|(x2 & path' & s & s' & A & D & N)].
      + apply A. change k with (fst (k, x)). now apply in_map.
      + destruct Hi as (_ & Hnd & _). assert (x2 = x) as ->.
        { apply in_nodup_aget in A; auto. apply in_nodup_aget in Hx; auto. congruence. }
        rewrite bare_dump in D by exact B. injection D as <- _. rewrite (N _ Hy) in Q. discriminate.
    - destruct v as [| | | | | | | | |c0 o| |]; try discriminate Hf. cbn [field_at] in Hf. destruct (aget k0 o) as [x0|] eqn:A0; [|discriminate Hf].
      destruct (object_entries _ _ _ _ _ _ Hi H) as (attrs & -> & HE). cbn [app ron_view lookup aget].
      destruct (String.eqb k0 "!__name__"); [destruct p; reflexivity|].
      match goal with |- match ?a with _ => _ end = None => destruct a as [w'|] eqn:A; [|reflexivity] end.
      apply aget_some_in in A. apply in_map_iff in A as [[k2 w] [E A]]. injection E as -> <-. apply HE in A. apply aget_some_in in A0.
      destruct A as [[_ A]|(x2 & path' & s & s' & A & D & N)].
      + exfalso. apply A. change k0 with (fst (k0, x0)). now apply in_map.
      + destruct Hi as (_ & Hnd & _ & Hi). assert (x2 = x0) as ->.
        { apply in_nodup_aget in A; auto. apply in_nodup_aget in A0; auto. congruence. }
        rewrite all_Forall, Forall_forall in Hi. eapply (IH x0); eauto. apply (Hi _ A0).
  Qed.
  (** a field of a written section that differs from its default is written *)
  Lemma written_field p : forall v c fs k x path b d b' w, instances_ok cls v ->
    asdict cls (dump_sers true true) true v path b = Ok (d, b') ->
    field_at v p = Some (VObj c fs) -> lookup (ron_view d) p = Some w ->
    In (k, x) fs -> bare x = true -> (forall y, default_for cls c k = Some y -> py_eq x y = false) ->
    k <> "!__name__" -> ~ In "!__name__" p -> lookup (ron_view d) (p ++ [k])%list = Some (ron_view x).
  Proof.
    induction p as [|k0 p IH]; intros v c fs k x path b d b' w0 Hi H Hf L Hx B Q Nk Np.
    - cbn [field_at] in Hf. injection Hf as ->. destruct (object_all _ _ _ _ _ _ Hi H) as (attrs & -> & _ & ND & HE).
      cbn [app ron_view lookup aget]. rewrite eqb_neq_str by auto.
      destruct (HE k x Hx) as (w & path' & s & s' & D & A). rewrite bare_dump in D by exact B. injection D as <- _.
      destruct A as [A|(y & Y & A)]; [|rewrite (Q y Y) in A; discriminate].
      apply (in_map (fun kv => (fst kv, ron_view (snd kv)))) in A. cbn [fst snd] in A. apply in_nodup_aget in A; [now rewrite A|].
      unfold akeys in *. now rewrite map_map.
    - destruct v as [| | | | | | | | |c0 o| |]; try discriminate Hf. cbn [field_at] in Hf. destruct (aget k0 o) as [x0|] eqn:A0; [|discriminate Hf].
      destruct (object_entries _ _ _ _ _ _ Hi H) as (attrs & -> & HE). cbn [app ron_view lookup aget] in *.
      rewrite eqb_neq_str in * by (intros ->; apply Np; now left).
      match goal with |- match ?a with _ => _ end = _ => destruct a as [w'|] eqn:A; [|discriminate L] end.
      apply aget_some_in in A. apply in_map_iff in A as [[k2 w] [E A]]. injection E as -> <-. apply HE in A. apply aget_some_in in A0.
      destruct A as [[_ A]|(x2 & path' & s & s' & A & D & N)].
      + exfalso. apply A. change k0 with (fst (k0, x0)). now apply in_map.
      + destruct Hi as (_ & Hnd & _ & Hi). assert (x2 = x0) as ->.
        { apply in_nodup_aget in A; auto. apply in_nodup_aget in A0; auto. congruence. }
        rewrite all_Forall, Forall_forall in Hi. eapply (IH x0); eauto; [apply (Hi _ A0)|]. intros I. apply Np. now right.
  Qed.

End Dump.

Lemma scalar_eq_public a v : scalar a = true -> py_eq a v = true -> public_fields v.
Proof. destruct a; try discriminate; destruct v; try discriminate; intros; exact I. Qed.

Lemma conforms_public t : forall v, public_class t -> conforms true t v -> public_fields v.
Proof.
  induction t using ty_ind'; intros v P C; cbn [conforms public_class] in *.
  1-4: destruct v; try contradiction; exact I.
  - subst v. exact I.
  - destruct v; try contradiction. cbn [public_fields]. apply all_Forall. rewrite Forall_forall in *. auto.
  - destruct v as [| | | | | |m| | | | |]; try contradiction. cbn [public_fields]. apply all_Forall.
    revert m C. induction l as [|a l IHl]; intros [|y m] C; [constructor|destruct C|constructor|].
    inversion H; subst. destruct P as [P1 P2]. destruct C as [C1 C2]. constructor; [now apply H2|now apply IHl].
  - destruct v; try contradiction. cbn [public_fields]. apply all_Forall. rewrite Forall_forall in *. auto.
  - destruct C as [->|C]; [exact I|auto].
  - induction l as [|a l IHl]; [destruct C|]. inversion H; subst. destruct P as [P1 P2]. destruct C as [C|C]; [now apply H2|now apply IHl].
  - destruct v as [| | | | | | | | |n d| |]; try contradiction. destruct C as [-> C]. destruct P as [PN P]. cbn [public_fields].
    assert (G : map fst d = field_names fs /\ all (fun kv => public_fields (snd kv)) d).
    { clear PN. revert d C. induction fs as [|[k [ft df]] fs IHf]; intros [|[k2 x] d] C; [split; [reflexivity|exact I]|destruct C|discriminate C|].
      inversion H; subst. destruct P as [P1 P2]. destruct C as [[C1 C2] C3]. destruct (IHf H3 P2 d C3) as [G1 G2]. cbn [fst snd] in *. subst k2.
      split; [cbn [map fst field_names]; now f_equal|]. split; [now apply H2|exact G2]. }
    destruct G as [-> G]. auto.
  - destruct v; try contradiction. exact I.
  - destruct C as (a & Ia & E). rewrite Forall_forall in P. apply (scalar_eq_public a); auto.
  - destruct v; try contradiction; exact I.
Qed.
