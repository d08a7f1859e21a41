(** UpgradeFacts.v -- upgrading files (C13, C14, C16). *)
From Coq Require Import Permutation.
From Verif Require Import Base AFacts Value Schema Rewrite Sched Types Asdict FromDict
  Induct SpecTree SpecTypes RewriteFacts FromDictFacts RoundTrip ElideFacts ElideLoad
  DefaultFacts SpecLoad LoadFacts LoadSound OrderFacts OverrideSim SetOrder LoadProps SpecOverride OverrideFacts OverrideLoad.

(** ** rules leave unrelated paths alone *)
Fixpoint keeps (d : pyval) (p : list string) (v : pyval) : Prop :=
  match p with
  | [] => d = v
  | k :: r => exists m c, d = VDict m /\ aget k m = Some c /\ is_weak c = false /\ keeps c r v
  end.

Lemma keeps_iff p v : forall d, keeps d p v <-> lookup d p = Some v /\ strong d p.
Proof.
  induction p as [|k p IH]; intros d; cbn [keeps lookup strong].
  - split; [intros ->; auto|intros [[= ->] _]; auto].
  - split.
    + intros (m & c & -> & -> & H1 & H2). apply IH in H2 as [H2 H3]. auto.
    + destruct d; try (intros [H _]; discriminate). destruct (aget k d) as [c|] eqn:Ec; [|intros [H _]; discriminate].
      intros [H1 [H2 H3]]. exists d, c. repeat split; auto. apply IH. auto.
Qed.

Lemma weak_adel k m : is_weak (VDict m) = false -> is_weak (VDict (adel k m)) = false.
Proof. cbn [is_weak]. rewrite !amem_false. intros H Hin. apply H. eapply in_akeys_adel; eauto. Qed.

Lemma weak_aset k c m : is_weak (VDict m) = false -> k <> WEAK_REF -> is_weak (VDict (aset k c m)) = false.
Proof. cbn [is_weak]. rewrite !amem_false. intros H Hk Hin. apply in_akeys_aset in Hin as [Hin|Hin]; auto. Qed.

Lemma weak_aset_in k c c' m : is_weak (VDict m) = false -> aget k m = Some c -> is_weak (VDict (aset k c' m)) = false.
Proof.
  cbn [is_weak]. rewrite !amem_false. intros H Hk Hin. apply H. rewrite akeys_aset_in in Hin; auto. eapply aget_some_inkeys; eauto.
Qed.

Lemma remove_weak q m d' o : remove_path (VDict m) q = Ok (d', o) -> is_weak (VDict m) = false -> is_weak d' = false.
Proof.
  destruct q as [|k [|k2 q]]; [discriminate| |]; intros H Hw.
  - cbn [remove_path] in H. destruct (aget k m); injection H as <- _; auto using weak_adel.
  - rewrite remove_cons_dict in H. destruct (aget k m) as [c|] eqn:Ek; [|injection H as <- _; auto].
    destruct (is_none c); [injection H as <- _; auto|]. apply rbind_ok in H as [cr [_ H]]. injection H as <- _. eapply weak_aset_in; eauto.
Qed.

Lemma insert_weak k q m v cn d' : insert_path (VDict m) (k :: q) v cn = Ok d' -> k <> WEAK_REF -> is_weak (VDict m) = false -> is_weak d' = false.
Proof.
  intros H Hk Hw. destruct q as [|k2 q].
  - cbn in H. injection H as <-. now apply weak_aset.
  - rewrite insert_cons_dict in H. destruct (aget k m) as [c|] eqn:Ek.
    + destruct c; try (injection H as <-; auto; fail). apply rbind_ok in H as [c' [_ H]]. injection H as <-. now apply weak_aset.
    + apply rbind_ok in H as [c' [_ H]]. injection H as <-. now apply weak_aset.
Qed.

Lemma remove_frame q : forall p d d' o v, remove_path d q = Ok (d', o) -> unrelated q p -> keeps d p v -> keeps d' p v.
Proof.
  induction q as [|k q IH]; intros p d d' o v H Hu Hk; [now apply unrelated_nil_l in Hu|].
  destruct p as [|j p]; [now apply unrelated_nil_r in Hu|]. destruct Hk as (m & c & -> & Hc & Hw & Hk).
  destruct q as [|k2 q].
  - cbn [remove_path] in H.
    assert (k <> j) by (intros ->; destruct Hu as [Hu _]; apply Hu; exists p; reflexivity).
    destruct (aget k m); injection H as <- _; [exists (adel k m), c|exists m, c]; repeat split; auto. rewrite aget_adel_other; auto.
  - rewrite remove_cons_dict in H. destruct (aget k m) as [c0|] eqn:Ek.
    + destruct (is_none c0) eqn:En; [injection H as <- _; exists m, c; auto|].
      apply rbind_ok in H as [[c1 o1] [H1 H]]. cbn [fst snd] in H. injection H as <- <-.
      destruct (String.eqb_spec k j) as [->|Hn].
      * rewrite Hc in Ek. injection Ek as <-. apply unrelated_cons in Hu. assert (Hk' := IH _ _ _ _ _ H1 Hu Hk).
        exists (aset j c1 m), c1. repeat split; auto; [apply aget_aset_same|].
        destruct p as [|j2 p]; [now apply unrelated_nil_r in Hu|]. destruct Hk as (mc & cc & -> & _). eapply remove_weak; eauto.
      * exists (aset k c1 m), c. repeat split; auto. rewrite aget_aset_other; auto.
    + injection H as <- _. exists m, c; auto.
Qed.

Lemma keeps_adel p m v : ~ In WEAK_REF p -> p <> [] -> keeps (VDict m) p v -> keeps (VDict (adel WEAK_REF m)) p v.
Proof.
  destruct p as [|j p]; [easy|]. intros Hn _ (m' & c & [= <-] & Hc & Hk). exists (adel WEAK_REF m), c. split; auto. split; auto.
  rewrite aget_adel_other; auto. intros ->. apply Hn. now left.
Qed.

Lemma insert_frame q : forall p d d' w cn v, insert_path d q w cn = Ok d' -> unrelated q p ->
  ~ In WEAK_REF q -> ~ In WEAK_REF p -> keeps d p v -> keeps d' p v.
Proof.
  induction q as [|k q IH]; intros p d d' w cn v H Hu Hq Hp Hk; [now apply unrelated_nil_l in Hu|].
  destruct p as [|j p]; [now apply unrelated_nil_r in Hu|]. destruct Hk as (m & c & -> & Hc & Hw & Hk).
  destruct q as [|k2 q].
  - cbn in H. injection H as <-.
    assert (k <> j) by (intros ->; destruct Hu as [Hu _]; apply Hu; exists p; reflexivity).
    exists (aset k w m), c. repeat split; auto. rewrite aget_aset_other; auto.
  - rewrite insert_cons_dict in H. destruct (String.eqb_spec k j) as [->|Hn].
    + rewrite Hc in H. apply unrelated_cons in Hu. destruct p as [|j2 p]; [now apply unrelated_nil_r in Hu|].
      assert (Hk0 := Hk). destruct Hk0 as (mc & cc & -> & _).
      apply rbind_ok in H as [c' [H1 H]]. injection H as <-.
      assert (Hq' : ~ In WEAK_REF (k2 :: q)) by (intros Hx; apply Hq; now right).
      assert (Hp' : ~ In WEAK_REF (j2 :: p)) by (intros Hx; apply Hp; now right).
      exists (aset j c' m), c'. repeat split; [apply aget_aset_same| |].
      * destruct cn; [eapply insert_weak; [exact H1| |now apply weak_adel]|eapply insert_weak; [exact H1| |exact Hw]];
          intros ->; apply Hq'; now left.
      * eapply IH; [exact H1|exact Hu|exact Hq'|exact Hp'|]. destruct cn; auto. apply keeps_adel; auto. discriminate.
    + destruct (aget k m) as [c0|] eqn:Ek.
      * destruct c0; try (injection H as <-; exists m, c; auto; fail).
        apply rbind_ok in H as [c' [_ H]]. injection H as <-. exists (aset k c' m), c. repeat split; auto. rewrite aget_aset_other; auto.
      * apply rbind_ok in H as [c' [_ H]]. injection H as <-. exists (aset k c' m), c. repeat split; auto. rewrite aget_aset_other; auto.
Qed.

Lemma rule_frame r : forall p d d' v, apply_rule r d = Ok d' -> Forall (fun q => unrelated q p /\ ~ In WEAK_REF q) (rule_paths r) ->
  ~ In WEAK_REF p -> keeps d p v -> keeps d' p v.
Proof.
  intros p d d' v H HF Hp Hk.
  assert (RI : forall q w cn, Forall (fun q => unrelated q p /\ ~ In WEAK_REF q) [q] ->
             forall dv, remove_path d q = Ok dv -> keeps (fst dv) p v /\ forall d'', insert_path (fst dv) q w cn = Ok d'' -> keeps d'' p v).
  { intros q w cn HF' [d1 o1] H1. inversion HF' as [|? ? [Hu Hw] _]; subst. cbn [fst].
    assert (keeps d1 p v) by (eapply remove_frame; eauto). split; auto. intros d'' H2. eapply insert_frame; eauto. }
  destruct r as [old new|q|q f rn|q old new|q df|q al|q bad]; cbn [apply_rule rule_paths] in *.
  - apply rbind_ok in H as [[d1 o1] [H1 H]]. cbn [fst snd] in H. inversion HF as [|? ? [Hu1 Hw1] HF2]; subst. inversion HF2 as [|? ? [Hu2 Hw2] _]; subst.
    assert (keeps d1 p v) by (eapply remove_frame; eauto). destruct o1; [eapply insert_frame; eauto|injection H as <-; auto].
  - apply rbind_ok in H as [dv [H1 H]]. injection H as <-. exact (proj1 (RI q VNone true HF _ H1)).
  - apply rbind_ok in H as [dv [H1 H]]. destruct (snd dv) as [x|]; [|injection H as <-; exact (proj1 (RI q VNone true HF _ H1))].
    apply rbind_ok in H as [x' [_ H]]. exact (proj2 (RI q x' true HF _ H1) _ H).
  - apply rbind_ok in H as [dv [H1 H]]. destruct (snd dv) as [x|]; [destruct (is_weak x)|]; eapply (proj2 (RI q _ _ HF _ H1)); eauto.
  - apply rbind_ok in H as [dv [H1 H]]. eapply (proj2 (RI q _ _ HF _ H1)); eauto.
  - apply rbind_ok in H as [o [_ H]]. destruct o; [|injection H as <-; auto]. apply rbind_ok in H as [b [_ H]]. destruct b; [injection H as <-; auto|discriminate].
  - apply rbind_ok in H as [dv [H1 H]]. assert (keeps (fst dv) p v) by (exact (proj1 (RI q VNone true HF _ H1))).
    destruct (snd dv); [|injection H as <-; auto]. apply rbind_ok in H as [b [_ H]]. destruct b; [discriminate|injection H as <-; auto].
Qed.

Lemma upgrades_frame cur rules p ver : forall d d' v, apply_upgrades cur rules d ver = Ok d' ->
  (forall i rs r q, In (i, rs) rules -> In r rs -> In q (rule_paths r) -> unrelated q p /\ ~ In WEAK_REF q) ->
  ~ In WEAK_REF p -> keeps d p v -> keeps d' p v.
Proof.
  intros d d' v H HF Hp Hk. unfold apply_upgrades in H. destruct (forallb _ rules); [|discriminate]. destruct (as_int ver) as [z|]; [|discriminate].
  revert d H Hk. induction (zrange z cur) as [|i l IH]; intros d H Hk; [injection H as <-; auto|].
  cbn [upgrade_steps] in H. apply rbind_ok in H as [d1 [H1 H]]. apply (IH d1 H). clear H IH.
  assert (HR : forall r q, In r (rules_at rules i) -> In q (rule_paths r) -> unrelated q p /\ ~ In WEAK_REF q).
  { intros r q Hr Hq. unfold rules_at in Hr. destruct (zget i rules) as [rs|] eqn:Ez; [|destruct Hr].
    apply (HF i rs r q); auto. clear -Ez. induction rules as [|[j x] l IH]; [discriminate|]. cbn in Ez. destruct (Z.eqb_spec i j) as [->|]; [injection Ez as ->; now left|right; auto]. }
  revert d Hk H1 HR. generalize (rules_at rules i). intros rs. induction rs as [|r rs IH]; intros d Hk H HR; [injection H as <-; auto|].
  cbn [apply_rules] in H. apply rbind_ok in H as [d2 [H1 H]]. apply (IH d2); auto.
  - eapply rule_frame; eauto. rewrite Forall_forall. intros q Hq. apply (HR r q); [now left|auto].
  - intros r' q Hr' Hq. apply (HR r' q); [now right|auto].
Qed.

(** ** C13 *)
Lemma denotes_keeps E sch allow ff p : forall ig t x v w ft,
  loadable t -> p <> [] -> ~ In WEAK_REF p -> denotes E sch allow ff ig t x v -> keeps x p w -> type_at t p = Some ft -> untouched t p ->
  exists u, obj_at v p = Some u /\ denotes E sch allow ff false ft w u.
Proof.
  induction p as [|k p IH]; [easy|]. intros ig t x v w ft Hl _ Hp Hd Hk Ht Hu.
  assert (exists d, x = VDict d) as [d ->] by (destruct Hk as (m & _ & -> & _); eauto).
  apply denotes_strip in Hd; [|discriminate]. apply loadable_strip in Hl.
  cbn [type_at untouched] in *. destruct (strip_opt t) as [| | | | | | | | | |c fs| | |]; try discriminate.
  destruct (aget k fs) as [[ft0 fd]|] eqn:Ef; [|discriminate]. destruct Hu as [Hu1 Hu2].
  destruct (field_of_object _ _ _ _ _ _ _ _ _ _ _ _ (proj1 Hl) Ef Hd) as (y & items & o & u & H1 & H2 & -> & H3 & H4).
  assert (Hy : keeps y (k :: p) w).
  { cbn [deser_versioned] in H1. destruct (c_versioned c) as [[cur rules]|]; [|injection H1 as <-; auto].
    destruct (Hu1 _ _ eq_refl) as [Hv Hr].
    assert (Hk' : keeps (VDict (adel "version" d)) (k :: p) w).
    { destruct Hk as (m & c0 & [= <-] & Hc & Hk). exists (adel "version" d), c0. split; auto. split; auto. now rewrite aget_adel_other by auto. }
    assert (Hmiss : (if allow then Ok (VDict (adel "version" d)) else Err ValueError) = Ok y -> keeps y (k :: p) w).
    { destruct allow; [intros [= <-]; auto|discriminate]. }
    destruct (aget "version" d) as [ver|]; auto.
    assert (HU : apply_upgrades cur rules (VDict (adel "version" d)) ver = Ok y -> keeps y (k :: p) w).
    { intros HU. eapply upgrades_frame; eauto. }
    destruct ver; auto. }
  destruct Hy as (m & c0 & -> & Hc & Hw & Hk'). cbn [items_of] in H2. injection H2 as <-. rewrite Hc, Hw in H4.
  cbn [obj_at]. rewrite H3. destruct p as [|k2 p].
  - cbn in Hk', Ht. subst. injection Ht as <-. exists u. auto.
  - apply (IH false ft0 c0 u w ft); auto; [eapply loadable_field; eauto|discriminate|intros Hx; apply Hp; now right].
Qed.

(** ** C14 *)
Lemma rules_run rs : forall x y, apply_rules rs x = Ok y <-> run rs x y.
Proof.
  induction rs as [|r rs IH]; intros x y; cbn [apply_rules].
  - split; [intros [= <-]; constructor|inversion 1; auto].
  - split.
    + intros H. apply rbind_ok in H as [z [H1 H2]]. econstructor; eauto. now apply IH.
    + inversion 1 as [|? ? ? z ? H1 H2]; subst. rewrite H1. cbn. now apply IH.
Qed.

Lemma zrange_step v n : (v < n)%Z -> zrange v n = v :: zrange (v + 1) n.
Proof.
  intros H. unfold zrange. replace (Z.to_nat (n - v)) with (S (Z.to_nat (n - (v + 1)))) by lia.
  cbn [seq map]. f_equal; [lia|]. rewrite <- seq_shift, map_map. apply map_ext. intros. lia.
Qed.

Lemma rules_at_iff (rules : list (Z * list rule)) v rs : NoDup (map fst rules) ->
  (rules_at rules v = rs <-> In (v, rs) rules \/ (~ In v (map fst rules) /\ rs = [])).
Proof.
  intros Hnd. unfold rules_at. induction rules as [|[j l] rules IH]; cbn [zget In map fst].
  - split; [intros <-; right; auto|intros [[]|[_ ->]]; auto].
  - inversion Hnd as [|? ? Hj Hnd']; subst. destruct (Z.eqb_spec v j) as [->|Hn].
    + split; [intros ->; auto|]. intros [[[= ->]|H]|[H _]]; auto; [exfalso; apply Hj; change j with (fst (j, rs)); now apply in_map|exfalso; auto].
    + rewrite IH by auto. split.
      * intros [H|[H1 H2]]; auto. right. split; auto. intros [H|H]; auto.
      * intros [[[= H _]|H]|[H1 H2]]; [congruence|auto|right; split; auto].
Qed.

Lemma upgraded_iff rules n v x y : NoDup (map fst rules) ->
  (upgrade_steps rules (zrange v n) x = Ok y <-> upgraded rules n v x y).
Proof.
  intros Hnd. remember (Z.to_nat (n - v)) as k eqn:Hk. revert v x Hk. induction k as [|k IH]; intros v x Hk.
  - rewrite zrange_empty by lia. cbn. split; [intros [= <-]; constructor; lia|]. inversion 1; subst; auto. lia.
  - rewrite zrange_step by lia. cbn [upgrade_steps]. split.
    + intros H. apply rbind_ok in H as [z [H1 H2]]. apply rules_run in H1. apply IH in H2; [|lia].
      econstructor; [lia| |exact H1|exact H2]. now apply rules_at_iff.
    + inversion 1 as [|? rs ? z ? Hv Hr Hrun Hup]; subst; [lia|]. apply rules_at_iff in Hr; auto. rewrite Hr. apply rules_run in Hrun. rewrite Hrun. cbn. apply IH; auto; lia.
Qed.

Lemma upgraded_trans rules n v m x z : (v <= m <= n)%Z ->
  ((exists y, upgraded rules m v x y /\ upgraded rules n m y z) <-> upgraded rules n v x z).
Proof.
  intros H. split.
  - intros (y & H1 & H2). induction H1 as [v x Hv|v rs x y z' Hv Hr Hrun Hup IH].
    + assert (v = m) as -> by lia. exact H2.
    + econstructor; [lia|exact Hr|exact Hrun|]. apply IH; auto. lia.
  - intros H1. induction H1 as [v x Hv|v rs x y z' Hv Hr Hrun Hup IH].
    + exists x. split; constructor; lia.
    + destruct (Z.eq_dec v m) as [->|Hn].
      * exists x. split; [constructor; lia|]. econstructor; eauto.
      * destruct IH as (y' & H1 & H2); [lia|]. exists y'. split; auto. econstructor; [lia|exact Hr|exact Hrun|exact H1].
Qed.

Lemma deser_at_version cls allow c fs cur rules d v : c_versioned c = Some (cur, rules) -> aget "version" d = Some (VInt v) ->
  Forall (fun kv => (fst kv < cur)%Z) rules ->
  deser_versioned cls allow (TData c fs) (VDict d) = upgrade_steps rules (zrange v cur) (VDict (adel "version" d)).
Proof.
  intros Hc Hv Hr. cbn [deser_versioned]. rewrite Hc, Hv. unfold apply_upgrades.
  assert (forallb (fun kv : Z * list rule => (fst kv <? cur)%Z) rules = true) as ->; [|reflexivity].
  apply forallb_forall. rewrite Forall_forall in Hr. intros x Hx. apply Z.ltb_lt. auto.
Qed.

(** the same class, without upgrades *)
Definition plain (c : cinfo) : cinfo := mkC (c_name c) None.

Lemma load_eq_plain E c fs x y dir allow ig : loadable (TData c fs) -> filev x = true ->
  deser_versioned (e_class E) allow (TData c fs) x = Ok y ->
  typed_load E (TData c fs) x dir None allow ig = typed_load E (TData (plain c) fs) y dir None allow ig.
Proof.
  intros Hl Hx H. unfold typed_load.
  assert (Hy : filev y = true) by (eapply filev_versioned; eauto).
  assert (Hl' : loadable (TData (plain c) fs)).
  { destruct Hl as (A & B & C & D). split; auto. split; auto. split; auto. cbn. discriminate. }
  rewrite (load_data_eq E None allow dir c fs x "" ig st_init) by (auto; exact I).
  rewrite (load_data_eq E None allow dir (plain c) fs y "" ig st_init) by (auto; exact I).
  rewrite H. reflexivity.
Qed.

Lemma load_err E c fs x e dir allow ig : loadable (TData c fs) -> filev x = true ->
  deser_versioned (e_class E) allow (TData c fs) x = Err e ->
  typed_load E (TData c fs) x dir None allow ig = Err e.
Proof.
  intros Hl Hx H. unfold typed_load.
  rewrite (load_data_eq E None allow dir c fs x "" ig st_init) by (auto; exact I).
  rewrite H. reflexivity.
Qed.

(** ** C09 - C13: the theorems about loading with overrides *)
Lemma load_with_overrides E t d dir ovs allow ig L : is_dataclass_ty t = true ->
  (exists s, materialize_type t = Ok s) -> (forall o, In o ovs -> ~ bad_bool t o) ->
  (typed_load E t (VDict d) dir (Some ovs) allow ig = Ok L <->
   exists x', written E t ovs (VDict d) x' /\ typed_load E t x' dir None allow ig = Ok L).
Proof.
  intros Ht Hm Hb. split; [now apply load_written|]. intros (x' & H1 & H2).
  rewrite typed_load_overrides by auto. apply (overrides_ok_iff E t ovs d x' Ht Hb Hm) in H1. rewrite H1. exact H2.
Qed.

Lemma written_strong E t ovs d x' p : ron_file E -> field_idents t -> markerless (VDict d) = true ->
  written E t ovs (VDict d) x' -> strong x' p.
Proof. intros HE Hf Hd H. apply markerless_strong. eapply markerless_written; eauto. Qed.

Lemma override_sets_gen E sch t d dir l1 o l2 allow ig L p text ft :
  order_ok E -> ron_file E -> loadable t -> field_idents t -> is_dataclass_ty t = true ->
  filev (VDict d) = true -> markerless (VDict d) = true ->
  (forall o', In o' (l1 ++ o :: l2)%list -> ~ bad_bool t o') ->
  names o p text -> type_at t p = Some ft ->
  (forall o' q s, In o' l2 -> names o' q s -> unrelated q p) ->
  (untouched t p \/ forall x', written E t (l1 ++ o :: l2)%list (VDict d) x' -> settled t x' p) ->
  typed_load E t (VDict d) dir (Some (l1 ++ o :: l2)%list) allow ig = Ok L ->
  (sch = true \/ l_sched L = []) ->
  exists val u, text_value E ft text val /\ obj_at (l_value L) p = Some u /\
                denotes E sch allow (is_some dir) false ft val u.
Proof.
  intros Ho HE Hl Hf Ht Hd Hm Hb Hn Hty Hl2 Hv H Hsc. apply load_written in H as (x' & H1 & H2); auto.
  destruct (written_lookup _ _ _ _ _ _ _ _ _ _ H1 Hn Hty Hl2) as (val & V1 & V2).
  assert (Hp : p <> []) by apply Hn.
  assert (Hfx := written_filev _ _ _ _ _ HE Hd H1).
  assert (HD : denotes E sch allow (is_some dir) ig t x' (l_value L)).
  { destruct (load_means _ _ _ _ _ _ _ Ho Hl Hfx H2) as [HD HD']. destruct sch; [exact HD|]. destruct Hsc as [Hsc|Hsc]; [discriminate|auto]. }
  assert (Hs := written_strong _ _ _ _ _ p HE Hf Hm H1).
  assert (exists u, obj_at (l_value L) p = Some u /\ denotes E sch allow (is_some dir) false ft val u) as (u & U1 & U2); [|eauto].
  destruct Hv as [Hv|Hv].
  - eapply denotes_keeps; eauto. now apply keeps_iff.
  - eapply denotes_at; eauto.
Qed.

Lemma override_sets E t d dir l1 o l2 allow ig L p text ft :
  order_ok E -> ron_file E -> loadable t -> field_idents t -> is_dataclass_ty t = true ->
  filev (VDict d) = true -> markerless (VDict d) = true ->
  (forall o', In o' (l1 ++ o :: l2)%list -> ~ bad_bool t o') ->
  names o p text -> type_at t p = Some ft ->
  (forall o' q s, In o' l2 -> names o' q s -> unrelated q p) ->
  (untouched t p \/ forall x', written E t (l1 ++ o :: l2)%list (VDict d) x' -> settled t x' p) ->
  typed_load E t (VDict d) dir (Some (l1 ++ o :: l2)%list) allow ig = Ok L ->
  exists val u, text_value E ft text val /\ obj_at (l_value L) p = Some u /\
                denotes E true allow (is_some dir) false ft val u.
Proof. intros. eapply override_sets_gen; eauto. Qed.

Lemma unversioned_untouched p : forall t, unversioned t p -> untouched t p.
Proof.
  induction p as [|k p IH]; intros t H; cbn [unversioned untouched] in *; auto.
  destruct (strip_opt t); auto. destruct H as [H1 H2]. split; [rewrite H1; discriminate|]. destruct (aget k fields) as [[ft fd]|]; auto.
Qed.

Lemma overrides_elsewhere E t d dir ovs allow ig L0 L q u :
  order_ok E -> ron_file E -> loadable t -> field_idents t -> is_dataclass_ty t = true ->
  filev (VDict d) = true -> markerless (VDict d) = true ->
  (forall o, In o ovs -> ~ bad_bool t o) ->
  type_at t q <> None ->
  (forall o p s, In o ovs -> names o p s -> unrelated p q) ->
  (forall x', written E t ovs (VDict d) x' -> settled t (VDict d) q /\ settled t x' q) ->
  (forall o p text s, In o ovs -> names o p text -> prefix s p -> proper_prefix s q -> s <> [] ->
     lookup (VDict d) s = None -> ~ object_default t s) ->
  typed_load E t (VDict d) dir None allow ig = Ok L0 ->
  typed_load E t (VDict d) dir (Some ovs) allow ig = Ok L ->
  obj_at (l_value L0) q = Some u -> obj_at (l_value L) q = Some u.
Proof.
  intros Ho HE Hl Hf Ht Hd Hm Hb Hq Hu Hs Hod H0 H Hqu. apply load_written in H as (x' & H1 & H2); auto.
  assert (Hfx := written_filev _ _ _ _ _ HE Hd H1).
  destruct (load_means _ _ _ _ _ _ _ Ho Hl Hfx H2) as [HD _].
  destruct (load_means _ _ _ _ _ _ _ Ho Hl Hd H0) as [HD0 _].
  assert (Hst := written_strong _ _ _ _ _ q HE Hf Hm H1).
  assert (Hst0 := markerless_strong q _ Hm). destruct (Hs x' H1) as [S1 S2].
  set (sh := fun s => exists o p text, In o ovs /\ names o p text /\ prefix s p).
  eapply (rel_denotes E true allow (is_some dir) q sh ig ig t (VDict d) x'); eauto.
  - eapply rel_written; [exact H1|apply rel_refl|]. intros o p text Hin Hn. split; [eauto|]. intros s Hp. exists o, p, text. auto.
  - intros s A1 A2 (o & p & text & A3 & A4 & A5) A6. eapply Hod; eauto.
Qed.

(** ** C11 *)
Lemma sorted_iff c fs ovs kept ks : sorted (TData c fs) ovs kept ks <->
  Forall (fun o => has_char "=" o = true) ovs /\ kept = filter (knownb c fs) ovs /\ ks = keys_unknown c fs ovs.
Proof.
  assert (W : forall o p text, names o p text -> has_char "=" o = true).
  { intros o p text (_ & _ & ->). rewrite has_char_app. cbn. rewrite orb_true_r. reflexivity. }
  assert (KU : forall o key text ovs, split_first "=" o = Some (key, text) -> keys_unknown c fs (o :: ovs) = if knownb c fs o then keys_unknown c fs ovs else key :: keys_unknown c fs ovs).
  { intros o key text l Es. unfold keys_unknown. cbn [fold_right]. rewrite Es. reflexivity. }
  split.
  - induction 1 as [|o ovs kept ks Hk _ (IH1 & IH2 & IH3)|o p text ovs kept ks Hn Hnt _ (IH1 & IH2 & IH3)]; [repeat split; auto| |].
    + assert (Hkb := Hk). apply knownb_iff in Hkb. destruct Hk as (p & text & ft & Hn & _). split; [constructor; eauto|].
      apply names_split in Hn as (key & Hs & _). cbn [filter]. rewrite Hkb, (KU _ _ _ _ Hs), Hkb. subst. auto.
    + assert (Hkb : knownb c fs o = false).
      { destruct (knownb c fs o) eqn:Hkb; auto. apply knownb_iff in Hkb as (p' & text' & ft & Hn' & Ht'). destruct (names_fun _ _ _ _ _ Hn Hn') as [-> _]. congruence. }
      split; [constructor; eauto|]. assert (Hn0 := Hn). apply names_split in Hn as (key & Hs & Hp). cbn [filter]. rewrite Hkb, (KU _ _ _ _ Hs), Hkb. subst.
      split; auto. f_equal. apply (split_on_spec ".").
  - intros (HF & -> & ->). induction HF as [|o ovs Ho HF IH]; [constructor|]. cbn [filter].
    destruct (split_first "=" o) as [[key text]|] eqn:Es; [|apply split_first_none in Es; congruence].
    rewrite (KU _ _ _ _ Es). destruct (knownb c fs o) eqn:Ek.
    + apply so_known; auto. now apply knownb_iff.
    + assert (Hn : names o (split_on "." key) text) by (apply names_split; eauto).
      replace key with (join "." (split_on "." key)) at 1 by apply (split_on_spec "."). eapply so_unknown; eauto.
      unfold knownb in Ek. rewrite Es in Ek. destruct (type_at _ _); [discriminate|auto].
Qed.

Lemma unknown_error E t d dir ovs kept ks x' allow ig : is_dataclass_ty t = true ->
  (exists s, materialize_type t = Ok s) -> (forall o, In o kept -> ~ bad_bool t o) ->
  sorted t ovs kept ks -> ks <> [] -> written E t kept (VDict d) x' ->
  typed_load E t (VDict d) dir (Some ovs) allow ig = Err (report ks).
Proof.
  intros Ht [s Hm] Hb Hs Hks Hw. rewrite typed_load_overrides by auto.
  destruct t as [| | | | | | | | | |c fs| | |]; try discriminate.
  destruct (schema_fields _ _ _ Hm) as (fields & v & -> & _). unfold deser_overrides. rewrite Hm. cbn [rbind].
  apply sorted_iff in Hs as (H1 & -> & ->). rewrite (loop_unknown E c fs fields v ovs Hm H1).
  assert (Hk : Forall (known (TData c fs)) (filter (knownb c fs) ovs)).
  { rewrite Forall_forall. intros o Ho. apply filter_In in Ho as [_ Ho]. now apply knownb_iff. }
  apply (loop_written E c fs fields v _ Hm Hb None d x' Hk) in Hw. rewrite Hw. cbn [rbind fst snd app].
  destruct (keys_unknown c fs ovs) as [|k [|k' ks]]; try reflexivity. now destruct Hks.
Qed.

Lemma unknown_never E t d dir ovs o allow ig L : is_dataclass_ty t = true ->
  In o ovs -> (unknown t o \/ has_char "=" o = false) ->
  typed_load E t (VDict d) dir (Some ovs) allow ig <> Ok L.
Proof.
  intros Ht Ho Hu H. rewrite typed_load_overrides in H by auto. apply rbind_ok in H as [x' [H _]].
  destruct t as [| | | | | | | | | |c fs| | |]; try discriminate. unfold deser_overrides in H. apply rbind_ok in H as [s [Hm H]].
  destruct (schema_fields _ _ _ Hm) as (fields & v & -> & _). apply rbind_ok in H as [[errs y] [H1 H]]. cbn [fst snd] in H.
  assert (Hw := loop_malformed _ _ _ _ _ _ _ H1).
  destruct Hu as [Hu|Hu]; [|rewrite Forall_forall in Hw; apply Hw in Ho; congruence].
  rewrite (loop_unknown E c fs fields v ovs Hm Hw) in H1. apply rbind_ok in H1 as [r [_ H1]]. injection H1 as <- _. cbn [app] in H.
  destruct (keys_unknown c fs ovs) as [|k [|k' ks]] eqn:Ek; try discriminate. apply no_unknown in Ek; auto.
  rewrite Forall_forall in Ek. apply Ek in Ho as (p & text & ft & Hn & Hty). destruct Hu as (p' & text' & Hn' & Hnt).
  destruct (names_fun _ _ _ _ _ Hn Hn') as [-> _]. congruence.
Qed.

Lemma loop_app E fields l1 : forall l2 prev errs x errs' x', override_loop E fields l1 prev errs x = Ok (errs', x') ->
  exists prev', override_loop E fields (l1 ++ l2)%list prev errs x = override_loop E fields l2 prev' errs' x'.
Proof.
  induction l1 as [|o l1 IH]; intros l2 prev errs x errs' x' H.
  - cbn in *. injection H as <- <-. eauto.
  - cbn [override_loop app] in *. destruct (split_first "=" o) as [[key text]|]; [|discriminate].
    destruct (find_field fields (split_on "." key)) as [[st m]|]; [|eauto].
    apply rbind_ok in H as [val [-> H]]. cbn [rbind]. apply rbind_ok in H as [x1 [-> H]]. cbn [rbind]. eauto.
Qed.

Lemma malformed_error E t d dir l1 kept ks x' o l2 allow ig : is_dataclass_ty t = true ->
  (exists s, materialize_type t = Ok s) -> (forall o, In o kept -> ~ bad_bool t o) ->
  sorted t l1 kept ks -> written E t kept (VDict d) x' -> has_char "=" o = false ->
  typed_load E t (VDict d) dir (Some (l1 ++ o :: l2)%list) allow ig = Err ValueError.
Proof.
  intros Ht [s Hm] Hb Hs Hw Ho. rewrite typed_load_overrides by auto.
  destruct t as [| | | | | | | | | |c fs| | |]; try discriminate.
  destruct (schema_fields _ _ _ Hm) as (fields & v & -> & _). unfold deser_overrides. rewrite Hm. cbn [rbind].
  apply sorted_iff in Hs as (H1 & -> & ->).
  assert (Hk : Forall (known (TData c fs)) (filter (knownb c fs) l1)).
  { rewrite Forall_forall. intros o' Ho'. apply filter_In in Ho' as [_ Ho']. now apply knownb_iff. }
  apply (loop_written E c fs fields v _ Hm Hb None d x' Hk) in Hw.
  assert (HL : override_loop E fields l1 None [] (VDict d) = Ok ((keys_unknown c fs l1), x')).
  { rewrite (loop_unknown E c fs fields v l1 Hm H1), Hw. reflexivity. }
  destruct (loop_app E fields l1 (o :: l2) _ _ _ _ _ HL) as [prev' ->]. cbn [override_loop].
  apply split_first_none in Ho. rewrite Ho. reflexivity.
Qed.

(** ** C12 *)
Lemma bool_override E t d dir o p text b x' allow ig : is_dataclass_ty t = true ->
  (exists s, materialize_type t = Ok s) -> names o p text -> type_at t p = Some TBool -> bool_text text b ->
  write (VDict d) p (VBool b) = Some x' ->
  typed_load E t (VDict d) dir (Some [o]) allow ig = typed_load E t x' dir None allow ig.
Proof.
  intros Ht Hm Hn Hty Hb Hw. rewrite typed_load_overrides by auto.
  assert (HW : written E t [o] (VDict d) x').
  { econstructor; eauto; [|constructor]. cbn. eauto. }
  apply overrides_ok_iff in HW; auto; [now rewrite HW|].
  intros o' [<-|[]] (p' & text' & Hn' & _ & Hbad). destruct (names_fun _ _ _ _ _ Hn Hn') as [_ ->]. eapply Hbad; eauto.
Qed.

Lemma bool_rejected E t d dir l1 ks o l2 allow ig : is_dataclass_ty t = true ->
  (exists s, materialize_type t = Ok s) -> sorted t l1 [] ks -> bad_bool t o ->
  typed_load E t (VDict d) dir (Some (l1 ++ o :: l2)%list) allow ig = Err UnboundLocalError.
Proof.
  intros Ht [s Hm] Hs (p & text & Hn & Hty & Hbad). rewrite typed_load_overrides by auto.
  destruct t as [| | | | | | | | | |c fs| | |]; try discriminate.
  destruct (schema_fields _ _ _ Hm) as (fields & v & -> & _). unfold deser_overrides. rewrite Hm. cbn [rbind].
  apply names_split in Hn as (key & Hs' & <-).
  assert (HT := find_field_type (split_on "." key) c fs fields v (split_on_nonempty _ _) Hm).
  rewrite Hty in HT. destruct HT as (st & m & HT & Hst). cbn in Hst. injection Hst as <-.
  assert (Hbt : bool_of_text text = None).
  { destruct (bool_of_text text) as [b|] eqn:Eb; auto. exfalso. apply (Hbad b). now apply bool_of_text_iff. }
  assert (G : forall errs, override_loop E fields (l1 ++ o :: l2)%list None errs (VDict d) = Err UnboundLocalError); [|now rewrite G].
  clear -Hs Hm Hs' HT Hbt. remember [] as kept eqn:Hk. induction Hs as [|o' ovs kept ks Hkn _ IH|o' p text' ovs kept ks Hn Hnt _ IH]; [|discriminate|].
  - intros errs. cbn [override_loop app]. rewrite Hs', HT. cbn [override_value]. rewrite Hbt. reflexivity.
  - intros errs. cbn [override_loop app]. apply names_split in Hn as (key' & Hs1 & <-). rewrite Hs1.
    assert (HT' := find_field_type (split_on "." key') c fs fields v (split_on_nonempty _ _) Hm). rewrite Hnt in HT'. rewrite HT'. auto.
Qed.

(** ** C16 *)
Lemma missing_version E c fs d dir ig : loadable (TData c fs) -> filev (VDict d) = true ->
  c_versioned c <> None -> aget "version" d = None \/ aget "version" d = Some VNone ->
  typed_load E (TData c fs) (VDict d) dir None false ig = Err ValueError.
Proof.
  intros Hl Hx Hc Hv. apply load_err; auto. cbn [deser_versioned]. destruct (c_versioned c) as [[cur rules]|]; [|easy].
  now destruct Hv as [-> | ->].
Qed.

(** ** C63 *)
Lemma malformed_version E c fs n rules d ver dir allow ig : loadable (TData c fs) -> filev (VDict d) = true ->
  c_versioned c = Some (n, rules) -> Forall (fun kv => (fst kv < n)%Z) rules ->
  aget "version" d = Some ver -> ver <> VNone -> (forall z, ver <> VInt z) -> (forall b, ver <> VBool b) ->
  typed_load E (TData c fs) (VDict d) dir None allow ig = Err TypeError.
Proof.
  intros Hl Hx Hc Hr Hv N1 N2 N3. apply load_err; auto. cbn [deser_versioned]. rewrite Hc, Hv.
  assert (Ha : apply_upgrades n rules (VDict (adel "version" d)) ver = Err TypeError).
  { unfold apply_upgrades. replace (forallb (fun kv => Z.ltb (fst kv) n) rules) with true.
    - destruct ver; try reflexivity; [now elim (N3 b)|now elim (N2 z)].
    - symmetry. apply forallb_forall. rewrite Forall_forall in Hr. intros kv I. apply Z.ltb_lt. now apply Hr. }
  destruct ver; try exact Ha. now elim N1.
Qed.

Lemma misplaced_rules E c fs n rules d ver dir allow ig i rs : loadable (TData c fs) -> filev (VDict d) = true ->
  c_versioned c = Some (n, rules) -> In (i, rs) rules -> (n <= i)%Z ->
  aget "version" d = Some ver -> ver <> VNone ->
  typed_load E (TData c fs) (VDict d) dir None allow ig = Err AssertionError.
Proof.
  intros Hl Hx Hc Hr Hi Hv N1. apply load_err; auto. cbn [deser_versioned]. rewrite Hc, Hv.
  assert (Ha : apply_upgrades n rules (VDict (adel "version" d)) ver = Err AssertionError).
  { unfold apply_upgrades. destruct (forallb _ _) eqn:F; [|reflexivity]. rewrite forallb_forall in F. apply F in Hr. cbn [fst] in Hr.
    apply Z.ltb_lt in Hr. lia. }
  destruct ver; try exact Ha. now elim N1.
Qed.

Lemma nested_version E t x dir ig L p m c fs0 : order_ok E -> loadable t -> filev x = true -> markerless x = true ->
  typed_load E t x dir None false ig = Ok L -> lookup x p = Some (VDict m) -> p <> [] -> ~ In WEAK_REF p -> untouched t p ->
  forall ft, type_at t p = Some ft -> strip_opt ft = TData c fs0 -> c_versioned c <> None ->
  aget "version" m <> None /\ aget "version" m <> Some VNone.
Proof.
  intros Ho Hl Hx Hm H Hk Hp Hw Hu ft Hft Hs Hc. destruct (load_means _ _ _ _ _ _ _ Ho Hl Hx H) as [HD _].
  destruct (denotes_keeps E true false (is_some dir) p ig t x (l_value L) (VDict m) ft) as (u & _ & U); auto.
  { apply keeps_iff. split; auto. now apply markerless_strong. }
  apply denotes_strip in U; [|discriminate]. rewrite Hs in U. destruct U as (y & items & o & U & _).
  cbn [deser_versioned] in U. destruct (c_versioned c) as [[cur rules]|]; [|easy].
  destruct (aget "version" m) as [[]|]; try discriminate; split; discriminate.
Qed.

(** a computable test for [field_idents] *)
Fixpoint identsb (t : ty) : bool :=
  match t with
  | TOpt i => identsb i
  | TData _ fs => forallb (fun f : string * (ty * dflt) => let '(n, (ft, _)) := f in negb (String.eqb n WEAK_REF) && identsb ft) fs
  | _ => true
  end.

Lemma identsb_ok t : identsb t = true -> field_idents t.
Proof.
  intros H p ft. revert t H. induction p as [|k p IH]; intros t H Ht; [easy|]. cbn [type_at] in Ht.
  assert (Hs : identsb (strip_opt t) = true) by (clear -H; induction t; auto).
  destruct (strip_opt t) as [| | | | | | | | | |c fs| | |]; try discriminate.
  destruct (aget k fs) as [[ft0 fd]|] eqn:Ef; [|discriminate]. apply aget_some_in in Ef.
  cbn [identsb] in Hs. rewrite forallb_forall in Hs. specialize (Hs _ Ef). cbn in Hs. apply andb_true_iff in Hs as [H1 H2].
  intros [->|Hin]; [|eapply IH; eauto]. now rewrite String.eqb_refl in H1.
Qed.

Lemma load_upgrades E c fs n rules d v y dir allow ig :
  loadable (TData c fs) -> filev (VDict d) = true ->
  c_versioned c = Some (n, rules) -> NoDup (map fst rules) -> Forall (fun kv => (fst kv < n)%Z) rules ->
  aget "version" d = Some (VInt v) ->
  upgraded rules n v (VDict (adel "version" d)) y ->
  typed_load E (TData c fs) (VDict d) dir None allow ig =
  typed_load E (TData (mkC (c_name c) None) fs) y dir None allow ig.
Proof.
  intros Hl Hx Hc Hnd Hr Hv Hu. apply load_eq_plain; auto. rewrite (deser_at_version _ _ _ _ n rules d v) by auto. now apply upgraded_iff.
Qed.

Lemma load_needs_upgrade E c fs n rules d v dir allow ig L :
  loadable (TData c fs) -> filev (VDict d) = true ->
  c_versioned c = Some (n, rules) -> NoDup (map fst rules) -> Forall (fun kv => (fst kv < n)%Z) rules ->
  aget "version" d = Some (VInt v) ->
  typed_load E (TData c fs) (VDict d) dir None allow ig = Ok L ->
  exists y, upgraded rules n v (VDict (adel "version" d)) y.
Proof.
  intros Hl Hx Hc Hnd Hr Hv H.
  destruct (deser_versioned (e_class E) allow (TData c fs) (VDict d)) as [y|e] eqn:Ed.
  - exists y. rewrite (deser_at_version _ _ _ _ n rules d v) in Ed by auto. now apply upgraded_iff.
  - rewrite (load_err E c fs (VDict d) e dir allow ig Hl Hx Ed) in H. discriminate.
Qed.

Lemma load_current E c fs n rules d v dir allow ig :
  loadable (TData c fs) -> filev (VDict d) = true ->
  c_versioned c = Some (n, rules) -> Forall (fun kv => (fst kv < n)%Z) rules ->
  aget "version" d = Some (VInt v) -> (n <= v)%Z ->
  typed_load E (TData c fs) (VDict d) dir None allow ig =
  typed_load E (TData (mkC (c_name c) None) fs) (VDict (adel "version" d)) dir None allow ig.
Proof.
  intros Hl Hx Hc Hr Hv Hn. apply load_eq_plain; auto. rewrite (deser_at_version _ _ _ _ n rules d v) by auto. now rewrite zrange_empty.
Qed.

(** ** C51 *)
Lemma lookup_accepted E t d dir o p text allow ig :
  is_dataclass_ty t = true -> (exists s, materialize_type t = Ok s) -> names o p text ->
  match type_at t p with
  | None => typed_load E t (VDict d) dir (Some [o]) allow ig = Err (FieldNotFound (join "." p))
  | Some ft => forall val x', text_value E ft text val -> write (VDict d) p val = Some x' ->
                 typed_load E t (VDict d) dir (Some [o]) allow ig = typed_load E t x' dir None allow ig
  end.
Proof.
  intros Ht Hm Hn. destruct (type_at t p) as [ft|] eqn:Hty.
  - intros val x' Hv Hw. rewrite typed_load_overrides by auto.
    assert (HW : written E t [o] (VDict d) x') by (econstructor; eauto; constructor).
    apply overrides_ok_iff in HW; auto; [now rewrite HW|].
    intros o' [<-|[]] (p' & text' & Hn' & Hty' & Hbad). destruct (names_fun _ _ _ _ _ Hn Hn') as [-> ->].
    rewrite Hty in Hty'. injection Hty' as ->. cbn in Hv. destruct Hv as (b & Hb & _). eapply Hbad; eauto.
  - change (FieldNotFound (join "." p)) with (report [join "." p]).
    apply (unknown_error E t d dir [o] [] [join "." p] (VDict d)); auto; [|discriminate|constructor].
    eapply so_unknown; eauto. constructor.
Qed.
