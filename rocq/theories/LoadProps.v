(** LoadProps.v -- consequences of LoadSound.v for C05, C06 and C07. *)
From Coq Require Import Permutation.
From Verif Require Import Base AFacts Value Schema Rewrite Sched Types Asdict FromDict
  Induct SpecTree SpecTypes RewriteFacts FromDictFacts RoundTrip ElideFacts ElideLoad
  DefaultFacts SpecLoad LoadFacts LoadSound OrderFacts OverrideSim SetOrder.

(** ** typed_load and the specification *)
Lemma load_means E t x dir allow ig L :
  order_ok E -> loadable t -> filev x = true ->
  typed_load E t x dir None allow ig = Ok L ->
  denotes E true allow (is_some dir) ig t x (l_value L) /\
  (l_sched L = [] -> denotes E false allow (is_some dir) ig t x (l_value L)).
Proof.
  intros Ho Hl Hx H. unfold typed_load in H. apply rbind_ok in H as [[v st] [H1 H]]. injection H as <-. cbn [fst snd l_value l_sched].
  destruct (load_sound E None allow dir Ho t Hl x "" ig st_init v st Hx I H1) as [_ G]. split.
  - apply G. left; reflexivity.
  - intros Hs. apply G. right; exact Hs.
Qed.

Lemma load_exists E t x dir allow ig v :
  order_ok E -> loadable t -> filev x = true ->
  denotes E false allow (is_some dir) ig t x v ->
  exists L, typed_load E t x dir None allow ig = Ok L /\ l_value L = v /\ l_sched L = [].
Proof.
  intros Ho Hl Hx H.
  destruct (load_complete E None allow dir Ho [] t Hl x "" ig st_init v Hx (conj I eq_refl) H) as (st' & H1 & H2).
  exists (mkL v (st_sched st') (st_lazy st')). unfold typed_load. rewrite H1. cbn [rbind fst snd l_value l_sched].
  split; [reflexivity|]. split; [reflexivity|]. apply H2.
Qed.

Lemma loads_iff E t x ig v :
  order_ok E -> loadable t -> filev x = true ->
  (denotes E false false false ig t x v -> hs_loads E t x None ig = Ok v) /\
  (hs_loads E t x None ig = Ok v -> denotes E true false false ig t x v).
Proof.
  intros Ho Hl Hx. unfold hs_loads. split.
  - intros H. destruct (load_exists E t x None false ig v Ho Hl Hx H) as (L & -> & <- & _). reflexivity.
  - intros H. apply rbind_ok in H as [L [H1 H]]. injection H as <-. apply (load_means E t x None false ig L); auto.
Qed.

Lemma load_reordered E o t x x' dir allow ig L :
  order_ok E -> (forall l, Permutation (o l) l) -> loadable t -> orderless t -> filev x = true -> dperm x x' ->
  typed_load E t x dir None allow ig = Ok L -> l_sched L = [] ->
  exists L', typed_load (with_order E o) t x' dir None allow ig = Ok L' /\
             dperm (l_value L) (l_value L') /\ l_sched L' = [].
Proof.
  intros Ho Hp Hl Hor Hx Hd H Hs. destruct (load_means _ _ _ _ _ _ _ Ho Hl Hx H) as [_ G].
  destruct (denotes_dperm E false allow (is_some dir) t Hl Hor ig x x' _ Hx Hd (G Hs)) as (v' & V1 & V2).
  destruct (load_exists E t x' dir allow ig v' Ho Hl (dperm_filev x x' Hx Hd) V1) as (L' & L1 & L2 & L3).
  exists L'. split; [now apply load_set_order|]. subst v'. auto.
Qed.

(** ** given fields and defaults *)
Lemma load_fields E c fs x items dir allow ig L :
  order_ok E -> loadable (TData c fs) -> filev x = true -> c_versioned c = None -> items_of x = Some items ->
  typed_load E (TData c fs) x dir None allow ig = Ok L ->
  exists o, l_value L = VObj (c_name c) o /\ map fst o = field_names fs /\
    forall n ft fd, aget n fs = Some (ft, fd) -> exists v, aget n o = Some v /\
      match aget n items with
      | Some w => is_weak w = false -> denotes E true allow (is_some dir) false ft w v
      | None => match fd with
                | DValue d | DFactory d => v = d
                | DMissing => default_of ft v
                end
      end.
Proof.
  intros Ho Hl Hx Hc Hi H. destruct (load_means _ _ _ _ _ _ _ Ho Hl Hx H) as [G _].
  destruct G as (y & it & o & G1 & G2 & G3 & _ & G4). cbn [deser_versioned] in G1. rewrite Hc in G1. injection G1 as <-.
  rewrite Hi in G2. injection G2 as <-. exists o. split; auto.
  assert (Hk : map fst o = field_names fs).
  { clear -G4. revert o G4. induction fs as [|[n [ft fd]] fs IH]; intros [|[k v] o] H; try easy.
    destruct H as [[H1 _] H]. simpl in *. f_equal; auto. }
  split; auto. intros n ft fd Hn. apply aget_some_in in Hn. destruct (all2_in_l _ _ _ _ G4 Hn) as ([k v] & Hin & Hk' & Hv).
  cbn [fst snd] in *. subst k. exists v. split.
  - apply in_nodup_aget; auto. unfold akeys. rewrite Hk. apply Hl.
  - destruct (aget n items) as [w|]; [|destruct fd; auto; apply Hv]. intros Hw. rewrite Hw in Hv. exact Hv.
Qed.

(** ** unknown fields *)
Lemma tuple_den_nth D ts : forall l m j a w, tuple_den D ts l m -> nth_error ts j = Some a -> nth_error l j = Some w ->
  exists v, D a w v.
Proof.
  induction ts as [|t ts IH]; intros [|x l] [|v m] j a w H H1 H2; try easy; destruct j; try discriminate; simpl in *.
  - injection H1 as <-. injection H2 as <-. exists v. apply H.
  - destruct H as [_ H]. eapply IH; eauto.
Qed.

Lemma union_den_find (D : ty -> Prop) nm ts a :
  union_den D nm ts -> List.find (fun a => py_eq nm (VStr (ty_name a))) ts = Some a -> D a.
Proof.
  induction ts as [|t ts IH]; intros H1 H2; [discriminate|]. simpl in *.
  destruct (py_eq nm (VStr (ty_name t))); auto. injection H2 as <-. exact H1.
Qed.

Lemma denotes_known E sch allow ff t x v fs d k w :
  section_in E allow t x fs d -> denotes E sch allow ff false t x v -> In (k, w) d ->
  k = "!__name__" \/ is_weak w = true \/ In k (field_names fs).
Proof.
  intros Hs. revert v. induction Hs; intros v Hd Hin.
  - destruct Hd as (y' & it & o & G1 & G2 & _ & G3 & _). rewrite H in G1. injection G1 as <-. rewrite H0 in G2. injection G2 as <-.
    destruct (G3 k w Hin) as [?|[?|[?|?]]]; auto. discriminate.
  - destruct Hd as (y' & it & o & G1 & G2 & _ & _ & G4). rewrite H in G1. injection G1 as <-. rewrite H0 in G2. injection G2 as <-.
    apply aget_some_in in H1. destruct (all2_in_l _ _ _ _ G4 H1) as ([k' v'] & _ & _ & Hv). rewrite H2, H3 in Hv. eauto.
  - destruct Hd as [[-> _]|[_ Hd]]; [congruence|eauto].
  - destruct Hd as (l' & m & Hl' & -> & HF). injection Hl' as <-. clear -HF H Hin IHHs.
    induction HF as [|a b l m H1 H2 IH]; [easy|]. destruct H as [->|H]; eauto.
  - destruct Hd as (l' & m & Hl' & -> & HF). rewrite H in Hl'. injection Hl' as <-.
    destruct (tuple_den_nth _ _ _ _ _ _ _ HF H0 H1) as [u Hu]. eauto.
  - destruct Hd as (l' & m & Hl' & -> & HF). injection Hl' as <-. clear -HF H Hin IHHs.
    induction HF as [|a b l m [H1 H1'] H2 IH]; [easy|]. destruct H as [->|H]; eauto.
  - apply denotes_union in Hd. change (coerce_scalar E (TUnion ts) (VDict d)) with (@None (res pyval)) in Hd. cbv iota in Hd.
    destruct Hd as (d0 & nm0 & Hd0 & Hnm & HU). injection Hd0 as <-. rewrite H in Hnm. injection Hnm as <-.
    apply (union_den_find _ _ _ _ HU) in H0. eauto.
Qed.

Lemma unknown_rejected E t x dir allow fs d k w :
  order_ok E -> loadable t -> filev x = true -> section_in E allow t x fs d -> In (k, w) d ->
  ~ In k (field_names fs) -> k <> "!__name__" -> is_weak w = false ->
  exists e, typed_load E t x dir None allow false = Err e.
Proof.
  intros Ho Hl Hx Hs Hin H1 H2 H3. destruct (typed_load E t x dir None allow false) as [L|e] eqn:EL; [|eauto].
  exfalso. destruct (load_means _ _ _ _ _ _ _ Ho Hl Hx EL) as [G _].
  destruct (denotes_known _ _ _ _ _ _ _ _ _ _ _ Hs G Hin) as [?|[?|?]]; congruence.
Qed.

Lemma fields_app f cname path ig l1 l2 : forall kw weak st,
  fields_loop f cname path ig (l1 ++ l2)%list kw weak st =
  (let* r := fields_loop f cname path ig l1 kw weak st in
   let '(kw', weak', st') := r in fields_loop f cname path ig l2 kw' weak' st').
Proof.
  induction l1 as [|[k v] l1 IH]; intros kw weak st; [reflexivity|]. cbn [app fields_loop].
  destruct (String.eqb k "!__name__"); auto. destruct (is_weak v); auto. destruct (f k).
  - destruct (r v (path_join path k) st); cbn [rbind]; auto.
  - destruct ig; auto.
Qed.

Lemma smapi_err {A B} (f : nat -> A -> dstate -> res (B * dstate)) l1 l2 y y' e : forall i s r,
  smapi f i (l1 ++ y :: l2)%list s = Ok r ->
  (forall i s r, f i y s = Ok r -> f i y' s = Err e) ->
  smapi f i (l1 ++ y' :: l2)%list s = Err e.
Proof.
  induction l1 as [|x l1 IH]; intros i s r H He; cbn [app] in *; rewrite !smapi_cons in *.
  - apply rbind_ok in H as [q [H _]]. rewrite (He _ _ _ H). reflexivity.
  - apply rbind_ok in H as [q [-> H]]. cbn [rbind]. apply rbind_ok in H as [q2 [H _]].
    rewrite (IH _ _ _ H He). reflexivity.
Qed.

Lemma tuple_err f path y y' e a l1 l2 : forall ts i s r,
  tuple_loop f path ts i (l1 ++ y :: l2)%list s = Ok r -> nth_error ts (length l1) = Some a ->
  (forall p s r, f a y p s = Ok r -> f a y' p s = Err e) ->
  tuple_loop f path ts i (l1 ++ y' :: l2)%list s = Err e.
Proof.
  induction l1 as [|x l1 IH]; intros [|t ts] i s r H Hn He; try discriminate; cbn [app tuple_loop] in *.
  - simpl in Hn. injection Hn as <-. apply rbind_ok in H as [q [H _]]. rewrite (He _ _ _ H). reflexivity.
  - apply rbind_ok in H as [q [-> H]]. cbn [rbind]. apply rbind_ok in H as [q2 [H _]].
    rewrite (IH _ _ _ _ H Hn He). reflexivity.
Qed.

Lemma union_scan_find f nm ts a : List.find (fun a => py_eq nm (VStr (ty_name a))) ts = Some a ->
  union_scan f nm ts = Some (f a).
Proof.
  induction ts as [|t ts IH]; intros H; [discriminate|]. simpl in *. destruct (py_eq nm (VStr (ty_name t))); auto.
  injection H as <-. reflexivity.
Qed.

Lemma aget_app {A} k (l1 l2 : list (string * A)) : aget k (l1 ++ l2)%list = match aget k l1 with Some x => Some x | None => aget k l2 end.
Proof. induction l1 as [|[j x] l1 IH]; simpl; auto. destruct (String.eqb k j); auto. Qed.

Lemma plus_key_shape k w t x x' cn : plus_key k w t x x' cn -> loadable t ->
  is_none x' = is_none x /\ is_weak x' = is_weak x.
Proof.
  intros H. induction H; intros Hl; try (simpl; auto; fail).
  - split; auto. cbn [is_weak]. unfold amem. rewrite !aget_app. destruct (aget WEAK_REF l1); auto. cbn [aget].
    rewrite eqb_neq_str; auto.
  - split; auto. cbn [is_weak]. unfold amem. rewrite !aget_app. destruct (aget WEAK_REF l1); auto. cbn [aget].
    destruct (String.eqb WEAK_REF n); auto.
  - split; auto. cbn [is_weak]. unfold amem. rewrite !aget_app. destruct (aget WEAK_REF l1); auto. cbn [aget].
    destruct (String.eqb WEAK_REF j); auto.
  - simpl in Hl. apply all_Forall in Hl. rewrite Forall_forall in Hl. apply IHplus_key. apply Hl.
    apply find_some in H1. tauto.
Qed.

Section Extra.
  Variable E : env.
  Variable allow : bool.
  Variable dir : option string.
  Let dss := typed_load_desers None allow dir.

  Lemma from_dict_data c fs d path ig st : c_versioned c = None ->
    from_dict E dss (TData c fs) (VDict d) path ig st =
    data_body E (fun ft x p s => from_dict E dss ft x p false s) c fs path ig d st.
  Proof.
    intros Hc. rewrite from_dict_main by discriminate. unfold from_main, dss.
    rewrite (deser_plain E None allow dir (TData c fs)) by reflexivity. cbn [deser_versioned]. rewrite Hc. reflexivity.
  Qed.

  Lemma from_dict_dss t x path ig st : is_TSer t = false -> schedule_text t x = false -> is_dataclass_ty t = false -> (forall i, t <> TOpt i) ->
    isinstance x t = false -> coerce_scalar E t x = None ->
    from_dict E dss t x path ig st = from_struct E dss t x path ig st.
  Proof.
    intros H1 H2 H3 H4 H5 H6. unfold dss. rewrite (from_plain E None allow dir) by (auto; exact I). now rewrite H5, H6.
  Qed.

  Lemma extra_rejected k w t x x' cn : plus_key k w t x x' cn -> loadable t -> forall path st r,
    from_dict E dss t x path false st = Ok r ->
    from_dict E dss t x' path false st = Err (UnknownField cn k).
  Proof.
    intros H. induction H; intros Hl path st r Hr.
    - rewrite from_dict_data in * by auto. unfold data_body in *. rewrite fields_app in *.
      apply rbind_ok in Hr as [[[kw weak] st1] [Hr _]]. apply rbind_ok in Hr as [[[kw1 weak1] st2] [-> _]]. cbn [rbind].
      cbn [fields_loop]. rewrite (eqb_neq_str k) by auto. rewrite H3. rewrite field_with_none by auto. reflexivity.
    - rewrite from_dict_data in * by auto. unfold data_body in *. rewrite fields_app in *.
      destruct Hl as (Hnd & Hnn & _ & Hl). apply all_Forall in Hl. rewrite Forall_forall in Hl.
      assert (Hf := H0). apply aget_some_in in Hf. specialize (Hl _ Hf). cbn in Hl.
      apply rbind_ok in Hr as [[[kw weak] st1] [Hr _]]. apply rbind_ok in Hr as [[[kw1 weak1] st2] [-> Hr]]. cbn [rbind].
      cbn [fields_loop] in *. assert (Hn : String.eqb n "!__name__" = false).
      { apply String.eqb_neq. intros ->. apply Hnn. apply aget_some_inkeys in H0. exact H0. }
      destruct (plus_key_shape _ _ _ _ _ _ H2 Hl) as [_ Hw]. rewrite Hn, H1 in Hr. rewrite Hn, Hw, H1.
      rewrite field_with_aget in *. rewrite H0 in *. cbn [option_map fst snd] in *.
      apply rbind_ok in Hr as [q [Hr _]]. rewrite (IHplus_key Hl _ _ _ Hr). reflexivity.
    - rewrite (from_dict_eq E dss (TOpt i)) in *. cbn iota in *. destruct (plus_key_shape _ _ _ _ _ _ H0 Hl) as [Hn _].
      rewrite Hn. assert (is_none y = false) as E1 by (destruct y; try congruence; reflexivity). rewrite E1 in *. eauto.
    - rewrite from_dict_dss in * by (auto; discriminate). cbn [from_struct] in *.
      apply rbind_ok in Hr as [q [Hr _]]. erewrite smapi_err; [reflexivity|exact Hr|]. cbv beta. intros i0 s r0 Hr0.
      eapply IHplus_key; eauto.
    - simpl in Hl. apply all_Forall in Hl. rewrite Forall_forall in Hl. assert (Ha := nth_error_In _ _ H).
      rewrite from_dict_dss in * by (auto; discriminate). cbn [from_struct tuple_items] in *.
      apply rbind_ok in Hr as [q [Hr _]]. erewrite tuple_err; [reflexivity|exact Hr|exact H|]. cbv beta. intros p s r0 Hr0.
      eapply IHplus_key; eauto.
    - rewrite from_dict_dss in * by (auto; discriminate). cbn [from_struct] in *. rewrite !(smap_as_smapi _ _ 0) in *.
      apply rbind_ok in Hr as [q [Hr _]]. erewrite smapi_err; [reflexivity|exact Hr|]. cbv beta. cbn [fst snd]. intros i0 s r0 Hr0.
      apply rbind_ok in Hr0 as [q0 [Hr0 _]]. erewrite IHplus_key; eauto.
    - simpl in Hl. apply all_Forall in Hl. rewrite Forall_forall in Hl. assert (Ha := find_some _ _ H1). destruct Ha as [Ha _].
      rewrite from_dict_dss in * by (auto; discriminate). cbn [from_struct] in *. cbv zeta in *.
      rewrite H, (union_scan_find _ _ _ _ H1) in Hr. rewrite H0, (union_scan_find _ _ _ _ H1). eauto.
  Qed.
End Extra.

Lemma load_extra E allow dir k w t x x' cn L :
  plus_key k w t x x' cn -> loadable t ->
  typed_load E t x dir None allow false = Ok L ->
  typed_load E t x' dir None allow false = Err (UnknownField cn k).
Proof.
  intros H Hl HL. unfold typed_load in *. apply rbind_ok in HL as [r [HL _]].
  erewrite extra_rejected; eauto. reflexivity.
Qed.

(** ** ignore_extra_fields *)
Definition weq (fs : list (string * (ty * dflt))) (w w' : list (string * pyval)) : Prop :=
  forall n, In n (field_names fs) -> aget n w' = aget n w.

Definition fres_eq fs (r r' : res (list (string * pyval) * list (string * pyval) * dstate)) : Prop :=
  match r, r' with
  | Ok (kw, weak, st), Ok (kw', weak', st') => kw' = kw /\ weq fs weak weak' /\ st' = st
  | Err e, Err e' => e' = e
  | _, _ => False
  end.

Lemma fields_known (fs : list (string * (ty * dflt))) f cname path items :
  (forall k, f k = None <-> ~ In k (field_names fs)) -> forall kw weak weak' st,
  weq fs weak weak' ->
  fres_eq fs (fields_loop f cname path true items kw weak st)
             (fields_loop f cname path false (filter (known_entry fs) items) kw weak' st).
Proof.
  intros Hf. induction items as [|[k v] items IH]; intros kw weak weak' st Hw.
  - cbn. auto.
  - cbn [filter]. unfold known_entry at 1. cbn [fst].
    destruct (String.eqb k "!__name__") eqn:Ek; cbn [orb].
    + cbn [fields_loop]. rewrite Ek. apply IH; auto.
    + destruct (existsb (String.eqb k) (field_names fs)) eqn:Ex.
      * assert (Hin : In k (field_names fs)).
        { apply existsb_exists in Ex as [j [Hj Hj']]. apply String.eqb_eq in Hj'. now subst. }
        cbn [fields_loop]. rewrite Ek. destruct (is_weak v).
        -- apply IH. intros n Hn. rewrite !aget_aset. destruct (String.eqb n k); auto.
        -- destruct (f k) eqn:Efk; [|exfalso; apply Hf in Efk; tauto].
           destruct (r v (path_join path k) st) as [q|e]; cbn [rbind]; [apply IH; auto|reflexivity].
      * assert (Hin : ~ In k (field_names fs)).
        { intros Hin. assert (existsb (String.eqb k) (field_names fs) = true); [|congruence].
          apply existsb_exists. exists k. split; auto. apply String.eqb_refl. }
        cbn [fields_loop]. rewrite Ek. destruct (is_weak v).
        -- apply IH. intros n Hn. rewrite aget_aset. destruct (String.eqb_spec n k); auto. subst; tauto.
        -- destruct (f k) eqn:Efk; [|apply IH; auto]. exfalso. assert (f k = None) by now apply Hf. congruence.
Qed.

Lemma tcd_weak fs path weak weak' rem : weq fs weak weak' -> incl rem (field_names fs) -> forall kw ms,
  try_create_defaults fs rem path weak' kw ms = try_create_defaults fs rem path weak kw ms.
Proof.
  intros Hw. induction rem as [|n rem IH]; intros Hi kw ms; [reflexivity|].
  assert (Hn : aget n weak' = aget n weak) by (apply Hw, Hi; left; auto).
  assert (IH' := IH (fun m Hm => Hi m (or_intror Hm))).
  cbn [try_create_defaults]. unfold weak_get, py_in, py_getitem, amem. rewrite Hn.
  destruct (field_with (fun t d => (t, d)) n fs) as [[ft [|x|x]]|]; auto.
  - destruct ft; auto. destruct (aget n weak); cbn [rbind]; auto.
    + destruct (default_obj _ _ _); cbn [rbind]; auto.
    + destruct (default_obj _ _ _); cbn [rbind]; auto.
  - destruct (aget n weak) as [w|]; auto. destruct w; cbn [rbind]; auto; destruct (_ : bool); auto.
  - destruct (aget n weak) as [w|]; auto. destruct w; cbn [rbind]; auto; destruct (_ : bool); auto.
Qed.

Lemma filev_filter f d : filev (VDict d) = true -> filev (VDict (filter f d)) = true.
Proof.
  rewrite !filev_dict. intros [H1 H2]. split; [now apply NoDup_filter_keys|].
  intros k v H. apply filter_In in H as [H _]. eauto.
Qed.

Lemma items_filev y items : filev y = true -> items_of y = Some items -> filev (VDict items) = true.
Proof. intros Hy Hi. destruct y; try discriminate; try (injection Hi as <-; exact Hy). destruct l; [|discriminate]. injection Hi as <-. reflexivity. Qed.

Lemma load_ignore E c fs x y items dir allow :
  order_ok E -> loadable (TData c fs) -> filev x = true ->
  deser_versioned (e_class E) allow (TData c fs) x = Ok y -> items_of y = Some items ->
  typed_load E (TData c fs) x dir None allow true =
  typed_load E (TData (mkC (c_name c) None) fs) (VDict (filter (known_entry fs) items)) dir None allow false.
Proof.
  intros Ho Hl Hx Hv Hi.
  assert (Hy : filev y = true) by (eapply filev_versioned; eauto).
  assert (Hit := items_filev _ _ Hy Hi).
  assert (Hl' : loadable (TData (mkC (c_name c) None) fs)).
  { destruct Hl as (L1 & L2 & _ & L4). cbn. split; [auto|]. split; [auto|]. split; [discriminate|auto]. }
  unfold typed_load. rewrite (load_data_eq E None allow dir) by (auto; exact I).
  rewrite (load_data_eq E None allow dir) by (auto using filev_filter; exact I).
  rewrite Hv. cbn [deser_versioned c_versioned rbind items_of]. rewrite Hi. unfold data_body. cbn [c_name].
  set (f := fun k => field_with _ k fs).
  assert (Hf : forall k, f k = None <-> ~ In k (field_names fs)).
  { intros k. unfold f. rewrite field_with_aget. unfold field_names. split.
    - intros H1 H2. apply inkeys_aget in H2 as [a Ha]. rewrite Ha in H1. discriminate.
    - intros H1. rewrite aget_notin; auto. }
  pose proof (fields_known fs f (c_name c) "" items Hf [] [] [] st_init (fun n _ => eq_refl)) as HF. unfold fres_eq in HF.
  destruct (fields_loop f (c_name c) "" true items [] [] st_init) as [[[kw weak] st]|e];
  destruct (fields_loop f (c_name c) "" false _ [] [] st_init) as [[[kw' weak'] st']|e']; try easy.
  2: { cbn [rbind]. congruence. }
  destruct HF as (-> & HW & ->). cbn [rbind].
  rewrite (tcd_weak fs "" weak weak'); auto.
  intros n Hn. eapply Permutation_in in Hn; [|apply Ho]. apply filter_In in Hn. tauto.
Qed.

(** ** types *)
Lemma conforms_short t : forall v, conforms false t v -> conforms true t v.
Proof.
  induction t as [| | | | |i IH|l IH|kt vt IHk IHv|i IH|l IH|c fs IH|n ms|l|n] using ty_ind'; intros v H; auto.
  - destruct v; auto. cbn in *. eapply Forall_impl; [|exact H]. auto.
  - destruct v as [| | | | | |m| | | | |]; auto. cbn in *. revert m H. induction IH as [|t ts Ht _ IHl]; intros [|x m] H; simpl in *; auto.
    destruct H; auto.
  - destruct v; auto. cbn in *. eapply Forall_impl; [|exact H]. auto.
  - destruct H; [left|right]; auto.
  - cbn in *. induction IH as [|t ts Ht _ IHl]; auto. destruct H; [left|right]; auto.
  - destruct v as [| | | | | | | | |n o| |]; auto. destruct H as [H1 H2]. split; auto. clear -IH H2.
    revert o H2. induction IH as [|[n [ft fd]] fs Ht _ IHl]; intros [|[k x] o] H; simpl in *; auto.
    destruct H as [[H1 H2] H3]. auto.
Qed.

Lemma default_of_conforms t : defaults_typed t -> forall v, default_of t v -> conforms true t v.
Proof.
  induction t as [| | | | |i IH|l IH|kt vt IHk IHv|i IH|l IH|c fs IH|n ms|l|n] using ty_ind'; intros Hd v H; try easy.
  destruct H as (o & -> & H). split; auto. simpl in Hd. revert o H. induction IH as [|[n [ft fd]] fs Ht _ IHl]; intros [|[k x] o] H; try easy.
  destruct H as [[H1 H2] H3]. simpl in *. destruct Hd as [[Hd1 Hd2] Hd3]. split; [|now apply IHl].
  split; auto. destruct fd; subst; auto using conforms_short.
Qed.

Lemma any_in {A} (f : A -> Prop) l x : In x l -> f x -> any f l.
Proof. induction l as [|y l IH]; simpl; [easy|]. intros [->|H] Hx; auto. Qed.

Lemma clz_any (f : ty -> bool) l : existsb f l = true -> exists a, In a l /\ f a = true.
Proof. apply existsb_exists. Qed.

Lemma num_cast_int f v : num_cast true f = Ok v -> exists z, v = VInt z.
Proof. cbn. intros H. apply rbind_ok in H as [z [_ H]]. injection H as <-. eauto. Qed.

Lemma num_cast_float f v : num_cast false f = Ok v -> exists z, v = VFloat z.
Proof. cbn. intros H. injection H as <-. eauto. Qed.

Lemma denotes_conforms E sch allow ff t : defaults_typed t -> forall ig x v,
  denotes E sch allow ff ig t x v -> conforms true t v.
Proof.
  induction t as [| | | | |i IH|l IH|kt vt IHk IHv|i IH|l IH|c fs IH|n ms|l|n] using ty_ind'; intros Hd ig x v H.
  - destruct x; try easy; cbn in *; try (subst; exact I).
    + destruct H as (z & _ & ->). exact I.
    + destruct (has_char "@" s).
      * destruct H as (_ & pw & y & _ & _ & H). apply num_cast_int in H as [z ->]. exact I.
      * destruct H as (f & z & _ & _ & ->). exact I.
  - destruct x; try easy; cbn in *; try (subst; exact I).
    + destruct H as (f & _ & ->). exact I.
    + destruct H as (f & _ & ->). exact I.
    + destruct (has_char "@" s).
      * destruct H as (_ & pw & y & _ & _ & H). apply num_cast_float in H as [z ->]. exact I.
      * destruct H as (f & _ & ->). exact I.
  - cbn in *. destruct (unit_text x); try easy. subst. exact I.
  - cbn in *. destruct x; try easy. subst. exact I.
  - apply H.
  - destruct H as (l & m & -> & -> & HF). cbn. induction HF; constructor; eauto.
  - destruct H as (k & m & _ & -> & HF). cbn in *. revert k m HF. induction IH as [|t ts Ht _ IHl]; intros [|x' k] [|y m] HF; simpl in *; try easy.
    destruct HF, Hd. split; eauto.
  - destruct H as (d & e & -> & -> & HF). cbn. induction HF as [|a b d e [_ H] HF IH]; constructor; eauto.
  - destruct H as [[_ ->]|[_ H]]; [left; auto|right; eauto].
  - apply denotes_union in H. destruct (coerce_scalar E (TUnion l) x) as [r|] eqn:Ec.
    + subst r. cbn [conforms]. unfold coerce_scalar in Ec. unfold clz_or_arg in Ec; cbn [orb is_TStr is_TFloat is_TInt] in Ec.
      assert (G : forall f, existsb f l = true -> (forall a, f a = true -> conforms true a v) -> any (fun a => conforms true a v) l).
      { intros f Hf Ha. apply existsb_exists in Hf as [a [H1 H2]]. apply (any_in _ _ a); auto. }
      destruct x; try discriminate.
      * destruct (existsb is_TFloat l) eqn:Ef; [|discriminate]. cbn [as_int] in Ec. injection Ec as Ec. apply rbind_ok in Ec as [f [_ Ec]].
        injection Ec as <-. apply (G _ Ef). intros [] Q; try discriminate Q; exact I.
      * destruct (existsb is_TFloat l) eqn:Ef; [|discriminate]. cbn [as_int] in Ec. injection Ec as Ec. apply rbind_ok in Ec as [f [_ Ec]].
        injection Ec as <-. apply (G _ Ef). intros [] Q; try discriminate Q; exact I.
      * destruct (existsb is_TInt l) eqn:Ef; [|discriminate]. destruct (py_int_of_float f) as [z|]; [|discriminate].
        destruct (Z_eq_float z f); [|discriminate]. injection Ec as <-. apply (G _ Ef). intros [] Q; try discriminate Q; exact I.
      * destruct (existsb is_TFloat l) eqn:Ef.
        -- injection Ec as Ec. destruct (e_float E s); [|discriminate]. injection Ec as <-. apply (G _ Ef). intros [] Q; try discriminate Q; exact I.
        -- destruct (existsb is_TInt l) eqn:Ei; [|discriminate]. injection Ec as Ec. destruct (e_float E s); [|discriminate].
           apply rbind_ok in Ec as [z [_ Ec]]. destruct (Z_eq_float z p); [|discriminate]. injection Ec as <-. apply (G _ Ei). intros [] Q; try discriminate Q; exact I.
      * destruct d; [|discriminate]. destruct (existsb is_TStr l) eqn:Es; [|discriminate]. injection Ec as <-.
        apply (G _ Es). intros [] Q; try discriminate Q; exact I.
    + destruct H as (d & nm & -> & _ & HU). cbn [conforms]. clear Ec. simpl in Hd. induction IH as [|t ts Ht _ IHl]; [easy|].
      simpl in HU, Hd. destruct Hd. destruct (py_eq nm (VStr (ty_name t))); [left|right]; eauto.
  - destruct H as (y & items & o & _ & _ & -> & _ & H). split; auto. simpl in Hd. revert o H.
    induction IH as [|[n [ft fd]] fs Ht _ IHl]; intros [|[k v] o] H; try easy.
    destruct H as [[H1 H2] H3]. simpl in *. destruct Hd as [[Hd1 Hd2] Hd3]. split; [|now apply IHl]. split; auto.
    assert (Hdf : forall w, default_field ft fd w v -> conforms true ft v).
    { intros w Hw. destruct fd; cbn in *; subst; auto using conforms_short. apply default_of_conforms; tauto. }
    destruct (aget n items) as [w|]; eauto. destruct (is_weak w); eauto.
  - destruct H as (m & y & H & ->). apply find_some in H as [H _]. cbn. auto.
  - destruct H as (_ & _ & H). exact H.
  - destruct H as (_ & -> & _). exact I.
Qed.

(** ** overrides keep file values *)
Definition ron_filev (E : env) : Prop := forall s y, e_ron E s = Ok y -> filev y = true.

Lemma filev_set_override p : forall d v d', filev d = true -> filev v = true -> set_override d p v = Ok d' -> filev d' = true.
Proof.
  induction p as [|k p IH]; intros d v d' Hd Hv H; [discriminate|]. destruct p as [|k2 p].
  - exact (filev_setitem d k v d' Hd Hv H).
  - cbn [set_override] in H. fold set_override in H. apply rbind_ok in H as [pr [_ H]]. apply rbind_ok in H as [fr [_ H]].
    apply rbind_ok in H as [d1 [H1 H]]. apply rbind_ok in H as [c [H2 H]]. apply rbind_ok in H as [c' [H3 H]].
    assert (Hd1 : filev d1 = true).
    { destruct fr; [eapply filev_setitem; [exact Hd| |exact H1]; reflexivity|injection H1 as <-; exact Hd]. }
    assert (Hc := filev_getitem _ _ _ Hd1 H2). eapply filev_setitem; [exact Hd1| |exact H]. eapply (IH c v c'); eauto.
Qed.

Lemma filev_override_loop E fields ovs : ron_filev E -> forall prev errs v r,
  (forall p, prev = Some p -> filev p = true) -> filev v = true ->
  override_loop E fields ovs prev errs v = Ok r -> filev (snd r) = true.
Proof.
  intros HE. induction ovs as [|o ovs IH]; intros prev errs v r Hp Hv H; cbn [override_loop] in H.
  - injection H as <-. exact Hv.
  - destruct (split_first "=" o) as [[key text]|]; [|discriminate].
    destruct (find_field fields (split_on "." key)) as [[t ?]|]; [|eauto].
    apply rbind_ok in H as [val [H1 H]]. apply rbind_ok in H as [v' [H2 H]].
    assert (Hval : filev val = true).
    { unfold override_value in H1. revert H1.
      repeat match goal with |- context [match ?x with _ => _ end] => destruct x end; intros H1; try (injection H1 as <-; reflexivity);
        try discriminate; try (injection H1 as <-; eauto; fail); try (eapply HE; exact H1). }
    eapply (IH (Some val) errs v'); eauto using filev_set_override. intros p [= <-]; auto.
Qed.

Lemma filev_overrides E ovs t x x' : ron_filev E -> filev x = true -> deser_overrides E ovs t x = Ok x' -> filev x' = true.
Proof.
  intros HE Hx H. unfold deser_overrides in H. apply rbind_ok in H as [sc [_ H]]. destruct sc; try discriminate.
  apply rbind_ok in H as [ev [H1 H]]. apply filev_override_loop in H1; auto; [|discriminate].
  destruct (fst ev) as [|? [|? ?]]; try discriminate. injection H as <-. exact H1.
Qed.

Lemma load_conforms E t x dir ovs allow ig L :
  order_ok E -> ron_filev E -> loadable t -> defaults_typed t -> is_dataclass_ty t = true -> filev x = true ->
  typed_load E t x dir ovs allow ig = Ok L -> conforms true t (l_value L).
Proof.
  intros Ho HE Hl Hd Ht Hx H.
  assert (G : forall y, filev y = true -> typed_load E t y dir None allow ig = Ok L -> conforms true t (l_value L)).
  { intros y Hy G. apply (load_means _ _ _ _ _ _ _ Ho Hl Hy) in G as [G _]. now apply denotes_conforms in G. }
  destruct ovs as [ovs|]; [|eauto]. rewrite typed_load_overrides in H by auto. apply rbind_ok in H as [x' [H1 H]].
  apply (G x'); auto. eapply filev_overrides; eauto.
Qed.

Lemma dperm_perm d e : Permutation d e -> dperm (VDict d) (VDict e).
Proof.
  intros H. exists d, e. split; auto. split; auto. clear H. induction d as [|[k x] d IH]; simpl; auto.
  split; auto. split; auto. apply dperm_refl.
Qed.
