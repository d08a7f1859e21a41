(** BlobFacts.v -- the files that stand behind the Serializable fields of a state (C70). *)
From Verif Require Import Base Value Schema Rewrite Sched Types Asdict FromDict Lazy Induct AFacts SpecTypes SpecState SpecLazy SpecBlob FromDictFacts RoundTrip LoadProps LoadSound SessionFacts.

Lemma has_char_app' c a b : has_char c (a ++ b) = has_char c a || has_char c b.
Proof. induction a as [|x a IH]; [reflexivity|]. cbn [append has_char]. now rewrite IH, orb_assoc. Qed.

Section Untouched.
  Variables (E : env) (dss : list deser) (k : string).
  Hypothesis Hk : has_char "." k = false /\ has_char "[" k = false.
  Let same (a b : dstate) : Prop := aget k (st_lazy b) = aget k (st_lazy a).
  Let elsewhere (p : string) : Prop := p <> k /\ p <> "".

  Lemma index_elsewhere p i : elsewhere (p ++ "[" ++ i ++ "]").
  Proof.
    split; [intros Q; rewrite <- Q in Hk; destruct Hk as [_ Z]; rewrite has_char_app' in Z; cbn in Z; rewrite orb_true_r in Z; discriminate|].
    intros Q. destruct p; discriminate.
  Qed.
  Lemma dot_elsewhere p i : elsewhere (p ++ "." ++ i).
  Proof.
    split; [intros Q; rewrite <- Q in Hk; destruct Hk as [Z _]; rewrite has_char_app' in Z; cbn in Z; rewrite orb_true_r in Z; discriminate|].
    intros Q. destruct p; discriminate.
  Qed.
  Lemma join_elsewhere p n : elsewhere p -> elsewhere (path_join p n).
  Proof. intros [_ H]. unfold path_join. destruct (String.eqb_spec p ""); [contradiction|]. apply dot_elsewhere. Qed.

  Lemma one_same ds t v path st r : elsewhere path -> deser_one E ds t v path st = Ok r -> same st (d_st r).
  Proof.
    intros [Hp _] H. unfold same. destruct ds as [ovs| |al|dir]; cbn [deser_one] in H.
    - destruct (st_ov_applied st); [injection H as <-; reflexivity|]. apply rbind_ok in H as (v' & _ & H). injection H as <-. reflexivity.
    - destruct t, v; try (injection H as <-; reflexivity); destruct (has_char "@" s); try (injection H as <-; reflexivity);
        cbv zeta in H; apply rbind_ok in H as (a & _ & H); apply rbind_ok in H as (b & _ & H); apply rbind_ok in H as (c & _ & H); apply rbind_ok in H as (d & _ & H);
        injection H as <-; reflexivity.
    - apply rbind_ok in H as (v' & _ & H). injection H as <-. reflexivity.
    - destruct t; try (injection H as <-; reflexivity). destruct v; try discriminate H. cbv zeta in H.
      destruct (String.eqb s "<BLOB>"); [|destruct (String.eqb s "<blob:pickle>"); [|destruct (String.eqb s "<blob:msgpack>"); [|discriminate H]]];
        injection H as <-; cbn [d_st st_lazy]; rewrite aget_aset_other by congruence; reflexivity.
  Qed.

  Lemma all_same ds t path : elsewhere path -> forall v last ret st r, deser_all E ds t v last ret path st = Ok r -> same st (snd r).
  Proof.
    intros Hp. induction ds as [|d ds IH]; intros v last ret st r H; cbn [deser_all] in H; [injection H as <-; reflexivity|].
    apply rbind_ok in H as (x & H1 & H). apply IH in H. apply one_same in H1; auto. unfold same in *. congruence.
  Qed.

  Lemma smapi_same {A B} (f : nat -> A -> dstate -> res (B * dstate)) l : (forall i x s r, In x l -> f i x s = Ok r -> same s (snd r)) ->
    forall i s r, smapi f i l s = Ok r -> same s (snd r).
  Proof.
    induction l as [|x l IH]; intros H i s r Hr; [injection Hr as <-; reflexivity|].
    rewrite smapi_cons in Hr. apply rbind_ok in Hr as (y & H1 & Hr). apply rbind_ok in Hr as (ys & H2 & Hr). injection Hr as <-. cbn [snd].
    apply H in H1; [|now left]. apply IH in H2; [|intros; eapply H; eauto; now right]. unfold same in *. congruence.
  Qed.

  Lemma tuple_same f path ts : (forall t x p s r, In t ts -> elsewhere p -> f t x p s = Ok r -> same s (snd r)) ->
    forall i l s r, tuple_loop f path ts i l s = Ok r -> same s (snd r).
  Proof.
    induction ts as [|t ts IH]; intros H i l s r Hr; destruct l as [|x l]; try discriminate Hr; try (injection Hr as <-; reflexivity).
    cbn [tuple_loop] in Hr. apply rbind_ok in Hr as (y & H1 & Hr). apply rbind_ok in Hr as (ys & H2 & Hr). injection Hr as <-. cbn [snd].
    apply H in H1; [|now left|apply index_elsewhere]. apply IH in H2; [|intros; eapply H; eauto; now right]. unfold same in *. congruence.
  Qed.

  Lemma fields_same f cname path ig : (forall n g, f n = Some g -> forall x p s r, elsewhere p -> g x p s = Ok r -> same s (snd r)) ->
    forall items kw weak st r, (forall n x, In (n, x) items -> f n <> None -> elsewhere (path_join path n)) -> fields_loop f cname path ig items kw weak st = Ok r -> same st (snd r).
  Proof.
    intros H. induction items as [|[n x] items IH]; intros kw weak st r He Hr; cbn [fields_loop] in Hr; [injection Hr as <-; reflexivity|].
    assert (He' : forall n x, In (n, x) items -> f n <> None -> elsewhere (path_join path n)) by (intros ? ? I; apply (He _ _ (or_intror I))).
    destruct (String.eqb n "!__name__"); [eauto|]. destruct (is_weak x); [eauto|]. destruct (f n) as [g|] eqn:F; [|destruct ig; [eauto|discriminate]].
    apply rbind_ok in Hr as (y & H1 & Hr). apply IH in Hr; auto. apply (H n g F) in H1; [|apply (He n x); [now left|congruence]]. unfold same in *. congruence.
  Qed.

  Lemma field_with_in {B} (f : ty -> dflt -> B) n fs g : field_with f n fs = Some g -> exists t d, In (n, (t, d)) fs /\ g = f t d.
  Proof.
    induction fs as [|[m [t d]] fs IH]; [discriminate|]. cbn [field_with]. destruct (String.eqb_spec n m) as [->|N].
    - intros Q. injection Q as <-. exists t, d. split; [now left|reflexivity].
    - intros Q. destruct (IH Q) as (t' & d' & I & ->). exists t', d'. split; [now right|reflexivity].
  Qed.

  Lemma load_same t : forall x path ig st r, elsewhere path -> from_dict E dss t x path ig st = Ok r -> same st (snd r).
  Proof.
    induction t as [| | | | |i IH|l IH|kt vt IHk IHv|i IH|l IH|c fs IH|n ms|l|n] using ty_ind'; intros x path ig st r Hp H;
      rewrite from_dict_eq in H;
      try (match type of H with (if _ then _ else _) = _ => destruct (is_none x); [injection H as <-; reflexivity|eapply IH; eauto] end);
      unfold from_main in H; apply rbind_ok in H as ([[[v last] ret] s1] & H1 & H); apply all_same in H1; auto; cbn [snd] in H1;
      (destruct ret; [injection H as <-; exact H1|]); (destruct (isinstance v _); [injection H as <-; exact H1|]);
      (destruct (coerce_scalar E _ v) as [y|]; [apply rbind_ok in H as (z & _ & H); injection H as <-; exact H1|]);
      cbn [from_struct] in H; try discriminate H.
    all: assert (Go : same s1 (snd r) -> same st (snd r)) by (unfold same in *; congruence); apply Go; clear Go H1 st.
    - destruct v; try discriminate H. apply rbind_ok in H as (ls & H1 & H). injection H as <-. cbn [snd]. eapply smapi_same; [|exact H1].
      intros j y s q _ Hf. eapply IH; [|exact Hf]. apply index_elsewhere.
    - destruct (tuple_items v); [|discriminate H]. apply rbind_ok in H as (ls & H1 & H). injection H as <-. cbn [snd]. eapply tuple_same; [|exact H1].
      intros t y p s q It He Hf. rewrite Forall_forall in IH. eapply IH; [exact It|exact He|exact Hf].
    - destruct v; try discriminate H. apply rbind_ok in H as (ls & H1 & H). injection H as <-. cbn [snd]. rewrite (smap_as_smapi _ _ 0) in H1.
      eapply smapi_same; [|exact H1]. intros j y s q _ Hf. cbv beta in Hf. apply rbind_ok in Hf as (z & Hf & Q). injection Q as <-. cbn [snd]. eapply IHv; [|exact Hf]. apply dot_elsewhere.
    - destruct v; try discriminate H; try (destruct (existsb has_args l); discriminate H). destruct (aget "!__name__" d); [|destruct (existsb has_args l); discriminate H].
      assert (G : forall l', incl l' l -> forall y, union_scan (fun a => from_dict E dss a (VDict d) path ig s1) p l' = Some y -> y = Ok r -> same s1 (snd r)).
      { rewrite Forall_forall in IH. induction l' as [|a l' IHl]; intros Inc y; [discriminate|]. cbn [union_scan]. destruct (py_eq p (VStr (ty_name a))).
        - intros Q Z. injection Q as <-. eapply IH; [apply Inc; now left|exact Hp|exact Z].
        - apply IHl. intros b I. apply Inc. now right. }
      destruct (union_scan _ p l) as [y|] eqn:U; [|destruct (existsb has_args l); discriminate H]. exact (G l (incl_refl _) y U H).
    - apply rbind_ok in H as (items & _ & H). apply rbind_ok in H as ([[kw weak] s2] & H1 & H). apply rbind_ok in H as (km & _ & H).
      destruct (snd km); [|discriminate H]. apply rbind_ok in H as (obj & _ & H). injection H as <-. cbn [snd].
      eapply fields_same in H1; [exact H1| |intros; now apply join_elsewhere].
      intros m g Q y p s q He Hf. apply field_with_in in Q as (t & d & I & ->). rewrite Forall_forall in IH. eapply (IH _ I); [|exact Hf]. exact He.
    - apply rbind_ok in H as (m & _ & H). injection H as <-. reflexivity.
    - apply rbind_ok in H as (m & _ & H). destruct (py_elem _ l); [|discriminate H]. injection H as <-. reflexivity.
  Qed.
End Untouched.

Lemma blob_entry E allow dir cls s f ig st r : has_char "." f = false -> has_char "[" f = false -> has_char "]" f = false ->
  from_dict E (typed_load_desers None allow (Some dir)) (TSer cls) (VStr s) f ig st = Ok r ->
  exists file pk, placeholder dir f s file pk /\ aget f (st_lazy (snd r)) = Some (mkLazy cls file pk).
Proof.
  intros H1 H2 H3 H. rewrite from_dict_main in H by discriminate. unfold from_main in H. cbn [typed_load_desers app deser_all deser_one deser_versioned rbind d_ok d_mut d_value d_ret d_st orb] in H.
  cbv zeta in H.
  destruct (String.eqb_spec s "<BLOB>") as [->|]; [|destruct (String.eqb_spec s "<blob:pickle>") as [->|]; [|destruct (String.eqb_spec s "<blob:msgpack>") as [->|]; [|discriminate H]]];
    injection H as <-; cbn [snd st_lazy]; rewrite aget_aset_same; try rewrite (replace_absent "." _ f H1); rewrite (replace_absent "[" _ f H2), (replace_absent "]" _ f H3);
    eexists _, _; (split; [|reflexivity]); constructor.
Qed.

Lemma fields_split f cname path ig items1 : forall items2 kw weak st r, fields_loop f cname path ig (items1 ++ items2)%list kw weak st = Ok r ->
  exists kw' weak' st', fields_loop f cname path ig items2 kw' weak' st' = Ok r.
Proof.
  induction items1 as [|[n x] items1 IH]; intros items2 kw weak st r H; [eauto|]. cbn [app fields_loop] in H.
  destruct (String.eqb n "!__name__"); [eauto|]. destruct (is_weak x); [eauto|]. destruct (f n); [|destruct ig; [eauto|discriminate]]. apply rbind_ok in H as (y & _ & H). eauto.
Qed.

Lemma blob_source_any E c fs d dir allow ig L f cls t dfl x0 :
  c_versioned c = None -> Forall plain_name (map fst fs) -> aget f fs = Some (t, dfl) -> t = TSer cls \/ t = TOpt (TSer cls) -> f <> "!__name__" ->
  NoDup (map fst d) -> aget f d = Some x0 -> is_weak x0 = false -> is_none x0 = false -> typed_load E (TData c fs) (VDict d) (Some dir) None allow ig = Ok L ->
  exists s file pk, x0 = VStr s /\ placeholder dir f s file pk /\ aget f (l_lazy L) = Some (mkLazy cls file pk).
Proof.
  intros Vc Pn Gf Ht Nn Nd Gd Wx Nx H. unfold typed_load in H. apply rbind_ok in H as ([v st] & H & Q). injection Q as <-. cbn [l_lazy snd].
  rewrite from_dict_main in H by discriminate. unfold from_main in H.
  assert (De : deser_all E (typed_load_desers None allow (Some dir)) (TData c fs) (VDict d) VNone false "" st_init = Ok (VDict d, VNone, false, st_init)).
  { cbn [typed_load_desers app deser_all deser_one rbind d_ok d_mut d_value d_ret d_st orb]. cbn [deser_versioned]. rewrite Vc. reflexivity. }
  rewrite De in H. clear De. cbn [rbind isinstance coerce_scalar from_struct] in H.
  apply rbind_ok in H as (items & Hi & H). cbn in Hi. injection Hi as <-.
  apply rbind_ok in H as ([[kw weak] s2] & HF & H). apply rbind_ok in H as (km & _ & H). destruct (snd km); [|discriminate H]. apply rbind_ok in H as (obj & _ & H). injection H as <- <-.
  assert (Pf : plain_name f). { rewrite Forall_forall in Pn. apply Pn. apply (in_map fst) with (x := (f, (t, dfl))). now apply aget_some_in. }
  destruct Pf as (Pf0 & Pf1 & Pf2 & Pf3 & _).
  destruct (in_split _ _ (aget_some_in _ _ _ Gd)) as (d1 & d2 & ->).
  apply fields_split in HF as (kw' & weak' & st' & HF). cbn [fields_loop] in HF. rewrite eqb_neq_str in HF by auto. rewrite Wx in HF.
  assert (FW : field_with (fun ft _ => fun x p s => from_dict E (typed_load_desers None allow (Some dir)) ft x p false s) f fs =
    Some (fun x p s => from_dict E (typed_load_desers None allow (Some dir)) t x p false s)).
  { clear -Gf. induction fs as [|[n [t' d']] fs IH]; [discriminate|]. cbn [aget field_with] in *. destruct (String.eqb f n); [now injection Gf as -> ->|auto]. }
  rewrite FW in HF. apply rbind_ok in HF as (y & H1 & HF).
  change (path_join "" f) with f in H1.
  assert (En : exists s file pk, x0 = VStr s /\ placeholder dir f s file pk /\ aget f (st_lazy (snd y)) = Some (mkLazy cls file pk)).
  { assert (H2 : from_dict E (typed_load_desers None allow (Some dir)) (TSer cls) x0 f false st' = Ok y).
    { destruct Ht as [->| ->]; [exact H1|]. rewrite from_dict_eq, Nx in H1. exact H1. }
    assert (X : exists s, x0 = VStr s).
    { rewrite from_dict_main in H2 by discriminate. unfold from_main in H2. cbn [typed_load_desers app deser_all deser_one deser_versioned rbind d_ok d_mut d_value d_ret d_st orb] in H2.
      destruct x0; try discriminate H2. eauto. }
    destruct X as [s ->]. destruct (blob_entry E allow dir cls s f false st' y) as (file & pk & A); auto. eauto. }
  destruct En as (s & file & pk & Xs & Ph & En). exists s, file, pk. split; [exact Xs|]. split; [exact Ph|]. rewrite <- En.
  apply (fields_same f) in HF; [exact HF| |].
  - intros n g Fg x p s0 r0 He Hg. apply field_with_in in Fg as (t' & d' & I & ->). apply (load_same E (typed_load_desers None allow (Some dir)) f (conj Pf1 Pf2)) in Hg; auto.
  - intros n x I Fn. destruct (field_with _ n fs) as [g|] eqn:Q in Fn; [|now destruct Fn]. apply field_with_in in Q as (t' & d' & I' & _).
    assert (Pg : plain_name n) by (rewrite Forall_forall in Pn; apply Pn; apply (in_map fst) in I'; exact I'). change (path_join "" n) with n. split; [|apply Pg].
    intros ->. rewrite map_app in Nd. apply NoDup_remove_2 in Nd. apply Nd. apply in_or_app. right. apply (in_map fst) in I. exact I.
Qed.

Lemma blob_sources E c fs d dir allow ig L f cls t dfl s :
  c_versioned c = None -> Forall plain_name (map fst fs) -> aget f fs = Some (t, dfl) -> t = TSer cls \/ t = TOpt (TSer cls) -> f <> "!__name__" ->
  NoDup (map fst d) -> aget f d = Some (VStr s) -> typed_load E (TData c fs) (VDict d) (Some dir) None allow ig = Ok L ->
  exists file pk, placeholder dir f s file pk /\ aget f (l_lazy L) = Some (mkLazy cls file pk).
Proof.
  intros Vc Pn Gf Ht Nn Nd Gd H. destruct (blob_source_any E c fs d dir allow ig L f cls t dfl (VStr s)) as (s' & file & pk & Q & A); auto. injection Q as <-. eauto.
Qed.

Lemma blob_access E c fs d dir allow ig L f cls t dfl s file pk :
  c_versioned c = None -> Forall plain_name (map fst fs) -> aget f fs = Some (t, dfl) -> t = TSer cls \/ t = TOpt (TSer cls) -> f <> "!__name__" ->
  NoDup (map fst d) -> aget f d = Some (VStr s) -> typed_load E (TData c fs) (VDict d) (Some dir) None allow ig = Ok L ->
  placeholder dir f s file pk -> forall deser pickle_allowed disk,
  fst (fst (lazy_get deser pickle_allowed disk (inst_of L) f)) =
    match disk file with
    | None => Err FileNotFoundError
    | Some data => if pk && negb pickle_allowed then Err RuntimeError else deser cls data (inst_of L)
    end.
Proof.
  intros Vc Pn Gf Ht Nn Nd Gd H Ph deser al disk. destruct (blob_sources E c fs d dir allow ig L f cls t dfl s) as (file' & pk' & Ph' & En); auto.
  assert (Q : file' = file /\ pk' = pk) by (inversion Ph; subst; inversion Ph'; auto). destruct Q as [-> ->].
  assert (Eu : i_unloaded (inst_of L) = l_lazy L).
  { unfold inst_of. destruct (l_value L); reflexivity. }
  unfold lazy_get. rewrite Eu, En. cbn [lz_file lz_pickle lz_cls]. destruct (disk file) as [data|]; [|reflexivity]. destruct (pk && negb al); [reflexivity|].
  destruct (deser cls data (inst_of L)); reflexivity.
Qed.
