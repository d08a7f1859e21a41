(** ResumeProps.v -- C37, C38: configs with schedules through dump, load and step. *)
From Coq Require Import Permutation.
From Verif Require Import Base AFacts Value Schema Rewrite Sched Types Asdict FromDict Manager
  Induct SpecTree SpecTypes RewriteFacts FromDictFacts RoundTrip SpecState ResumeFacts SchedTree.
From Verif Require OverrideFacts.

Definition opt_at (tr : option stree) (p : list string) : option schedule :=
  match tr with Some t => sched_at t p | None => None end.

Lemma opt_at_leaf tr : opt_at tr [] = is_leaf tr.
Proof. destruct tr as [[s|l]|]; reflexivity. Qed.

Lemma opt_at_child tr k p : opt_at tr (k :: p) = opt_at (child tr k) p.
Proof. destruct tr as [[s|l]|]; try reflexivity; cbn; try (destruct (aget k l); reflexivity); reflexivity. Qed.

(** ** types and schedules *)
Section Types.
  Variable E : env.

  Lemma fits_child n tr c fs ft fd k d x :
    fits_opt E n tr (TData c fs) (VObj (c_name c) d) ->
    NoDup (field_names fs) -> NoDup (akeys d) -> In (k, (ft, fd)) fs -> In (k, x) d ->
    fits_opt E k (child tr k) ft x.
  Proof.
    intros Hf Hnd Hkd Hff Hin. destruct tr as [[s|nl]|]; [exact I| |exact I]. cbn [child].
    destruct (aget k nl) as [tr'|] eqn:Eg; [|exact I]. cbn [fits_opt] in *. rewrite fits_node in Hf.
    destruct (Hf k tr' (aget_some_in _ _ _ Eg)) as (c0 & d0 & fs0 & ft0 & fd0 & x0 & H1 & H2 & H3 & H4 & H5).
    injection H1 as <- <-. cbn [member_fields] in H2. rewrite String.eqb_refl in H2. injection H2 as <-.
    assert (aget k fs = Some (ft, fd)) as X1 by (apply in_nodup_aget; auto).
    assert (aget k d = Some x) as X2 by (apply in_nodup_aget; auto).
    rewrite X1 in H3. rewrite X2 in H4. injection H3 as <- <-. injection H4 as <-. exact H5.
  Qed.

  Lemma fits_member n tr l t v : fits_opt E n tr (TUnion l) v ->
    Forall (fun a => is_dataclass_ty a = true) l -> NoDup (map ty_name l) -> In t l -> holds t v ->
    fits_opt E n tr t v.
  Proof.
    intros Hf Hs Hnd Ht Hc. rewrite Forall_forall in Hs. assert (Hd := Hs t Ht).
    destruct t as [| | | | | | | | | |c fields| | |]; try discriminate. simpl in Hc.
    destruct v as [| | | | | | | | |nm d| |]; try easy. destruct Hc as [-> _].
    destruct tr as [[s|nl]|]; [| |exact I].
    { destruct Hf as [Hf _]. simpl in Hf. destruct (sch_int s); discriminate. }
    cbn [fits_opt] in *. rewrite fits_node in *.
    intros k tr' Hin. destruct (Hf k tr' Hin) as (c0 & d0 & fs0 & ft & fd & x & H1 & H2 & H3).
    exists c0, d0, fields, ft, fd, x. injection H1 as <- <-. split; auto.
    assert (member_fields (TData c fields) (c_name c) = Some fields) as Hm0 by (cbn [member_fields]; now rewrite String.eqb_refl).
    split; auto. assert (fs0 = fields) as <-; [|exact H3].
    clear -Hnd Ht Hs H2. cbn [member_fields] in H2. induction l as [|a l IHl]; [easy|]. simpl in Hnd. inversion Hnd as [|? ? N1 N2]; subst.
    destruct Ht as [->|Ht].
    - cbn [member_fields] in H2. rewrite String.eqb_refl in H2. congruence.
    - assert (Ha := Hs a (or_introl eq_refl)). destruct a as [| | | | | | | | | |c1 fs1| | |]; try discriminate.
      cbn [member_fields] in H2. rewrite eqb_neq_str in H2.
      + apply IHl; auto. intros y Hy. apply Hs; right; auto.
      + intros He. apply N1. simpl. rewrite <- He. apply in_map_iff. exists (TData c fields). split; auto.
  Qed.

  Lemma holds_keys c fs d : holds (TData c fs) (VObj (c_name c) d) -> map fst d = field_names fs.
  Proof.
    simpl. intros [_ Hc]. revert d Hc. unfold field_names.
    induction fs as [|[fn [ft fd]] fs IHf]; destruct d as [|[k x] d]; simpl; intros Hc; try easy.
    destruct Hc as [[-> _] Hc]. f_equal; auto.
  Qed.

  Lemma holds_field c fs d k x : holds (TData c fs) (VObj (c_name c) d) -> In (k, x) d ->
    exists ft fd, In (k, (ft, fd)) fs /\ holds ft x.
  Proof.
    simpl. intros [_ Hc] Hin. revert d Hc Hin. induction fs as [|[fn [ft fd]] fs IHf]; destruct d as [|[k' x'] d]; simpl; intros Hc Hin; try easy.
    destruct Hc as [[-> Hx] Hc]. destruct Hin as [Hin|Hin].
    - injection Hin as -> ->. exists ft, fd; auto.
    - destruct (IHf d Hc Hin) as (ft' & fd' & H1 & H2). exists ft', fd'; auto.
  Qed.

  Lemma fits_tree_ok bl t : forall n v tr, persistable E bl t -> holds t v -> fits_opt E n tr t v -> tree_ok v tr.
  Proof.
    assert (NONE : forall v, tree_ok v None).
    { induction v as [|x|z|f|s|l IH|l IH|d IH|n d IH|n d IH|c m x IH|c x IH] using pyval_ind'; cbn [tree_ok is_leaf child]; auto;
        try (split; [auto|]); apply all_Forall; auto. }
    assert (LEAF : forall t n s v, leaf_fits E n s t -> holds t v -> tree_ok v (Some (SLeaf s))).
    { intros t0 n s v [H _] Hc. assert (Hb : base_ty t0 = TInt \/ base_ty t0 = TFloat) by (destruct (sch_int s); auto). clear H.
      revert Hb Hc. induction t0; intros Hb Hc; simpl in Hb; try (destruct Hb; discriminate);
        try (destruct v; simpl in *; easy). destruct Hc as [->|Hc]; [exact I|]. auto. }
    induction t as [| | | | |i IH|l IH|kt vt IHk IHv|i IH|l IH|c fs IH|nn ms|l|nn] using ty_ind';
      intros n v tr Hs Hc Hf; (destruct tr as [[s|nl]|]; [eapply LEAF; eauto| |apply NONE]);
      try (destruct v; simpl in Hc; try easy; exact I).
    - destruct v; simpl in Hc; try easy. simpl. split.
      + destruct nl as [|[k tr'] nl]; auto. simpl in Hf. destruct Hf as [(c0 & d0 & fs0 & ft & fd & x & H1 & _) _]. discriminate.
      + apply all_Forall, Forall_forall. intros; apply NONE.
    - destruct v; simpl in Hc; try easy. simpl. split.
      + destruct nl as [|[k tr'] nl]; auto. simpl in Hf. destruct Hf as [(c0 & d0 & fs0 & ft & fd & x & H1 & _) _]. discriminate.
      + apply all_Forall, Forall_forall. intros; apply NONE.
    - destruct v; simpl in Hc; try easy. simpl. split.
      + destruct nl as [|[k tr'] nl]; auto. simpl in Hf. destruct Hf as [(c0 & d0 & fs0 & ft & fd & x & H1 & _) _]. discriminate.
      + apply all_Forall, Forall_forall. intros; apply NONE.
    - destruct Hc as [->|Hc]; [exact I|]. apply (IH n); auto.
    - simpl in Hc. apply any_Exists in Hc as [t [Ht Hc]]. destruct Hs as [Hs Hnd]. apply all_Forall in Hs.
      rewrite Forall_forall in *. apply (IH t Ht n); auto; [apply Hs; auto|].
      eapply fits_member; eauto. apply Forall_forall. intros a Ha. apply Hs; auto.
    - destruct v as [| | | | | | | | |nm d| |]; try easy. assert (nm = c_name c) as -> by apply Hc.
      destruct Hs as (Hnd & Hok & Hclass & Hrules & Hs). apply all_Forall in Hs. rewrite Forall_forall in Hs, IH.
      assert (Hk := holds_keys _ _ _ Hc). cbn [tree_ok is_leaf]. apply all_Forall, Forall_forall. intros [k x] Hin.
      destruct (holds_field _ _ _ _ _ Hc Hin) as (ft & fd & Hff & Hfx). cbn [fst snd].
      apply (IH _ Hff k); auto; [apply (Hs _ Hff)|].
      eapply fits_child; eauto. unfold akeys. now rewrite Hk.
    - destruct Hc as [a [Ha Hc]]. simpl in Hs. rewrite Forall_forall in Hs.
      assert (Hsv : scalar v = true) by (eapply scalar_eq; [apply (Hs a Ha)|exact Hc]). destruct v; try discriminate; exact I.
  Qed.

  (** updating scheduled fields keeps the types *)
  Lemma holds_updated val bl t : forall n v tr,
    (forall p s, opt_at tr p = Some s -> match val s with VInt _ => sch_int s = true | VFloat _ => sch_int s = false | _ => False end) ->
    persistable E bl t -> holds t v -> fits_opt E n tr t v -> holds t (updated val v tr).
  Proof.
    assert (LEAF : forall t n s v, leaf_fits E n s t ->
      match val s with VInt _ => sch_int s = true | VFloat _ => sch_int s = false | _ => False end ->
      holds t (updated val v (Some (SLeaf s)))).
    { intros t0 n s v (H & _ & _ & _ & _) Hval. rewrite updated_leaf.
      induction t0; simpl in H; try (destruct (sch_int s); discriminate).
      - simpl. destruct (val s); try easy. rewrite Hval in H. discriminate.
      - simpl. destruct (val s); try easy. rewrite Hval in H. discriminate.
      - right. auto. }
    induction t as [| | | | |i IH|l IH|kt vt IHk IHv|i IH|l IH|c fs IH|nn ms|l|nn] using ty_ind';
      intros n v tr Hval Hs Hc Hf; (destruct tr as [[s|nl]|]; [eapply LEAF; eauto; apply (Hval [] s eq_refl)| |rewrite updated_none; auto]);
      try (destruct v; simpl in Hc; try easy; exact Hc).
    - destruct Hc as [->|Hc]; [left; reflexivity|]. right. apply (IH n); auto.
    - simpl in Hc. apply any_Exists in Hc as [t [Ht Hc]]. destruct Hs as [Hs Hnd]. apply all_Forall in Hs.
      rewrite Forall_forall in *. simpl. apply any_Exists. exists t. split; auto. apply (IH t Ht n); auto; [apply Hs; auto|].
      eapply fits_member; eauto. apply Forall_forall. intros a Ha. apply Hs; auto.
    - destruct v as [| | | | | | | | |nm d| |]; try easy. assert (nm = c_name c) as -> by apply Hc.
      destruct Hs as (Hnd & Hok & Hclass & Hrules & Hs). apply all_Forall in Hs. rewrite Forall_forall in Hs, IH.
      assert (Hk := holds_keys _ _ _ Hc). cbn [updated is_leaf]. simpl. split; [reflexivity|].
      assert (Hkd : NoDup (akeys d)) by (unfold akeys; now rewrite Hk).
      assert (HC : forall k x ft fd, In (k, x) d -> In (k, (ft, fd)) fs -> holds ft x -> holds ft (updated val x (child (Some (SNode nl)) k))).
      { intros k x ft fd Hin Hff Hfx. apply (IH _ Hff k); auto; [|apply (Hs _ Hff)|].
        - intros p s Hp. rewrite <- opt_at_child in Hp. eapply Hval; eauto.
        - eapply fits_child; eauto. }
      destruct Hc as [_ Hc]. clear -HC Hc. revert d HC Hc.
      induction fs as [|[fn [ft fd]] fs IHf]; destruct d as [|[k x] d]; simpl; intros HC Hc; try easy.
      destruct Hc as [[-> Hx] Hc]. split.
      + split; auto. eapply HC; [left; reflexivity|left; reflexivity|auto].
      + apply IHf; auto. intros k' x' ft' fd' H1 H2. apply (HC k' x' ft' fd'); auto.
    - destruct Hc as [a [Ha Hc]]. simpl in Hs. rewrite Forall_forall in Hs.
      assert (Hsv : scalar v = true) by (eapply scalar_eq; [apply (Hs a Ha)|exact Hc]).
      replace (updated val v (Some (SNode nl))) with v by (destruct v; try discriminate; reflexivity). exists a; auto.
  Qed.
End Types.

Lemma aget_mapk {A B} (g : string -> A -> B) k (d : list (string * A)) :
  aget k (map (fun kv => (fst kv, g (fst kv) (snd kv))) d) = option_map (g k) (aget k d).
Proof.
  induction d as [|[j x] d IH]; [reflexivity|]. cbn [map aget fst snd].
  destruct (String.eqb_spec k j) as [->|]; [reflexivity|exact IH].
Qed.

Lemma fits_updated E val tr : forall n t v, named n tr -> fits E n tr t v -> fits E n tr t (updated val v (Some tr)).
Proof.
  induction tr as [s|l IH] using stree_ind'; intros n t v Hn Hf; [exact Hf|].
  rewrite fits_node in *. destruct Hn as [Hnd Hall]. apply all_Forall in Hall. rewrite Forall_forall in Hall, IH.
  intros k tr' Hin. destruct (Hf k tr' Hin) as (c & d & fs & ft & fd & x & -> & H2 & H3 & H4 & H5).
  exists c, (map (fun kv => (fst kv, updated val (snd kv) (child (Some (SNode l)) (fst kv)))) d), fs, ft, fd, (updated val x (Some tr')).
  split; [reflexivity|]. split; [auto|]. split; [auto|]. split.
  - rewrite (aget_mapk (fun k x => updated val x (child (Some (SNode l)) k))), H4. cbn [option_map child].
    now rewrite (in_nodup_aget k tr' l Hnd Hin).
  - apply (IH (k, tr') Hin); auto. apply (Hall _ Hin).
Qed.

Lemma updated_ext val v : forall tr tr', (forall p, opt_at tr p = opt_at tr' p) -> updated val v tr = updated val v tr'.
Proof.
  induction v as [|x|z|f|s|l IH|l IH|d IH|n d IH|n d IH|c m x IH|c x IH] using pyval_ind'; intros tr tr' H;
    assert (H0 := H []); rewrite !opt_at_leaf in H0; cbn [updated]; rewrite <- H0; destruct (is_leaf tr) eqn:El; auto.
  f_equal. apply map_ext_in. intros [k x] Hin. cbn [fst snd]. f_equal. rewrite Forall_forall in IH. apply (IH (k, x) Hin).
  intros p. rewrite <- !opt_at_child. apply H.
Qed.

Lemma updated_twice val val' v : forall tr, updated val (updated val' v tr) tr = updated val v tr.
Proof.
  induction v as [|x|z|f|s|l IH|l IH|d IH|n d IH|n d IH|c m x IH|c x IH] using pyval_ind'; intros tr;
    cbn [updated]; destruct (is_leaf tr) eqn:El;
    try (destruct tr as [[s9|l9]|]; try discriminate; cbn [is_leaf] in El; injection El as El; rewrite updated_leaf; congruence);
    try (cbn [updated]; rewrite El; reflexivity).
  cbn [updated]. rewrite El. f_equal. rewrite map_map. apply map_ext_in. intros [k x] Hin. cbn [fst snd]. f_equal.
  rewrite Forall_forall in IH. apply (IH (k, x) Hin).
Qed.


(** a schedule that fits has its field in the config *)
Lemma updated_at E val tr : forall n t v p s, named n tr -> fits E n tr t v -> sched_at tr p = Some s ->
  field_at (updated val v (Some tr)) p = Some (val s).
Proof.
  induction tr as [s0|l IH] using stree_ind'; intros n t v p s Hn Hf Hp.
  - destruct p; [|discriminate]. injection Hp as ->. now rewrite updated_leaf.
  - destruct p as [|k p]; [discriminate|]. cbn [sched_at] in Hp. destruct (aget k l) as [tr'|] eqn:Ek; [|discriminate].
    rewrite fits_node in Hf. destruct Hn as [Hnd Hall]. apply all_Forall in Hall. rewrite Forall_forall in Hall, IH.
    assert (Hin := aget_some_in _ _ _ Ek). destruct (Hf k tr' Hin) as (c & d & fs & ft & fd & x & -> & H2 & H3 & H4 & H5).
    cbn [updated is_leaf field_at]. rewrite (aget_mapk (fun k x => updated val x (child (Some (SNode l)) k))), H4. cbn [option_map child].
    rewrite Ek. eapply (IH (k, tr') Hin); eauto. apply (Hall _ Hin).
Qed.

Lemma updated_other val v : forall tr q, (forall p s, opt_at tr p = Some s -> ~ prefix_of p q /\ ~ prefix_of q p) ->
  field_at (updated val v tr) q = field_at v q.
Proof.
  intros tr q. revert v tr. induction q as [|k q IH]; intros v tr H.
  - cbn [field_at]. f_equal. assert (Hn : forall p, opt_at tr p = opt_at None p).
    { intros p. destruct (opt_at tr p) as [s|] eqn:E1; [|reflexivity]. destruct (H p s E1) as [_ X]. exfalso. apply X. exact I. }
    rewrite (updated_ext val v tr None Hn). apply updated_none.
  - assert (El : is_leaf tr = None).
    { rewrite <- opt_at_leaf. destruct (opt_at tr []) as [s|] eqn:E1; [|reflexivity]. destruct (H [] s E1) as [X _]. exfalso. apply X. exact I. }
    destruct v; cbn [updated field_at]; rewrite El; auto. cbn [field_at].
    rewrite (aget_mapk (fun k x => updated val x (child tr k))). destruct (aget k d) as [x|]; cbn [option_map]; auto.
    apply IH. intros p s Hp. rewrite <- opt_at_child in Hp. apply H in Hp. cbn [prefix_of] in Hp. tauto.
Qed.

(** ** values without Serializable parts *)
Fixpoint blobless (v : pyval) : bool :=
  match v with
  | VObj _ d | VDict d | VNt _ d => forallb (fun kv : string * pyval => blobless (snd kv)) d
  | VList l | VTuple l => forallb blobless l
  | VBlob _ _ => false
  | _ => true
  end.

Lemma holds_blobless E t : forall v, persistable E false t -> holds t v -> blobless v = true.
Proof.
  induction t as [| | | | |i IH|l IH|kt vt IHk IHv|i IH|l IH|c fs IH|nn ms|l|nn] using ty_ind';
    intros v0 Hs Hc; simpl in Hc; try (destruct v0; simpl in *; try easy; reflexivity).
  - destruct v0; try easy. simpl. apply forallb_forall. rewrite Forall_forall in Hc. intros x Hx. apply IH; auto.
  - destruct v0 as [| | | | | |l0| | | | |]; try easy. simpl in Hs |- *. apply all_Forall in Hs.
    clear -IH Hs Hc. revert l0 Hc. induction l as [|t l IHl]; destruct l0 as [|x l0]; simpl; intros Hc; try easy.
    inversion IH; inversion Hs; subst. rewrite andb_true_iff. split; [apply H1; tauto|]. apply IHl; tauto.
  - destruct v0 as [| | | | | | |d| | | |]; try easy. simpl. apply forallb_forall. rewrite Forall_forall in Hc.
    intros kv Hx. apply IHv; auto. apply Hs.
  - destruct Hc as [->|Hc]; [reflexivity|]. apply IH; auto.
  - apply any_Exists in Hc as [t [Ht Hc]]. destruct Hs as [Hs _]. apply all_Forall in Hs.
    rewrite Forall_forall in *. apply (IH t Ht v0); auto. apply Hs; auto.
  - destruct v0 as [| | | | | | | | |n d| |]; try easy. destruct Hc as [-> Hc].
    destruct Hs as (Hnd & Hok & Hcl & _ & Hs). apply all_Forall in Hs. simpl.
    clear -IH Hs Hc. revert d Hc. induction fs as [|[fn [ft fd]] fs IHf]; destruct d as [|[k x] d]; simpl; intros Hc; try easy.
    inversion IH; inversion Hs; subst. destruct Hc as [[_ H3] H4]. rewrite andb_true_iff. split; auto.
  - destruct Hc as [a [Ha Hc]]. simpl in Hs. rewrite Forall_forall in Hs.
    destruct (Hs a Ha) as [Hsc _]. apply (scalar_eq a v0 Hsc) in Hc. destruct v0; try discriminate; reflexivity.
Qed.

Lemma map_same {A} (f : A -> A) l : Forall (fun x => f x = x) l -> map f l = l.
Proof. induction 1; [reflexivity|]. cbn [map]. congruence. Qed.

Lemma map_same_snd {A} (f : A -> A) (l : list (string * A)) :
  Forall (fun kv => f (snd kv) = snd kv) l -> map (fun kv => (fst kv, f (snd kv))) l = l.
Proof. induction 1 as [|[k x] l Hx Hl IH]; [reflexivity|]. cbn [map fst snd] in *. congruence. Qed.

Section Eff.
  Variable E : env.

  Definition val0 (s : schedule) : pyval := match initial_value E s with Ok r => r | Err _ => VNone end.

  Lemma resumed_none v : blobless v = true -> resumed E v None = v.
  Proof.
    induction v as [|x|z|f|s|l IH|l IH|d IH|n d IH|n d IH|c m x IH|c x IH] using pyval_ind'; intros H; try reflexivity; try discriminate;
      cbn [resumed is_leaf child]; f_equal; simpl in H; rewrite forallb_forall in H; rewrite Forall_forall in IH;
      [apply map_same|apply map_same|apply (map_same_snd (fun x => resumed E x None))|apply (map_same_snd (fun x => resumed E x None))];
      apply Forall_forall; intros y Hy; apply IH; auto.
  Qed.

  Lemma resumed_updated v : forall tr, blobless v = true -> tree_ok v tr ->
    (forall s p, opt_at tr p = Some s -> exists r, initial_value E s = Ok r) ->
    resumed E v tr = updated val0 v tr.
  Proof.
    assert (LEAF : forall v s, (exists r, initial_value E s = Ok r) -> resumed E v (Some (SLeaf s)) = val0 s).
    { intros v0 s [r Hr]. unfold val0. destruct v0; cbn [resumed is_leaf]; rewrite Hr; reflexivity. }
    induction v as [|x|z|f|s|l IH|l IH|d IH|n d IH|n d IH|c m x IH|c x IH] using pyval_ind'; intros tr Hb Ht Hi;
      (destruct tr as [[s0|nl]|]; [rewrite LEAF by (apply (Hi s0 []); reflexivity); reflexivity| |rewrite resumed_none, updated_none; auto]);
      try reflexivity; try discriminate.
    - cbn [resumed updated is_leaf]. f_equal. simpl in Hb. rewrite forallb_forall in Hb. apply map_same, Forall_forall. intros; apply resumed_none; auto.
    - cbn [resumed updated is_leaf]. f_equal. simpl in Hb. rewrite forallb_forall in Hb. apply map_same, Forall_forall. intros; apply resumed_none; auto.
    - cbn [resumed updated is_leaf]. f_equal. simpl in Hb. rewrite forallb_forall in Hb. apply (map_same_snd (fun x => resumed E x None)), Forall_forall. intros; apply resumed_none; auto.
    - cbn [resumed updated is_leaf]. f_equal. simpl in Hb. rewrite forallb_forall in Hb. rewrite Forall_forall in IH.
      cbn [tree_ok is_leaf] in Ht. apply all_Forall in Ht. rewrite Forall_forall in Ht.
      apply map_ext_in. intros [k x] Hin. cbn [fst snd]. f_equal. apply (IH (k, x) Hin); [apply (Hb _ Hin)|apply (Ht _ Hin)|].
      intros s p Hp. apply (Hi s (k :: p)). now rewrite opt_at_child.
  Qed.

  (** the schedules met while loading *)
  Lemma leff_none v : forall path p s, ~ In (ESched p s) (leff v None path).
  Proof.
    assert (IM : forall (g : nat -> pyval -> list eff) l e, (forall i x, In x l -> ~ In e (g i x)) ->
              forall i, ~ In e (concat (imap g i l))).
    { intros g l e. induction l as [|x l IHl]; intros H i; [easy|]. cbn [imap concat]. intros Hin. apply in_app_or in Hin as [Hin|Hin].
      - eapply H; [left; reflexivity|exact Hin].
      - eapply IHl; [|exact Hin]. intros; apply H; right; auto. }
    induction v as [|x|z|f|s|l IH|l IH|d IH|n d IH|n d IH|c m x IH|c x IH] using pyval_ind'; intros path p s0; cbn [leff is_leaf child]; try easy.
    - apply IM. intros i x Hx. rewrite Forall_forall in IH. now apply IH.
    - apply IM. intros i x Hx. rewrite Forall_forall in IH. now apply IH.
    - intros Hin. apply in_concat in Hin as (l & H1 & H2). apply in_map_iff in H1 as (kv & <- & H1). rewrite Forall_forall in IH. eapply IH; eauto.
    - intros Hin. apply in_concat in Hin as (l & H1 & H2). apply in_map_iff in H1 as (kv & <- & H1). rewrite Forall_forall in IH. eapply IH; eauto.
    - intros [H|[]]. discriminate.
  Qed.

  Lemma segs_child path k : k <> "" -> has_char "." k = false -> segs (path_join path k) = (segs path ++ [k])%list.
  Proof.
    intros Hk Hd. unfold segs, path_join. destruct (String.eqb_spec path "") as [->|Hp].
    - rewrite eqb_neq_str by auto. now rewrite OverrideFacts.split_on_plain.
    - rewrite eqb_neq_str; [|intros X; apply append_empty in X; tauto].
      rewrite split_on_dot. now rewrite (OverrideFacts.split_on_plain _ k).
  Qed.

  Lemma leff_in cls v : forall tr path p s, dumpable2 cls v = true -> tree_ok v tr ->
    In (ESched p s) (leff v tr path) -> exists q, segs p = (segs path ++ q)%list /\ opt_at tr q = Some s.
  Proof.
    induction v as [|x|z|f|s|l IH|l IH|d IH|n d IH|n d IH|c m x IH|c x IH] using pyval_ind'; intros tr path p s0 Hd Ht Hin;
      (destruct tr as [[s1|nl]|];
        [cbn [leff is_leaf] in Hin; destruct Hin as [Hin|[]]; injection Hin as <- <-; exists []; now rewrite app_nil_r
        | |exfalso; eapply leff_none; eauto]); try easy.
    - exfalso. cbn [leff is_leaf] in Hin. eapply (leff_none (VList l)). exact Hin.
    - exfalso. cbn [leff is_leaf] in Hin. eapply (leff_none (VTuple l)). exact Hin.
    - exfalso. cbn [leff is_leaf] in Hin. eapply (leff_none (VDict d)). exact Hin.
    - cbn [leff is_leaf] in Hin. apply in_concat in Hin as (l & H1 & H2). apply in_map_iff in H1 as ([k x] & <- & H1). cbn [fst snd] in H2.
      simpl in Hd. apply andb_true_iff in Hd as [Hd H5]. apply andb_true_iff in Hd as [_ H4]. rewrite forallb_forall in H4, H5.
      assert (Hk := H4 k (in_map fst _ _ H1)). apply andb_true_iff in Hk as [Hk1 Hk2]. apply negb_true_iff in Hk2.
      assert (Hk0 : k <> "") by (intros ->; discriminate).
      cbn [tree_ok is_leaf] in Ht. apply all_Forall in Ht. rewrite Forall_forall in Ht, IH.
      destruct (IH (k, x) H1 (child (Some (SNode nl)) k) (path_join path k) p s0) as (q & Q1 & Q2); [apply (H5 _ H1)|apply (Ht _ H1)|exact H2|].
      exists (k :: q). rewrite segs_child in Q1 by auto. rewrite <- app_assoc in Q1. split; [exact Q1|]; rewrite opt_at_child; exact Q2.
    - cbn [leff is_leaf] in Hin. destruct Hin as [Hin|[]]. discriminate.
  Qed.

  Lemma leff_path_ne v tr path p s cls : dumpable2 cls v = true -> In (ESched p s) (leff v tr path) -> path = "" -> is_leaf tr = None -> tree_ok v tr -> p <> "".
  Proof.
    intros Hd Hin Hp Hl Ht ->. destruct (leff_in cls v tr path "" s Hd Ht Hin) as (q & Q1 & Q2). subst path. cbn in Q1. subst q.
    rewrite opt_at_leaf in Q2. congruence.
  Qed.

  Lemma leff_has cls tr : forall n t v path q s, dumpable2 cls v = true -> fits E n tr t v ->
    sched_at tr q = Some s -> exists p, In (ESched p s) (leff v (Some tr) path) /\ segs p = (segs path ++ q)%list.
  Proof.
    induction tr as [s1|l IH] using stree_ind'; intros n t v path q s Hd Hf Hq.
    - destruct q; [|discriminate]. injection Hq as ->. exists path. split; [|now rewrite app_nil_r].
      destruct v; left; reflexivity.
    - destruct q as [|k q]; [discriminate|]. cbn [sched_at] in Hq. destruct (aget k l) as [tr'|] eqn:Ek; [|discriminate].
      rewrite fits_node in Hf. rewrite Forall_forall in IH. assert (Hin := aget_some_in _ _ _ Ek).
      destruct (Hf k tr' Hin) as (c & d & fs & ft & fd & x & -> & H2 & H3 & H4 & H5). apply aget_some_in in H4.
      simpl in Hd. apply andb_true_iff in Hd as [Hd D5]. apply andb_true_iff in Hd as [_ D4]. rewrite forallb_forall in D4, D5.
      assert (Hk := D4 k (in_map fst _ _ H4)). apply andb_true_iff in Hk as [Hk1 Hk2]. apply negb_true_iff in Hk2.
      assert (Hk0 : k <> "") by (intros ->; discriminate).
      destruct (IH (k, tr') Hin k ft x (path_join path k) q s (D5 _ H4) H5 Hq) as (p & P1 & P2).
      exists p. split.
      + cbn [leff is_leaf]. apply in_concat. eexists. split; [|exact P1].
        apply in_map_iff. exists (k, x). cbn [fst snd child]. rewrite Ek. auto.
      + rewrite segs_child in P2 by auto. rewrite <- app_assoc in P2. exact P2.
  Qed.

  Definition lazies (dir : option string) (l : list eff) (z : list (string * lazyrec)) : list (string * lazyrec) :=
    fold_left (fun z e => match e with
                          | ELazy p c => aset p (mkLazy c (dir_of dir ++ "/" ++ blob_file p) false) z
                          | ESched _ _ => z
                          end) l z.

  Lemma run_good M dir l : good M -> (forall p s, In (ESched p s) l -> M (split_on "." p) s) ->
    forall st, only M (st_sched st) ->
    exists st', run dir l st = Ok st' /\ only M (st_sched st') /\ keeps (st_sched st) (st_sched st') /\
      (forall p s, In (ESched p s) l -> sched_at (SNode (st_sched st')) (split_on "." p) = Some s) /\
      st_lazy st' = lazies dir l (st_lazy st).
  Proof.
    intros HM. induction l as [|e l IH]; intros HI st Ho; cbn [run].
    - exists st. split; auto. split; auto. split; [apply keeps_refl|]. split; [easy|reflexivity].
    - destruct e as [p s|p c].
      + destruct (sched_add_good M (st_sched st) p s HM Ho (HI p s (or_introl eq_refl))) as (r & R1 & R2 & R3 & R4).
        cbn [run1]. rewrite R1. cbn [rbind].
        destruct (IH (fun p s Hin => HI p s (or_intror Hin)) (mkSt (st_ov_applied st) r (st_lazy st)) R2) as (st' & S1 & S2 & S3 & S4 & S5).
        exists st'. split; auto. split; auto. split; [eapply keeps_trans; eauto|]. split; auto.
        intros p' s' [Hin|Hin]; [|auto]. injection Hin as <- <-. apply S3. exact R4.
      + cbn [run1 rbind].
        destruct (IH (fun p s Hin => HI p s (or_intror Hin)) (mkSt (st_ov_applied st) (st_sched st) (aset p (mkLazy c (dir_of dir ++ "/" ++ blob_file p) false) (st_lazy st))) Ho) as (st' & S1 & S2 & S3 & S4 & S5).
        exists st'. split; auto. split; auto. split; auto. split; auto.
        intros p' s' [Hin|Hin]; [discriminate|auto].
  Qed.

  Lemma run_sched d1 d2 l : forall a b a' b', st_sched a = st_sched b -> run d1 l a = Ok a' -> run d2 l b = Ok b' -> st_sched a' = st_sched b'.
  Proof.
    induction l as [|e l IH]; intros a b a' b' H H1 H2; cbn [run] in *; [congruence|].
    apply rbind_ok in H1 as [a1 [A1 A2]]. apply rbind_ok in H2 as [b1 [B1 B2]]. apply (IH a1 b1); auto.
    destruct e; cbn [run1] in *.
    - rewrite H in A1. apply rbind_ok in A1 as [r [R A1]]. rewrite R in B1. cbn [rbind] in B1. injection A1 as <-. injection B1 as <-. reflexivity.
    - injection A1 as <-. injection B1 as <-. exact H.
  Qed.
End Eff.

(** every schedule text in its place, everything else as in a plain dump *)
Lemma dump_text E tr : forall v n p t s, dumpable2 (e_class E) v = true -> fits E n tr t v -> sched_at tr p = Some s ->
  entry_at (dtree2 (e_class E) v (Some tr)) p = Some (VStr (sch_unparsed s)).
Proof.
  induction tr as [s0|l0 IH] using stree_ind'; intros v n p t s D Hf Hq.
  - destruct p; [|discriminate]. injection Hq as ->. destruct v; reflexivity.
  - destruct p as [|k p]; [discriminate|]. cbn [sched_at] in Hq. destruct (aget k l0) as [tr'|] eqn:Ek; [|discriminate].
    rewrite fits_node in Hf. rewrite Forall_forall in IH. assert (Hin := aget_some_in _ _ _ Ek).
    destruct (Hf k tr' Hin) as (c0 & d & fs0 & ft & fd & x & -> & H2 & H3 & H4 & H5).
    simpl in D. apply andb_true_iff in D as [D D5]. apply andb_true_iff in D as [D3 D4]. rewrite forallb_forall in D4, D5.
    assert (H4' := H4). apply aget_some_in in H4'.
    assert (Hk := D4 k (in_map fst _ _ H4')). apply andb_true_iff in Hk as [Hk1 Hk2].
    cbn [dtree2 is_leaf entry_at].
    assert (X : aget k (map (fun kv => (fst kv, dtree2 (e_class E) (snd kv) (child (Some (SNode l0)) (fst kv)))) d) = Some (dtree2 (e_class E) x (Some tr'))).
    { rewrite (aget_mapk (fun k x => dtree2 (e_class E) x (child (Some (SNode l0)) k))), H4. cbn [option_map child]. now rewrite Ek. }
    assert (Hv : k <> "version" \/ cm_version (e_class E c0) = None).
    { destruct (cm_version (e_class E c0)); [left|auto]. intros ->. discriminate. }
    assert (Y : aget k ((match cm_version (e_class E c0) with Some z => [("version", VInt z)] | None => [] end) ++
        map (fun kv => (fst kv, dtree2 (e_class E) (snd kv) (child (Some (SNode l0)) (fst kv)))) d)%list = Some (dtree2 (e_class E) x (Some tr'))).
    { rewrite <- X. destruct Hv as [Hv|Hv]; [|rewrite Hv; reflexivity]. destruct (cm_version (e_class E c0)); [|reflexivity].
      cbn [app aget]. now rewrite eqb_neq_str. }
    rewrite Y. apply (IH (k, tr') Hin x k p ft s (D5 _ H4') H5 Hq).
Qed.

Lemma dtree2_ext cls v : forall tr tr', (forall p, opt_at tr p = opt_at tr' p) -> dtree2 cls v tr = dtree2 cls v tr'.
Proof.
  induction v as [|x|z|f|s|l IH|l IH|d IH|n d IH|n d IH|c m x IH|c x IH] using pyval_ind'; intros tr tr' H;
    assert (H0 := H []); rewrite !opt_at_leaf in H0; cbn [dtree2]; rewrite <- H0; destruct (is_leaf tr) eqn:El; auto.
  do 2 f_equal. apply map_ext_in. intros [k x] Hin. cbn [fst snd]. f_equal. rewrite Forall_forall in IH. apply (IH (k, x) Hin).
  intros p. rewrite <- !opt_at_child. apply H.
Qed.

Lemma dump_other cls q : forall v tr, (forall p s, opt_at tr p = Some s -> ~ prefix_of p q /\ ~ prefix_of q p) ->
  entry_at (dtree2 cls v tr) q = entry_at (dtree2 cls v None) q.
Proof.
  induction q as [|k q IH]; intros v tr H.
  - cbn [entry_at]. f_equal. apply dtree2_ext. intros p. destruct (opt_at tr p) as [s|] eqn:E1; [|reflexivity].
    destruct (H p s E1) as [_ X]. exfalso. apply X. exact I.
  - assert (El : is_leaf tr = None).
    { rewrite <- opt_at_leaf. destruct (opt_at tr []) as [s|] eqn:E1; [|reflexivity]. destruct (H [] s E1) as [X _]. exfalso. apply X. exact I. }
    destruct v as [| | | | | | | | |n d| |]; cbn [dtree2 is_leaf]; rewrite El; try reflexivity. cbn [entry_at].
    assert (G : match aget k (map (fun kv => (fst kv, dtree2 cls (snd kv) (child tr (fst kv)))) d) with Some x => entry_at x q | None => None end =
                match aget k (map (fun kv => (fst kv, dtree2 cls (snd kv) (child None (fst kv)))) d) with Some x => entry_at x q | None => None end).
    { rewrite (aget_mapk (fun k x => dtree2 cls x (child tr k))), (aget_mapk (fun k x => dtree2 cls x (child None k))).
      destruct (aget k d) as [x|]; cbn [option_map child]; auto.
      apply IH. intros p s Hp. rewrite <- opt_at_child in Hp. apply H in Hp. cbn [prefix_of] in Hp. tauto. }
    destruct (cm_version (cls n)); [|exact G]. cbn [app aget]. destruct (String.eqb k "version"); [reflexivity|exact G].
Qed.

(** ** dump and load of a config with schedules *)

Lemma shallow_good l : shallow l -> good (fun p s => sched_at (SNode l) p = Some s).
Proof.
  intros H. split; [exact H|]. split; [congruence|]. intros k k' s s' H1 H2. cbn [sched_at] in *.
  destruct (aget k l) as [[s0|l0]|]; try discriminate. 
Qed.

Lemma fits_segment E n l t v k tr : fits E n (SNode l) t v -> aget k l = Some tr -> exists c d x, v = VObj c d /\ In (k, x) d.
Proof.
  intros H Hk. rewrite fits_node in H. destruct (H k tr (aget_some_in _ _ _ Hk)) as (c & d & fs & ft & fd & x & -> & _ & _ & H4 & _).
  exists c, d, x. split; auto. now apply aget_some_in.
Qed.

Lemma fits_initial E tr : forall t v n p s, fits E n tr t v -> sched_at tr p = Some s -> exists r, initial_value E s = Ok r.
Proof.
  induction tr as [s0|l0 IH] using stree_ind'; intros t0 v0 n p s Hf Hp.
  - destruct p; [|discriminate]. injection Hp as ->. destruct Hf as (_ & _ & _ & _ & Hr). exact Hr.
  - destruct p as [|k p]; [discriminate|]. cbn [sched_at] in Hp. destruct (aget k l0) as [tr'|] eqn:Ek; [|discriminate].
    rewrite fits_node in Hf. rewrite Forall_forall in IH. assert (Hin := aget_some_in _ _ _ Ek).
    destruct (Hf k tr' Hin) as (c0 & d & fs0 & ft & fd & x & H1 & H2 & H3 & H4 & H5). eapply (IH (k, tr') Hin); eauto.
Qed.

Lemma named_last tr : forall n p s, named n tr -> sched_at tr p = Some s -> sch_field s = last p n.
Proof.
  induction tr as [s0|l0 IH] using stree_ind'; intros n p s Hn Hp.
  - destruct p; [|discriminate]. injection Hp as ->. exact Hn.
  - destruct p as [|k p]; [discriminate|]. cbn [sched_at] in Hp. destruct (aget k l0) as [tr'|] eqn:Ek; [|discriminate].
    destruct Hn as [_ Hall]. apply all_Forall in Hall. rewrite Forall_forall in Hall, IH. assert (Hin := aget_some_in _ _ _ Ek).
    rewrite (IH (k, tr') Hin k p s (Hall _ Hin) Hp). destruct p as [|a p]; [reflexivity|]. cbn [last]. clear. revert a.
    induction p as [|b p IHp]; intros a; [reflexivity|]. apply (IHp b).
Qed.

Section Config.
  Variable E : env.
  Variable bl : bool.
  Variables (c : cinfo) (fs : list (string * (ty * dflt))).
  Let t := TData c fs.
  Variable v : pyval.
  Variable l : list (string * stree).
  Hypothesis HE : order_ok E.
  Hypothesis Hp : persistable E bl t.
  Hypothesis Hh : holds t v.
  Hypothesis Hc : clean v = true.
  Hypothesis Hf : fits E "" (SNode l) t v.
  Hypothesis Hn : named "" (SNode l).

  Lemma cfg_dumpable : dumpable2 (e_class E) v = true.
  Proof using Hp Hh. exact (holds_dumpable E bl t v Hp Hh). Qed.

  Lemma cfg_tree_ok : tree_ok v (Some (SNode l)).
  Proof using Hp Hh Hf. exact (fits_tree_ok E bl t "" v (Some (SNode l)) Hp Hh Hf). Qed.

  Lemma cfg_obj : exists n d, v = VObj n d.
  Proof using Hh. clear Hf Hc Hp. simpl in Hh. destruct v; try easy. eauto. Qed.

  Lemma cfg_no_empty_key : aget "" l = None.
  Proof using Hp Hh Hf.
    destruct (aget "" l) as [tr|] eqn:Ek; [|reflexivity]. exfalso.
    destruct (fits_segment _ _ _ _ _ _ _ Hf Ek) as (n & d & x & Hv & Hin).
    assert (D := cfg_dumpable). rewrite Hv in D. simpl in D. apply andb_true_iff in D as [D _]. apply andb_true_iff in D as [_ D].
    rewrite forallb_forall in D. assert (X := D "" (in_map fst _ _ Hin)). discriminate.
  Qed.

  Lemma cfg_dump : typed_dump (e_class E) v (Some l) false =
    Ok (dtree2 (e_class E) v (Some (SNode l)), blobs_add (dblobs v (Some (SNode l)) "") []).
  Proof using Hp Hh Hf.
    unfold typed_dump. rewrite app_nil_r.
    change ([LazySer; VersionedSer] ++ [ScheduleSer l])%list with (ssS (Some l)). apply asdict_tree.
    - apply cfg_dumpable.
    - apply cfg_tree_ok.
    - split.
      + intros rest. reflexivity.
      + intros _. split; [|reflexivity]. cbn [look sched_lookup]. now rewrite cfg_no_empty_key.
    - intros _. destruct cfg_obj as (n & d & Hv). rewrite Hv. exact I.
  Qed.

  Lemma cfg_plain_dump : typed_dump (e_class E) v None false =
    Ok (dtree2 (e_class E) v None, blobs_add (dblobs v None "") []).
  Proof using Hp Hh.
    clear Hf Hc.
    unfold typed_dump. rewrite !app_nil_r. change ([LazySer; VersionedSer])%list with (ssS None). apply asdict_tree.
    - exact (holds_dumpable E bl t v Hp Hh).
    - apply (fits_tree_ok E bl t "" v None Hp Hh I).
    - split; [intros rest; reflexivity|]. auto.
    - intros _. simpl in Hh. destruct v; try easy; exact I.
  Qed.

  Hypothesis Hs : shallow l.

  Lemma cfg_segs p s : In (ESched p s) (leff v (Some (SNode l)) "") -> sched_at (SNode l) (split_on "." p) = Some s.
  Proof.
    intros Hin. destruct (leff_in (e_class E) v _ _ _ _ cfg_dumpable cfg_tree_ok Hin) as (q & Q1 & Q2). cbn [segs] in Q1.
    assert (p <> "") by exact (leff_path_ne v (Some (SNode l)) "" p s (e_class E) cfg_dumpable Hin eq_refl eq_refl cfg_tree_ok).
    unfold segs in Q1. rewrite eqb_neq_str in Q1 by auto. cbn in Q1. rewrite Q1. exact Q2.
  Qed.

  Lemma cfg_load dir ovs allow ig st : (bl = true -> dir <> None) -> quiet ovs st -> st_sched st = [] ->
    exists l' st', from_dict E (typed_load_desers ovs allow dir) t (ron_view (dtree2 (e_class E) v (Some (SNode l)))) "" ig st =
      Ok (resumed E v (Some (SNode l)), st') /\ st_sched st' = l' /\
      st_lazy st' = lazies dir (leff v (Some (SNode l)) "") (st_lazy st) /\
      only (fun p s => sched_at (SNode l) p = Some s) l' /\
      (forall p, sched_at (SNode l') p = sched_at (SNode l) p).
  Proof.
    intros Hd Hq Hst.
    destruct (run_good (fun p s => sched_at (SNode l) p = Some s) dir (leff v (Some (SNode l)) "") (shallow_good l Hs) cfg_segs st)
      as (st' & R1 & R2 & R3 & R4 & R5).
    { rewrite Hst. apply only_nil. }
    exists (st_sched st'), st'. split; [|split; [reflexivity|split; [exact R5|split; [exact R2|]]]].
    - rewrite (load_tree E HE ovs allow dir bl Hd t "" v (Some (SNode l)) "" ig st); auto.
      rewrite R1. reflexivity.
    - intros p. destruct (sched_at (SNode l) p) as [s|] eqn:Ep.
      + destruct (leff_has E (e_class E) (SNode l) "" t v "" p s cfg_dumpable Hf Ep) as (p' & P1 & P2).
        assert (Hne : p' <> "") by exact (leff_path_ne v (Some (SNode l)) "" p' s (e_class E) cfg_dumpable P1 eq_refl eq_refl cfg_tree_ok).
        unfold segs in P2. rewrite eqb_neq_str in P2 by auto. cbn in P2. rewrite <- P2. apply R4. exact P1.
      + destruct (sched_at (SNode (st_sched st')) p) as [s|] eqn:Ep'; [|reflexivity].
        apply (only_at _ _ _ _ R2) in Ep'. congruence.
  Qed.

  (** the rebuilt dict also fits *)
  Lemma only_named l' : only (fun p s => sched_at (SNode l) p = Some s) l' -> named "" (SNode l').
  Proof.
    intros [N1 N2]. split; [exact N1|]. apply all_Forall, Forall_forall. intros [k tr] Hin.
    assert (Hk := in_nodup_aget k tr l' N1 Hin). apply N2 in Hk.
    destruct tr as [s|l2].
    - simpl. apply (named_last _ _ _ _ Hn) in Hk. exact Hk.
    - destruct Hk as (M1 & _ & M3). simpl. split; [exact M1|]. apply all_Forall, Forall_forall. intros [k2 tr2] Hin2.
      assert (Hk2 := in_nodup_aget k2 tr2 l2 M1 Hin2). apply M3 in Hk2 as (s & -> & Hs2). apply (named_last _ _ _ _ Hn) in Hs2. exact Hs2.
  Qed.

  Lemma only_fits l' : only (fun p s => sched_at (SNode l) p = Some s) l' -> fits E "" (SNode l') t v.
  Proof.
    intros [N1 N2]. rewrite fits_node. intros k tr Hin. assert (Hk := in_nodup_aget k tr l' N1 Hin). apply N2 in Hk.
    assert (Hf' := Hf). rewrite fits_node in Hf'.
    destruct tr as [s|l2].
    - cbn [sched_at] in Hk. destruct (aget k l) as [tr0|] eqn:E0; [|discriminate].
      destruct (Hf' k tr0 (aget_some_in _ _ _ E0)) as (c0 & d & fs0 & ft & fd & x & H1 & H2 & H3 & H4 & H5).
      destruct tr0 as [s0|]; [|discriminate]. cbn in Hk. injection Hk as ->. exists c0, d, fs0, ft, fd, x. auto 10.
    - destruct Hk as (M1 & (k3 & s3 & M2) & M3). cbn [sched_at] in M2. destruct (aget k l) as [tr0|] eqn:E0; [|discriminate].
      destruct (Hf' k tr0 (aget_some_in _ _ _ E0)) as (c0 & d & fs0 & ft & fd & x & H1 & H2 & H3 & H4 & H5).
      destruct tr0 as [s0|l0]; [discriminate|].
      exists c0, d, fs0, ft, fd, x. split; auto. split; auto. split; auto. split; auto.
      rewrite fits_node in *. intros k2 tr2 Hin2. assert (Hk2 := in_nodup_aget k2 tr2 l2 M1 Hin2). apply M3 in Hk2 as (s & -> & Hs2).
      cbn [sched_at] in Hs2. rewrite E0 in Hs2. cbn [sched_at] in Hs2. destruct (aget k2 l0) as [tr2|] eqn:E2; [|discriminate].
      destruct tr2 as [s2|]; [|discriminate]. cbn in Hs2. injection Hs2 as ->. apply (H5 k2 (SLeaf s)). now apply aget_some_in.
  Qed.

  Lemma cfg_initial p s : sched_at (SNode l) p = Some s -> exists r, initial_value E s = Ok r.
  Proof. eapply fits_initial; exact Hf. Qed.
End Config.

Lemma dumpable_uniq cls v : dumpable2 cls v = true -> uniq v.
Proof.
  induction v as [|x|z|f|s|l IH|l IH|d IH|n d IH|n d IH|c m x IH|c x IH] using pyval_ind'; intros H; try exact I.
  simpl in *. apply andb_true_iff in H as [H H3]. apply andb_true_iff in H as [H1 _]. apply nodupb_NoDup in H1.
  rewrite forallb_forall in H3. rewrite Forall_forall in IH. split; [exact H1|]. apply all_Forall, Forall_forall. intros kv Hkv. apply IH; auto.
Qed.

Lemma blobless_dblobs v : forall tr path, blobless v = true -> dblobs v tr path = [].
Proof.
  assert (IM : forall (g : nat -> pyval -> list (string * pyval)) l, (forall i x, In x l -> g i x = []) -> forall i, concat (imap g i l) = []).
  { intros g l H. induction l as [|x l IHl]; intros i; [reflexivity|]. cbn [imap concat]. rewrite H by (left; auto). apply IHl. intros; apply H; right; auto. }
  assert (CM : forall {A} (g : A -> list (string * pyval)) l, (forall x, In x l -> g x = []) -> concat (map g l) = []).
  { intros A g l H. induction l as [|x l IHl]; [reflexivity|]. cbn [map concat]. rewrite H by (left; auto). apply IHl. intros; apply H; right; auto. }
  induction v as [|x|z|f|s|l IH|l IH|d IH|n d IH|n d IH|c m x IH|c x IH] using pyval_ind'; intros tr path H; cbn [dblobs];
    destruct (is_leaf tr); try reflexivity; try discriminate; simpl in H; rewrite forallb_forall in H; rewrite Forall_forall in IH.
  - apply IM. intros; apply IH; auto.
  - apply IM. intros; apply IH; auto.
  - apply CM. intros; apply IH; auto.
  - apply CM. intros; apply IH; auto.
Qed.

Lemma blobless_no_lazy v : forall tr path p c, blobless v = true -> ~ In (ELazy p c) (leff v tr path).
Proof.
  assert (IM : forall (g : nat -> pyval -> list eff) l e, (forall i x, In x l -> ~ In e (g i x)) ->
              forall i, ~ In e (concat (imap g i l))).
    { intros g l e. induction l as [|x l IHl]; intros H i; [easy|]. cbn [imap concat]. intros Hin. apply in_app_or in Hin as [Hin|Hin].
      - eapply H; [left; reflexivity|exact Hin].
      - eapply IHl; [|exact Hin]. intros; apply H; right; auto. }
    induction v as [|x|z|f|s|l IH|l IH|d IH|n d IH|n d IH|c m x IH|c x IH] using pyval_ind'; intros tr path p c0 H; cbn [leff];
      (destruct (is_leaf tr); [intros [X|[]]; discriminate|]); try easy; simpl in H; rewrite forallb_forall in H; rewrite Forall_forall in IH.
    - apply IM. intros i x Hx. apply IH; auto.
    - apply IM. intros i x Hx. apply IH; auto.
    - intros Hin. apply in_concat in Hin as (l & H1 & H2). apply in_map_iff in H1 as (kv & <- & H1). eapply IH; eauto.
    - intros Hin. apply in_concat in Hin as (l & H1 & H2). apply in_map_iff in H1 as (kv & <- & H1). eapply IH; eauto.
Qed.

Lemma blobless_lazies dir v : forall tr path z, blobless v = true -> lazies dir (leff v tr path) z = z.
Proof.
  intros tr path z Hb. assert (NL := blobless_no_lazy v tr path). unfold lazies. revert z. generalize dependent (leff v tr path).
  induction l as [|e l IH]; intros NL z; [reflexivity|]. cbn [fold_left]. destruct e as [p s|p c].
  - apply IH. intros p' c' H X. apply (NL p' c' H). right; auto.
  - exfalso. apply (NL p c Hb). left; reflexivity.
Qed.

Lemma val_at_type E state s r : schedule_value E s state = Ok r ->
  match r with VInt _ => sch_int s = true | VFloat _ => sch_int s = false | _ => False end.
Proof.
  unfold schedule_value. intros H. apply rbind_ok in H as [x [_ H]]. destruct (pw_segments (sch_pw s)); [discriminate|].
  apply rbind_ok in H as [f [_ H]]. apply rbind_ok in H as [y [_ H]]. unfold num_cast in H.
  destruct (sch_int s); [apply rbind_ok in H as [z [_ H]]|]; injection H as <-; reflexivity.
Qed.

Lemma initial_type E s r : initial_value E s = Ok r ->
  match r with VInt _ => sch_int s = true | VFloat _ => sch_int s = false | _ => False end.
Proof.
  unfold initial_value. intros H. apply rbind_ok in H as [y [_ H]]. unfold num_cast in H.
  destruct (sch_int s); [apply rbind_ok in H as [z [_ H]]|]; injection H as <-; reflexivity.
Qed.

(** ** C37 *)
Section C37.
  Variables (E : env) (c : cinfo) (fs : list (string * (ty * dflt))) (v : pyval) (l : list (string * stree)).
  Hypothesis HE : order_ok E.
  Hypothesis Hp : persistable E false (TData c fs).
  Hypothesis Hh : holds (TData c fs) v.
  Hypothesis Hc : clean v = true.
  Hypothesis Hf : fits E "" (SNode l) (TData c fs) v.
  Hypothesis Hn : named "" (SNode l).

  Lemma dump_with_schedules : exists d d0,
    typed_dump (e_class E) v (Some l) false = Ok (d, []) /\ typed_dump (e_class E) v None false = Ok (d0, []) /\
    (forall p s, sched_at (SNode l) p = Some s -> entry_at d p = Some (VStr (sch_unparsed s))) /\
    (forall q, (forall p s, sched_at (SNode l) p = Some s -> ~ prefix_of p q /\ ~ prefix_of q p) -> entry_at d q = entry_at d0 q).
  Proof using Hp Hh Hf.
    assert (B := holds_blobless _ _ _ Hp Hh).
    exists (dtree2 (e_class E) v (Some (SNode l))), (dtree2 (e_class E) v None).
    rewrite (cfg_dump E false c fs v l) by auto. rewrite (cfg_plain_dump E false c fs v) by auto.
    rewrite !blobless_dblobs by auto. split; [reflexivity|]. split; [reflexivity|]. split.
    - intros p s. eapply dump_text; eauto. eapply holds_dumpable; eauto.
    - intros q Hq. apply dump_other. exact Hq.
  Qed.

  Hypothesis Hs : shallow l.

  Lemma schedules_survive : exists d l' v0,
    typed_dump (e_class E) v (Some l) false = Ok (d, []) /\
    (forall dir allow ig, typed_load E (TData c fs) (ron_view d) dir None allow ig = Ok (mkL v0 l' [])) /\
    v0 = updated (val0 E) v (Some (SNode l)) /\
    only (fun p s => sched_at (SNode l) p = Some s) l' /\
    (forall p, sched_at (SNode l') p = sched_at (SNode l) p).
  Proof.
    assert (B := holds_blobless _ _ _ Hp Hh).
    assert (T := cfg_tree_ok E false c fs v l Hp Hh Hf).
    rewrite (cfg_dump E false c fs v l) by auto. rewrite blobless_dblobs by auto.
    assert (Hd : forall dir : option string, false = true -> dir <> None) by discriminate.
    destruct (run_good (fun p s => sched_at (SNode l) p = Some s) None (leff v (Some (SNode l)) "") (shallow_good l Hs)
      (cfg_segs E false c fs v l Hp Hh Hf) st_init (only_nil _)) as (st1 & R1 & R2 & R3 & R4 & R5).
    exists (dtree2 (e_class E) v (Some (SNode l))), (st_sched st1), (updated (val0 E) v (Some (SNode l))).
    split; [reflexivity|]. split; [|split; [reflexivity|split; [exact R2|]]].
    - intros dir allow ig. unfold typed_load.
      rewrite (load_tree E HE None allow dir false (Hd dir) (TData c fs) "" v (Some (SNode l)) "" ig st_init I Hp Hh Hc Hf) by discriminate.
      destruct (run_good (fun p s => sched_at (SNode l) p = Some s) dir (leff v (Some (SNode l)) "") (shallow_good l Hs)
        (cfg_segs E false c fs v l Hp Hh Hf) st_init (only_nil _)) as (st2 & Q1 & Q2 & Q3 & Q4 & Q5).
      rewrite Q1. cbn [rbind fst snd]. rewrite blobless_lazies in Q5 by auto. rewrite Q5.
      rewrite (resumed_updated E v); auto.
      + do 2 f_equal. eapply run_sched; eauto.
      + intros s p. apply (cfg_initial E c fs v l Hf).
    - intros p. destruct (cfg_load E false c fs v l HE Hp Hh Hc Hf Hs None None false false st_init (Hd None) I eq_refl) as (l' & st' & L1 & L2 & L3 & L4 & L5).
      rewrite (load_tree E HE None false None false (Hd None) (TData c fs) "" v (Some (SNode l)) "" false st_init I Hp Hh Hc Hf) in L1 by discriminate.
      rewrite R1 in L1. injection L1 as L1. rewrite L1, L2. apply L5.
  Qed.

  (** loading and then bringing the schedules up to date gives the dumped config *)
  Lemma resume_state state l' v0 : apply_schedules E state l v = Ok v ->
    v0 = updated (val0 E) v (Some (SNode l)) ->
    only (fun p s => sched_at (SNode l) p = Some s) l' ->
    (forall p, sched_at (SNode l') p = sched_at (SNode l) p) ->
    apply_schedules E state l' v0 = Ok v.
  Proof.
    intros Ha -> Ho Hl. assert (D := cfg_dumpable E false c fs v Hp Hh). assert (U := dumpable_uniq _ _ D).
    destruct (apply_sets E state l v v Hn Ha) as [A1 A2].
    assert (V : forall p s, sched_at (SNode l) p = Some s -> exists r, schedule_value E s state = Ok r).
    { intros p s H. destruct (A1 p s H) as (r & R & _). eauto. }
    assert (Ht : holds (TData c fs) (updated (val0 E) v (Some (SNode l)))).
    { apply (holds_updated E (val0 E) false _ ""); auto. intros p s Hps. destruct (fits_initial _ _ _ _ _ _ _ Hf Hps) as [r Hr]. unfold val0. rewrite Hr. now apply initial_type in Hr. }
    rewrite (apply_updated E state l' "" (TData c fs)).
    - f_equal. rewrite (updated_ext _ _ (Some (SNode l')) (Some (SNode l))) by (intros p; apply Hl).
      rewrite updated_twice. rewrite (apply_updated E state l "" (TData c fs) v Hn V U Hf) in Ha. congruence.
    - eapply only_named; eauto.
    - intros p s. rewrite Hl. apply V.
    - eapply dumpable_uniq. eapply (cfg_dumpable E false c fs); eauto.
    - eapply (only_fits E c fs _ l); eauto. apply fits_updated; auto.
  Qed.
End C37.

Lemma C37_survive E c fs v l : order_ok E -> persistable E false (TData c fs) -> holds (TData c fs) v -> clean v = true ->
  fits E "" (SNode l) (TData c fs) v -> named "" (SNode l) -> shallow l ->
  exists d l' v0,
    typed_dump (e_class E) v (Some l) false = Ok (d, []) /\
    (forall dir allow ig, typed_load E (TData c fs) (ron_view d) dir None allow ig = Ok (mkL v0 l' [])) /\
    (forall p, sched_at (SNode l') p = sched_at (SNode l) p) /\
    (forall p s, sched_at (SNode l) p = Some s -> exists r, initial_value E s = Ok r /\ field_at v0 p = Some r) /\
    (forall q, (forall p s, sched_at (SNode l) p = Some s -> ~ prefix_of p q /\ ~ prefix_of q p) ->
       field_at v0 q = field_at v q) /\
    (forall state, apply_schedules E state l v = Ok v -> apply_schedules E state l' v0 = Ok v).
Proof.
  intros HE Hp Hh Hc Hf Hn Hs. destruct (schedules_survive E c fs v l HE Hp Hh Hc Hf Hs) as (d & l' & v0 & D1 & D2 & D3 & D4 & D5).
  exists d, l', v0. split; [exact D1|]. split; [exact D2|]. split; [exact D5|]. split; [|split].
  - intros p s Hps. destruct (fits_initial _ _ _ _ _ _ _ Hf Hps) as [r Hr]. exists r. split; auto.
    subst v0. rewrite (updated_at E (val0 E) (SNode l) "" (TData c fs) v p s Hn Hf Hps). unfold val0. now rewrite Hr.
  - intros q Hq. subst v0. apply updated_other. exact Hq.
  - intros state Ha. eapply resume_state; eauto.
Qed.

(** ** C38 *)
Lemma step_total E c fs v l state : persistable E false (TData c fs) -> holds (TData c fs) v ->
  fits E "" (SNode l) (TData c fs) v -> named "" (SNode l) ->
  (forall p s, sched_at (SNode l) p = Some s -> exists r, schedule_value E s state = Ok r) ->
  exists v', apply_schedules E state l v = Ok v' /\ holds (TData c fs) v' /\
             fits E "" (SNode l) (TData c fs) v' /\ apply_schedules E state l v' = Ok v'.
Proof.
  intros Hp Hh Hf Hn V. assert (D := cfg_dumpable E false c fs v Hp Hh). assert (U := dumpable_uniq _ _ D).
  exists (updated (val_at E state) v (Some (SNode l))). rewrite (apply_updated E state l "" (TData c fs)) by auto.
  split; [reflexivity|].
  assert (Hh' : holds (TData c fs) (updated (val_at E state) v (Some (SNode l)))).
  { apply (holds_updated E _ false _ ""); auto. intros p s Hps. destruct (V p s Hps) as [r Hr]. unfold val_at. rewrite Hr. now apply val_at_type in Hr. }
  split; [exact Hh'|]. split; [now apply fits_updated|].
  rewrite (apply_updated E state l "" (TData c fs)).
  - now rewrite updated_twice.
  - auto.
  - auto.
  - eapply dumpable_uniq. eapply (cfg_dumpable E false c fs); eauto.
  - now apply fits_updated.
Qed.
