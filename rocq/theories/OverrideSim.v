(** OverrideSim.v -- [load] with overrides is [load] without overrides of the
    file with the overrides written into it. *)
From Verif Require Import Base AFacts Value Schema Rewrite Sched Types Asdict FromDict
  Induct SpecTree SpecTypes RewriteFacts FromDictFacts RoundTrip LoadFacts LoadSound.

(** the same state, except that the overrides were applied in the first one *)
Definition seq_st (s s' : dstate) : Prop :=
  st_ov_applied s = true /\ st_sched s = st_sched s' /\ st_lazy s = st_lazy s'.

Definition sim {A} (r r' : res (A * dstate)) : Prop :=
  match r, r' with
  | Ok (v, s), Ok (v', s') => v = v' /\ seq_st s s'
  | Err e, Err e' => e = e'
  | _, _ => False
  end.

Lemma sim_ok {A} (v : A) s s' : seq_st s s' -> sim (Ok (v, s)) (Ok (v, s')).
Proof. split; auto. Qed.

Lemma sim_bind {A B} (m m' : res (A * dstate)) (k k' : A * dstate -> res (B * dstate)) :
  sim m m' -> (forall v s s', seq_st s s' -> sim (k (v, s)) (k' (v, s'))) -> sim (rbind m k) (rbind m' k').
Proof.
  intros H1 H2. destruct m as [[v s]|e], m' as [[v' s']|e']; simpl in *; try easy.
  destruct H1 as [-> H1]. auto.
Qed.

Lemma sim_const {A B} (m : res A) (k k' : A -> res (B * dstate)) :
  (forall a, sim (k a) (k' a)) -> sim (rbind m k) (rbind m k').
Proof. intros H. destruct m; simpl; auto. Qed.

Lemma sim_smapi {A B} (f g : nat -> A -> dstate -> res (B * dstate)) l : forall i s s',
  (forall i x s s', In x l -> seq_st s s' -> sim (f i x s) (g i x s')) -> seq_st s s' ->
  sim (smapi f i l s) (smapi g i l s').
Proof.
  induction l as [|x l IH]; intros i s s' H Hs; [now apply sim_ok|]. rewrite !smapi_cons.
  apply sim_bind; [apply H; auto; left; auto|]. intros v s1 s1' H1. cbn [fst snd].
  apply sim_bind; [apply IH; auto; intros; apply H; auto; right; auto|]. intros vs s2 s2' H2. now apply sim_ok.
Qed.

Lemma sim_tuple f g path ts : forall i l s s',
  (forall t x p s s', In t ts -> seq_st s s' -> sim (f t x p s) (g t x p s')) -> seq_st s s' ->
  sim (tuple_loop f path ts i l s) (tuple_loop g path ts i l s').
Proof.
  induction ts as [|t ts IH]; intros i [|x l] s s' H Hs; try now apply sim_ok. { reflexivity. }
  cbn [tuple_loop]. apply sim_bind; [apply H; auto; left; auto|]. intros v s1 s1' H1. cbn [fst snd].
  apply sim_bind; [apply IH; auto; intros; apply H; auto; right; auto|]. intros vs s2 s2' H2. now apply sim_ok.
Qed.

Lemma sim_fields f g cname path ig items : forall kw weak s s',
  (forall k, match f k, g k with
             | None, None => True
             | Some a, Some b => forall x p s s', seq_st s s' -> sim (a x p s) (b x p s')
             | _, _ => False end) -> seq_st s s' ->
  sim (fields_loop f cname path ig items kw weak s) (fields_loop g cname path ig items kw weak s').
Proof.
  induction items as [|[k x] items IH]; intros kw weak s s' H Hs; cbn [fields_loop]; [now apply sim_ok|].
  destruct (String.eqb k "!__name__"); [auto|]. destruct (is_weak x); [auto|].
  assert (Hk := H k). destruct (f k), (g k); try easy.
  - apply sim_bind; [auto|]. intros v s1 s1' H1. cbn [fst snd]. auto.
  - destruct ig; auto. reflexivity.
Qed.

Definition sim4 (r r' : res (pyval * pyval * bool * dstate)) : Prop :=
  match r, r' with
  | Ok (a, b, c, s), Ok (a', b', c', s') => a = a' /\ b = b' /\ c = c' /\ seq_st s s'
  | Err e, Err e' => e = e'
  | _, _ => False
  end.

Definition simd (r r' : res dres) : Prop :=
  match r, r' with
  | Ok d, Ok d' => d_mut d = d_mut d' /\ d_value d = d_value d' /\ d_ok d = d_ok d' /\ d_ret d = d_ret d' /\ seq_st (d_st d) (d_st d')
  | Err e, Err e' => e = e'
  | _, _ => False
  end.

Lemma simd_const {A} (m : res A) (k k' : A -> res dres) :
  (forall a, simd (k a) (k' a)) -> simd (rbind m k) (rbind m k').
Proof. intros H. destruct m; simpl; auto. Qed.

Lemma sim_deser_one E ds t v path s s' : (forall o, ds <> DOverrides o) -> seq_st s s' ->
  simd (deser_one E ds t v path s) (deser_one E ds t v path s').
Proof.
  intros Hd Hs. assert (Hs' := Hs). destruct Hs as (H1 & H2 & H3).
  assert (K : simd (Ok (mkD v VNone false false s)) (Ok (mkD v VNone false false s'))) by (simpl; auto).
  destruct ds as [o| |al|dd]; [exfalso; eapply Hd; eauto| | |]; cbn [deser_one].
  - destruct t, v; auto; destruct (has_char "@" s0); auto; cbv zeta; apply simd_const; intros pw; rewrite H2;
      apply simd_const; intros root; apply simd_const; intros y; apply simd_const; intros r;
      cbn [simd d_mut d_value d_ok d_ret d_st]; repeat split; auto.
  - apply simd_const; intros y. cbn [simd d_mut d_value d_ok d_ret d_st]; repeat split; auto.
  - destruct t; auto. destruct v; try reflexivity. cbv zeta.
    destruct (String.eqb s0 "<BLOB>"); [|destruct (String.eqb s0 "<blob:pickle>"); [|destruct (String.eqb s0 "<blob:msgpack>"); [|reflexivity]]];
      cbn [simd d_mut d_value d_ok d_ret d_st]; rewrite H3; repeat split; auto.
Qed.

Lemma sim_deser_all E dss t path : (forall o, ~ In (DOverrides o) dss) -> forall v last ret s s', seq_st s s' ->
  sim4 (deser_all E dss t v last ret path s) (deser_all E dss t v last ret path s').
Proof.
  induction dss as [|d dss IH]; intros Hd v last ret s s' Hs; cbn [deser_all]; [simpl; auto|].
  assert (K := sim_deser_one E d t v path s s'). specialize (K (fun o Ho => Hd o (or_introl Ho)) Hs).
  destruct (deser_one E d t v path s) as [r|], (deser_one E d t v path s') as [r'|]; try easy; cbn [rbind].
  destruct K as (-> & -> & -> & -> & K). apply IH; auto. intros o Ho. apply (Hd o). right; auto.
Qed.

Lemma sim_bind4 {B} m m' (k k' : pyval * pyval * bool * dstate -> res (B * dstate)) :
  sim4 m m' -> (forall a b c s s', seq_st s s' -> sim (k (a, b, c, s)) (k' (a, b, c, s'))) -> sim (rbind m k) (rbind m' k').
Proof.
  intros H1 H2. destruct m as [[[[a b] c] s]|e], m' as [[[[a' b'] c'] s']|e']; simpl in *; try easy.
  destruct H1 as (-> & -> & -> & H1). auto.
Qed.

Section Sim.
  Variable E : env.
  Variable o : list string.
  Variable dss : list deser.
  Hypothesis Hdss : forall o, ~ In (DOverrides o) dss.

  Lemma deser_applied t v path s s' : seq_st s s' ->
    sim4 (deser_all E (DOverrides o :: dss) t v VNone false path s) (deser_all E dss t v VNone false path s').
  Proof.
    intros Hs. cbn [deser_all deser_one]. destruct Hs as (H1 & H2). rewrite H1.
    cbn [rbind d_ok d_value d_mut d_ret d_st orb]. apply sim_deser_all; auto. split; auto.
  Qed.

  Lemma from_struct_sim (D D' : list deser) t :
    (forall a, (match t with
                | TUnion l | TTuple l => In a l
                | TList i => a = i
                | TDict _ i => a = i
                | TData _ fs => exists n fd, In (n, (a, fd)) fs
                | _ => False
                end) -> forall x path ig s s', seq_st s s' ->
        sim (from_dict E D a x path ig s) (from_dict E D' a x path ig s')) ->
    forall x path ig s s', seq_st s s' -> sim (from_struct E D t x path ig s) (from_struct E D' t x path ig s').
  Proof.
    intros IH x path ig s s' Hs. destruct t as [| | | | |i|l|kt vt|i|l|c fs|n ms|l|n]; cbn [from_struct]; try reflexivity.
    - destruct x; try reflexivity. apply sim_bind.
      + apply sim_smapi; auto.
      + intros v s1 s1' H1. now apply sim_ok.
    - destruct (tuple_items x); try reflexivity. apply sim_bind.
      + apply sim_tuple; auto.
      + intros v s1 s1' H1. now apply sim_ok.
    - destruct x; try reflexivity. rewrite !(smap_as_smapi _ _ 0). apply sim_bind.
      + apply sim_smapi; auto. intros j y s1 s1' Hy H1. apply sim_bind; [apply IH; auto|].
        intros v s2 s2' H2. now apply sim_ok.
      + intros v s1 s1' H1. now apply sim_ok.
    - cbv zeta. destruct x; try (destruct (existsb has_args l); reflexivity). destruct (aget "!__name__" d); [|destruct (existsb has_args l); reflexivity].
      assert (U : forall ts, incl ts l ->
         match union_scan (fun a => from_dict E D a (VDict d) path ig s) p ts, union_scan (fun a => from_dict E D' a (VDict d) path ig s') p ts with
         | Some r, Some r' => sim r r' | None, None => True | _, _ => False end).
      { induction ts as [|a ts IHt]; intros Hi; simpl; auto. destruct (py_eq p (VStr (ty_name a))).
        - apply IH; auto. apply Hi; left; auto.
        - apply IHt. intros b Hb; apply Hi; right; auto. }
      specialize (U l (incl_refl l)).
      destruct (union_scan _ p l), (union_scan _ p l); try easy. destruct (existsb has_args l); reflexivity.
    - apply sim_const. intros items. apply sim_bind.
      + apply sim_fields; auto. intros k. rewrite !field_with_aget. destruct (aget k fs) as [[ft fd]|] eqn:Ek; simpl; auto.
        intros y p s1 s1' H1. apply IH; auto. exists k, fd. now apply aget_some_in.
      + intros [kw weak] s1 s1' H1. apply sim_const. intros km. destruct (snd km); [|reflexivity].
        apply sim_const. intros obj. now apply sim_ok.
    - apply sim_const. intros m. now apply sim_ok.
    - apply sim_const. intros _. destruct (py_elem _ l); [now apply sim_ok|reflexivity].
  Qed.

  Lemma from_dict_sim t : forall x path ig s s', seq_st s s' ->
    sim (from_dict E (DOverrides o :: dss) t x path ig s) (from_dict E dss t x path ig s').
  Proof.
    induction t as [| | | | |i IH|l IH|kt vt IHk IHv|i IH|l IH|c fs IH|n ms|l|n] using ty_ind'; intros x path ig s s' Hs;
    rewrite (from_dict_eq E (DOverrides o :: dss) _ x), (from_dict_eq E dss _ x); try (destruct (is_none x); [now apply sim_ok|apply IH; auto; fail]);
    (unfold from_main; apply sim_bind4; [now apply deser_applied|]; intros v last ret s1 s1' H1; destruct ret; [now apply sim_ok|];
     match goal with |- context [isinstance v ?t] => destruct (isinstance v t); [now apply sim_ok|];
       destruct (coerce_scalar E t v); [apply sim_const; intros; now apply sim_ok|] end;
     apply from_struct_sim; auto; intros a Ha; try easy).
    - subst a; auto.
    - rewrite Forall_forall in IH. auto.
    - subst a; auto.
    - rewrite Forall_forall in IH. auto.
    - rewrite Forall_forall in IH. destruct Ha as (n & fd & Ha). apply (IH _ Ha).
  Qed.
End Sim.

Lemma dss_no_overrides allow dir o : ~ In (DOverrides o) (typed_load_desers None allow dir).
Proof. unfold typed_load_desers. simpl. destruct dir; simpl; intuition discriminate. Qed.

(** The overrides are written into the parsed file first; then everything is as
    without overrides. *)
Lemma typed_load_overrides E t x dir ovs allow ig : is_dataclass_ty t = true ->
  typed_load E t x dir (Some ovs) allow ig =
  (let* x' := deser_overrides E ovs t x in typed_load E t x' dir None allow ig).
Proof.
  intros Ht. unfold typed_load. destruct t as [| | | | |i|l|kt vt|i|l|c fs|n ms|l|n]; try discriminate.
  rewrite from_dict_main by discriminate.
  change (typed_load_desers (Some ovs) allow dir) with (DOverrides ovs :: typed_load_desers None allow dir).
  unfold from_main. cbn [deser_all]. cbn [deser_one st_ov_applied st_init].
  destruct (deser_overrides E ovs (TData c fs) x) as [x'|e]; cbn [rbind]; auto.
  cbn [d_ok d_value d_mut d_ret d_st orb st_sched st_lazy st_init].
  rewrite (from_dict_main E _ (TData c fs) x') by discriminate. unfold from_main.
  set (dss := typed_load_desers None allow dir).
  assert (Hd : forall o, ~ In (DOverrides o) dss) by (intros o; apply dss_no_overrides).
  assert (Hs0 : seq_st (mkSt true [] []) st_init) by (repeat split).
  assert (S4 : forall l1 l2, sim4 (deser_all E dss (TData c fs) x' l1 false "" (mkSt true [] [])) (deser_all E dss (TData c fs) x' l2 false "" st_init)
    \/ dss = []). 
  { intros l1 l2. left. unfold dss, typed_load_desers. cbn [app deser_all]. 
    assert (K := sim_deser_one E DSchedule (TData c fs) x' "" (mkSt true [] []) st_init ltac:(discriminate) Hs0).
    cbn [deser_one rbind d_ok d_value d_mut d_ret d_st orb] in *.
    destruct (deser_versioned (e_class E) allow (TData c fs) x') as [y|]; cbn [rbind]; [|reflexivity].
    destruct dir; cbn [deser_all deser_one rbind d_ok d_value d_mut d_ret d_st orb]; repeat split. }
  destruct (S4 x' VNone) as [K|K]; [clear S4|unfold dss, typed_load_desers in K; simpl in K; discriminate].
  match goal with |- rbind ?a _ = rbind ?b _ => assert (G : sim a b) end.
  { apply sim_bind4; [exact K|]. intros v last ret s s' Hs. destruct ret; [now apply sim_ok|].
    destruct (isinstance v (TData c fs)); [now apply sim_ok|]. destruct (coerce_scalar E (TData c fs) v); [apply sim_const; intros; now apply sim_ok|].
    apply from_struct_sim; auto. intros a Ha. apply from_dict_sim; auto. }
  match goal with |- rbind ?a _ = rbind ?b _ => destruct a as [[v s]|e], b as [[v' s']|e'] end; simpl in *; try easy; try congruence.
  destruct G as (-> & G1 & G2 & G3). now rewrite G2, G3.
Qed.
