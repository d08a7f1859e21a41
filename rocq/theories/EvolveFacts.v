(** EvolveFacts.v -- a check that says "compatible" and the upgrade of files (C58). *)
From Verif Require Import Base Value Schema Rewrite Sched Types Asdict FromDict Checker Induct AFacts SpecTree SpecTypes SpecLoad SpecSubtype
  SpecRenames SpecCheck SpecCompat SpecMirror SpecEvolve RoundTrip SchemaFacts RenameFacts FindFacts CheckFacts SubtypeFacts CompatFacts
  LoadSound FromDictFacts LoadProps MirrorFacts.

(** ** what the class of a schema looks like as a schema *)
Definition norm_meta (k : string) (f : fmeta) : fmeta :=
  mkF k (if fm_has_default f then fm_default f else VNone) (fm_has_default f) None.

Fixpoint norm (s : sty) : sty :=
  match s with
  | SList i => SList (norm i)
  | STuple l => STuple (map norm l)
  | SDict k v => SDict (norm k) (norm v)
  | SUnion l => SUnion (map norm l)
  | SOption i => SOption (norm i)
  | SStruct n fs _ => SStruct n (map (fun f : string * (sty * fmeta) => (fst f, (norm (fst (snd f)), norm_meta (fst f) (snd (snd f))))) fs) None
  | _ => s
  end.

Lemma norm_class s : readable_schema s -> materialize_type (class_of s) = Ok (norm s).
Proof.
  induction s as [p|i IH|l IH|k v IHk IHv|l IH|n fs ver IH|i IH|n ms|l|] using sty_ind'; intros R; try (destruct R; fail); cbn [class_of norm].
  - cbn [readable_schema] in R. destruct R as [<-|[<-|[<-|[<-|[]]]]]; reflexivity.
  - cbn [materialize_type]. rewrite (IH R). reflexivity.
  - cbn [materialize_type readable_schema] in *.
    assert (G : rmap materialize_type (map class_of l) = Ok (map norm l)).
    { induction l as [|a l IHl]; [reflexivity|]. apply Forall_cons_iff in IH. destruct IH as [Ha IH]. cbn [all] in R. destruct R as [R1 R2].
      cbn [map rmap]. rewrite (Ha R1). cbn [rbind]. rewrite (IHl IH R2). reflexivity. }
    rewrite G. reflexivity.
  - cbn [materialize_type readable_schema] in *. destruct R as [R1 R2]. rewrite (IHk R1). cbn [rbind]. rewrite (IHv R2). reflexivity.
  - cbn [materialize_type readable_schema c_name c_versioned] in *.
    match goal with |- rbind ?a _ = _ => assert (G : a = Ok (map (fun f : string * (sty * fmeta) => (fst f, (norm (fst (snd f)), norm_meta (fst f) (snd (snd f))))) fs)) end.
    { induction fs as [|[k [t f]] fs IHf]; [reflexivity|]. apply Forall_cons_iff in IH. destruct IH as [Ha IH]. cbn [all fst snd] in R, Ha.
      destruct R as [[R1 R3] R2]. cbn [map rmap fst snd]. rewrite (Ha R1). cbn [rbind]. rewrite (IHf IH R2). cbn [rbind]. unfold norm_meta.
      destruct (fm_has_default f) eqn:D; cbn [default_value has_default]; [rewrite R3|]; reflexivity. }
    rewrite G. reflexivity.
  - cbn [materialize_type]. rewrite (IH R). reflexivity.
  - reflexivity.
  - reflexivity.
Qed.

Lemma norm_struct s : is_struct (norm s) = is_struct s.
Proof. destruct s; reflexivity. Qed.

Lemma norm_sflat s : sflat s -> norm s = s.
Proof.
  induction s as [p|i IH|l IH|k v IHk IHv|l IH|n fs ver IH|i IH|n ms|l|] using sty_ind'; cbn [sflat norm]; intros F; try (destruct F; fail); auto.
  - now rewrite IH.
  - f_equal. induction l as [|a l IHl]; [reflexivity|]. apply Forall_cons_iff in IH. destruct IH as [Ha IH]. cbn [all] in F. destruct F as [F1 F2].
    cbn [map]. rewrite (Ha F1), (IHl IH F2). reflexivity.
  - destruct F. rewrite IHk, IHv; auto.
Qed.

Lemma norm_gone s : forall path, (forall c, In c (all_gone s path) -> mild c) -> all_gone (norm s) path = all_gone s path.
Proof.
  induction s as [p|i IH|l IH|k v IHk IHv|l IH|n fs ver IH|i IH|n ms|l|] using sty_ind'; intros path H; try reflexivity.
  cbn [norm]. rewrite all_gone_struct in H. rewrite !all_gone_struct.
  induction fs as [|[k [t f]] fs IHf]; [reflexivity|]. apply Forall_cons_iff in IH. destruct IH as [Ha IH]. cbn [fst snd] in Ha.
  cbn [map flat_map fst snd] in *. f_equal; [|apply IHf; auto; intros c I; apply H; apply in_or_app; now right].
  rewrite norm_struct. destruct (is_struct t).
  - apply Ha. intros c I. apply H. apply in_or_app. now left.
  - destruct (H (field_removed path k (t, f))). now left.
Qed.

Lemma norm_aget fs k : aget k (map (fun f : string * (sty * fmeta) => (fst f, (norm (fst (snd f)), norm_meta (fst f) (snd (snd f))))) fs)
  = match aget k fs with Some (t, f) => Some (norm t, norm_meta k f) | None => None end.
Proof.
  induction fs as [|[j [t f]] fs IH]; [reflexivity|]. cbn [map aget fst snd]. destruct (String.eqb_spec k j) as [->|]; auto.
Qed.

Lemma norm_defaults path n om m : default_changes path n (norm_meta n om) m = default_changes path n om m.
Proof.
  unfold default_changes, norm_meta. cbn [fm_has_default fm_default]. destruct (fm_has_default om) eqn:D; [reflexivity|].
  destruct (fm_has_default m); reflexivity.
Qed.

Lemma norm_removed path gs fs : (forall c, In c (removed_fields path gs fs) -> mild c) ->
  removed_fields path gs (map (fun f : string * (sty * fmeta) => (fst f, (norm (fst (snd f)), norm_meta (fst f) (snd (snd f))))) fs)
  = removed_fields path gs fs.
Proof.
  unfold removed_fields. induction fs as [|[k [t f]] fs IH]; intros H; [reflexivity|]. cbn [map flat_map fst snd] in *.
  f_equal; [|apply IH; intros c I; apply H; apply in_or_app; now right].
  destruct (amem k gs); [reflexivity|]. rewrite norm_struct. destruct (is_struct t).
  - apply norm_gone. intros c I. apply H. apply in_or_app. now left.
  - destruct (H (field_removed path k (t, f))). now left.
Qed.

(** mild changes are found from the class of the schema just as well *)
Lemma norm_changes r : forall s path cs, find_changes s r path = Ok cs -> (forall c, In c cs -> mild c) -> find_changes (norm s) r path = Ok cs.
Proof.
  assert (T : forall r s path (M : forall c, In c [TypeChanged path s r] -> mild c), norm s = s).
  { clear r. intros r s path M. specialize (M _ (or_introl eq_refl)). destruct M as [_ M]. now apply norm_sflat. }
  induction r as [p|i IH|l IH|k v IHk IHv|l IH|n gs ver IH|i IH|n ms|l|] using sty_ind'; intros s path cs F M.
  6: destruct s as [ | | | | |n' fs ver'| | | | ]; try (cbn [find_changes] in F; injection F as <-; rewrite (T _ _ path M); reflexivity).
  all: try (destruct s; cbn [find_changes] in F; try discriminate F; try (injection F as <-; rewrite (T _ _ path M); reflexivity); cbn [norm find_changes]; try exact F; eapply IH; eauto; fail).
  rewrite find_struct in F. apply rbind_ok in F. destruct F as (c1 & F & Q). injection Q as <-. cbn [norm]. rewrite find_struct.
  rewrite (norm_removed path gs fs) by (intros c I; apply M; apply in_or_app; now right).
  assert (M1 : forall c, In c c1 -> mild c) by (intros c I; apply M; apply in_or_app; now left). clear M.
  match goal with |- rbind ?a _ = _ => assert (G : a = Ok c1) end; [|rewrite G; reflexivity].
  revert c1 F M1. induction gs as [|[k [t m]] gs IHg]; intros c1 F M; [exact F|].
  apply Forall_cons_iff in IH. destruct IH as [Hh IH]. cbn [fst snd] in Hh.
  apply sections_cons in F. destruct F as (here & rest & F1 & F2 & ->). cbn [sections].
  rewrite (IHg IH rest F2) by (intros c I; apply M; apply in_or_app; now right).
  assert (M1 : forall c, In c here -> mild c) by (intros c I; apply M; apply in_or_app; now left). clear M.
  enough (G : field_section (map (fun f : string * (sty * fmeta) => (fst f, (norm (fst (snd f)), norm_meta (fst f) (snd (snd f))))) fs) path k t m = Ok here)
    by (rewrite G; reflexivity).
  unfold field_section, sfield in *. rewrite norm_aget. destruct (aget k fs) as [[ot om]|] eqn:Ek; [|exact F1]. rewrite norm_struct.
  destruct (is_struct t && negb (is_struct ot)).
  { injection F1 as <-. destruct (M1 _ (or_introl eq_refl)). }
  destruct (is_struct ot && negb (is_struct t)).
  { injection F1 as <-. rewrite norm_gone; [reflexivity|]. intros c I. apply M1. now right. }
  apply rbind_ok in F1. destruct F1 as (inner & F1 & Q). injection Q as <-.
  rewrite (Hh _ _ _ F1) by (intros c I; apply M1; apply in_or_app; now left). cbn [rbind]. rewrite norm_defaults. reflexivity.
Qed.

(** ** conforming to a schema is being accepted by its class *)
Lemma optional_class t f : names_differ (class_of t) -> optional t f -> fm_has_default f = false -> constructible (class_of t) = true.
Proof.
  intros Nd O. revert Nd. induction O as [t f D|n fs ver f _ IH]; intros Nd N; [congruence|]. cbn [class_of constructible]. apply forallb_forall.
  cbn [class_of names_differ] in Nd. destruct Nd as [Nd Ns]. rewrite all_in in Ns. rewrite map_map in Nd. cbn [fst] in Nd.
  intros g' I. specialize (Ns _ I). apply in_map_iff in I. destruct I as ([k' [t g]] & <- & I). cbn [fst snd] in *.
  destruct (fm_has_default g) eqn:D; [reflexivity|].
  apply (IH k' t g); auto. now apply in_nodup_aget.
Qed.

(** marked sections that conform *)
Lemma not_special (gs : list (string * (ty * dflt))) n t : In (n, t) gs -> ~ In WEAK_REF (field_names gs) -> ~ In "!__name__" (field_names gs) -> special n = false.
Proof.
  intros I N1 N2. unfold special. apply orb_false_iff. split; apply String.eqb_neq; intros ->; [apply N1|apply N2]; unfold field_names; apply in_map_iff.
  - now exists (WEAK_REF, t).
  - now exists ("!__name__", t).
Qed.

Lemma special_cases k : special k = true -> k = WEAK_REF \/ k = "!__name__".
Proof. unfold special. intros H. apply orb_true_iff in H. destruct H as [H|H]; apply String.eqb_eq in H; auto. Qed.

Lemma fits_weak c s : forall x, fits c s x -> plain_fields (class_of s) -> loadable (class_of s) -> weak_known (class_of s) x /\ weak_fits (class_of s) x.
Proof.
  induction s as [p|i IH|l IH|k v IHk IHv|l IH|n fs ver IH|i IH|n ms|l|] using sty_ind'; intros x F Pf Lo; try (split; exact I).
  { cbn [class_of]. repeat match goal with |- context [if ?b then _ else _] => destruct b end; split; exact I. }
  inversion F as [ | | | | | | | | | | | | |n' fs' ver' m Nf Nm Hk Ht Hc]; subst. cbn [class_of weak_known weak_fits plain_fields loadable] in *.
  destruct Pf as [Nw Pf]. destruct Lo as (_ & Nn & _ & Lo). rewrite all_in in Pf. rewrite all_in in Lo. rewrite Forall_forall in IH.
  set (gs := map (fun f : string * (sty * fmeta) =>
                (fst f, (class_of (fst (snd f)),
                         if fm_has_default (snd (snd f)) then DValue (fm_default (snd (snd f))) else DMissing))) fs) in *.
  assert (G : forall f w, In f gs -> aget (fst f) m = Some w -> weak_known (fst (snd f)) w /\ weak_fits (fst (snd f)) w).
  { intros [k [ft fd]] w I Aw. pose proof (Pf _ I) as Pf1. pose proof (Lo _ I) as Lo1. cbn [fst snd] in *.
    pose proof (not_special _ _ _ I Nw Nn) as Sp. pose proof I as I'. unfold gs in I'. apply in_map_iff in I'. destruct I' as ([k' [t f]] & Q & I').
    cbn [fst snd] in Q. injection Q as Q1 Q2 Q3. subst k' ft fd.
    apply (IH _ I' w); auto. apply (Ht k w t f Aw Sp). now apply in_nodup_aget. }
  split; [split|].
  - intros k I. destruct (special k) eqn:Sp; [destruct (special_cases k Sp); auto|]. right. right.
    unfold field_names, gs. rewrite map_map. cbn [fst]. apply (Hk k I Sp).
  - apply all_in. intros f I. destruct (aget (fst f) m) as [w|] eqn:Aw; [|exact Logic.I]. apply (G f w I Aw).
  - apply all_in. intros [k [ft fd]] I. destruct fd; try exact Logic.I. intros _. destruct (aget k m) as [w|] eqn:Aw; [|exact Logic.I].
    apply (G _ w I Aw).
Qed.

Lemma fits_marks c s : forall x, fits c s x -> plain_fields (class_of s) -> loadable (class_of s) -> marks_ok (class_of s) x.
Proof.
  induction s as [p|i IH|l IH|k v IHk IHv|l IH|n fs ver IH|i IH|n ms|l|] using sty_ind'; intros x F Pf Lo; try exact I.
  - cbn [class_of]. repeat match goal with |- context [if ?b then _ else _] => destruct b end; exact I.
  - cbn [class_of marks_ok]. destruct x; auto. inversion F; subst. apply all_in. intros y J. apply IH; auto.
  - inversion F as [ | | | | | | | | | | | | |n' fs' ver' m Nf Nm Hk Ht Hc]; subst. pose proof (fits_weak c _ _ F Pf Lo) as [_ _].
    cbn [class_of marks_ok plain_fields loadable items_of] in *.
    destruct Pf as [Nw Pf]. destruct Lo as (_ & Nn & _ & Lo). rewrite all_in in Pf. rewrite all_in in Lo. rewrite Forall_forall in IH.
    set (gs := map (fun f : string * (sty * fmeta) =>
                (fst f, (class_of (fst (snd f)),
                         if fm_has_default (snd (snd f)) then DValue (fm_default (snd (snd f))) else DMissing))) fs) in *.
    split.
    + intros k w I _. destruct (special k) eqn:Sp; [destruct (special_cases k Sp); auto|]. right. right.
      unfold field_names, gs. rewrite map_map. cbn [fst]. apply (Hk k); auto. unfold akeys. apply in_map_iff. now exists (k, w).
    + apply all_in. intros [k [ft fd]] I. cbn [fst snd]. destruct (aget k m) as [w|] eqn:Aw; [|exact Logic.I].
      pose proof (Pf _ I) as Pf1. pose proof (Lo _ I) as Lo1. cbn [fst snd] in *.
      pose proof (not_special _ _ _ I Nw Nn) as Sp. pose proof I as I'. unfold gs in I'. apply in_map_iff in I'. destruct I' as ([k' [t f]] & Q & I').
      cbn [fst snd] in Q. injection Q as Q1 Q2 Q3. subst k' ft fd.
      assert (Fw : fits c t w) by (apply (Ht k w t f Aw Sp); now apply in_nodup_aget).
      destruct (is_weak w); [now apply (fits_weak c t w Fw)|now apply (IH _ I' w)].
  - cbn [class_of marks_ok]. assert (G : x = VNone \/ fits c i x) by (inversion F; auto). destruct G as [->|G]; [|now apply IH].
    clear. induction (class_of i) as [| | | | |j IH|l IH|kt vt IHk IHv|j IH|l IH|c fs IH|n ms|l|n] using ty_ind'; exact I || exact IHt || exact IH.
Qed.

Section Fits.
  Variable E : env.
  Variable sch allow ff : bool.

  Lemma forall2_build {A B} (f : A -> B -> Prop) l : (forall x, In x l -> exists y, f x y) -> exists m, Forall2 f l m.
  Proof.
    induction l as [|x l IH]; intros H; [exists []; constructor|]. destruct (H x (or_introl eq_refl)) as [y Y].
    destruct IH as [m M]; [intros; apply H; now right|]. exists (y :: m). now constructor.
  Qed.

  Lemma exact_flip x v : exact v -> py_eq x v = true -> py_eq v x = true.
  Proof.
    destruct v; intros X; try (destruct X; fail); destruct x; cbn [py_eq tuple_items]; try discriminate; auto; unfold num_eq; cbn [as_int]; try discriminate; auto;
      rewrite ?Z.eqb_eq, ?String.eqb_eq; auto.
  Qed.

  Lemma exact_unit a x : exact a -> py_eq a x = true -> unit_text x = x.
  Proof.
    destruct a; intros A; try (destruct A; fail); destruct x as [ | | | | | | | |n [|]| | | ]; cbn [py_eq num_eq unit_text]; try discriminate; auto;
      unfold num_eq; cbn [as_int]; discriminate.
  Qed.

  Theorem fits_accepts s : forall ig x, fits true s x -> is_weak x = false -> floatable x -> readable_schema s ->
    loadable (class_of s) -> plain_fields (class_of s) -> names_differ (class_of s) -> exact_values (class_of s) -> literals_load E (class_of s) ->
    accepts E sch allow ff ig (class_of s) x.
  Proof.
    induction s as [p|i IH|l IH|k v IHk IHv|l IH|n fs ver IH|i IH|n ms|l|] using sty_ind'; intros ig x F U Fx R Lo Pf Nd X Ll; try (destruct R; fail).
    - inversion F; subst; cbn [class_of String.eqb Ascii.eqb Bool.eqb]; unfold accepts; cbn [denotes int_denotes float_denotes unit_text].
      + eauto.
      + eauto.
      + destruct Fx as [f Ef]. eauto.
      + eauto.
      + eauto.
    - inversion F as [ | | | | |i' xs Hw H| | | | | | | | ]; subst. cbn [floatable] in Fx. rewrite all_in in Fx.
      destruct (forall2_build (denotes E sch allow ff false (class_of i)) xs) as [m Hm].
      { intros x I. apply (IH false x); auto. }
      exists (VList m). cbn [class_of denotes]. eauto.
    - inversion F as [ | | | | | |ts xs Hl Hw H| | | | | | | ]; subst. cbn [floatable] in Fx. rewrite all_in in Fx. clear U.
      assert (G : exists m, tuple_den (denotes E sch allow ff false) (map class_of l) xs m).
      { clear F. cbn [class_of readable_schema loadable plain_fields names_differ exact_values literals_load] in *. revert xs Hl Hw H Fx.
        induction l as [|a l IHl]; intros [|y xs] Hl U H Fx; try discriminate Hl; [exists []; exact I|].
        apply Forall_cons_iff in IH. destruct IH as [Ha IH]. cbn [map all] in *. destruct R, Lo, Pf, Nd, X, Ll. injection Hl as Hl.
        destruct (IHl IH ltac:(assumption) ltac:(assumption) ltac:(assumption) ltac:(assumption) ltac:(assumption) ltac:(assumption) xs Hl (fun x I => U x (or_intror I)) (fun t x I => H t x (or_intror I)) (fun x I => Fx x (or_intror I))) as [m Hm].
        destruct (Ha false y (H a y (or_introl eq_refl)) (U y (or_introl eq_refl)) (Fx y (or_introl eq_refl))) as [w W]; auto. exists (w :: m). cbn [tuple_den]. auto. }
      destruct G as [m Hm]. exists (VTuple m). cbn [class_of denotes]. exists xs, m. auto.
    - inversion F as [ | | | | | | |k' v' d Nk U' H| | | | | | ]; subst. cbn [floatable class_of readable_schema loadable plain_fields names_differ exact_values literals_load] in *.
      rewrite all_in in Fx. destruct R, Pf, Nd, X, Ll.
      destruct (forall2_build (fun kv kw : string * pyval => fst kw = fst kv /\ denotes E sch allow ff false (class_of v) (snd kv) (snd kw)) d) as [e He].
      { intros [j y] I. destruct (IHv false y (H j y I) (U' j y I) (Fx _ I)) as [w W]; auto. exists (j, w). auto. }
      exists (VDict e). cbn [denotes]. eauto.
    - inversion F as [ | | | | | | | | | | | | |n' fs' ver' m Nf Nm Hk Ht Hc]; subst. cbn [is_weak] in U. rename U into Um.
      cbn [floatable] in Fx. rewrite all_in in Fx. cbn [class_of readable_schema loadable plain_fields names_differ exact_values literals_load c_versioned] in *.
      destruct Lo as (_ & Nn & _ & Lo). destruct Nd as [_ Nd]. destruct Pf as [Nw Pf]. rewrite all_in in Pf. rewrite all_in in R. rewrite all_in in Lo. rewrite all_in in Nd. rewrite all_in in X. rewrite all_in in Ll. rewrite Forall_forall in IH.
      set (gs := map (fun f : string * (sty * fmeta) =>
                (fst f, (class_of (fst (snd f)),
                         if fm_has_default (snd (snd f)) then DValue (fm_default (snd (snd f))) else DMissing))) fs) in *.
      destruct (all2_build (fun (f : string * (ty * dflt)) (kv : string * pyval) =>
                        let '(n, (ft, fd)) := f in
                        fst kv = n /\
                        match aget n m with
                        | None => default_field ft fd (VDict []) (snd kv)
                        | Some w => if is_weak w then default_field ft fd w (snd kv)
                                    else denotes E sch allow ff false ft w (snd kv)
                        end) gs) as [o Ho].
      { intros [k [ft fd]] I. pose proof (Lo _ I) as Lo1. pose proof (X _ I) as X1. pose proof (Ll _ I) as Ll1. pose proof (Nd _ I) as Nd1. pose proof (Pf _ I) as Pf1.
        pose proof I as I'. unfold gs in I'. apply in_map_iff in I'. destruct I' as ([k' [t f]] & Q & I'). cbn [fst snd] in Q, X1, Ll1, Nd1, Pf1.
        injection Q as Q1 Q2 Q3. subst k' ft fd. pose proof (in_nodup_aget _ _ _ Nf I') as Af.
        destruct (aget k m) as [w|] eqn:Aw.
        - assert (Iw : In (k, w) m) by now apply aget_some_in. pose proof (not_special _ _ _ I Nw Nn) as Sp. pose proof (Ht k w t f Aw Sp Af) as Fw.
          destruct (is_weak w) eqn:Wk.
          + assert (Op : optional t f). { apply (Hc eq_refl Um k t f Af). intros v Av. rewrite Aw in Av. now injection Av as <-. }
            destruct (fm_has_default f) eqn:Df; [exists (k, fm_default f); cbn; auto|].
            destruct (constructible_default _ (optional_class t f Nd1 Op Df)) as [v V]. exists (k, v). cbn. split; [reflexivity|]. split; [exact V|].
            now apply (fits_weak true t w Fw).
          + destruct (IH _ I' false w Fw Wk (Fx _ Iw) (proj1 (R _ I')) Lo1 Pf1 Nd1 X1 Ll1) as [v V]. exists (k, v). auto.
        - assert (Op : optional t f). { apply (Hc eq_refl Um k t f Af). intros v Av. rewrite Aw in Av. discriminate Av. }
          destruct (fm_has_default f) eqn:Df; [exists (k, fm_default f); cbn; auto|].
          destruct (constructible_default _ (optional_class t f Nd1 Op Df)) as [v V]. exists (k, v). cbn. split; [reflexivity|]. split; [exact V|apply weak_fits_nil]. }
      exists (VObj n o). cbn [denotes]. exists (VDict m), m, o. split; [reflexivity|]. split; [reflexivity|]. split; [reflexivity|]. split; [|exact Ho].
      intros k w I. destruct (special k) eqn:Sp.
      + unfold special in Sp. apply orb_true_iff in Sp. destruct Sp as [Sp|Sp]; apply String.eqb_eq in Sp; subst; [|now left].
        exfalso. apply amem_false in Um. apply Um. unfold akeys. apply in_map_iff. eexists. split; [|exact I]. reflexivity.
      + right; right; left. assert (In k (akeys fs)) by (apply Hk; auto; unfold akeys; apply in_map_iff; eexists; split; [|exact I]; reflexivity).
        unfold field_names, gs. rewrite map_map. cbn [fst]. exact H.
    - assert (G : x = VNone \/ fits true i x) by (inversion F; auto). destruct (match x with VNone => true | _ => false end) eqn:Q.
      + destruct x; try discriminate Q. exists VNone. cbn [class_of denotes]. now left.
      + assert (N : x <> VNone) by (intros ->; discriminate Q). destruct G as [G|G]; [contradiction|].
        destruct (IH ig x) as [w W]; auto. exists w. cbn [class_of denotes]. now right.
    - inversion F as [ | | | | | | | | | | |n' vs k v x' I Q| | ]; subst. cbn [class_of exact_values] in *. rewrite all_in in X.
      apply enum_accepts. exists (k, v). split; [exact I|]. cbn [snd]. apply exact_flip; auto. apply (X _ I).
    - inversion F as [ | | | | | | | | | | | |vs x' Q| ]; subst. cbn [class_of exact_values literals_load] in *. rewrite all_in in X, Ll.
      apply py_elem_iff in Q. destruct Q as (a & I & Q). exists x. cbn [denotes]. split; [now apply Forall_forall|].
      split; [symmetry; eapply exact_unit; eauto|eauto].
  Qed.
End Fits.

Lemma class_distinct s : readable_schema s -> names_differ (class_of s) -> distinct_names s.
Proof.
  induction s as [p|i IH|l IH|k v IHk IHv|l IH|n fs ver IH|i IH|n ms|l|] using sty_ind'; intros R N; try (destruct R; fail); cbn [class_of readable_schema names_differ] in *.
  - exact I.
  - cbn [distinct_names]. auto.
  - cbn [distinct_names]. induction l as [|a l IHl]; [exact I|]. apply Forall_cons_iff in IH. destruct IH as [Ha IH]. cbn [map all] in *.
    destruct R as [R1 R2], N as [N1 N2]. split; [now apply Ha|now apply IHl].
  - cbn [distinct_names]. destruct R, N. auto.
  - apply distinct_struct. destruct N as [N1 N2]. rewrite map_map in N1. cbn [fst] in N1. split; [exact N1|]. apply Forall_forall. intros [k [t f]] I.
    rewrite Forall_forall in IH. rewrite all_in in R. rewrite all_in in N2. apply (IH _ I (proj1 (R _ I))).
    refine (N2 (k, (class_of t, if fm_has_default f then DValue (fm_default f) else DMissing)) _). apply in_map_iff. eexists. split; [|exact I]. reflexivity.
  - cbn [distinct_names]. auto.
  - exact N.
  - exact I.
Qed.

(** ** rules do not mark the root *)
Lemma aset_mark k (v : pyval) m : k <> WEAK_REF -> amem WEAK_REF (aset k v m) = amem WEAK_REF m.
Proof. intros N. unfold amem. rewrite aset_others; auto. Qed.

Lemma remove_root k r m d' o : k <> WEAK_REF -> remove_path (VDict m) (k :: r) = Ok (d', o) ->
  exists m', d' = VDict m' /\ amem WEAK_REF m' = amem WEAK_REF m.
Proof.
  intros N. destruct r as [|k2 r].
  - cbn [remove_path]. destruct (aget k m); intros H; injection H as <- _; [|eauto]. eexists. split; [reflexivity|].
    unfold amem. rewrite adel_others; auto.
  - cbn [remove_path py_in]. cbn [rbind]. destruct (amem k m); cbn [negb]; [|intros H; injection H as <- _; eauto].
    intros H. apply rbind_ok in H. destruct H as (c & Hc & H). destruct (is_none c); [injection H as <- _; eauto|].
    apply rbind_ok in H. destruct H as (cr & _ & H). apply rbind_ok in H. destruct H as (d2 & Hd & H). injection H as <- _.
    cbn [py_setitem] in Hd. injection Hd as <-. eexists. split; [reflexivity|]. now apply aset_mark.
Qed.

Lemma insert_root k r m v cn d' : k <> WEAK_REF -> insert_path (VDict m) (k :: r) v cn = Ok d' ->
  exists m', d' = VDict m' /\ amem WEAK_REF m' = amem WEAK_REF m.
Proof.
  intros N. destruct r as [|k2 r].
  - cbn [insert_path py_setitem]. intros H. injection H as <-. eexists. split; [reflexivity|]. now apply aset_mark.
  - cbn [insert_path]. cbv zeta.
    set (d1 := if amem k m then VDict m else VDict (aset k (if cn then VDict [] else VDict [(WEAK_REF, VBool true)]) m)).
    assert (D1 : exists m1, d1 = VDict m1 /\ amem WEAK_REF m1 = amem WEAK_REF m).
    { unfold d1. destruct (amem k m); [eauto|]. eexists. split; [reflexivity|]. now apply aset_mark. }
    destruct D1 as (m1 & -> & <-). intros H. apply rbind_ok in H. destruct H as (c & _ & H).
    destruct c; try (injection H as <-; eauto). apply rbind_ok in H. destruct H as (c' & _ & H). cbn [py_setitem] in H. injection H as <-.
    eexists. split; [reflexivity|]. now apply aset_mark.
Qed.

Lemma rule_root c s r m x' : keeps_types c s r -> apply_rule r (VDict m) = Ok x' -> exists m', x' = VDict m' /\ amem WEAK_REF m' = amem WEAK_REF m.
Proof.
  assert (Hd : forall k p, through s (k :: p) -> k <> WEAK_REF) by (intros k p [H _]; now apply special_false).
  intros K H. destruct r as [old new|p|p f fs|p old new|p v|p vs|p vs]; cbn [apply_rule keeps_types] in *.
  - destruct K as (T1 & T2 & P & _). apply rbind_ok in H. destruct H as ([d1 o] & H1 & H). destruct old as [|k old]; [discriminate H1|].
    apply (remove_root k old m d1 o (Hd _ _ T1)) in H1. destruct H1 as (m1 & -> & <-). cbn [fst snd] in H. destruct o as [v|]; [|injection H as <-; eauto].
    destruct new as [|k' new]; [discriminate H|]. apply (insert_root k' new m1 v true x' (Hd _ _ T2) H).
  - apply rbind_ok in H. destruct H as ([d1 o] & H1 & H). destruct p as [|k p]; [discriminate H1|].
    apply (remove_root k p m d1 o (Hd _ _ K)) in H1. destruct H1 as (m1 & -> & <-). cbn [fst snd] in H. injection H as <-; eauto.
  - destruct K as (T1 & _). apply rbind_ok in H. destruct H as ([d1 o] & H1 & H). destruct p as [|k p]; [discriminate H1|].
    apply (remove_root k p m d1 o (Hd _ _ T1)) in H1. destruct H1 as (m1 & -> & <-). cbn [fst snd] in H. destruct o as [v|]; [|injection H as <-; eauto].
    apply rbind_ok in H. destruct H as (v' & _ & H). apply (insert_root k p m1 v' true x' (Hd _ _ T1) H).
  - destruct K as (T1 & _). apply rbind_ok in H. destruct H as ([d1 o] & H1 & H). destruct p as [|k p]; [discriminate H1|].
    apply (remove_root k p m d1 o (Hd _ _ T1)) in H1. destruct H1 as (m1 & -> & <-). cbn [fst snd] in H. destruct o as [v|]; [destruct (is_weak v)|];
      eapply (insert_root k p); eauto.
  - destruct K as (T1 & _). apply rbind_ok in H. destruct H as ([d1 o] & H1 & H). destruct p as [|k p]; [discriminate H1|].
    apply (remove_root k p m d1 o (Hd _ _ T1)) in H1. destruct H1 as (m1 & -> & <-). cbn [fst snd] in H. eapply (insert_root k p); eauto.
  - apply rbind_ok in H. destruct H as (o & _ & H). destruct o; [|injection H as <-; eauto].
    apply rbind_ok in H. destruct H as (b & _ & H). destruct b; [injection H as <-; eauto|discriminate H].
  - destruct K.
Qed.

Lemma rules_root c n ver rs : forall fs m s' x', fits c (SStruct n fs ver) (VDict m) -> in_step c (SStruct n fs ver) (VDict m) rs ->
  apply_rules_schema rs (SStruct n fs ver) = Ok s' -> apply_rules rs (VDict m) = Ok x' -> amem WEAK_REF m = false -> is_weak x' = false.
Proof.
  induction rs as [|r rs IH]; intros fs m s' x' F S As Ax N; cbn [apply_rules apply_rules_schema] in As, Ax.
  - injection Ax as <-. exact N.
  - apply rbind_ok in As as (s1 & A1 & As). apply rbind_ok in Ax as (x1 & X1 & Ax). destruct S as (Kt & Kc & S).
    destruct (rule_root _ _ _ _ _ Kt X1) as (m2 & E2 & Q).
    destruct (mirror_rule _ _ _ _ _ _ _ _ F Kt Kc A1 X1) as (F1 & fs1 & m1 & -> & ->). injection E2 as <-. eapply IH; eauto.
Qed.

Lemma upgrades_root c n fs v m cur rules s' x' :
  fits c (SStruct n fs (Some v)) (VDict m) ->
  in_step c (SStruct n fs (Some v)) (VDict m) (flat_map (rules_at rules) (zrange v cur)) ->
  apply_schema_upgrades cur rules (SStruct n fs (Some v)) = Ok s' ->
  apply_upgrades cur rules (VDict m) (VInt v) = Ok x' -> amem WEAK_REF m = false -> is_weak x' = false.
Proof.
  intros F S As Ax N. unfold apply_schema_upgrades in As. cbn [schema_version] in As. rewrite schema_steps_flat in As.
  unfold apply_upgrades in Ax. destruct (forallb _ rules); [|discriminate]. cbn [as_int] in Ax. rewrite steps_flat in Ax.
  eapply rules_root; eauto.
Qed.

(** ** the check and the files *)
Theorem check_upgrades E n fs v cur rules c' gs file rep d dir allow s' y :
  order_ok E -> c_versioned c' = Some (cur, rules) ->
  load_schema file = Ok (SStruct n fs (Some v)) -> check_schema file (TData c' gs) = Ok rep -> rp_compatible rep = true ->
  (forall w p o n, In (w, TypeChanged p o n) (rp_lines rep) -> sflat o) ->
  apply_schema_upgrades cur rules (SStruct n fs (Some v)) = Ok s' ->
  ordinary_schema E s' -> ordinary E c' gs -> lost_values_gone (class_of s') (TData c' gs) ->
  filev (VDict d) = true -> aget "version" d = Some (VInt v) -> amem WEAK_REF d = false ->
  fits true (SStruct n fs (Some v)) (VDict (adel "version" d)) ->
  in_step true (SStruct n fs (Some v)) (VDict (adel "version" d)) (flat_map (rules_at rules) (zrange v cur)) ->
  apply_upgrades cur rules (VDict (adel "version" d)) (VInt v) = Ok y -> floatable y ->
  exists L, typed_load E (TData c' gs) (VDict d) dir None allow false = Ok L /\ l_sched L = [].
Proof.
  intros HE Vc Ld Ck Rc Fl Us [Rd Os] O2 Lost Hx Gv Nw Ft St Ua Fy.
  destruct (class_of s') as [ | | | | | | | | | |c0 fs0| | | ] eqn:Cs; try (destruct Os; fail). destruct Os as [O1 Ne].
  pose proof (mirror_upgrades _ _ _ _ _ _ _ _ _ Ft St Us Ua) as Fy'.
  assert (Uy : is_weak y = false).
  { apply (upgrades_root true n fs v (adel "version" d) cur rules s' y Ft St Us Ua). unfold amem in *. rewrite adel_others by discriminate; auto. }
  unfold check_schema in Ck. rewrite Ld in Ck. cbn [rbind] in Ck. apply rbind_ok in Ck. destruct Ck as (k & K & Q). injection Q as <-.
  unfold schema_checker in K. apply rbind_ok in K. destruct K as (r & Mr & K).
  destruct (is_struct r) eqn:Sr; [|discriminate K]. cbn [negb] in K. rewrite Vc in K. apply rbind_ok in K. destruct K as (s2 & U2 & K).
  rewrite Us in U2. injection U2 as <-.
  assert (Sv : checker_severity k = INFO). { unfold print_report in Rc. cbn [rp_compatible] in Rc. destruct (checker_severity k); auto; discriminate Rc. }
  assert (Fl' : forall p o n, In (TypeChanged p o n) (ck_changes k) -> sflat o).
  { intros p o m I. apply (Fl (change_severity (TypeChanged p o m)) p o m). cbn [print_report rp_lines]. apply in_map_iff. eexists. split; [|exact I]. reflexivity. }
  assert (F : exists cs, find_changes s' r [] = Ok cs).
  { unfold compare_schemas in K. apply rbind_ok in K. destruct K as (cs & F & _). eauto. }
  destruct F as [cs F]. pose proof O1 as (Lo1 & Nm1 & X1 & Ll1 & V1 & Pf1). pose proof O2 as (Lo2 & Nm2 & _).
  assert (D1 : distinct_names s') by (apply class_distinct; [exact Rd|rewrite Cs; exact Nm1]).
  destruct (report_mild s' r cs k D1 (materialize_distinct _ _ Mr Nm2) F K Sv Fl') as [Hm He].
  pose proof (norm_class s' Rd) as Mn. rewrite Cs in Mn.
  assert (Vn : c_versioned c0 = None). { destruct s'; cbn [class_of] in Cs; try discriminate Cs; try (now injection Cs as <- _).
    destruct (String.eqb p "int"); [discriminate|]. destruct (String.eqb p "float"); [discriminate|]. destruct (String.eqb p "str"); [discriminate|]. destruct (String.eqb p "bool"); discriminate. }
  destruct (compat_core E false allow (is_some dir) c0 fs0 c' gs (norm s') r cs y (VDict d) y) as [w W]; auto.
  - now apply norm_changes.
  - cbn [deser_versioned]. now rewrite Vn.
  - cbn [deser_versioned]. now rewrite Vc, Gv.
  - rewrite <- Cs. apply (fits_marks true); rewrite ?Cs; auto.
  - rewrite <- Cs. apply fits_accepts; rewrite ?Cs; auto.
  - destruct (load_exists E _ (VDict d) dir allow false w HE Lo2 Hx W) as (L & Q & _ & Q'). eauto.
Qed.

Theorem conforming_loads E s x dir allow :
  order_ok E -> ordinary_schema E s -> fits true s x -> filev x = true -> is_weak x = false -> floatable x ->
  exists L, typed_load E (class_of s) x dir None allow false = Ok L /\ l_sched L = [].
Proof.
  intros HE [Rd Os] F Hx W Fx. destruct (class_of s) as [ | | | | | | | | | |c0 fs0| | | ] eqn:Cs; try (destruct Os; fail).
  destruct Os as [(Lo & Nm & X & Ll & V & Pf) _]. rewrite <- Cs in *.
  destruct (fits_accepts E false allow (is_some dir) s false x F W Fx Rd Lo Pf Nm X Ll) as [w D].
  destruct (load_exists E _ x dir allow false w HE Lo Hx D) as (L & Q & _ & Q'). eauto.
Qed.
