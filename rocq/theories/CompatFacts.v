(** CompatFacts.v -- severity INFO means that files keep loading (C28). *)
From Coq Require Import Permutation.
From Verif Require Import Base Value Schema Rewrite Sched Types Asdict FromDict Checker Induct AFacts SpecTypes SpecLoad SpecSubtype
  SpecRenames SpecCheck SpecCompat RoundTrip SchemaFacts RenameFacts FindFacts CheckFacts SubtypeFacts.

(** changes that leave old files loadable *)
Definition mild (c : change) : Prop :=
  match c with
  | FieldAdded _ _ _ hd => hd = true
  | FieldRemoved _ _ _ _ | FieldRenamed _ _ | DefaultValueRemoved _ _ => False
  | TypeChanged _ o n => is_subtype o n = true /\ sflat o
  | EnumVariantValueChanged _ _ _ _ _ | LiteralValuesRemoved _ _ => False
  | _ => True
  end.

Notation mat_fields := (rmap (fun f : string * (ty * dflt) =>
     let '(n, (t', d)) := f in
     let* s := materialize_type t' in
     Ok (n, (s, mkF n (schema_default (default_value d)) (has_default d) None)))).

Lemma mat_data c fs s : materialize_type (TData c fs) = Ok s ->
  exists sf ver, mat_fields fs = Ok sf /\ s = SStruct (c_name c) sf ver.
Proof.
  cbn [materialize_type]. intros H. apply rbind_ok in H. destruct H as (sf & H & Q). injection Q as <-. eauto.
Qed.

Lemma mat_aget fs : forall sf n, mat_fields fs = Ok sf ->
  match aget n fs with
  | Some (t, d) => exists s, materialize_type t = Ok s /\
      aget n sf = Some (s, mkF n (schema_default (default_value d)) (has_default d) None)
  | None => aget n sf = None
  end.
Proof.
  induction fs as [|[k [t d]] fs IH]; intros sf n H.
  - injection H as <-. reflexivity.
  - cbn [rmap] in H. apply rbind_ok in H. destruct H as (y & Hy & H). apply rbind_ok in H. destruct H as (ys & Hys & H).
    injection H as <-. apply rbind_ok in Hy. destruct Hy as (s & Hs & Hy). injection Hy as <-. cbn [aget].
    destruct (String.eqb_spec n k) as [->|]; [eauto|]. now apply IH.
Qed.

Lemma sections_in fs gs path cs : sections fs gs path = Ok cs -> forall n ft m, In (n, (ft, m)) gs ->
  exists here, field_section fs path n ft m = Ok here /\ incl here cs.
Proof.
  revert cs. induction gs as [|[k [t q]] gs IH]; intros cs H n ft m I; [destruct I|].
  apply sections_cons in H. destruct H as (here & rest & H1 & H2 & ->). destruct I as [I|I].
  - injection I as -> -> ->. exists here. split; [exact H1|]. apply incl_appl, incl_refl.
  - destruct (IH rest H2 n ft m I) as (h & A & B). exists h. split; [exact A|]. now apply incl_appr.
Qed.

(** changes of a struct, split *)
Lemma find_struct_ok n fs ver n' gs ver' path cs :
  find_changes (SStruct n fs ver) (SStruct n' gs ver') path = Ok cs ->
  exists c1, sections fs gs path = Ok c1 /\ incl c1 cs /\ incl (removed_fields path gs fs) cs.
Proof.
  rewrite find_struct. intros H. apply rbind_ok in H. destruct H as (c1 & H & Q). injection Q as <-. exists c1.
  split; [exact H|]. split; [apply incl_appl, incl_refl|apply incl_appr, incl_refl].
Qed.

Lemma mat_struct t s : materialize_type t = Ok s -> is_struct s = is_dataclass_ty t.
Proof.
  destruct t; cbn [materialize_type]; intros H; try discriminate;
    repeat match type of H with rbind _ _ = Ok _ => apply rbind_ok in H; destruct H as (? & ? & H) end; injection H as <-; reflexivity.
Qed.

(** a dataclass that went away was not empty, so a removed field is reported *)
Lemma gone_reported t : forall s path, materialize_type t = Ok s -> is_struct s = true -> no_empty t ->
  exists p ft d h, In (FieldRemoved p ft d h) (all_gone s path).
Proof.
  induction t as [| | | | |i IH|l IH|kt vt IHk IHv|i IH|l IH|c fs IH|n ms|l|n] using ty_ind'; intros s path M Q N;
    try (rewrite (mat_struct _ _ M) in Q; discriminate Q).
  destruct (mat_data _ _ _ M) as (sf & ver & Mf & ->). destruct N as [Ne N].
  destruct fs as [|[k [ft d]] fs]; [now destruct Ne|]. apply Forall_cons_iff in IH. destruct IH as [Hh _]. cbn [fst snd] in Hh.
  destruct N as [Nh _]. cbn [rmap] in Mf. apply rbind_ok in Mf. destruct Mf as (y & Hy & H). apply rbind_ok in H. destruct H as (ys & Hys & H).
  injection H as <-. apply rbind_ok in Hy. destruct Hy as (s & Hs & Hy). injection Hy as <-.
  rewrite all_gone_struct. cbn [flat_map fst snd]. destruct (is_struct s) eqn:Es.
  - destruct (Hh s (path ++ [k])%list Hs Es Nh) as (p & f' & d' & h' & I). exists p, f', d', h'. apply in_or_app. now left.
  - do 4 eexists. left. reflexivity.
Qed.

(** an added dataclass whose added fields all have defaults can be constructed *)
Lemma new_constructible t : forall s path, materialize_type t = Ok s -> is_struct s = true ->
  (forall c, In c (all_new s path) -> mild c) -> constructible t = true.
Proof.
  induction t as [| | | | |i IH|l IH|kt vt IHk IHv|i IH|l IH|c fs IH|n ms|l|n] using ty_ind'; intros s path M Q H;
    try (rewrite (mat_struct _ _ M) in Q; discriminate Q).
  destruct (mat_data _ _ _ M) as (sf & ver & Mf & ->). rewrite all_new_struct in H. clear M Q.
  cbn [constructible]. revert sf Mf H. induction fs as [|[k [ft d]] fs IHf]; intros sf Mf H; [reflexivity|].
  apply Forall_cons_iff in IH. destruct IH as [Hh IH]. cbn [fst snd] in Hh.
  cbn [rmap] in Mf. apply rbind_ok in Mf. destruct Mf as (y & Hy & Mf). apply rbind_ok in Mf. destruct Mf as (ys & Hys & Mf).
  injection Mf as <-. apply rbind_ok in Hy. destruct Hy as (s & Hs & Hy). injection Hy as <-. cbn [flat_map fst snd] in H.
  cbn [forallb]. apply andb_true_iff. split.
  - destruct d; auto. destruct (is_struct s) eqn:Es.
    + apply (Hh s (path ++ [k])%list Hs Es). intros c0 I. apply H. apply in_or_app. now left.
    + specialize (H _ (or_introl eq_refl)). discriminate H.
  - apply (IHf IH ys Hys). intros c0 I. apply H. apply in_or_app. now right.
Qed.

Lemma constructible_default t : constructible t = true -> exists v, default_of t v.
Proof.
  induction t as [| | | | |i IH|l IH|kt vt IHk IHv|i IH|l IH|c fs IH|n ms|l|n] using ty_ind'; intros Q; try discriminate Q.
  cbn [constructible] in Q. cbn [default_of].
  assert (G : exists d, all2 false (fun (f : string * (ty * dflt)) kv =>
                      let '(fn, (ft, fd)) := f in fst kv = fn /\
                      match fd with DValue x | DFactory x => snd kv = x | DMissing => default_of ft (snd kv) end) fs d).
  { induction fs as [|[k [ft d]] fs IHf]; [exists []; exact I|]. apply Forall_cons_iff in IH. destruct IH as [Hh IH]. cbn [fst snd] in Hh.
    cbn [forallb] in Q. apply andb_true_iff in Q. destruct Q as [Q1 Q2]. destruct (IHf IH Q2) as [e He].
    destruct d.
    - destruct (Hh Q1) as [v V]. exists ((k, v) :: e). cbn. auto.
    - exists ((k, v) :: e). cbn. auto.
    - exists ((k, v) :: e). cbn. auto. }
  destruct G as [d G]. exists (VObj (c_name c) d), d. auto.
Qed.

Lemma default_constructible t : forall v, default_of t v -> constructible t = true.
Proof.
  induction t as [| | | | |i IH|l IH|kt vt IHk IHv|i IH|l IH|c fs IH|n ms|l|n] using ty_ind'; intros v Q; try destruct Q.
  destruct H as [-> A]. cbn [constructible]. rename x into d. revert d A. induction fs as [|[k [ft fd]] fs IHf]; intros d A; [reflexivity|].
  apply Forall_cons_iff in IH. destruct IH as [Hh IH]. cbn [fst snd] in Hh. destruct d as [|[k' v] d]; cbn [all2] in A; [discriminate A|].
  destruct A as [[_ A] B]. cbn [forallb]. rewrite (IHf IH d B), andb_true_r. destruct fd; auto. now apply (Hh v).
Qed.

Lemma weak_fits_nil t : weak_fits t (VDict []).
Proof.
  destruct t; cbn [weak_fits]; auto. apply all_in. intros [n [ft fd]] _. destruct fd; cbn [aget]; auto.
Qed.

(** what happens to a field of the new dataclass *)
Lemma field_cases fs gs sf sg path cs n u fd : mat_fields fs = Ok sf -> mat_fields gs = Ok sg ->
  sections sf sg path = Ok cs -> (forall c, In c cs -> mild c) -> all (fun f => no_empty (fst (snd f))) fs ->
  In (n, (u, fd)) gs ->
  match aget n fs with
  | None => has_default fd = true \/ constructible u = true
  | Some (t, od) => exists s r inner, materialize_type t = Ok s /\ materialize_type u = Ok r /\
      is_dataclass_ty t = is_dataclass_ty u /\
      find_changes s r (path ++ [n])%list = Ok inner /\ incl inner cs /\
      (has_default od = true -> has_default fd = true)
  end.
Proof.
  intros Mf Mg Hs Hm Ne I.
  assert (Ig : exists r, materialize_type u = Ok r /\ In (n, (r, mkF n (schema_default (default_value fd)) (has_default fd) None)) sg).
  { clear -Mg I. revert sg Mg. induction gs as [|[k [t d]] gs IH]; intros sg Mg; [destruct I|].
    cbn [rmap] in Mg. apply rbind_ok in Mg. destruct Mg as (y & Hy & Mg). apply rbind_ok in Mg. destruct Mg as (ys & Hys & Mg).
    injection Mg as <-. apply rbind_ok in Hy. destruct Hy as (s & Hs & Hy). injection Hy as <-. destruct I as [I|I].
    - injection I as -> -> ->. exists s. split; [exact Hs|now left].
    - destruct (IH I ys Hys) as (r & R & J). exists r. split; [exact R|now right]. }
  destruct Ig as (r & Mr & Ig). destruct (sections_in _ _ _ _ Hs _ _ _ Ig) as (here & Fh & Inc).
  pose proof (mat_aget fs sf n Mf) as G. unfold field_section, sfield in *. destruct (aget n fs) as [[t od]|] eqn:Ef.
  - destruct G as (s & Ms & G). rewrite G in Fh.
    assert (Nt : no_empty t).
    { rewrite all_in in Ne. apply aget_some_in in Ef. apply (Ne _ Ef). }
    destruct (is_struct r && negb (is_struct s)) eqn:C1.
    { injection Fh as <-. exfalso. apply (Hm _ (Inc _ (or_introl eq_refl))). }
    destruct (is_struct s && negb (is_struct r)) eqn:C2.
    { injection Fh as <-. exfalso. apply andb_true_iff in C2. destruct C2 as [C2 _].
      destruct (gone_reported t s (path ++ [n])%list Ms C2 Nt) as (p & ft & d & h & J). apply (Hm _ (Inc _ (or_intror J))). }
    apply rbind_ok in Fh. destruct Fh as (inner & Fi & Q). injection Q as <-. exists s, r, inner.
    split; [exact Ms|]. split; [exact Mr|]. split.
    { rewrite <- (mat_struct _ _ Ms), <- (mat_struct _ _ Mr). destruct (is_struct r), (is_struct s); auto; discriminate. }
    split; [exact Fi|]. split.
    { intros c C. apply Inc. apply in_or_app. now left. }
    intros Hd. destruct (has_default fd) eqn:Hf; [reflexivity|]. exfalso.
    assert (J : In (DefaultValueRemoved (path ++ [n])%list (schema_default (default_value od)))
                  (default_changes path n (mkF n (schema_default (default_value od)) (has_default od) None)
                     (mkF n (schema_default (default_value fd)) (has_default fd) None))).
    { unfold default_changes. cbn [fm_has_default fm_default]. rewrite Hd, Hf. now left. }
    rewrite Hf in J. apply (Hm _ (Inc _ (in_or_app _ _ _ (or_intror J)))).
  - rewrite G in Fh. injection Fh as <-. destruct (is_struct r) eqn:Er.
    + right. apply (new_constructible u r (path ++ [n])%list Mr Er). auto.
    + left. specialize (Hm _ (Inc _ (or_introl eq_refl))). exact Hm.
Qed.

Lemma constructible_mono u : forall t s r path cs,
  materialize_type t = Ok s -> materialize_type u = Ok r -> find_changes s r path = Ok cs ->
  is_dataclass_ty u = true -> no_empty t -> (forall c, In c cs -> mild c) ->
  constructible t = true -> constructible u = true.
Proof.
  induction u as [| | | | |i IH|l IH|kt vt IHk IHv|i IH|l IH|c gs IH|n ms|l|n] using ty_ind';
    intros t s r path cs Ms Mr F D Ne Hm K; try discriminate D.
  destruct t as [| | | | | | | | | |c0 fs| | | ]; try discriminate K.
  destruct (mat_data _ _ _ Ms) as (sf & ver & Mf & ->). destruct (mat_data _ _ _ Mr) as (sg & ver' & Mg & ->).
  destruct (find_struct_ok _ _ _ _ _ _ _ _ F) as (c1 & Hs & I1 & I2). destruct Ne as [_ Ne].
  cbn [constructible] in K |- *. rewrite forallb_forall in K |- *. rewrite Forall_forall in IH.
  intros [n [u fd]] I.
  pose proof (field_cases fs gs sf sg path c1 n u fd Mf Mg Hs (fun c C => Hm c (I1 c C)) Ne I) as G.
  destruct fd as [|v|v]; auto. destruct (aget n fs) as [[t od]|] eqn:Ef; [|destruct G as [G|G]; [discriminate G|exact G]].
  destruct G as (s & r & inner & Ms' & Mr' & Dt & Fi & Inc & Hd). apply aget_some_in in Ef. specialize (K _ Ef). cbn in K.
  destruct od; try (discriminate (Hd eq_refl)).
  assert (Du : is_dataclass_ty u = true) by (rewrite <- Dt; destruct t; try discriminate K; reflexivity).
  apply (IH _ I t s r (path ++ [n])%list inner); auto.
  rewrite all_in in Ne. apply (Ne _ Ef).
Qed.

Lemma sflat_flat t : forall s, materialize_type t = Ok s -> sflat s -> flat t.
Proof.
  induction t as [| | | | |i IH|l IH|kt vt IHk IHv|i IH|l IH|c fs IH|n ms|l|n] using ty_ind'; intros s M F;
    cbn [materialize_type] in M; try discriminate M; try exact I;
    repeat match type of M with rbind _ _ = Ok _ => apply rbind_ok in M; destruct M as (? & ? & M) end; injection M as <-;
    try destruct F; cbn [flat].
  - eapply IH; eauto.
  - apply rmap_forall2 in H. clear -IH H F. cbn [sflat] in F. revert IH. induction H as [|a y l ys Ha H IHH]; intros IH; [exact I|].
    apply Forall_cons_iff in IH. destruct IH as [Hh IH]. destruct F as [F1 F2]. split; [eapply Hh; eauto|auto].
  - split; eauto.
Qed.

Lemma unmarked_items y items : items_of y = Some items -> unmarked y -> forall k w, In (k, w) items -> unmarked w.
Proof.
  destruct y as [| | | | | |[|z l]|d|n d| | | ]; intros H U k w I; try discriminate H; injection H as <-; try destruct I; cbn [unmarked] in U.
  - destruct U as [_ U]. rewrite all_in in U. apply (U _ I).
  - rewrite all_in in U. apply (U _ I).
Qed.

Lemma floatable_items y items : items_of y = Some items -> floatable y -> forall k w, In (k, w) items -> floatable w.
Proof.
  destruct y as [| | | | | |[|z l]|d|n d| | | ]; intros H U k w I; try discriminate H; injection H as <-; try destruct I; cbn [floatable] in U;
    rewrite all_in in U; apply (U _ I).
Qed.

Lemma unmarked_weak w : unmarked w -> is_weak w = false.
Proof. destruct w; auto. cbn. tauto. Qed.

Lemma unmarked_ok t : forall x, unmarked x -> marks_ok t x.
Proof.
  induction t as [| | | | |i IH|l IH|kt vt IHk IHv|i IH|l IH|c fs IH|n ms|l|n] using ty_ind'; intros x U; cbn [marks_ok]; auto.
  - destruct x; auto. cbn [unmarked] in U. rewrite all_in in U |- *. auto.
  - destruct (items_of x) as [items|] eqn:Ei; [|exact I].
    pose proof (unmarked_items x items Ei U) as Ui. split.
    + intros k w J W. rewrite (unmarked_weak w (Ui _ _ J)) in W. discriminate W.
    + apply all_in. rewrite Forall_forall in IH. intros f F. destruct (aget (fst f) items) as [w|] eqn:Ew; [|exact I].
      apply aget_some_in in Ew. rewrite (unmarked_weak w (Ui _ _ Ew)). apply (IH f F). apply (Ui _ _ Ew).
Qed.

(** weak sections of old classes are weak sections of new ones *)
Lemma weak_mono u : forall t s r path cs w,
  materialize_type t = Ok s -> materialize_type u = Ok r -> find_changes s r path = Ok cs ->
  is_dataclass_ty t = is_dataclass_ty u -> no_empty t -> (forall c, In c cs -> mild c) -> loadable u -> plain_fields u ->
  weak_known t w -> weak_fits t w -> weak_fits u w.
Proof.
  induction u as [| | | | |i IH|l IH|kt vt IHk IHv|i IH|l IH|c gs IH|n ms|l|n] using ty_ind';
    intros t s r path cs w Ms Mr F D Ne Hm Lo Pf K W; try exact I.
  destruct t as [| | | | | | | | | |c0 fs| | | ]; try discriminate D. destruct w as [| | | | | | |m| | | | ]; try (destruct K; fail).
  destruct (mat_data _ _ _ Ms) as (sf & ver & Mf & ->). destruct (mat_data _ _ _ Mr) as (sg & ver' & Mg & ->).
  destruct (find_struct_ok _ _ _ _ _ _ _ _ F) as (c1 & Hs & I1 & I2). destruct Ne as [_ Ne].
  cbn [weak_fits weak_known loadable plain_fields] in *. destruct K as [K1 K2]. destruct Lo as (_ & Nn & _ & Lo). destruct Pf as [Nw Pf].
  rewrite all_in in K2, Lo, Pf, W |- *. rewrite Forall_forall in IH.
  intros [n [u fd]] I.
  pose proof (field_cases fs gs sf sg path c1 n u fd Mf Mg Hs (fun c C => Hm c (I1 c C)) Ne I) as G.
  destruct fd as [|v|v]; auto. intros Du. destruct (aget n m) as [w'|] eqn:Ew; [|exact Logic.I].
  destruct (aget n fs) as [[t od]|] eqn:Ef.
  - destruct G as (s & r & inner & Ms' & Mr' & Dt & Fi & Inc & Hd). apply aget_some_in in Ef.
    specialize (K2 _ Ef). specialize (W _ Ef). cbn [fst snd] in K2, W. rewrite Ew in K2, W.
    destruct od; try (discriminate (Hd eq_refl)). rewrite Dt in W. specialize (W Du).
    rewrite all_in in Ne.
    apply (IH _ I t s r (path ++ [n])%list inner); auto; try apply (Ne _ Ef); try apply (Lo _ I); try apply (Pf _ I).
  - exfalso. assert (Ik : In n (akeys m)) by (apply aget_some_in in Ew; unfold akeys; apply in_map_iff; now exists (n, w')).
    assert (Ig : In n (field_names gs)) by (unfold field_names; apply in_map_iff; now exists (n, (u, DMissing))).
    destruct (K1 n Ik) as [->|[->|K]]; [contradiction|contradiction|]. apply aget_none_notin in Ef. contradiction.
Qed.

Section Compat.
  Variable E : env.
  Variable sch allow ff : bool.
  Notation den := (denotes E sch allow ff false).
  Notation acc := (accepts E sch allow ff false).

  Definition given (items : list (string * pyval)) (f : string * (ty * dflt)) (kv : string * pyval) : Prop :=
    let '(n, (ft, fd)) := f in
    fst kv = n /\
    match aget n items with
    | None => default_field ft fd (VDict []) (snd kv)
    | Some w => if is_weak w then default_field ft fd w (snd kv) else den ft w (snd kv)
    end.
  Definition known (fs : list (string * (ty * dflt))) (items : list (string * pyval)) : Prop :=
    forall k w, In (k, w) items -> k = "!__name__" \/ is_weak w = true \/ In k (field_names fs) \/ false = true.

  Lemma all2_in {A B} (f : A -> B -> Prop) l m x : all2 false f l m -> In x l -> exists y, In y m /\ f x y.
  Proof.
    revert m. induction l as [|a l IH]; intros [|b m] H I; cbn [all2] in H; try discriminate H; try (destruct I; fail); destruct I as [->|I].
    - exists b. split; [now left|apply H].
    - destruct (IH m (proj2 H) I) as (y & Y & F). exists y. split; [now right|exact F].
  Qed.

  Lemma all2_build {A B} (f : A -> B -> Prop) l : (forall x, In x l -> exists y, f x y) -> exists m, all2 false f l m.
  Proof.
    induction l as [|a l IH]; intros H; [exists []; exact I|]. destruct (H a (or_introl eq_refl)) as [b Hb].
    destruct IH as [m Hm]; [intros x X; apply H; now right|]. exists (b :: m). cbn. auto.
  Qed.

  Lemma data_mono fs gs sf sg path c1 items o :
    mat_fields fs = Ok sf -> mat_fields gs = Ok sg -> sections sf sg path = Ok c1 ->
    (forall c, In c c1 -> mild c) -> (forall c, In c (removed_fields path sg sf) -> mild c) ->
    all (fun f => no_empty (fst (snd f))) fs -> ~ In "!__name__" (field_names gs) -> ~ In WEAK_REF (field_names gs) ->
    (forall k w, In (k, w) items -> is_weak w = true -> k = WEAK_REF \/ k = "!__name__" \/ In k (field_names fs)) ->
    (forall n t od u fd s r inner w, aget n fs = Some (t, od) -> In (n, (u, fd)) gs ->
       materialize_type t = Ok s -> materialize_type u = Ok r -> find_changes s r (path ++ [n])%list = Ok inner ->
       incl inner c1 -> is_dataclass_ty t = is_dataclass_ty u -> aget n items = Some w ->
       (is_weak w = true -> weak_fits t w -> weak_fits u w) /\ (is_weak w = false -> acc t w -> acc u w)) ->
    known fs items -> all2 false (given items) fs o ->
    known gs items /\ exists o', all2 false (given items) gs o'.
  Proof.
    intros Mf Mg Hs Hm Hr Ne Nn Nw Wk IH Kn A. split.
    - intros k w I. destruct (Kn k w I) as [K|[K|[K|K]]]; auto.
      right. right. left. unfold field_names in *.
      assert (Q : In k (map fst sg) \/ ~ In k (map fst sg)) by (destruct (in_dec string_dec k (map fst sg)); auto).
      destruct Q as [Q|Q].
      + destruct (rmap_fields_names _ _ Mg) as [<- _]. exact Q.
      + exfalso. destruct (rmap_fields_names _ _ Mf) as [Q1 _]. rewrite <- Q1 in K. apply in_map_iff in K.
        destruct K as ([k' [st m]] & <- & K). cbn [fst] in *.
        pose proof (mat_aget fs sf k' Mf) as G. 
        assert (Am : amem k' sg = false) by (apply amem_false; exact Q).
        destruct (is_struct st) eqn:Es.
        * destruct (rmap_fields_names _ _ Mf) as [_ Q2]. destruct (Q2 _ K) as (t & d & J & Mt & _). cbn [fst snd] in *.
          rewrite all_in in Ne. specialize (Ne _ J). cbn [fst snd] in Ne.
          destruct (gone_reported t st (path ++ [k'])%list Mt Es Ne) as (p & ft & d' & h & In').
          apply (Hr (FieldRemoved p ft d' h)). unfold removed_fields. apply in_flat_map. exists (k', (st, m)). split; [exact K|].
          cbn [fst snd]. unfold sfield in *. rewrite Am, Es. exact In'.
        * apply (Hr (field_removed path k' (st, m))). unfold removed_fields. apply in_flat_map. exists (k', (st, m)). split; [exact K|].
          cbn [fst snd]. unfold sfield in *. rewrite Am, Es. now left.
    - apply all2_build. intros [n [u fd]] I.
      pose proof (field_cases fs gs sf sg path c1 n u fd Mf Mg Hs Hm Ne I) as G.
      assert (W : exists v, match aget n items with
                    | None => default_field u fd (VDict []) v
                    | Some w => if is_weak w then default_field u fd w v else den u w v end).
      { destruct (aget n fs) as [[t od]|] eqn:Ef.
        - destruct G as (s & r & inner & Ms & Mr & Dt & Fi & Inc & Hd).
          destruct (all2_in _ _ _ _ A (aget_some_in _ _ _ Ef)) as ([k v] & _ & _ & D). cbn [snd] in D.
          assert (Df : forall w, (weak_fits t w -> weak_fits u w) -> default_field t od w v -> exists v', default_field u fd w v').
          { intros w Hw Dw. destruct od; cbn [default_field] in Dw.
            - destruct Dw as [D1 D2]. destruct fd; [|eexists; reflexivity|eexists; reflexivity].
              pose proof (default_constructible t v D1) as K.
              assert (Du : is_dataclass_ty u = true) by (rewrite <- Dt; destruct t; try discriminate K; reflexivity).
              destruct (constructible_default u) as [v' V'].
              { apply (constructible_mono u t s r (path ++ [n])%list inner); auto.
                rewrite all_in in Ne. apply aget_some_in in Ef. apply (Ne _ Ef). }
              exists v'. split; auto.
            - specialize (Hd eq_refl). destruct fd; [discriminate Hd| |]; eexists; reflexivity.
            - specialize (Hd eq_refl). destruct fd; [discriminate Hd| |]; eexists; reflexivity. }
          destruct (aget n items) as [w|] eqn:Ei.
          + destruct (IH n t od u fd s r inner w) as [IH1 IH2]; auto. destruct (is_weak w).
            * apply Df; auto.
            * apply IH2; auto. now exists v.
          + apply Df; auto. intros _. apply weak_fits_nil.
        - destruct (aget n items) as [w|] eqn:Ei.
          + exfalso. apply aget_some_in in Ei. destruct (Kn n w Ei) as [->|[K|[K|K]]]; [| | |discriminate K].
            * apply Nn. unfold field_names. apply in_map_iff. exists ("!__name__", (u, fd)). auto.
            * assert (Ig : In n (field_names gs)) by (unfold field_names; apply in_map_iff; now exists (n, (u, fd))).
              destruct (Wk _ _ Ei K) as [->|[->|K']]; [contradiction|contradiction|]. apply aget_none_notin in Ef. contradiction.
            * apply aget_none_notin in Ef. contradiction.
          + destruct fd; [|eexists; reflexivity|eexists; reflexivity]. destruct G as [G|G]; [discriminate G|].
            destruct (constructible_default u G) as [v' V']. exists v'. split; [exact V'|apply weak_fits_nil]. }
      destruct W as [v W]. exists (n, v). cbn. auto.
  Qed.

  Lemma changed_mono t u s r x : materialize_type t = Ok s -> materialize_type u = Ok r ->
    is_subtype s r = true /\ sflat s -> exact_values t -> exact_values u -> literals_load E u -> floatable x ->
    acc t x -> acc u x.
  Proof.
    intros Ms Mr [Q F] X X' L Fx. apply (sub_mono E sch allow ff t u s r); auto. eapply sflat_flat; eauto.
  Qed.

  Lemma list_mono' i j x : (forall y, floatable y -> marks_ok i y -> acc i y -> acc j y) ->
    floatable x -> marks_ok (TList i) x -> acc (TList i) x -> acc (TList j) x.
  Proof.
    intros H Fx Ux (v & l & m & -> & -> & F). cbn [floatable marks_ok] in Fx, Ux. rewrite all_in in Fx, Ux.
    assert (G : exists m', Forall2 (den j) l m').
    { induction F as [|y w l m D F IH]; [exists []; constructor|].
      destruct (IH (fun z Z => Ux z (or_intror Z)) (fun z Z => Fx z (or_intror Z))) as [m' M'].
      destruct (H y) as [w' W']; [apply Fx; now left|apply Ux; now left|eexists; eauto|]. exists (w' :: m'). constructor; auto. }
    destruct G as [m' M']. exists (VList m'), l, m'. auto.
  Qed.

  Lemma enum_at_field c gs n u fd q : NoDup (field_names gs) -> In (n, (u, fd)) gs ->
    enum_at (TData c gs) (n :: q) = enum_at u q.
  Proof.
    intros N I. cbn [enum_at]. induction gs as [|[k [t d]] gs IH]; [destruct I|]. inversion N as [|? ? N1 N2]; subst.
    destruct I as [I|I].
    - injection I as -> -> ->. now rewrite String.eqb_refl.
    - destruct (String.eqb_spec n k) as [->|]; [|now apply IH]. exfalso. apply N1. apply in_map_iff. now exists (k, (u, fd)).
  Qed.

  Lemma compat_mono u : forall t s r path cs x,
    materialize_type t = Ok s -> materialize_type u = Ok r -> find_changes s r path = Ok cs ->
    (forall c, In c cs -> mild c) ->
    (forall q e v y ms, In (EnumVariantRemoved (path ++ q)%list e v y) cs -> enum_at u q = Some ms ->
       exists m, In m ms /\ py_eq y (snd m) = true) ->
    exact_values t -> exact_values u -> literals_load E u -> loadable u -> plain_fields u -> unversioned t -> unversioned u -> no_empty t -> names_differ t ->
    floatable x -> marks_ok t x -> acc t x -> acc u x.
  Proof.
    induction u as [| | | | |j IH|us IH|ku vu IHk IHv|j IH|us IH|c' gs IH|n' ms'|l'|n'] using ty_ind';
      intros t s r path cs x Ms Mr F Hm He X X' L Lo Pf V V' Ne Nm Fx Ux A;
      assert (TC : cs = [TypeChanged path s r] -> accepts E sch allow ff false _ x)
        by (intros ->; apply (changed_mono t _ s r x Ms Mr (Hm _ (or_introl eq_refl))); auto);
      cbn [materialize_type] in Mr; try discriminate Mr;
      repeat match type of Mr with rbind _ _ = Ok _ => apply rbind_ok in Mr; destruct Mr as (? & ? & Mr) end; injection Mr as <-;
      destruct s as [p|si|sl|sk sv|sl|sn sf ver|si|sn svs|sl| ]; cbn [find_changes] in F; try discriminate F;
      try (injection F as <-; apply TC; reflexivity).
    1-4: match type of F with context [String.eqb ?a ?b] => destruct (String.eqb_spec a b) as [->|] end; injection F as <-; [|apply TC; reflexivity];
      destruct t; cbn [materialize_type] in Ms; try discriminate Ms; auto;
      repeat match type of Ms with rbind _ _ = Ok _ => apply rbind_ok in Ms; destruct Ms as (? & ? & Ms) end; discriminate Ms.
    - (* List *)
      destruct t; cbn [materialize_type] in Ms; try discriminate Ms;
      repeat match type of Ms with rbind _ _ = Ok _ => apply rbind_ok in Ms; destruct Ms as (? & ? & Ms) end; try discriminate Ms.
      injection Ms as <-. apply (list_mono' t); auto. intros y Fy Uy. eapply (IH t); eauto.
    - (* Optional *)
      destruct t; cbn [materialize_type] in Ms; try discriminate Ms;
      repeat match type of Ms with rbind _ _ = Ok _ => apply rbind_ok in Ms; destruct Ms as (? & ? & Ms) end; try discriminate Ms.
      injection Ms as <-. destruct A as (v & [[-> _]|[Nx D]]).
      + exists VNone. left. auto.
      + destruct (IH t _ _ path cs x H0 H F Hm He X X' L Lo Pf V V' Ne Nm Fx Ux) as [v' D']; [now exists v|].
        exists v'. right. auto.
    - (* dataclass *)
      destruct t as [| | | | |i|ts|kt vt|i|ts|c fs|n ms|l|n]; cbn [materialize_type] in Ms; try discriminate Ms;
      repeat match type of Ms with rbind _ _ = Ok _ => let s := fresh "s" in let M := fresh "M" in apply rbind_ok in Ms; destruct Ms as (s & M & Ms) end; try discriminate Ms.
      injection Ms as <- <- Hv. rename x0 into sg. rename H into Mg. rename M into Mf. clear TC.
      destruct (find_struct_ok (c_name c) s ver (c_name c') sg None path cs F) as (c1 & Hs & I1 & I2).
      destruct A as (v & y & items & o & Ey & Ei & -> & Kn & A).
      destruct V as [Vc V]. destruct V' as [Vc' V']. destruct Ne as [_ Ne]. destruct Nm as [_ Nm]. cbn [deser_versioned] in Ey. rewrite Vc in Ey. injection Ey as <-.
      cbn [loadable] in Lo. destruct Lo as (Nd & Nn & _ & Lo). cbn [exact_values literals_load] in X, X', L.
      rewrite Forall_forall in IH. cbn [marks_ok] in Ux. rewrite Ei in Ux. destruct Ux as [Ux Uf]. destruct Pf as [Nw Pf].
      destruct (data_mono fs gs s sg path c1 items o Mf Mg Hs (fun c C => Hm c (I1 c C)) (fun c C => Hm c (I2 c C)) Ne Nn Nw) as [Kn' [o' A']]; auto.
      + intros n t od u fd st ru inner w Ef Ig Mt Mu Fi Inc Dt Ew. apply aget_some_in in Ef. rewrite all_in in X, X', L, V, V', Ne, Lo, Pf, Nm, Uf.
        specialize (Uf _ Ef). specialize (Pf _ Ig). cbn [fst snd] in Uf. rewrite Ew in Uf. apply aget_some_in in Ew.
        specialize (X _ Ef). specialize (X' _ Ig). specialize (L _ Ig). specialize (V _ Ef). specialize (V' _ Ig). specialize (Ne _ Ef). specialize (Nm _ Ef).
        specialize (Lo _ Ig). cbn [fst snd] in *. split; intros W; rewrite W in Uf.
        { apply (weak_mono u t st ru (path ++ [n])%list inner); auto. }
        apply (IH _ Ig t st ru (path ++ [n])%list inner); auto.
        * intros q e v' y ms I Q. apply (He (n :: q) e v' y ms).
          { apply I1, Inc. rewrite <- app_assoc in I. exact I. }
          now rewrite (enum_at_field c' gs n u fd q Nd Ig).
        * eapply floatable_items; eauto.
      + exists (VObj (c_name c') o'). cbn [denotes]. exists x, items, o'. split; [cbn [deser_versioned]; now rewrite Vc'|]. auto.
    - (* enum *)
      destruct t as [| | | | |i|ts|kt vt|i|ts|c fs|n ms|l|n]; cbn [materialize_type] in Ms; try discriminate Ms;
      repeat match type of Ms with rbind _ _ = Ok _ => let s := fresh "s" in let M := fresh "M" in apply rbind_ok in Ms; destruct Ms as (s & M & Ms) end; try discriminate Ms.
      injection Ms as -> ->. injection F as <-. rewrite enum_accepts in A |- *. destruct A as ([k v] & I & Q). cbn [snd] in Q.
      assert (G : exists m, In m ms' /\ py_eq v (snd m) = true).
      { destruct (amem k ms') eqn:Ek.
        - apply amem_true in Ek. apply in_map_iff in Ek. destruct Ek as ([k' w] & <- & Ew). cbn [fst] in I.
          exists (k', w). split; [exact Ew|]. cbn [snd]. destruct (py_eq v w) eqn:Q'; [reflexivity|]. exfalso.
          apply (Hm (EnumVariantValueChanged path n' k' v w)). apply in_or_app. left. unfold new_variants. apply in_flat_map.
          exists (k', w). split; [exact Ew|]. cbn [fst snd]. rewrite (in_nodup_aget _ _ _ Nm I), Q'. now left.
        - destruct (He [] n' k v ms') as (m & M1 & M2); [|reflexivity|].
          + apply in_or_app. right. unfold gone_variants. apply in_flat_map. exists (k, v). split; [exact I|]. cbn [fst snd]. rewrite Ek, app_nil_r. now left.
          + exists m. auto. }
      destruct G as (m & Im & Qm). exists m. split; [exact Im|]. cbn [exact_values] in X, X'. rewrite all_in in X, X'.
      apply (exact_trans v (snd m) x); auto. apply (X _ I).
    - (* literal *)
      destruct t as [| | | | |i|ts|kt vt|i|ts|c fs|n ms|l|n]; cbn [materialize_type] in Ms; try discriminate Ms;
      repeat match type of Ms with rbind _ _ = Ok _ => let s := fresh "s" in let M := fresh "M" in apply rbind_ok in Ms; destruct Ms as (s & M & Ms) end; try discriminate Ms.
      injection Ms as ->. injection F as <-. cbn [literals_load] in L. apply all_Forall in L. apply (lit_mono E sch allow ff false sl); auto.
      intros a I. destruct (py_elem a l') eqn:Q.
      + unfold py_elem in Q. apply existsb_exists in Q. destruct Q as (b & J & Q). eauto.
      + exfalso. assert (J : In a (set_minus sl l')) by (apply filter_In; now rewrite Q).
        unfold literal_changes in Hm. destruct (set_minus sl l') as [|b w]; [destruct J|].
        apply (Hm (LiteralValuesRemoved path (b :: w))). apply in_or_app. right. now left.
  Qed.
End Compat.

(** where enum variants are added and removed *)
Definition variant_at (t u : ty) (path : list string) (c : change) : Prop :=
  match c with
  | EnumVariantRemoved p _ v y => exists q ms, p = (path ++ q)%list /\ enum_at t q = Some ms /\ In (v, y) ms
  | EnumVariantAdded p _ v y => exists q ms, p = (path ++ q)%list /\ enum_at u q = Some ms /\ In (v, y) ms
  | _ => True
  end.

Lemma all_new_at t u path' s : forall path c, In c (all_new s path) -> variant_at t u path' c.
Proof.
  induction s as [p|i IH|l IH|k v IHk IHv|l IH|nm fs ver IH|i IH|nm ms|l| ] using sty_ind'; intros path c I; try destruct I.
  rewrite all_new_struct in I. apply in_flat_map in I. destruct I as (kv & J & I). rewrite Forall_forall in IH.
  destruct (is_struct (fst (snd kv))).
  - eapply IH; eauto.
  - destruct I as [<-|[]]. exact Logic.I.
Qed.
Lemma all_gone_at t u path' s : forall path c, In c (all_gone s path) -> variant_at t u path' c.
Proof.
  induction s as [p|i IH|l IH|k v IHk IHv|l IH|nm fs ver IH|i IH|nm ms|l| ] using sty_ind'; intros path c I; try destruct I.
  rewrite all_gone_struct in I. apply in_flat_map in I. destruct I as (kv & J & I). rewrite Forall_forall in IH.
  destruct (is_struct (fst (snd kv))).
  - eapply IH; eauto.
  - destruct I as [<-|[]]. exact Logic.I.
Qed.

Lemma variants_at u : forall t s r path cs c, names_differ t -> names_differ u ->
  materialize_type t = Ok s -> materialize_type u = Ok r -> find_changes s r path = Ok cs -> In c cs -> variant_at t u path c.
Proof.
  induction u as [| | | | |j IH|us IH|ku vu IHk IHv|j IH|us IH|c' gs IH|n' ms'|l'|n'] using ty_ind';
    intros t s r path cs ch Nt Nu Ms Mr F I;
    assert (TC : cs = [TypeChanged path s r] -> forall uu, variant_at t uu path ch)
      by (intros -> uu; destruct I as [<-|[]]; exact Logic.I);
    cbn [materialize_type] in Mr; try discriminate Mr;
    repeat match type of Mr with rbind _ _ = Ok _ => apply rbind_ok in Mr; destruct Mr as (? & ? & Mr) end; injection Mr as <-;
    destruct s as [p|si|sl|sk sv|sl|sn sf ver|si|sn svs|sl| ]; cbn [find_changes] in F; try discriminate F;
    try (injection F as <-; apply TC; reflexivity).
  1-4: match type of F with context [String.eqb ?a ?b] => destruct (String.eqb a b) end; injection F as <-; [destruct I|apply TC; reflexivity].
  - destruct t; cbn [materialize_type] in Ms; try discriminate Ms;
    repeat match type of Ms with rbind _ _ = Ok _ => apply rbind_ok in Ms; destruct Ms as (? & ? & Ms) end; try discriminate Ms.
    injection Ms as <-. apply (IH t x0 x path cs ch Nt Nu H0 H F I).
  - destruct t; cbn [materialize_type] in Ms; try discriminate Ms;
    repeat match type of Ms with rbind _ _ = Ok _ => apply rbind_ok in Ms; destruct Ms as (? & ? & Ms) end; try discriminate Ms.
    injection Ms as <-. apply (IH t x0 x path cs ch Nt Nu H0 H F I).
  - destruct t as [| | | | |i|ts|kt vt|i|ts|c fs|n ms|l|n]; cbn [materialize_type] in Ms; try discriminate Ms;
    repeat match type of Ms with rbind _ _ = Ok _ => let s := fresh "s" in let M := fresh "M" in apply rbind_ok in Ms; destruct Ms as (s & M & Ms) end; try discriminate Ms.
    injection Ms as <- <- Hv. rename x into sg. rename H into Mg. rename M into Mf. clear TC.
    change (find_changes (SStruct (c_name c) s ver) (SStruct (c_name c') sg None) path = Ok cs) in F. rewrite find_struct in F.
    apply rbind_ok in F. destruct F as (c1 & Hs & Q). injection Q as <-. apply in_app_or in I. destruct Nt as [Nt Nts], Nu as [Nu Nus]. destruct I as [I|I].
    + assert (G : exists n ft m here, In (n, (ft, m)) sg /\ field_section s path n ft m = Ok here /\ In ch here).
      { clear -Hs I. revert c1 Hs I. induction sg as [|[k [ft m]] sg IH]; intros c1 Hs I; [injection Hs as <-; destruct I|].
        apply sections_cons in Hs. destruct Hs as (here & rest & H1 & H2 & ->). apply in_app_or in I. destruct I as [I|I].
        - exists k, ft, m, here. split; [now left|auto].
        - destruct (IH rest H2 I) as (n & f & m' & h & A & B). exists n, f, m', h. split; [now right|exact B]. }
      destruct G as (n & ft & m & here & Ig & Fh & Ih).
      destruct (rmap_fields_names _ _ Mg) as [_ Q2]. destruct (Q2 _ Ig) as (u & d & J & Mu & _). cbn [fst snd] in *. clear Q2.
      unfold field_section, sfield in *. pose proof (mat_aget fs s n Mf) as G. destruct (aget n fs) as [[t od]|] eqn:Ef.
      * destruct G as (st & Ms & G). rewrite G in Fh.
        destruct (is_struct ft && negb (is_struct st)).
        { injection Fh as <-. destruct Ih as [<-|Ih]; [exact Logic.I|]. eapply all_new_at; eauto. }
        destruct (is_struct st && negb (is_struct ft)).
        { injection Fh as <-. destruct Ih as [<-|Ih]; [exact Logic.I|]. eapply all_gone_at; eauto. }
        apply rbind_ok in Fh. destruct Fh as (inner & Fi & Q). injection Q as <-. apply in_app_or in Ih. destruct Ih as [Ih|Ih].
        -- rewrite Forall_forall in IH. rewrite all_in in Nts, Nus. pose proof (aget_some_in _ _ _ Ef) as Ift.
           specialize (IH _ J t st ft (path ++ [n])%list inner ch (Nts _ Ift) (Nus _ J) Ms Mu Fi Ih).
           destruct ch; try exact Logic.I; destruct IH as (q & ms & -> & Eq & Im); exists (n :: q), ms; (split; [now rewrite <- app_assoc|]); (split; [|exact Im]).
           ++ now rewrite (enum_at_field c fs n t od q Nt Ift).
           ++ now rewrite (enum_at_field c' gs n u d q Nu J).
        -- unfold default_changes in Ih. repeat match type of Ih with In _ (if ?b then _ else _) => destruct b end; try destruct Ih as [<-|[]]; try destruct Ih; exact Logic.I.
      * rewrite G in Fh. injection Fh as <-. destruct (is_struct ft); [eapply all_new_at; eauto|]. destruct Ih as [<-|[]]. exact Logic.I.
    + unfold removed_fields in I. apply in_flat_map in I. destruct I as (kv & _ & I). match type of I with In _ (if ?b then _ else _) => destruct b end; [destruct I|].
      destruct (is_struct (fst (snd kv))); [eapply all_gone_at; eauto|]. destruct I as [<-|[]]. exact Logic.I.
  - destruct t as [| | | | |i|ts|kt vt|i|ts|c fs|n ms|l|n]; cbn [materialize_type] in Ms; try discriminate Ms;
    repeat match type of Ms with rbind _ _ = Ok _ => let s := fresh "s" in let M := fresh "M" in apply rbind_ok in Ms; destruct Ms as (s & M & Ms) end; try discriminate Ms.
    injection Ms as -> ->. injection F as <-. apply in_app_or in I. destruct I as [I|I]; apply in_flat_map in I; destruct I as ([k v] & J & I); cbn [fst snd] in I.
    + destruct (aget k svs); [destruct (py_eq _ _); [destruct I|]|]; destruct I as [<-|[]]; [exact Logic.I|].
      exists [], ms'. rewrite app_nil_r. auto.
    + destruct (amem k ms'); [destruct I|]. destruct I as [<-|[]]. exists [], svs. rewrite app_nil_r. auto.
  - destruct t as [| | | | |i|ts|kt vt|i|ts|c fs|n ms|l|n]; cbn [materialize_type] in Ms; try discriminate Ms;
    repeat match type of Ms with rbind _ _ = Ok _ => let s := fresh "s" in let M := fresh "M" in apply rbind_ok in Ms; destruct Ms as (s & M & Ms) end; try discriminate Ms.
    injection F as <-. unfold literal_changes in I. apply in_app_or in I.
    destruct I as [I|I]; [destruct (set_minus l' sl)|destruct (set_minus sl l')]; try destruct I as [<-|[]]; try destruct I; exact Logic.I.
Qed.

(** a report with nothing above INFO *)
Lemma report_mild s r cs k : distinct_names s -> distinct_names r -> find_changes s r [] = Ok cs -> compare_schemas s r = Ok k ->
  checker_severity k = INFO -> (forall p o n, In (TypeChanged p o n) (ck_changes k) -> sflat o) ->
  (forall c, In c cs -> mild c) /\
  (forall p e v y, In (EnumVariantRemoved p e v y) cs -> exists p' e' v' y', In (EnumVariantAdded p' e' v' y') cs /\ py_eq y y' = true).
Proof.
  intros Ds Dr F C S Fl. destruct (compare_ok s r cs Ds Dr F) as (c2 & c3 & C' & M2 & M3). rewrite C in C'. injection C' as ->.
  cbn [ck_changes] in Fl.
  assert (Inf : forall c, In c c3 -> change_severity c = INFO).
  { pose proof (severity_worst (mkChk s r c3 (flat_map (fun c => match proposed_fix c with Some r0 => [r0] | None => [] end) c3))) as W.
    rewrite S in W. cbn [ck_changes] in W. intros c Ic. apply (proj1 (worst_info _) W). now apply in_map. }
  clear S C. destruct M2 as (ps2 & rest2 & -> & P2 & _ & H2 & _). destruct M3 as (ps3 & rest3 & -> & P3 & _ & H3 & _).
  assert (In3 : forall c, In c rest2 \/ In c (map (fun p => field_renamed (snd p) (fst p)) ps2) ->
     In c rest3 \/ In c (map fst ps3) \/ In c (map snd ps3)).
  { intros c Hc. assert (J : In c (rest3 ++ map fst ps3 ++ map snd ps3)) by (eapply Permutation_in; [exact P3|apply in_or_app; exact Hc]).
    apply in_app_or in J. destruct J as [J|J]; [auto|]. apply in_app_or in J. tauto. }
  assert (Nps : ps2 = []).
  { destruct ps2 as [|[rr aa] ps2]; [reflexivity|]. exfalso. destruct (H2 rr aa (or_introl eq_refl)) as (R & A & _).
    destruct rr; try discriminate R. destruct aa; try discriminate A.
    destruct (In3 (FieldRenamed field field0)) as [J|[J|J]]; [right; left; reflexivity| | | ].
    - specialize (Inf _ (in_or_app _ _ _ (or_introl J))). discriminate Inf.
    - apply in_map_iff in J. destruct J as ([r1 a1] & Q & J). destruct (H3 _ _ J) as (R1 & _). cbn [fst] in Q. subst r1. discriminate R1.
    - apply in_map_iff in J. destruct J as ([r1 a1] & Q & J). destruct (H3 _ _ J) as (_ & R1 & _). cbn [snd] in Q. subst a1. discriminate R1. }
  subst ps2. cbn [map app] in P2. rewrite app_nil_r in P2.
  assert (Key : forall c, In c cs -> In c rest3 \/ In c (map fst ps3) \/ In c (map snd ps3)).
  { intros c Hc. apply In3. left. eapply Permutation_in; eauto. }
  assert (Stay : forall c, In c cs -> is_VariantAdded c = false -> is_VariantRemoved c = false -> change_severity c = INFO /\ In c rest3).
  { intros c Hc A R. destruct (Key c Hc) as [J|[J|J]].
    - split; [apply Inf, in_or_app; now left|exact J].
    - apply in_map_iff in J. destruct J as ([r1 a1] & Q & J). destruct (H3 _ _ J) as (R1 & _). cbn [fst] in Q. congruence.
    - apply in_map_iff in J. destruct J as ([r1 a1] & Q & J). destruct (H3 _ _ J) as (_ & R1 & _). cbn [snd] in Q. congruence. }
  split.
  - intros c Hc. destruct c; try exact I; destruct (Stay _ Hc eq_refl eq_refl) as [Sv J]; try discriminate Sv.
    + cbn in Sv |- *. destruct has_default; [reflexivity|]. unfold default_severity in Sv. destruct (proposed_fix _); discriminate Sv.
    + cbn [change_severity] in Sv. destruct (is_subtype old new) eqn:Q.
      * split; [exact Q|]. apply (Fl field old new). apply in_or_app. now left.
      * unfold default_severity in Sv. destruct (proposed_fix _); discriminate Sv.
  - intros p e v y Hc. destruct (Key _ Hc) as [J|[J|J]].
    + specialize (Inf _ (in_or_app _ _ _ (or_introl J))). discriminate Inf.
    + apply in_map_iff in J. destruct J as ([r1 a1] & Q & J). cbn [fst] in Q. subst r1. destruct (H3 _ _ J) as (_ & A1 & _).
      destruct a1 as [| | | | | | | |p' e' v' y'| | | ]; try discriminate A1.
      exists p', e', v', y'. split.
      * eapply Permutation_in; [apply Permutation_sym; exact P2|]. 
        assert (K2 : In (EnumVariantAdded p' e' v' y') (rest2 ++ map (fun p => field_renamed (snd p) (fst p)) [])).
        { eapply Permutation_in; [apply Permutation_sym; exact P3|]. apply in_or_app. right. apply in_or_app. right. apply in_map_iff. eexists. split; [|exact J]. reflexivity. }
        cbn [map] in K2. rewrite app_nil_r in K2. exact K2.
      * assert (K2 : In (enum_renamed (EnumVariantAdded p' e' v' y') (EnumVariantRemoved p e v y)) (rest3 ++ map (fun p => enum_renamed (snd p) (fst p)) ps3)).
        { apply in_or_app. right. apply in_map_iff. eexists. split; [|exact J]. reflexivity. }
        specialize (Inf _ K2). cbn [enum_renamed] in Inf. destruct (py_eq y y'); [reflexivity|]. discriminate Inf.
    + apply in_map_iff in J. destruct J as ([r1 a1] & Q & J). destruct (H3 _ _ J) as (_ & R1 & _). cbn [snd] in Q. subst a1. discriminate R1.
Qed.

From Verif Require Import FromDictFacts LoadProps.

(** the core, in terms of the changes found; [x] is read by the old class, [x'] by the new
    one, and both amount to [y] after upgrades *)
Lemma compat_core E sch allow ff c fs c' gs s r cs x x' y :
  ordinary E c fs -> ordinary E c' gs -> all (fun f => no_empty (fst (snd f))) fs ->
  lost_values_gone (TData c fs) (TData c' gs) ->
  materialize_type (TData c fs) = Ok s -> materialize_type (TData c' gs) = Ok r ->
  find_changes s r [] = Ok cs -> (forall c0, In c0 cs -> mild c0) ->
  (forall p e v y, In (EnumVariantRemoved p e v y) cs -> exists p' e' v' y', In (EnumVariantAdded p' e' v' y') cs /\ py_eq y y' = true) ->
  deser_versioned (e_class E) allow (TData c fs) x = Ok y -> deser_versioned (e_class E) allow (TData c' gs) x' = Ok y ->
  floatable y -> marks_ok (TData c fs) y ->
  accepts E sch allow ff false (TData c fs) x -> accepts E sch allow ff false (TData c' gs) x'.
Proof.
  intros (Lo1 & Nm1 & X1 & Ll1 & V1 & _) (Lo2 & Nm2 & X2 & Ll2 & V2 & Pf) Ne Lost Ms Mr F Hm He Ey Ey' Fy Uy A.
  pose proof (fun c0 => variants_at _ _ s r [] cs c0 Nm1 Nm2 Ms Mr F) as Va.
  destruct (mat_data _ _ _ Ms) as (sf & ver & Mf & Qs). destruct (mat_data _ _ _ Mr) as (sg & ver' & Mg & Qr).
  pose proof F as F'. rewrite Qs, Qr in F'.
  destruct (find_struct_ok _ _ _ _ _ _ _ _ F') as (c1 & Hs & I1 & I2).
  destruct A as (v & y0 & items & o & Ey0 & Ei & -> & Kn & A). rewrite Ey in Ey0. injection Ey0 as <-.
  cbn [loadable] in Lo2. destruct Lo2 as (Nd & Nn & _ & Lo). destruct Nm1 as [_ Nm1']. cbn [exact_values literals_load] in X1, X2, Ll2.
  cbn [marks_ok] in Uy. rewrite Ei in Uy. destruct Uy as [Uy Uf]. destruct Pf as [Nw Pf].
  destruct (data_mono E sch allow ff fs gs sf sg [] c1 items o Mf Mg Hs (fun c0 C0 => Hm c0 (I1 c0 C0)) (fun c0 C0 => Hm c0 (I2 c0 C0)) Ne Nn Nw) as [Kn' [o' A']]; auto.
  - intros n t od u fd st ru inner w Ef Ig Mt Mu Fi Inc Dt Ew. apply aget_some_in in Ef. rewrite all_in in X1, X2, Ll2, V1, V2, Ne, Lo, Nm1', Pf, Uf.
    specialize (Uf _ Ef). specialize (Pf _ Ig). cbn [fst snd] in Uf. rewrite Ew in Uf. apply aget_some_in in Ew.
    specialize (X1 _ Ef). specialize (X2 _ Ig). specialize (Ll2 _ Ig). specialize (V1 _ Ef). specialize (V2 _ Ig). specialize (Ne _ Ef).
    specialize (Lo _ Ig). specialize (Nm1' _ Ef). cbn [fst snd] in *. split; intros W; rewrite W in Uf.
    { apply (weak_mono u t st ru [n] inner); auto. }
    apply (compat_mono E sch allow ff u t st ru [n] inner); auto.
    + intros q e v' z ms I Q. apply Inc, I1 in I. pose proof (Va _ I) as (q0 & ms0 & Eq & E0 & J). cbn [app] in Eq. subst q0.
      destruct (He _ _ _ _ I) as (p' & e' & v2 & z' & I' & Qz).
      pose proof (Va _ I') as (q1 & ms1 & Eq & E1 & J1). cbn [app] in Eq. subst q1.
      destruct (Lost _ _ _ E0 J) as [(ms' & m' & Em & Im & Qm)|No].
      * pose proof (enum_at_field c' gs n u fd q Nd Ig) as Ea. cbn [app] in Em. rewrite Ea, Q in Em.
        injection Em as <-. eauto.
      * specialize (No _ _ _ E1 J1). cbn [snd] in No. congruence.
    + eapply floatable_items; eauto.
  - exists (VObj (c_name c') o'). cbn [denotes]. exists y, items, o'. auto.
Qed.

Lemma compat_accepts E sch allow ff c fs c' gs s r k x y :
  ordinary E c fs -> ordinary E c' gs -> all (fun f => no_empty (fst (snd f))) fs ->
  lost_values_gone (TData c fs) (TData c' gs) ->
  materialize_type (TData c fs) = Ok s -> materialize_type (TData c' gs) = Ok r ->
  compare_schemas s r = Ok k -> checker_severity k = INFO ->
  (forall p o n, In (TypeChanged p o n) (ck_changes k) -> sflat o) ->
  deser_versioned (e_class E) allow (TData c fs) x = Ok y -> deser_versioned (e_class E) allow (TData c' gs) x = Ok y ->
  floatable y -> unmarked y ->
  accepts E sch allow ff false (TData c fs) x -> accepts E sch allow ff false (TData c' gs) x.
Proof.
  intros O1 O2 Ne Lost Ms Mr C Sv Fl Ey Ey' Fy Uy A.
  assert (F : exists cs, find_changes s r [] = Ok cs).
  { unfold compare_schemas in C. apply rbind_ok in C. destruct C as (cs & F & _). eauto. }
  destruct F as [cs F]. pose proof O1 as (_ & Nm1 & _). pose proof O2 as (_ & Nm2 & _).
  destruct (report_mild s r cs k (materialize_distinct _ _ Ms Nm1) (materialize_distinct _ _ Mr Nm2) F C Sv Fl) as [Hm He].
  eapply (compat_core E sch allow ff c fs c' gs s r cs x x y); eauto. now apply unmarked_ok.
Qed.

Lemma compat_loads E c fs c' gs s r k x y dir allow L :
  order_ok E -> ordinary E c fs -> ordinary E c' gs -> all (fun f => no_empty (fst (snd f))) fs ->
  lost_values_gone (TData c fs) (TData c' gs) ->
  materialize_type (TData c fs) = Ok s -> materialize_type (TData c' gs) = Ok r ->
  compare_schemas s r = Ok k -> checker_severity k = INFO ->
  (forall p o n, In (TypeChanged p o n) (ck_changes k) -> sflat o) ->
  filev x = true ->
  deser_versioned (e_class E) allow (TData c fs) x = Ok y -> deser_versioned (e_class E) allow (TData c' gs) x = Ok y ->
  floatable y -> unmarked y ->
  typed_load E (TData c fs) x dir None allow false = Ok L -> l_sched L = [] ->
  exists L', typed_load E (TData c' gs) x dir None allow false = Ok L' /\ l_sched L' = [].
Proof.
  intros HE O1 O2 Ne Lost Ms Mr C Sv Fl Hx Ey Ey' Fy Uy H Hn.
  destruct (load_means E _ x dir allow false L HE (proj1 O1) Hx H) as [_ D]. specialize (D Hn).
  destruct (compat_accepts E false allow (is_some dir) c fs c' gs s r k x y) as [v V]; auto; [now exists (l_value L)|].
  destruct (load_exists E _ x dir allow false v HE (proj1 O2) Hx V) as (L' & Q & _ & Q'). eauto.
Qed.

(** dump-schema with the old class, check-schema with the new one *)
Lemma schema_steps_none rules vs s : (forall i, In i vs -> rules_at rules i = []) -> schema_upgrade_steps rules vs s = Ok s.
Proof.
  induction vs as [|i vs IH]; intros H; [reflexivity|]. cbn [schema_upgrade_steps]. rewrite H by (left; reflexivity).
  cbn [apply_rules_schema rbind]. apply IH. intros. apply H. right. auto.
Qed.

Lemma compat_checked c fs c' gs v v' rules rules' file rep :
  c_versioned c = Some (v, rules) -> c_versioned c' = Some (v', rules') -> (forall i, (v <= i < v')%Z -> rules_at rules' i = []) ->
  file_type (TData c fs) -> values_in simple (TData c fs) ->
  dump_schema (TData c fs) = Ok file -> check_schema file (TData c' gs) = Ok rep ->
  exists s r k, materialize_type (TData c fs) = Ok s /\ materialize_type (TData c' gs) = Ok r /\
    compare_schemas s r = Ok k /\ print_report k = rep /\ schema_version s = Some v /\ schema_version r = Some v'.
Proof.
  intros Vc Vc' Nr F Vs D Ck. destruct (file_type_configurable _ F) as [s M]. destruct (dump_loads c fs s M) as (D' & Ld & _).
  specialize (Ld F). rewrite (materialize_reread _ _ M F Vs) in Ld. rewrite D in D'. injection D' as ->.
  unfold check_schema in Ck. rewrite Ld in Ck. cbn [rbind] in Ck. apply rbind_ok in Ck. destruct Ck as (k & K & Q). injection Q as <-.
  unfold schema_checker in K. apply rbind_ok in K. destruct K as (r & Mr & K).
  destruct (is_struct r) eqn:Sr; [|discriminate K]. cbn [negb] in K. rewrite Vc' in K. apply rbind_ok in K. destruct K as (s' & U & K).
  assert (V : schema_version s = Some v).
  { cbn [materialize_type] in M. apply rbind_ok in M. destruct M as (fields & M & Q). injection Q as <-. cbn. now rewrite Vc. }
  assert (V' : schema_version r = Some v').
  { cbn [materialize_type] in Mr. apply rbind_ok in Mr. destruct Mr as (fields & Mr & Q). injection Q as <-. cbn. now rewrite Vc'. }
  unfold apply_schema_upgrades in U. rewrite V, schema_steps_none in U.
  - injection U as <-. exists s, r, k. auto 7.
  - intros i I. unfold zrange in I. apply in_map_iff in I as (n & <- & I). apply in_seq in I. apply Nr. lia.
Qed.

Lemma deser_current cls allow c fs v rules d : c_versioned c = Some (v, rules) -> (forall i rs, In (i, rs) rules -> (i < v)%Z) ->
  aget "version" d = Some (VInt v) ->
  deser_versioned cls allow (TData c fs) (VDict d) = Ok (VDict (adel "version" d)).
Proof.
  intros Vc Hb Gv. cbn [deser_versioned]. rewrite Vc, Gv. unfold apply_upgrades.
  assert (Q : forallb (fun kv : Z * list rule => (fst kv <? v)%Z) rules = true).
  { apply forallb_forall. intros [i rs] J. apply Z.ltb_lt. eapply Hb; eauto. }
  rewrite Q. cbn [as_int]. rewrite zrange_self. reflexivity.
Qed.

Lemma deser_current_inv cls allow c fs v rules d y : c_versioned c = Some (v, rules) -> aget "version" d = Some (VInt v) ->
  deser_versioned cls allow (TData c fs) (VDict d) = Ok y -> y = VDict (adel "version" d).
Proof.
  intros Vc Gv. cbn [deser_versioned]. rewrite Vc, Gv. unfold apply_upgrades. destruct (forallb _ rules); [|discriminate].
  cbn [as_int]. rewrite zrange_self. cbn. congruence.
Qed.

Lemma compat_check_schema E c fs c' gs v rules rules' file rep d dir allow L :
  order_ok E -> ordinary E c fs -> ordinary E c' gs -> all (fun f => no_empty (fst (snd f))) fs ->
  lost_values_gone (TData c fs) (TData c' gs) ->
  c_versioned c = Some (v, rules) -> c_versioned c' = Some (v, rules') -> (forall i rs, In (i, rs) rules' -> (i < v)%Z) ->
  file_type (TData c fs) -> values_in simple (TData c fs) ->
  dump_schema (TData c fs) = Ok file -> check_schema file (TData c' gs) = Ok rep -> rp_compatible rep = true ->
  (forall w p o n, In (w, TypeChanged p o n) (rp_lines rep) -> sflat o) ->
  filev (VDict d) = true -> floatable (VDict d) -> unmarked (VDict d) -> aget "version" d = Some (VInt v) ->
  typed_load E (TData c fs) (VDict d) dir None allow false = Ok L -> l_sched L = [] ->
  exists L', typed_load E (TData c' gs) (VDict d) dir None allow false = Ok L' /\ l_sched L' = [].
Proof.
  intros HE O1 O2 Ne Lost Vc Vc' Hb F Vs D Ck Rc Fl Hx Fx Ux Gv HL Hn.
  destruct (compat_checked c fs c' gs v v rules rules' file rep Vc Vc' ltac:(intros; lia) F Vs D Ck) as (s & r & k & Ms & Mr & C & <- & _).
  destruct (load_means E _ _ dir allow false L HE (proj1 O1) Hx HL) as [_ Dn]. specialize (Dn Hn).
  assert (Ey : deser_versioned (e_class E) allow (TData c fs) (VDict d) = Ok (VDict (adel "version" d))).
  { cbn [denotes] in Dn. destruct Dn as (y & items & o & Ey & _). rewrite Ey. f_equal. apply (deser_current_inv (e_class E) allow c fs v rules d y Vc Gv Ey). }
  assert (Sub : forall kv, In kv (adel "version" d) -> In kv d).
  { intros kv I. eapply in_adel; eauto. }
  apply (compat_loads E c fs c' gs s r k (VDict d) (VDict (adel "version" d)) dir allow L); auto.
  - unfold print_report in Rc. cbn [rp_compatible] in Rc. destruct (checker_severity k); auto; discriminate Rc.
  - intros p o n I. apply (Fl (change_severity (TypeChanged p o n)) p o n). cbn [print_report rp_lines].
    apply in_map_iff. eexists. split; [|exact I]. reflexivity.
  - eapply deser_current; eauto.
  - cbn [floatable] in Fx |- *. rewrite all_in in Fx |- *. auto.
  - cbn [unmarked] in Ux |- *. destruct Ux as [U1 U2]. rewrite all_in in U2. split; [|rewrite all_in; auto].
    apply amem_false. apply amem_false in U1. intros I. apply U1. unfold akeys in *. apply in_map_iff in I. destruct I as (kv & Q & I).
    apply in_map_iff. exists kv. auto.
Qed.
