(** SubtypeFacts.v -- soundness of [is_subtype] (C30). *)
From Verif Require Import Base Value Schema Rewrite Sched Types Asdict FromDict Induct AFacts SpecTypes SpecLoad SpecSubtype
  RoundTrip SchemaFacts CheckFacts.
From Verif Require SpecOverride OverrideFacts.

Section Sub.
  Variable E : env.
  Variable sch allow ff : bool.
  Notation den ig := (denotes E sch allow ff ig).

  Lemma exact_trans a b x : exact a -> exact b -> py_eq a b = true -> py_eq a x = true -> py_eq b x = true.
  Proof.
    destruct a; intros A; try destruct A; destruct b; intros B; try destruct B; cbn [py_eq]; try discriminate; auto;
      unfold num_eq; cbn [as_int]; try (intros H; apply Z.eqb_eq in H; rewrite <- H; auto; fail).
    intros H; apply String.eqb_eq in H; now subst.
  Qed.

  Lemma exact_sym a b : exact a -> exact b -> py_eq a b = true -> py_eq b a = true.
  Proof.
    destruct a; intros A; try destruct A; destruct b; intros B; try destruct B; cbn [py_eq]; try discriminate; auto;
      unfold num_eq; cbn [as_int]; rewrite ?Z.eqb_eq, ?String.eqb_eq; auto.
  Qed.

  Lemma enum_accepts ig n ms x : accepts E sch allow ff ig (TEnum n ms) x <-> exists m, In m ms /\ py_eq (snd m) x = true.
  Proof.
    unfold accepts. cbn [denotes]. split.
    - intros (v & m & y & F & _). apply find_some in F. destruct F as [I Q]. exists (m, y). auto.
    - intros ([m y] & I & Q). destruct (find (fun mx => py_eq (snd mx) x) ms) as [[m' y']|] eqn:F.
      + eauto.
      + exfalso. pose proof (find_none _ _ F _ I) as C. cbn [snd] in C, Q. congruence.
  Qed.

  Lemma enum_mono ig n ms n' ms' x :
    all (fun m => exact (snd m)) ms -> all (fun m => exact (snd m)) ms' ->
    (forall k v, In (k, v) ms -> exists w, In (k, w) ms' /\ (py_eq w v = true \/ py_eq v w = true)) ->
    accepts E sch allow ff ig (TEnum n ms) x -> accepts E sch allow ff ig (TEnum n' ms') x.
  Proof.
    intros X X' H. rewrite !enum_accepts. rewrite all_in in X, X'. intros ([k v] & I & Q).
    destruct (H k v I) as (w & J & P). exists (k, w). split; [exact J|]. cbn [snd] in *.
    specialize (X _ I). specialize (X' _ J). cbn [snd] in X, X'.
    apply (exact_trans v w x); auto. destruct P as [P|P]; auto. apply exact_sym; auto.
  Qed.

  Lemma lit_mono ig l l' x :
    all exact l -> all exact l' -> Forall (fun a => e_type_arg E a = None) l' ->
    (forall a, In a l -> exists b, In b l' /\ (py_eq a b = true \/ py_eq b a = true)) ->
    accepts E sch allow ff ig (TLit l) x -> accepts E sch allow ff ig (TLit l') x.
  Proof.
    intros X X' T H. rewrite all_in in X, X'. unfold accepts. cbn [denotes]. intros (v & _ & -> & a & I & Q).
    exists (unit_text x). split; [exact T|]. split; [reflexivity|]. destruct (H a I) as (b & J & P). exists b. split; [exact J|].
    apply (exact_trans a b); auto. destruct P as [P|P]; auto. apply exact_sym; auto.
  Qed.

  Lemma list_mono ig i j x : (forall y, floatable y -> accepts E sch allow ff false i y -> accepts E sch allow ff false j y) ->
    floatable x -> accepts E sch allow ff ig (TList i) x -> accepts E sch allow ff ig (TList j) x.
  Proof.
    intros H Fx (v & l & m & -> & -> & F). cbn [floatable] in Fx. rewrite all_in in Fx.
    assert (G : exists m', Forall2 (den false j) l m').
    { induction F as [|y w l m D F IH]; [exists []; constructor|]. destruct (IH (fun z Z => Fx z (or_intror Z))) as [m' M'].
      destruct (H y) as [w' W']; [apply Fx; now left|eexists; eauto|]. exists (w' :: m'). constructor; auto. }
    destruct G as [m' M']. exists (VList m'), l, m'. auto.
  Qed.

  Lemma dict_mono ig k i k' j x : (forall y, floatable y -> accepts E sch allow ff false i y -> accepts E sch allow ff false j y) ->
    floatable x -> accepts E sch allow ff ig (TDict k i) x -> accepts E sch allow ff ig (TDict k' j) x.
  Proof.
    intros H Fx (v & l & m & -> & -> & F). cbn [floatable] in Fx. rewrite all_in in Fx.
    assert (G : exists m', Forall2 (fun kv kw : string * pyval => fst kw = fst kv /\ den false j (snd kv) (snd kw)) l m').
    { induction F as [|y w l m [D1 D] F IH]; [exists []; constructor|]. destruct (IH (fun z Z => Fx z (or_intror Z))) as [m' M'].
      destruct (H (snd y)) as [w' W']; [apply (Fx y); now left|eexists; eauto|]. exists ((fst y, w') :: m'). constructor; auto. }
    destruct G as [m' M']. exists (VDict m'), l, m'. auto.
  Qed.

  Lemma tuple_mono ig ts us x :
    Forall2 (fun a b => forall y, floatable y -> accepts E sch allow ff false a y -> accepts E sch allow ff false b y) ts us ->
    floatable x -> accepts E sch allow ff ig (TTuple ts) x -> accepts E sch allow ff ig (TTuple us) x.
  Proof.
    intros H Fx (v & l & m & T & -> & F).
    assert (Fl : forall y, In y l -> floatable y).
    { destruct x; try discriminate; injection T as <-; cbn [floatable] in Fx; rewrite all_in in Fx; [exact Fx|].
      intros y Y. apply in_map_iff in Y. destruct Y as (kv & <- & Y). now apply Fx. }
    assert (G : exists m', tuple_den (den false) us l m').
    { clear -H Fl F. revert l m Fl F. induction H as [|a b ts us D H IH]; intros l m Fl F.
      - destruct l, m; try destruct F. exists []. exact I.
      - destruct l as [|y l], m as [|w m]; try destruct F.
        + exists []. exact I.
        + destruct (IH l m) as [m' M']; [intros z Z; apply Fl; now right|auto|].
          destruct (D y) as [w' W']; [apply Fl; now left|eexists; eauto|]. exists (w' :: m'). split; auto. }
    destruct G as [m' M']. exists (VTuple m'), l, m'. auto.
  Qed.

  Lemma int_float ig x : floatable x -> accepts E sch allow ff ig TInt x -> accepts E sch allow ff ig TFloat x.
  Proof.
    intros Fx (v & D). cbn [denotes] in D. unfold accepts. cbn [denotes].
    destruct x; cbn [int_denotes float_denotes floatable] in *; try destruct D.
    - destruct b; eexists; eexists; split; try reflexivity; vm_compute; reflexivity.
    - destruct Fx as [f Q]. eauto.
    - eauto.
    - destruct (has_char "@" s).
      + destruct D as (-> & pw & y & P & G & C). exists (VFloat y). split; [reflexivity|]. exists pw, y. auto.
      + destruct D as (f & z & Q & _). eauto.
  Qed.

  Lemma accept_strip ig t x : accepts E sch allow ff ig (SpecOverride.strip_opt t) x -> accepts E sch allow ff ig t x.
  Proof.
    induction t; auto. cbn [SpecOverride.strip_opt]. intros H. destruct (IHt H) as [v D].
    destruct x eqn:Ex; try (exists v; right; split; [discriminate|exact D]). exists VNone. left. auto.
  Qed.

  Lemma rmap_forall2 {A B} (f : A -> res B) l ys : rmap f l = Ok ys -> Forall2 (fun x y => f x = Ok y) l ys.
  Proof.
    revert ys. induction l as [|x l IH]; intros ys H; [injection H as <-; constructor|].
    cbn [rmap] in H. apply rbind_ok in H. destruct H as (y & Hy & H). apply rbind_ok in H. destruct H as (zs & Hz & H). injection H as <-.
    constructor; auto.
  Qed.

  Ltac mat H :=
    cbn [materialize_type] in H;
    repeat match type of H with
           | rbind _ _ = Ok _ => let s := fresh "s" in let M := fresh "M" in apply rbind_ok in H; destruct H as (s & M & H)
           end;
    try discriminate H.

  (** equal schema types *)
  Lemma eq_mono t : forall u s r ig x, flat t -> exact_values t -> exact_values u -> literals_load E u ->
    materialize_type t = Ok s -> materialize_type u = Ok r -> sty_eqb s r = true -> floatable x ->
    accepts E sch allow ff ig t x -> accepts E sch allow ff ig u x.
  Proof.
    induction t as [| | | | |i IH|l IH|kt vt IHk IHv|i IH|l IH|c fs IH|n ms|l|n] using ty_ind'; intros u s r ig x F X Xu L Ms Mr Q Fx A;
      try (destruct F; fail); destruct u; mat Ms; mat Mr; injection Ms as <-; injection Mr as <-; try discriminate Q; auto.
    - cbn [sty_eqb] in Q. apply (list_mono _ i); auto. intros y Fy. eapply IH; eauto.
    - cbn [sty_eqb] in Q. apply (tuple_mono _ l); auto. cbn [flat exact_values literals_load] in F, X, Xu, L.
      apply rmap_forall2 in M, M0. clear A. revert args Xu L s1 M0 Q.
      induction M as [|a y l ys Ma M IHM]; intros args Xu L s1 M0 Q; inversion M0; subst; cbn [list_eqb] in Q; try discriminate Q; constructor.
      + apply Forall_cons_iff in IH. destruct IH as [Ha IH]. destruct F, X, Xu, L. apply andb_true_iff in Q. destruct Q.
        intros z Fz. eapply Ha; eauto.
      + apply Forall_cons_iff in IH. destruct IH as [Ha IH]. destruct F, X, Xu, L. apply andb_true_iff in Q. destruct Q.
        eapply IHM; eauto.
    - cbn [sty_eqb] in Q. apply andb_true_iff in Q. destruct Q. destruct F, X, Xu, L.
      apply (dict_mono _ kt vt); auto. intros y Fy. eapply IHv; eauto.
    - cbn [sty_eqb] in Q. apply andb_true_iff in Q. destruct Q as [_ Q]. unfold dict_eqb in Q. apply andb_true_iff in Q. destruct Q as [_ Q].
      rewrite forallb_forall in Q. apply (enum_mono _ n ms); auto. intros k v I. specialize (Q _ I). cbn [fst snd] in Q.
      destruct (aget k members) as [w|] eqn:G; [|discriminate]. exists w. split; [now apply aget_some_in|now right].
    - cbn [sty_eqb] in Q. unfold set_eqb in Q. apply andb_true_iff in Q. destruct Q as [Q _]. rewrite forallb_forall in Q.
      cbn [literals_load] in L. apply all_Forall in L. apply (lit_mono _ l); auto. intros a I. specialize (Q a I).
      unfold py_elem in Q. apply existsb_exists in Q. destruct Q as (b & J & Q). eauto.
  Qed.

  Lemma sub_strip s r : match s with SOption _ | SNothing => False | _ => True end ->
    is_subtype s r = true -> is_subtype s (strip_option r) = true.
  Proof.
    intros N. induction r as [p|i IH|l IH|k v IHk IHv|l IH|nm fs ver IH|i IH|nm ms|l| ] using sty_ind'; auto.
    cbn [strip_option]. intros H. apply IH. rewrite is_subtype_unfold in H. cbv zeta in H.
    destruct s; try destruct N; cbn [sty_eqb] in H; rewrite ?andb_false_r, ?orb_false_r, ?orb_false_l in H; auto.
  Qed.

  Lemma flat_materialize t s : flat t -> materialize_type t = Ok s -> match s with SOption _ | SNothing => False | _ => True end.
  Proof.
    intros F H. destruct t; try destruct F; mat H; injection H as <-; exact I.
  Qed.

  Lemma strip_values u : exact_values u -> exact_values (SpecOverride.strip_opt u).
  Proof. induction u; auto. Qed.
  Lemma strip_literals u : literals_load E u -> literals_load E (SpecOverride.strip_opt u).
  Proof. induction u; auto. Qed.
  Lemma strip_not u : match SpecOverride.strip_opt u with TOpt _ => False | _ => True end.
  Proof. induction u; auto; exact I. Qed.

  Lemma sub_mono t : forall u s r ig x, flat t -> exact_values t -> exact_values u -> literals_load E u ->
    materialize_type t = Ok s -> materialize_type u = Ok r -> is_subtype s r = true -> floatable x ->
    accepts E sch allow ff ig t x -> accepts E sch allow ff ig u x.
  Proof.
    induction t as [| | | | |i IH|l IH|kt vt IHk IHv|i IH|l IH|c fs IH|n ms|l|n] using ty_ind'; intros u s r ig x F X Xu L Ms Mr Q Fx A;
      try (destruct F; fail); apply accept_strip;
      apply (sub_strip s r (flat_materialize _ _ F Ms)) in Q; apply OverrideFacts.strip_schema in Mr;
      apply strip_values in Xu; apply strip_literals in L; pose proof (strip_not u) as N;
      remember (SpecOverride.strip_opt u) as w; clear Heqw u; remember (strip_option r) as q; clear Heqq r;
      (destruct (sty_eqb s q) eqn:Eq; [eapply eq_mono; [exact F| | | |exact Ms|exact Mr|exact Eq| |exact A]; auto|]);
      rewrite is_subtype_unfold in Q; cbv zeta in Q;
      destruct w as [| | | | |j|us|ku vu|j|us|d gs|n' ms'|l'|n']; try (destruct N; fail);
      mat Ms; mat Mr; injection Ms as <-; injection Mr as <-; try discriminate Q; try discriminate Eq;
      try (cbn in Q; discriminate Q).
    - now apply int_float.
    - rewrite Eq, orb_false_r in Q. cbn [orb] in Q. apply (list_mono _ i); auto. intros y Fy. eapply IH; eauto.
    - rewrite Eq, orb_false_r in Q. cbn [orb] in Q. apply andb_true_iff in Q. destruct Q as [Q Ln]. apply Nat.eqb_eq in Ln.
      apply (tuple_mono _ l); auto. cbn [flat exact_values literals_load] in F, X, Xu, L.
      apply rmap_forall2 in M, M0. clear A Eq. revert us Xu L s1 M0 Q Ln.
      induction M as [|a y l ys Ma M IHM]; intros us Xu L s1 M0 Q Ln; inversion M0; subst; cbn [length] in Ln; try discriminate Ln; constructor.
      + apply Forall_cons_iff in IH. destruct IH as [Ha IH]. destruct F, X, Xu, L. cbn [forall_zip] in Q. apply andb_true_iff in Q. destruct Q.
        intros z Fz. eapply Ha; eauto.
      + apply Forall_cons_iff in IH. destruct IH as [Ha IH]. destruct F, X, Xu, L. cbn [forall_zip] in Q. apply andb_true_iff in Q. destruct Q.
        eapply IHM; eauto.
    - rewrite Eq, orb_false_r in Q. cbn [orb] in Q. apply andb_true_iff in Q. destruct Q as [_ Q]. destruct F, X, Xu, L.
      apply (dict_mono _ kt vt); auto. intros y Fy. eapply IHv; eauto.
    - rewrite orb_false_r in Q. apply andb_true_iff in Q. destruct Q as [_ Q].
      rewrite forallb_forall in Q. apply (enum_mono _ n ms); auto. intros k v I. specialize (Q _ I). cbn [fst snd] in Q.
      destruct (aget k ms') as [w|] eqn:G; [|discriminate]. exists w. split; [now apply aget_some_in|now left].
    - (* Literal[int] <= int *)
      cbn [String.eqb] in Q. cbn in Q. rewrite orb_false_r in Q. rewrite forallb_forall in Q.
      destruct A as (v & _ & -> & a & I & P). specialize (Q a I). unfold accepts. cbn [denotes].
      destruct a; try discriminate Q; cbn [py_eq num_eq as_int] in P;
        destruct x as [ | | | | | | | |m [|e es]| | | ]; cbn [unit_text as_int num_eq] in P; try discriminate P;
        cbn [int_denotes]; eauto.
      all: unfold num_eq in P; cbn [as_int] in P; try discriminate P.
      all: eexists; eexists; split; [exact P|reflexivity].
    - (* Literal[str] <= str *)
      cbn in Q. rewrite !orb_false_r in Q. rewrite forallb_forall in Q.
      destruct A as (v & _ & -> & a & I & P). specialize (Q a I). unfold accepts. cbn [denotes].
      destruct a; try discriminate Q. cbn [py_eq] in P. destruct (unit_text x); try discriminate P. eauto.
    - rewrite !orb_false_r in Q. rewrite forallb_forall in Q. cbn [literals_load] in L. apply all_Forall in L.
      apply (lit_mono _ l); auto. intros a I. specialize (Q a I). unfold py_elem in Q. apply existsb_exists in Q.
      destruct Q as (b & J & Q). eauto.
  Qed.
End Sub.
