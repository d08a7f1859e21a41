(** LoadSound.v -- [from_dict] computes the relation [denotes] (SpecLoad.v),
    in both directions. *)
From Coq Require Import Permutation.
From Verif Require Import Base AFacts Value Schema Rewrite Sched Types Asdict FromDict
  Induct SpecTree SpecTypes RewriteFacts FromDictFacts RoundTrip ElideFacts ElideLoad
  DefaultFacts SpecLoad LoadFacts.

(** ** dataclasses *)
Section Data.
  Variable E : env.
  Variable g : ty -> pyval -> string -> dstate -> res (pyval * dstate).
  Variable Inv : dstate -> Prop.
  Variable le : dstate -> dstate -> Prop.
  Hypothesis le_refl : forall s, le s s.
  Hypothesis le_trans : forall a b c, le a b -> le b c -> le a c.
  Variable c : cinfo.
  Variable fs : list (string * (ty * dflt)).
  Variable path : string.
  Variable ig : bool.
  Variable items : list (string * pyval).
  Hypothesis Hord : order_ok E.
  Hypothesis Hnd : NoDup (map fst fs).
  Hypothesis Hnn : ~ In "!__name__" (map fst fs).
  Hypothesis Hlf : forall n ft fd, In (n, (ft, fd)) fs -> loadable ft.
  Hypothesis Hit : NoDup (akeys items).

  Let ff := fun k => field_with (fun ft (_ : dflt) => g ft) k fs.

  Definition data_body (st : dstate) : res (pyval * dstate) :=
    let* r := fields_loop ff (c_name c) path ig items [] [] st in
    let '(kw, weak, st') := r in
    let remaining := e_order E (filter (fun n => negb (amem n kw)) (map fst fs)) in
    let* km := try_create_defaults fs remaining path weak kw [] in
    match snd km with
    | [] => let* obj := construct fs (fst km) in Ok (VObj (c_name c) obj, st')
    | ms => Err (MissingFields (c_name c) (map (path_join path) ms))
    end.

  Definition known_keys : Prop := forall k w, In (k, w) items ->
    k = "!__name__" \/ is_weak w = true \/ In k (field_names fs) \/ ig = true.

  Definition field_rel (R : string -> ty -> pyval -> pyval -> Prop) (f : string * (ty * dflt)) (kv : string * pyval) : Prop :=
    let '(n, (ft, fd)) := f in
    fst kv = n /\
    match aget n items with
    | None => default_field ft fd (VDict []) (snd kv)
    | Some w => if is_weak w then default_field ft fd w (snd kv) else R n ft w (snd kv)
    end.

  Lemma unique_field n ft fd ft' fd' :
    In (n, (ft, fd)) fs -> In (n, (ft', fd')) fs -> ft' = ft /\ fd' = fd.
  Proof.
    intros Hf Hf'. assert (X1 : aget n fs = Some (ft, fd)) by (apply in_nodup_aget; auto).
    assert (X2 : aget n fs = Some (ft', fd')) by (apply in_nodup_aget; auto). rewrite X1 in X2. injection X2; auto.
  Qed.

  Lemma ff_none k : ff k = None <-> ~ In k (map fst fs).
  Proof.
    unfold ff. split.
    - intros H Hin. apply in_map_iff in Hin as [[n [ft fd]] [Hn Hf]]. simpl in Hn; subst.
      rewrite (field_with_in _ k ft fd) in H by auto. discriminate.
    - apply field_with_none.
  Qed.

  Lemma data_inv st v st' :
    (forall n ft fd w, In (n, (ft, fd)) fs -> In (n, w) items -> is_weak w = false -> forall s y s', Inv s -> g ft w (path_join path n) s = Ok (y, s') -> Inv s' /\ le s s') ->
    Inv st -> data_body st = Ok (v, st') ->
    (Inv st' /\ le st st') /\ exists o, v = VObj (c_name c) o /\ known_keys /\
      all2 false (field_rel (fun n ft w y => exists s1 s2, Inv s1 /\ g ft w (path_join path n) s1 = Ok (y, s2) /\ le s2 st')) fs o.
  Proof.
    intros Hp Hst H. unfold data_body in H.
    apply rbind_ok in H as [[[kw weak] st1] [H1 H]]. cbv zeta in H.
    apply rbind_ok in H as [[kw2 ms] [H2 H]]. cbn [fst snd] in H. destruct ms; [|discriminate].
    apply rbind_ok in H as [o [H3 H]]. injection H as <- <-.
    destruct (fields_loop_inv ff (c_name c) path ig Inv le le_refl le_trans items [] [] st kw weak st1) as (I0 & I1 & I2); auto.
    { intros k y gg Hin _ Hweak Hf s v s' Hs Hg. unfold ff in Hf. rewrite field_with_aget in Hf.
      destruct (aget k fs) as [[ft fd]|] eqn:Ef; [|discriminate]. injection Hf as <-.
      eapply (Hp k ft fd y); eauto. eapply aget_some_in; eauto. }
    split; auto. exists o. split; auto.
    assert (Hw : forall n w, aget n weak = Some w -> is_weak w = true).
    { intros n w Hg. destruct (in_dec string_dec n (akeys items)) as [Hi|Hi].
      - apply in_map_iff in Hi as [[k y] [Hk Hi]]. simpl in Hk; subst k. specialize (I2 n y Hi).
        destruct (String.eqb n "!__name__"); [destruct I2 as [_ I2]; rewrite I2 in Hg; discriminate|].
        destruct (is_weak y) eqn:Ey.
        + destruct I2 as [_ I2]. rewrite I2 in Hg. congruence.
        + destruct I2 as [I2 _]. rewrite I2 in Hg; discriminate.
      - destruct (I1 n Hi) as [_ J]. rewrite J in Hg; discriminate. }
    set (rem := e_order E (filter (fun n => negb (amem n kw)) (map fst fs))) in *.
    assert (Hrem : forall n, In n rem <-> In n (map fst fs) /\ aget n kw = None).
    { intros n. unfold rem. split.
      - intros Hn. eapply Permutation_in in Hn; [|apply Hord]. apply filter_In in Hn as [Hn1 Hn2]. split; auto.
        unfold amem in Hn2. destruct (aget n kw); [discriminate|auto].
      - intros [Hn1 Hn2]. eapply Permutation_in; [apply Permutation_sym, Hord|]. apply filter_In. split; auto.
        unfold amem. now rewrite Hn2. }
    assert (Hrd : NoDup rem).
    { unfold rem. eapply Permutation_NoDup; [apply Permutation_sym, Hord|]. now apply NoDup_filter. }
    assert (Hri : incl rem (map fst fs)) by (intros n Hn; apply Hrem in Hn; tauto).
    destruct (tcd_inv fs path weak Hnd Hw rem kw [] kw2 [] Hrd Hri H2) as (T1 & T2 & T3).
    destruct (T1 eq_refl) as [_ T1']. clear T1. split.
    - intros k w Hin. specialize (I2 k w Hin). destruct (String.eqb_spec k "!__name__"); auto.
      destruct (is_weak w); auto. destruct I2 as [_ I2]. destruct (ff k) eqn:Ek.
      + right; right; left. destruct (in_dec string_dec k (map fst fs)); auto. apply ff_none in n0. congruence.
      + tauto.
    - apply construct_iff in H3. revert H3. apply all2_impl. intros [n [ft fd]] [k y] Hf _. unfold built, field_rel.
      cbn [fst snd]. intros [-> Hy]. split; auto.
      assert (Hn : In n (map fst fs)) by (apply in_map_iff; exists (n, (ft, fd)); auto).
      assert (Hn' : String.eqb n "!__name__" = false) by (apply String.eqb_neq; intros ->; tauto).
      assert (DEF : aget n kw = None -> forall w, weak_for weak n = w -> default_field ft fd w y).
      { intros Hk w <-. assert (Hr : In n rem) by (apply Hrem; auto).
        specialize (T1' n ft fd Hr Hf). specialize (T3 n ft fd Hr Hf). destruct fd as [|x|x]; cbn [bare needs] in *.
        - apply negb_false_iff in T1'. rewrite T1' in T3. destruct T3 as (o' & T3 & T4). rewrite T4 in Hy. subst o'.
          apply default_obj_iff in T3; eauto.
        - rewrite T3, Hk in Hy. exact Hy.
        - rewrite T3, Hk in Hy. exact Hy. }
      destruct (aget n items) as [w|] eqn:Ei.
      + apply aget_some_in in Ei. specialize (I2 n w Ei). rewrite Hn' in I2. destruct (is_weak w).
        * destruct I2 as [I2 I3]. apply DEF; [exact I2|]. unfold weak_for. now rewrite I3.
        * destruct I2 as [I2 I3]. destruct (ff n) eqn:Ef; [|apply ff_none in Ef; tauto].
          destruct I3 as (v & (gg & s1 & s2 & G1 & G2 & G3 & G4 & G5) & I3).
          rewrite T2 in Hy by (rewrite Hrem, I3; intros [_ HH]; discriminate). rewrite I3 in Hy. subst v.
          unfold ff in G1. rewrite (field_with_in _ n ft fd) in G1 by auto. injection G1 as <-. eauto.
      + apply aget_none_notin in Ei. destruct (I1 n Ei) as [I3 I4]. apply DEF; [exact I3|].
        unfold weak_for. now rewrite I4.
  Qed.

  Lemma data_run st o :
    Inv st -> known_keys ->
    all2 false (field_rel (fun n ft w y => forall s, Inv s -> exists s', g ft w (path_join path n) s = Ok (y, s') /\ Inv s')) fs o ->
    exists st', data_body st = Ok (VObj (c_name c) o, st') /\ Inv st'.
  Proof.
    intros Hst Hk Ho. unfold data_body.
    assert (Hfld : forall n w, In (n, w) items -> n <> "!__name__" -> is_weak w = false -> forall ft fd, In (n, (ft, fd)) fs ->
       exists y, forall s, Inv s -> exists s', g ft w (path_join path n) s = Ok (y, s') /\ Inv s').
    { intros n w Hin Hn Hw ft fd Hf. destruct (all2_in_l _ _ _ _ Ho Hf) as [[k y] [_ [_ Hy]]]. cbn [snd] in Hy.
      assert (Hg : aget n items = Some w) by (apply in_nodup_aget; auto). rewrite Hg, Hw in Hy. exists y; exact Hy. }
    assert (Hpres : forall n ft fd w, In (n, (ft, fd)) fs -> In (n, w) items -> n <> "!__name__" -> is_weak w = false ->
       forall s y s', Inv s -> g ft w (path_join path n) s = Ok (y, s') -> Inv s').
    { intros n ft fd w Hf Hin Hn Hw s y s' Hs Hg. destruct (Hfld n w Hin Hn Hw ft fd Hf) as [y0 Hy0].
      destruct (Hy0 s Hs) as (s'' & G1 & G2). rewrite G1 in Hg. injection Hg as _ <-. auto. }
    destruct (fields_loop_run ff (c_name c) path ig Inv items [] [] st) as (kw & weak & st1 & H1); auto.
    { intros k w Hin. destruct (Hk k w Hin) as [Hc|[Hc|Hc]]; auto.
      destruct (String.eqb_spec k "!__name__"); auto. destruct (is_weak w) eqn:Ew; auto. right; right.
      destruct (ff k) as [gg|] eqn:Ek.
      - right. exists gg. split; auto. unfold ff in Ek. rewrite field_with_aget in Ek.
        destruct (aget k fs) as [[ft fd]|] eqn:Ef; [|discriminate]. injection Ek as <-. cbn [fst].
        destruct (Hfld k w Hin n Ew ft fd) as [y Hy]; [eapply aget_some_in; eauto|].
        intros s Hs. destruct (Hy s Hs) as (s' & A1 & A2). eauto.
      - left. split; auto. apply ff_none in Ek. destruct Hc; tauto. }
    rewrite H1. cbn [rbind]. cbv zeta.
    destruct (fields_loop_inv ff (c_name c) path ig Inv (fun _ _ => True) (fun _ => I) (fun _ _ _ _ _ => I) items [] [] st kw weak st1) as ([I0 _] & I1 & I2); auto.
    { intros k y gg Hin Hn Hw Hf s v s' Hs Hg. unfold ff in Hf. rewrite field_with_aget in Hf.
      destruct (aget k fs) as [[ft fd]|] eqn:Ef; [|discriminate]. injection Hf as <-.
      split; [|exact I]. eapply (Hpres k ft fd y); eauto. eapply aget_some_in; eauto. }
    set (rem := e_order E (filter (fun n => negb (amem n kw)) (map fst fs))) in *.
    assert (Hw : forall n w, aget n weak = Some w -> is_weak w = true).
    { intros n w Hg. destruct (in_dec string_dec n (akeys items)) as [Hi|Hi].
      - apply in_map_iff in Hi as [[k y] [Hk' Hi]]. simpl in Hk'; subst k. specialize (I2 n y Hi).
        destruct (String.eqb n "!__name__"); [destruct I2 as [_ I2]; rewrite I2 in Hg; discriminate|].
        destruct (is_weak y) eqn:Ey.
        + destruct I2 as [_ I2]. rewrite I2 in Hg. congruence.
        + destruct I2 as [I2 _]. rewrite I2 in Hg; discriminate.
      - destruct (I1 n Hi) as [_ J]. rewrite J in Hg; discriminate. }
    assert (Hrem : forall n, In n rem <-> In n (map fst fs) /\ aget n kw = None).
    { intros n. unfold rem. split.
      - intros Hn. eapply Permutation_in in Hn; [|apply Hord]. apply filter_In in Hn as [Hn1 Hn2]. split; auto.
        unfold amem in Hn2. destruct (aget n kw); [discriminate|auto].
      - intros [Hn1 Hn2]. eapply Permutation_in; [apply Permutation_sym, Hord|]. apply filter_In. split; auto.
        unfold amem. now rewrite Hn2. }
    assert (Hrd : NoDup rem).
    { unfold rem. eapply Permutation_NoDup; [apply Permutation_sym, Hord|]. now apply NoDup_filter. }
    assert (Hri : incl rem (map fst fs)) by (intros n Hn; apply Hrem in Hn; tauto).
    assert (DEF : forall n ft fd y, In n rem -> In (n, (ft, fd)) fs -> In (n, y) o -> field_rel (fun n ft w y => forall s, Inv s -> exists s', g ft w (path_join path n) s = Ok (y, s') /\ Inv s') (n, (ft, fd)) (n, y) ->
       default_field ft fd (weak_for weak n) y).
    { intros n ft fd y Hr Hf Hin [_ Hy]. cbn [snd] in Hy. apply Hrem in Hr as [Hr1 Hr2].
      assert (Hn' : String.eqb n "!__name__" = false) by (apply String.eqb_neq; intros ->; tauto).
      unfold weak_for. destruct (aget n items) as [w|] eqn:Ei.
      - apply aget_some_in in Ei. specialize (I2 n w Ei). rewrite Hn' in I2. destruct (is_weak w).
        + destruct I2 as [_ I2]. rewrite I2. exact Hy.
        + exfalso. destruct I2 as [_ I2]. destruct (ff n) eqn:Ef; [|apply ff_none in Ef; tauto].
          destruct I2 as (v & _ & I2). congruence.
      - apply aget_none_notin in Ei. destruct (I1 n Ei) as [_ I4]. rewrite I4. exact Hy. }
    assert (Hko : akeys o = map fst fs).
    { clear -Ho. revert o Ho. induction fs as [|[n [ft fd]] l IHf]; intros [|[k y] o] Ho; try easy.
      destruct Ho as [[<- _] Ho]. simpl. f_equal. auto. }
    assert (Hno : NoDup (akeys o)) by (rewrite Hko; exact Hnd).
    assert (Hget : forall n ft fd, In (n, (ft, fd)) fs -> exists y, In (n, y) o /\
       field_rel (fun n ft w y => forall s, Inv s -> exists s', g ft w (path_join path n) s = Ok (y, s') /\ Inv s') (n, (ft, fd)) (n, y)).
    { intros n ft fd Hf. destruct (all2_in_l _ _ _ _ Ho Hf) as [[k y] [Hy1 Hy2]]. assert (k = n) as -> by apply Hy2. eauto. }
    destruct (tcd_run fs path weak Hnd Hw rem kw [] Hri) as [kw2 H2].
    { intros n ft fd Hr Hf. destruct (Hget n ft fd Hf) as (y & Hy1 & Hy2).
      specialize (DEF n ft fd y Hr Hf Hy1 Hy2). destruct fd as [|x|x]; cbn [needs bare default_field] in *; try (split; [auto|discriminate]).
      destruct DEF as [D1 D2]. assert (Hd : is_dataclass_ty ft = true) by (destruct ft; try easy). rewrite Hd. split; auto.
      intros _. exists y. apply default_obj_iff; eauto. }
    rewrite H2. cbn [rbind fst snd].
    destruct (tcd_inv fs path weak Hnd Hw rem kw [] kw2 [] Hrd Hri H2) as (T1 & T2 & T3).
    exists st1. split; auto.
    assert (construct fs kw2 = Ok o) as ->; [|reflexivity].
    apply construct_iff. revert Ho. apply all2_impl. intros [n [ft fd]] [k y] Hf Hin Hy.
    assert (k = n) as -> by apply Hy. unfold built. cbn [fst snd]. split; auto.
    assert (Hn : In n (map fst fs)) by (apply in_map_iff; exists (n, (ft, fd)); auto).
    destruct (in_dec string_dec n rem) as [Hr|Hr].
    - specialize (DEF n ft fd y Hr Hf Hin Hy). specialize (T3 n ft fd Hr Hf).
      assert (Hk0 : aget n kw = None) by (apply Hrem in Hr; tauto).
      destruct fd as [|x|x]; cbn [bare default_field] in *.
      + destruct DEF as [D1 D2]. assert (Hd : is_dataclass_ty ft = true) by (destruct ft; try easy). rewrite Hd in T3.
        destruct T3 as (o' & T3 & T4). rewrite T4.
        assert (T5 : default_obj ft (path_join path n) (weak_for weak n) = Ok y) by (apply default_obj_iff; eauto).
        rewrite T3 in T5. injection T5 as ->. reflexivity.
      + rewrite T3, Hk0. exact DEF.
      + rewrite T3, Hk0. exact DEF.
    - rewrite T2 by auto.
      assert (Hn' : String.eqb n "!__name__" = false) by (apply String.eqb_neq; intros ->; tauto).
      destruct (aget n kw) as [v|] eqn:Ek; [|exfalso; apply Hr; apply Hrem; auto].
      destruct Hy as [_ Hy]. cbn [snd] in Hy.
      destruct (aget n items) as [w|] eqn:Ei.
      + assert (Ei' := Ei). apply aget_some_in in Ei'. specialize (I2 n w Ei'). rewrite Hn' in I2. destruct (is_weak w).
        * destruct I2 as [I2 _]. simpl in I2. congruence.
        * destruct I2 as [_ I2]. destruct (ff n) eqn:Ef; [|destruct I2 as [_ I2]; simpl in I2; congruence].
          destruct I2 as (v' & (gg & s1 & s2 & G1 & G2 & G3 & G4 & G5) & I2). rewrite Ek in I2. injection I2 as <-.
          unfold ff in G1. rewrite (field_with_in _ n ft fd) in G1 by auto. injection G1 as <-.
          destruct (Hy s1 G2) as (s' & Y1 & _). rewrite Y1 in G3. injection G3 as -> _. reflexivity.
      + apply aget_none_notin in Ei. destruct (I1 n Ei) as [I3 _]. simpl in I3. congruence.
  Qed.
End Data.

(** ** numbers *)
Lemma float_is_int f z : float_is f z -> py_int_of_float f = Ok z.
Proof.
  unfold float_is, py_int_of_float, Z_eq_float. destruct f as [s|s| |s m e]; try discriminate.
  - intros H; apply Z.eqb_eq in H; subst; reflexivity.
  - cbv zeta. intros H. f_equal. destruct (0 <=? e)%Z eqn:Ee; apply Z.eqb_eq in H.
    + subst z. destruct s; [change (Z.neg m) with (- Z.pos m)%Z; ring|reflexivity].
    + apply Z.leb_gt in Ee. assert (Hp : (0 < 2 ^ (- e))%Z) by (apply Z.pow_pos_nonneg; lia).
      destruct s.
      * replace (Zpos m) with ((- z) * 2 ^ (- e))%Z by lia. rewrite Z.div_mul by lia. lia.
      * rewrite <- H, Z.div_mul by lia. reflexivity.
Qed.

Lemma arg_in (p : ty -> bool) t l : (forall a, p a = true <-> a = t) -> existsb p l = true <-> In t l.
Proof.
  intros H. rewrite existsb_exists. split.
  - intros (a & Ha & Hp). apply H in Hp. now subst.
  - intros Ha. exists t. split; auto. now apply H.
Qed.

Lemma arg_case (p : ty -> bool) t l : (forall a, p a = true <-> a = t) ->
  (existsb p l = true /\ In t l) \/ (existsb p l = false /\ ~ In t l).
Proof. intros H. pose proof (arg_in p t l H) as G. destruct (existsb p l); [left; tauto|right; split; auto; intros B; apply G in B; discriminate]. Qed.

Lemma union_iff E l x v (P : list (string * pyval) -> pyval -> Prop) :
  (union_scalar E l x v \/ exists d nm, x = VDict d /\ P d nm) <->
  match coerce_scalar E (TUnion l) x with Some r => r = Ok v | None => exists d nm, x = VDict d /\ P d nm end.
Proof.
  assert (Hs := arg_case is_TStr TStr l ltac:(intros []; split; easy)).
  assert (Hf := arg_case is_TFloat TFloat l ltac:(intros []; split; easy)).
  assert (Hi := arg_case is_TInt TInt l ltac:(intros []; split; easy)).
  assert (HI : forall f, (exists z, float_is f z /\ v = VInt z) <-> exists z, py_int_of_float f = Ok z /\ Z_eq_float z f = true /\ v = VInt z).
  { intros f. split; [intros (z & H & ->); exists z; rewrite (float_is_int _ _ H); auto|intros (z & _ & H & ->); exists z; auto]. }
  unfold coerce_scalar, clz_or_arg. cbn [is_TStr is_TFloat is_TInt orb]. cbv zeta.
  assert (N : forall A, ~ (exists d nm, x = VDict d /\ P d nm) -> (A \/ exists d nm, x = VDict d /\ P d nm) <-> A) by tauto.
  destruct x as [|b|z|f|s|k|k|d|n d|n d|n m y|n y]; cbn [union_scalar as_int]; try (rewrite N by (intros (d0 & nm & H & _); discriminate)).
  all: try tauto.
  - split; [easy|]. intros (d0 & nm & H & _). discriminate.
  - destruct Hf as [[-> G]|[-> G]].
    + split; [intros (_ & f & -> & ->); reflexivity|]. intros H. apply rbind_ok in H as (f & -> & H). injection H as <-. eauto.
    + split; [tauto|]. intros (d0 & nm & H & _). discriminate.
  - destruct Hf as [[-> G]|[-> G]].
    + split; [intros (_ & f & -> & ->); reflexivity|]. intros H. apply rbind_ok in H as (f & -> & H). injection H as <-. eauto.
    + split; [tauto|]. intros (d0 & nm & H & _). discriminate.
  - rewrite HI. destruct Hi as [[-> G]|[-> G]].
    + destruct (py_int_of_float f) as [z|e]; [destruct (Z_eq_float z f) eqn:Ef|].
      * split; [intros (_ & w & [= <-] & _ & ->); reflexivity|]. intros [= <-]. eauto.
      * split; [intros (_ & w & [= <-] & H & _); congruence|]. intros (d0 & nm & H & _). discriminate.
      * split; [intros (_ & w & H & _); discriminate|discriminate].
    + split; [tauto|]. intros (d0 & nm & H & _). discriminate.
  - destruct Hf as [[-> G]|[-> G]]; [|destruct Hi as [[-> G']|[-> G']]].
    + destruct (e_float E s) as [f|].
      * split; [intros [(_ & w & [= <-] & ->)|(? & _)]; [reflexivity|tauto]|]. intros [= <-]. eauto 6.
      * split; [intros [(_ & w & H & _)|(? & _)]; [discriminate|tauto]|discriminate].
    + destruct (e_float E s) as [f|].
      * split.
        -- intros [(? & _)|(_ & _ & w & z & [= <-] & Hz & ->)]; [tauto|]. rewrite (float_is_int _ _ Hz). cbn [rbind]. unfold float_is in Hz. now rewrite Hz.
        -- intros H. apply rbind_ok in H as (z & _ & H). destruct (Z_eq_float z f) eqn:Ef; [|discriminate]. injection H as <-. right. eauto 8.
      * split; [intros [(? & _)|(_ & _ & w & z & H & _)]; [tauto|discriminate]|discriminate].
    + split; [tauto|]. intros (d0 & nm & H & _). discriminate.
  - split; [easy|]. intros (d0 & nm & H & _). discriminate.
  - split; [easy|]. intros (d0 & nm & H & _). discriminate.
  - destruct d; [destruct Hs as [[-> G]|[-> G]]|].
    + split; [intros (_ & ->); reflexivity|]. intros [= <-]. auto.
    + split; [tauto|]. intros (d0 & nm & H & _). discriminate.
    + split; [easy|]. intros (d0 & nm & H & _). discriminate.
  - split; [easy|]. intros (d0 & nm & H & _). discriminate.
  - split; [easy|]. intros (d0 & nm & H & _). discriminate.
  - split; [easy|]. intros (d0 & nm & H & _). discriminate.
Qed.

Lemma denotes_union E sch allow ff ig l x v :
  denotes E sch allow ff ig (TUnion l) x v <->
  match coerce_scalar E (TUnion l) x with
  | Some r => r = Ok v
  | None => exists d nm, x = VDict d /\ aget "!__name__" d = Some nm /\ union_den (fun a => denotes E sch allow ff ig a x v) nm l
  end.
Proof. cbn [denotes]. apply union_iff. Qed.

(** ** the deserializers when the overrides (if any) have been applied *)
Section Load.
  Variable E : env.
  Variable ovs : option (list string).
  Variable allow : bool.
  Variable dir : option string.
  Hypothesis Hord : order_ok E.

  Let dss := typed_load_desers ovs allow dir.

  Definition inactive (st : dstate) : Prop :=
    match ovs with None => True | Some _ => st_ov_applied st = true end.

  Lemma deser_inactive t v path st : inactive st ->
    deser_all E dss t v VNone false path st =
    deser_all E (typed_load_desers None allow dir) t v VNone false path st.
  Proof.
    intros H. unfold dss, typed_load_desers. unfold inactive in H. destruct ovs as [o|]; auto.
    assert (Hd : deser_one E (DOverrides o) t v path st = Ok (mkD v VNone false false st))
      by (cbn [deser_one]; rewrite H; reflexivity).
    generalize ([DSchedule; DVersioned allow] ++ match dir with Some d => [DLazy d] | None => [] end)%list.
    intros rest. cbn [app deser_all]. rewrite Hd. reflexivity.
  Qed.

  Lemma lazy_other d t v path st : is_TSer t = false ->
    deser_one E (DLazy d) t v path st = Ok (mkD v VNone false false st).
  Proof. intros H. destruct t; try discriminate; reflexivity. Qed.

  Lemma sched_other t v path st : schedule_text t v = false ->
    deser_one E DSchedule t v path st = Ok (mkD v VNone false false st).
  Proof.
    intros H3. unfold deser_one. destruct t; simpl in *; auto; destruct v; simpl in *; auto; rewrite H3; auto.
  Qed.

  Lemma deser_plain t v path st : is_TSer t = false -> schedule_text t v = false ->
    deser_all E (typed_load_desers None allow dir) t v VNone false path st =
    (let* v' := deser_versioned (e_class E) allow t v in Ok (v', VNone, false, st)).
  Proof.
    intros H1 H2. unfold typed_load_desers. cbn [app deser_all]. rewrite sched_other by auto.
    cbn [rbind d_ok d_value d_mut d_ret d_st orb]. cbn [deser_one].
    destruct (deser_versioned (e_class E) allow t v) as [v'|e]; cbn [rbind]; auto.
    cbn [d_ok d_value d_mut d_ret d_st orb]. destruct dir; cbn [deser_all]; auto.
    rewrite lazy_other by auto. reflexivity.
  Qed.

  Lemma sched_add_nonempty root p l r : sched_add root p l = Ok r -> r <> [].
  Proof.
    assert (N : forall (k : string) (v : stree) d, aset k v d <> []).
    { intros k v [|[j w] d]; simpl; [discriminate|]. destruct (String.eqb k j); discriminate. }
    unfold sched_add. intros H. apply rbind_ok in H as [[rt cur] [_ H]]. cbn [fst snd] in H.
    unfold sched_assign in H. destruct cur as [c|].
    - destruct (aget c rt) as [[lf|nd]|]; try discriminate. injection H as <-. apply N.
    - injection H as <-. apply N.
  Qed.

  Lemma deser_sched t v path st r : schedule_text t v = true ->
    deser_all E (typed_load_desers None allow dir) t v VNone false path st = Ok r ->
    exists s y last st', v = VStr s /\ has_char "@" s = true /\ r = (y, last, false, st') /\
      st_ov_applied st' = st_ov_applied st /\ st_sched st' <> [] /\
      scheduled E (match t with TInt => true | _ => false end) s y /\
      (t = TInt \/ t = TFloat).
  Proof.
    intros H1 H2. destruct v; try (destruct t; discriminate).
    assert (Ht : (t = TInt \/ t = TFloat) /\ has_char "@" s = true) by (destruct t; simpl in H1; try discriminate; auto).
    destruct Ht as [Ht Hs]. unfold typed_load_desers in H2. cbn [app deser_all deser_one] in H2.
    exists s. destruct Ht as [-> | ->]; rewrite Hs in H2; cbv zeta in H2.
    - apply rbind_ok in H2 as [r1 [H2 H3]].
      apply rbind_ok in H2 as [pw [P1 H2]]. apply rbind_ok in H2 as [root [P2 H2]].
      apply rbind_ok in H2 as [y [P3 H2]]. apply rbind_ok in H2 as [w [P4 H2]]. injection H2 as <-.
      cbn [rbind d_ok d_value d_mut d_ret d_st orb deser_versioned] in H3.
      apply sched_add_nonempty in P2.
      exists w. destruct dir; cbn [deser_all deser_one rbind d_ok d_value d_mut d_ret d_st orb] in H3; injection H3 as <-;
        eexists _, _; (repeat split; auto); exists pw, y; auto.
    - apply rbind_ok in H2 as [r1 [H2 H3]].
      apply rbind_ok in H2 as [pw [P1 H2]]. apply rbind_ok in H2 as [root [P2 H2]].
      apply rbind_ok in H2 as [y [P3 H2]]. apply rbind_ok in H2 as [w [P4 H2]]. injection H2 as <-.
      cbn [rbind d_ok d_value d_mut d_ret d_st orb deser_versioned] in H3.
      apply sched_add_nonempty in P2.
      exists w. destruct dir; cbn [deser_all deser_one rbind d_ok d_value d_mut d_ret d_st orb] in H3; injection H3 as <-;
        eexists _, _; (repeat split; auto); exists pw, y; auto.
  Qed.

  Lemma deser_ser n v path st r :
    deser_all E (typed_load_desers None allow dir) (TSer n) v VNone false path st = Ok r ->
    match dir with
    | None => r = (v, VNone, false, st)
    | Some _ => exists s st', v = VStr s /\ blob_marker s = true /\ r = (VNone, VNone, true, st') /\
                              st_ov_applied st' = st_ov_applied st /\ st_sched st' = st_sched st
    end.
  Proof.
    unfold typed_load_desers. intros H. cbn [app deser_all deser_one rbind d_ok d_value d_mut d_ret d_st orb deser_versioned] in H.
    destruct dir as [d|].
    - cbn [app deser_all deser_one rbind d_ok d_value d_mut d_ret d_st orb deser_versioned] in H.
      apply rbind_ok in H as [r1 [H1 H]]. destruct v; try discriminate.
      cbv zeta in H1. exists s. unfold blob_marker.
      destruct (String.eqb s "<BLOB>"); [|destruct (String.eqb s "<blob:pickle>"); [|destruct (String.eqb s "<blob:msgpack>"); [|discriminate]]];
        injection H1 as <-; cbn [d_ok d_value d_mut d_ret d_st orb] in H; injection H as <-; eexists; repeat split; auto.
    - cbn [app deser_all] in H. injection H as <-. reflexivity.
  Qed.

  Lemma deser_ser_run n s path st d : dir = Some d -> blob_marker s = true ->
    exists st', deser_all E (typed_load_desers None allow dir) (TSer n) (VStr s) VNone false path st = Ok (VNone, VNone, true, st') /\
                st_ov_applied st' = st_ov_applied st /\ st_sched st' = st_sched st.
  Proof.
    intros -> Hb. unfold typed_load_desers.
    cbn [app deser_all deser_one rbind d_ok d_value d_mut d_ret d_st orb deser_versioned]. cbv zeta.
    unfold blob_marker in Hb.
    destruct (String.eqb s "<BLOB>"); [|destruct (String.eqb s "<blob:pickle>"); [|destruct (String.eqb s "<blob:msgpack>"); [|discriminate]]];
      cbn [rbind d_ok d_value d_mut d_ret d_st orb]; eexists; repeat split; reflexivity.
  Qed.

  Lemma inactive_eq st st' : st_ov_applied st' = st_ov_applied st -> inactive st -> inactive st'.
  Proof. unfold inactive. destruct ovs; congruence. Qed.

  (** ** lists *)
  Section LoopsSound.
  Variable Inv : dstate -> Prop.
  Variable le : dstate -> dstate -> Prop.
  Hypothesis le_refl : forall s, le s s.
  Hypothesis le_trans : forall a b c, le a b -> le b c -> le a c.

  Lemma smapi_sound {A B} (f : nat -> A -> dstate -> res (B * dstate)) l :
    forall i s r s',
    (forall i x s y s', In x l -> Inv s -> f i x s = Ok (y, s') -> Inv s' /\ le s s') -> Inv s ->
    smapi f i l s = Ok (r, s') ->
    Forall2 (fun x y => exists j s1 s2, Inv s1 /\ f j x s1 = Ok (y, s2) /\ le s2 s') l r /\ Inv s' /\ le s s'.
  Proof.
    induction l as [|x l IH]; intros i s r s' H Hs Hr.
    - injection Hr as <- <-. auto.
    - rewrite smapi_cons in Hr. apply rbind_ok in Hr as [[y s1] [H1 Hr]]. apply rbind_ok in Hr as [[ys s2] [H2 Hr]].
      injection Hr as <- <-. cbn [fst snd] in *.
      destruct (H i x s y s1 (or_introl eq_refl) Hs H1) as [Hs1 Hl1].
      destruct (IH (S i) s1 ys s2) as (R2 & Hs2 & Hl2); auto; [intros; eapply H; eauto; right; auto|].
      split; [|eauto]. constructor; [|exact R2]. exists i, s, s1. auto.
  Qed.

  Lemma tuple_sound f path ts : forall i l s r s',
    (forall t x p s y s', In t ts -> In x l -> Inv s -> f t x p s = Ok (y, s') -> Inv s' /\ le s s') -> Inv s ->
    tuple_loop f path ts i l s = Ok (r, s') ->
    tuple_den (fun t x y => exists p s1 s2, In t ts /\ In x l /\ Inv s1 /\ f t x p s1 = Ok (y, s2) /\ le s2 s') ts l r /\ Inv s' /\ le s s'.
  Proof.
    induction ts as [|t ts IH]; intros i l s r s' H Hs Hr; destruct l as [|x l].
    - injection Hr as <- <-. simpl; auto.
    - discriminate.
    - injection Hr as <- <-. simpl; auto.
    - cbn [tuple_loop] in Hr. apply rbind_ok in Hr as [[y s1] [H1 Hr]]. apply rbind_ok in Hr as [[ys s2] [H2 Hr]].
      injection Hr as <- <-. cbn [fst snd] in *.
      destruct (H t x _ s y s1 (or_introl eq_refl) (or_introl eq_refl) Hs H1) as [Hs1 Hl1].
      destruct (IH (S i) l s1 ys s2) as (R2 & Hs2 & Hl2); auto; [intros; eapply H; eauto; right; auto|].
      split; [|eauto]. split.
      + eexists _, s, s1. simpl. eauto 8.
      + revert R2. clear. assert (G : forall ts' l' m' (P Q : ty -> pyval -> pyval -> Prop),
          (forall a b c, P a b c -> Q a b c) -> tuple_den P ts' l' m' -> tuple_den Q ts' l' m').
        { induction ts' as [|a ts' IHt]; intros [|b l'] [|c m'] P Q HPQ; simpl; try easy. intros [A B]; split; eauto. }
        apply G. intros a b d (p & s3 & s4 & A1 & A2 & A3). exists p, s3, s4. simpl. tauto.
  Qed.
  End LoopsSound.

  Lemma smapi_complete {A B} (Inv : dstate -> Prop) (f : nat -> A -> dstate -> res (B * dstate)) (R : A -> B -> Prop) l :
    forall i s r,
    (forall i x s y, In x l -> Inv s -> R x y -> exists s', f i x s = Ok (y, s') /\ Inv s') -> Inv s ->
    Forall2 R l r -> exists s', smapi f i l s = Ok (r, s') /\ Inv s'.
  Proof.
    induction l as [|x l IH]; intros i s r H Hs Hr; inversion Hr as [|? y ? ys H1 H2]; subst.
    - exists s; auto.
    - rewrite smapi_cons. destruct (H i x s y (or_introl eq_refl) Hs H1) as (s1 & -> & Hs1). cbn [rbind fst snd].
      destruct (IH (S i) s1 ys) as (s2 & -> & Hs2); auto; [intros; apply H; auto; right; auto|].
      cbn [rbind fst snd]. eauto.
  Qed.

  Lemma smap_as_smapi {A B St} (f : A -> St -> res (B * St)) l : forall i s, smap f l s = smapi (fun _ => f) i l s.
  Proof.
    induction l as [|x l IH]; intros i s; auto. rewrite smap_cons, smapi_cons.
    destruct (f x s) as [[y s1]|]; cbn [rbind fst snd]; auto. now rewrite <- IH.
  Qed.

  Lemma tuple_complete (Inv : dstate -> Prop) f (D : ty -> pyval -> pyval -> Prop) path ts : forall i l s r,
    (forall t x p s y, In t ts -> In x l -> Inv s -> D t x y -> exists s', f t x p s = Ok (y, s') /\ Inv s') -> Inv s ->
    tuple_den D ts l r -> exists s', tuple_loop f path ts i l s = Ok (r, s') /\ Inv s'.
  Proof.
    induction ts as [|t ts IH]; intros i l s r H Hs Hr; destruct l as [|x l]; destruct r as [|y r]; try (simpl in Hr; easy).
    - exists s; auto.
    - exists s; auto.
    - destruct Hr as [H1 H2]. cbn [tuple_loop].
      destruct (H t x (path ++ "[" ++ show_nat i ++ "]") s y (or_introl eq_refl) (or_introl eq_refl) Hs H1) as (s1 & -> & Hs1).
      cbn [rbind fst snd].
      destruct (IH (S i) l s1 r) as (s2 & E2 & Hs2); auto; [intros; apply H; auto; right; auto|].
      exists s2. split; auto. change ((let* ys := tuple_loop f path ts (S i) l s1 in Ok (y :: fst ys, snd ys)) = Ok (y :: r, s2)).
      rewrite E2. reflexivity.
  Qed.

  Lemma union_sound f (D : ty -> Prop) nm ts r :
    (forall a, In a ts -> f a = r -> D a) -> union_scan f nm ts = Some r -> union_den D nm ts.
  Proof.
    induction ts as [|a ts IH]; intros H Hs; [discriminate|]. simpl in *. destruct (py_eq nm (VStr (ty_name a))).
    - injection Hs as Hs. apply H; auto.
    - apply IH; auto.
  Qed.

  Lemma union_complete f (D : ty -> Prop) nm ts (P : res (pyval * dstate) -> Prop) :
    (forall a, In a ts -> D a -> P (f a)) -> union_den D nm ts -> exists r, union_scan f nm ts = Some r /\ P r.
  Proof.
    induction ts as [|a ts IH]; intros H Hs; [easy|]. simpl in *. destruct (py_eq nm (VStr (ty_name a))).
    - eauto.
    - apply IH; auto.
  Qed.

  Lemma filev_list l : forallb filev l = true -> forall x, In x l -> filev x = true.
  Proof. rewrite forallb_forall. auto. Qed.

  Lemma filev_tuple x l : filev x = true -> tuple_items x = Some l -> forall y, In y l -> filev y = true.
  Proof.
    intros H Hl y Hy. destruct x; try discriminate; injection Hl as <-.
    - simpl in H. eapply filev_list; eauto.
    - apply filev_items in H as [_ H]. apply in_map_iff in Hy as [[k v] [<- Hin]]. eauto.
  Qed.

  Lemma enum_find n ms x v : enum_lookup n ms x = Ok v <->
    exists m y, List.find (fun mx => py_eq (snd mx) x) ms = Some (m, y) /\ v = VEnum n m y.
  Proof.
    induction ms as [|[m y] ms IH]; simpl.
    - split; [discriminate|]. intros (m & y & H & _); discriminate.
    - destruct (py_eq y x); [|exact IH]. split.
      + intros H; injection H as <-. eauto.
      + intros (m' & y' & H & ->). injection H as -> ->. reflexivity.
  Qed.

  Lemma type_args_iff l : typing_args_ok E l = Ok tt <-> Forall (fun a => e_type_arg E a = None) l.
  Proof.
    induction l as [|a l IH]; simpl.
    - split; auto.
    - destruct (e_type_arg E a) eqn:Ea.
      + split; [discriminate|]. intros H; inversion H; congruence.
      + rewrite IH. split; [auto|]. intros H; inversion H; auto.
  Qed.

  Lemma py_elem_iff v l : py_elem v l = true <-> exists a, In a l /\ py_eq a v = true.
  Proof. unfold py_elem. apply existsb_exists. Qed.

  Lemma load_data_eq c fs x path ig st : inactive st -> filev x = true ->
    loadable (TData c fs) ->
    from_dict E dss (TData c fs) x path ig st =
    (let* y := deser_versioned (e_class E) allow (TData c fs) x in
     match items_of y with
     | Some items => data_body E (fun ft v p s => from_dict E dss ft v p false s) c fs path ig items st
     | None => Err DeserializeValueError
     end).
  Proof.
    intros Hi Hx Hl. rewrite from_dict_main by discriminate. unfold from_main.
    rewrite deser_inactive, deser_plain by auto.
    destruct (deser_versioned (e_class E) allow (TData c fs) x) as [y|e] eqn:Ev; cbn [rbind]; auto.
    assert (Hy : filev y = true) by (eapply filev_versioned; eauto).
    destruct y as [|b|z|f|s|l|l|d|n d|n d|n m v|n v]; try discriminate; try reflexivity.
    - destruct l; reflexivity.
    - destruct d; reflexivity.
  Qed.

  (** no schedules at the end: none before *)
  Definition sle (s s' : dstate) : Prop := st_sched s' = [] -> st_sched s = [].
  Definition sok (sch : bool) (s : dstate) : Prop := sch = true \/ st_sched s = [].

  Lemma sle_refl s : sle s s.
  Proof. unfold sle; auto. Qed.
  Lemma sle_trans a b c : sle a b -> sle b c -> sle a c.
  Proof. unfold sle; auto. Qed.
  Lemma sok_le sch a b : sle a b -> sok sch b -> sok sch a.
  Proof. unfold sle, sok. tauto. Qed.
  Hint Resolve sle_refl : core.

  Lemma tuple_den_impl (P Q : ty -> pyval -> pyval -> Prop) ts : forall l m,
    (forall a b c, P a b c -> Q a b c) -> tuple_den P ts l m -> tuple_den Q ts l m.
  Proof. induction ts as [|a ts IH]; intros [|b l] [|c m] H; simpl; try easy. intros [A B]; split; auto. Qed.

  Lemma Forall2_impl' {A B} (P Q : A -> B -> Prop) l m :
    (forall a b, In a l -> P a b -> Q a b) -> Forall2 P l m -> Forall2 Q l m.
  Proof.
    intros H HF. induction HF; constructor; [apply H; auto; left; auto|]. apply IHHF. intros; apply H; auto; right; auto.
  Qed.

  Lemma load_sound t : loadable t -> forall x path ig st v st',
    filev x = true -> inactive st ->
    from_dict E dss t x path ig st = Ok (v, st') ->
    (inactive st' /\ sle st st') /\
    forall sch, sok sch st' -> denotes E sch allow (is_some dir) ig t x v.
  Proof.
    induction t as [| | | | |i IH|l IH|kt vt IHk IHv|i IH|l IH|c fs IH|n ms|l|n] using ty_ind';
      intros Hl x path ig st v st' Hx Hi H.
    - (* int *)
      rewrite from_dict_main in H by discriminate. unfold from_main in H. rewrite deser_inactive in H by auto.
      destruct (schedule_text TInt x) eqn:Es.
      + apply rbind_ok in H as [r [H1 H]]. apply deser_sched in H1 as (s & y & la & st1 & -> & Hs & -> & Hst & Hne & Hsc & _); auto.
        assert (Hsc' := Hsc). destruct Hsc as (pw & w & S1 & S2 & S3). cbn [num_cast] in S3.
        apply rbind_ok in S3 as [zz [_ S3]]. injection S3 as <-. cbn [isinstance] in H. injection H as <- <-.
        split; [split; [eapply inactive_eq; eauto|intros HH; contradiction]|].
        intros sch [->|HH]; [|contradiction]. simpl. rewrite Hs. auto.
      + rewrite deser_plain in H by auto. cbn [deser_versioned rbind] in H.
        destruct x; try discriminate; try (injection H as <- <-; simpl; auto; fail).
        * cbn [isinstance coerce_scalar clz_or_arg is_TInt is_TFloat is_TStr orb] in H. cbv zeta in H.
          destruct (py_int_of_float f) as [z|e] eqn:Ez; [|discriminate]. destruct (Z_eq_float z f) eqn:Ef; [|discriminate].
          injection H as <- <-. split; auto. intros sch _. exists z. auto.
        * cbn [isinstance coerce_scalar clz_or_arg is_TInt is_TFloat is_TStr orb] in H. cbv zeta in H.
          simpl in Es. destruct (e_float E s) as [f|] eqn:Ee; [|discriminate].
          destruct (py_int_of_float f) as [z|e] eqn:Ez; [|discriminate]. cbn [rbind] in H. destruct (Z_eq_float z f) eqn:Ef; [|discriminate].
          injection H as <- <-. split; auto. intros sch _. simpl. rewrite Es. exists f, z. auto.
        * destruct d; discriminate.
    - (* float *)
      rewrite from_dict_main in H by discriminate. unfold from_main in H. rewrite deser_inactive in H by auto.
      destruct (schedule_text TFloat x) eqn:Es.
      + apply rbind_ok in H as [r [H1 H]]. apply deser_sched in H1 as (s & y & la & st1 & -> & Hs & -> & Hst & Hne & Hsc & _); auto.
        assert (Hsc' := Hsc). destruct Hsc as (pw & w & S1 & S2 & S3). cbn [num_cast] in S3.
        injection S3 as <-. cbn [isinstance] in H. injection H as <- <-.
        split; [split; [eapply inactive_eq; eauto|intros HH; contradiction]|].
        intros sch [->|HH]; [|contradiction]. simpl. rewrite Hs. auto.
      + rewrite deser_plain in H by auto. cbn [deser_versioned rbind] in H.
        destruct x; try discriminate; try (injection H as <- <-; simpl; auto; fail);
          cbn [isinstance coerce_scalar clz_or_arg is_TInt is_TFloat is_TStr orb as_int] in H; cbv zeta in H.
        * apply rbind_ok in H as [y [H1 H]]. apply rbind_ok in H1 as [f [H0 H1]]. injection H1 as <-. injection H as <- <-.
          split; auto. intros sch _. exists f; auto.
        * apply rbind_ok in H as [y [H1 H]]. apply rbind_ok in H1 as [f [H0 H1]]. injection H1 as <-. injection H as <- <-.
          split; auto. intros sch _. exists f; auto.
        * simpl in Es. destruct (e_float E s) as [f|] eqn:Ee; [|discriminate]. cbn [rbind] in H. injection H as <- <-.
          split; auto. intros sch _. simpl. rewrite Es. exists f; auto.
        * destruct d; discriminate.
    - (* str *)
      rewrite from_dict_main in H by discriminate. unfold from_main in H. rewrite deser_inactive, deser_plain in H by auto.
      cbn [deser_versioned rbind] in H.
      destruct x; try discriminate; try (injection H as <- <-; simpl; auto; fail).
      destruct d; [|discriminate]. injection H as <- <-. simpl; auto.
    - (* bool *)
      rewrite from_dict_main in H by discriminate. unfold from_main in H. rewrite deser_inactive, deser_plain in H by auto.
      cbn [deser_versioned rbind] in H.
      destruct x; try discriminate; try (injection H as <- <-; simpl; auto; fail). destruct d; discriminate.
    - (* None *)
      rewrite from_dict_main in H by discriminate. unfold from_main in H. rewrite deser_inactive, deser_plain in H by auto.
      cbn [deser_versioned rbind] in H.
      destruct x; try discriminate; try (injection H as <- <-; simpl; auto; fail). destruct d; discriminate.
    - (* list *)
      rewrite from_dict_main in H by discriminate. unfold from_main in H. rewrite deser_inactive, deser_plain in H by auto.
      cbn [deser_versioned rbind] in H.
      destruct x; try discriminate; [|destruct d; discriminate].
      change (from_struct E dss (TList i) (VList l) path ig st = Ok (v, st')) in H. cbn [from_struct] in H.
      apply rbind_ok in H as [[m s2] [H1 H]]. injection H as <- <-. cbn [fst snd].
      eapply (smapi_sound inactive sle sle_refl sle_trans) in H1 as [F1 F2]; [| |exact Hi].
      + split; [exact F2|]. intros sch Hsk. exists l, m. split; [reflexivity|]. split; [reflexivity|].
        revert F1. apply Forall2_impl'. intros y w Hin (j & s1 & s3 & Hs1 & Hf & Hle).
        apply (IH Hl y _ _ s1 w s3 (filev_list l Hx y Hin) Hs1 Hf). eapply sok_le; eauto.
      + intros j y s w s' Hin Hs Hf. apply (IH Hl y _ _ s w s' (filev_list l Hx y Hin) Hs Hf).
    - (* tuple *)
      rewrite from_dict_main in H by discriminate. unfold from_main in H. rewrite deser_inactive, deser_plain in H by auto.
      cbn [deser_versioned rbind] in H.
      assert (H' : from_struct E dss (TTuple l) x path ig st = Ok (v, st')).
      { destruct x; try discriminate; try exact H. destruct d; exact H. }
      clear H; rename H' into H. cbn [from_struct] in H. destruct (tuple_items x) as [it|] eqn:Et; [|discriminate].
      apply rbind_ok in H as [[m s2] [H1 H]]. injection H as <- <-. cbn [fst snd].
      simpl in Hl. apply all_Forall in Hl. rewrite Forall_forall in Hl, IH.
      eapply (tuple_sound inactive sle sle_refl sle_trans) in H1 as [F1 F2]; [| |exact Hi].
      + split; [exact F2|]. intros sch Hsk. exists it, m. split; [exact Et|]. split; [reflexivity|].
        revert F1. apply tuple_den_impl. intros a y w (p & s1 & s3 & Ha & Hy & Hs1 & Hf & Hle).
        apply (IH a Ha (Hl a Ha) y _ _ s1 w s3 (filev_tuple x it Hx Et y Hy) Hs1 Hf). eapply sok_le; eauto.
      + intros a y p s w s' Ha Hy Hs Hf. apply (IH a Ha (Hl a Ha) y _ _ s w s' (filev_tuple x it Hx Et y Hy) Hs Hf).
    - (* dict *)
      rewrite from_dict_main in H by discriminate. unfold from_main in H. rewrite deser_inactive, deser_plain in H by auto.
      cbn [deser_versioned rbind] in H.
      destruct x; try discriminate; [|destruct d; discriminate].
      change (from_struct E dss (TDict kt vt) (VDict d) path ig st = Ok (v, st')) in H. cbn [from_struct] in H.
      apply rbind_ok in H as [[m s2] [H1 H]]. injection H as <- <-. cbn [fst snd].
      rewrite (smap_as_smapi _ _ 0) in H1.
      apply filev_dict in Hx as [_ Hx].
      eapply (smapi_sound inactive sle sle_refl sle_trans) in H1 as [F1 F2]; [| |exact Hi].
      + split; [exact F2|]. intros sch Hsk. exists d, m. split; [reflexivity|]. split; [reflexivity|].
        revert F1. apply Forall2_impl'. intros [k y] [k' w] Hin (j & s1 & s3 & Hs1 & Hf & Hle).
        apply rbind_ok in Hf as [[w' s4] [Hf1 Hf]]. injection Hf as <- <- <-. cbn [fst snd] in *. split; auto.
        apply (IHv Hl y _ _ s1 w' s4 (Hx k y Hin) Hs1 Hf1). eapply sok_le; eauto.
      + intros j [k y] s [k' w] s' Hin Hs Hf. apply rbind_ok in Hf as [[w' s3] [Hf1 Hf]]. injection Hf as <- <- <-.
        cbn [fst snd] in *. apply (IHv Hl y _ _ s w' s3 (Hx k y Hin) Hs Hf1).
    - (* optional *)
      rewrite from_dict_eq in H. destruct x; cbn [is_none] in H.
      1:{ injection H as <- <-. simpl; auto. }
      all: destruct (IH Hl _ _ _ _ _ _ Hx Hi H) as [D1 D2]; split; auto; intros sch Hsk; right; split; [discriminate|auto].
    - (* union *)
      rewrite from_dict_main in H by discriminate. unfold from_main in H. rewrite deser_inactive, deser_plain in H by auto.
      cbn [deser_versioned rbind] in H. cbn [isinstance] in H.
      setoid_rewrite denotes_union. destruct (coerce_scalar E (TUnion l) x) as [r|] eqn:Ec.
      { apply rbind_ok in H as [y [-> H]]. injection H as <- <-. auto 6. }
      cbn [from_struct] in H. cbv zeta in H.
      destruct x; try discriminate; [destruct (existsb has_args l); discriminate|].
      destruct (aget "!__name__" d) as [nm|] eqn:En; [|destruct (existsb has_args l); discriminate].
      destruct (union_scan _ nm l) as [r|] eqn:Eu; [|destruct (existsb has_args l); discriminate].
      subst r. simpl in Hl. apply all_Forall in Hl. rewrite Forall_forall in Hl, IH.
      assert (Hboth : union_den (fun a => (inactive st' /\ sle st st') /\ forall sch, sok sch st' -> denotes E sch allow (is_some dir) ig a (VDict d) v) nm l).
      { eapply union_sound; [|exact Eu]. intros a Ha Hf. apply (IH a Ha (Hl a Ha) _ _ _ _ _ _ Hx Hi Hf). }
      split.
      + clear -Hboth. induction l as [|a l IHl]; simpl in *; [easy|]. destruct (py_eq nm (VStr (ty_name a))); tauto.
      + intros sch Hsk. exists d, nm. split; [reflexivity|]. split; [exact En|]. clear -Hboth Hsk.
        induction l as [|a l IHl]; simpl in *; auto. destruct (py_eq nm (VStr (ty_name a))); auto. now apply Hboth.
    - (* dataclass *)
      rewrite load_data_eq in H by auto. apply rbind_ok in H as [y [H1 H]].
      assert (Hy : filev y = true) by (eapply filev_versioned; eauto).
      destruct (items_of y) as [items|] eqn:Ei; [|discriminate].
      assert (Hit : NoDup (akeys items) /\ forall k w, In (k, w) items -> filev w = true).
      { destruct y; try discriminate; simpl in Ei.
        - destruct l; [|discriminate]. injection Ei as <-. split; [constructor|easy].
        - injection Ei as <-. now apply filev_items.
        - injection Ei as <-. now apply filev_items. }
      destruct Hit as [Hit1 Hit2]. assert (Hl0 := Hl). destruct Hl as (Hnd & Hnn & _ & Hl). apply all_Forall in Hl. rewrite Forall_forall in Hl, IH.
      assert (Hlf : forall n ft fd, In (n, (ft, fd)) fs -> loadable ft) by (intros n ft fd Hf; apply (Hl _ Hf)).
      apply (data_inv E _ inactive sle sle_refl sle_trans) in H as (I0 & o & -> & Hk & Ho); auto.
      + split; auto. intros sch Hsk. exists y, items, o. repeat split; auto.
        revert Ho. apply all2_impl. intros [n [ft fd]] [k w] Hf _. unfold field_rel. cbn [fst snd]. intros [-> Hr]. split; auto.
        destruct (aget n items) as [x0|] eqn:Ea; auto. destruct (is_weak x0); auto.
        destruct Hr as (s1 & s2 & Hs1 & Hr & Hle). apply aget_some_in in Ea.
        apply (IH _ Hf (Hl _ Hf) x0 _ _ s1 w s2 (Hit2 _ _ Ea) Hs1 Hr). eapply sok_le; eauto.
      + intros n ft fd w Hf Hin _ s z s' Hs Hg. apply (IH _ Hf (Hl _ Hf) w _ _ s z s' (Hit2 _ _ Hin) Hs Hg).
    - (* enum *)
      rewrite from_dict_main in H by discriminate. unfold from_main in H. rewrite deser_inactive, deser_plain in H by auto.
      cbn [deser_versioned rbind] in H.
      assert (H' : (let* m := enum_lookup n ms x in Ok (m, st)) = Ok (v, st')).
      { destruct x; try discriminate; try exact H. destruct d; exact H. }
      apply rbind_ok in H' as [m [H1 H2]]. injection H2 as <- <-. split; auto. intros sch _. now apply enum_find.
    - (* literal *)
      rewrite from_dict_main in H by discriminate. unfold from_main in H. rewrite deser_inactive, deser_plain in H by auto.
      cbn [deser_versioned rbind] in H.
      assert (H' : (let* _ := typing_args_ok E l in
         if py_elem (unit_text x) l then Ok (unit_text x, st) else Err DeserializeValueError) = Ok (v, st')).
      { destruct x; try discriminate; try exact H. destruct d; exact H. }
      apply rbind_ok in H' as [[] [H1 H2]]. destruct (py_elem (unit_text x) l) eqn:Ee; [|discriminate].
      injection H2 as <- <-. split; auto. intros sch _. split; [now apply type_args_iff|]. split; auto. now apply py_elem_iff.
    - (* Serializable *)
      rewrite from_dict_main in H by discriminate. unfold from_main in H. rewrite deser_inactive in H by auto.
      apply rbind_ok in H as [r [H1 H]]. apply deser_ser in H1. simpl. destruct dir as [dd|] eqn:Ed.
      + destruct H1 as (s & st1 & -> & Hb & -> & Hst & Hsc). injection H as <- <-.
        split; [split; [eapply inactive_eq; eauto|unfold sle; congruence]|]. intros sch _. simpl. eauto 6.
      + subst r. destruct x; try discriminate. destruct d; discriminate.
  Qed.

  (** overrides done, and the schedules are [S0] *)
  Definition quiet (S0 : list (string * stree)) (st : dstate) : Prop :=
    inactive st /\ st_sched st = S0.

  Lemma from_plain t x path ig st : inactive st -> is_TSer t = false -> schedule_text t x = false ->
    is_dataclass_ty t = false -> (forall i, t <> TOpt i) ->
    from_dict E dss t x path ig st =
    (if isinstance x t then Ok (x, st) else
     match coerce_scalar E t x with
     | Some r => let* y := r in Ok (y, st)
     | None => from_struct E dss t x path ig st
     end).
  Proof.
    intros Hi H1 H2 H3 H4. rewrite from_dict_main by auto. unfold from_main. rewrite deser_inactive, deser_plain by auto.
    assert (deser_versioned (e_class E) allow t x = Ok x) as -> by (destruct t; try discriminate; reflexivity).
    reflexivity.
  Qed.

  (** no Serializable class in the annotation *)
  Fixpoint serless (t : ty) : bool :=
    match t with
    | TSer _ => false
    | TList i | TOpt i => serless i
    | TDict _ v => serless v
    | TTuple l | TUnion l => forallb serless l
    | TData _ fs => forallb (fun f : string * (ty * dflt) => let '(_, (ft, _)) := f in serless ft) fs
    | _ => true
    end.

  (** Loading a value without schedules keeps every property [Q] of the state that does not
      depend on the unloaded fields, and all of the state if there is no Serializable in the type. *)
  Lemma load_gen (Q : dstate -> Prop) (sl : bool) : (forall st, Q st -> inactive st) ->
    (sl = false -> forall st st', Q st -> st_ov_applied st' = st_ov_applied st -> st_sched st' = st_sched st -> Q st') ->
    forall t, loadable t -> (sl = true -> serless t = true) -> forall x path ig st v,
    filev x = true -> Q st ->
    denotes E false allow (is_some dir) ig t x v ->
    exists st', from_dict E dss t x path ig st = Ok (v, st') /\ Q st'.
  Proof.
    intros HQ HS.
    induction t as [| | | | |i IH|l IH|kt vt IHk IHv|i IH|l IH|c fs IH|n ms|l|n] using ty_ind';
      intros Hl Hsl x path ig st v Hx Hq H; assert (Hi : inactive st) by (apply HQ, Hq); cbn [serless] in Hsl.
    - (* int *)
      cbn [denotes] in H. unfold int_denotes in H.
      destruct x as [|b|z|f|s|l|l|d|n d|n d|n m y|n y]; try easy.
      + subst v. rewrite from_plain by (auto; discriminate). eexists; split; [reflexivity|auto].
      + subst v. rewrite from_plain by (auto; discriminate). eexists; split; [reflexivity|auto].
      + destruct H as (z & Hz & ->). rewrite from_plain by (auto; discriminate). cbn [isinstance].
        unfold coerce_scalar. cbn [clz_or_arg is_TInt is_TFloat is_TStr orb]. cbv zeta.
        rewrite (float_is_int _ _ Hz). unfold float_is in Hz. rewrite Hz. eexists; split; [reflexivity|auto].
      + destruct (has_char "@" s) eqn:Es; [destruct H; discriminate|]. destruct H as (f & z & Hf & Hz & ->).
        rewrite from_plain by (auto; discriminate). cbn [isinstance].
        unfold coerce_scalar. cbn [clz_or_arg is_TInt is_TFloat is_TStr orb]. cbv zeta.
        rewrite Hf, (float_is_int _ _ Hz). unfold float_is in Hz. cbn [rbind]. rewrite Hz. eexists; split; [reflexivity|auto].
    - (* float *)
      cbn [denotes] in H. unfold float_denotes in H.
      destruct x as [|b|z|f|s|l|l|d|n d|n d|n m y|n y]; try easy.
      + destruct H as (f & Hf & ->). rewrite from_plain by (auto; discriminate). cbn [isinstance].
        unfold coerce_scalar. cbn [clz_or_arg is_TInt is_TFloat is_TStr orb as_int]. cbv zeta. rewrite Hf.
        eexists; split; [reflexivity|auto].
      + destruct H as (f & Hf & ->). rewrite from_plain by (auto; discriminate). cbn [isinstance].
        unfold coerce_scalar. cbn [clz_or_arg is_TInt is_TFloat is_TStr orb as_int]. cbv zeta. rewrite Hf.
        eexists; split; [reflexivity|auto].
      + subst v. rewrite from_plain by (auto; discriminate). eexists; split; [reflexivity|auto].
      + destruct (has_char "@" s) eqn:Es; [destruct H; discriminate|]. destruct H as (f & Hf & ->).
        rewrite from_plain by (auto; discriminate). cbn [isinstance].
        unfold coerce_scalar. cbn [clz_or_arg is_TInt is_TFloat is_TStr orb]. cbv zeta.
        rewrite Hf. eexists; split; [reflexivity|auto].
    - (* str *)
      rewrite from_plain by (auto; discriminate). exists st. split; auto.
      cbn [denotes] in H. destruct x; try easy; [simpl in H; subst v; reflexivity|].
      destruct d; simpl in H; [subst v; reflexivity|easy].
    - (* bool *)
      rewrite from_plain by (auto; discriminate). exists st. split; auto.
      cbn [denotes] in H. destruct x; try easy. subst v; reflexivity.
    - (* None *)
      rewrite from_plain by (auto; discriminate). exists st. split; auto.
      destruct H as [-> ->]. reflexivity.
    - (* list *)
      destruct H as (l & m & -> & -> & HF). rewrite from_plain by (auto; discriminate). cbn [isinstance].
      change (coerce_scalar E (TList i) (VList l)) with (@None (res pyval)). cbn [from_struct].
      destruct (smapi_complete (Q) (fun i0 x s => from_dict E dss i x (path ++ "[" ++ show_nat i0 ++ "]") false s)
                 (denotes E false allow (is_some dir) false i) l 0 st m) as (st1 & E1 & Q1); auto.
      { intros j y s w Hy Hs Hd. apply IH; auto. now apply (filev_list l Hx). }
      rewrite E1. cbn [rbind fst snd]. eauto.
    - (* tuple *)
      destruct H as (it & m & Et & -> & HF). rewrite from_plain by (auto; discriminate).
      simpl in Hl. apply all_Forall in Hl. rewrite Forall_forall in Hl, IH.
      assert (Hf : from_struct E dss (TTuple l) x path ig st =
        (let* ls := tuple_loop (fun a x p s => from_dict E dss a x p false s) path l 0 it st in
         Ok (VTuple (fst ls), snd ls))).
      { cbn [from_struct]. rewrite Et. reflexivity. }
      assert (Hc : isinstance x (TTuple l) = false /\ coerce_scalar E (TTuple l) x = None).
      { destruct x; try discriminate; split; auto. destruct d; auto. }
      destruct Hc as [-> ->]. rewrite Hf.
      destruct (tuple_complete (Q) (fun a x p s => from_dict E dss a x p false s)
                 (denotes E false allow (is_some dir) false) path l 0 it st m) as (st1 & E1 & Q1); auto.
      { intros a y p s w Ha Hy Hs Hd. apply IH; auto; [|now apply (filev_tuple x it Hx Et)].
        intros Z. specialize (Hsl Z). rewrite forallb_forall in Hsl. auto. }
      rewrite E1. cbn [rbind fst snd]. eauto.
    - (* dict *)
      destruct H as (d & e & -> & -> & HF). rewrite from_plain by (auto; discriminate). cbn [isinstance].
      change (coerce_scalar E (TDict kt vt) (VDict d)) with (@None (res pyval)). cbn [from_struct].
      rewrite (smap_as_smapi _ _ 0).
      destruct (smapi_complete (Q) (fun (_ : nat) (kv : string * pyval) s =>
                             let* r := from_dict E dss vt (snd kv) (path ++ "." ++ fst kv) false s in
                             Ok ((fst kv, fst r), snd r))
                 (fun kv kw => fst kw = fst kv /\ denotes E false allow (is_some dir) false vt (snd kv) (snd kw)) d 0 st e) as (st1 & E1 & Q1); auto.
      { intros j [k y] s [k' w] Hy Hs [Hk Hd]. cbn [fst snd] in *. subst k'.
        apply filev_dict in Hx as [_ Hx].
        destruct (IHv Hl Hsl y (path ++ "." ++ k) false s w (Hx k y Hy) Hs Hd) as (s' & -> & Qs). cbn [rbind fst snd]. eauto. }
      rewrite E1. cbn [rbind fst snd]. eauto.
    - (* optional *)
      rewrite from_dict_eq. destruct H as [[-> ->]|[Hn H]].
      + eexists; split; [reflexivity|auto].
      + destruct x; try congruence; cbn [is_none]; apply IH; auto.
    - (* union *)
      rewrite from_plain by (auto; discriminate). cbn [isinstance]. apply denotes_union in H.
      destruct (coerce_scalar E (TUnion l) x) as [r|] eqn:Ec.
      { subst r. cbn [rbind]. eauto. }
      destruct H as (d & nm & -> & Hnm & HU). cbn [from_struct]. cbv zeta. rewrite Hnm.
      simpl in Hl. apply all_Forall in Hl. rewrite Forall_forall in Hl, IH.
      destruct (union_complete (fun a => from_dict E dss a (VDict d) path ig st)
        (fun a => denotes E false allow (is_some dir) ig a (VDict d) v) nm l
        (fun r => exists st', r = Ok (v, st') /\ Q st')) as (r & -> & Hr); auto.
      intros a Ha Hd. apply IH; auto. intros Z. specialize (Hsl Z). rewrite forallb_forall in Hsl. auto.
    - (* dataclass *)
      rewrite load_data_eq by auto. destruct H as (y & items & o & H1 & H2 & -> & Hk & Ho).
      rewrite H1. cbn [rbind]. rewrite H2.
      assert (Hy : filev y = true) by (eapply filev_versioned; eauto).
      assert (Hit : NoDup (akeys items) /\ forall k w, In (k, w) items -> filev w = true).
      { destruct y; try discriminate; simpl in H2.
        - destruct l; [|discriminate]. injection H2 as <-. split; [constructor|easy].
        - injection H2 as <-. now apply filev_items.
        - injection H2 as <-. now apply filev_items. }
      destruct Hit as [Hit1 Hit2]. destruct Hl as (Hnd & Hnn & _ & Hl). apply all_Forall in Hl. rewrite Forall_forall in Hl, IH.
      assert (Hlf : forall n ft fd, In (n, (ft, fd)) fs -> loadable ft) by (intros n ft fd Hf; apply (Hl _ Hf)).
      apply (data_run E _ (Q)); auto.
      revert Ho. apply all2_impl. intros [n [ft fd]] [k w] Hf _. unfold field_rel. cbn [fst snd]. intros [-> Hr]. split; auto.
      destruct (aget n items) as [x0|] eqn:Ea; auto. destruct (is_weak x0); auto.
      intros s Hs. apply aget_some_in in Ea. apply (IH _ Hf (Hl _ Hf)); eauto.
      intros Z. specialize (Hsl Z). rewrite forallb_forall in Hsl. exact (Hsl _ Hf).
    - (* enum *)
      rewrite from_plain by (auto; discriminate). exists st; split; auto.
      cbn [denotes] in H. apply enum_find in H.
      assert (Hc : isinstance x (TEnum n ms) = false /\ coerce_scalar E (TEnum n ms) x = None).
      { destruct x; try discriminate; split; auto. destruct d; auto. }
      destruct Hc as [-> ->]. cbn [from_struct]. rewrite H. reflexivity.
    - (* literal *)
      rewrite from_plain by (auto; discriminate). exists st; split; auto.
      cbn [denotes] in H. destruct H as (H1 & -> & H2). apply type_args_iff in H1. apply py_elem_iff in H2.
      assert (Hc : isinstance x (TLit l) = false /\ coerce_scalar E (TLit l) x = None).
      { destruct x; try discriminate; split; auto. destruct d; auto. }
      destruct Hc as [-> ->]. cbn [from_struct]. rewrite H1. cbn [rbind]. cbv zeta.
      assert (match unit_name x with Some n => VStr n | None => x end = unit_text x) as ->
        by (destruct x; auto; destruct d; auto).
      rewrite H2. reflexivity.
    - (* Serializable *)
      destruct H as (H1 & -> & s & -> & Hb). assert (Ed : exists dd, dir = Some dd) by (clear -H1; destruct dir; [eauto|discriminate]).
      destruct Ed as [dd Ed]. rewrite from_dict_main by discriminate. unfold from_main. rewrite deser_inactive by auto.
      destruct (deser_ser_run n s path st dd Ed Hb) as (st1 & E1 & Q1 & Q2). rewrite E1.
      cbn [rbind]. exists st1. split; auto. destruct sl; [specialize (Hsl eq_refl); discriminate|]. eapply HS; eauto.
  Qed.

  Lemma load_complete S0 t : loadable t -> forall x path ig st v,
    filev x = true -> quiet S0 st ->
    denotes E false allow (is_some dir) ig t x v ->
    exists st', from_dict E dss t x path ig st = Ok (v, st') /\ quiet S0 st'.
  Proof.
    intros Hl. apply (load_gen (quiet S0) false); auto; [intros st [H _]; exact H| |discriminate].
    intros _ st st' [H1 H2] A B. split; [eapply inactive_eq; eauto|congruence].
  Qed.

  (** ... and leaves the state alone *)
  Lemma load_same t : loadable t -> serless t = true -> forall x path ig st v,
    filev x = true -> inactive st ->
    denotes E false allow (is_some dir) ig t x v -> from_dict E dss t x path ig st = Ok (v, st).
  Proof.
    intros Hl Hz x path ig st v Hx Hi H.
    destruct (load_gen (fun s => s = st) true) with (t := t) (x := x) (path := path) (ig := ig) (st := st) (v := v) as (st' & E1 & ->); auto.
    - intros s ->. exact Hi.
    - discriminate.
  Qed.
End Load.
