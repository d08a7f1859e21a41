(** LoadFacts.v -- [from_dict] computes the relation [denotes] (SpecLoad.v). *)
From Coq Require Import Permutation.
From Verif Require Import Base AFacts Value Schema Rewrite Sched Types Asdict FromDict
  Induct SpecTree SpecTypes RewriteFacts FromDictFacts RoundTrip ElideFacts ElideLoad
  DefaultFacts SpecLoad.

(** ** file values *)
Lemma filev_items d :
  nodupb (map fst d) && forallb (fun kv => filev (snd kv)) d = true <->
  NoDup (akeys d) /\ forall k v, In (k, v) d -> filev v = true.
Proof.
  rewrite andb_true_iff, nodupb_NoDup, forallb_forall. split; intros [H1 H2]; split; auto.
  - intros k v Hin. apply (H2 (k, v) Hin).
  - intros [k v] Hin. apply (H2 k v Hin).
Qed.

Lemma filev_dict d : filev (VDict d) = true <-> NoDup (akeys d) /\ forall k v, In (k, v) d -> filev v = true.
Proof. apply filev_items. Qed.

Lemma filev_child d k c : filev (VDict d) = true -> aget k d = Some c -> filev c = true.
Proof. intros H Hc. apply filev_dict in H as [_ H]. eapply H. eapply aget_some_in; eauto. Qed.

Lemma filev_aset d k c : filev (VDict d) = true -> filev c = true -> filev (VDict (aset k c d)) = true.
Proof.
  intros H Hc. apply filev_dict in H as [H1 H2]. apply filev_dict. split.
  - now apply nodup_aset.
  - intros j w Hin. apply in_aset in Hin as [[_ ->]|Hin]; eauto.
Qed.

Lemma filev_adel d k : filev (VDict d) = true -> filev (VDict (adel k d)) = true.
Proof.
  intros H. apply filev_dict in H as [H1 H2]. apply filev_dict. split.
  - now apply nodup_adel.
  - intros j w Hin. apply in_adel in Hin. eauto.
Qed.

Lemma filev_getitem d k c : filev d = true -> py_getitem d k = Ok c -> filev c = true.
Proof.
  intros H Hg. destruct d; try discriminate. simpl in Hg. destruct (aget k d) eqn:Eg; [|discriminate].
  injection Hg as ->. eapply filev_child; eauto.
Qed.

Lemma filev_setitem d k c d' : filev d = true -> filev c = true -> py_setitem d k c = Ok d' -> filev d' = true.
Proof. intros H Hc Hs. destruct d; try discriminate. injection Hs as <-. now apply filev_aset. Qed.

Lemma remove_unfold d k k2 r :
  remove_path d (k :: k2 :: r) =
  (let* present := py_in k d in
   if negb present then Ok (d, None) else
   let* c := py_getitem d k in
   if is_none c then Ok (d, None) else
   let* cr := remove_path c (k2 :: r) in
   let* d' := py_setitem d k (fst cr) in
   Ok (d', snd cr)).
Proof. reflexivity. Qed.

Lemma filev_remove p : forall d d' o, filev d = true -> remove_path d p = Ok (d', o) ->
  filev d' = true /\ (forall v, o = Some v -> filev v = true).
Proof.
  induction p as [|k p IH]; intros d d' o Hd H; [discriminate|].
  destruct p as [|k2 r].
  - simpl in H. destruct d; try (injection H as <- <-; split; [auto|discriminate]).
    destruct (aget k d) eqn:Eg; injection H as <- <-; split; auto; try discriminate.
    + now apply filev_adel.
    + intros v Hv. injection Hv as <-. eapply filev_child; eauto.
  - rewrite remove_unfold in H.
    apply rbind_ok in H as [pr [H1 H]]. destruct pr; cbn [negb] in H.
    2:{ injection H as <- <-. split; [auto|discriminate]. }
    apply rbind_ok in H as [c [H2 H]]. destruct (is_none c).
    { injection H as <- <-. split; [auto|discriminate]. }
    apply rbind_ok in H as [[c' o'] [H3 H]]. apply rbind_ok in H as [d1 [H4 H]].
    injection H as <- <-. cbn [fst snd] in *.
    assert (Hc : filev c = true) by (eapply filev_getitem; eauto).
    destruct (IH c c' o' Hc H3) as [I1 I2]. split; auto.
    apply (filev_setitem d k c' d1); auto.
Qed.

Lemma filev_insert p : forall d v cn d', filev d = true -> filev v = true ->
  insert_path d p v cn = Ok d' -> filev d' = true.
Proof.
  induction p as [|k p IH]; intros d v cn d' Hd Hv H; [discriminate|].
  destruct p as [|k2 r].
  - simpl in H. apply (filev_setitem d k v d'); auto.
  - rewrite insert_unfold in H by discriminate. cbv zeta in H.
    match type of H with context [py_getitem ?d1 k] => set (d1' := d1) in * end.
    assert (Hd1 : filev d1' = true).
    { unfold d1'. destruct d; auto. destruct (amem k d); auto. apply filev_aset; auto. destruct cn; reflexivity. }
    apply rbind_ok in H as [c [H1 H]].
    assert (Hc : filev c = true) by (eapply filev_getitem; eauto).
    destruct c; try (injection H as <-; exact Hd1).
    apply rbind_ok in H as [c' [H2 H3]]. eapply filev_setitem; [exact Hd1| |exact H3].
    eapply IH; [|exact Hv|exact H2]. destruct (cn && amem WEAK_REF d0); [apply filev_adel|]; exact Hc.
Qed.

Lemma filev_rule r d d' : rule_filev r -> filev d = true -> apply_rule r d = Ok d' -> filev d' = true.
Proof.
  intros Hr Hd H. destruct r; cbn [apply_rule rule_filev] in *.
  - apply rbind_ok in H as [[d1 o] [H1 H]]. destruct (filev_remove _ _ _ _ Hd H1) as [F1 F2]. cbn [fst snd] in H.
    destruct o; [refine (filev_insert _ _ _ _ _ _ _ H); auto|injection H as <-; auto].
  - apply rbind_ok in H as [[d1 o] [H1 H]]. destruct (filev_remove _ _ _ _ Hd H1) as [F1 F2]. injection H as <-; auto.
  - apply rbind_ok in H as [[d1 o] [H1 H]]. destruct (filev_remove _ _ _ _ Hd H1) as [F1 F2]. cbn [fst snd] in H.
    destruct o; [|injection H as <-; auto]. apply rbind_ok in H as [v' [H2 H]]. eapply filev_insert; [exact F1| |exact H].
    exact (Hr _ _ (F2 _ eq_refl) H2).
  - apply rbind_ok in H as [[d1 o] [H1 H]]. destruct (filev_remove _ _ _ _ Hd H1) as [F1 F2]. cbn [fst snd] in H.
    destruct o as [w|]; [destruct (is_weak w)|]; refine (filev_insert _ _ _ _ _ _ _ H); auto.
  - apply rbind_ok in H as [[d1 o] [H1 H]]. destruct (filev_remove _ _ _ _ Hd H1) as [F1 F2]. cbn [fst snd] in H.
    eapply filev_insert; [exact F1| |exact H]. destruct o; auto.
  - apply rbind_ok in H as [o [H1 H]]. destruct o; [|injection H as <-; auto].
    apply rbind_ok in H as [b [H2 H]]. destruct b; [injection H as <-; auto|discriminate].
  - apply rbind_ok in H as [[d1 o] [H1 H]]. destruct (filev_remove _ _ _ _ Hd H1) as [F1 F2]. cbn [fst snd] in H.
    destruct o; [|injection H as <-; auto]. apply rbind_ok in H as [b [H2 H]]. destruct b; [discriminate|injection H as <-; auto].
Qed.

Lemma filev_rules rs : forall d d', Forall rule_filev rs -> filev d = true -> apply_rules rs d = Ok d' -> filev d' = true.
Proof.
  induction rs as [|r rs IH]; intros d d' Hr Hd H; simpl in H; [congruence|].
  inversion Hr; subst. apply rbind_ok in H as [d1 [H1 H]]. apply (IH d1 d'); auto. apply (filev_rule r d d1); auto.
Qed.

Lemma zget_in {A} i (l : list (Z * A)) x : zget i l = Some x -> In (i, x) l.
Proof.
  induction l as [|[j y] l IH]; simpl; [discriminate|]. destruct (Z.eqb_spec i j).
  - intros H; injection H as ->. subst; auto.
  - auto.
Qed.

Lemma filev_steps rules vs : (forall i rs, In (i, rs) rules -> Forall rule_filev rs) ->
  forall d d', filev d = true -> upgrade_steps rules vs d = Ok d' -> filev d' = true.
Proof.
  intros Hr. induction vs as [|i vs IH]; intros d d' Hd H; simpl in H; [congruence|].
  apply rbind_ok in H as [d1 [H1 H]]. eapply IH; [|exact H]. eapply filev_rules; [|exact Hd|exact H1].
  unfold rules_at. destruct (zget i rules) eqn:Ez; [|constructor]. eapply Hr. eapply zget_in; eauto.
Qed.

Lemma filev_versioned cls allow c fs x y :
  loadable (TData c fs) -> filev x = true ->
  deser_versioned cls allow (TData c fs) x = Ok y -> filev y = true.
Proof.
  intros (_ & _ & Hr & _) Hx H. unfold deser_versioned in H.
  destruct (c_versioned c) as [[cur rules]|] eqn:Ec; [|congruence].
  destruct x; try (destruct allow; [congruence|discriminate]); try discriminate.
  - set (d' := VDict (adel "version" d)) in *.
    assert (Hd' : filev d' = true) by (now apply filev_adel).
    assert (M : (if allow then Ok d' else Err ValueError) = Ok y -> filev y = true)
      by (destruct allow; [congruence|discriminate]).
    destruct (aget "version" d) as [ver|]; [|auto].
    assert (U : apply_upgrades cur rules d' ver = Ok y -> filev y = true).
    { unfold apply_upgrades. destruct (forallb _ rules); [|discriminate]. destruct (as_int ver); [|discriminate].
      intros HU. eapply filev_steps; [|exact Hd'|exact HU]. intros i rs. apply (Hr cur rules i rs eq_refl). }
    destruct ver; auto.
  - destruct (aget "version" d) as [ver|]; [|destruct allow; [congruence|discriminate]].
    destruct ver; try (destruct allow; [congruence|discriminate]);
      (apply rbind_ok in H as [zz [_ H]]; congruence).
Qed.

(** ** construct *)
Definition built (kw : list (string * pyval)) (f : string * (ty * dflt)) (kv : string * pyval) : Prop :=
  let '(n, (ft, fd)) := f in
  fst kv = n /\
  match aget n kw with
  | Some y => snd kv = y
  | None => match fd with DMissing => False | DValue x | DFactory x => snd kv = x end
  end.

Lemma construct_iff fs kw : forall o, construct fs kw = Ok o <-> all2 false (built kw) fs o.
Proof.
  induction fs as [|[n [ft fd]] fs IH]; intros o; simpl.
  - split; [intros H; injection H as <-; exact I|]. destruct o; [auto|easy].
  - destruct o as [|[k y] o].
    + split; [|discriminate]. intros H. apply rbind_ok in H as [v [_ H]]. apply rbind_ok in H as [vs [_ H]]. discriminate.
    + specialize (IH o). destruct (aget n kw) as [z|]; cbn [rbind fst snd].
      * split.
        -- intros H. apply rbind_ok in H as [vs [H1 H]]. injection H as <- <- <-. split; [auto|]. now apply IH.
        -- intros [[-> ->] H]. apply IH in H. rewrite H. reflexivity.
      * destruct fd as [|x|x]; cbn [rbind].
        -- split; [discriminate|tauto].
        -- split.
           ++ intros H. apply rbind_ok in H as [vs [H1 H]]. injection H as <- <- <-. split; [auto|]. now apply IH.
           ++ intros [[-> ->] H]. apply IH in H. rewrite H. reflexivity.
        -- split.
           ++ intros H. apply rbind_ok in H as [vs [H1 H]]. injection H as <- <- <-. split; [auto|]. now apply IH.
           ++ intros [[-> ->] H]. apply IH in H. rewrite H. reflexivity.
Qed.

(** ** default construction with weak sections *)
Definition bare (ft : ty) (fd : dflt) : bool :=
  match fd with DMissing => is_dataclass_ty ft | _ => false end.

Definition needs (ft : ty) (fd : dflt) : bool :=
  match fd with DMissing => negb (is_dataclass_ty ft) | _ => false end.

Lemma obj_loop_inv path w fs : forall kw ms kw' ms',
  NoDup (map fst fs) ->
  obj_loop path w fs kw ms = Ok (kw', ms') ->
  ms' = (ms ++ required fs)%list /\
  (forall n, ~ In n (map fst fs) -> aget n kw' = aget n kw) /\
  (forall n ft fd, In (n, (ft, fd)) fs ->
     if bare ft fd then
       exists wn o, weak_get w n = Ok wn /\ default_obj ft (path_join path n) wn = Ok o /\ aget n kw' = Some o
     else aget n kw' = aget n kw).
Proof.
  induction fs as [|[n [ft fd]] fs IH]; intros kw ms kw' ms' Hnd H.
  - injection H as <- <-. rewrite app_nil_r. repeat split; auto. intros n ft fd [].
  - rewrite obj_loop_cons in H. inversion Hnd as [|? ? Hn1 Hn2]; subst.
    assert (SKIP : forall ms0, bare ft fd = false -> obj_loop path w fs kw ms0 = Ok (kw', ms') ->
       ms' = (ms0 ++ required fs)%list /\
       (forall m, ~ In m (map fst ((n, (ft, fd)) :: fs)) -> aget m kw' = aget m kw) /\
       (forall m mt md, In (m, (mt, md)) ((n, (ft, fd)) :: fs) ->
         if bare mt md then
           exists wn o, weak_get w m = Ok wn /\ default_obj mt (path_join path m) wn = Ok o /\ aget m kw' = Some o
         else aget m kw' = aget m kw)).
    { intros ms0 Hb H0. destruct (IH kw ms0 kw' ms' Hn2 H0) as (I1 & I2 & I3). repeat split; auto.
      - intros m Hm. apply I2. simpl in Hm; tauto.
      - intros m mt md [Hm|Hm]; [|apply I3; auto]. injection Hm as -> -> ->. rewrite Hb. apply I2; auto. }
    destruct fd as [|x|x].
    + destruct (is_dataclass_ty ft) eqn:Ed.
      * destruct ft; try discriminate.
        apply rbind_ok in H as [wn [H1 H]]. apply rbind_ok in H as [o [H2 H]].
        destruct (IH _ _ _ _ Hn2 H) as (I1 & I2 & I3). repeat split; auto.
        -- intros m Hm. simpl in Hm. rewrite I2 by tauto. apply aget_aset_other. intros ->; tauto.
        -- intros m mt md [Hm|Hm].
           ++ injection Hm as -> <- <-. cbn [bare is_dataclass_ty]. exists wn, o. repeat split; auto.
              rewrite I2 by auto. apply aget_aset_same.
           ++ specialize (I3 m mt md Hm). destruct (bare mt md); auto. rewrite I3. apply aget_aset_other.
              intros ->. apply Hn1. apply in_map_iff. exists (n, (mt, md)); auto.
      * destruct (SKIP (ms ++ [n])%list) as (I1 & I2 & I3); auto.
        { destruct ft; try discriminate; exact H. }
        repeat split; auto. rewrite I1. unfold required. simpl. rewrite Ed. simpl. now rewrite <- app_assoc.
    + destruct (SKIP ms) as (I1 & I2 & I3); auto.
    + destruct (SKIP ms) as (I1 & I2 & I3); auto.
Qed.

Lemma obj_loop_run path w fs : forall kw ms,
  (forall n ft, In (n, (ft, DMissing)) fs -> is_dataclass_ty ft = true ->
     exists wn o, weak_get w n = Ok wn /\ default_obj ft (path_join path n) wn = Ok o) ->
  exists kw' ms', obj_loop path w fs kw ms = Ok (kw', ms').
Proof.
  induction fs as [|[n [ft fd]] fs IH]; intros kw ms H.
  - eexists _, _; reflexivity.
  - rewrite obj_loop_cons.
    assert (H' : forall m mt, In (m, (mt, DMissing)) fs -> is_dataclass_ty mt = true ->
       exists wn o, weak_get w m = Ok wn /\ default_obj mt (path_join path m) wn = Ok o)
      by (intros m mt Hm; apply H; right; auto).
    destruct fd; auto. destruct (is_dataclass_ty ft) eqn:Ed.
    + destruct ft; try discriminate.
      destruct (H n (TData c fields) (or_introl eq_refl) eq_refl) as (wn & o & H1 & H2).
      rewrite H1. cbn [rbind]. rewrite H2. cbn [rbind]. auto.
    + destruct ft; try discriminate; auto.
Qed.

Lemma required_nil fs : required fs = [] <-> forall n ft fd, In (n, (ft, fd)) fs -> needs ft fd = false.
Proof.
  unfold required. split.
  - intros H n ft fd Hin. destruct (needs ft fd) eqn:En; auto. exfalso.
    assert (Hm : In n (map fst (filter (fun f : string * (ty * dflt) => let '(_, (ft, fd)) := f in needs ft fd) fs))).
    { apply in_map_iff. exists (n, (ft, fd)). split; auto. apply filter_In; auto. }
    unfold needs in Hm. rewrite H in Hm. destruct Hm.
  - intros H. rewrite filter_none; [reflexivity|]. intros [n [ft fd]] Hin. apply (H n ft fd Hin).
Qed.

Lemma all2_iff {A B} s (f g : A -> B -> Prop) l : forall m,
  (forall x y, In x l -> In y m -> (f x y <-> g x y)) -> (all2 s f l m <-> all2 s g l m).
Proof.
  induction l as [|x l IH]; intros [|y m] H; simpl; try tauto.
  rewrite IH by (intros a b Ha Hb; apply H; right; auto). rewrite (H x y) by (left; auto). tauto.
Qed.

Lemma all2_impl {A B} s (f g : A -> B -> Prop) l : forall m,
  (forall x y, In x l -> In y m -> f x y -> g x y) -> all2 s f l m -> all2 s g l m.
Proof.
  induction l as [|x l IH]; intros [|y m] H; simpl; try tauto.
  intros [H1 H2]. split; [apply H; auto; left; auto|apply IH; auto]. intros a b Ha Hb; apply H; right; auto.
Qed.

Lemma weak_fits_nil t : weak_fits t (VDict []).
Proof.
  destruct t; simpl; auto. apply all_Forall, Forall_forall. intros [n [ft [| |]]] _; auto.
Qed.

Lemma all2_in_l {A B} (f : A -> B -> Prop) l m x : all2 false f l m -> In x l -> exists y, In y m /\ f x y.
Proof.
  revert m; induction l as [|a l IH]; intros [|b m] H Hx; try easy.
  destruct H as [H1 H2]. destruct Hx as [->|Hx].
  - exists b; split; [left|]; auto.
  - destruct (IH m H2 Hx) as [y [Hy1 Hy2]]. exists y; split; [right|]; auto.
Qed.

Lemma default_obj_iff t : loadable t -> is_dataclass_ty t = true -> forall path w v,
  default_obj t path w = Ok v <-> (default_of t v /\ weak_fits t w).
Proof.
  induction t as [| | | | |i IH|l IH|kt vt IHk IHv|i IH|l IH|c fs IH|n ms|l|n] using ty_ind';
    intros Hl Hd path w v; try discriminate.
  destruct Hl as (Hnd & _ & _ & Hl). apply all_Forall in Hl. rewrite Forall_forall in Hl, IH.
  assert (IH' : forall n ft fd, In (n, (ft, fd)) fs -> is_dataclass_ty ft = true -> forall path w v,
     default_obj ft path w = Ok v <-> (default_of ft v /\ weak_fits ft w)).
  { intros n ft fd Hin. apply (IH _ Hin). apply (Hl _ Hin). }
  rewrite default_obj_eq. split.
  - intros H. apply rbind_ok in H as [[kw ms] [H1 H]]. cbn [fst snd] in H.
    destruct (obj_loop_inv _ _ _ _ _ _ _ Hnd H1) as (I1 & I2 & I3).
    destruct ms; [|discriminate]. apply rbind_ok in H as [o [H2 H]]. injection H as <-.
    simpl in I1. assert (Hreq : required fs = []) by auto. rewrite required_nil in Hreq.
    apply construct_iff in H2. split.
    + exists o. split; auto. revert H2. apply all2_impl. intros [n [ft fd]] [k y] Hin _. specialize (I3 n ft fd Hin).
      unfold built. cbn [fst snd]. destruct fd as [|x|x]; cbn [bare] in I3; try (rewrite I3; simpl; tauto).
      assert (Hb : is_dataclass_ty ft = true) by (specialize (Hreq n ft DMissing Hin); cbn [needs] in Hreq; now apply negb_false_iff in Hreq).
      rewrite Hb in I3. destruct I3 as (wn & o' & J1 & J2 & J3). rewrite J3.
      intros [-> ->]; split; auto. apply (IH' n ft DMissing Hin Hb) in J2. tauto.
    + simpl. apply all_Forall, Forall_forall. intros [n [ft fd]] Hin. destruct fd; auto. intros Hb.
      specialize (I3 n ft DMissing Hin). cbn [bare] in I3. rewrite Hb in I3. destruct I3 as (wn & o' & J1 & J2 & J3).
      apply (IH' n ft DMissing Hin Hb) in J2. destruct w; try discriminate. simpl in J1.
      destruct (aget n d); auto. injection J1 as ->. tauto.
  - intros [(o & -> & Ho) Hw]. simpl in Hw. apply all_Forall in Hw. rewrite Forall_forall in Hw.
    assert (Hrun : forall n ft, In (n, (ft, DMissing)) fs -> is_dataclass_ty ft = true ->
       exists wn y, weak_get w n = Ok wn /\ default_obj ft (path_join path n) wn = Ok y /\ In (n, y) o).
    { intros n ft Hin Hb. destruct (all2_in_l _ _ _ _ Ho Hin) as [[k y] [Hy1 Hy2]]. cbn [fst snd] in Hy2.
      destruct Hy2 as [-> Hy2]. specialize (Hw _ Hin Hb). cbn beta iota in Hw. destruct w; try tauto.
      exists (match aget n d with Some w' => w' | None => VDict [] end), y. split; [reflexivity|]. split; auto.
      apply (IH' n ft DMissing Hin Hb). split; auto. destruct (aget n d); auto. apply weak_fits_nil. }
    destruct (obj_loop_run path w fs [] []) as (kw & ms & Hrun').
    { intros n ft Hin Hb. destruct (Hrun n ft Hin Hb) as (wn & y & A1 & A2 & A3). eauto. }
    destruct (obj_loop_inv _ _ _ _ _ _ _ Hnd Hrun') as (I1 & I2 & I3).
    assert (Hreq : required fs = []).
    { apply required_nil. intros n ft fd Hin. destruct fd; auto. cbn [needs]. apply negb_false_iff.
      destruct (all2_in_l _ _ _ _ Ho Hin) as [[k y] [_ [_ Hy]]]. cbn [snd] in Hy. destruct ft; try easy. }
    rewrite Hrun'. cbn [rbind fst snd]. simpl in I1. rewrite I1, Hreq.
    assert (construct fs kw = Ok o) as ->; [|reflexivity].
    apply construct_iff. assert (Hko : NoDup (akeys o)).
    { replace (akeys o) with (map fst fs); [exact Hnd|]. clear -Ho. revert o Ho.
      induction fs as [|[n [ft fd]] fs IHf]; intros [|[k y] o] Ho; try easy. destruct Ho as [[<- _] Ho].
      simpl. f_equal. auto. }
    revert Ho. apply all2_impl. intros [n [ft fd]] [k y] Hin Hiny. cbn [fst snd]. unfold built. intros [-> Hy].
    split; auto. specialize (I3 n ft fd Hin). destruct fd as [|x|x]; cbn [bare] in I3; try (rewrite I3; exact Hy).
    destruct ft; try easy. cbn [is_dataclass_ty] in I3. destruct I3 as (wn & o' & J1 & J2 & J3). rewrite J3.
    destruct (Hrun n _ Hin eq_refl) as (wn' & y' & A1 & A2 & A3).
    rewrite A1 in J1. injection J1 as ->. rewrite A2 in J2. injection J2 as ->.
    assert (B1 : aget n o = Some y) by (apply in_nodup_aget; auto).
    assert (B2 : aget n o = Some o') by (apply in_nodup_aget; auto). cbn [snd]. rewrite B1 in B2. injection B2 as ->. reflexivity.
Qed.

(** ** [_try_create_defaults] *)
Definition weak_for (weak : list (string * pyval)) (n : string) : pyval :=
  match aget n weak with Some w => w | None => VDict [] end.

Lemma tcd_cons fs n rem path weak kw ms ft fd :
  NoDup (map fst fs) -> In (n, (ft, fd)) fs -> (forall w, aget n weak = Some w -> is_weak w = true) ->
  try_create_defaults fs (n :: rem) path weak kw ms =
  (if bare ft fd then
     let* o := default_obj ft (path_join path n) (weak_for weak n) in
     try_create_defaults fs rem path weak (aset n o kw) ms
   else try_create_defaults fs rem path weak kw (if needs ft fd then (ms ++ [n])%list else ms)).
Proof.
  intros Hnd Hf Hw. cbn [try_create_defaults]. rewrite (field_with_in _ n ft fd fs) by auto.
  assert (SK : match aget n weak with
               | Some w => let* isw := py_in WEAK_REF w in
                           if isw then try_create_defaults fs rem path weak kw ms
                           else try_create_defaults fs rem path weak (aset n w kw) ms
               | None => try_create_defaults fs rem path weak kw ms
               end = try_create_defaults fs rem path weak kw ms).
  { destruct (aget n weak) as [w|] eqn:Eg; auto. specialize (Hw w eq_refl). destruct w; try discriminate.
    simpl in Hw |- *. unfold is_weak in Hw. rewrite Hw. reflexivity. }
  destruct fd as [|x|x]; cbn [bare needs]; auto.
  destruct ft; cbn [is_dataclass_ty negb]; auto.
Qed.

Lemma tcd_inv fs path weak : NoDup (map fst fs) -> (forall n w, aget n weak = Some w -> is_weak w = true) ->
  forall rem kw ms kw' ms',
  NoDup rem -> incl rem (map fst fs) ->
  try_create_defaults fs rem path weak kw ms = Ok (kw', ms') ->
  (ms' = [] -> ms = [] /\ forall n ft fd, In n rem -> In (n, (ft, fd)) fs -> needs ft fd = false) /\
  (forall n, ~ In n rem -> aget n kw' = aget n kw) /\
  (forall n ft fd, In n rem -> In (n, (ft, fd)) fs ->
     if bare ft fd then
       exists o, default_obj ft (path_join path n) (weak_for weak n) = Ok o /\ aget n kw' = Some o
     else aget n kw' = aget n kw).
Proof.
  intros Hnd Hw. induction rem as [|n rem IH]; intros kw ms kw' ms' Hr Hi H.
  - injection H as <- <-. repeat split; auto; easy.
  - inversion Hr as [|? ? Hr1 Hr2]; subst.
    assert (Hn : In n (map fst fs)) by (apply Hi; left; auto).
    apply in_map_iff in Hn as [[n' [ft fd]] [Hn' Hf]]. simpl in Hn'; subst n'.
    assert (Hu : forall ft' fd', In (n, (ft', fd')) fs -> ft' = ft /\ fd' = fd).
    { intros ft' fd' Hf'. assert (X1 : aget n fs = Some (ft, fd)) by (apply in_nodup_aget; auto).
      assert (X2 : aget n fs = Some (ft', fd')) by (apply in_nodup_aget; auto). rewrite X1 in X2. injection X2; auto. }
    assert (Hi' : incl rem (map fst fs)) by (intros x Hx; apply Hi; right; auto).
    rewrite (tcd_cons fs n rem path weak kw ms ft fd) in H by eauto.
    destruct (bare ft fd) eqn:Eb.
    + apply rbind_ok in H as [o [H1 H]]. destruct (IH _ _ _ _ Hr2 Hi' H) as (I1 & I2 & I3). split; [|split].
      * intros Hms. split; [now apply I1|].
        intros m mt md [<-|Hm] Hmf; [|eapply (proj2 (I1 Hms)); eauto]. apply Hu in Hmf as [-> ->].
        destruct fd; auto. cbn [bare needs] in *. now rewrite Eb.
      * intros m Hm. simpl in Hm. rewrite I2 by tauto. apply aget_aset_other. intros ->; tauto.
      * intros m mt md [<-|Hm] Hmf.
        -- apply Hu in Hmf as [-> ->]. rewrite Eb. exists o. split; auto. rewrite I2 by auto. apply aget_aset_same.
        -- specialize (I3 m mt md Hm Hmf). destruct (bare mt md); auto. rewrite I3. apply aget_aset_other. intros ->; tauto.
    + destruct (IH _ _ _ _ Hr2 Hi' H) as (I1 & I2 & I3). split; [|split].
      * intros Hms. destruct (I1 Hms) as [Hm0 Hm1].
        destruct (needs ft fd) eqn:En; [destruct ms; discriminate|]. split; auto.
        intros m mt md [<-|Hm] Hmf; [|eapply Hm1; eauto]. apply Hu in Hmf as [-> ->]. auto.
      * intros m Hm. simpl in Hm. rewrite I2 by tauto. reflexivity.
      * intros m mt md [<-|Hm] Hmf; [|apply (I3 m mt md Hm Hmf)]. apply Hu in Hmf as [-> ->].
        rewrite Eb. rewrite I2 by auto. reflexivity.
Qed.

Lemma tcd_run fs path weak : NoDup (map fst fs) -> (forall n w, aget n weak = Some w -> is_weak w = true) ->
  forall rem kw ms,
  incl rem (map fst fs) ->
  (forall n ft fd, In n rem -> In (n, (ft, fd)) fs ->
     needs ft fd = false /\
     (bare ft fd = true -> exists o, default_obj ft (path_join path n) (weak_for weak n) = Ok o)) ->
  exists kw', try_create_defaults fs rem path weak kw ms = Ok (kw', ms).
Proof.
  intros Hnd Hw. induction rem as [|n rem IH]; intros kw ms Hi H.
  - eexists; reflexivity.
  - assert (Hn : In n (map fst fs)) by (apply Hi; left; auto).
    apply in_map_iff in Hn as [[n' [ft fd]] [Hn' Hf]]. simpl in Hn'; subst n'.
    assert (Hi' : incl rem (map fst fs)) by (intros x Hx; apply Hi; right; auto).
    assert (H' : forall m mt md, In m rem -> In (m, (mt, md)) fs ->
       needs mt md = false /\
       (bare mt md = true -> exists o, default_obj mt (path_join path m) (weak_for weak m) = Ok o))
      by (intros; apply H; auto; right; auto).
    rewrite (tcd_cons fs n rem path weak kw ms ft fd) by eauto.
    destruct (H n ft fd (or_introl eq_refl) Hf) as [E1 E2]. rewrite E1.
    destruct (bare ft fd); [|apply IH; auto]. destruct (E2 eq_refl) as [o Ho]. rewrite Ho. cbn [rbind]. apply IH; auto.
Qed.

(** ** the loop over the given fields *)
Section FieldsLoop.
  Variable f : string -> option (pyval -> string -> dstate -> res (pyval * dstate)).
  Variable cname path : string.
  Variable ig : bool.
  Variable Inv : dstate -> Prop.
  Variable le : dstate -> dstate -> Prop.
  Hypothesis le_refl : forall s, le s s.
  Hypothesis le_trans : forall a b c, le a b -> le b c -> le a c.

  Definition step_ok (send : dstate) (k : string) (y v : pyval) : Prop :=
    exists g st1 st2, f k = Some g /\ Inv st1 /\ g y (path_join path k) st1 = Ok (v, st2) /\ Inv st2 /\ le st2 send.

  Lemma fields_loop_inv : forall items kw weak st kw' weak' st',
    (forall k y g, In (k, y) items -> k <> "!__name__" -> is_weak y = false -> f k = Some g ->
       forall s v s', Inv s -> g y (path_join path k) s = Ok (v, s') -> Inv s' /\ le s s') ->
    NoDup (akeys items) -> Inv st ->
    fields_loop f cname path ig items kw weak st = Ok (kw', weak', st') ->
    (Inv st' /\ le st st') /\
    (forall k, ~ In k (akeys items) -> aget k kw' = aget k kw /\ aget k weak' = aget k weak) /\
    (forall k y, In (k, y) items ->
       if String.eqb k "!__name__" then aget k kw' = aget k kw /\ aget k weak' = aget k weak
       else if is_weak y then aget k kw' = aget k kw /\ aget k weak' = Some y
       else aget k weak' = aget k weak /\
            match f k with
            | None => ig = true /\ aget k kw' = aget k kw
            | Some _ => exists v, step_ok st' k y v /\ aget k kw' = Some v
            end).
  Proof.
    induction items as [|[k y] items IH]; intros kw weak st kw' weak' st' Hp Hnd Hst H.
    - injection H as <- <- <-. repeat split; auto; easy.
    - inversion Hnd as [|? ? Hn1 Hn2]; subst.
      assert (Hp' : forall j z g, In (j, z) items -> j <> "!__name__" -> is_weak z = false -> f j = Some g ->
                forall s v s', Inv s -> g z (path_join path j) s = Ok (v, s') -> Inv s' /\ le s s')
        by (intros j z g Hj; apply Hp; right; auto).
      cbn [fields_loop] in H.
      destruct (String.eqb k "!__name__") eqn:Ek; [|destruct (is_weak y) eqn:Ew; [|destruct (f k) as [g|] eqn:Ef]].
      + destruct (IH _ _ _ _ _ _ Hp' Hn2 Hst H) as (I0 & I1 & I2). split; [exact I0|]. split.
        * intros j Hj. apply I1. simpl in Hj; tauto.
        * intros j z [Hj|Hj]; [|apply (I2 j z Hj)]. injection Hj as -> ->. rewrite Ek. apply I1; auto.
      + destruct (IH _ _ _ _ _ _ Hp' Hn2 Hst H) as (I0 & I1 & I2). split; [exact I0|]. split.
        * intros j Hj. simpl in Hj. destruct (I1 j ltac:(tauto)) as [J1 J2]. split; auto.
          rewrite J2. apply aget_aset_other. intros ->; tauto.
        * intros j z [Hj|Hj].
          -- injection Hj as -> ->. rewrite Ek, Ew. destruct (I1 j Hn1) as [J1 J2]. split; auto. rewrite J2. apply aget_aset_same.
          -- assert (Hjk : j <> k) by (intros ->; apply Hn1; apply in_map_iff; exists (k, z); auto).
             specialize (I2 j z Hj). rewrite (aget_aset_other j k) in I2 by auto. exact I2.
      + apply rbind_ok in H as [[v st1] [H1 H]]. cbn [fst snd] in H.
        assert (Hst1 : Inv st1 /\ le st st1)
          by (eapply (Hp k y g); eauto; [left; auto|now apply String.eqb_neq]).
        destruct Hst1 as [Hst1 Hle1].
        destruct (IH _ _ _ _ _ _ Hp' Hn2 Hst1 H) as ([I0 I0'] & I1 & I2). split; [split; eauto|]. split.
        * intros j Hj. simpl in Hj. destruct (I1 j ltac:(tauto)) as [J1 J2]. split; auto.
          rewrite J1. apply aget_aset_other. intros ->; tauto.
        * intros j z [Hj|Hj].
          -- injection Hj as -> ->. rewrite Ek, Ew, Ef. destruct (I1 j Hn1) as [J1 J2]. split; auto.
             exists v. split; [|rewrite J1; apply aget_aset_same]. exists g, st, st1. auto 6.
          -- assert (Hjk : j <> k) by (intros ->; apply Hn1; apply in_map_iff; exists (k, z); auto).
             specialize (I2 j z Hj). rewrite (aget_aset_other j k) in I2 by auto. exact I2.
      + destruct ig eqn:Eig; [|discriminate].
        destruct (IH _ _ _ _ _ _ Hp' Hn2 Hst H) as (I0 & I1 & I2). split; [exact I0|]. split.
        * intros j Hj. apply I1. simpl in Hj; tauto.
        * intros j z [Hj|Hj]; [|apply (I2 j z Hj)]. injection Hj as -> ->. rewrite Ek, Ew, Ef. destruct (I1 j Hn1). auto.
  Qed.

  Lemma fields_loop_run : forall items kw weak st,
    Inv st ->
    (forall k y, In (k, y) items -> k = "!__name__" \/ is_weak y = true \/ (f k = None /\ ig = true) \/
       exists g, f k = Some g /\ forall s, Inv s -> exists v s', g y (path_join path k) s = Ok (v, s') /\ Inv s') ->
    exists kw' weak' st', fields_loop f cname path ig items kw weak st = Ok (kw', weak', st').
  Proof.
    induction items as [|[k y] items IH]; intros kw weak st Hst H.
    - eexists _, _, _; reflexivity.
    - cbn [fields_loop]. assert (Hk := H k y (or_introl eq_refl)).
      assert (H' : forall j z, In (j, z) items -> j = "!__name__" \/ is_weak z = true \/ (f j = None /\ ig = true) \/
         exists g, f j = Some g /\ forall s, Inv s -> exists v s', g z (path_join path j) s = Ok (v, s') /\ Inv s')
        by (intros j z Hj; apply H; right; auto).
      destruct (String.eqb_spec k "!__name__") as [Ek|Ek]; [apply IH; auto|].
      destruct (is_weak y) eqn:Ew; [apply IH; auto|].
      destruct Hk as [Hk|[Hk|[[Hk1 Hk2]|(g & Hk1 & Hk2)]]]; [congruence|discriminate| |].
      + rewrite Hk1. destruct ig; [apply IH; auto|discriminate].
      + rewrite Hk1. destruct (Hk2 st Hst) as (v & s' & E1 & E2). rewrite E1. cbn [rbind fst snd]. apply IH; auto.
  Qed.
End FieldsLoop.
