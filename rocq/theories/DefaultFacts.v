(** DefaultFacts.v -- default construction (C04). *)
From Coq Require Import Permutation.
From Verif Require Import Base AFacts Value Schema Rewrite Sched Types Asdict FromDict
  Induct SpecTree SpecTypes RewriteFacts FromDictFacts RoundTrip ElideFacts ElideLoad.

(** the loop inside [default_obj], named *)
Definition obj_loop (path : string) (weak : pyval) :=
  fix loop (l : list (string * (ty * dflt))) (kw : list (string * pyval))
           (missing : list string) : res (list (string * pyval) * list string) :=
    match l with
    | [] => Ok (kw, missing)
    | (n, (t', d)) :: r =>
        match d with
        | DMissing =>
            match t' with
            | TData _ _ =>
                let* w := weak_get weak n in
                let* o := default_obj t' (path_join path n) w in
                loop r (aset n o kw) missing
            | _ => loop r kw (missing ++ [n])%list
            end
        | _ => loop r kw missing
        end
    end.

Lemma default_obj_eq c fs path weak :
  default_obj (TData c fs) path weak =
  (let* km := obj_loop path weak fs [] [] in
   match snd km with
   | [] => let* obj := construct fs (fst km) in Ok (VObj (c_name c) obj)
   | ms => Err (MissingFields (c_name c) (map (path_join path) ms))
   end).
Proof. reflexivity. Qed.

Lemma obj_loop_cons path weak n t d r kw missing :
  obj_loop path weak ((n, (t, d)) :: r) kw missing =
  match d with
  | DMissing =>
      match t with
      | TData _ _ =>
          let* w := weak_get weak n in
          let* o := default_obj t (path_join path n) w in
          obj_loop path weak r (aset n o kw) missing
      | _ => obj_loop path weak r kw (missing ++ [n])%list
      end
  | _ => obj_loop path weak r kw missing
  end.
Proof. destruct d, t; reflexivity. Qed.

Definition paths_of (path : string) (p : list string) : string := fold_left path_join p path.

(** what happens to a list of fields: [Some kw] all sub-configs built *)
Definition good (t : ty) (path : string) : Prop :=
  exists v, default_obj t path (VDict []) = Ok v /\ default_of t v.
Definition bad (t : ty) (path : string) : Prop :=
  exists p c fs, bare_subconfig t p = Some (TData c fs) /\ required fs <> [] /\
    default_obj t path (VDict []) =
      Err (MissingFields (c_name c) (map (path_join (paths_of path p)) (required fs))).

Definition is_bare (f : string * (ty * dflt)) : bool :=
  match snd (snd f) with DMissing => is_dataclass_ty (fst (snd f)) | _ => false end.

Lemma constructible_fields fs :
  forallb (fun f : string * (ty * dflt) =>
             let '(_, (ft, fd)) := f in
             match fd with DMissing => constructible ft | _ => true end) fs = true ->
  required fs = [] /\
  (forall n ft, In (n, (ft, DMissing)) fs -> constructible ft = true /\ is_dataclass_ty ft = true).
Proof.
  induction fs as [|[n [ft fd]] fs IH]; intros H; [split; [reflexivity|easy]|].
  simpl in H. apply andb_true_iff in H as [H1 H2]. destruct (IH H2) as [I1 I2].
  split.
  - unfold required in *. simpl. destruct fd; auto. destruct ft; simpl in *; try discriminate; auto.
  - intros m t [Hm|Hm]; [|apply (I2 m t Hm)]. injection Hm as -> -> ->. split; auto.
    destruct t; try discriminate; auto.
Qed.

(** the loop over the fields *)
Lemma obj_loop_ok path fs : forall kw missing,
  NoDup (akeys kw ++ map fst fs)%list ->
  (forall n ft, In (n, (ft, DMissing)) fs -> is_dataclass_ty ft = true -> good ft (path_join path n)) ->
  exists kws,
    obj_loop path (VDict []) fs kw missing = Ok ((kw ++ kws)%list, (missing ++ required fs)%list) /\
    Forall (fun kv => exists ft, In (fst kv, (ft, DMissing)) fs /\ default_of ft (snd kv)) kws /\
    (forall n ft, In (n, (ft, DMissing)) fs -> is_dataclass_ty ft = true -> In n (akeys kws)) /\
    NoDup (akeys kws) /\ incl (akeys kws) (map fst fs).
Proof.
  induction fs as [|[n [ft fd]] fs IH]; intros kw missing Hnd H.
  - exists []. cbn. rewrite !app_nil_r. repeat split; auto; try constructor; easy.
  - rewrite obj_loop_cons. simpl in Hnd.
    assert (Hnd' : NoDup (akeys kw ++ map fst fs)%list) by (eapply NoDup_remove_1; eauto).
    assert (H' : forall m mt, In (m, (mt, DMissing)) fs -> is_dataclass_ty mt = true -> good mt (path_join path m))
      by (intros; apply H; [right|]; auto).
    assert (SKIP : fd <> DMissing -> exists kws,
        obj_loop path (VDict []) fs kw missing = Ok ((kw ++ kws)%list, (missing ++ required ((n, (ft, fd)) :: fs))%list) /\
        Forall (fun kv => exists ft0, In (fst kv, (ft0, DMissing)) ((n, (ft, fd)) :: fs) /\ default_of ft0 (snd kv)) kws /\
        (forall m mt, In (m, (mt, DMissing)) ((n, (ft, fd)) :: fs) -> is_dataclass_ty mt = true -> In m (akeys kws)) /\
        NoDup (akeys kws) /\ incl (akeys kws) (map fst ((n, (ft, fd)) :: fs))).
    { intros Hfd. destruct (IH kw missing Hnd' H') as (kws & E1 & E2 & E3 & E4 & E5). exists kws.
      replace (required ((n, (ft, fd)) :: fs)) with (required fs)
        by (unfold required; simpl; destruct fd; [congruence|reflexivity|reflexivity]).
      repeat split; auto.
      - eapply Forall_impl; [|exact E2]. intros kv [t0 [Ha Hb]]. exists t0; split; [right|]; auto.
      - intros m mt [Hm|Hm] Hd; [injection Hm; intros; congruence|eauto].
      - intros m Hm. right. apply E5, Hm. }
    destruct fd as [|x|x]; [|apply SKIP; discriminate|apply SKIP; discriminate].
    destruct (is_dataclass_ty ft) eqn:Ed.
    + destruct ft; try discriminate.
      destruct (H n (TData c fields) (or_introl eq_refl) eq_refl) as [o [Ho1 Ho2]].
      cbn [weak_get aget rbind]. rewrite Ho1. cbn [rbind].
      assert (Hkn : ~ In n (akeys kw)).
      { apply NoDup_remove_2 in Hnd. intros Hin. apply Hnd, in_or_app; auto. }
      rewrite akeys_aset_notin by exact Hkn.
      destruct (IH (kw ++ [(n, o)])%list missing) as (kws & E1 & E2 & E3 & E4 & E5); auto.
      { unfold akeys in *. rewrite map_app. simpl. rewrite <- app_assoc. exact Hnd. }
      exists ((n, o) :: kws). rewrite E1. rewrite <- app_assoc. cbn [app].
      assert (Hnk : ~ In n (map fst fs)).
      { apply NoDup_remove_2 in Hnd. intros Hin. apply Hnd, in_or_app; auto. }
      repeat split; auto.
      * constructor.
        -- exists (TData c fields). split; [left; auto|exact Ho2].
        -- eapply Forall_impl; [|exact E2]. intros kv [t0 [Ha Hb]]. exists t0; split; [right|]; auto.
      * intros m mt [Hm|Hm] Hd; [left; injection Hm; auto|right; eauto].
      * simpl. constructor; auto.
      * intros m [Hm|Hm]; [left; auto|right; apply E5, Hm].
    + assert (exists kws,
        obj_loop path (VDict []) fs kw (missing ++ [n])%list = Ok ((kw ++ kws)%list, (missing ++ required ((n, (ft, DMissing)) :: fs))%list) /\
        Forall (fun kv => exists ft0, In (fst kv, (ft0, DMissing)) ((n, (ft, DMissing)) :: fs) /\ default_of ft0 (snd kv)) kws /\
        (forall m mt, In (m, (mt, DMissing)) ((n, (ft, DMissing)) :: fs) -> is_dataclass_ty mt = true -> In m (akeys kws)) /\
        NoDup (akeys kws) /\ incl (akeys kws) (map fst ((n, (ft, DMissing)) :: fs))) as G.
      { destruct (IH kw (missing ++ [n])%list Hnd' H') as (kws & E1 & E2 & E3 & E4 & E5). exists kws.
        replace (required ((n, (ft, DMissing)) :: fs)) with (n :: required fs)
          by (unfold required; simpl; rewrite Ed; reflexivity).
        rewrite E1, <- app_assoc. repeat split; auto.
        - eapply Forall_impl; [|exact E2]. intros kv [t0 [Ha Hb]]. exists t0; split; [right|]; auto.
        - intros m mt [Hm|Hm] Hd; [injection Hm; intros; congruence|eauto].
        - intros m Hm. right. apply E5, Hm. }
      destruct ft; try discriminate; exact G.
Qed.

Lemma obj_loop_bad path fs : forall kw missing l1 n ft l2,
  NoDup (akeys kw ++ map fst fs)%list ->
  fs = (l1 ++ (n, (ft, DMissing)) :: l2)%list -> is_dataclass_ty ft = true ->
  (forall m mt, In (m, (mt, DMissing)) l1 -> is_dataclass_ty mt = true -> good mt (path_join path m)) ->
  forall e, default_obj ft (path_join path n) (VDict []) = Err e ->
  obj_loop path (VDict []) fs kw missing = Err e.
Proof.
  induction fs as [|[m [mt md]] fs IH]; intros kw missing l1 n ft l2 Hnd Hfs Hd Hg e He;
    [destruct l1; discriminate|].
  rewrite obj_loop_cons. destruct l1 as [|f1 l1]; cbn [app] in Hfs.
  - injection Hfs as -> -> -> Hfs. destruct ft; try discriminate. cbn [weak_get aget rbind]. rewrite He. reflexivity.
  - injection Hfs as Hf Hfs. subst f1. simpl in Hnd.
    assert (Hnd' : NoDup (akeys kw ++ map fst fs)%list) by (eapply NoDup_remove_1; eauto).
    assert (Hg' : forall k kt, In (k, (kt, DMissing)) l1 -> is_dataclass_ty kt = true -> good kt (path_join path k))
      by (intros; apply Hg; [right|]; auto).
    destruct md; [|eapply IH; eauto|eapply IH; eauto].
    destruct (is_dataclass_ty mt) eqn:Ed.
    + destruct mt; try discriminate.
      destruct (Hg m (TData c fields) (or_introl eq_refl) eq_refl) as [o [Ho1 Ho2]].
      cbn [weak_get aget rbind]. rewrite Ho1. cbn [rbind].
      assert (Hkn : ~ In m (akeys kw)).
      { apply NoDup_remove_2 in Hnd. intros Hin. apply Hnd, in_or_app; auto. }
      rewrite akeys_aset_notin by exact Hkn. eapply IH; eauto.
      unfold akeys in *. rewrite map_app. simpl. rewrite <- app_assoc. exact Hnd.
    + destruct mt; try discriminate; eapply IH; eauto.
Qed.

(** construct with the built sub-configs *)
Lemma construct_default fs kw :
  NoDup (map fst fs) -> NoDup (akeys kw) ->
  required fs = [] ->
  Forall (fun kv => exists ft, In (fst kv, (ft, DMissing)) fs /\ default_of ft (snd kv)) kw ->
  (forall n ft, In (n, (ft, DMissing)) fs -> is_dataclass_ty ft = true -> In n (akeys kw)) ->
  exists d, construct fs kw = Ok d /\
    all2 false (fun (f : string * (ty * dflt)) kv =>
                  let '(fn, (ft, fd)) := f in
                  fst kv = fn /\
                  match fd with
                  | DValue x | DFactory x => snd kv = x
                  | DMissing => default_of ft (snd kv)
                  end) fs d.
Proof.
  intros Hnd Hndk Hreq HF Hin.
  assert (G : forall l, incl l fs -> exists d, construct l kw = Ok d /\
    all2 false (fun (f : string * (ty * dflt)) kv =>
                  let '(fn, (ft, fd)) := f in
                  fst kv = fn /\
                  match fd with
                  | DValue x | DFactory x => snd kv = x
                  | DMissing => default_of ft (snd kv)
                  end) l d).
  { induction l as [|[n [ft fd]] l IH]; intros Hi; [exists []; split; auto; exact I|].
    destruct IH as [d [Hd1 Hd2]]; [intros x Hx; apply Hi; right; auto|].
    assert (Hf : In (n, (ft, fd)) fs) by (apply Hi; left; auto).
    rewrite Forall_forall in HF.
    assert (Hcases : (exists y, aget n kw = Some y /\ fd = DMissing /\ default_of ft y) \/
                     (aget n kw = None /\ fd <> DMissing)).
    { destruct (aget n kw) as [y|] eqn:Eg.
      - left. exists y. apply aget_some_in in Eg. destruct (HF _ Eg) as [ft' [Hf' Hdo]]. cbn [fst snd] in *.
        assert (E1 : aget n fs = Some (ft, fd)) by (apply in_nodup_aget; auto).
        assert (E2 : aget n fs = Some (ft', DMissing)) by (apply in_nodup_aget; auto).
        rewrite E1 in E2. injection E2 as -> ->. auto.
      - right. split; auto. intros ->. destruct (is_dataclass_ty ft) eqn:Ed.
        + apply (Hin n ft Hf) in Ed. apply inkeys_aget in Ed as [y Hy]. congruence.
        + assert (In n (required fs)); [|rewrite Hreq in *; easy].
          unfold required. apply in_map_iff. exists (n, (ft, DMissing)). split; auto.
          apply filter_In. split; auto. now rewrite Ed. }
    cbn [construct]. destruct Hcases as [(y & Hy & -> & Hdo)|[Hy Hfd]]; rewrite Hy.
    - cbn [rbind]. rewrite Hd1. cbn [rbind]. eexists; split; [reflexivity|]. simpl. auto.
    - destruct fd as [|x|x]; [congruence| |]; cbn [rbind]; rewrite Hd1; cbn [rbind];
        (eexists; split; [reflexivity|]; simpl; auto). }
  apply G. apply incl_refl.
Qed.

Lemma bare_good_bad t : names_ok t -> is_dataclass_ty t = true -> forall path,
  (constructible t = true -> good t path) /\ (constructible t = false -> bad t path).
Proof.
  induction t as [| | | | |i IH|l IH|kt vt IHk IHv|i IH|l IH|c fs IH|n ms|l|n] using ty_ind';
    intros Hn Hd path; try discriminate.
  destruct Hn as (Hnd & Hne & Hn). apply all_Forall in Hn. rewrite Forall_forall in Hn, IH.
  assert (IH' : forall n ft, In (n, (ft, DMissing)) fs -> is_dataclass_ty ft = true ->
            (constructible ft = true -> good ft (path_join path n)) /\
            (constructible ft = false -> bad ft (path_join path n))).
  { intros n ft Hin Hdt. apply (IH (n, (ft, DMissing)) Hin); auto. apply (Hn _ Hin). }
  split; intros Hc.
  - simpl in Hc. apply constructible_fields in Hc as [Hreq Hall].
    destruct (obj_loop_ok path fs [] []) as (kws & E1 & E2 & E3 & E4 & E5); auto.
    { intros n ft Hin Hdt. apply (IH' n ft Hin Hdt). apply (Hall n ft Hin). }
    destruct (construct_default fs kws) as [d [Hd1 Hd2]]; auto.
    exists (VObj (c_name c) d). split; [|exists d; split; auto].
    rewrite default_obj_eq, E1. cbn [rbind app fst snd]. rewrite Hreq, Hd1. reflexivity.
  - (* first default-less dataclass field that cannot be built, if any *)
    assert (HF : (exists l1 n ft l2, fs = (l1 ++ (n, (ft, DMissing)) :: l2)%list /\ is_dataclass_ty ft = true /\
               constructible ft = false /\
               forall m mt, In (m, (mt, DMissing)) l1 -> is_dataclass_ty mt = true -> constructible mt = true) \/
             (forall m mt, In (m, (mt, DMissing)) fs -> is_dataclass_ty mt = true -> constructible mt = true)).
    { clear. induction fs as [|[n [ft fd]] fs IHf]; [right; easy|].
      destruct (match fd with DMissing => is_dataclass_ty ft && negb (constructible ft) | _ => false end) eqn:Eb.
      - destruct fd; try discriminate. apply andb_true_iff in Eb as [E1 E2]. apply negb_true_iff in E2.
        left. exists [], n, ft, fs. repeat split; auto; easy.
      - assert (Hh : forall mt, fd = DMissing -> mt = ft -> is_dataclass_ty mt = true -> constructible mt = true).
        { intros mt -> -> Hd. rewrite Hd in Eb. simpl in Eb. now apply negb_false_iff in Eb. }
        destruct IHf as [(l1 & n' & ft' & l2 & -> & H1 & H2 & H3)|H].
        + left. exists ((n, (ft, fd)) :: l1), n', ft', l2. repeat split; auto.
          intros m mt [Hm|Hm] Hd; [injection Hm as -> -> ->; auto|eauto].
        + right. intros m mt [Hm|Hm] Hd; [injection Hm as -> -> ->; auto|eauto]. }
    destruct HF as [(l1 & n & ft & l2 & Hfs & Hdt & Hcf & Hl1)|Hall].
    + assert (Hin : In (n, (ft, DMissing)) fs) by (rewrite Hfs; apply in_or_app; right; left; auto).
      destruct (IH' n ft Hin Hdt) as [_ Hb]. destruct (Hb Hcf) as (p & c' & fs' & Hp1 & Hp2 & Hp3).
      exists (n :: p), c', fs'. repeat split; auto.
      * simpl. rewrite (in_nodup_aget n (ft, DMissing) fs) by auto. exact Hp1.
      * rewrite default_obj_eq.
        rewrite (obj_loop_bad path fs [] [] l1 n ft l2 Hnd Hfs Hdt) with (e := MissingFields (c_name c') (map (path_join (paths_of (path_join path n) p)) (required fs'))); auto.
        intros m mt Hm Hmd. assert (Hmin : In (m, (mt, DMissing)) fs) by (rewrite Hfs; apply in_or_app; auto).
        apply (IH' m mt Hmin Hmd). eauto.
    + exists [], c, fs. split; [reflexivity|].
      assert (Hreq : required fs <> []).
      { intros Hreq. assert (constructible (TData c fs) = true); [|congruence].
        simpl. apply forallb_forall. intros [n [ft fd]] Hin. destruct fd; auto.
        destruct (is_dataclass_ty ft) eqn:Ed; [eauto|].
        assert (In n (required fs)); [|rewrite Hreq in *; easy].
        unfold required. apply in_map_iff. exists (n, (ft, DMissing)). split; auto.
        apply filter_In. split; auto. now rewrite Ed. }
      split; auto.
      destruct (obj_loop_ok path fs [] []) as (kws & E1 & E2 & E3 & E4 & E5); auto.
      { intros n ft Hin Hdt. apply (IH' n ft Hin Hdt). eauto. }
      rewrite default_obj_eq, E1. cbn [rbind app fst snd]. destruct (required fs); [congruence|reflexivity].
Qed.

(** ** the top-level call *)
Definition fresh_fields (fs : list (string * (ty * dflt))) := map fst fs.

Lemma try_defaults_run fs path : NoDup (map fst fs) -> forall rem kw missing,
  NoDup (akeys kw ++ rem)%list -> incl rem (map fst fs) ->
  (forall n ft, In (n, (ft, DMissing)) fs -> is_dataclass_ty ft = true ->
     good ft (path_join path n) \/ bad ft (path_join path n)) ->
  (exists n ft, In n rem /\ In (n, (ft, DMissing)) fs /\ is_dataclass_ty ft = true /\
     bad ft (path_join path n) /\
     exists e, default_obj ft (path_join path n) (VDict []) = Err e /\
       try_create_defaults fs rem path [] kw missing = Err e) \/
  (exists kws,
    try_create_defaults fs rem path [] kw missing =
      Ok ((kw ++ kws)%list, (missing ++ filter (fun n => existsb (String.eqb n) (required fs)) rem)%list) /\
    Forall (fun kv => exists ft, In (fst kv, (ft, DMissing)) fs /\ default_of ft (snd kv)) kws /\
    (forall n ft, In n rem -> In (n, (ft, DMissing)) fs -> is_dataclass_ty ft = true -> In n (akeys kws)) /\
    NoDup (akeys kws)  /\ incl (akeys kws) rem).
Proof.
  intros Hnd. induction rem as [|n rem IH]; intros kw missing Hk Hi Hg.
  - right. exists []. cbn. rewrite !app_nil_r. repeat split; auto; try constructor; easy.
  - assert (Hn : In n (map fst fs)) by (apply Hi; left; auto).
    apply in_map_iff in Hn as [[n' [ft fd]] [Hn' Hf]]. simpl in Hn'; subst n'.
    cbn [try_create_defaults]. rewrite field_with_aget, (in_nodup_aget n (ft, fd) fs) by auto.
    cbn [option_map fst snd aget].
    assert (Hk' : NoDup (akeys kw ++ rem)%list) by (eapply NoDup_remove_1; eauto).
    assert (Hi' : incl rem (map fst fs)) by (intros x Hx; apply Hi; right; auto).
    assert (Hnr : ~ In n rem).
    { apply NoDup_remove_2 in Hk. intros Hin. apply Hk, in_or_app; auto. }
    assert (Hreq : existsb (String.eqb n) (required fs) =
                   match fd with DMissing => negb (is_dataclass_ty ft) | _ => false end).
    { apply eq_true_iff_eq. rewrite existsb_exists. unfold required. split.
      - intros [m [Hm1 Hm2]]. apply String.eqb_eq in Hm2; subst m. apply in_map_iff in Hm1 as [[m [mt md]] [Hm Hm2]].
        simpl in Hm; subst m. apply filter_In in Hm2 as [Hm2 Hm3].
        assert (E1 : aget n fs = Some (ft, fd)) by (apply in_nodup_aget; auto).
        assert (E2 : aget n fs = Some (mt, md)) by (apply in_nodup_aget; auto).
        rewrite E1 in E2. injection E2 as -> ->. exact Hm3.
      - intros H. exists n. split; [|apply String.eqb_refl]. apply in_map_iff. exists (n, (ft, fd)). split; auto.
        apply filter_In. split; auto. }
    assert (SKIP : forall missing', fd <> DMissing \/ is_dataclass_ty ft = false ->
      (missing' ++ filter (fun n => existsb (String.eqb n) (required fs)) rem)%list =
      (missing ++ filter (fun n => existsb (String.eqb n) (required fs)) (n :: rem))%list ->
      (exists m mt, In m (n :: rem) /\ In (m, (mt, DMissing)) fs /\ is_dataclass_ty mt = true /\
         bad mt (path_join path m) /\
         exists e, default_obj mt (path_join path m) (VDict []) = Err e /\
           try_create_defaults fs rem path [] kw missing' = Err e) \/
      (exists kws,
        try_create_defaults fs rem path [] kw missing' =
          Ok ((kw ++ kws)%list, (missing ++ filter (fun n => existsb (String.eqb n) (required fs)) (n :: rem))%list) /\
        Forall (fun kv => exists ft, In (fst kv, (ft, DMissing)) fs /\ default_of ft (snd kv)) kws /\
        (forall m mt, In m (n :: rem) -> In (m, (mt, DMissing)) fs -> is_dataclass_ty mt = true -> In m (akeys kws)) /\
        NoDup (akeys kws) /\ incl (akeys kws) (n :: rem))).
    { intros missing' Hfd Hms. destruct (IH kw missing' Hk' Hi' Hg) as [(m & mt & H1 & H2 & H3 & H4 & H5)|(kws & E1 & E2 & E3 & E4 & E5)].
      - left. exists m, mt. repeat split; auto. right; auto.
      - right. exists kws. rewrite <- Hms. repeat split; auto.
        + intros m mt [<-|Hm] Hmf Hmd; [|eauto].
          assert (X1 : aget n fs = Some (ft, fd)) by (apply in_nodup_aget; auto).
          assert (X2 : aget n fs = Some (mt, DMissing)) by (apply in_nodup_aget; auto).
          rewrite X1 in X2. injection X2 as -> ->. destruct Hfd; congruence.
        + intros m Hm. right. apply E5, Hm. }
    destruct fd as [|x|x].
    + destruct (is_dataclass_ty ft) eqn:Ed.
      * assert (Hgb := Hg n ft Hf Ed). destruct ft; try discriminate. cbn [weak_get aget rbind].
        destruct Hgb as [[o [Ho1 Ho2]]|Hb].
        -- rewrite Ho1. cbn [rbind].
           assert (Hkn : ~ In n (akeys kw)).
           { apply NoDup_remove_2 in Hk. intros Hin. apply Hk, in_or_app; auto. }
           rewrite akeys_aset_notin by exact Hkn.
           destruct (IH (kw ++ [(n, o)])%list missing) as [(m & mt & H1 & H2 & H3 & H4 & H5)|(kws & E1 & E2 & E3 & E4 & E5)]; auto.
           { unfold akeys in *. rewrite map_app. simpl. rewrite <- app_assoc. exact Hk. }
           ++ left. exists m, mt. repeat split; auto. right; auto.
           ++ right. exists ((n, o) :: kws). rewrite E1, <- app_assoc. cbn [app filter]. rewrite Hreq. cbn [negb].
              repeat split; auto.
              ** constructor; [|auto]. exists (TData c fields). auto.
              ** intros m mt [<-|Hm] Hmf Hmd; [left; auto|right; eauto].
              ** simpl. constructor; auto.
              ** intros m [<-|Hm]; [left; auto|right; apply E5, Hm].
        -- left. exists n, (TData c fields). repeat split; auto; [left; auto|].
           destruct Hb as (p & c' & fs' & B1 & B2 & B3). eexists. split; [exact B3|]. rewrite B3. reflexivity.
      * assert (G := SKIP (missing ++ [n])%list (or_intror eq_refl)).
        cbn [filter] in G |- *. rewrite Hreq in G |- *. cbn [negb] in G |- *. rewrite <- app_assoc in G. specialize (G eq_refl).
        destruct ft; try discriminate; exact G.
    + apply SKIP; [left; discriminate|]. cbn [filter]. now rewrite Hreq.
    + apply SKIP; [left; discriminate|]. cbn [filter]. now rewrite Hreq.
Qed.

(** joining non-empty names with path_join is joining them with dots *)
Lemma join_snoc p n : p <> [] -> join "." (p ++ [n])%list = join "." p ++ "." ++ n.
Proof.
  induction p as [|a p IH]; intros H; [congruence|]. destruct p as [|b p].
  - reflexivity.
  - cbn [app join]. change (b :: (p ++ [n]))%list with ((b :: p) ++ [n])%list.
    assert (IHs := IH ltac:(discriminate)). cbn [app join] in IHs |- *.
    destruct (p ++ [n])%list eqn:Ep; [destruct p; discriminate|]. rewrite IHs.
    rewrite !append_assoc_str. reflexivity.
Qed.

Lemma join_nonempty p : p <> [] -> ~ In "" p -> join "." p <> "".
Proof.
  destruct p as [|a [|b p]]; intros H Hn; [congruence| |]; simpl in *.
  - intros ->; tauto.
  - destruct a; simpl; [tauto|discriminate].
Qed.

Lemma paths_join : forall p q, ~ In "" q -> ~ In "" p -> paths_of (join "." q) p = join "." (q ++ p)%list.
Proof.
  induction p as [|n p IH]; intros q Hq Hp; simpl.
  - now rewrite app_nil_r.
  - unfold paths_of in *. simpl. unfold path_join at 2.
    assert (Hp' : ~ In "" p) by (simpl in Hp; tauto).
    assert (Hqn : ~ In "" (q ++ [n])%list).
    { intros Hin. apply in_app_or in Hin as [Hin|[Hin|[]]]; [tauto|]. apply Hp; left; auto. }
    destruct (String.eqb_spec (join "." q) "") as [Eq|Eq].
    + assert (q = []) as ->. { destruct q; auto. exfalso. apply (join_nonempty (s :: q)); auto. discriminate. }
      change n with (join "." [n]) at 1. rewrite IH; auto.
    + rewrite <- join_snoc by (intros ->; apply Eq; reflexivity).
      rewrite IH; auto. rewrite <- app_assoc. reflexivity.
Qed.

Lemma bare_names t : names_ok t -> forall p t', bare_subconfig t p = Some t' -> ~ In "" p /\ names_ok t'.
Proof.
  intros Hn p. revert t Hn. induction p as [|k p IH]; intros t Hn t' H; simpl in H.
  - injection H as <-. split; auto.
  - destruct t; try discriminate. destruct (aget k fields) as [[t1 [| |]]|] eqn:Eg; try discriminate.
    destruct Hn as (Hnd & Hne & Hn). apply all_Forall in Hn. rewrite Forall_forall in Hn.
    apply aget_some_in in Eg. destruct (IH t1 (Hn _ Eg) t' H) as [I1 I2]. split; auto.
    intros [->|Hin]; [|tauto]. apply Hne. unfold field_names. apply in_map_iff. exists ("", (t1, DMissing)); auto.
Qed.

(** names a class [c] and its required fields, by full dotted path, in any order *)
Lemma load_default : forall E t,
  order_ok E -> names_ok t -> is_dataclass_ty t = true ->
  (constructible t = true ->
     exists v, hs_load E t None None = Ok v /\ default_of t v) /\
  (constructible t = false ->
     exists p c fs names,
       bare_subconfig t p = Some (TData c fs) /\ names <> [] /\ Permutation names (required fs) /\
       hs_load E t None None =
         Err (MissingFields (c_name c) (map (fun n => join "." (p ++ [n])) names))).
Proof.
  intros E t HE Hn Hd. destruct t as [| | | | | | | | | |c fs| | |]; try discriminate.
  assert (Hload : hs_load E (TData c fs) None None =
    (let* km := try_create_defaults fs (e_order E (map fst fs)) "" [] [] [] in
     match snd km with
     | [] => let* obj := construct fs (fst km) in Ok (VObj (c_name c) obj)
     | ms => Err (MissingFields (c_name c) (map (path_join "") ms))
     end)).
  { unfold hs_load, typed_load. rewrite from_dict_main by discriminate. unfold from_main.
    assert (deser_all E (typed_load_desers None (is_versioned (TData c fs)) None) (TData c fs) (VDict []) VNone false "" st_init
            = Ok (VDict [], VNone, false, st_init)) as ->.
    { unfold typed_load_desers. cbn [app deser_all deser_one rbind d_ok d_value d_mut d_ret d_st orb].
      unfold deser_versioned. cbn [is_versioned]. destruct (c_versioned c) as [[ver rules]|]; reflexivity. }
    cbn [rbind isinstance coerce_scalar from_struct dataclass_input fields_loop].
    replace (filter (fun n => negb (amem n [])) (map fst fs)) with (map fst fs).
    2:{ clear. induction (map fst fs) as [|a l IH]; simpl; auto. f_equal; auto. }
    destruct (try_create_defaults _ _ _ _ _ _) as [[kw ms]|e]; [|reflexivity]. cbn [rbind snd fst].
    destruct ms; [|reflexivity]. destruct (construct fs kw); reflexivity. }
  assert (Hn0 := Hn). destruct Hn as (Hnd & Hne & Hn). apply all_Forall in Hn. rewrite Forall_forall in Hn.
  assert (Hgb : forall n ft, In (n, (ft, DMissing)) fs -> is_dataclass_ty ft = true ->
     (constructible ft = true -> good ft (path_join "" n)) /\ (constructible ft = false -> bad ft (path_join "" n))).
  { intros n ft Hin Hdt. apply bare_good_bad; auto. apply (Hn _ Hin). }
  assert (Hgb' : forall n ft, In (n, (ft, DMissing)) fs -> is_dataclass_ty ft = true ->
     good ft (path_join "" n) \/ bad ft (path_join "" n)).
  { intros n ft Hin Hdt. destruct (Hgb n ft Hin Hdt). destruct (constructible ft); auto. }
  assert (Hperm : Permutation (e_order E (map fst fs)) (map fst fs)) by apply HE.
  destruct (try_defaults_run fs "" Hnd (e_order E (map fst fs)) [] []) as
    [(n & ft & R1 & R2 & R3 & R4 & e & R5 & R6)|(kws & E1 & E2 & E3 & E4 & E5)]; auto.
  { simpl. eapply Permutation_NoDup; [apply Permutation_sym, Hperm|exact Hnd]. }
  { intros x Hx. eapply Permutation_in; eauto. }
  - split; intros Hc.
    + exfalso. simpl in Hc. apply constructible_fields in Hc as [_ Hall].
      destruct (Hall n ft R2) as [Hct _]. destruct (Hgb n ft R2 R3) as [Hgd _].
      destruct (Hgd Hct) as [v [Hv _]]. congruence.
    + destruct R4 as (p & c' & fs' & B1 & B2 & B3). rewrite R5 in B3. injection B3 as ->.
      exists (n :: p), c', fs', (required fs'). split.
      { simpl. rewrite (in_nodup_aget n (ft, DMissing) fs) by auto. exact B1. }
      split; [exact B2|]. split; [apply Permutation_refl|].
      rewrite Hload, R6. cbn [rbind]. f_equal. f_equal.
      assert (Hbs : bare_subconfig (TData c fs) (n :: p) = Some (TData c' fs')).
      { simpl. rewrite (in_nodup_aget n (ft, DMissing) fs) by auto. exact B1. }
      destruct (bare_names _ Hn0 _ _ Hbs) as [Hnp Hnf'].
      assert (Hpn : paths_of (path_join "" n) p = join "." (n :: p)).
      { change (path_join "" n) with (join "." [n]). rewrite paths_join; auto; simpl in Hnp |- *; tauto. }
      apply map_ext_in. intros a Ha. rewrite Hpn. rewrite join_snoc by discriminate. unfold path_join.
      destruct (String.eqb_spec (join "." (n :: p)) "") as [Ej|Ej]; [|reflexivity].
      exfalso. eapply (join_nonempty (n :: p)); eauto. discriminate.
  - assert (Hfr : Permutation (filter (fun n => existsb (String.eqb n) (required fs)) (e_order E (map fst fs))) (required fs)).
    { apply NoDup_Permutation.
      - apply NoDup_filter. eapply Permutation_NoDup; [apply Permutation_sym, Hperm|exact Hnd].
      - unfold required. clear -Hnd. unfold field_names in Hnd. induction fs as [|f fs IH]; simpl; [constructor|].
        inversion Hnd; subst. destruct f as [n [ft fd]].
        assert (Hni : ~ In n (map fst (filter (fun f : string * (ty * dflt) => let '(_, (ft, fd)) := f in
                    match fd with DMissing => negb (is_dataclass_ty ft) | _ => false end) fs))).
        { intros Hin. apply in_map_iff in Hin as [x [Hxn Hx]]. apply filter_In in Hx as [Hx _]. apply H1. simpl. rewrite <- Hxn. apply in_map; exact Hx. }
        destruct fd; auto. destruct (negb (is_dataclass_ty ft)); auto. simpl. constructor; auto.
      - intros m. rewrite filter_In, existsb_exists. split.
        + intros [_ [x [Hx Hm]]]. apply String.eqb_eq in Hm; subst; auto.
        + intros Hm. split.
          * eapply Permutation_in; [apply Permutation_sym, Hperm|]. unfold required in Hm.
            apply in_map_iff in Hm as [x [<- Hx]]. apply filter_In in Hx as [Hx _]. now apply in_map.
          * exists m. split; auto. apply String.eqb_refl. }
    assert (Hall : forall n ft, In (n, (ft, DMissing)) fs -> is_dataclass_ty ft = true -> In n (akeys kws)).
    { intros n ft Hin Hdt. apply (E3 n ft); auto. eapply Permutation_in; [apply Permutation_sym, Hperm|].
      apply in_map_iff. exists (n, (ft, DMissing)); auto. }
    rewrite Hload, E1. cbn [rbind app fst snd]. split; intros Hc.
    + simpl in Hc. apply constructible_fields in Hc as [Hreq _].
      rewrite Hreq in Hfr. apply Permutation_sym, Permutation_nil in Hfr. rewrite Hreq. rewrite Hfr.
      destruct (construct_default fs kws) as [d [Hd1 Hd2]]; auto.
      rewrite Hd1. cbn [rbind]. eexists; split; [reflexivity|]. exists d; auto.
    + exists [], c, fs, (filter (fun n => existsb (String.eqb n) (required fs)) (e_order E (map fst fs))).
      split; [reflexivity|].
      assert (Hreq : required fs <> []).
      { intros Hreq. assert (constructible (TData c fs) = true); [|congruence].
        simpl. apply forallb_forall. intros [n [ft fd]] Hin. destruct fd; auto.
        destruct (is_dataclass_ty ft) eqn:Ed.
        - destruct (constructible ft) eqn:Ect; auto. exfalso.
          assert (Hk := Hall n ft Hin Ed). apply in_map_iff in Hk as [kv [Hk1 Hk2]].
          rewrite Forall_forall in E2. destruct (E2 _ Hk2) as [ft' [Hf' Hdo]].
          rewrite Hk1 in Hf'.
          assert (X1 : aget n fs = Some (ft, DMissing)) by (apply in_nodup_aget; auto).
          assert (X2 : aget n fs = Some (ft', DMissing)) by (apply in_nodup_aget; auto).
          rewrite X1 in X2. injection X2 as <-.
          clear -Hdo Ect. exfalso. revert Ect Hdo. generalize (snd kv). clear.
          induction ft as [| | | | |i IH|l IH|kt vt IHk IHv|i IH|l IH|c fs IH|n ms|l|n] using ty_ind';
            intros v Ect Hdo; simpl in Hdo; try easy.
          destruct Hdo as [d [-> Hdo]]. simpl in Ect.
          revert d Hdo. induction fs as [|[n [ft fd]] fs IHf]; intros [|kv d] Hdo; simpl in *; try easy.
          inversion IH; subst. destruct Hdo as [[_ Hdo1] Hdo2]. simpl in *. 
          destruct fd; [|eapply IHf; eauto|eapply IHf; eauto].
          destruct (constructible ft) eqn:Ec; [eapply IHf; eauto|eapply H1; eauto].
        - assert (In n (required fs)); [|rewrite Hreq in *; easy].
          unfold required. apply in_map_iff. exists (n, (ft, DMissing)). split; auto.
          apply filter_In. split; auto. now rewrite Ed. }
      split; [|split; [exact Hfr|]].
      * intros Hnil. rewrite Hnil in Hfr. apply Permutation_nil in Hfr. congruence.
      * destruct (filter _ (e_order E (map fst fs))) eqn:Ef; [|reflexivity].
        apply Permutation_nil in Hfr. congruence.
Qed.
