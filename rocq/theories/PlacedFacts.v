(** PlacedFacts.v -- loading collects exactly the schedules of the file (SpecPlaced.v). *)
From Coq Require Import Permutation.
From Verif Require Import Base AFacts Value Schema Rewrite Sched Types Asdict FromDict
  Induct SpecTree SpecTypes RewriteFacts FromDictFacts RoundTrip ElideFacts ElideLoad
  DefaultFacts SpecLoad LoadFacts LoadSound LoadProps SpecState ResumeFacts SchedTree ResumeProps SpecPlaced.
From Verif Require OverrideFacts.

(** ** the relation *)
Lemma sched_in_fun E allow t x q b text : sched_in E allow t x q b text ->
  forall p, q = Some p -> forall b' text', sched_in E allow t x (Some p) b' text' -> b' = b /\ text' = text.
Proof.
  induction 1 as [text Ht|text Ht|i x q b text Hx H IH|c fs x y d n ft fd w q b text H1 H2 H3 H4 H5 H IH
                 |ts d nm a q b text H1 H2 H IH|i l w q b text Hin H IH|ts x l j a w q b text H1 H2 H3 H IH|kt vt d k w q b text Hin H IH];
    intros p Hp b' text' H'; try discriminate.
  - injection Hp as <-. inversion H'; subst; auto.
  - injection Hp as <-. inversion H'; subst; auto.
  - inversion H'; subst; eauto.
  - destruct q as [q|]; [|discriminate]. injection Hp as <-. inversion H'; subst.
    destruct q0 as [q0|]; [|discriminate]. 
    match goal with X : option_map _ _ = Some _ |- _ => injection X as -> -> end.
    assert (y0 = y) as -> by congruence. assert (d0 = d) as -> by congruence. assert (w0 = w) as -> by congruence.
    assert (ft0 = ft) as -> by congruence. eauto.
  - inversion H'; subst. assert (nm0 = nm) as -> by congruence. assert (a0 = a) as -> by congruence. eauto.
Qed.

Lemma sched_in_nil E allow t x q b text : sched_in E allow t x q b text -> q = Some [] ->
  x = VStr text /\ base_ty t = (if b then TInt else TFloat) /\ has_char "@" text = true.
Proof.
  induction 1 as [text Ht|text Ht|i x q b text Hx H IH|c fs x y d n ft fd w q b text H1 H2 H3 H4 H5 H IH
                 |ts d nm a q b text H1 H2 H IH|i l w q b text Hin H IH|ts x l j a w q b text H1 H2 H3 H IH|kt vt d k w q b text Hin H IH];
    intros Hq; try discriminate; auto.
  - destruct q; discriminate.
  - destruct (IH Hq) as [X _]. discriminate.
Qed.

Lemma sched_in_cons E allow t x q b text : sched_in E allow t x q b text -> forall k p, q = Some (k :: p) ->
  base_ty t <> TInt /\ base_ty t <> TFloat.
Proof.
  induction 1 as [text Ht|text Ht|i x q b text Hx H IH|c fs x y d n ft fd w q b text H1 H2 H3 H4 H5 H IH
                 |ts d nm a q b text H1 H2 H IH|i l w q b text Hin H IH|ts x l j a w q b text H1 H2 H3 H IH|kt vt d k w q b text Hin H IH];
    intros k' p Hq; try discriminate; eauto; split; discriminate.
Qed.

Lemma sched_in_no_nil E allow t x k p b text b' text' :
  sched_in E allow t x (Some (k :: p)) b text -> sched_in E allow t x (Some []) b' text' -> False.
Proof.
  intros H1 H2. destruct (sched_in_cons _ _ _ _ _ _ _ H1 _ _ eq_refl) as [A B].
  destruct (sched_in_nil _ _ _ _ _ _ _ H2 eq_refl) as (_ & C & _). destruct b'; congruence.
Qed.

Lemma sched_in_data E allow c fs x q b text : sched_in E allow (TData c fs) x q b text ->
  exists y d n ft fd w q', deser_versioned (e_class E) allow (TData c fs) x = Ok y /\ items_of y = Some d /\
    In (n, (ft, fd)) fs /\ aget n d = Some w /\ sched_in E allow ft w q' b text /\ q = option_map (cons n) q'.
Proof.
  intros H. inversion H; subst. exists y, d, n, ft, fd, w, q0. repeat (split; [auto|]); auto.
  now apply aget_some_in.
Qed.

Lemma find_member ts nm a : NoDup (map ty_name ts) ->
  Forall (fun a => is_dataclass_ty a = true) ts ->
  List.find (fun a => py_eq nm (VStr (ty_name a))) ts = Some a ->
  forall n fs, member_fields a n = Some fs -> member_fields (TUnion ts) n = Some fs.
Proof.
  intros Hn Hd Hf n fs Hm. apply find_some in Hf as [Hin _]. cbn [member_fields].
  induction ts as [|b ts IH]; [easy|]. inversion Hn as [|? ? N1 N2]; subst. inversion Hd as [|? ? D1 D2]; subst.
  destruct Hin as [->|Hin]; [now rewrite Hm|]. 
  assert (member_fields b n = None) as ->; [|auto].
  destruct b as [| | | | | | | | | |c' fs'| | |]; try discriminate. rewrite Forall_forall in D2. assert (Ha := D2 _ Hin).
  destruct a as [| | | | | | | | | |c2 fs2| | |]; try discriminate. cbn [member_fields] in *.
  destruct (String.eqb_spec n (c_name c')) as [->|]; auto. destruct (String.eqb_spec (c_name c') (c_name c2)) as [e|]; [|discriminate].
  exfalso. apply N1. apply in_map_iff. exists (TData c2 fs2). split; auto.
Qed.

Lemma sched_in_field E allow sch ff bl t x q b text : sched_in E allow t x q b text ->
  forall k p ig v, q = Some (k :: p) -> persistable E bl t -> denotes E sch allow ff ig t x v ->
  exists c d fs ft fd y w, v = VObj c d /\ member_fields t c = Some fs /\ aget k fs = Some (ft, fd) /\ aget k d = Some y /\
    sched_in E allow ft w (Some p) b text /\ denotes E sch allow ff false ft w y /\ persistable E bl ft.
Proof.
  induction 1 as [text Ht|text Ht|i x q b text Hx H IH|c fs x y d n ft fd w q b text H1 H2 H3 H4 H5 H IH
                 |ts d nm a q b text H1 H2 H IH|i l w q b text Hin H IH|ts x l j a w q b text H1 H2 H3 H IH|kt vt d k w q b text Hin H IH];
    intros k' p ig v Hq Hp Hd; try discriminate.
  - destruct Hd as [[-> _]|[_ Hd]]; [congruence|]. simpl in Hp. apply (IH _ _ _ _ Hq Hp Hd).
  - destruct q as [q|]; [|discriminate]. injection Hq as -> ->.
    destruct Hd as (y' & it & o & G1 & G2 & -> & _ & G4). rewrite H1 in G1. injection G1 as <-. rewrite H2 in G2. injection G2 as <-.
    assert (Hin := aget_some_in _ _ _ H3).
    destruct Hp as (P1 & P2 & P3 & P4 & P5).
    assert (Hk : map fst o = field_names fs).
    { clear -G4. revert o G4. induction fs as [|[n' [ft' fd']] fs IH]; intros [|[k v] o] H; try easy.
      destruct H as [[H1 _] H]. simpl in *. f_equal; auto. }
    destruct (all2_in_l _ _ _ _ G4 Hin) as ([k v] & Hin' & Hk' & Hv). cbn [fst snd] in *. subst k.
    rewrite H4, H5 in Hv. exists (c_name c), o, fs, ft, fd, v, w. split; [reflexivity|]. split.
    { cbn [member_fields]. now rewrite String.eqb_refl. }
    split; [exact H3|]. split; [apply in_nodup_aget; auto; unfold akeys; rewrite Hk; exact P1|].
    split; [exact H|]. split; [exact Hv|]. apply all_Forall in P5. rewrite Forall_forall in P5. apply (P5 _ Hin).
  - apply denotes_union in Hd. change (coerce_scalar E (TUnion ts) (VDict d)) with (@None (res pyval)) in Hd. cbv iota in Hd.
    destruct Hd as (d0 & nm0 & Hd0 & Hnm & HU). injection Hd0 as <-. rewrite H1 in Hnm. injection Hnm as <-.
    assert (Ha := union_den_find _ _ _ _ HU H2). destruct Hp as [P1 P2]. apply all_Forall in P1. rewrite Forall_forall in P1.
    assert (Hin := H2). apply find_some in Hin as [Hin _].
    destruct (IH _ _ _ _ Hq (proj2 (P1 _ Hin)) Ha) as (c & o & fs & ft & fd & y & w & R1 & R2 & R3).
    exists c, o, fs, ft, fd, y, w. split; auto. split; auto.
    eapply find_member; eauto. apply Forall_forall. intros b' Hb. apply (P1 _ Hb).
Qed.

(** ** loading *)
Lemma initial_scheduled E pw n b text (y : pyfloat) (r : pyval) :
  get_value (f64_ops E) pw f64_zero = Ok y -> num_cast b y = Ok r -> initial_value E (mkSched pw n b text) = Ok r.
Proof. intros H1 H2. unfold initial_value. cbn [sch_pw sch_int]. rewrite H1. exact H2. Qed.

Lemma deser_num E allow dir t (b : bool) text path st r :
  t = (if b then TInt else TFloat) -> has_char "@" text = true ->
  deser_all E (typed_load_desers None allow dir) t (VStr text) VNone false path st = Ok r ->
  exists pw root w la, parse_schedule (e_float E) text = Ok pw /\
    sched_add (st_sched st) path (mkSched pw (last (split_on "." path) "") b text) = Ok root /\
    initial_value E (mkSched pw (last (split_on "." path) "") b text) = Ok w /\
    r = (w, la, false, mkSt (st_ov_applied st) root (st_lazy st)).
Proof.
  intros -> Hs H. unfold typed_load_desers in H.
  destruct b; cbn [app deser_all deser_one] in H; rewrite Hs in H; cbv zeta in H;
    apply rbind_ok in H as [r1 [H2 H3]];
    apply rbind_ok in H2 as [pw [P1 H2]]; apply rbind_ok in H2 as [root [P2 H2]];
    apply rbind_ok in H2 as [y [P3 H2]]; apply rbind_ok in H2 as [w [P4 H2]]; injection H2 as <-;
    cbn [rbind d_ok d_value d_mut d_ret d_st orb deser_versioned] in H3;
    destruct dir; cbn [deser_all deser_one rbind d_ok d_value d_mut d_ret d_st orb] in H3; injection H3 as <-;
    exists pw, root, w; eexists; (split; [exact P1|]); (split; [exact P2|]); (split; [eapply initial_scheduled; eauto|reflexivity]).
Qed.

Section Load.
  Variables (E : env) (allow : bool) (dir : option string) (bl : bool).
  Variable M : list string -> schedule -> Prop.
  Hypothesis Hord : order_ok E.
  Hypothesis HM : good M.

  Let dss := typed_load_desers None allow dir.
  Let Inv (st : dstate) : Prop := only M (st_sched st).
  Let le (a b : dstate) : Prop := keeps (st_sched a) (st_sched b).

  Definition places (t : ty) (x v : pyval) (path : string) (st : dstate) : Prop :=
    forall p b text, sched_in E allow t x (Some p) b text ->
    exists s r, schedule_for E (segs path ++ p) b text s /\
      sched_at (SNode (st_sched st)) (segs path ++ p) = Some s /\ initial_value E s = Ok r /\ field_at v p = Some r.

  Definition may (t : ty) (x : pyval) (path : string) : Prop :=
    forall q b text, sched_in E allow t x q b text ->
    exists p, q = Some p /\ forall s, schedule_for E (segs path ++ p) b text s -> M (segs path ++ p) s.

  Lemma le_refl' s : le s s.
  Proof. apply keeps_refl. Qed.
  Lemma le_trans' a b c : le a b -> le b c -> le a c.
  Proof. apply keeps_trans. Qed.

  Lemma segs_ne path : path <> "" -> segs path = split_on "." path.
  Proof. intros H. unfold segs. rewrite eqb_neq_str by auto. reflexivity. Qed.

  Lemma places_le t x v path a b : le a b -> places t x v path a -> places t x v path b.
  Proof. intros H P p b0 text Hs. destruct (P p b0 text Hs) as (s & r & A & B & C). exists s, r. split; auto. Qed.

  Lemma load_num (b : bool) x path ig st v st' : path <> "" -> may (if b then TInt else TFloat) x path -> Inv st ->
    from_dict E dss (if b then TInt else TFloat) x path ig st = Ok (v, st') ->
    (Inv st' /\ le st st') /\ places (if b then TInt else TFloat) x v path st'.
  Proof using HM.
    intros Hp Hm Hst H. rewrite from_dict_main in H by (destruct b; discriminate). unfold from_main in H.
    destruct (schedule_text (if b then TInt else TFloat) x) eqn:Es.
    - destruct x; try (destruct b; discriminate). assert (Hs : has_char "@" s = true) by (destruct b; exact Es). clear Es.
      apply rbind_ok in H as [r [H1 H]]. apply (deser_num E allow dir _ b) in H1 as (pw & root & w & la & P1 & P2 & P3 & ->); auto.
      set (sc := mkSched pw (last (split_on "." path) "") b s) in *.
      assert (Hsc : sched_in E allow (if b then TInt else TFloat) (VStr s) (Some []) b s) by (destruct b; now constructor).
      assert (HF : schedule_for E (segs path ++ []) b s sc).
      { exists pw. split; auto. unfold sc. rewrite app_nil_r, segs_ne by auto. reflexivity. }
      destruct (Hm _ _ _ Hsc) as (p & Hp' & HMs). injection Hp' as <-. apply HMs in HF as HMsc. rewrite app_nil_r, segs_ne in HMsc by auto.
      destruct (sched_add_good M (st_sched st) path sc HM Hst HMsc) as (root' & R1 & R2 & R3 & R4). rewrite R1 in P2. injection P2 as <-.
      assert (HV : v = w /\ st' = mkSt (st_ov_applied st) root' (st_lazy st)).
      { assert (Hw : isinstance w (if b then TInt else TFloat) = true).
        { unfold initial_value in P3. apply rbind_ok in P3 as [y [_ P3]]. cbn [sc sch_int] in P3. unfold num_cast in P3. destruct b.
          - apply rbind_ok in P3 as [z [_ P3]]. injection P3 as <-. reflexivity.
          - injection P3 as <-. reflexivity. }
        rewrite Hw in H. injection H as <- <-. auto. }
      destruct HV as [-> ->]. split; [split; [exact R2|exact R3]|].
      intros p b' text' Hin. destruct p as [|k p].
      + assert (b' = b /\ text' = s) as [-> ->] by (eapply (sched_in_fun _ _ _ _ _ _ _ Hsc); [reflexivity|exact Hin]).
        exists sc, w. split; [exact HF|]. cbn [st_sched]. rewrite app_nil_r, segs_ne by auto. split; [exact R4|]. split; [exact P3|reflexivity].
      + exfalso. eapply sched_in_no_nil; eauto.
    - assert (HT : is_TSer (if b then TInt else TFloat) = false) by (destruct b; reflexivity).
      unfold dss in H. rewrite (deser_plain E None allow dir _ x path st HT Es) in H.
      assert (Hst' : st' = st).
      { destruct b; cbn [deser_versioned rbind] in H.
        - destruct (isinstance x TInt); [congruence|]. destruct (coerce_scalar E TInt x) as [r|].
          + apply rbind_ok in H as [y [_ H]]. congruence.
          + destruct x; discriminate.
        - destruct (isinstance x TFloat); [congruence|]. destruct (coerce_scalar E TFloat x) as [r|].
          + apply rbind_ok in H as [y [_ H]]. congruence.
          + destruct x; discriminate. }
      subst st'. split; [split; [exact Hst|apply le_refl']|].
      intros p b' text' Hin. exfalso. destruct b; inversion Hin; subst; simpl in Es; congruence.
  Qed.

  Lemma load_none t x v path st : (forall q b text, ~ sched_in E allow t x q b text) -> places t x v path st.
  Proof. intros H p b text Hs. exfalso. eapply H; eauto. Qed.

  (** nothing below a list, tuple or dict *)
  Lemma may_none t x path : (forall q b text, ~ sched_in E allow t x q b text) -> may t x path.
  Proof. intros H q b text Hs. exfalso. eapply H; eauto. Qed.

  Lemma app_ne a b : b <> "" -> a ++ b <> "".
  Proof. intros H. destruct a; [exact H|discriminate]. Qed.

  Lemma path_join_ne path k : k <> "" -> path_join path k <> "".
  Proof.
    intros H. unfold path_join. destruct (String.eqb path ""); auto. apply app_ne. discriminate.
  Qed.

  Lemma tuple_only f path ts : forall i l s r s',
    (forall j a w, nth_error ts j = Some a -> nth_error l j = Some w ->
       forall p s y s', p <> "" -> Inv s -> f a w p s = Ok (y, s') -> Inv s' /\ le s s') ->
    Inv s -> tuple_loop f path ts i l s = Ok (r, s') -> Inv s' /\ le s s'.
  Proof.
    induction ts as [|t ts IH]; intros i l s r s' H Hs Hr; destruct l as [|x l].
    - injection Hr as <- <-. split; [exact Hs|apply le_refl'].
    - discriminate.
    - injection Hr as <- <-. split; [exact Hs|apply le_refl'].
    - cbn [tuple_loop] in Hr. apply rbind_ok in Hr as [[y s1] [H1 Hr]]. apply rbind_ok in Hr as [[ys s2] [H2 Hr]].
      injection Hr as <- <-. cbn [fst snd] in *.
      destruct (H 0 t x eq_refl eq_refl (path ++ "[" ++ show_nat i ++ "]") s y s1 ltac:(apply app_ne; discriminate) Hs H1) as [Hs1 Hl1].
      destruct (IH (S i) l s1 ys s2) as (Hs2 & Hl2); auto; [intros j a w Ha Hw; apply (H (S j) a w Ha Hw)|].
      split; [exact Hs2|]. eapply le_trans'; eauto.
  Qed.

  Lemma load_placed t : loadable t -> persistable E bl t -> forall x path ig st v st',
    filev x = true -> (is_dataclass_ty t = true \/ path <> "") -> may t x path -> Inv st ->
    from_dict E dss t x path ig st = Ok (v, st') ->
    (Inv st' /\ le st st') /\ places t x v path st'.
  Proof using HM Hord.
    induction t as [| | | | |i IH|l IH|kt vt IHk IHv|i IH|l IH|c fs IH|n ms|l|n] using ty_ind';
      intros Hl Hp x path ig st v st' Hx Hpa Hm Hi H.
    - destruct Hpa as [X|Hpa]; [discriminate|]. apply (load_num true x path ig); auto.
    - destruct Hpa as [X|Hpa]; [discriminate|]. apply (load_num false x path ig); auto.
    - (* str *)
      rewrite from_dict_main in H by discriminate. unfold from_main in H. unfold dss in H. rewrite (deser_plain E None allow) in H by auto.
      cbn [deser_versioned rbind] in H.
      assert (st' = st) as ->. { destruct x; try discriminate; try (injection H as <- <-; auto; fail). destruct d; [|discriminate]. injection H as <- <-. auto. }
      split; [split; [exact Hi|apply le_refl']|]. apply load_none. intros q b text Hs. inversion Hs.
    - (* bool *)
      rewrite from_dict_main in H by discriminate. unfold from_main in H. unfold dss in H. rewrite (deser_plain E None allow) in H by auto.
      cbn [deser_versioned rbind] in H.
      assert (st' = st) as ->. { destruct x; try discriminate; try (injection H as <- <-; auto; fail). destruct d; discriminate. }
      split; [split; [exact Hi|apply le_refl']|]. apply load_none. intros q b text Hs. inversion Hs.
    - (* None *)
      rewrite from_dict_main in H by discriminate. unfold from_main in H. unfold dss in H. rewrite (deser_plain E None allow) in H by auto.
      cbn [deser_versioned rbind] in H.
      assert (st' = st) as ->. { destruct x; try discriminate; try (injection H as <- <-; auto; fail). destruct d; discriminate. }
      split; [split; [exact Hi|apply le_refl']|]. apply load_none. intros q b text Hs. inversion Hs.
    - (* list *)
      rewrite from_dict_main in H by discriminate. unfold from_main in H. unfold dss in H. rewrite (deser_plain E None allow) in H by auto.
      cbn [deser_versioned rbind] in H.
      destruct x; try discriminate; [|destruct d; discriminate].
      change (from_struct E dss (TList i) (VList l) path ig st = Ok (v, st')) in H. cbn [from_struct] in H.
      apply rbind_ok in H as [[m s2] [H1 H]]. injection H as <- <-. cbn [fst snd].
      assert (HN : forall w q b text, In w l -> ~ sched_in E allow i w q b text).
      { intros w q b text Hin Hs. destruct (Hm None b text) as (p & X & _); [|discriminate]. eapply sc_list; eauto. }
      eapply (smapi_sound Inv le le_refl' le_trans') in H1 as [F1 F2]; [| |exact Hi].
      + split; [exact F2|]. apply load_none. intros q b text Hs. inversion Hs; subst. eapply HN; eauto.
      + intros j y s w s' Hin Hs Hf. eapply (IH Hl Hp y (path ++ "[" ++ show_nat j ++ "]")); [eapply filev_list; eauto|right; apply app_ne; discriminate|apply may_none; intros; now apply HN|exact Hs|exact Hf].
    - (* tuple *)
      rewrite from_dict_main in H by discriminate. unfold from_main in H. unfold dss in H. rewrite (deser_plain E None allow) in H by auto.
      cbn [deser_versioned rbind] in H.
      assert (H' : from_struct E dss (TTuple l) x path ig st = Ok (v, st')).
      { destruct x; try discriminate; try exact H. destruct d; exact H. }
      clear H; rename H' into H. cbn [from_struct] in H. destruct (tuple_items x) as [it|] eqn:Et; [|discriminate].
      apply rbind_ok in H as [[m s2] [H1 H]]. injection H as <- <-. cbn [fst snd].
      simpl in Hl, Hp. apply all_Forall in Hl. apply all_Forall in Hp. rewrite Forall_forall in Hl, IH, Hp.
      assert (HN : forall j a w q b text, nth_error l j = Some a -> nth_error it j = Some w -> ~ sched_in E allow a w q b text).
      { intros j a w q b text Ha Hw Hs. destruct (Hm None b text) as (p & X & _); [|discriminate]. eapply sc_tuple; eauto. }
      split.
      + eapply tuple_only; [|exact Hi|exact H1]. intros j a w Ha Hw p s y s' Hpp Hs Hf.
        assert (Ha' := nth_error_In _ _ Ha). assert (Hw' := nth_error_In _ _ Hw).
        eapply (IH a Ha' (Hl a Ha') (Hp a Ha') w); [eapply filev_tuple; eauto|right; exact Hpp|apply may_none; intros; eapply HN; eauto|exact Hs|exact Hf].
      + apply load_none. intros q b text Hs. inversion Hs; subst. assert (l0 = it) as -> by congruence. eapply HN; eauto.
    - (* dict *)
      rewrite from_dict_main in H by discriminate. unfold from_main in H. unfold dss in H. rewrite (deser_plain E None allow) in H by auto.
      cbn [deser_versioned rbind] in H.
      destruct x; try discriminate; [|destruct d; discriminate].
      change (from_struct E dss (TDict kt vt) (VDict d) path ig st = Ok (v, st')) in H. cbn [from_struct] in H.
      apply rbind_ok in H as [[m s2] [H1 H]]. injection H as <- <-. cbn [fst snd].
      rewrite (smap_as_smapi _ _ 0) in H1.
      apply filev_dict in Hx as [_ Hx].
      assert (HN : forall k w q b text, In (k, w) d -> ~ sched_in E allow vt w q b text).
      { intros k w q b text Hin Hs. destruct (Hm None b text) as (p & X & _); [|discriminate]. eapply sc_dict; eauto. }
      eapply (smapi_sound Inv le le_refl' le_trans') in H1 as [F1 F2]; [| |exact Hi].
      + split; [exact F2|]. apply load_none. intros q b text Hs. inversion Hs; subst. eapply HN; eauto.
      + intros j [k y] s [k' w] s' Hin Hs Hf. apply rbind_ok in Hf as [[w' s3] [Hf1 Hf]]. injection Hf as <- <- <-.
        cbn [fst snd] in *.
        eapply (IHv Hl (proj2 Hp) y (path ++ "." ++ k)); [eapply Hx; eauto|right; apply app_ne; discriminate|apply may_none; intros; eapply HN; eauto|exact Hs|exact Hf1].
    - (* optional *)
      rewrite from_dict_eq in H.
      assert (Hpa' : path <> "") by (destruct Hpa; [discriminate|auto]).
      destruct (is_none x) eqn:En.
      + destruct x; try discriminate. injection H as <- <-. split; [split; [exact Hi|apply le_refl']|]. apply load_none.
        intros q b text Hs. inversion Hs; subst. congruence.
      + assert (Hnn : x <> VNone) by (intros ->; discriminate).
        assert (Hm' : may i x path). { intros q b text Hs. apply Hm. constructor; auto. }
        assert (H' : from_dict E dss i x path ig st = Ok (v, st')) by (destruct x; try discriminate; exact H).
        destruct (IH Hl Hp _ _ _ _ _ _ Hx (or_intror Hpa') Hm' Hi H') as [D1 D2]. split; auto.
        intros p b text Hs. apply D2. inversion Hs; subst. auto.
    - (* union *)
      rewrite from_dict_main in H by discriminate. unfold from_main in H. unfold dss in H. rewrite (deser_plain E None allow) in H by auto.
      cbn [deser_versioned rbind] in H. cbn [isinstance] in H.
      assert (Hpa' : path <> "") by (destruct Hpa; [discriminate|auto]).
      destruct (coerce_scalar E (TUnion l) x) as [r|] eqn:Ec.
      { apply rbind_ok in H as [y [-> H]]. injection H as <- <-. split; [split; [exact Hi|apply le_refl']|]. apply load_none.
        intros q b text Hs. inversion Hs; subst. discriminate. }
      cbn [from_struct] in H. cbv zeta in H.
      destruct x; try discriminate; [destruct (existsb has_args l); discriminate|].
      destruct (aget "!__name__" d) as [nm|] eqn:En; [|destruct (existsb has_args l); discriminate].
      destruct (union_scan _ nm l) as [r|] eqn:Eu; [|destruct (existsb has_args l); discriminate].
      subst r. simpl in Hl, Hp. apply all_Forall in Hl. destruct Hp as [Hp _]. apply all_Forall in Hp. rewrite Forall_forall in Hl, IH, Hp.
      assert (HF : exists a, In a l /\ List.find (fun a => py_eq nm (VStr (ty_name a))) l = Some a /\
                  from_dict E dss a (VDict d) path ig st = Ok (v, st')).
      { clear -Eu. induction l as [|a l IHl]; [discriminate|]. simpl in *. destruct (py_eq nm (VStr (ty_name a))).
        - exists a. injection Eu as Eu. auto.
        - destruct (IHl Eu) as (a' & A & B). eauto. }
      destruct HF as (a & Ha & Hfa & Hf).
      assert (Hm' : may a (VDict d) path). { intros q b text Hs. apply Hm. econstructor; eauto. }
      destruct (IH a Ha (Hl a Ha) (proj2 (Hp a Ha)) _ _ _ _ _ _ Hx (or_intror Hpa') Hm' Hi Hf) as [D1 D2]. split; auto.
      intros p b text Hs. apply D2. inversion Hs; subst. assert (nm0 = nm) as -> by congruence. assert (a0 = a) as -> by congruence. auto.
    - (* dataclass *)
      unfold dss in H. rewrite load_data_eq in H by (auto; exact I). apply rbind_ok in H as [y [H1 H]].
      assert (Hy : filev y = true) by (eapply filev_versioned; eauto).
      destruct (items_of y) as [items|] eqn:Ei; [|discriminate].
      assert (Hit : NoDup (akeys items) /\ forall k w, In (k, w) items -> filev w = true).
      { destruct y; try discriminate; simpl in Ei.
        - destruct l; [|discriminate]. injection Ei as <-. split; [constructor|easy].
        - injection Ei as <-. now apply filev_items.
        - injection Ei as <-. now apply filev_items. }
      destruct Hit as [Hit1 Hit2]. assert (Hl0 := Hl). destruct Hl as (Hnd & Hnn & _ & Hl). apply all_Forall in Hl. rewrite Forall_forall in Hl, IH.
      assert (Hlf : forall n ft fd, In (n, (ft, fd)) fs -> loadable ft) by (intros n ft fd Hf; apply (Hl _ Hf)).
      destruct Hp as (_ & P2 & _ & _ & P5). apply all_Forall in P5. rewrite Forall_forall in P2, P5.
      assert (NM : forall n ft fd, In (n, (ft, fd)) fs -> n <> "" /\ has_char "." n = false).
      { intros n ft fd Hf. destruct (P2 n (in_map fst _ _ Hf)) as [Q1 Q2]. split; auto. intros ->. discriminate. }
      assert (STEP : forall n ft fd w, In (n, (ft, fd)) fs -> In (n, w) items -> is_weak w = false ->
        forall s z s', Inv s -> from_dict E dss ft w (path_join path n) false s = Ok (z, s') ->
        (Inv s' /\ le s s') /\ places ft w z (path_join path n) s').
      { intros n ft fd w Hf Hin Hw s z s' Hs Hg. destruct (NM n ft fd Hf) as [N1 N2].
        apply (IH _ Hf (Hl _ Hf) (P5 _ Hf) w _ false s z s' (Hit2 _ _ Hin)); auto.
        - right. now apply path_join_ne.
        - intros q b text Hsi. destruct (Hm (option_map (cons n) q) b text) as (p & X1 & X2).
          { apply (sc_field E allow c fs x y items n ft fd w q b text H1 Ei); auto; apply in_nodup_aget; auto. }
          destruct q as [q|]; [|discriminate]. injection X1 as <-. exists q. split; auto.
          rewrite segs_child by auto. rewrite <- app_assoc. exact X2. }
      apply (data_inv E _ Inv le le_refl' le_trans') in H as (I0 & o & -> & Hk & Ho); auto.
      + split; auto. intros p b text Hs. inversion Hs; subst.
        assert (y0 = y) as -> by congruence. assert (d = items) as -> by congruence.
        destruct q as [q|]; [|discriminate]. match goal with X : option_map _ _ = Some _ |- _ => injection X as <- end.
        match goal with X : aget n fs = Some _ |- _ => apply aget_some_in in X as Hf end.
        destruct (all2_in_l _ _ _ _ Ho Hf) as ([k z] & Hin' & Hk' & Hv). cbn [fst snd] in *. subst k.
        match goal with X : aget n items = Some _, Y : is_weak w = false |- _ => rewrite X, Y in Hv; apply aget_some_in in X end.
        destruct Hv as (s1 & s2 & Hs1 & Hr & Hle).
        destruct (NM n ft fd Hf) as [N1 N2].
        destruct (STEP n ft fd w Hf ltac:(assumption) ltac:(assumption) s1 z s2 Hs1 Hr) as [_ PL].
        apply (places_le _ _ _ _ _ _ Hle) in PL. destruct (PL q b text ltac:(assumption)) as (s & r & A & B & C & D).
        rewrite segs_child in A, B by auto. rewrite <- app_assoc in A, B. exists s, r. split; [exact A|]. split; [exact B|]. split; [exact C|].
        cbn [field_at].
        rewrite (in_nodup_aget n z o); auto.
        assert (Hk2 : akeys o = map fst fs).
        { clear -Ho. revert o Ho. induction fs as [|[n' [ft' fd']] l' IHf]; intros [|[k' y'] o] Ho; try easy.
          destruct Ho as [[<- _] Ho]. simpl. f_equal. auto. }
        rewrite Hk2. exact Hnd.
      + intros n ft fd w Hf Hin Hw s z s' Hs Hg. apply (STEP n ft fd w Hf Hin Hw s z s' Hs Hg).
    - (* enum *)
      rewrite from_dict_main in H by discriminate. unfold from_main in H. unfold dss in H. rewrite (deser_plain E None allow) in H by auto.
      cbn [deser_versioned rbind] in H.
      assert (H' : (let* m := enum_lookup n ms x in Ok (m, st)) = Ok (v, st')).
      { destruct x; try discriminate; try exact H. destruct d; exact H. }
      apply rbind_ok in H' as [m [H1 H2]]. injection H2 as <- <-.
      split; [split; [exact Hi|apply le_refl']|]. apply load_none. intros q b text Hs. inversion Hs.
    - (* literal *)
      rewrite from_dict_main in H by discriminate. unfold from_main in H. unfold dss in H. rewrite (deser_plain E None allow) in H by auto.
      cbn [deser_versioned rbind] in H.
      assert (H' : (let* _ := typing_args_ok E l in
         if py_elem (unit_text x) l then Ok (unit_text x, st) else Err DeserializeValueError) = Ok (v, st')).
      { destruct x; try discriminate; try exact H. destruct d; exact H. }
      apply rbind_ok in H' as [[] [H1 H2]]. destruct (py_elem (unit_text x) l) eqn:Ee; [|discriminate].
      injection H2 as <- <-.
      split; [split; [exact Hi|apply le_refl']|]. apply load_none. intros q b text Hs. inversion Hs.
    - (* Serializable *)
      rewrite from_dict_main in H by discriminate. unfold from_main in H. 
      apply rbind_ok in H as [r [H1 H]]. apply (deser_ser E None) in H1. destruct dir as [dd|] eqn:Ed.
      + destruct H1 as (s & st1 & -> & Hb & -> & Hst & Hsc). injection H as <- <-.
        split; [split; [unfold Inv; rewrite Hsc; exact Hi|unfold le; rewrite Hsc; apply le_refl']|]. apply load_none. intros q b text Hs. inversion Hs.
      + subst r. destruct x; try discriminate. destruct d; discriminate.
  Qed.
End Load.

(** ** a config file *)
Section File.
  Variables (E : env) (allow : bool) (dir : option string) (bl : bool) (ig : bool).
  Variables (c : cinfo) (fs : list (string * (ty * dflt))) (x : pyval) (L : loaded).
  Let t := TData c fs.
  Hypothesis Hord : order_ok E.
  Hypothesis Hl : loadable t.
  Hypothesis Hp : persistable E bl t.
  Hypothesis Hx : filev x = true.
  Hypothesis HL : typed_load E t x dir None allow ig = Ok L.
  Hypothesis Hsh : shallow_file E allow t x.

  Definition in_file (p : list string) (s : schedule) : Prop :=
    exists b text, sched_in E allow t x (Some p) b text /\ schedule_for E p b text s.

  Lemma in_file_good : good in_file.
  Proof using Hsh.
    split; [|split].
    - intros p s (b & text & H & _). destruct (Hsh _ _ _ H) as (p' & X & Y). injection X as <-. exact Y.
    - intros p s s' (b & text & H & pw & Q1 & ->) (b' & text' & H' & pw' & Q1' & ->).
      destruct (sched_in_fun _ _ _ _ _ _ _ H _ eq_refl _ _ H') as [-> ->]. congruence.
    - intros k k' s s' (b & text & H & _) (b' & text' & H' & _).
      inversion H; subst. destruct q as [q|]; [|discriminate]. match goal with X : option_map _ _ = Some _ |- _ => injection X as -> -> end.
      inversion H'; subst. destruct q as [q|]; [|discriminate]. match goal with X : option_map _ _ = Some _ |- _ => injection X as -> -> end.
      assert (y0 = y) as -> by congruence. assert (d0 = d) as -> by congruence. assert (w0 = w) as -> by congruence.
      assert (ft0 = ft) as -> by congruence. eapply sched_in_no_nil; eauto.
  Qed.

  Lemma file_schedules : only in_file (l_sched L) /\
    forall p b text, sched_in E allow t x (Some p) b text ->
    exists s r, schedule_for E p b text s /\ sched_at (SNode (l_sched L)) p = Some s /\
                initial_value E s = Ok r /\ field_at (l_value L) p = Some r.
  Proof using All.
    assert (H := HL). unfold typed_load in H. apply rbind_ok in H as [[v st] [H1 H]]. injection H as <-. cbn [fst snd l_value l_sched].
    destruct (load_placed E allow dir bl in_file Hord in_file_good t Hl Hp x "" ig st_init v st Hx) as [[A _] B]; auto.
    - intros q b text Hs. destruct (Hsh _ _ _ Hs) as (p & -> & _). exists p. split; auto. intros s Hf. exists b, text. auto.
    - apply only_nil.
  Qed.

  Lemma file_exact p s : sched_at (SNode (l_sched L)) p = Some s <-> in_file p s.
  Proof using All.
    destruct file_schedules as [A B]. split.
    - apply only_at. exact A.
    - intros (b & text & H & pw & Q1 & ->). destruct (B _ _ _ H) as (s & r & (pw' & S1 & ->) & S2 & _). congruence.
  Qed.

  Lemma file_shallow : shallow (l_sched L).
  Proof using All. intros p s H. apply file_exact in H. apply in_file_good in H. exact H. Qed.

  Lemma file_initial p s : sched_at (SNode (l_sched L)) p = Some s ->
    exists r, initial_value E s = Ok r /\ field_at (l_value L) p = Some r.
  Proof using All.
    intros H. assert (Hf := H). apply file_exact in Hf as (b & text & Hin & _).
    destruct file_schedules as [_ B]. destruct (B _ _ _ Hin) as (s' & r & _ & S2 & S3 & S4). exists r. split; congruence.
  Qed.

  Lemma file_named : named "" (SNode (l_sched L)).
  Proof using All.
    destruct file_schedules as [[N1 N2] _]. split; [exact N1|]. apply all_Forall, Forall_forall. intros [k tr] Hin.
    assert (Hk := in_nodup_aget k tr _ N1 Hin). apply N2 in Hk. destruct tr as [s|l2].
    - destruct Hk as (b & text & _ & pw & _ & ->). reflexivity.
    - destruct Hk as (M1 & _ & M3). split; [exact M1|]. apply all_Forall, Forall_forall. intros [k2 tr2] Hin2.
      assert (Hk2 := in_nodup_aget k2 tr2 l2 M1 Hin2). apply M3 in Hk2 as (s & -> & b & text & _ & pw & _ & ->). reflexivity.
  Qed.

  Lemma leaf_of_file k ft w b text s r : sched_in E allow ft w (Some []) b text -> schedule_for E [k] b text s ->
    initial_value E s = Ok r -> leaf_fits E k s ft.
  Proof.
    intros H (pw & P1 & ->) Hr. destruct (sched_in_nil _ _ _ _ _ _ _ H eq_refl) as (_ & H2 & H3).
    split; [exact H2|]. split; [reflexivity|]. split; [exact H3|]. split; [exact P1|]. eauto.
  Qed.

  Lemma file_fits : fits E "" (SNode (l_sched L)) t (l_value L).
  Proof using All.
    destruct (load_means _ _ _ _ _ _ _ Hord Hl Hx HL) as [D _].
    destruct file_schedules as [[N1 N2] _]. rewrite fits_node. intros k tr Hin.
    assert (Hk := in_nodup_aget k tr _ N1 Hin). assert (Hk' := Hk). apply N2 in Hk. destruct tr as [s|l2].
    - destruct Hk as (b & text & Hs & Hf).
      destruct (sched_in_field _ _ _ _ bl _ _ _ _ _ Hs k [] ig _ eq_refl Hp D) as (c' & d & fs' & ft & fd & y & w & R1 & R2 & R3 & R4 & R5 & _).
      exists c', d, fs', ft, fd, y. split; [exact R1|]. split; [exact R2|]. split; [exact R3|]. split; [exact R4|].
      destruct (file_initial [k] s) as (r & I1 & _); [cbn [sched_at]; now rewrite Hk'|]. eapply leaf_of_file; eauto.
    - destruct Hk as (M1 & (k3 & s3 & b3 & text3 & Hs3 & _) & M3).
      destruct (sched_in_field _ _ _ _ bl _ _ _ _ _ Hs3 k [k3] ig _ eq_refl Hp D) as (c' & d & fs' & ft & fd & y & w & R1 & R2 & R3 & R4 & R5 & R6 & R7).
      exists c', d, fs', ft, fd, y. split; [exact R1|]. split; [exact R2|]. split; [exact R3|]. split; [exact R4|].
      rewrite fits_node. intros k2 tr2 Hin2. assert (Hk2 := in_nodup_aget k2 tr2 l2 M1 Hin2). assert (Hk2' := Hk2).
      apply M3 in Hk2 as (s & -> & b & text & Hs & Hf).
      destruct (sched_in_field _ _ _ _ bl _ _ _ _ _ Hs k [k2] ig _ eq_refl Hp D) as (c1 & d1 & fs1 & ft1 & fd1 & y1 & w1 & Q1 & Q2 & Q3 & Q4 & Q5 & Q6 & Q7).
      rewrite R1 in Q1. injection Q1 as <- <-. rewrite R2 in Q2. injection Q2 as <-. rewrite R3 in Q3. injection Q3 as <- <-.
      rewrite R4 in Q4. injection Q4 as <-.
      destruct (sched_in_field _ _ _ _ bl _ _ _ _ _ Q5 k2 [] false _ eq_refl Q7 Q6) as (c2 & d2 & fs2 & ft2 & fd2 & y2 & w2 & Z1 & Z2 & Z3 & Z4 & Z5 & _).
      exists c2, d2, fs2, ft2, fd2, y2. split; [exact Z1|]. split; [exact Z2|]. split; [exact Z3|]. split; [exact Z4|].
      destruct (file_initial [k; k2] s) as (r & I1 & _); [cbn [sched_at]; rewrite Hk'; cbn [sched_at]; now rewrite Hk2'|].
      eapply leaf_of_file; eauto. 
  Qed.
End File.
