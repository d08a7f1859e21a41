(** FirstFacts.v -- a manager that is started with overrides, some of which are schedules. *)
From Coq Require Import Permutation.
From Verif Require Import Base AFacts Value Schema Rewrite Sched Types Asdict FromDict Manager Ckpt Lazy Session
  Induct SpecTree SpecTypes RewriteFacts FromDictFacts RoundTrip SpecState ResumeFacts SchedTree ResumeProps
  SpecLoad LoadFacts LoadSound LoadProps SpecOverride OverrideSim OverrideFacts OverrideLoad UpgradeFacts
  SpecPlaced PlacedFacts SpecAgain AgainFacts SpecSession SpecFirst.
From Verif Require SessionFacts.

Lemma prefix_split p : forall q, prefix_of p q -> exists r, q = (p ++ r)%list.
Proof.
  induction p as [|k p IH]; intros q H; [now exists q|]. destruct q as [|j q]; [contradiction|]. destruct H as [-> H].
  destruct (IH q H) as [r ->]. now exists r.
Qed.

Lemma sched_in_strip E allow t x q b text : x <> VNone -> (sched_in E allow t x q b text <-> sched_in E allow (strip_opt t) x q b text).
Proof.
  intros Hx. induction t; try reflexivity. cbn [strip_opt]. rewrite <- IHt. split; [|now constructor]. intros H. now inversion H.
Qed.

(** the schedules of a file at, below and above a field that no upgrade rule concerns *)
Lemma sched_keeps E sch allow ff p : forall ig t x v w ft,
  loadable t -> ~ In WEAK_REF p -> denotes E sch allow ff ig t x v -> UpgradeFacts.keeps x p w -> type_at t p = Some ft -> SpecOverride.untouched t p ->
  (forall r b text, sched_in E allow t x (Some (p ++ r)%list) b text <-> sched_in E allow ft w (Some r) b text) /\
  (forall q b text, sched_in E allow t x (Some q) b text -> prefix_of q p -> q = p).
Proof.
  induction p as [|k p IH]; intros ig t x v w ft Hl Hp Hd Hk Ht Hu.
  { cbn in Hk, Ht. subst. injection Ht as <-. split; [reflexivity|]. intros q b text _ Hq. destruct q; [reflexivity|contradiction]. }
  assert (exists d, x = VDict d) as [d ->] by (destruct Hk as (m & _ & -> & _); eauto).
  apply denotes_strip in Hd; [|discriminate]. apply loadable_strip in Hl.
  assert (Hst := fun q b text => sched_in_strip E allow t (VDict d) q b text ltac:(discriminate)).
  cbn [type_at SpecOverride.untouched] in *. destruct (strip_opt t) as [| | | | | | | | | |c fs| | |]; try discriminate.
  destruct (aget k fs) as [[ft0 fd]|] eqn:Ef; [|discriminate]. destruct Hu as [Hu1 Hu2].
  destruct (field_of_object _ _ _ _ _ _ _ _ _ _ _ _ (proj1 Hl) Ef Hd) as (y & items & o & u & H1 & H2 & -> & H3 & H4).
  assert (Hy : UpgradeFacts.keeps y (k :: p) w).
  { cbn [deser_versioned] in H1. destruct (c_versioned c) as [[cur rules]|]; [|injection H1 as <-; auto].
    destruct (Hu1 _ _ eq_refl) as [Hv Hr].
    assert (Hk' : UpgradeFacts.keeps (VDict (adel "version" d)) (k :: p) w).
    { destruct Hk as (m & c0 & [= <-] & Hc & Hk). exists (adel "version" d), c0. split; auto. split; auto. now rewrite aget_adel_other by auto. }
    assert (Hmiss : (if allow then Ok (VDict (adel "version" d)) else Err ValueError) = Ok y -> UpgradeFacts.keeps y (k :: p) w).
    { destruct allow; [intros [= <-]; auto|discriminate]. }
    destruct (aget "version" d) as [ver|]; auto.
    assert (HU : apply_upgrades cur rules (VDict (adel "version" d)) ver = Ok y -> UpgradeFacts.keeps y (k :: p) w).
    { intros HU. eapply upgrades_frame; eauto. }
    destruct ver; auto. }
  destruct Hy as (m & c0 & -> & Hc & Hw & Hk'). cbn [items_of] in H2. injection H2 as <-. rewrite Hc, Hw in H4.
  assert (Hin : forall q b text, sched_in E allow (TData c fs) (VDict d) (Some (k :: q)) b text <-> sched_in E allow ft0 c0 (Some q) b text).
  { intros q b text. split.
    - intros H. inversion H as [| | |? ? ? y' d' n' ft' fd' w' q' ? ? X1 X2 X3 X4 X5 X6| | | |]; subst. destruct q' as [q'|]; [|discriminate].
      match goal with X : option_map _ _ = Some _ |- _ => injection X as -> -> end.
      rewrite H1 in X1. injection X1 as <-. cbn in X2. injection X2 as <-. rewrite Ef in X3. injection X3 as <- <-. rewrite Hc in X4. injection X4 as <-. exact X6.
    - intros H. apply (sc_field E allow c fs (VDict d) (VDict m) m k ft0 fd c0 (Some q) b text); auto. }
  destruct (IH false ft0 c0 u w ft) as [I1 I2]; auto; [eapply loadable_field; eauto|intros Hx; apply Hp; now right|]. split.
  - intros r b text. rewrite Hst. cbn [app]. rewrite Hin. apply I1.
  - intros q b text H Hq. destruct q as [|j q].
    + destruct (sched_in_nil _ _ _ _ _ _ _ H eq_refl) as [X _]. discriminate X.
    + assert (j = k /\ prefix_of q p) as [-> Hq'] by exact Hq.
      rewrite Hst, Hin in H. now rewrite (I2 q b text H Hq').
Qed.

Lemma scalar_sched E allow ft w q b text : scalar_field ft -> sched_in E allow ft w q b text -> q = Some [].
Proof.
  unfold scalar_field. intros Hs H. induction H; cbn [strip_opt] in *; try contradiction; auto.
Qed.

Lemma scalar_cases E allow ff ig ft w u : scalar_field ft -> denotes E true allow ff ig ft w u ->
  (exists b text, sched_in E allow ft w (Some []) b text) \/
  ((forall q b text, ~ sched_in E allow ft w q b text) /\ denotes E false allow ff ig ft w u).
Proof.
  unfold scalar_field. induction ft; cbn [strip_opt]; intros Hs H; try contradiction;
    try (right; split; [intros ? ? ? X; inversion X|exact H]).
  - cbn [denotes] in *. destruct w; try (right; split; [intros ? ? ? X; inversion X|exact H]).
    cbn [int_denotes] in *. destruct (has_char "@" s) eqn:Ea; [left; exists true, s; now constructor|right; split; [|exact H]].
    intros q b text X. inversion X; subst. congruence.
  - cbn [denotes] in *. destruct w; try (right; split; [intros ? ? ? X; inversion X|exact H]).
    cbn [float_denotes] in *. destruct (has_char "@" s) eqn:Ea; [left; exists false, s; now constructor|right; split; [|exact H]].
    intros q b text X. inversion X; subst. congruence.
  - destruct H as [[-> ->]|[Hn H]].
    + right. split; [|left; auto]. intros q b text X. inversion X; subst. congruence.
    + destruct (IHft Hs H) as [(b & text & X)|[X Y]]; [left; exists b, text; now constructor|right; split; [|right; auto]].
      intros q b text Z. inversion Z; subst. eapply X; eauto.
Qed.

Lemma load_obeys_sched E c fs d dir ovs ig L : order_ok E -> ron_file E -> loadable (TData c fs) -> field_idents (TData c fs) ->
  persistable E false (TData c fs) ->
  filev (VDict d) = true -> markerless (VDict d) = true -> (forall o, In o ovs -> ~ bad_bool (TData c fs) o) ->
  apart ovs -> (forall o p text, In o ovs -> names o p text -> SpecOverride.untouched (TData c fs) p /\ forall ft, type_at (TData c fs) p = Some ft -> scalar_field ft) ->
  (forall x', written E (TData c fs) ovs (VDict d) x' -> shallow_file E true (TData c fs) x') ->
  typed_load E (TData c fs) (VDict d) dir (Some ovs) true ig = Ok L ->
  obeys_all E (TData c fs) (l_value L) (l_sched L) ovs /\ named "" (SNode (l_sched L)).
Proof.
  intros HE Hr Hl Hi Hpe Hf Hm Hb Ha Hu Hsh H.
  destruct (load_written E (TData c fs) d dir ovs true ig L eq_refl Hb H) as (x' & W & HL).
  assert (Hfx := written_filev _ _ _ _ _ Hr Hf W). assert (Hs := Hsh x' W).
  assert (FE := file_exact E true dir false ig c fs x' L HE Hl Hpe Hfx HL Hs).
  assert (FS := proj2 (file_schedules E true dir false ig c fs x' L HE Hl Hpe Hfx HL Hs)).
  split; [|exact (file_named E true dir false ig c fs x' L HE Hl Hpe Hfx HL Hs)].
  apply obeys_all_intro. intros l1 o l2 ->.
  assert (Ho : In o (l1 ++ o :: l2)%list) by (apply in_or_app; right; now left).
  assert (N : exists p text ft val, names o p text /\ type_at (TData c fs) p = Some ft /\ text_value E ft text val).
  { clear -W. revert W. generalize (VDict d). induction l1 as [|o1 l1 IH]; intros x W;
      apply written_inv in W as (p & text & ft & val & y & G1 & G2 & G3 & G4 & G5); eauto 8. }
  destruct N as (p & text & ft & val0 & N & T & V0). destruct (overridden_dec o p text l2 N) as [Ag|Na]; [right|left]; (split; [|assumption]).
  { exists p, text, ft, val0. auto. }
  assert (Hl2 : forall o' q s, In o' l2 -> names o' q s -> unrelated q p).
  { intros o' q s Hin Hq. apply unrelated_sym. destruct (Ha l1 o l2 o' p q text s eq_refl Hin N Hq) as [X| <-]; [exact X|].
    exfalso. apply Na. exists o', p, text, s. auto. }
  destruct (written_lookup _ _ _ _ _ _ _ _ _ _ W N T Hl2) as (val & V & Lk).
  assert (St := written_strong _ _ _ _ _ p Hr Hi Hm W).
  assert (Kp : UpgradeFacts.keeps x' p val) by (now apply keeps_iff).
  destruct (Hu o p text Ho N) as [Hun Hsc]. specialize (Hsc ft T).
  assert (Hw := persistable_idents _ _ _ _ _ Hpe T).
  destruct (load_means _ _ _ _ _ _ _ HE Hl Hfx HL) as [HD _].
  destruct (denotes_keeps E true true (is_some dir) p ig (TData c fs) x' (l_value L) val ft Hl (proj1 N) Hw HD Kp T Hun) as (u & U & Du).
  destruct (sched_keeps E true true (is_some dir) p ig (TData c fs) x' (l_value L) val ft Hl Hw HD Kp T Hun) as [S1 S2].
  exists p, text, ft, val, u. split; [exact N|]. split; [exact T|]. split; [exact V|]. split; [exact U|].
  destruct (scalar_cases _ _ _ _ _ _ _ Hsc Du) as [(b & txt & X)|[X Y]].
  - left. destruct (sched_in_nil _ _ _ _ _ _ _ X eq_refl) as (-> & _). apply S1 in X. rewrite app_nil_r in X.
    destruct (FS p b txt X) as (s & r & (pw & _ & ->) & X2 & _). eexists. split; [exact X2|reflexivity].
  - right. split; [|eapply denotes_from_file; eauto]. intros q s Hq. apply FE in Hq as (b & txt & Hq & _). split.
    + intros Hpq. destruct (prefix_split p q Hpq) as [r ->]. apply S1 in Hq. eapply X; eauto.
    + intros Hpq. rewrite (S2 q b txt Hq Hpq) in Hq. rewrite <- (app_nil_r p) in Hq. apply S1 in Hq. eapply X; eauto.
Qed.

Lemma start_obeys_sched E S c fs data ovs m : order_ok E -> ron_file E -> s_config S = TData c fs -> loadable (TData c fs) ->
  field_idents (TData c fs) -> persistable E false (TData c fs) -> s_overrides S = Some ovs -> apart ovs ->
  (forall o p text, In o ovs -> names o p text -> SpecOverride.untouched (TData c fs) p /\ forall ft, type_at (TData c fs) p = Some ft -> scalar_field ft) ->
  (forall o, In o ovs -> ~ bad_bool (TData c fs) o) ->
  (forall x', written E (TData c fs) ovs (VDict data) x' -> shallow_file E true (TData c fs) x') ->
  filev (VDict data) = true -> markerless (VDict data) = true ->
  (s_init S = INone /\ data = []) \/ (exists dir, s_init S = IFile (VDict data) dir) ->
  manager_start E S [] = Ok m -> obeys_all E (TData c fs) (m_config m) (m_sched m) ovs.
Proof.
  intros HE Hr Sc Hl Hi Hpe So Ha Hu Hb Hsh Hf Hm Hs H. apply SessionFacts.start_cases in H. cbv zeta in H. rewrite So, Sc in H.
  destruct Hs as [[Si ->]|[dir Si]]; rewrite Si in H; destruct H as (l & st & H1 & _ & _ & -> & H3);
    (eapply load_obeys_sched in H1; eauto); destruct H1 as [H1 H2]; revert H1; apply obeys_all_impl; intros o; eapply SessionFacts.obeys_applied; eauto.
Qed.
