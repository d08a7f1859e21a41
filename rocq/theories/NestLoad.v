(** NestLoad.v -- the proposed rules repair files of configs with sub-configs (C29). *)
From Verif Require Import Base Value Schema Rewrite Sched Types Asdict FromDict Checker Induct AFacts SpecTypes SpecLoad SpecSubtype
  SpecRenames SpecCheck SpecCompat SpecFix SpecNest RoundTrip SchemaFacts RenameFacts FindFacts CheckFacts SubtypeFacts UpgradeFacts CompatFacts FromDictFacts LoadProps FixFacts
  NestFacts NestRules.

(** ** Sections and slots *)
Lemma section_closed hs : closed (is_section hs).
Proof.
  split; [reflexivity|]. intros p. revert hs. induction p as [|k p IH]; intros hs q H; [reflexivity|]. unfold is_section in *. cbn [app] in H. rewrite section_cons in H |- *.
  destruct (aget k hs) as [[t d]|]; [|discriminate H]. destruct t; try discriminate H. now apply (IH _ q).
Qed.

Lemma slot_ext p : forall A B, (forall q, A q = B q) -> slot A p -> slot B p.
Proof.
  induction p as [|k p IH]; intros A B H Sl; [destruct Sl|]. destruct p as [|k2 p]; [cbn [slot] in *; now rewrite <- H|].
  apply slot_cons in Sl. apply slot_cons. rewrite <- H. split; [apply Sl|]. apply (IH (under A k)); [intros q; apply H|apply Sl].
Qed.
Lemma inv_ext A B d : (forall q, A q = B q) -> Inv A d -> Inv B d.
Proof. intros H I p Q. apply I. now rewrite H. Qed.

Lemma slot_app Sec p k : closed Sec -> Sec p = true -> Sec (p ++ [k])%list = false -> slot Sec (p ++ [k]).
Proof.
  revert Sec. induction p as [|j p IH]; intros Sec C Hp Hk; [exact Hk|]. cbn [app] in *.
  assert (Hj : Sec [j] = true) by (destruct C as [_ C]; exact (C [j] p Hp)).
  destruct (p ++ [k])%list as [|k2 r] eqn:Q; [destruct p; discriminate|]. apply slot_cons. split; [exact Hj|]. apply IH; [now apply closed_under|exact Hp|exact Hk].
Qed.

Lemma leaf_slot q : forall hs x, leaf hs q = Some x -> slot (is_section hs) q.
Proof.
  induction q as [|n q IH]; intros hs x L; [discriminate L|].
  destruct (leaf_case _ _ _ _ L) as [(c & ts & d & G & L')|(-> & G & D)].
  - destruct q as [|n2 q]; [discriminate L'|]. apply slot_cons. split; [unfold is_section; rewrite section_cons, G; reflexivity|].
    eapply slot_ext; [|eapply IH; eauto]. intros p. unfold under, is_section. now rewrite section_cons, G.
  - cbn [slot]. unfold is_section. rewrite section_cons, G. destruct x as [t d]. destruct t; try reflexivity. discriminate D.
Qed.

Lemma section_app hs p k : section hs (p ++ [k]) = match section hs p with Some ks => section ks [k] | None => None end.
Proof.
  revert hs. induction p as [|j p IH]; intros hs; [reflexivity|]. cbn [app]. rewrite !section_cons. destruct (aget j hs) as [[t d]|]; [|reflexivity]. destruct t; try reflexivity. apply IH.
Qed.
Lemma leaf_app hs p k : leaf hs (p ++ [k]) = match section hs p with Some ks => leaf ks [k] | None => None end.
Proof.
  revert hs. induction p as [|j p IH]; intros hs; [reflexivity|]. cbn [app]. rewrite section_cons, leaf_cons. destruct (aget j hs) as [[t d]|]; [|reflexivity].
  destruct t; try apply IH; (destruct p; reflexivity).
Qed.
Lemma value_app d p k : value_at d (p ++ [k]) = match value_at d p with Some w => value_at w [k] | None => None end.
Proof.
  revert d. induction p as [|j p IH]; intros d; [reflexivity|]. cbn [app value_at]. destruct d; try reflexivity. destruct (aget j _); [apply IH|reflexivity].
Qed.

Lemma floatable_at p : forall v w, floatable v -> value_at v p = Some w -> floatable w.
Proof.
  induction p as [|k p IH]; intros v w H G; [injection G as <-; exact H|]. cbn [value_at] in G. destruct v; try discriminate G.
  destruct (aget k d) as [x|] eqn:Gx; [|discriminate G]. apply (IH x); auto. exact (floatable_items (VDict d) d eq_refl H k x (aget_some_in _ _ _ Gx)).
Qed.
Lemma unmarked_at p : forall v w, unmarked v -> value_at v p = Some w -> unmarked w.
Proof.
  induction p as [|k p IH]; intros v w H G; [injection G as <-; exact H|]. cbn [value_at] in G. destruct v; try discriminate G.
  destruct (aget k d) as [x|] eqn:Gx; [|discriminate G]. apply (IH x); auto. exact (unmarked_items (VDict d) d eq_refl H k x (aget_some_in _ _ _ Gx)).
Qed.
Lemma filev_at p : forall v w, filev v = true -> value_at v p = Some w -> filev w = true.
Proof.
  induction p as [|k p IH]; intros v w H G; [injection G as <-; exact H|]. cbn [value_at] in G. destruct v; try discriminate G.
  destruct (aget k d) as [x|] eqn:Gx; [|discriminate G]. apply (IH x); auto. cbn [filev] in H. apply andb_true_iff in H. destruct H as [_ H]. rewrite forallb_forall in H.
  apply (H (k, x)). now apply aget_some_in.
Qed.

Lemma plain_leaf q : forall c hs x, plain_fields (TData c hs) -> leaf hs q = Some x -> ~ In WEAK_REF q.
Proof.
  induction q as [|n q IH]; intros c hs x [P1 P2] L; [discriminate L|]. rewrite all_in in P2.
  assert (Hn : forall y, aget n hs = Some y -> n <> WEAK_REF).
  { intros y G ->. apply P1. apply aget_some_in in G. apply in_map_iff. now exists (WEAK_REF, y). }
  destruct (leaf_case _ _ _ _ L) as [(c' & ts & d & G & L')|(-> & G & D)]; intros [Q|Q]; try (eapply Hn; eauto; fail); [|destruct Q].
  pose proof (P2 _ (aget_some_in _ _ _ G)) as P. cbn [fst snd] in P. eapply IH; eauto.
Qed.

(** ** What a nested file says, leaf by leaf *)
Section Leaves.
  Variable E : env.
  Variable allow ff : bool.
  Definition read_at (t : ty) (fd : dflt) (ow : option pyval) (v : pyval) : Prop :=
    match ow with
    | None => default_field t fd (VDict []) v
    | Some w => if is_weak w then default_field t fd w v else denotes E false allow ff false t w v
    end.

  Definition all_known (hs : list (string * (ty * dflt))) (d : pyval) : Prop :=
    forall q ks m, section hs q = Some ks -> value_at d q = Some (VDict m) -> known ks m.

  Lemma inv_weak Sec m k : Inv Sec (VDict m) -> Sec [k] = true -> exists mk, aget k m = Some (VDict mk) /\ is_weak (VDict mk) = false.
  Proof.
    intros I H. destruct (I [k] H) as (mk & Q & _ & W). cbn [value_at] in Q. destruct (aget k m) as [v|]; [|discriminate Q]. injection Q as ->. exists mk. auto.
  Qed.

  Lemma inv_section hs m n c ts d mk : Inv (is_section hs) (VDict m) -> aget n hs = Some (TData c ts, d) -> aget n m = Some (VDict mk) -> Inv (is_section ts) (VDict mk).
  Proof.
    intros I G Gm p Hp. destruct (I (n :: p)) as (m' & Q & R); [unfold is_section in *; now rewrite section_cons, G|]. cbn [value_at] in Q. rewrite Gm in Q. eauto.
  Qed.

  (** the entry of a sub-config *)
  Lemma section_entry hs m o n c ts d : Inv (is_section hs) (VDict m) -> all (fun f : string * (ty * dflt) => unversioned (fst (snd f))) hs ->
    all2 false (given E false allow ff m) hs o -> aget n hs = Some (TData c ts, d) ->
    exists mk o', aget n m = Some (VDict mk) /\ Inv (is_section ts) (VDict mk) /\ all (fun f : string * (ty * dflt) => unversioned (fst (snd f))) ts /\
      known ts mk /\ all2 false (given E false allow ff mk) ts o' /\ In (n, VObj (c_name c) o') o.
  Proof.
    intros I U A G. destruct (inv_weak _ _ n I) as (mk & Gm & W); [unfold is_section; now rewrite section_cons, G|].
    destruct (all2_in _ _ _ _ A (aget_some_in _ _ _ G)) as ([k v] & Iv & Qn & D). cbn [fst snd] in *. subst k. rewrite Gm, W in D.
    rewrite all_in in U. pose proof (U _ (aget_some_in _ _ _ G)) as [Uc Uf]. cbn [fst snd] in *.
    cbn [denotes] in D. destruct D as (y & items & o' & Ey & Ei & Ev & Kn & A'). cbn [deser_versioned] in Ey. rewrite Uc in Ey. injection Ey as <-. injection Ei as <-.
    exists mk, o'. subst v. split; [exact Gm|]. split; [eapply inv_section; eauto|]. split; [exact Uf|]. split; [exact Kn|]. split; [exact A'|exact Iv].
  Qed.

  Lemma split_leaf q : forall hs m o t d, Inv (is_section hs) (VDict m) -> all (fun f : string * (ty * dflt) => unversioned (fst (snd f))) hs ->
    all2 false (given E false allow ff m) hs o -> leaf hs q = Some (t, d) -> exists v, read_at t d (value_at (VDict m) q) v.
  Proof.
    induction q as [|n q IH]; intros hs m o t d I U A L; [discriminate L|].
    destruct (leaf_case _ _ _ _ L) as [(c & ts & d' & G & L')|(-> & G & D)].
    - destruct (section_entry _ _ _ _ _ _ _ I U A G) as (mk & o' & Gm & Ik & Uk & _ & Ak & _). cbn [value_at]. rewrite Gm. eapply IH; eauto.
    - destruct (all2_in _ _ _ _ A (aget_some_in _ _ _ G)) as ([k v] & _ & _ & Dv). cbn [fst snd] in *. exists v. unfold read_at. cbn [value_at]. destruct (aget n m); exact Dv.
  Qed.

  Lemma split_known q : forall hs m o ks mq, Inv (is_section hs) (VDict m) -> all (fun f : string * (ty * dflt) => unversioned (fst (snd f))) hs ->
    known hs m -> all2 false (given E false allow ff m) hs o -> section hs q = Some ks -> value_at (VDict m) q = Some (VDict mq) -> known ks mq.
  Proof.
    induction q as [|n q IH]; intros hs m o ks mq I U Kn A Sc V.
    - injection Sc as <-. injection V as <-. exact Kn.
    - rewrite section_cons in Sc. destruct (aget n hs) as [[t d]|] eqn:G; [|discriminate Sc]. destruct t as [| | | | | | | | | |c ts| | | ]; try discriminate Sc.
      destruct (section_entry _ _ _ _ _ _ _ I U A G) as (mk & o' & Gm & Ik & Uk & Kk & Ak & _). cbn [value_at] in V. rewrite Gm in V. eapply IH; eauto.
  Qed.

  Lemma build t : match t with TData c hs => forall m, names_differ t -> Inv (is_section hs) (VDict m) -> all (fun f : string * (ty * dflt) => unversioned (fst (snd f))) hs ->
      (forall q u d, leaf hs q = Some (u, d) -> exists v, read_at u d (value_at (VDict m) q) v) -> all_known hs (VDict m) ->
      known hs m /\ exists o, all2 false (given E false allow ff m) hs o
    | _ => True end.
  Proof.
    induction t as [| | | | |j IH|us IH|ku vu IHk IHv|j IH|us IH|c hs IH|n' ms'|l'|n'] using ty_ind'; try exact Logic.I.
    intros m Nd I U Lf Kn. rewrite Forall_forall in IH. destruct Nd as [N1 N2]. rewrite all_in in N2, U. split; [exact (Kn [] hs m eq_refl eq_refl)|].
    apply all2_build. intros [n [u fd]] J. pose proof (in_nodup_aget n (u, fd) hs N1 J) as G.
    destruct (is_dataclass_ty u) eqn:Du.
    - destruct (is_data _ Du) as (cu & us & ->). destruct (inv_weak _ _ n I) as (mk & Gm & W); [unfold is_section; now rewrite section_cons, G|].
      pose proof (U _ J) as [Uc Uf]. pose proof (IH _ J) as IHu. cbn [fst snd] in *.
      destruct (IHu mk (N2 _ J)) as (Kk & o & A); [eapply inv_section; eauto|exact Uf| | |].
      + intros q t d L. specialize (Lf (n :: q) t d). rewrite leaf_cons, G in Lf. cbn [value_at] in Lf. rewrite Gm in Lf. now apply Lf.
      + intros q ks m' Sc V. apply (Kn (n :: q) ks m'); [now rewrite section_cons, G|]. cbn [value_at]. now rewrite Gm.
      + exists (n, VObj (c_name cu) o). split; [reflexivity|]. cbn [snd]. rewrite Gm, W. cbn [denotes]. exists (VDict mk), mk, o.
        cbn [deser_versioned]. rewrite Uc. auto.
    - destruct (Lf [n] u fd) as [v V]; [now apply leaf_one|]. exists (n, v). split; [reflexivity|]. cbn [snd]. unfold read_at in V. cbn [value_at] in V. destruct (aget n m); exact V.
  Qed.
End Leaves.

(** ** The flat file *)
Definition flat_items (hs : list (string * (ty * dflt))) (d : pyval) : list (string * pyval) :=
  flat_map (fun kv : string * (ty * dflt) => match value_at d (dec (fst kv)) with Some v => [(fst kv, v)] | None => [] end) (flatf [] hs).

Lemma flat_items_get hs d k : aget k (flat_items hs d) = match aget k (flatf [] hs) with Some _ => value_at d (dec k) | None => None end.
Proof.
  unfold flat_items. induction (flatf [] hs) as [|[j x] l IH]; [reflexivity|]. cbn [flat_map aget fst]. destruct (String.eqb_spec k j) as [->|H].
  - destruct (value_at d (dec j)) as [v|] eqn:V; cbn [app aget]; [now rewrite String.eqb_refl|]. rewrite IH. destruct (aget j l); congruence.
  - destruct (value_at d (dec j)); cbn [app aget]; [rewrite eqb_neq_str by assumption|]; exact IH.
Qed.
Lemma flat_items_in hs d k v : In (k, v) (flat_items hs d) -> In k (field_names (flatf [] hs)) /\ value_at d (dec k) = Some v.
Proof.
  intros I. apply in_flat_map in I. destruct I as ([j x] & J & I). cbn [fst] in I. destruct (value_at d (dec j)) eqn:V; [|destruct I]. destruct I as [I|[]]. injection I as <- <-.
  split; [apply in_map_iff; now exists (j, x)|exact V].
Qed.
Lemma flat_items_nodup c hs d : names_differ (TData c hs) -> NoDup (akeys (flat_items hs d)).
Proof.
  intros N. pose proof (flatf_nodup hs [] N) as H. unfold flat_items, field_names in *. induction (flatf [] hs) as [|[j x] l IH]; [constructor|]. cbn [map flat_map fst] in *.
  inversion H as [|? ? H1 H2]; subst. destruct (value_at d (dec j)); cbn [app]; [|now apply IH]. cbn [akeys map fst]. constructor; [|now apply IH].
  intros I. apply H1. apply in_map_iff in I. destruct I as ([k v] & Q & I). cbn [fst] in Q. subst k. apply in_flat_map in I. destruct I as ([i y] & J & I). cbn [fst] in I.
  destruct (value_at d (dec i)); [|destruct I]. destruct I as [I|[]]. injection I as -> _. apply in_map_iff. now exists (j, y).
Qed.

(** a field that only the new class has is not in an old file *)
Lemma fresh_absent q : forall fs gs c m x, same_sections fs gs -> loadable (TData c gs) -> unmarked (VDict m) -> all_known fs (VDict m) ->
  leaf gs q = Some x -> leaf fs q = None -> value_at (VDict m) q = None.
Proof.
  induction q as [|n q IH]; intros fs gs c m x Ss Lo Um Kn Lg Lf; [discriminate Lg|]. pose proof (same_one fs gs n Ss) as So.
  destruct Lo as (_ & Nn & _ & Lo). rewrite all_in in Lo. cbn [value_at].
  destruct (aget n m) as [v|] eqn:Gm; [|reflexivity].
  destruct (leaf_case _ _ _ _ Lg) as [(c' & us & d' & Eg & Lg')|(-> & Eg & Dg)]; rewrite Eg in So.
  - destruct (aget n fs) as [[t0 d0]|] eqn:Ef; [|discriminate So]. cbn [is_dataclass_ty] in So. destruct (is_data _ So) as (ct & ts & ->). rewrite leaf_cons, Ef in Lf.
    destruct q as [|n2 q]; [discriminate Lg'|]. destruct v; try reflexivity.
    apply (IH ts us c' d x); auto.
    + eapply same_sections_in; eauto.
    + exact (Lo _ (aget_some_in _ _ _ Eg)).
    + exact (unmarked_items (VDict m) m eq_refl Um n _ (aget_some_in _ _ _ Gm)).
    + intros q' ks m' Sc V. apply (Kn (n :: q') ks m'); [now rewrite section_cons, Ef|]. cbn [value_at]. now rewrite Gm.
  - exfalso. assert (Ef : aget n fs = None).
    { destruct x as [u fd]. cbn [fst] in Dg. destruct (aget n fs) as [[t0 d0]|] eqn:Ef; [|reflexivity]. rewrite Dg in So. rewrite (leaf_one _ _ _ _ Ef So) in Lf. discriminate. }
    pose proof (aget_some_in _ _ _ Gm) as Im. destruct (Kn [] fs m eq_refl eq_refl n v Im) as [H|[H|[H|H]]]; [| | |discriminate H].
    + subst n. apply Nn. apply aget_some_in in Eg. apply in_map_iff. now exists ("!__name__", x).
    + rewrite (unmarked_weak v) in H; [discriminate H|]. exact (unmarked_items (VDict m) m eq_refl Um n v Im).
    + apply in_map_iff in H. destruct H as ([k p] & Q & H). cbn [fst] in Q. subst k. revert Ef. clear -H. induction fs as [|[a b] fs IH]; [destruct H|]. cbn [aget].
      destruct (String.eqb_spec n a) as [->|Hne]; [discriminate|]. destruct H as [H|H]; [congruence|auto].
Qed.
