(** OverrideFacts.v -- facts about overrides (C09 - C13). *)
From Coq Require Import Permutation.
From Verif Require Import Base AFacts Value Schema Rewrite Sched Types Asdict FromDict
  Induct SpecTree SpecTypes RewriteFacts FromDictFacts RoundTrip ElideFacts ElideLoad
  DefaultFacts SpecLoad LoadFacts LoadSound OrderFacts OverrideSim SetOrder LoadProps SpecOverride.

(** ** text of overrides *)
Lemma has_char_app c a b : has_char c (a ++ b) = has_char c a || has_char c b.
Proof. induction a as [|x a IH]; simpl; auto. rewrite IH. now rewrite Bool.orb_assoc. Qed.

Lemma split_first_spec c s x y : split_first c s = Some (x, y) <-> has_char c x = false /\ s = x ++ String c y.
Proof.
  revert x y. induction s as [|a s IH]; intros x y; simpl.
  - split; [discriminate|]. intros [_ H]. destruct x; discriminate.
  - destruct (Ascii.eqb_spec a c) as [->|Ha].
    + split; [intros [= <- <-]; auto|]. intros [H1 H2]. destruct x as [|b x]; simpl in *; [injection H2 as <-; auto|].
      injection H2 as <- _. rewrite Ascii.eqb_refl in H1. discriminate.
    + destruct (split_first c s) as [[u w]|] eqn:E.
      * split.
        -- intros [= <- <-]. simpl. destruct (IH u w) as [I1 _]. destruct (I1 eq_refl) as [I2 ->].
           rewrite I2. apply Ascii.eqb_neq in Ha. rewrite Ha. auto.
        -- intros [H1 H2]. destruct x as [|b x]; simpl in *; [injection H2 as H2 _; congruence|].
           injection H2 as <- H2. apply Bool.orb_false_iff in H1 as [_ H1]. destruct (IH x y) as [_ I2].
           specialize (I2 (conj H1 H2)). injection I2 as <- <-. reflexivity.
      * split; [discriminate|]. intros [H1 H2]. destruct x as [|b x]; simpl in *; [injection H2 as H2 _; congruence|].
        injection H2 as <- H2. apply Bool.orb_false_iff in H1 as [_ H1]. destruct (IH x y) as [_ I2].
        specialize (I2 (conj H1 H2)). discriminate.
Qed.

Lemma split_first_none c s : split_first c s = None <-> has_char c s = false.
Proof.
  induction s as [|a s IH]; simpl; [tauto|]. destruct (Ascii.eqb a c); simpl; [split; discriminate|].
  destruct (split_first c s) as [[? ?]|]; [|tauto]. split; [discriminate|]. intros H. apply IH in H. discriminate.
Qed.

Lemma split_on_nonempty c s : split_on c s <> [].
Proof. destruct s; simpl; [discriminate|]. destruct (Ascii.eqb a c); [discriminate|]. destruct (split_on c s); discriminate. Qed.

Lemma split_on_spec c s : join (String c "") (split_on c s) = s /\ Forall (fun w => has_char c w = false) (split_on c s).
Proof.
  induction s as [|a s [IH1 IH2]]; simpl; [split; auto|].
  destruct (Ascii.eqb_spec a c) as [->|Ha].
  - split; [|constructor; auto]. simpl. destruct (split_on c s) eqn:E; [now destruct (split_on_nonempty c s)|]. simpl in *. now rewrite IH1.
  - destruct (split_on c s) as [|w ws] eqn:E; [now destruct (split_on_nonempty c s)|].
    inversion IH2 as [|? ? H1 H2]; subst. split.
    + destruct ws; simpl in *; congruence.
    + constructor; auto. simpl. apply Ascii.eqb_neq in Ha. now rewrite Ha.
Qed.

Lemma split_on_app c x s : has_char c x = false -> split_on c (x ++ String c s) = x :: split_on c s.
Proof.
  induction x as [|a x IH]; intros H; simpl in *; [now rewrite Ascii.eqb_refl|].
  apply Bool.orb_false_iff in H as [H1 H2]. rewrite H1, IH by auto. reflexivity.
Qed.

Lemma split_on_plain c x : has_char c x = false -> split_on c x = [x].
Proof.
  induction x as [|a x IH]; intros H; simpl in *; auto. apply Bool.orb_false_iff in H as [H1 H2]. now rewrite H1, IH.
Qed.

Lemma split_on_join p : p <> [] -> forallb segment p = true -> split_on "." (join "." p) = p.
Proof.
  induction p as [|k p IH]; [easy|]. intros _ H. cbn [forallb] in H. apply andb_true_iff in H as [H1 H2].
  unfold segment in H1. apply andb_true_iff in H1 as [H1 _]. apply negb_true_iff in H1.
  destruct p as [|k2 p]; [now apply split_on_plain|].
  change (join "." (k :: k2 :: p)) with (k ++ String "." (join "." (k2 :: p))). rewrite split_on_app by auto.
  now rewrite IH.
Qed.

Lemma join_has_char c p : has_char c (join "." p) = true -> Ascii.eqb c "." = true \/ exists k, In k p /\ has_char c k = true.
Proof.
  induction p as [|k p IH]; [discriminate|]. destruct p as [|k2 p].
  - simpl. intros H. right. exists k. auto.
  - change (join "." (k :: k2 :: p)) with (k ++ String "." (join "." (k2 :: p))). rewrite has_char_app.
    cbn [has_char]. intros H. apply orb_true_iff in H as [H|H]; [right; exists k; simpl; auto|].
    apply orb_true_iff in H as [H|H].
    + left. rewrite Ascii.eqb_sym. exact H.
    + destruct (IH H) as [G|(j & G1 & G2)]; auto. right. exists j. simpl in *; auto.
Qed.

Lemma names_split o p text : names o p text <->
  exists key, split_first "=" o = Some (key, text) /\ split_on "." key = p.
Proof.
  split.
  - intros (H1 & H2 & ->). exists (join "." p). split; [|now apply split_on_join].
    apply split_first_spec. split; auto. destruct (has_char "=" (join "." p)) eqn:E; auto.
    apply join_has_char in E as [E|(k & E1 & E2)]; [discriminate|]. rewrite forallb_forall in H2. specialize (H2 k E1).
    unfold segment in H2. rewrite E2 in H2. simpl in H2. rewrite andb_false_r in H2. discriminate.
  - intros (key & H & <-). apply split_first_spec in H as [H ->]. destruct (split_on_spec "." key) as [H1 H2].
    split; [apply split_on_nonempty|]. split; [|now rewrite H1]. apply forallb_forall. intros k Hk.
    rewrite Forall_forall in H2. unfold segment. rewrite (H2 k Hk). simpl. apply negb_true_iff.
    destruct (has_char "=" k) eqn:E; auto. exfalso. assert (has_char "=" key = true); [|congruence]. rewrite <- H1.
    clear -Hk E. induction (split_on "." key) as [|j l IH]; [easy|]. destruct l as [|j2 l].
    + destruct Hk as [->|[]]. exact E.
    + change (join "." (j :: j2 :: l)) with (j ++ String "." (join "." (j2 :: l))). rewrite has_char_app. cbn [has_char].
      destruct Hk as [->|Hk]; [now rewrite E|]. rewrite (IH Hk). now rewrite !orb_true_r.
Qed.

Lemma names_fun o p text p' text' : names o p text -> names o p' text' -> p' = p /\ text' = text.
Proof.
  intros H1 H2. apply names_split in H1 as (k1 & A1 & <-). apply names_split in H2 as (k2 & A2 & <-).
  rewrite A1 in A2. injection A2 as -> ->. auto.
Qed.

(** ** the schema and the type *)
Lemma strip_schema t s : materialize_type t = Ok s -> materialize_type (strip_opt t) = Ok (strip_option s).
Proof.
  revert s. induction t; intros s H; cbn [strip_opt]; try (rewrite H; cbn [materialize_type] in H;
    try (apply rbind_ok in H as [? [_ H]]); try (apply rbind_ok in H as [? [_ H]]); try discriminate; injection H as <-; reflexivity).
  cbn [materialize_type] in H. apply rbind_ok in H as [s' [H1 H]]. injection H as <-. cbn [strip_option]. auto.
Qed.

Lemma schema_fields c fs s : materialize_type (TData c fs) = Ok s -> exists fields v,
  s = SStruct (c_name c) fields v /\ forall k,
    match aget k fs with
    | None => aget k fields = None
    | Some (ft, _) => exists st m, aget k fields = Some (st, m) /\ materialize_type ft = Ok st
    end.
Proof.
  cbn [materialize_type]. intros H. apply rbind_ok in H as [fields [H1 H]]. injection H as <-. exists fields. eexists. split; [reflexivity|].
  clear -H1. revert fields H1. induction fs as [|[n [t d]] fs IH]; intros fields H k.
  - cbn in H. injection H as <-. reflexivity.
  - cbn [rmap] in H. apply rbind_ok in H as [y [Hy H]]. apply rbind_ok in H as [ys [Hys H]]. injection H as <-.
    apply rbind_ok in Hy as [st [Hst Hy]]. injection Hy as <-. cbn [aget]. destruct (String.eqb k n).
    + eauto.
    + apply (IH ys Hys).
Qed.

Lemma find_field_cons fields k k2 p : find_field fields (k :: k2 :: p) =
  match aget k fields with
  | None => None
  | Some (t, _) => match strip_option t with SStruct _ fs _ => find_field fs (k2 :: p) | _ => None end
  end.
Proof. reflexivity. Qed.

Lemma find_field_type p : forall c fs fields v, p <> [] ->
  materialize_type (TData c fs) = Ok (SStruct (c_name c) fields v) ->
  match type_at (TData c fs) p with
  | None => find_field fields p = None
  | Some ft => exists st m, find_field fields p = Some (st, m) /\ materialize_type ft = Ok st
  end.
Proof.
  induction p as [|k p IH]; [easy|]. intros c fs fields v _ H.
  destruct (schema_fields _ _ _ H) as (fields' & v' & E & Hk). injection E as <- <-. specialize (Hk k).
  cbn [type_at strip_opt]. destruct (aget k fs) as [[ft fd]|].
  - destruct Hk as (st & m & Hk1 & Hk2). destruct p as [|k2 p].
    + exists st, m. split; [exact Hk1|exact Hk2].
    + rewrite find_field_cons. unfold sfield in *. rewrite Hk1. apply strip_schema in Hk2.
      destruct (strip_opt ft) eqn:Es; cbn [type_at]; rewrite Es.
      all: try (cbn in Hk2; repeat (apply rbind_ok in Hk2 as [? [_ Hk2]]); try discriminate; injection Hk2 as <-; reflexivity).
      destruct (schema_fields _ _ _ Hk2) as (fields2 & v2 & E2 & _). rewrite E2 in *.
      specialize (IH c0 fields0 fields2 v2). cbn [type_at strip_opt] in IH. apply IH; auto. discriminate.
  - destruct p as [|k2 p]; [exact Hk|]. rewrite find_field_cons. unfold sfield in *. now rewrite Hk.
Qed.

(** ** override values *)
Lemma bool_of_text_iff s b : bool_of_text s = Some b <-> bool_text s b.
Proof.
  unfold bool_of_text, bool_text. split.
  - intros H.
    repeat match type of H with
    | context [String.eqb s ?k] => destruct (String.eqb_spec s k); [subst s; simpl in H; injection H as <-; simpl; tauto|]; cbn [orb] in H
    end. discriminate.
  - destruct b; simpl; intros H; repeat (destruct H as [<-|H]; [reflexivity|]); destruct H.
Qed.

Lemma override_value_iff E ft st text prev val :
  materialize_type ft = Ok st -> (ft = TBool -> exists b, bool_text text b) ->
  (override_value E st text prev = Ok val <-> text_value E ft text val).
Proof.
  intros Hm Hb. destruct ft; cbn [materialize_type] in Hm;
    try (apply rbind_ok in Hm as [? [_ Hm]]); try (apply rbind_ok in Hm as [? [_ Hm]]); try discriminate; injection Hm as <-;
    cbn [override_value text_value]; try tauto.
  - split; [intros [= <-]; auto|intros ->; auto].
  - destruct (Hb eq_refl) as [b Hb']. assert (E1 := Hb'). apply bool_of_text_iff in E1. rewrite E1. split.
    + intros [= <-]. eauto.
    + intros (b' & H1 & ->). apply bool_of_text_iff in H1. congruence.
Qed.

Lemma override_value_rejected E st text : materialize_type TBool = Ok st -> (forall b, ~ bool_text text b) ->
  forall prev, override_value E st text prev = match prev with Some v => Ok v | None => Err UnboundLocalError end.
Proof.
  intros H Hb prev. injection H as <-. cbn [override_value]. destruct (bool_of_text text) eqn:Eb; auto.
  apply bool_of_text_iff in Eb. exfalso. eapply Hb; eauto.
Qed.

(** ** writing *)
Lemma write_dict d k r v : write (VDict d) (k :: r) v =
  match write (match aget k d with Some c => c | None => VNone end) r v with
  | Some c => Some (VDict (aset k c d)) | None => None end.
Proof. reflexivity. Qed.

Lemma write_none k r v : write VNone (k :: r) v = match write VNone r v with Some c => Some (VDict [(k, c)]) | None => None end.
Proof. reflexivity. Qed.

Lemma write_fresh p v : exists c, write VNone p v = Some c /\ (p <> [] -> write (VDict []) p v = Some c).
Proof.
  induction p as [|k p (c & IH1 & IH2)].
  - exists v. split; [reflexivity|easy].
  - rewrite write_none, IH1. eexists. split; [reflexivity|]. intros _. rewrite write_dict. cbn [aget]. rewrite IH1. reflexivity.
Qed.

Lemma set_override_cons d k k2 r v :
  set_override d (k :: k2 :: r) v =
  (let* present := py_in k d in
   let* fresh := if present then let* c := py_getitem d k in Ok (is_none c) else Ok true in
   let* d1 := if fresh then py_setitem d k (VDict []) else Ok d in
   let* c := py_getitem d1 k in
   let* c' := set_override c (k2 :: r) v in
   py_setitem d1 k c').
Proof. reflexivity. Qed.

Lemma set_override_nondict c k r v : (forall m, c <> VDict m) -> exists e, set_override c (k :: r) v = Err e.
Proof.
  intros Hc. destruct r as [|k2 r].
  - cbn [set_override]. destruct c; cbn [py_setitem]; eauto. now destruct (Hc d).
  - rewrite set_override_cons. destruct (py_in k c) as [b|]; cbn [rbind]; [|eauto]. destruct b.
    + destruct c; cbn [py_getitem rbind]; eauto. now destruct (Hc d).
    + cbn [rbind]. destruct c; cbn [py_setitem rbind]; eauto. now destruct (Hc d).
Qed.

Lemma set_override_write p v : forall d, p <> [] ->
  match set_override (VDict d) p v with
  | Ok y => write (VDict d) p v = Some y
  | Err _ => write (VDict d) p v = None
  end.
Proof.
  induction p as [|k p IH]; [easy|]. intros d _. destruct p as [|k2 p]; [reflexivity|].
  rewrite set_override_cons, write_dict. cbn [py_in rbind]. unfold amem.
  assert (FR : forall d0, match set_override (VDict []) (k2 :: p) v with
       | Ok c' => exists c, write VNone (k2 :: p) v = Some c /\ aset k c' (aset k (VDict []) d0) = aset k c d0
       | Err _ => False end).
  { intros d0. specialize (IH [] (fun H => ltac:(discriminate H))). destruct (write_fresh (k2 :: p) v) as (c & W1 & W2).
    assert (W2' : write (VDict []) (k2 :: p) v = Some c) by (apply W2; discriminate).
    destruct (set_override (VDict []) (k2 :: p) v); [|congruence]. exists c. split; auto. rewrite aset_aset. congruence. }
  destruct (aget k d) as [c|] eqn:Ek; cbn [rbind py_getitem].
  - rewrite Ek. cbn [rbind]. destruct (is_none c) eqn:En; cbn [py_setitem rbind py_getitem].
    + rewrite aget_aset_same. cbn [rbind]. assert (c = VNone) as -> by (destruct c; easy).
      specialize (FR d). destruct (set_override (VDict []) (k2 :: p) v); [|easy]. destruct FR as (c & -> & <-). reflexivity.
    + rewrite Ek. cbn [rbind].
      destruct (match c with VDict _ => true | _ => false end) eqn:Ec.
      * destruct c as [| | | | | | |m| | | |]; try discriminate.
        specialize (IH m (fun H => ltac:(discriminate H))). destruct (set_override (VDict m) (k2 :: p) v); rewrite IH; reflexivity.
      * destruct (set_override_nondict c k2 p v) as [e ->]; [intros m ->; discriminate|]. cbn [rbind].
        destruct c; try discriminate; reflexivity.
  - cbn [py_setitem rbind py_getitem]. rewrite aget_aset_same. cbn [rbind].
    specialize (FR d). destruct (set_override (VDict []) (k2 :: p) v); [|easy]. destruct FR as (c & -> & <-). reflexivity.
Qed.

Lemma write_same p v : forall x y, write x p v = Some y -> lookup y p = Some v.
Proof.
  induction p as [|k p IH]; intros x y H; [injection H as <-; reflexivity|].
  destruct x; try discriminate.
  - rewrite write_none in H. destruct (write VNone p v) eqn:Ew; [|discriminate]. injection H as <-. cbn [lookup aget].
    rewrite String.eqb_refl. eauto.
  - rewrite write_dict in H. destruct (write _ p v) eqn:Ew; [|discriminate]. injection H as <-. rewrite lookup_aset_same. eauto.
Qed.

Lemma write_other p v : forall x y q, write x p v = Some y -> unrelated p q -> lookup y q = lookup x q.
Proof.
  induction p as [|k p IH]; intros x y q H Hu; [now apply unrelated_nil_l in Hu|].
  destruct q as [|j q]; [now apply unrelated_nil_r in Hu|]. destruct x; try discriminate.
  - rewrite write_none in H. destruct (write VNone p v) eqn:Ew; [|discriminate]. injection H as <-. cbn [lookup aget].
    destruct (String.eqb_spec j k) as [->|]; [|reflexivity]. apply unrelated_cons in Hu. rewrite (IH _ _ _ Ew Hu).
    destruct q; [now apply unrelated_nil_r in Hu|reflexivity].
  - rewrite write_dict in H. destruct (write _ p v) eqn:Ew; [|discriminate]. injection H as <-.
    destruct (String.eqb_spec j k) as [->|Hn].
    + apply unrelated_cons in Hu. rewrite lookup_aset_same, (IH _ _ _ Ew Hu). cbn [lookup]. destruct (aget k d); auto.
      destruct q; [now apply unrelated_nil_r in Hu|reflexivity].
    + apply lookup_aset_other. auto.
Qed.

Lemma written_inv E t o ovs x x' : written E t (o :: ovs) x x' -> exists p text ft val y,
  names o p text /\ type_at t p = Some ft /\ text_value E ft text val /\ write x p val = Some y /\ written E t ovs y x'.
Proof. inversion 1; subst. repeat eexists; eauto; apply H2. Qed.

(** ** the override loop writes *)
Section Loop.
  Variable E : env.
  Variable c : cinfo.
  Variable fs : list (string * (ty * dflt)).
  Let t := TData c fs.

  (** what is left of the list after dropping the unknown names *)
  Definition knownb (o : string) : bool :=
    match split_first "=" o with
    | Some (key, _) => match type_at t (split_on "." key) with Some _ => true | None => false end
    | None => false
    end.
  Definition keys_unknown (ovs : list string) : list string :=
    fold_right (fun o l => match split_first "=" o with
                           | Some (key, _) => if knownb o then l else key :: l
                           | None => l
                           end) [] ovs.

  Lemma loop_unknown fields v ovs : materialize_type t = Ok (SStruct (c_name c) fields v) ->
    Forall (fun o => has_char "=" o = true) ovs ->
    forall prev errs x,
    override_loop E fields ovs prev errs x =
    (let* r := override_loop E fields (filter knownb ovs) prev [] x in
     Ok ((errs ++ keys_unknown ovs)%list, snd r)).
  Proof.
    intros Hm Hw. induction Hw as [|o ovs Ho _ IH]; intros prev errs x.
    - cbn. now rewrite app_nil_r.
    - cbn [filter]. cbn [override_loop].
      destruct (split_first "=" o) as [[key text]|] eqn:Es; [|apply split_first_none in Es; congruence].
      assert (Hku : keys_unknown (o :: ovs) = if knownb o then keys_unknown ovs else key :: keys_unknown ovs).
      { unfold keys_unknown. cbn [fold_right]. rewrite Es. reflexivity. }
      rewrite Hku. clear Hku.
      assert (Hkb : knownb o = match type_at t (split_on "." key) with Some _ => true | None => false end) by (unfold knownb; now rewrite Es).
      rewrite Hkb. clear Hkb.
      assert (HT := find_field_type (split_on "." key) c fs fields v (split_on_nonempty _ _) Hm). fold t in HT.
      destruct (type_at t (split_on "." key)) as [ft|].
      + destruct HT as (st & m & HT & _). cbn [override_loop]. rewrite Es, HT.
        destruct (override_value E st text prev) as [val|e]; cbn [rbind]; auto.
        destruct (set_override x (split_on "." key) val) as [y|e]; cbn [rbind]; auto.
      + rewrite HT, IH. destruct (override_loop E fields (filter knownb ovs) prev [] x) as [r|e] eqn:Er; cbn [rbind]; auto.
        now rewrite <- app_assoc.
  Qed.

  Lemma loop_written fields v ovs : materialize_type t = Ok (SStruct (c_name c) fields v) ->
    (forall o, In o ovs -> ~ bad_bool t o) ->
    forall prev d y, Forall (known t) ovs ->
    (override_loop E fields ovs prev [] (VDict d) = Ok ([], y) <-> written E t ovs (VDict d) y).
  Proof.
    intros Hm Hb. induction ovs as [|o ovs IH]; intros prev d y Hk.
    - cbn. split; [intros [= <-]; constructor|]. inversion 1; auto.
    - inversion Hk as [|? ? Ho Hk']; subst. destruct Ho as (p & text & ft & Hn & Ht).
      assert (Hn' := Hn). apply names_split in Hn' as (key & Hs & <-).
      assert (HT := find_field_type (split_on "." key) c fs fields v (split_on_nonempty _ _) Hm). fold t in HT.
      rewrite Ht in HT. destruct HT as (st & m & HT & Hst).
      cbn [override_loop]. rewrite Hs, HT.
      assert (Hbool : ft = TBool -> exists b, bool_text text b).
      { intros ->. destruct (bool_of_text text) as [b|] eqn:Eb; [exists b; now apply bool_of_text_iff|].
        exfalso. apply (Hb o (or_introl eq_refl)). exists (split_on "." key), text. split; auto. split; auto.
        intros b Hx. apply bool_of_text_iff in Hx. congruence. }
      assert (HV := fun val => override_value_iff E ft st text prev val Hst Hbool).
      split.
      + intros H. apply rbind_ok in H as [val [H1 H]]. apply rbind_ok in H as [x1 [H2 H]].
        pose proof (set_override_write (split_on "." key) val d (split_on_nonempty _ _)) as HW. rewrite H2 in HW.
        assert (exists d1, x1 = VDict d1) as [d1 ->].
        { clear -HW. destruct (split_on "." key) eqn:Ep; [now apply split_on_nonempty in Ep|]. rewrite write_dict in HW.
          destruct (write _ l val); [|discriminate]. injection HW as <-. eauto. }
        apply IH in H; auto. 2: { intros o' Ho'. apply Hb. now right. }
        econstructor; eauto. now apply HV.
      + intros H. apply written_inv in H as (p' & text' & ft' & val & x1 & G1 & G2 & G3 & G4 & G5).
        destruct (names_fun _ _ _ _ _ Hn G1) as [-> ->]. rewrite Ht in G2. injection G2 as <-.
        apply HV in G3. rewrite G3. cbn [rbind].
        pose proof (set_override_write (split_on "." key) val d (split_on_nonempty _ _)) as HW.
        rewrite G4 in HW. destruct (set_override (VDict d) (split_on "." key) val) as [x1'|]; [|discriminate]. injection HW as <-.
        cbn [rbind].
        assert (exists d1, x1 = VDict d1) as [d1 ->].
        { clear -G4. destruct (split_on "." key) eqn:Ep; [now apply split_on_nonempty in Ep|]. rewrite write_dict in G4.
          destruct (write _ l val); [|discriminate]. injection G4 as <-. eauto. }
        apply IH; auto. intros o' Ho'. apply Hb. now right.
  Qed.

  Lemma knownb_iff o : knownb o = true <-> known t o.
  Proof.
    unfold knownb. split.
    - destruct (split_first "=" o) as [[key text]|] eqn:Es; [|discriminate].
      destruct (type_at t (split_on "." key)) as [ft|] eqn:Et; [|discriminate]. intros _.
      exists (split_on "." key), text, ft. split; auto. apply names_split. eauto.
    - intros (p & text & ft & Hn & Ht). apply names_split in Hn as (key & -> & <-). now rewrite Ht.
  Qed.

  Lemma no_unknown ovs : Forall (fun o => has_char "=" o = true) ovs -> (keys_unknown ovs = [] <-> Forall (known t) ovs).
  Proof.
    intros Hw. induction Hw as [|o ovs Ho _ IH]; [split; auto|]. cbn [keys_unknown fold_right].
    destruct (split_first "=" o) as [[key text]|] eqn:Es; [|apply split_first_none in Es; congruence].
    destruct (knownb o) eqn:Ek.
    - rewrite IH. split; [constructor; auto; now apply knownb_iff|now inversion 1].
    - split; [discriminate|]. inversion 1 as [|? ? H1 H2]; subst. apply knownb_iff in H1. congruence.
  Qed.

  Lemma loop_malformed fields : forall ovs prev errs x r,
    override_loop E fields ovs prev errs x = Ok r -> Forall (fun o => has_char "=" o = true) ovs.
  Proof.
    induction ovs as [|o ovs IH]; intros prev errs x r H; [constructor|]. cbn [override_loop] in H.
    destruct (split_first "=" o) as [[key text]|] eqn:Es; [|discriminate].
    constructor.
    - apply split_first_spec in Es as [_ ->]. rewrite has_char_app. simpl. apply orb_true_r.
    - destruct (find_field fields (split_on "." key)) as [[st m]|]; [|eauto].
      apply rbind_ok in H as [val [_ H]]. apply rbind_ok in H as [x1 [_ H]]. eauto.
  Qed.
End Loop.

Lemma overrides_ok_iff E t ovs d x' : is_dataclass_ty t = true -> (forall o, In o ovs -> ~ bad_bool t o) ->
  (exists s, materialize_type t = Ok s) ->
  (deser_overrides E ovs t (VDict d) = Ok x' <-> written E t ovs (VDict d) x').
Proof.
  intros Ht Hb [s Hm]. destruct t as [| | | | | | | | | |c fs| | |]; try discriminate.
  destruct (schema_fields _ _ _ Hm) as (fields & v & -> & _). unfold deser_overrides. rewrite Hm. cbn [rbind].
  assert (W : written E (TData c fs) ovs (VDict d) x' -> Forall (known (TData c fs)) ovs).
  { induction 1; constructor; auto. exists p, text, ft. auto. intros; apply IHwritten. intros o' Ho'; apply Hb; now right. }
  split.
  - intros H. apply rbind_ok in H as [[errs y] [H1 H]]. cbn [fst snd] in H.
    assert (Hw := loop_malformed _ _ _ _ _ _ _ H1).
    rewrite (loop_unknown E c fs fields v ovs Hm Hw) in H1. apply rbind_ok in H1 as [r [H2 H1]]. injection H1 as <- <-.
    cbn [app] in H. destruct (keys_unknown c fs ovs) as [|k [|k' ks]] eqn:Ek; try discriminate. injection H as <-.
    apply no_unknown in Ek; auto.
    assert (Hf : filter (knownb c fs) ovs = ovs).
    { clear -Ek. induction Ek as [|o l Ho _ IH]; simpl; auto. apply knownb_iff in Ho. rewrite Ho. now f_equal. }
    rewrite Hf in H2. apply (loop_written E c fs fields v ovs Hm Hb None); auto.
    destruct r as [e y]. cbn [snd]. rewrite H2. f_equal. f_equal.
    rewrite (loop_unknown E c fs fields v ovs Hm Hw) in H2. apply rbind_ok in H2 as [r' [_ H2]]. injection H2 as <- _.
    cbn [app]. now apply no_unknown.
  - intros H. assert (Hk := W H). apply (loop_written E c fs fields v ovs Hm Hb None d) in H; auto. rewrite H. reflexivity.
Qed.
