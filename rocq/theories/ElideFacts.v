(** ElideFacts.v -- what is written by dump (C15) and dumping with elided
    defaults (C03). *)
From Coq Require Import Permutation.
From Verif Require Import Base AFacts Value Schema Rewrite Sched Types Asdict FromDict
  Induct SpecTree SpecTypes RewriteFacts FromDictFacts RoundTrip.

(** ** combinators *)
Lemma smap_inv {A B St} (f : A -> St -> res (B * St)) (R : A -> B -> Prop) l : forall s r s',
  Forall (fun x => forall s y s', f x s = Ok (y, s') -> R x y) l ->
  smap f l s = Ok (r, s') -> all2 false R l r.
Proof.
  induction l as [|x l IH]; intros s r s' H Hs.
  - cbn in Hs. injection Hs as <- <-. exact I.
  - rewrite smap_cons in Hs. inversion H as [|? ? H1 H2]; subst.
    apply rbind_ok in Hs as [[y s1] [Hy Hs]]. cbn [fst snd] in Hs.
    apply rbind_ok in Hs as [[ys s2] [Hys Hs]]. cbn [fst snd] in Hs. injection Hs as <- <-.
    simpl. split; eauto.
Qed.

Lemma smapi_inv {A B St} (f : nat -> A -> St -> res (B * St)) (R : A -> B -> Prop) l : forall i s r s',
  Forall (fun x => forall i s y s', f i x s = Ok (y, s') -> R x y) l ->
  smapi f i l s = Ok (r, s') -> all2 false R l r.
Proof.
  induction l as [|x l IH]; intros i s r s' H Hs.
  - cbn in Hs. injection Hs as <- <-. exact I.
  - rewrite smapi_cons in Hs. inversion H as [|? ? H1 H2]; subst.
    apply rbind_ok in Hs as [[y s1] [Hy Hs]]. cbn [fst snd] in Hs.
    apply rbind_ok in Hs as [[ys s2] [Hys Hs]]. cbn [fst snd] in Hs. injection Hs as <- <-.
    simpl. split; eauto.
Qed.

(** ** elide is a filter *)
Definition default_in (fields : list (string * dflt)) (k : string) : option pyval :=
  match aget k fields with
  | Some (DValue x) | Some (DFactory x) => Some x
  | _ => None
  end.

Definition dropb (fields : list (string * dflt)) (kv : string * pyval) : bool :=
  match default_in fields (fst kv) with
  | Some x => py_eq (snd kv) x
  | None => false
  end.

Lemma adel_filter {A} k (l : list (string * A)) :
  NoDup (akeys l) -> adel k l = filter (fun kv => negb (String.eqb k (fst kv))) l.
Proof.
  induction l as [|[k' v] l IH]; simpl; intros H; auto. inversion H as [|? ? H1 H2]; subst.
  destruct (String.eqb k k') eqn:Ek; simpl.
  - apply String.eqb_eq in Ek as ->. clear -H1. induction l as [|[k v'] l IH]; simpl in *; auto.
    rewrite eqb_neq_str by (intros ->; tauto). simpl. f_equal. apply IH; tauto.
  - f_equal; auto.
Qed.

Lemma NoDup_filter_keys {A} (f : string * A -> bool) l : NoDup (akeys l) -> NoDup (akeys (filter f l)).
Proof.
  induction l as [|[k v] l IH]; simpl; intros H; auto. inversion H as [|? ? H1 H2]; subst.
  destruct (f (k, v)); simpl; auto. constructor; auto.
  intros Hin. apply H1. unfold akeys in *. apply in_map_iff in Hin as [x [<- Hx]].
  apply in_map. apply filter_In in Hx. tauto.
Qed.

Lemma filter_filter {A} (f g : A -> bool) l :
  filter f (filter g l) = filter (fun x => g x && f x) l.
Proof.
  induction l as [|x l IH]; simpl; auto. destruct (g x); simpl; auto. destruct (f x); simpl; congruence.
Qed.

Lemma filter_ext_in' {A} (f g : A -> bool) l : (forall x, In x l -> f x = g x) -> filter f l = filter g l.
Proof. apply filter_ext_in. Qed.

Lemma elide_filter fields : forall attrs r,
  NoDup (map fst fields) -> NoDup (akeys attrs) ->
  elide fields attrs = Ok r -> r = filter (fun kv => negb (dropb fields kv)) attrs.
Proof.
  induction fields as [|[n d] fields IH]; intros attrs r Hf Ha H.
  - cbn in H. injection H as <-. unfold dropb, default_in. simpl.
    induction attrs as [|x l IHl]; simpl in *; auto. f_equal. apply IHl. now inversion Ha.
  - inversion Hf as [|? ? H1 H2]; subst. cbn [elide] in H.
    assert (Hn : forall kv, fst kv <> n -> dropb ((n, d) :: fields) kv = dropb fields kv).
    { intros kv Hk. unfold dropb, default_in. simpl. rewrite (eqb_neq_str (fst kv) n) by exact Hk. reflexivity. }
    assert (Hn0 : default_in fields n = None).
    { unfold default_in. rewrite (aget_notin n fields); auto. }
    assert (KEY : forall x, match aget n attrs with
              | None => Err KeyError
              | Some a => elide fields (if py_eq a x then adel n attrs else attrs)
              end = Ok r -> (forall kv, fst kv = n -> dropb ((n, d) :: fields) kv = py_eq (snd kv) x) ->
              r = filter (fun kv => negb (dropb ((n, d) :: fields) kv)) attrs).
    { intros x HH Hd. destruct (aget n attrs) as [a|] eqn:Eg; [|discriminate].
      destruct (py_eq a x) eqn:Ee.
      - rewrite adel_filter in HH by auto. apply IH in HH; auto using NoDup_filter_keys.
        rewrite HH, filter_filter. apply filter_ext_in. intros kv Hin.
        destruct (String.eqb_spec n (fst kv)) as [En|En]; simpl.
        + rewrite Hd by auto. assert (Hkv : aget n attrs = Some (snd kv)).
          { apply in_nodup_aget; auto. rewrite En. destruct kv; auto. }
          rewrite Eg in Hkv. injection Hkv as ->. now rewrite Ee.
        + rewrite Hn by auto. reflexivity.
      - apply IH in HH; auto. rewrite HH. apply filter_ext_in. intros kv Hin.
        destruct (String.eqb_spec n (fst kv)) as [En|En].
        + rewrite Hd by auto. assert (Hkv : aget n attrs = Some (snd kv)).
          { apply in_nodup_aget; auto. rewrite En. destruct kv; auto. }
          rewrite Eg in Hkv. injection Hkv as ->. rewrite Ee. unfold dropb. rewrite <- En, Hn0. reflexivity.
        + rewrite Hn by auto. reflexivity. }
    destruct d as [|x|x].
    + apply IH in H; auto. rewrite H. apply filter_ext_in. intros kv Hin.
      destruct (String.eqb_spec n (fst kv)) as [En|En]; [|now rewrite Hn by auto].
      unfold dropb. rewrite <- En, Hn0. unfold default_in. simpl. rewrite String.eqb_refl. reflexivity.
    + apply (KEY x H). intros kv <-. unfold dropb, default_in. simpl. now rewrite String.eqb_refl.
    + apply (KEY x H). intros kv <-. unfold dropb, default_in. simpl. now rewrite String.eqb_refl.
Qed.

Lemma elide_ok fields : forall attrs,
  NoDup (map fst fields) -> NoDup (akeys attrs) ->
  (forall n, In n (map fst fields) -> In n (akeys attrs)) ->
  exists r, elide fields attrs = Ok r.
Proof.
  induction fields as [|[n d] fields IH]; intros attrs Hf Ha Hin; [eexists; reflexivity|].
  inversion Hf as [|? ? H1 H2]; subst. cbn [elide].
  assert (Hg : exists a, aget n attrs = Some a).
  { apply inkeys_aget. apply Hin. simpl; auto. }
  destruct Hg as [a Ha']. 
  assert (KEY : forall x, exists r, elide fields (if py_eq a x then adel n attrs else attrs) = Ok r).
  { intros x. destruct (py_eq a x).
    - apply IH; auto using nodup_adel. intros m Hm. rewrite adel_filter by auto.
      assert (m <> n) by (intros ->; auto).
      specialize (Hin m (or_intror Hm)). unfold akeys in *. apply in_map_iff in Hin as [kv [<- Hkv]].
      apply in_map. apply filter_In. split; auto. rewrite eqb_neq_str by auto. reflexivity.
    - apply IH; auto. intros m Hm. apply Hin. simpl; auto. }
  destruct d; [apply IH; auto; intros m Hm; apply Hin; simpl; auto| |]; rewrite Ha'; apply KEY.
Qed.

(** ** C15: what is written *)
Lemma all2_map_l {A B} (f : A -> B -> Prop) (g : A -> B -> Prop) l m :
  (forall x y, In x l -> f x y -> g x y) -> all2 false f l m -> all2 false g l m.
Proof.
  revert m. induction l as [|x l IH]; destruct m; simpl; intros H H0; auto.
  destruct H0. split; auto.
Qed.

Lemma all2_keys {A} (f : (string * pyval) -> (string * A) -> Prop) l m :
  (forall x y, f x y -> fst y = fst x) -> all2 false f l m -> akeys m = akeys l.
Proof.
  intros Hf. revert m. induction l as [|x l IH]; destruct m; simpl; intros H; try easy.
  destruct H. f_equal; auto.
Qed.

Lemma all2_sub2_filter {A B} (drop : A -> Prop) (f : A -> B -> Prop) (p : B -> bool) l m :
  all2 false f l m -> (forall x y, In x l -> f x y -> p y = false -> drop x) ->
  sub2 drop f l (filter p m).
Proof.
  revert m. induction l as [|x l IH]; destruct m as [|y m]; intros H Hd; try easy.
  destruct H as [H1 H2]. simpl. destruct (p y) eqn:Ep.
  - right. split; auto. apply IH; auto. intros; eapply Hd; eauto. right; auto.
  - left. split; [eapply Hd; eauto; left; auto|]. apply IH; auto. intros; eapply Hd; eauto. right; auto.
Qed.

Lemma all2_sub2 {A B} (drop : A -> Prop) (f : A -> B -> Prop) l m :
  all2 false f l m -> sub2 drop f l m.
Proof.
  revert m. induction l as [|x l IH]; destruct m; intros H; try easy. simpl. right. destruct H. split; auto.
Qed.

Definition dump_sers (lazy eliding : bool) : list serializer :=
  ((if lazy then [LazySer] else []) ++ [VersionedSer] ++ (if eliding then [ElideSer] else []))%list.

Definition may_drop (cls : string -> cmeta) (eliding : bool) (c k : string) (_ : pyval) : Prop :=
  eliding = true /\ exists x, default_for cls c k = Some x.

Lemma ser_all_dump lazy eliding v path b :
  (forall c p, v <> VBlob c p) -> ser_all (dump_sers lazy eliding) v None path b = Ok (None, b).
Proof. intros H. unfold dump_sers. destruct lazy, eliding, v; try reflexivity; exfalso; eapply H; eauto. Qed.

Section Written.
  Variable cls : string -> cmeta.
  Variables lazy eliding named : bool.
  Let ss := dump_sers lazy eliding.
  Let drop := may_drop cls eliding.

  Lemma ser_all_ss v path b :
    (forall c p, v <> VBlob c p) -> ser_all ss v None path b = Ok (None, b).
  Proof. apply ser_all_dump. Qed.

  Lemma modify_dump m attrs :
    modify_attrs ss m attrs =
    (let a := match cm_version m with Some z => insert_version z attrs | None => attrs end in
     if eliding then elide (cm_fields m) a else Ok a).
  Proof.
    unfold ss, dump_sers. destruct lazy, eliding; cbn [app modify_attrs rbind]; try reflexivity.
    - destruct (elide _ _); reflexivity.
    - destruct (elide _ _); reflexivity.
  Qed.

  Lemma written v : forall path b d b',
    instances_ok cls v ->
    asdict cls ss named v path b = Ok (d, b') -> dumped_as cls named drop v d.
  Proof.
    induction v as [|x|z|f|s|l IH|l IH|d0 IH|n d0 IH|n d0 IH|c m x IH|c x IH] using pyval_ind';
      intros path b d b' Hi H; cbn [asdict] in H.
    11: { rewrite ser_all_ss in H by discriminate. cbn in H. injection H as <- <-. reflexivity. }
    11: { unfold ss, dump_sers in H. destruct lazy, eliding; cbn in H; try discriminate; injection H as <- <-; reflexivity. }
    all: rewrite ser_all_ss in H by discriminate; cbn [rbind fst snd] in H.
    1-5: injection H as <- <-; reflexivity.
    - apply rbind_ok in H as [[l' s'] [H1 H2]]. cbn [fst snd] in H2. injection H2 as <- <-.
      exists l'. split; auto. eapply smapi_inv; [|exact H1].
      simpl in Hi. apply all_Forall in Hi. rewrite Forall_forall in *. intros x Hx i s y s1 Hy. eapply IH; eauto.
    - apply rbind_ok in H as [[l' s'] [H1 H2]]. cbn [fst snd] in H2. injection H2 as <- <-.
      exists l'. split; auto. eapply smapi_inv; [|exact H1].
      simpl in Hi. apply all_Forall in Hi. rewrite Forall_forall in *. intros x Hx i s y s1 Hy. eapply IH; eauto.
    - apply rbind_ok in H as [[l' s'] [H1 H2]]. cbn [fst snd] in H2. injection H2 as <- <-.
      exists l'. split; auto. eapply smap_inv; [|exact H1].
      simpl in Hi. apply all_Forall in Hi. rewrite Forall_forall in *. intros [k x] Hx s y s1 Hy. 
      apply rbind_ok in Hy as [[w s2] [Hw Hy]]. cbn [fst snd] in Hy. injection Hy as <- <-.
      split; auto. cbn [snd]. eapply (IH (k, x)); eauto; apply (Hi (k, x) Hx).
    - apply rbind_ok in H as [[l' s'] [H1 H2]]. cbn [fst snd] in H2. injection H2 as <- <-.
      exists l'. split; auto. eapply smapi_inv; [|exact H1].
      simpl in Hi. apply all_Forall in Hi. rewrite Forall_forall in *. intros [k x] Hx i s y s1 Hy.
      eapply (IH (k, x)); eauto; apply (Hi (k, x) Hx).
    - apply rbind_ok in H as [[l' s'] [H1 H2]]. cbn [fst snd] in H2.
      apply rbind_ok in H2 as [attrs [H2 H3]].
      simpl in Hi. destruct Hi as (Hk & Hnd & Hver & Hi). apply all_Forall in Hi.
      assert (HA : all2 false (fun kv kw => fst kw = fst kv /\ dumped_as cls named drop (snd kv) (snd kw)) d0 l').
      { eapply smap_inv; [|exact H1]. rewrite Forall_forall in *. intros [k x] Hx s y s1 Hy.
        apply rbind_ok in Hy as [[w s2] [Hw Hy]]. cbn [fst snd] in Hy. injection Hy as <- <-.
        split; auto. cbn [snd]. eapply (IH (k, x)); eauto; apply (Hi (k, x) Hx). }
      assert (Hkl : akeys l' = map fst d0).
      { eapply all2_keys; [|exact HA]. simpl; tauto. }
      rewrite modify_dump in H2.
      assert (Hd : d = (if named then VNt n attrs else VDict attrs)).
      { destruct named; [destruct (forallb nt_name_ok (akeys attrs)); try discriminate|]; injection H3 as <- <-; auto. }
      exists attrs. split; auto. cbn zeta.
      assert (HD : forall x y, In x d0 ->
                fst y = fst x /\ dumped_as cls named drop (snd x) (snd y) ->
                negb (dropb (cm_fields (cls n)) y) = false ->
                (eliding = true -> drop n (fst x) (snd x))).
      { intros x y Hx [Hf _] Hn He. apply negb_false_iff in Hn. unfold dropb in Hn.
        unfold drop, may_drop. split; auto. unfold default_for. unfold default_in in Hn. rewrite Hf in Hn.
        destruct (aget (fst x) (cm_fields (cls n))) as [[|x0|x0]|]; try discriminate; eauto. }
      destruct (cm_version (cls n)) as [ver|] eqn:Ev; cbn zeta in H2.
      + specialize (Hver eq_refl).
        rewrite insert_version_spec in H2 by (rewrite Hkl; auto).
        destruct eliding eqn:Ee.
        * assert (Hnv : ~ In "version" (map fst (cm_fields (cls n)))) by (rewrite <- Hk; exact Hver).
          apply elide_filter in H2; [|rewrite <- Hk; auto|simpl; constructor; rewrite Hkl; auto].
          cbn [filter] in H2. 
          assert (dropb (cm_fields (cls n)) ("version", VInt ver) = false) as Hvd.
          { unfold dropb, default_in. cbn [fst]. rewrite aget_notin by exact Hnv. reflexivity. }
          rewrite Hvd in H2. cbn [negb] in H2. eexists. split; [exact H2|].
          apply all2_sub2_filter; auto. intros; eapply HD; eauto.
        * injection H2 as <-. eexists. split; [reflexivity|]. apply all2_sub2; auto.
      + destruct eliding eqn:Ee.
        * apply elide_filter in H2; [|rewrite <- Hk; auto|rewrite Hkl; auto].
          rewrite H2. apply all2_sub2_filter; auto. intros; eapply HD; eauto.
        * injection H2 as <-. apply all2_sub2; auto.
  Qed.
End Written.

Lemma drop_mono cls named (P Q : string -> string -> pyval -> Prop) v :
  forall d, (forall c k x, P c k x -> Q c k x) -> dumped_as cls named P v d -> dumped_as cls named Q v d.
Proof.
  intros d HPQ. revert d.
  induction v as [|x|z|f|s|l IH|l IH|d0 IH|n d0 IH|n d0 IH|c m x IH|c x IH] using pyval_ind';
    intros d' H; simpl in *; auto.
  - destruct H as [m [-> H]]. exists m; split; auto. eapply all2_map_l; [|exact H]. rewrite Forall_forall in IH. auto.
  - destruct H as [m [-> H]]. exists m; split; auto. eapply all2_map_l; [|exact H]. rewrite Forall_forall in IH. auto.
  - destruct H as [m [-> H]]. exists m; split; auto. eapply all2_map_l; [|exact H]. rewrite Forall_forall in IH.
    intros x y Hx [H1 H2]. split; auto.
  - destruct H as [m [-> H]]. exists m; split; auto. eapply all2_map_l; [|exact H]. rewrite Forall_forall in IH. auto.
  - destruct H as [items [-> H]]. exists items. split; auto.
    assert (S : forall items,
      sub2 (fun kv => P n (fst kv) (snd kv)) (fun kv kw => fst kw = fst kv /\ dumped_as cls named P (snd kv) (snd kw)) d0 items ->
      sub2 (fun kv => Q n (fst kv) (snd kv)) (fun kv kw => fst kw = fst kv /\ dumped_as cls named Q (snd kv) (snd kw)) d0 items).
    { clear -HPQ IH. induction d0 as [|x d0 IHd]; intros items H; simpl in *; auto. inversion IH; subst.
      destruct H as [[H1 H2']|H]; [left; auto|right]. destruct items as [|y items]; [easy|].
      destruct H as [[? ?] ?]. auto. }
    destruct (cm_version (cls n)); auto. destruct H as [rest [-> H]]. eauto.
Qed.

Lemma dumps_written E v elided d :
  instances_ok (e_class E) v -> hs_dumps E v elided = Ok d ->
  dumped_as (e_class E) true (fun c k _ => elided = true /\ default_for (e_class E) c k <> None) v d.
Proof.
  intros Hi H. unfold hs_dumps in H. apply rbind_ok in H as [[d' b] [H1 H2]]. injection H2 as <-. cbn [fst].
  unfold typed_dump in H1. cbn [app] in H1.
  assert (H1' : asdict (e_class E) (dump_sers true elided) true v "" [] = Ok (d', b)) by exact H1.
  apply written in H1'; auto. eapply drop_mono; [|exact H1'].
  intros c k x [H3 [y H4]]. split; auto. congruence.
Qed.

Lemma config_dict_written cls v d :
  instances_ok cls v -> config_dict cls v = Ok d -> dumped_as cls false (fun _ _ _ => False) v d.
Proof.
  intros Hi H. unfold config_dict in H. apply rbind_ok in H as [[d' b] [H1 H2]]. injection H2 as <-. cbn [fst].
  assert (H1' : asdict cls (dump_sers false false) false v "" [] = Ok (d', b)) by exact H1.
  apply written in H1'; auto. eapply drop_mono; [|exact H1'].
  intros c k x [H3 _]. discriminate.
Qed.
