(** OverrideLoad.v -- overrides and the loaded object (C09, C10). *)
From Coq Require Import Permutation.
From Verif Require Import Base AFacts Value Schema Rewrite Sched Types Asdict FromDict
  Induct SpecTree SpecTypes RewriteFacts FromDictFacts RoundTrip ElideFacts ElideLoad
  DefaultFacts SpecLoad LoadFacts LoadSound OrderFacts OverrideSim SetOrder LoadProps SpecOverride OverrideFacts.

(** ** a path of the file and the same path of the object *)
Lemma denotes_strip E sch allow ff ig t x v : x <> VNone -> denotes E sch allow ff ig t x v ->
  denotes E sch allow ff ig (strip_opt t) x v.
Proof.
  intros Hx. induction t; intros H; try exact H. cbn [strip_opt]. apply IHt. destruct H as [[-> _]|[_ H]]; [congruence|auto].
Qed.

Lemma field_of_object E sch allow ff ig c fs x v k ft fd : NoDup (field_names fs) -> aget k fs = Some (ft, fd) ->
  denotes E sch allow ff ig (TData c fs) x v ->
  exists y items o u, deser_versioned (e_class E) allow (TData c fs) x = Ok y /\ items_of y = Some items /\
    v = VObj (c_name c) o /\ aget k o = Some u /\
    match aget k items with
    | None => default_field ft fd (VDict []) u
    | Some w => if is_weak w then default_field ft fd w u else denotes E sch allow ff false ft w u
    end.
Proof.
  intros Hnd Hk (y & items & o & H1 & H2 & -> & _ & H3). exists y, items, o.
  assert (Hko : map fst o = field_names fs).
  { clear -H3. revert o H3. induction fs as [|[n [t d]] fs IH]; intros [|[j v] o] H; try easy.
    destruct H as [[H1 _] H]. simpl in *. f_equal; auto. }
  apply aget_some_in in Hk. destruct (all2_in_l _ _ _ _ H3 Hk) as ([k' u] & Hin & Hk' & Hu). cbn [fst snd] in *. subst k'.
  exists u. repeat split; auto. apply in_nodup_aget; auto. unfold akeys. now rewrite Hko.
Qed.

Lemma loadable_strip t : loadable t -> loadable (strip_opt t).
Proof. induction t; intros H; auto. Qed.

Lemma loadable_field c fs k ft fd : loadable (TData c fs) -> aget k fs = Some (ft, fd) -> loadable ft.
Proof.
  intros (_ & _ & _ & H) Hk. apply aget_some_in in Hk. apply all_Forall in H. rewrite Forall_forall in H. apply (H _ Hk).
Qed.

Lemma settled_versioned cls allow c fs d y k : deser_versioned cls allow (TData c fs) (VDict d) = Ok y ->
  (c_versioned c = None \/
   exists d0 cur rules z, VDict d = VDict d0 /\ c_versioned c = Some (cur, rules) /\
     aget "version" d0 = Some (VInt z) /\ (cur <= z)%Z /\ k <> "version") ->
  exists items, items_of y = Some items /\ aget k items = aget k d.
Proof.
  intros H [Hc|(d0 & cur & rules & z & [= <-] & Hc & Hv & Hz & Hk)]; cbn [deser_versioned] in H; rewrite Hc in H.
  - injection H as <-. exists d. auto.
  - rewrite Hv in H. unfold apply_upgrades in H. destruct (forallb _ rules); [|discriminate]. cbn [as_int] in H.
    rewrite zrange_empty in H by auto. injection H as <-. eexists. split; [reflexivity|]. now apply aget_adel_other.
Qed.

Lemma lookup_split x k r w : lookup x (k :: r) = Some w -> exists d c, x = VDict d /\ aget k d = Some c /\ lookup c r = Some w.
Proof. cbn [lookup]. destruct x; try discriminate. destruct (aget k d) eqn:E; [|discriminate]. eauto. Qed.

(** no weak marker in the sections on the way, nor in the value itself *)
Fixpoint strong (x : pyval) (p : list string) : Prop :=
  match p with
  | [] => True
  | k :: r => match x with
              | VDict d => match aget k d with Some c => is_weak c = false /\ strong c r | None => True end
              | _ => True
              end
  end.

Lemma denotes_at E sch allow ff p : forall ig t x v w ft,
  loadable t -> p <> [] -> denotes E sch allow ff ig t x v -> lookup x p = Some w -> type_at t p = Some ft ->
  settled t x p -> strong x p ->
  exists u, obj_at v p = Some u /\ denotes E sch allow ff false ft w u.
Proof.
  induction p as [|k p IH]; [easy|]. intros ig t x v w ft Hl _ Hd Hw Ht Hs Hm.
  apply lookup_split in Hw as (d & c0 & -> & Hk & Hw). apply denotes_strip in Hd; [|discriminate]. apply loadable_strip in Hl.
  cbn [type_at settled strong lookup] in *. destruct (strip_opt t) as [| | | | | | | | | |c fs| | |]; try discriminate.
  destruct (aget k fs) as [[ft0 fd]|] eqn:Ef; [|discriminate]. rewrite Hk in *. destruct Hm as [Hm1 Hm2]. destruct Hs as [Hs1 Hs2].
  destruct (field_of_object _ _ _ _ _ _ _ _ _ _ _ _ (proj1 Hl) Ef Hd) as (y & items & o & u & H1 & H2 & -> & H3 & H4).
  destruct (settled_versioned _ _ _ _ _ _ k H1 Hs1) as (items' & H5 & H6). rewrite H2 in H5. injection H5 as <-.
  rewrite H6, Hk, Hm1 in H4. cbn [obj_at]. rewrite H3. destruct p as [|k2 p].
  - cbn in *. injection Hw as <-. injection Ht as <-. eauto.
  - apply (IH false ft0 c0 u w ft); auto; [eapply loadable_field; eauto|discriminate].
Qed.

(** ** markers *)
Lemma markerless_weak x : markerless x = true -> is_weak x = false.
Proof.
  destruct x; auto. cbn [markerless is_weak]. intros H. apply andb_true_iff in H as [H _]. apply negb_true_iff in H.
  unfold amem. destruct (aget WEAK_REF d) eqn:E; auto. apply aget_some_in in E. assert (existsb (fun kv : string * pyval => String.eqb (fst kv) WEAK_REF) d = true); [|congruence].
  apply existsb_exists. exists (WEAK_REF, p). split; auto.
Qed.

Lemma markerless_child d k c : markerless (VDict d) = true -> aget k d = Some c -> markerless c = true.
Proof.
  cbn [markerless]. intros H Hk. apply andb_true_iff in H as [_ H]. rewrite forallb_forall in H. apply aget_some_in in Hk. apply (H _ Hk).
Qed.

Lemma markerless_aset d k c : markerless (VDict d) = true -> k <> WEAK_REF -> markerless c = true -> markerless (VDict (aset k c d)) = true.
Proof.
  cbn [markerless]. intros H Hk Hc. apply andb_true_iff in H as [H1 H2]. apply andb_true_iff. split.
  - apply negb_true_iff in H1. apply negb_true_iff. clear H2. induction d as [|[j x] d IH]; simpl in *.
    + rewrite eqb_neq_str; auto.
    + apply orb_false_iff in H1 as [H0 H1]. destruct (String.eqb k j); simpl; rewrite ?(eqb_neq_str k WEAK_REF) by auto; rewrite ?H0; auto.
  - clear H1. induction d as [|[j x] d IH]; simpl in *; [now rewrite Hc|].
    apply andb_true_iff in H2 as [H0 H2]. destruct (String.eqb k j); simpl; rewrite ?Hc, ?H0; auto.
Qed.

Lemma markerless_write p v : forall x y, ~ In WEAK_REF p -> markerless x = true -> markerless v = true ->
  write x p v = Some y -> markerless y = true.
Proof.
  induction p as [|k p IH]; intros x y Hp Hx Hv H; [injection H as <-; auto|].
  destruct x; try discriminate.
  - rewrite write_none in H. destruct (write VNone p v) eqn:Ew; [|discriminate]. injection H as <-.
    apply (markerless_aset [] k p0); auto; [intros ->; apply Hp; simpl; auto|]. eapply IH; [|exact Hx|exact Hv|exact Ew]. simpl in Hp; tauto.
  - rewrite write_dict in H. destruct (write _ p v) eqn:Ew; [|discriminate]. injection H as <-.
    apply markerless_aset; auto; [intros ->; apply Hp; simpl; auto|]. eapply IH; [| |exact Hv|exact Ew].
    + simpl in Hp; tauto.
    + destruct (aget k d) eqn:Ek; [eapply markerless_child; eauto|reflexivity].
Qed.

Lemma text_markerless E ft text val : ron_file E -> text_value E ft text val -> markerless val = true.
Proof.
  intros HE H. destruct ft; cbn in H; try (apply HE in H; tauto).
  - subst. reflexivity.
  - destruct H as (b & _ & ->). reflexivity.
Qed.

Lemma markerless_written E t ovs x x' : ron_file E -> field_idents t -> written E t ovs x x' -> markerless x = true -> markerless x' = true.
Proof.
  intros HE Hf H. induction H as [|o ovs p text ft val x y x' H1 H2 H3 H4 H5 IH]; auto.
  intros Hx. apply IH. eapply markerless_write; [| |eapply text_markerless; eauto|exact H4]; auto. eapply Hf; eauto.
Qed.

Lemma markerless_strong p : forall x, markerless x = true -> strong x p.
Proof.
  induction p as [|k p IH]; intros x H; cbn [strong]; auto. destruct x; auto. destruct (aget k d) eqn:E; auto.
  assert (Hc := markerless_child _ _ _ H E). split; [now apply markerless_weak|auto].
Qed.

Lemma unversioned_settled p : forall t x, unversioned t p -> settled t x p.
Proof.
  induction p as [|k p IH]; intros t x H; cbn [settled unversioned] in *; auto.
  destruct (strip_opt t); auto. destruct H as [H1 H2]. split; auto. destruct (aget k fields) as [[ft fd]|]; auto.
  destruct (lookup x [k]); auto.
Qed.

(** ** C09 *)
Lemma written_lookup E t l1 o l2 x x' p text ft : written E t (l1 ++ o :: l2) x x' ->
  names o p text -> type_at t p = Some ft ->
  (forall o' q s, In o' l2 -> names o' q s -> unrelated q p) ->
  exists val, text_value E ft text val /\ lookup x' p = Some val.
Proof.
  intros H Hn Ht Hl. revert x H. induction l1 as [|o1 l1 IH]; intros x H.
  - apply written_inv in H as (p' & text' & ft' & val & y & G1 & G2 & G3 & G4 & G5).
    destruct (names_fun _ _ _ _ _ Hn G1) as [-> ->]. rewrite Ht in G2. injection G2 as <-. exists val. split; auto.
    apply write_same in G4. clear -G4 G5 Hl. induction G5 as [|o' ovs q s ft' val' x y x' H1 H2 H3 H4 H5 IH]; auto.
    apply IH. { intros o'' q' s' Ho'. apply (Hl o'' q' s'). now right. }
    rewrite (write_other _ _ _ _ p H4); auto. apply (Hl o' q s); auto. now left.
  - apply written_inv in H as (p' & text' & ft' & val & y & G1 & G2 & G3 & G4 & G5). eauto.
Qed.

Lemma written_filev E t ovs x x' : ron_file E -> filev x = true -> written E t ovs x x' -> filev x' = true.
Proof.
  intros HE Hx H. induction H as [|o ovs p text ft val x y x' H1 H2 H3 H4 H5 IH]; auto. apply IH. clear IH H5.
  assert (Hv : filev val = true).
  { destruct ft; cbn in H3; try (apply HE in H3; tauto). - subst; auto. - destruct H3 as (b & _ & ->); auto. }
  clear -Hx H4 Hv. revert x y Hx H4. induction p as [|k p IH]; intros x y Hx H; [injection H as <-; auto|].
  destruct x; try discriminate.
  - rewrite write_none in H. destruct (write VNone p val) eqn:Ew; [|discriminate]. injection H as <-.
    apply (filev_aset [] k p0); auto. eapply (IH VNone); eauto.
  - rewrite write_dict in H. destruct (write _ p val) eqn:Ew; [|discriminate]. injection H as <-.
    apply filev_aset; auto. eapply IH; [|exact Ew]. destruct (aget k d) eqn:Ek; [eapply filev_child; eauto|reflexivity].
Qed.

Lemma ron_file_filev E : ron_file E -> ron_filev E.
Proof. intros H s y Hy. now apply H in Hy. Qed.

Lemma load_written E t d dir ovs allow ig L : is_dataclass_ty t = true -> (forall o, In o ovs -> ~ bad_bool t o) ->
  typed_load E t (VDict d) dir (Some ovs) allow ig = Ok L ->
  exists x', written E t ovs (VDict d) x' /\ typed_load E t x' dir None allow ig = Ok L.
Proof.
  intros Ht Hb H. rewrite typed_load_overrides in H by auto. apply rbind_ok in H as [x' [H1 H2]].
  exists x'. split; auto.
  assert (Hm : exists s, materialize_type t = Ok s).
  { unfold deser_overrides in H1. apply rbind_ok in H1 as [s [H1 _]]. eauto. }
  now apply overrides_ok_iff in H1.
Qed.

(** ** C10: a file stands for at most one object *)
Lemma all2_fun {A B} (P Q : A -> B -> Prop) : forall l m1 m2,
  Forall (fun a => forall b1 b2, P a b1 -> Q a b2 -> b1 = b2) l ->
  all2 false P l m1 -> all2 false Q l m2 -> m1 = m2.
Proof.
  intros l. induction l as [|a l IH]; intros [|b1 m1] [|b2 m2] HF H1 H2; try easy.
  inversion HF; subst. destruct H1, H2. f_equal; auto.
Qed.

Lemma default_of_fun t : forall v w, default_of t v -> default_of t w -> v = w.
Proof.
  induction t as [| | | | |i IH|l IH|kt vt IHk IHv|i IH|l IH|c fs IH|n ms|l|n] using ty_ind'; intros v w Hv Hw; try easy.
  destruct Hv as (o1 & -> & H1). destruct Hw as (o2 & -> & H2). f_equal.
  eapply all2_fun; [|exact H1|exact H2]. clear H1 H2. induction IH as [|[n0 [ft fd]] fs Hf Hfs IHfs]; constructor; auto.
  intros [k1 u1] [k2 u2] [A1 A2] [B1 B2]. cbn in *. subst. f_equal. destruct fd; subst; auto.
Qed.

Lemma default_field_fun ft fd w1 w2 u1 u2 : default_field ft fd w1 u1 -> default_field ft fd w2 u2 -> u1 = u2.
Proof. destruct fd; cbn; intros H1 H2; subst; auto. destruct H1, H2. eapply default_of_fun; eauto. Qed.

Lemma Forall2_fun {A B} (P : A -> B -> Prop) : (forall a b1 b2, P a b1 -> P a b2 -> b1 = b2) ->
  forall l m1 m2, Forall2 P l m1 -> Forall2 P l m2 -> m1 = m2.
Proof. intros HP l m1 m2 H. revert m2. induction H; intros m2 G; inversion G; subst; f_equal; eauto. Qed.

Lemma float_is_fun f z1 z2 : Z_eq_float z1 f = true -> Z_eq_float z2 f = true -> z1 = z2.
Proof.
  unfold Z_eq_float. destruct f as [s|s| |s m e]; try discriminate; [rewrite !Z.eqb_eq; congruence|].
  destruct (0 <=? e)%Z eqn:He; rewrite !Z.eqb_eq; [congruence|]. apply Z.leb_gt in He.
  intros H1 H2. rewrite <- H2 in H1. apply Z.mul_cancel_r in H1; auto. apply Z.pow_nonzero; lia.
Qed.

Lemma scheduled_fun E b s v w : scheduled E b s v -> scheduled E b s w -> v = w.
Proof. intros (? & ? & H1 & H2 & H3) (? & ? & G1 & G2 & G3). congruence. Qed.

Lemma denotes_fun E sch allow ff t : forall ig1 ig2 x v w,
  denotes E sch allow ff ig1 t x v -> denotes E sch allow ff ig2 t x w -> v = w.
Proof.
  induction t as [| | | | |i IH|l IH|kt vt IHk IHv|i IH|l IH|c fs IH|n ms|l|n] using ty_ind'; intros ig1 ig2 x v w Hv Hw.
  - cbn in *. destruct x; try easy; cbn in *; try congruence.
    + destruct Hv as (z1 & A1 & ->), Hw as (z2 & B1 & ->). f_equal. eapply float_is_fun; eauto.
    + destruct (has_char "@" s).
      * destruct Hv, Hw. eapply scheduled_fun; eauto.
      * destruct Hv as (f1 & z1 & A1 & A2 & ->), Hw as (f2 & z2 & B1 & B2 & ->). f_equal. assert (f1 = f2) by congruence. subst. eapply float_is_fun; eauto.
  - cbn in *. destruct x; try easy; cbn in *; try congruence;
      try (destruct Hv as (z1 & A1 & ->), Hw as (z2 & B1 & ->); congruence).
    destruct (has_char "@" s).
    * destruct Hv, Hw. eapply scheduled_fun; eauto.
    * destruct Hv as (f1 & A1 & ->), Hw as (f2 & B1 & ->). congruence.
  - cbn in *. destruct (unit_text x); try easy. congruence.
  - cbn in *. destruct x; try easy. congruence.
  - destruct Hv, Hw. congruence.
  - destruct Hv as (l1 & m1 & -> & -> & H1), Hw as (l2 & m2 & [= <-] & -> & H2). f_equal. eapply Forall2_fun; [|exact H1|exact H2]. intros. eapply IH; eauto.
  - destruct Hv as (l1 & m1 & A & -> & H1), Hw as (l2 & m2 & B & -> & H2). f_equal. rewrite A in B. injection B as <-. clear A.
    revert l1 m1 m2 H1 H2. induction IH as [|a l Ha Hl IHl]; intros [|y l1] [|w1 m1] [|w2 m2] H1 H2; try easy.
    cbn in H1, H2. destruct H1, H2. f_equal; [eapply Ha; eauto|eapply IHl; eauto].
  - destruct Hv as (l1 & m1 & -> & -> & H1), Hw as (l2 & m2 & [= <-] & -> & H2). f_equal. eapply Forall2_fun; [|exact H1|exact H2].
    intros [] [] [] [A1 A2] [B1 B2]. cbn in *. subst. f_equal. eapply IHv; eauto.
  - destruct Hv as [[-> ->]|[Hx Hv]], Hw as [[? ->]|[Hx' Hw]]; try congruence. eapply IH; eauto.
  - apply denotes_union in Hv, Hw. destruct (coerce_scalar E (TUnion l) x) as [r|]; [congruence|].
    destruct Hv as (d1 & nm1 & -> & A & Hv), Hw as (d2 & nm2 & [= <-] & B & Hw). rewrite A in B. injection B as <-. clear A.
    induction IH as [|a l Ha Hl IHl]; [easy|]. cbn [union_den] in *. destruct (py_eq nm1 _); [eapply Ha; eauto|auto].
  - destruct Hv as (y1 & it1 & o1 & A1 & A2 & -> & _ & A3), Hw as (y2 & it2 & o2 & B1 & B2 & -> & _ & B3). f_equal.
    rewrite A1 in B1. injection B1 as <-. rewrite A2 in B2. injection B2 as <-. clear A1.
    eapply all2_fun; [|exact A3|exact B3]. clear A3 B3. induction IH as [|[n0 [ft fd]] fs Hf Hfs IHfs]; constructor; auto.
    intros [k1 u1] [k2 u2] [C1 C2] [D1 D2]. cbn [fst snd] in *. subst. f_equal. destruct (aget n0 it1) as [q|]; [destruct (is_weak q)|]; eauto using default_field_fun.
  - destruct Hv as (m1 & y1 & A & ->), Hw as (m2 & y2 & B & ->). congruence.
  - destruct Hv as (_ & -> & _), Hw as (_ & -> & _). auto.
  - destruct Hv as (_ & -> & _), Hw as (_ & -> & _). auto.
Qed.

(** ** C10: the file before and after, seen from a path [q] that is not overridden *)
(** the section was created by overrides, and does not give [q];
    [sh] are the paths that begin an overridden path *)
Fixpoint fresh (sh : list string -> Prop) (q : list string) (c : pyval) : Prop :=
  match q with
  | [] => False
  | j :: r => exists m, c = VDict m /\
                match aget j m with None => True | Some c' => sh [j] /\ fresh (fun s => sh (j :: s)) r c' end
  end.

Fixpoint rel (sh : list string -> Prop) (q : list string) (x y : pyval) : Prop :=
  x = y \/
  match q with
  | [] => False
  | k :: r =>
      exists d', y = VDict d' /\
      (x = VNone \/
       exists d, x = VDict d /\
         match aget k d, aget k d' with
         | Some c, Some c' => rel (fun s => sh (k :: s)) r c c'
         | None, Some c' => sh [k] /\ fresh (fun s => sh (k :: s)) r c'
         | None, None => True
         | Some _, None => False
         end)
  end.

Lemma rel_refl sh q x : rel sh q x x.
Proof. destruct q; cbn; auto. Qed.

Lemma prefix_shift (sh : list string -> Prop) k p : (forall s, prefix s (k :: p) -> sh s) ->
  sh [k] /\ forall s, prefix s p -> sh (k :: s).
Proof.
  intros H. split; [apply H; exists p; reflexivity|]. intros s [r0 ->]. apply H. now exists r0.
Qed.

Lemma fresh_none p v : forall (sh : list string -> Prop) r c, write VNone p v = Some c -> unrelated p r ->
  (forall s, prefix s p -> sh s) -> fresh sh r c.
Proof.
  induction p as [|k p IH]; intros sh r c2 Ew Hu Hs; [now apply unrelated_nil_l in Hu|].
  apply prefix_shift in Hs as [Hs1 Hs2].
  destruct r as [|j r]; [now apply unrelated_nil_r in Hu|]. rewrite write_none in Ew. destruct (write VNone p v) eqn:E2; [|discriminate]. injection Ew as <-.
  cbn [fresh]. eexists. split; [reflexivity|]. cbn [aget]. destruct (String.eqb_spec j k) as [->|]; auto. apply unrelated_cons in Hu. split; auto.
Qed.

Lemma fresh_write p v : forall (sh : list string -> Prop) q c c', fresh sh q c -> unrelated p q -> write c p v = Some c' ->
  (forall s, prefix s p -> sh s) -> fresh sh q c'.
Proof.
  induction p as [|k p IH]; intros sh q c c' Hf Hu H Hs; [now apply unrelated_nil_l in Hu|].
  apply prefix_shift in Hs as [Hs1 Hs2].
  destruct q as [|j r]; [easy|]. destruct Hf as (m & -> & Hf). rewrite write_dict in H.
  destruct (write _ p v) as [c2|] eqn:Ew; [|discriminate]. injection H as <-. cbn [fresh]. eexists. split; [reflexivity|].
  destruct (String.eqb_spec k j) as [->|Hn].
  - apply unrelated_cons in Hu. rewrite aget_aset_same. split; auto. destruct (aget j m) as [c0|]; [destruct Hf as [_ Hf]; eapply IH; eauto|].
    eapply fresh_none; eauto.
  - rewrite aget_aset_other by auto. exact Hf.
Qed.

Lemma rel_write p v : forall (sh : list string -> Prop) q x y z, rel sh q x y -> unrelated p q -> write y p v = Some z ->
  (forall s, prefix s p -> sh s) -> rel sh q x z.
Proof.
  induction p as [|k p IH]; intros sh q x y z Hr Hu H Hs; [now apply unrelated_nil_l in Hu|].
  destruct q as [|j r]; [now apply unrelated_nil_r in Hu|]. cbn [rel]. right.
  assert (K : y = VNone \/ exists d, y = VDict d) by (destruct y; try discriminate; eauto).
  destruct K as [->|[d ->]].
  - rewrite write_none in H. destruct (write VNone p v) as [c|] eqn:Ew; [|discriminate]. injection H as <-.
    destruct Hr as [->|(? & ? & ?)]; [|discriminate]. eexists. split; [reflexivity|auto].
  - rewrite write_dict in H. destruct (write _ p v) as [c2|] eqn:Ew; [|discriminate]. injection H as <-.
    exists (aset k c2 d). split; auto.
    assert (Hs' : forall s, prefix s p -> sh (k :: s)).
    { intros s [r0 ->]. apply Hs. now exists r0. }
    assert (Hs1 : sh [k]) by (apply Hs'; apply prefix_nil).
    destruct Hr as [->|(d' & [= <-] & [->|(d0 & -> & Hr)])]; [|auto|].
    + right. exists d. split; auto. destruct (String.eqb_spec k j) as [->|Hn].
      * apply unrelated_cons in Hu. rewrite aget_aset_same. destruct (aget j d) as [c|].
        -- eapply IH; [apply rel_refl|exact Hu|exact Ew|exact Hs'].
        -- split; [exact Hs1|]. eapply fresh_none; eauto.
      * rewrite aget_aset_other by auto. destruct (aget j d); auto. apply rel_refl.
    + right. exists d0. split; auto. destruct (String.eqb_spec k j) as [->|Hn].
      * apply unrelated_cons in Hu. rewrite aget_aset_same. destruct (aget j d) as [c|].
        -- destruct (aget j d0) as [c0|].
           ++ eapply IH; [exact Hr|exact Hu|exact Ew|exact Hs'].
           ++ destruct Hr as [_ Hr]. split; [exact Hs1|]. eapply fresh_write; eauto.
        -- destruct (aget j d0) as [c0|]; [easy|]. split; [exact Hs1|]. eapply fresh_none; eauto.
      * rewrite aget_aset_other by auto. exact Hr.
Qed.

Lemma rel_written E t ovs x y z sh q : written E t ovs y z -> rel sh q x y ->
  (forall o p text, In o ovs -> names o p text -> unrelated p q /\ forall s, prefix s p -> sh s) -> rel sh q x z.
Proof.
  intros H. induction H as [|o ovs p text ft val x0 y x' H1 H2 H3 H4 H5 IH]; intros Hr Hs; auto.
  apply IH.
  - destruct (Hs o p text) as [A B]; [now left|auto|]. eapply rel_write; eauto.
  - intros o' p' text' Ho. apply Hs. now right.
Qed.

(** the object side: default construction and a created section agree away from the overrides *)
Lemma default_strip t s : s <> [] -> default_at (strip_opt t) s = default_at t s.
Proof.
  destruct s as [|k s]; [easy|]. intros _. cbn [default_at].
  replace (strip_opt (strip_opt t)) with (strip_opt t); auto. induction t; auto.
Qed.

Definition no_obj (sh : list string -> Prop) (t : ty) (q : list string) : Prop :=
  forall s, s <> [] -> proper_prefix s q -> sh s -> ~ object_default t s.

Lemma no_obj_strip sh t q : no_obj sh t q -> no_obj sh (strip_opt t) q.
Proof. intros H s H1 H2 H3 (c & o & H4). apply (H s H1 H2 H3). exists c, o. rewrite <- !(default_strip t) by auto. exact H4. Qed.

Lemma object_cons c fs k ft fd s : aget k fs = Some (ft, fd) -> s <> [] ->
  object_default ft s -> object_default (TData c fs) (k :: s).
Proof.
  intros Ef Hs (cn & o & H). exists cn, o. destruct s; [easy|]. cbn [default_at strip_opt]. rewrite Ef. exact H.
Qed.

Lemma no_obj_cons sh c fs k ft fd q : aget k fs = Some (ft, fd) -> no_obj sh (TData c fs) (k :: q) -> no_obj (fun s => sh (k :: s)) ft q.
Proof.
  intros Ef H s H1 H2 H3 Hod. apply (H (k :: s)); [discriminate|now apply proper_cons|exact H3|]. eapply object_cons; eauto.
Qed.

Lemma default_of_field c fs o k ft fd : NoDup (field_names fs) -> aget k fs = Some (ft, fd) -> default_of (TData c fs) (VObj (c_name c) o) ->
  exists u, aget k o = Some u /\ match fd with DValue x | DFactory x => u = x | DMissing => default_of ft u end.
Proof.
  intros Hnd Ef (o' & [= <-] & Hv). apply aget_some_in in Ef. destruct (all2_in_l _ _ _ _ Hv Ef) as ([k' w] & Hin & Hk' & Hw). cbn [fst snd] in *. subst k'.
  exists w. split; [|exact Hw]. apply in_nodup_aget; auto.
  assert (Hko : map fst o = field_names fs); [|unfold akeys; rewrite Hko; apply Hnd].
  clear -Hv. revert o Hv. induction fs as [|[n [t d]] fs IH]; intros [|[j v] o] H; try easy.
  destruct H as [[H1 _] H]. simpl in *. f_equal; auto.
Qed.

Lemma fresh_denotes E sch allow ff q : forall sh ig t c v v' u, loadable t ->
  default_of t v -> fresh sh q c -> denotes E sch allow ff ig t c v' ->
  settled t c q -> strong c q -> no_obj sh t q ->
  obj_at v q = Some u -> obj_at v' q = Some u.
Proof.
  induction q as [|j r IH]; [easy|]. intros sh ig t c v v' u Hl Hv (m & -> & Hf) Hd Hs Hm Ho Hu.
  cbn [settled strong obj_at lookup] in *.
  destruct t as [| | | | | | | | | |c fs| | |]; try easy. cbn [strip_opt] in Hs.
  assert (Hv' := Hv). destruct Hv' as (o & -> & _). destruct Hs as [Hs1 Hs2].
  destruct (aget j fs) as [[ft fd]|] eqn:Ef.
  2:{ destruct Hv as (o' & [= <-] & Hv). destruct (aget j o) eqn:Eo; [|discriminate]. exfalso. clear -Hv Ef Eo. revert o Hv Eo. induction fs as [|[n [ft fd]] fs IH]; intros [|[k w] o] Hv Eo; try easy.
    destruct Hv as [[A _] B]. cbn [fst] in A. subst k. cbn [aget] in *. destruct (String.eqb j n); [discriminate|eauto]. }
  destruct (default_of_field _ _ _ _ _ _ (proj1 Hl) Ef Hv) as (u0 & Eo & Hu0). rewrite Eo in Hu.
  destruct (field_of_object _ _ _ _ _ _ _ _ _ _ _ _ (proj1 Hl) Ef Hd) as (y & items & o' & u' & H1 & H2 & -> & H3 & H4).
  destruct (settled_versioned _ _ _ _ _ _ j H1 Hs1) as (items' & H5 & H6). rewrite H2 in H5. injection H5 as <-.
  rewrite H3. rewrite H6 in H4.
  destruct (aget j m) as [c'|] eqn:Em.
  - destruct Hm as [Hm1 Hm2]. rewrite Hm1 in H4. destruct Hf as [Hsh Hf]. destruct r as [|j2 r]; [easy|].
    assert (Hnod : ~ object_default (TData c fs) [j]) by (apply Ho; [discriminate|exists (j2 :: r); split; [discriminate|reflexivity]|auto]).
    unfold object_default in Hnod. cbn [default_at strip_opt] in Hnod. rewrite Ef in Hnod.
    assert (Hdf : default_of ft u0).
    { cbn [obj_at] in Hu. destruct u0; try discriminate. destruct fd; auto; exfalso; apply Hnod; subst; eauto. }
    eapply (IH (fun s => sh (j :: s)) false ft c' u0 u'); eauto; [eapply loadable_field; eauto|eapply no_obj_cons; eauto].
  - assert (u' = u0).
    { destruct fd; cbn [default_field] in H4; try congruence. destruct H4 as [H4 _]. eapply default_of_fun; eauto. }
    subst u'. exact Hu.
Qed.

Lemma none_no_object E sch allow ff t : forall ig v, denotes E sch allow ff ig t VNone v -> forall n o, v <> VObj n o.
Proof.
  induction t as [| | | | |i IH|l IH|kt vt IHk IHv|i IH|l IH|c fs IH|n ms|l|n] using ty_ind'; intros ig v H n0 o; cbn in H; try easy.
  - now destruct H as [_ ->].
  - now destruct H as (l & m & ? & _).
  - now destruct H as (l1 & m & ? & _).
  - now destruct H as (l & m & ? & _).
  - destruct H as [[_ ->]|[? _]]; easy.
  - destruct H as [[]|H]. destruct H as (d & nm & ? & _). discriminate.
  - destruct H as (y & items & o' & H1 & H2 & _). destruct (c_versioned c) as [[cur rules]|].
    + cbn in H1. destruct allow; try discriminate H1; injection H1 as <-; discriminate.
    + injection H1 as <-. discriminate.
  - destruct H as (m & y & _ & ->). discriminate.
  - destruct H as (_ & -> & _). discriminate.
  - destruct H as (_ & -> & _). discriminate.
Qed.

Definition no_obj_at (sh : list string -> Prop) (t : ty) (x : pyval) (q : list string) : Prop :=
  forall s, s <> [] -> proper_prefix s q -> sh s -> lookup x s = None -> ~ object_default t s.

Lemma rel_denotes E sch allow ff q : forall sh ig1 ig2 t x x' v v' u, loadable t ->
  rel sh q x x' -> denotes E sch allow ff ig1 t x v -> denotes E sch allow ff ig2 t x' v' ->
  settled t x q -> settled t x' q -> strong x q -> strong x' q -> no_obj_at sh t x q ->
  type_at t q <> None -> obj_at v q = Some u -> obj_at v' q = Some u.
Proof.
  induction q as [|k r IH]; intros sh ig1 ig2 t x x' v v' u Hl Hr Hd Hd' Hs Hs' Hm Hm' Ho Ht Hu.
  - destruct Hr as [->|[]]. rewrite <- (denotes_fun _ _ _ _ _ _ _ _ _ _ Hd Hd'). exact Hu.
  - destruct Hr as [->|(d' & -> & Hr)]; [rewrite <- (denotes_fun _ _ _ _ _ _ _ _ _ _ Hd Hd'); exact Hu|].
    destruct Hr as [->|(d & -> & Hr)].
    { exfalso. destruct v; try discriminate. eapply none_no_object; eauto. }
    apply denotes_strip in Hd; [|discriminate]. apply denotes_strip in Hd'; [|discriminate]. apply loadable_strip in Hl.
    assert (Ho' : no_obj_at sh (strip_opt t) (VDict d) (k :: r)).
    { intros s H1 H2 H3 H4 (c & o & H5). apply (Ho s H1 H2 H3 H4). exists c, o. rewrite <- !(default_strip t) by auto. exact H5. }
    clear Ho. cbn [settled strong obj_at lookup] in *.
    destruct v; try discriminate. destruct (aget k d0) as [u1|] eqn:Eo; [|discriminate].
    cbn [type_at] in Ht. destruct (strip_opt t) as [| | | | | | | | | |c fs| | |]; try (now destruct Ht).
    destruct Hs as [Hs1 Hs2], Hs' as [Hs1' Hs2'].
    destruct (aget k fs) as [[ft fd]|] eqn:Ef; [|now destruct Ht].
    destruct (field_of_object _ _ _ _ _ _ _ _ _ _ _ _ (proj1 Hl) Ef Hd) as (y & items & o & u0 & H1 & H2 & [= -> ->] & H3 & H4).
    destruct (settled_versioned _ _ _ _ _ _ k H1 Hs1) as (items0 & H5 & H6). rewrite H2 in H5. injection H5 as <-.
    destruct (field_of_object _ _ _ _ _ _ _ _ _ _ _ _ (proj1 Hl) Ef Hd') as (y' & items' & o' & u0' & H1' & H2' & -> & H3' & H4').
    destruct (settled_versioned _ _ _ _ _ _ k H1' Hs1') as (items0 & H5 & H6'). rewrite H2' in H5. injection H5 as <-.
    rewrite H3 in Eo. injection Eo as ->. rewrite H3'. rewrite H6 in H4. rewrite H6' in H4'.
    destruct (aget k d) as [c1|] eqn:Ed, (aget k d') as [c2|] eqn:Ed'; try easy.
    + destruct Hm as [Hm1 Hm2], Hm' as [Hm1' Hm2']. rewrite Hm1 in H4. rewrite Hm1' in H4'.
      eapply (IH (fun s => sh (k :: s)) false false ft c1 c2); eauto; [eapply loadable_field; eauto|].
      intros s A1 A2 A3 A4 A5. apply (Ho' (k :: s)); [discriminate|now apply proper_cons|exact A3| |eapply object_cons; eauto].
      cbn [lookup]. rewrite Ed. exact A4.
    + destruct Hr as [Hsh Hf]. destruct Hm' as [Hm1' Hm2']. rewrite Hm1' in H4'. destruct r as [|j2 r]; [easy|].
      assert (Hnod : ~ object_default (TData c fs) [k]).
      { apply Ho'; [discriminate|exists (j2 :: r); split; [discriminate|reflexivity]|auto|]. cbn. now rewrite Ed. }
      unfold object_default in Hnod. cbn [default_at strip_opt] in Hnod. rewrite Ef in Hnod.
      assert (Hdf : default_of ft u1).
      { cbn [obj_at] in Hu. destruct u1; try discriminate. destruct fd; cbn in H4; try tauto; exfalso; apply Hnod; subst; eauto. }
      eapply (fresh_denotes E sch allow ff (j2 :: r) (fun s => sh (k :: s)) false ft c2 u1 u0'); eauto; [eapply loadable_field; eauto|].
      intros s A1 A2 A3 A5. apply (Ho' (k :: s)); [discriminate|now apply proper_cons|exact A3| |eapply object_cons; eauto].
      cbn [lookup]. now rewrite Ed.
    + rewrite <- (default_field_fun _ _ _ _ _ _ H4 H4'). exact Hu.
Qed.
