(** OrderFacts.v -- loading does not depend on the order of entries (C05). *)
From Coq Require Import Permutation.
From Verif Require Import Base AFacts Value Schema Rewrite Sched Types Asdict FromDict
  Induct SpecTree SpecTypes RewriteFacts FromDictFacts RoundTrip ElideFacts ElideLoad
  DefaultFacts SpecLoad LoadFacts LoadSound.

Definition entry_rel (kv kw : string * pyval) : Prop := fst kw = fst kv /\ dperm (snd kv) (snd kw).

Lemma all2_same {A} (R : A -> A -> Prop) l : (forall x, In x l -> R x x) -> all2 false R l l.
Proof.
  induction l as [|x l IH]; intros H; simpl; auto. split; [apply H; left; auto|]. apply IH. intros; apply H; right; auto.
Qed.

Lemma all2_length {A B} (R : A -> B -> Prop) l : forall m, all2 false R l m -> length l = length m.
Proof. induction l as [|x l IH]; intros [|y m] H; try easy. destruct H as [_ H]. simpl. f_equal; auto. Qed.

Lemma dperm_refl x : dperm x x.
Proof.
  induction x as [|b|z|f|s|l IH|l IH|d IH|n d IH|n d IH|c m x IH|c x IH] using pyval_ind'; simpl; auto.
  - rewrite Forall_forall in IH. exists l; split; auto. now apply all2_same.
  - rewrite Forall_forall in IH. exists l; split; auto. now apply all2_same.
  - rewrite Forall_forall in IH. exists d, d. split; [|split]; auto. apply all2_same. intros [k v] Hin. split; [auto|apply (IH _ Hin)].
  - rewrite Forall_forall in IH. exists d. split; auto. apply all2_same. intros [k v] Hin. split; [auto|apply (IH _ Hin)].
  - rewrite Forall_forall in IH. exists d. split; auto. apply all2_same. intros [k v] Hin. split; [auto|apply (IH _ Hin)].
Qed.

Lemma entries_keys d : forall m, all2 false entry_rel d m -> akeys m = akeys d.
Proof. induction d as [|[k x] d IH]; intros [|[j y] m] H; try easy. destruct H as [[H1 _] H]. simpl in *. f_equal; auto. Qed.

Definition orel (R : pyval -> pyval -> Prop) (a b : option pyval) : Prop :=
  match a, b with None, None => True | Some x, Some y => R x y | _, _ => False end.

Lemma entries_look d : forall m, all2 false entry_rel d m -> forall k, orel dperm (aget k d) (aget k m).
Proof.
  induction d as [|[j x] d IH]; intros [|[i y] m] H k; try easy. destruct H as [[H1 H2] H]. simpl in *. subst i.
  destruct (String.eqb k j); [exact H2|now apply IH].
Qed.

Lemma aget_perm {A} (d e : list (string * A)) : NoDup (akeys d) -> Permutation d e -> forall k, aget k d = aget k e.
Proof.
  intros Hn Hp k. assert (Hne : NoDup (akeys e)) by (eapply Permutation_NoDup; [apply Permutation_map; exact Hp|exact Hn]).
  destruct (aget k d) eqn:Ed.
  - symmetry. apply in_nodup_aget; auto. eapply Permutation_in; [exact Hp|]. now apply aget_some_in.
  - symmetry. apply aget_notin. apply aget_none_notin in Ed. intros Hin. apply Ed.
    eapply Permutation_in; [apply Permutation_sym, Permutation_map; exact Hp|exact Hin].
Qed.

Lemma dperm_dict_inv d y : NoDup (akeys d) -> dperm (VDict d) y ->
  exists e, y = VDict e /\ NoDup (akeys e) /\ Permutation (akeys d) (akeys e) /\ forall k, orel dperm (aget k d) (aget k e).
Proof.
  intros Hn (m & e & -> & Hp & Ha). exists e. split; auto.
  assert (Hk := entries_keys d m Ha). assert (Hnm : NoDup (akeys m)) by now rewrite Hk.
  assert (Hpk : Permutation (akeys d) (akeys e)) by (rewrite <- Hk; now apply Permutation_map).
  split; [eapply Permutation_NoDup; eauto|]. split; auto.
  intros k. rewrite <- (aget_perm m e Hnm Hp k). now apply entries_look.
Qed.

Lemma dperm_dict_intro d e : NoDup (akeys d) -> NoDup (akeys e) ->
  (forall k, orel dperm (aget k d) (aget k e)) -> dperm (VDict d) (VDict e).
Proof.
  intros Hd He Hl. exists (map (fun kv => (fst kv, match aget (fst kv) e with Some y => y | None => VNone end)) d), e.
  split; auto. split.
  - apply NoDup_Permutation.
    + apply (NoDup_map_inv fst). rewrite map_map. exact Hd.
    + apply (NoDup_map_inv fst). exact He.
    + intros [k y]. rewrite in_map_iff. split.
      * intros ([k' x] & H & Hin). simpl in H. injection H as -> <-.
        assert (Hx : aget k d = Some x) by (apply in_nodup_aget; auto). specialize (Hl k). rewrite Hx in Hl.
        destruct (aget k e) eqn:Ee; [|easy]. now apply aget_some_in.
      * intros Hin. assert (Hy : aget k e = Some y) by (apply in_nodup_aget; auto). specialize (Hl k). rewrite Hy in Hl.
        destruct (aget k d) as [x|] eqn:Ed; [|easy]. exists (k, x). simpl. rewrite Hy. split; auto. now apply aget_some_in.
  - change (all2 false entry_rel d (map (fun kv => (fst kv, match aget (fst kv) e with Some y => y | None => VNone end)) d)).
    assert (G : forall l, incl l d -> all2 false entry_rel l (map (fun kv => (fst kv, match aget (fst kv) e with Some y => y | None => VNone end)) l)).
    { induction l as [|[k x] l IH]; intros Hi; simpl; auto. split; [|apply IH; intros a Ha; apply Hi; right; auto].
      split; auto. simpl. assert (Hx : aget k d = Some x) by (apply in_nodup_aget; auto; apply Hi; left; auto).
      specialize (Hl k). rewrite Hx in Hl. destruct (aget k e); easy. }
    apply G. apply incl_refl.
Qed.

Lemma all2_in_r {A B} (f : A -> B -> Prop) l m y : all2 false f l m -> In y m -> exists x, In x l /\ f x y.
Proof.
  revert m; induction l as [|a l IH]; intros [|b m] H Hy; try easy.
  destruct H as [H1 H2]. destruct Hy as [->|Hy].
  - exists a; split; [left|]; auto.
  - destruct (IH m H2 Hy) as [x [Hx1 Hx2]]. exists x; split; [right|]; auto.
Qed.

Lemma dperm_filev x : forall y, filev x = true -> dperm x y -> filev y = true.
Proof.
  induction x as [|b|z|f|s|l IH|l IH|d IH|n d IH|n d IH|c m x IH|c x IH] using pyval_ind';
    intros y Hx Hy; try (simpl in Hy; subst y; exact Hx); try discriminate.
  - destruct Hy as (m & -> & Hm). rewrite Forall_forall in IH. simpl in Hx |- *. rewrite forallb_forall in *.
    intros w Hw. destruct (all2_in_r _ _ _ _ Hm Hw) as (x & Hin & Hd). eauto.
  - destruct Hy as (m & -> & Hm). rewrite Forall_forall in IH. simpl in Hx |- *. rewrite forallb_forall in *.
    intros w Hw. destruct (all2_in_r _ _ _ _ Hm Hw) as (x & Hin & Hd). eauto.
  - apply filev_dict in Hx as [H1 H2]. destruct (dperm_dict_inv d y H1 Hy) as (e & -> & He & _ & Hl).
    rewrite Forall_forall in IH. apply filev_dict. split; auto. intros k v Hin.
    assert (Hv : aget k e = Some v) by (apply in_nodup_aget; auto). specialize (Hl k). rewrite Hv in Hl.
    destruct (aget k d) as [x|] eqn:Ed; [|easy]. apply aget_some_in in Ed. apply (IH (k, x) Ed); eauto.
  - destruct Hy as (m & -> & Hm). change (all2 false entry_rel d m) in Hm. rewrite Forall_forall in IH.
    apply filev_items in Hx as [H1 H2]. apply filev_items. split; [now rewrite (entries_keys d m)|].
    intros k v Hin. destruct (all2_in_r _ _ _ _ Hm Hin) as ([j x] & Hj & [_ Hd]). apply (IH (j, x) Hj); eauto.
Qed.

Ltac shaped H :=
  simpl in H;
  repeat match goal with
         | K : exists _, _ |- _ => destruct K
         | K : _ /\ _ |- _ => destruct K
         end; subst.
Ltac shape x H := destruct x; try discriminate; shaped H.

Lemma dperm_scalar_str x y s : dperm x y -> (py_eq x (VStr s) = py_eq y (VStr s)).
Proof.
  intros H. destruct x; simpl in H; try (subst y; reflexivity); try (destruct H as (m & -> & H); reflexivity).
  destruct H as (m & e & -> & H); reflexivity.
Qed.

Lemma dperm_num a x y : dperm x y -> num_eq a x = num_eq a y.
Proof.
  intros H. destruct x; simpl in H; try (subst y; reflexivity); try (destruct H as (m & -> & H); reflexivity).
  destruct H as (m & e & -> & H); reflexivity.
Qed.

Lemma list_eqb_dperm (g : pyval -> pyval -> bool) l : forall m m',
  (forall a x x', In a l -> In x m -> dperm x x' -> g a x = g a x') -> all2 false dperm m m' ->
  list_eqb g l m = list_eqb g l m'.
Proof.
  induction l as [|a l IH]; intros [|x m] [|x' m'] H Hm; try easy.
  destruct Hm as [H1 H2]. cbn [list_eqb]. f_equal; [apply H; auto; left; auto|].
  apply IH; auto. intros; apply H; auto; right; auto.
Qed.

Lemma dperm_tuple x y : dperm x y -> match tuple_items x, tuple_items y with
  | Some l, Some m => all2 false dperm l m | None, None => True | _, _ => False end.
Proof.
  intros H. destruct x; simpl in H; try (subst y; simpl; auto; fail).
  - destruct H as (m & -> & H); simpl; auto.
  - destruct H as (m & -> & H); simpl; auto.
  - destruct H as (m & e & -> & H); simpl; auto.
  - destruct H as (m & -> & H); simpl. clear -H. revert m H.
    induction d as [|[k x] d IH]; intros [|[j y] m] H; try easy. destruct H as [[_ H1] H2]. simpl. split; auto.
  - destruct H as (m & -> & H); simpl; auto.
Qed.

Lemma py_eq_dperm a : forall x x', filev x = true -> dperm x x' -> py_eq a x = py_eq a x'.
Proof.
  induction a as [|b|z|f|s|l IH|l IH|d IH|n d IH|n d IH|c m v IH|c v IH] using pyval_ind'; intros x x' Hx H.
  - shape x H; reflexivity.
  - apply (dperm_num (VBool b)); auto.
  - apply (dperm_num (VInt z)); auto.
  - apply (dperm_num (VFloat f)); auto.
  - shape x H; reflexivity.
  - rewrite Forall_forall in IH. shape x H; try reflexivity.
    cbn [py_eq]. apply list_eqb_dperm; auto. intros a y y' Ha Hin Hd. apply IH; auto.
    simpl in Hx. rewrite forallb_forall in Hx. auto.
  - rewrite Forall_forall in IH. assert (Ht := dperm_tuple x x' H). cbn [py_eq].
    destruct (tuple_items x) as [it|] eqn:E1, (tuple_items x') as [it'|]; try easy.
    apply list_eqb_dperm; auto. intros a y y' Ha Hin Hd. apply IH; auto. eapply filev_tuple; eauto.
  - rewrite Forall_forall in IH. destruct x; try discriminate; try (shaped H; reflexivity).
    apply filev_dict in Hx as [H1 H2]. destruct (dperm_dict_inv d0 x' H1 H) as (e & -> & He & Hp & Hl). cbn [py_eq].
    f_equal.
    + f_equal. unfold akeys in Hp. apply Permutation_length in Hp. rewrite !map_length in Hp. exact Hp.
    + clear -IH Hl H2. induction d as [|[k v] d IHd]; simpl; auto. f_equal; [|apply IHd; intros a Ha; apply IH; right; auto].
      specialize (Hl k). destruct (aget k d0) as [x|] eqn:E1, (aget k e) as [y|]; try easy.
      apply (IH (k, v) (or_introl eq_refl)); auto. apply aget_some_in in E1. eauto.
  - rewrite Forall_forall in IH. assert (Ht := dperm_tuple x x' H). cbn [py_eq].
    destruct (tuple_items x) as [it|] eqn:E1, (tuple_items x') as [it'|]; try easy.
    assert (Hf : forall y, In y it -> filev y = true) by (eapply filev_tuple; eauto).
    clear -IH Ht Hf. revert it it' Ht Hf. induction d as [|[k v] d IHd]; intros [|y it] [|y' it'] Ht Hf; try easy.
    destruct Ht as [T1 T2]. cbn [list_eqb fst snd]. f_equal.
    + apply (IH (k, v) (or_introl eq_refl)); auto. apply Hf; left; auto.
    + apply IHd; auto; [intros a Ha; apply IH; right; auto|intros a Ha; apply Hf; right; auto].
  - shape x H; reflexivity.
  - shape x H; reflexivity.
  - shape x H; reflexivity.
Qed.

(** ** dict operations and rewrite rules *)
Definition rrel {A B} (R : A -> B -> Prop) (m : res A) (m' : res B) : Prop :=
  forall a, m = Ok a -> exists b, m' = Ok b /\ R a b.

Lemma rrel_ok {A B} (R : A -> B -> Prop) a b : R a b -> rrel R (Ok a) (Ok b).
Proof. intros H x Hx. injection Hx as <-. eauto. Qed.

Lemma rrel_err {A B} (R : A -> B -> Prop) e m : rrel R (Err e) m.
Proof. intros x Hx. discriminate. Qed.

Lemma rrel_bind {A B C D} (R : A -> B -> Prop) (Q : C -> D -> Prop) m m' k k' :
  rrel R m m' -> (forall a b, m = Ok a -> R a b -> rrel Q (k a) (k' b)) ->
  rrel Q (rbind m k) (rbind m' k').
Proof.
  intros H1 H2 c Hc. apply rbind_ok in Hc as [a [Ha Hc]]. destruct (H1 a Ha) as (b & -> & Hab). cbn [rbind].
  apply (H2 a b Ha Hab c Hc).
Qed.

Lemma dperm_aset d e k x y : NoDup (akeys d) -> dperm (VDict d) (VDict e) -> dperm x y ->
  dperm (VDict (aset k x d)) (VDict (aset k y e)).
Proof.
  intros Hd H Hxy. destruct (dperm_dict_inv d _ Hd H) as (e' & He & Hn & _ & Hl). injection He as <-.
  apply dperm_dict_intro; try now apply nodup_aset.
  intros j. rewrite !aget_aset. destruct (String.eqb j k); [exact Hxy|apply Hl].
Qed.

Lemma dperm_adel d e k : NoDup (akeys d) -> dperm (VDict d) (VDict e) ->
  dperm (VDict (adel k d)) (VDict (adel k e)).
Proof.
  intros Hd H. destruct (dperm_dict_inv d _ Hd H) as (e' & He & Hn & _ & Hl). injection He as <-.
  apply dperm_dict_intro; try now apply nodup_adel.
  intros j. destruct (String.eqb_spec j k) as [->|Hj].
  - rewrite !aget_adel_same by auto. exact I.
  - rewrite !aget_adel_other by auto. apply Hl.
Qed.

Lemma dperm_aget d e k : NoDup (akeys d) -> dperm (VDict d) (VDict e) -> orel dperm (aget k d) (aget k e).
Proof. intros Hd H. destruct (dperm_dict_inv d _ Hd H) as (e' & He & Hn & _ & Hl). injection He as <-. apply Hl. Qed.

Lemma dperm_amem d e k : NoDup (akeys d) -> dperm (VDict d) (VDict e) -> amem k e = amem k d.
Proof. intros Hd H. assert (G := dperm_aget d e k Hd H). unfold amem. destruct (aget k d), (aget k e); easy. Qed.

Lemma dperm_dict_dict d y : dperm (VDict d) y -> exists e, y = VDict e.
Proof. intros (m & e & -> & _). eauto. Qed.

Lemma py_in_dperm k x x' : filev x = true -> dperm x x' -> py_in k x' = py_in k x.
Proof.
  intros Hx H.
  assert (G : forall l m, all2 false dperm l m -> py_elem (VStr k) m = py_elem (VStr k) l).
  { induction l as [|a l IH]; intros [|b m] Hm; try easy. destruct Hm as [H1 H2]. unfold py_elem in *. simpl.
    rewrite (dperm_scalar_str a b k H1). f_equal. auto. }
  destruct x; try discriminate; simpl in H; try (subst x'; reflexivity).
  - destruct H as (m & -> & H). simpl. f_equal. auto.
  - destruct H as (m & -> & H). simpl. f_equal. auto.
  - destruct (dperm_dict_dict d x' H) as [e ->]. simpl. f_equal. apply dperm_amem; auto. apply filev_dict in Hx; tauto.
  - assert (Ht := dperm_tuple (VNt name d) x' H). destruct H as (m & -> & H). simpl in *. f_equal. auto.
Qed.

Lemma getitem_dperm k x x' : filev x = true -> dperm x x' -> rrel dperm (py_getitem x k) (py_getitem x' k).
Proof.
  intros Hx H. destruct x; try (apply rrel_err).
  destruct (dperm_dict_dict d x' H) as [e ->]. apply filev_dict in Hx as [Hx _]. assert (G := dperm_aget d e k Hx H). simpl.
  destruct (aget k d), (aget k e); try easy. now apply rrel_ok.
Qed.

Lemma setitem_dperm k x x' c c' : filev x = true -> dperm x x' -> dperm c c' ->
  rrel dperm (py_setitem x k c) (py_setitem x' k c').
Proof.
  intros Hx H Hc. destruct x; try (apply rrel_err).
  destruct (dperm_dict_dict d x' H) as [e ->]. apply filev_dict in Hx as [Hx _]. apply rrel_ok. now apply dperm_aset.
Qed.

Lemma is_none_dperm x x' : dperm x x' -> is_none x' = is_none x.
Proof. intros H. shape x H; reflexivity. Qed.

Lemma is_weak_dperm x x' : filev x = true -> dperm x x' -> is_weak x' = is_weak x.
Proof.
  intros Hx H. destruct x; try discriminate; try (shaped H; reflexivity).
  destruct (dperm_dict_dict d x' H) as [e ->]. simpl. apply dperm_amem; auto. apply filev_dict in Hx; tauto.
Qed.

Lemma remove_dperm p : forall d d', filev d = true -> dperm d d' ->
  rrel (fun a b => dperm (fst a) (fst b) /\ orel dperm (snd a) (snd b)) (remove_path d p) (remove_path d' p).
Proof.
  induction p as [|k p IH]; intros d d' Hd H; [apply rrel_err|]. destruct p as [|k2 r].
  - cbn [remove_path]. destruct d; try discriminate; try (simpl in H; subst d'; apply rrel_ok; simpl; auto; fail).
    + assert (H0 := H). destruct H as (m & -> & H). apply rrel_ok. split; [exact H0|exact I].
    + assert (H0 := H). destruct H as (m & -> & H). apply rrel_ok. split; [exact H0|exact I].
    + destruct (dperm_dict_dict d d' H) as [e ->]. apply filev_dict in Hd as [Hd _]. assert (G := dperm_aget d e k Hd H).
      destruct (aget k d), (aget k e); try easy; apply rrel_ok.
      * split; [now apply dperm_adel|exact G].
      * split; [exact H|exact I].
    + assert (H0 := H). destruct H as (m & -> & H). apply rrel_ok. split; [exact H0|exact I].
  - rewrite !remove_unfold. rewrite (py_in_dperm k d d') by auto.
    destruct (py_in k d) as [b|e]; cbn [rbind]; [|apply rrel_err]. destruct b; cbn [negb]; [|apply rrel_ok; split; [exact H|exact I]].
    eapply rrel_bind; [apply getitem_dperm; eauto|]. intros c c' Hc Hcc. rewrite (is_none_dperm c c') by auto.
    destruct (is_none c); [apply rrel_ok; split; [exact H|exact I]|].
    eapply rrel_bind; [apply (IH c c'); eauto using filev_getitem|]. intros [c1 o1] [c2 o2] Hr [R1 R2]. cbn [fst snd] in *.
    eapply rrel_bind; [apply setitem_dperm; eauto|]. intros a b _ Hab. apply rrel_ok. split; auto.
Qed.

Lemma insert_dperm p : forall d d' v v' cn, filev d = true -> dperm d d' -> dperm v v' ->
  rrel dperm (insert_path d p v cn) (insert_path d' p v' cn).
Proof.
  induction p as [|k p IH]; intros d d' v v' cn Hd H Hv; [apply rrel_err|]. destruct p as [|k2 r].
  - cbn [insert_path]. now apply setitem_dperm.
  - rewrite !insert_unfold by discriminate. cbv zeta.
    set (f := fun d : pyval => match d with
                | VDict m => if amem k m then d else VDict (aset k (if cn then VDict [] else VDict [(WEAK_REF, VBool true)]) m)
                | _ => d end).
    change (rrel dperm
      (let* c := py_getitem (f d) k in
       match c with
       | VDict m => let* c' := insert_path (if cn && amem WEAK_REF m then VDict (adel WEAK_REF m) else c) (k2 :: r) v cn in
                    py_setitem (f d) k c'
       | _ => Ok (f d) end)
      (let* c := py_getitem (f d') k in
       match c with
       | VDict m => let* c' := insert_path (if cn && amem WEAK_REF m then VDict (adel WEAK_REF m) else c) (k2 :: r) v' cn in
                    py_setitem (f d') k c'
       | _ => Ok (f d') end)).
    assert (Hf : filev (f d) = true).
    { unfold f. destruct d; auto. destruct (amem k d); auto. apply filev_aset; auto. destruct cn; reflexivity. }
    assert (Hff : dperm (f d) (f d')).
    { unfold f. destruct d; try discriminate; try (shaped H; simpl; eauto; fail).
      destruct (dperm_dict_dict d d' H) as [e ->]. apply filev_dict in Hd as [Hd _]. rewrite (dperm_amem d e k Hd H).
      destruct (amem k d); auto. apply dperm_aset; auto. apply dperm_refl. }
    generalize dependent (f d). generalize (f d'). clear f H Hd d d'. intros d' d Hd H.
    eapply rrel_bind; [apply getitem_dperm; eauto|]. intros c c' Hc Hcc.
    assert (Hfc : filev c = true) by eauto using filev_getitem.
    destruct c; try discriminate; try (simpl in Hcc; subst c'; now apply rrel_ok);
      try (destruct Hcc as (m & -> & Hcc); now apply rrel_ok).
    destruct (dperm_dict_dict d0 c' Hcc) as [e ->].
    assert (Hn : NoDup (akeys d0)) by (apply filev_dict in Hfc; tauto).
    rewrite (dperm_amem d0 e WEAK_REF Hn Hcc).
    eapply rrel_bind; [apply IH; [| |exact Hv]|].
    + destruct (cn && amem WEAK_REF d0); [now apply filev_adel|auto].
    + destruct (cn && amem WEAK_REF d0); [now apply dperm_adel|auto].
    + intros a b _ Hab. now apply setitem_dperm.
Qed.

Lemma get_dperm p : forall d d', filev d = true -> dperm d d' ->
  rrel (orel dperm) (get_path d p) (get_path d' p).
Proof.
  induction p as [|k p IH]; intros d d' Hd H; [apply rrel_err|]. destruct p as [|k2 r].
  - cbn [get_path]. rewrite (py_in_dperm k d d') by auto.
    destruct (py_in k d) as [b|e]; cbn [rbind]; [|apply rrel_err]. destruct b; cbn [negb]; [|now apply rrel_ok].
    eapply rrel_bind; [apply getitem_dperm; eauto|]. intros c c' _ Hc. now apply rrel_ok.
  - change (rrel (orel dperm)
      (let* present := py_in k d in if negb present then Ok None else let* c := py_getitem d k in get_path c (k2 :: r))
      (let* present := py_in k d' in if negb present then Ok None else let* c := py_getitem d' k in get_path c (k2 :: r))).
    rewrite (py_in_dperm k d d') by auto.
    destruct (py_in k d) as [b|e]; cbn [rbind]; [|apply rrel_err]. destruct b; cbn [negb]; [|now apply rrel_ok].
    eapply rrel_bind; [apply getitem_dperm; eauto|]. intros c c' Hc Hcc. apply IH; eauto using filev_getitem.
Qed.

Lemma get_filev p : forall d v, filev d = true -> get_path d p = Ok (Some v) -> filev v = true.
Proof.
  induction p as [|k p IH]; intros d v Hd H; [discriminate|].
  destruct p as [|k2 r]; cbn [get_path] in H.
  - apply rbind_ok in H as [b [H1 H]]. destruct b; [|discriminate]. cbn [negb] in H.
    apply rbind_ok in H as [c [H2 H]]. injection H as <-. eauto using filev_getitem.
  - apply rbind_ok in H as [b [H1 H]]. destruct b; [|discriminate]. cbn [negb] in H.
    apply rbind_ok in H as [c [H2 H]]. apply (IH c); eauto using filev_getitem.
Qed.

Lemma hashable_dperm x : forall y, dperm x y -> hashable y = hashable x.
Proof.
  induction x as [|b|z|f|s|l IH|l IH|d IH|n d IH|n d IH|c m x IH|c x IH] using pyval_ind';
    intros y H; try (simpl in H; subst y; reflexivity).
  - destruct H as (m & -> & H); reflexivity.
  - destruct H as (m & -> & H). rewrite Forall_forall in IH. simpl. clear -IH H. revert m H.
    induction l as [|a l IHl]; intros [|b m] H; try easy. destruct H as [H1 H2]. simpl.
    f_equal; [apply IH; auto; left; auto|apply IHl; auto]. intros c Hc; apply IH; right; auto.
  - destruct H as (m & e & -> & H); reflexivity.
  - destruct H as (m & -> & H). rewrite Forall_forall in IH. simpl. clear -IH H. revert m H.
    induction d as [|a l IHl]; intros [|b m] H; try easy. destruct H as [[_ H1] H2]. simpl.
    f_equal; [apply IH; auto; left; auto|apply IHl; auto]. intros c Hc; apply IH; right; auto.
  - destruct H as (m & -> & H); reflexivity.
Qed.

Lemma in_set_dperm x y s : filev x = true -> dperm x y -> py_in_set y s = py_in_set x s.
Proof.
  intros Hx H. unfold py_in_set. rewrite (hashable_dperm x y H). destruct (hashable x); auto. f_equal.
  unfold py_elem. induction s as [|a s IH]; simpl; auto. rewrite (py_eq_dperm a x y Hx H). f_equal; auto.
Qed.

Lemma rule_dperm r d d' : rule_orderless r -> filev d = true -> dperm d d' ->
  rrel dperm (apply_rule r d) (apply_rule r d').
Proof.
  intros Hr Hd H. destruct r; cbn [apply_rule].
  - eapply rrel_bind; [apply remove_dperm; eauto|]. intros [d1 o1] [d2 o2] He [R1 R2]. cbn [fst snd] in *.
    destruct (filev_remove _ _ _ _ Hd He) as [F1 F2].
    destruct o1, o2; try easy; [now apply insert_dperm|now apply rrel_ok].
  - eapply rrel_bind; [apply remove_dperm; eauto|]. intros [d1 o1] [d2 o2] He [R1 R2]. now apply rrel_ok.
  - eapply rrel_bind; [apply remove_dperm; eauto|]. intros [d1 o1] [d2 o2] He [R1 R2]. cbn [fst snd] in *.
    destruct (filev_remove _ _ _ _ Hd He) as [F1 F2].
    destruct o1, o2; try easy; [|now apply rrel_ok]. eapply rrel_bind.
    + intros y Hy. apply (Hr p p0 y); auto.
    + intros a b _ Hab. now apply insert_dperm.
  - eapply rrel_bind; [apply remove_dperm; eauto|]. intros [d1 o1] [d2 o2] He [R1 R2]. cbn [fst snd] in *.
    destruct (filev_remove _ _ _ _ Hd He) as [F1 F2].
    destruct o1, o2; try easy; [|apply insert_dperm; auto; apply dperm_refl].
    rewrite (is_weak_dperm p p0) by auto. destruct (is_weak p); apply insert_dperm; auto. apply dperm_refl.
  - eapply rrel_bind; [apply remove_dperm; eauto|]. intros [d1 o1] [d2 o2] He [R1 R2]. cbn [fst snd] in *.
    destruct (filev_remove _ _ _ _ Hd He) as [F1 F2].
    apply insert_dperm; auto. destruct o1, o2; try easy. apply dperm_refl.
  - eapply rrel_bind; [apply get_dperm; eauto|]. intros o1 o2 He R2.
    destruct o1, o2; try easy; [|now apply rrel_ok].
    rewrite (in_set_dperm p p0) by eauto using get_filev. destruct (py_in_set p allowed_values) as [b|]; [|apply rrel_err].
    destruct b; [now apply rrel_ok|apply rrel_err].
  - eapply rrel_bind; [apply remove_dperm; eauto|]. intros [d1 o1] [d2 o2] He [R1 R2]. cbn [fst snd] in *.
    destruct (filev_remove _ _ _ _ Hd He) as [F1 F2].
    destruct o1, o2; try easy; [|now apply rrel_ok].
    rewrite (in_set_dperm p p0) by auto. destruct (py_in_set p disallowed_values) as [b|]; [|apply rrel_err].
    destruct b; [apply rrel_err|now apply rrel_ok].
Qed.

Lemma rules_dperm rs : forall d d', Forall rule_orderless rs -> Forall rule_filev rs -> filev d = true -> dperm d d' ->
  rrel dperm (apply_rules rs d) (apply_rules rs d').
Proof.
  induction rs as [|r rs IH]; intros d d' Ho Hf Hd H; cbn [apply_rules]; [now apply rrel_ok|].
  inversion Ho; inversion Hf; subst. eapply rrel_bind; [apply rule_dperm; eauto|].
  intros a b Ha Hab. apply IH; auto. eapply filev_rule; eauto.
Qed.

Lemma steps_dperm rules vs :
  (forall i rs, In (i, rs) rules -> Forall rule_orderless rs) -> (forall i rs, In (i, rs) rules -> Forall rule_filev rs) ->
  forall d d', filev d = true -> dperm d d' -> rrel dperm (upgrade_steps rules vs d) (upgrade_steps rules vs d').
Proof.
  intros Ho Hf. induction vs as [|i vs IH]; intros d d' Hd H; cbn [upgrade_steps]; [now apply rrel_ok|].
  assert (R1 : Forall rule_orderless (rules_at rules i)).
  { unfold rules_at. destruct (zget i rules) eqn:Ez; [|constructor]. eapply Ho. eapply zget_in; eauto. }
  assert (R2 : Forall rule_filev (rules_at rules i)).
  { unfold rules_at. destruct (zget i rules) eqn:Ez; [|constructor]. eapply Hf. eapply zget_in; eauto. }
  eapply rrel_bind; [apply rules_dperm; eauto|]. intros a b Ha Hab. apply IH; auto. eapply filev_rules; eauto.
Qed.

Lemma upgrades_dperm cur rules d d' v v' :
  (forall i rs, In (i, rs) rules -> Forall rule_orderless rs) -> (forall i rs, In (i, rs) rules -> Forall rule_filev rs) ->
  filev d = true -> dperm d d' -> dperm v v' ->
  rrel dperm (apply_upgrades cur rules d v) (apply_upgrades cur rules d' v').
Proof.
  intros Ho Hf Hd H Hv. unfold apply_upgrades. destruct (forallb _ rules); [|apply rrel_err].
  assert (as_int v' = as_int v) as -> by (shape v Hv; reflexivity).
  destruct (as_int v); [|apply rrel_err]. now apply steps_dperm.
Qed.

Lemma versioned_dperm cls allow c fs x x' :
  loadable (TData c fs) -> orderless (TData c fs) -> filev x = true -> dperm x x' ->
  rrel dperm (deser_versioned cls allow (TData c fs) x) (deser_versioned cls allow (TData c fs) x').
Proof.
  intros (_ & _ & Hr & _) (Ho & _) Hx H. unfold deser_versioned.
  destruct (c_versioned c) as [[cur rules]|] eqn:Ec; [|now apply rrel_ok].
  assert (Ho' : forall i rs, In (i, rs) rules -> Forall rule_orderless rs) by (intros i rs; apply (Ho cur rules i rs eq_refl)).
  assert (Hr' : forall i rs, In (i, rs) rules -> Forall rule_filev rs) by (intros i rs; apply (Hr cur rules i rs eq_refl)).
  assert (M : forall a b, dperm a b -> rrel dperm (if allow then Ok a else Err ValueError) (if allow then Ok b else Err ValueError))
    by (intros a b Hab; destruct allow; [now apply rrel_ok|apply rrel_err]).
  destruct x; try discriminate.
  1-5: simpl in H; subst x'; apply M, dperm_refl.
  1-2: assert (H0 := H); destruct H as (m & -> & H); apply M; exact H0.
  - destruct (dperm_dict_dict d x' H) as [e ->]. assert (Hn : NoDup (akeys d)) by (apply filev_dict in Hx; tauto).
    assert (G := dperm_aget d e "version" Hn H). assert (Hd := dperm_adel d e "version" Hn H).
    assert (Hfd : filev (VDict (adel "version" d)) = true) by now apply filev_adel.
    destruct (aget "version" d) as [w|], (aget "version" e) as [w'|]; try easy; [|now apply M].
    assert (U := upgrades_dperm cur rules _ _ w w' Ho' Hr' Hfd Hd G).
    shape w G; auto.
  - assert (H0 := H). destruct H as (m & -> & H). change (all2 false entry_rel d m) in H.
    assert (G := entries_look d m H "version").
    destruct (aget "version" d) as [w|], (aget "version" m) as [w'|]; try easy; [|now apply M].
    assert (U : rrel dperm (let* _ := apply_upgrades cur rules VNone w in Ok (VNt name d))
                           (let* _ := apply_upgrades cur rules VNone w' in Ok (VNt name m))).
    { eapply rrel_bind; [apply upgrades_dperm; eauto; apply dperm_refl|]. intros a b _ _. now apply rrel_ok. }
    shape w G; auto; apply M; exact H0.
Qed.

(** ** the specification relation *)
Lemma weak_fits_dperm t : forall w w', filev w = true -> dperm w w' -> weak_fits t w -> weak_fits t w'.
Proof.
  induction t as [| | | | |i IH|l IH|kt vt IHk IHv|i IH|l IH|c fs IH|n ms|l|n] using ty_ind';
    intros w w' Hw H Hf; simpl; auto.
  simpl in Hf. apply all_Forall in Hf. apply all_Forall. rewrite Forall_forall in *.
  intros [n [ft fd]] Hin. specialize (Hf _ Hin). specialize (IH _ Hin). simpl in *. destruct fd; auto.
  intros Hd. specialize (Hf Hd). destruct w; try easy. destruct (dperm_dict_dict d w' H) as [e ->].
  assert (Hn : NoDup (akeys d)) by (apply filev_dict in Hw; tauto).
  assert (G := dperm_aget d e n Hn H). destruct (aget n d) as [x|] eqn:E1, (aget n e) as [y|]; try easy.
  apply (IH x y); auto. eapply filev_child; eauto.
Qed.

Lemma forall2_lift {A B C D} (P : A -> B -> Prop) (R : A -> C -> Prop) (Q : C -> D -> Prop) (T : B -> D -> Prop) l : forall m l',
  (forall a b c, In a l -> P a b -> R a c -> exists d, Q c d /\ T b d) ->
  Forall2 P l m -> all2 false R l l' -> exists m', Forall2 Q l' m' /\ all2 false T m m'.
Proof.
  induction l as [|a l IH]; intros m [|c l'] H HP HR; try easy; inversion HP; subst.
  - exists []. split; [constructor|exact I].
  - destruct HR as [R1 R2]. destruct (H a y c) as (d & D1 & D2); auto; [left; auto|].
    destruct (IH l'0 l') as (m' & M1 & M2); auto. { intros; eapply H; eauto; right; auto. }
    exists (d :: m'). split; [constructor; auto|split; auto].
Qed.

Lemma tuple_den_dperm (D D' : ty -> pyval -> pyval -> Prop) ts : forall l m l',
  (forall t x v x', In t ts -> In x l -> D t x v -> dperm x x' -> exists v', D' t x' v' /\ dperm v v') ->
  tuple_den D ts l m -> all2 false dperm l l' -> exists m', tuple_den D' ts l' m' /\ all2 false dperm m m'.
Proof.
  induction ts as [|t ts IH]; intros [|x l] [|v m] [|x' l'] H Ht Hl; try easy.
  - exists []. easy.
  - exists []. easy.
  - destruct Ht as [T1 T2]. destruct Hl as [L1 L2].
    destruct (H t x v x') as (v' & V1 & V2); auto; try (left; auto).
    destruct (IH l m l') as (m' & M1 & M2); auto. { intros; eapply H; eauto; right; auto. }
    exists (v' :: m'). split; split; auto.
Qed.

Lemma coerce_dperm E t x x' r : dperm x x' -> coerce_scalar E t x = Some r -> x' = x.
Proof.
  intros H Hc. destruct x; try discriminate; try exact H. destruct d; [|discriminate].
  destruct H as (m & -> & H). destruct m; easy.
Qed.

Lemma coerce_dperm_none E t x x' : dperm x x' -> coerce_scalar E t x = None -> coerce_scalar E t x' = None.
Proof.
  intros H Hc. destruct x; try (simpl in H; subst x'; exact Hc); try (shaped H; reflexivity).
  destruct d; destruct H as (m & -> & H); destruct m; try easy.
Qed.

Lemma union_den_dperm (D D' : ty -> Prop) nm nm' ts :
  dperm nm nm' -> union_den D nm ts -> exists a, In a ts /\ D a /\ (D' a -> union_den D' nm' ts).
Proof.
  intros Hn. induction ts as [|a ts IH]; intros H; [easy|]. simpl in *.
  rewrite <- (dperm_scalar_str nm nm' (ty_name a) Hn). destruct (py_eq nm (VStr (ty_name a))).
  - exists a; auto.
  - destruct (IH H) as (b & B1 & B2 & B3). exists b; auto.
Qed.

Lemma items_dperm y y' items : filev y = true -> dperm y y' -> items_of y = Some items ->
  exists items', items_of y' = Some items' /\ (forall k, orel dperm (aget k items) (aget k items')) /\
    NoDup (akeys items) /\ NoDup (akeys items').
Proof.
  intros Hy H Hi. destruct y; try discriminate; simpl in Hi.
  - destruct l; [|discriminate]. injection Hi as <-. destruct H as (m & -> & H). destruct m; [|easy].
    exists []. repeat split; auto; constructor.
  - injection Hi as <-. assert (Hn : NoDup (akeys d)) by (apply filev_dict in Hy; tauto).
    destruct (dperm_dict_inv d y' Hn H) as (e & -> & He & _ & Hl). exists e. auto.
  - injection Hi as <-. assert (Hn : NoDup (akeys d)) by (apply filev_items in Hy; tauto).
    destruct H as (m & -> & H). change (all2 false entry_rel d m) in H. exists m. split; [reflexivity|].
    split; [now apply entries_look|]. split; auto. now rewrite (entries_keys d m).
Qed.

Lemma unit_text_dperm x x' : dperm x x' -> dperm (unit_text x) (unit_text x').
Proof.
  intros H. destruct x; try (simpl in H; subst x'; apply dperm_refl); try (assert (H0 := H); shaped H; exact H0).
  assert (H0 := H). destruct d; destruct H as (m & -> & H); destruct m; try easy.
Qed.

Lemma find_ext {A} (f g : A -> bool) l : (forall x, f x = g x) -> List.find f l = List.find g l.
Proof. intros H. induction l as [|a l IH]; simpl; auto. now rewrite H, IH. Qed.

Lemma denotes_dperm E sch allow ff t : loadable t -> orderless t -> forall ig x x' v,
  filev x = true -> dperm x x' -> denotes E sch allow ff ig t x v ->
  exists v', denotes E sch allow ff ig t x' v' /\ dperm v v'.
Proof.
  induction t as [| | | | |i IH|l IH|kt vt IHk IHv|i IH|l IH|c fs IH|n ms|l|n] using ty_ind';
    intros Hl Ho ig x x' v Hx H Hd.
  - exists v. split; [|apply dperm_refl]. simpl in *. destruct x; try easy; simpl in H; subst x'; exact Hd.
  - exists v. split; [|apply dperm_refl]. simpl in *. destruct x; try easy; simpl in H; subst x'; exact Hd.
  - exists v. split; [|apply dperm_refl]. cbn [denotes] in *. destruct x; try easy; try (simpl in H; subst x'; exact Hd).
    destruct d; [|easy]. destruct H as (m & -> & H). destruct m; easy.
  - exists v. split; [|apply dperm_refl]. cbn [denotes] in *. destruct x; try easy; simpl in H; subst x'; exact Hd.
  - destruct Hd as [-> ->]. simpl in H. subst x'. exists VNone. split; [split; reflexivity|reflexivity].
  - destruct Hd as (l & m & -> & -> & HF). destruct H as (l' & -> & H).
    destruct (forall2_lift _ _ (denotes E sch allow ff false i) dperm _ _ _
               (fun a b c Ha HP HR => IH Hl Ho false a c b (filev_list l Hx a Ha) HR HP) HF H) as (m' & M1 & M2).
    exists (VList m'). split; [exists l', m'; auto|]. exists m'; auto.
  - destruct Hd as (it & m & Et & -> & HF). assert (Ht := dperm_tuple x x' H). rewrite Et in Ht.
    destruct (tuple_items x') as [it'|] eqn:Et'; [|easy]. apply all_Forall in Hl, Ho. rewrite Forall_forall in *.
    destruct (tuple_den_dperm _ (denotes E sch allow ff false) l it m it'
               (fun a y w y' Ha Hy HD HP => IH a Ha (Hl a Ha) (Ho a Ha) false y y' w (filev_tuple x it Hx Et y Hy) HP HD) HF Ht) as (m' & M1 & M2).
    exists (VTuple m'). split; [exists it', m'; auto|]. exists m'; auto.
  - destruct Hd as (d & e & -> & -> & HF). destruct H as (m & d' & -> & Hp & H). change (all2 false entry_rel d m) in H.
    assert (Hf : forall a, In a d -> filev (snd a) = true).
    { apply filev_dict in Hx as [_ Hx]. intros [k w] Ha. eapply Hx; eauto. }
    set (P := fun kv kw : string * pyval => fst kw = fst kv /\ denotes E sch allow ff false vt (snd kv) (snd kw)) in *.
    destruct (forall2_lift P entry_rel P entry_rel d e m) as (m' & M1 & M2); auto.
    { intros a b c0 Ha [P1 P2] [R1 R2]. destruct (IHv Hl Ho false (snd a) (snd c0) (snd b) (Hf a Ha) R2 P2) as (v' & V1 & V2).
      exists (fst a, v'). split; split; simpl; auto. }
    destruct (Permutation_Forall2 Hp M1) as (e' & E1 & E2). exists (VDict e'). split.
    + exists d', e'. auto.
    + exists m', e'. auto.
  - destruct Hd as [[-> ->]|[Hn Hd]].
    + simpl in H. subst x'. exists VNone. split; [left; auto|reflexivity].
    + destruct (IH Hl Ho ig x x' v Hx H Hd) as (v' & V1 & V2). exists v'. split; auto. right. split; auto.
      intros ->. assert (G := is_none_dperm x VNone H). destruct x; easy.
  - apply denotes_union in Hd. destruct (coerce_scalar E (TUnion l) x) as [r|] eqn:Ec.
    + assert (x' = x) as -> by (eapply coerce_dperm; eauto). exists v. split; [|apply dperm_refl].
      apply denotes_union. rewrite Ec. exact Hd.
    + destruct Hd as (d & nm & -> & Hnm & HU). destruct (dperm_dict_dict d x' H) as [e ->].
      assert (Hn : NoDup (akeys d)) by (apply filev_dict in Hx; tauto).
      assert (G := dperm_aget d e "!__name__" Hn H). rewrite Hnm in G. destruct (aget "!__name__" e) as [nm'|] eqn:En; [|easy].
      apply all_Forall in Hl, Ho. rewrite Forall_forall in *.
      assert (U : exists v', union_den (fun a => denotes E sch allow ff ig a (VDict e) v') nm' l /\ dperm v v').
      { clear Ec. induction l as [|a l IHl]; [easy|]. simpl in HU. 
        assert (Hs := dperm_scalar_str nm nm' (ty_name a) G). simpl. rewrite <- Hs.
        destruct (py_eq nm (VStr (ty_name a))).
        - apply (IH a (or_introl eq_refl) (Hl a (or_introl eq_refl)) (Ho a (or_introl eq_refl)) ig (VDict d)); auto.
        - apply IHl; auto; intros b Hb; [apply (IH b (or_intror Hb))|apply (Hl b (or_intror Hb))|apply (Ho b (or_intror Hb))]. }
      destruct U as (v' & U1 & U2). exists v'. split; auto. apply denotes_union.
      rewrite (coerce_dperm_none E (TUnion l) _ _ H Ec). exists e, nm'. auto.
  - destruct Hd as (y & items & o & H1 & H2 & -> & Hk & Hof).
    destruct (versioned_dperm (e_class E) allow c fs x x' Hl Ho Hx H y H1) as (y' & Hy' & Hyy).
    assert (Hy : filev y = true) by (eapply filev_versioned; eauto).
    destruct (items_dperm y y' items Hy Hyy H2) as (items' & Hi' & Hlk & Hn & Hn').
    assert (Hfi : forall k w, aget k items = Some w -> filev w = true).
    { intros k w Hw. apply aget_some_in in Hw. destruct y; try discriminate; simpl in H2.
      - destruct l; [|discriminate]. injection H2 as <-. easy.
      - injection H2 as <-. apply filev_dict in Hy as [_ Hy]. eauto.
      - injection H2 as <-. apply filev_items in Hy as [_ Hy]. eauto. }
    destruct Hl as (_ & _ & _ & Hl). destruct Ho as [_ Ho]. apply all_Forall in Hl, Ho. rewrite Forall_forall in *.
    assert (U : exists o', all2 false (fun (f : string * (ty * dflt)) kv =>
                        let '(n, (ft, fd)) := f in
                        fst kv = n /\
                        match aget n items' with
                        | None => default_field ft fd (VDict []) (snd kv)
                        | Some w => if is_weak w then default_field ft fd w (snd kv)
                                    else denotes E sch allow ff false ft w (snd kv)
                        end) fs o' /\ all2 false entry_rel o o').
    { clear Hk. revert o Hof. induction fs as [|[n [ft fd]] fs IHfs]; intros [|[k w] o] Hof; try easy.
      - exists []. easy.
      - destruct Hof as [[Hkn Hf] Hof]. cbn [fst snd] in *. subst k.
        destruct (IHfs) with (o := o) as (o' & O1 & O2); auto; try (intros b Hb; first [apply (IH b (or_intror Hb))|apply (Hl b (or_intror Hb))|apply (Ho b (or_intror Hb))]; fail).
        assert (V : exists w', (match aget n items' with
                        | None => default_field ft fd (VDict []) w'
                        | Some w => if is_weak w then default_field ft fd w w'
                                    else denotes E sch allow ff false ft w w'
                        end) /\ dperm w w').
        { specialize (Hlk n). destruct (aget n items) as [a|] eqn:Ea, (aget n items') as [a'|]; try easy.
          - simpl in Hlk. assert (Hfa := Hfi n a Ea). rewrite (is_weak_dperm a a') by auto. destruct (is_weak a).
            + exists w. split; [|apply dperm_refl]. destruct fd; auto. destruct Hf as [F1 F2]. split; auto. eapply weak_fits_dperm; eauto.
            + apply (IH (n, (ft, fd)) (or_introl eq_refl) (Hl _ (or_introl eq_refl)) (Ho _ (or_introl eq_refl)) false a); auto.
          - exists w. split; auto. apply dperm_refl. }
        destruct V as (w' & V1 & V2). exists ((n, w') :: o'). split; split; auto. split; auto. }
    destruct U as (o' & U1 & U2). exists (VObj (c_name c) o'). split; [|exists o'; auto].
    exists y', items', o'. split; [exact Hy'|]. split; [exact Hi'|]. split; [reflexivity|]. split; [|exact U1].
    intros k w' Hin. apply (in_nodup_aget _ _ _ Hn') in Hin. specialize (Hlk k). rewrite Hin in Hlk.
    destruct (aget k items) as [w|] eqn:Ew; [|easy]. simpl in Hlk. rewrite (is_weak_dperm w w'); eauto.
    apply aget_some_in in Ew. eauto.
  - destruct Hd as (m & y & Hf & ->). exists (VEnum n m y). split; [|apply dperm_refl]. exists m, y. split; auto.
    rewrite <- Hf. apply find_ext. intros mx. symmetry. now apply py_eq_dperm.
  - destruct Hd as (H1 & -> & a & Ha & He). exists (unit_text x'). assert (U := unit_text_dperm x x' H). split; auto.
    split; auto. split; auto. exists a. split; auto. rewrite <- (py_eq_dperm a (unit_text x) (unit_text x')); auto.
    destruct x; auto. destruct d; auto.
  - destruct Hd as (H1 & -> & s & -> & Hs). simpl in H. subst x'. exists VNone. split; [|reflexivity]. split; auto. split; auto. exists s; auto.
Qed.
