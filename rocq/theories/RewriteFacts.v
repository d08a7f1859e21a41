(** RewriteFacts.v -- path algebra for the rewrite rules. *)
From Verif Require Import Base AFacts Value Induct Schema Rewrite SpecTree.

(** ** paths *)
Lemma prefix_cons k p q : prefix (k :: p) (k :: q) <-> prefix p q.
Proof.
  split; intros [r H]; exists r; simpl in *; congruence.
Qed.

Lemma prefix_nil q : prefix [] q.
Proof. exists q; reflexivity. Qed.

Lemma prefix_cons_inv k p q : prefix (k :: p) q -> exists q', q = k :: q' /\ prefix p q'.
Proof. intros [r ->]. exists (p ++ r)%list. split; auto. exists r; auto. Qed.

Lemma unrelated_nil_l q : ~ unrelated [] q.
Proof. intros [H _]; apply H, prefix_nil. Qed.

Lemma unrelated_nil_r q : ~ unrelated q [].
Proof. intros [_ H]; apply H, prefix_nil. Qed.

Lemma unrelated_cons k p q : unrelated (k :: p) (k :: q) <-> unrelated p q.
Proof. unfold unrelated. now rewrite !prefix_cons. Qed.

Lemma unrelated_sym p q : unrelated p q -> unrelated q p.
Proof. intros [? ?]; split; auto. Qed.

Lemma unrelated_heads k j p q : k <> j -> unrelated (k :: p) (j :: q).
Proof. intros H; split; intros [r Hr]; simpl in Hr; congruence. Qed.

Lemma proper_cons q k p : proper_prefix q p -> proper_prefix (k :: q) (k :: p).
Proof. intros [r [H ->]]. exists r; auto. Qed.

Lemma proper_nil k p : proper_prefix [] (k :: p).
Proof. exists (k :: p); split; [discriminate|reflexivity]. Qed.

Lemma sections_root d k p : sections d (k :: p) -> exists m, d = VDict m.
Proof. intros H. apply (H [] d); [apply proper_nil|reflexivity]. Qed.

Lemma sections_cons m k p c :
  sections (VDict m) (k :: p) -> aget k m = Some c -> sections c p.
Proof.
  intros H Hc q x Hq Hx. apply (H (k :: q) x).
  - now apply proper_cons.
  - simpl. now rewrite Hc.
Qed.

Lemma sections_non_root d k p : sections_or_none d (k :: p) -> d = VNone \/ exists m, d = VDict m.
Proof. intros H. apply (H [] d); [apply proper_nil|reflexivity]. Qed.

Lemma sections_non_cons m k p c :
  sections_or_none (VDict m) (k :: p) -> aget k m = Some c -> sections_or_none c p.
Proof.
  intros H Hc q x Hq Hx. apply (H (k :: q) x).
  - now apply proper_cons.
  - simpl. now rewrite Hc.
Qed.

Lemma sections_weaken d p : sections d p -> sections_or_none d p.
Proof. intros H q x Hq Hx. right. eapply H; eauto. Qed.

(** ** well-formed trees *)
Lemma nodupb_NoDup l : nodupb l = true <-> NoDup l.
Proof.
  induction l as [|x l IH]; simpl; split; intros H; try constructor.
  - apply andb_true_iff in H as [H1 H2]. intros Hin.
    apply negb_true_iff in H1. assert (existsb (String.eqb x) l = true) as H3; [|congruence].
    apply existsb_exists. exists x; split; auto. apply String.eqb_refl.
  - apply andb_true_iff in H as [H1 H2]. now apply IH.
  - inversion H as [|? ? H1 H2]; subst. apply andb_true_iff; split; [|now apply IH].
    apply negb_true_iff. destruct (existsb (String.eqb x) l) eqn:E; auto.
    apply existsb_exists in E as [y [Hy He]]. apply String.eqb_eq in He; subst; tauto.
Qed.

Lemma wf_dict d : wf (VDict d) = true <-> NoDup (akeys d) /\ forall k v, In (k, v) d -> wf v = true.
Proof.
  simpl. rewrite andb_true_iff, nodupb_NoDup, forallb_forall. unfold akeys.
  split; intros [H1 H2]; split; auto.
  - intros k v Hin. apply (H2 (k, v) Hin).
  - intros [k v] Hin. simpl. eapply H2; eauto.
Qed.

Lemma wf_child d k c : wf (VDict d) = true -> aget k d = Some c -> wf c = true.
Proof.
  intros H Hc. apply wf_dict in H as [_ H]. eapply H. eapply aget_some_in; eauto.
Qed.

Lemma wf_aset d k c : wf (VDict d) = true -> wf c = true -> wf (VDict (aset k c d)) = true.
Proof.
  intros H Hc. apply wf_dict in H as [H1 H2]. apply wf_dict. split.
  - now apply nodup_aset.
  - intros j w Hin. apply in_aset in Hin as [[-> ->]|Hin]; eauto.
Qed.

Lemma wf_adel d k : wf (VDict d) = true -> wf (VDict (adel k d)) = true.
Proof.
  intros H. apply wf_dict in H as [H1 H2]. apply wf_dict. split.
  - now apply nodup_adel.
  - intros j w Hin. apply in_adel in Hin; eauto.
Qed.

Lemma wf_lookup p : forall d v, wf d = true -> lookup d p = Some v -> wf v = true.
Proof.
  induction p as [|k p IH]; simpl; intros d v Hw H.
  - congruence.
  - destruct d; try discriminate. destruct (aget k d) eqn:E; try discriminate.
    eapply IH; [|eauto]. eapply wf_child; eauto.
Qed.

(** ** lookup through an updated dict *)
Lemma lookup_aset_same k c m r : lookup (VDict (aset k c m)) (k :: r) = lookup c r.
Proof. simpl. now rewrite aget_aset_same. Qed.

Lemma lookup_aset_other k j c m r :
  k <> j -> lookup (VDict (aset k c m)) (j :: r) = lookup (VDict m) (j :: r).
Proof. intros H. simpl. rewrite aget_aset_other; auto. Qed.

Lemma lookup_adel_other k j m r :
  k <> j -> lookup (VDict (adel k m)) (j :: r) = lookup (VDict m) (j :: r).
Proof. intros H. simpl. rewrite aget_adel_other; auto. Qed.

(** ** remove *)
Lemma remove_cons_dict m k k2 r :
  remove_path (VDict m) (k :: k2 :: r) =
  match aget k m with
  | None => Ok (VDict m, None)
  | Some c =>
      if is_none c then Ok (VDict m, None)
      else let* cr := remove_path c (k2 :: r) in
           Ok (VDict (aset k (fst cr) m), snd cr)
  end.
Proof.
  cbn [remove_path py_in rbind]. unfold amem.
  destruct (aget k m) as [c|] eqn:E; cbn [negb rbind]; auto.
  unfold py_getitem. rewrite E. cbn [rbind].
  destruct (is_none c); auto.
Qed.

Lemma remove_present p : forall d v,
  p <> [] -> wf d = true -> lookup d p = Some v ->
  exists d', remove_path d p = Ok (d', Some v) /\ wf d' = true /\
    lookup d' p = None /\
    (forall q, unrelated p q -> lookup d' q = lookup d q) /\
    (forall q m, proper_prefix q p -> lookup d q = Some (VDict m) ->
                 exists m', lookup d' q = Some (VDict m')) /\
    (forall q, proper_prefix q p -> exists m, lookup d q = Some (VDict m)).
Proof.
  induction p as [|k p IH]; intros d v Hp Hw Hl; [congruence|].
  destruct d as [| | | | | | |m| | | |]; simpl in Hl; try discriminate.
  destruct (aget k m) as [c|] eqn:Ec; try discriminate.
  destruct p as [|k2 r].
  - simpl in Hl. injection Hl as <-.
    exists (VDict (adel k m)). cbn [remove_path]. rewrite Ec. repeat split; auto.
    + now apply wf_adel.
    + simpl. apply wf_dict in Hw as [Hn _]. now rewrite aget_adel_same.
    + intros q Hq. destruct q as [|j q]; [now apply unrelated_nil_r in Hq|].
      destruct (String.eqb k j) eqn:E.
      * apply String.eqb_eq in E; subst. apply unrelated_cons, unrelated_nil_l in Hq; tauto.
      * apply String.eqb_neq in E. now apply lookup_adel_other.
    + intros q m' [s [Hs He]] Hq. destruct q as [|j q]; simpl.
      * eauto.
      * simpl in He. injection He as -> He. destruct q; destruct s; simpl in He; try discriminate; congruence.
    + intros q [s [Hs He]]. destruct q as [|j q]; simpl; eauto.
      simpl in He. injection He as -> He. destruct q; destruct s; simpl in He; try discriminate; congruence.
  - assert (Hwc : wf c = true) by (eapply wf_child; eauto).
    destruct (IH c v) as (c' & R & W & N & U & P & A); [discriminate|exact Hwc|exact Hl|].
    exists (VDict (aset k c' m)). rewrite remove_cons_dict, Ec.
    assert (Hnn : is_none c = false) by (destruct c; simpl in *; try discriminate; auto).
    rewrite Hnn, R. cbn [rbind fst snd]. repeat split; auto.
    + now apply wf_aset.
    + rewrite lookup_aset_same; exact N.
    + intros q Hq. destruct q as [|j q]; [now apply unrelated_nil_r in Hq|].
      destruct (String.eqb k j) eqn:E.
      * apply String.eqb_eq in E; subst. apply unrelated_cons in Hq.
        rewrite lookup_aset_same, U; auto. simpl. now rewrite Ec.
      * apply String.eqb_neq in E. now apply lookup_aset_other.
    + intros q m' [s [Hs He]] Hq. destruct q as [|j q]; [simpl; eauto|].
      simpl in He. injection He as -> He. rewrite lookup_aset_same.
      simpl in Hq. rewrite Ec in Hq. eapply P; eauto. exists s; auto.
    + intros q [s [Hs He]]. destruct q as [|j q]; [simpl; eauto|].
      simpl in He. injection He as -> He. simpl. rewrite Ec. apply A. exists s; auto.
Qed.

Lemma aset_same_id {A} k (c : A) m : aget k m = Some c -> aset k c m = m.
Proof.
  induction m as [|[j w] m IH]; simpl; [discriminate|].
  destruct (String.eqb k j) eqn:E; intros H.
  - injection H as ->; reflexivity.
  - f_equal; auto.
Qed.

Lemma remove_absent p : forall d,
  p <> [] -> is_dict d = true -> sections_or_none d p -> lookup d p = None ->
  remove_path d p = Ok (d, None).
Proof.
  induction p as [|k p IH]; intros d Hp Hd Hs Hl; [congruence|].
  destruct d as [| | | | | | |m| | | |]; try discriminate.
  destruct p as [|k2 r].
  - cbn [remove_path]. simpl in Hl. destruct (aget k m); [discriminate|reflexivity].
  - rewrite remove_cons_dict. destruct (aget k m) as [c|] eqn:Ec; auto.
    destruct (is_none c) eqn:En; auto.
    assert (Hsc := sections_non_cons _ _ _ _ Hs Ec).
    destruct (sections_non_root _ _ _ Hsc) as [->|[mc ->]]; [discriminate|].
    rewrite IH; auto; [|discriminate|].
    + cbn [rbind fst snd]. now rewrite (aset_same_id k).
    + simpl in Hl |- *. rewrite Ec in Hl. exact Hl.
Qed.

(** ** insert *)
Lemma insert_unfold d k rest v cn :
  rest <> [] ->
  insert_path d (k :: rest) v cn =
  (let d1 := match d with
             | VDict m =>
                 if amem k m then d
                 else VDict (aset k (if cn then VDict []
                                     else VDict [(WEAK_REF, VBool true)]) m)
             | _ => d
             end in
   let* c := py_getitem d1 k in
   match c with
   | VDict m =>
       let c1 := if cn && amem WEAK_REF m then VDict (adel WEAK_REF m) else c in
       let* c' := insert_path c1 rest v cn in
       py_setitem d1 k c'
   | _ => Ok d1
   end).
Proof. intros H; destruct rest; [congruence|reflexivity]. Qed.

Lemma insert_cons_dict m k k2 r v cn :
  insert_path (VDict m) (k :: k2 :: r) v cn =
  match aget k m with
  | None =>
      let* c' := insert_path (if cn then VDict [] else VDict [(WEAK_REF, VBool true)]) (k2 :: r) v cn in
      Ok (VDict (aset k c' m))
  | Some (VDict mc) =>
      let* c' := insert_path (if cn then VDict (adel WEAK_REF mc) else VDict mc) (k2 :: r) v cn in
      Ok (VDict (aset k c' m))
  | Some _ => Ok (VDict m)
  end.
Proof.
  rewrite insert_unfold by discriminate. cbv zeta.
  destruct (aget k m) as [c|] eqn:E.
  - assert (Em : amem k m = true) by (unfold amem; now rewrite E).
    rewrite Em. unfold py_getitem. rewrite E. cbn [rbind].
    destruct c as [| | | | | | |mc| | | |]; auto.
    destruct cn; cbn [andb]; [|destruct (insert_path _ (k2 :: r) v _); reflexivity].
    destruct (amem WEAK_REF mc) eqn:Ew.
    + destruct (insert_path _ (k2 :: r) v _); reflexivity.
    + apply amem_false in Ew. rewrite adel_notin by exact Ew.
      destruct (insert_path _ (k2 :: r) v _); reflexivity.
  - assert (Em : amem k m = false) by (unfold amem; now rewrite E).
    rewrite Em. unfold py_getitem. rewrite aget_aset_same. cbn [rbind].
    destruct cn; cbn [andb].
    + change (amem WEAK_REF (@nil (string * pyval))) with false. cbn iota.
      destruct (insert_path _ (k2 :: r) v _); cbn [rbind]; auto.
      cbn [py_setitem]. now rewrite aset_aset.
    + destruct (insert_path _ (k2 :: r) v _); cbn [rbind]; auto.
      cbn [py_setitem]. now rewrite aset_aset.
Qed.

Lemma sections_adel_weak m p :
  ~ In WEAK_REF p -> sections (VDict m) p -> sections (VDict (adel WEAK_REF m)) p.
Proof.
  intros Hn Hs q x Hq Hx. destruct q as [|j q].
  - simpl in Hx. injection Hx as <-. eauto.
  - rewrite lookup_adel_other in Hx.
    + eapply Hs; eauto.
    + intros <-. destruct Hq as [s [_ ->]]. apply Hn. simpl; auto.
Qed.

Lemma sections_empty p : sections (VDict []) p.
Proof.
  intros q x Hq Hx. destruct q; simpl in Hx; [injection Hx as <-; eauto|discriminate].
Qed.

Lemma sections_single p : ~ In WEAK_REF p -> sections (VDict [(WEAK_REF, VBool true)]) p.
Proof.
  intros Hn q x Hq Hx. destruct q as [|j q].
  - simpl in Hx. injection Hx as <-. eauto.
  - cbn [lookup aget] in Hx. rewrite eqb_neq_str in Hx; [discriminate|].
    intros ->. apply Hn. destruct Hq as [s [_ ->]]. simpl; auto.
Qed.

Lemma insert_ok p : forall d v cn,
  p <> [] -> wf d = true -> wf v = true -> ~ In WEAK_REF p -> sections d p ->
  exists d', insert_path d p v cn = Ok d' /\ wf d' = true /\ is_dict d' = true /\
    lookup d' p = Some v /\
    (forall q, unrelated p q -> ~ In WEAK_REF q -> lookup d' q = lookup d q).
Proof.
  induction p as [|k p IH]; intros d v cn Hp Hw Hv Hn Hs; [congruence|].
  destruct (sections_root _ _ _ Hs) as [m ->].
  destruct p as [|k2 r].
  - exists (VDict (aset k v m)). cbn [insert_path py_setitem]. repeat split; auto.
    + now apply wf_aset.
    + rewrite lookup_aset_same. reflexivity.
    + intros q Hq _. destruct q as [|j q]; [now apply unrelated_nil_r in Hq|].
      destruct (String.eqb k j) eqn:E.
      * apply String.eqb_eq in E; subst. apply unrelated_cons, unrelated_nil_l in Hq; tauto.
      * apply String.eqb_neq in E. now apply lookup_aset_other.
  - rewrite insert_cons_dict.
    assert (Hn2 : ~ In WEAK_REF (k2 :: r)) by (intros H; apply Hn; right; exact H).
    (* the child the walk continues in *)
    assert (exists mc, wf (VDict mc) = true /\ sections (VDict mc) (k2 :: r) /\
              (forall q, ~ In WEAK_REF q -> q <> [] ->
                 lookup (VDict mc) q = lookup (VDict m) (k :: q)) /\
              insert_path (VDict m) (k :: k2 :: r) v cn =
              (let* c' := insert_path (VDict mc) (k2 :: r) v cn in Ok (VDict (aset k c' m))))
      as (mc & Wc & Sc & Lc & Ic).
    { rewrite insert_cons_dict. destruct (aget k m) as [c|] eqn:Ec.
      - assert (Hsc := sections_cons _ _ _ _ Hs Ec).
        destruct (sections_root _ _ _ Hsc) as [mc ->].
        assert (Wm : wf (VDict mc) = true) by (eapply wf_child; eauto).
        destruct cn.
        + exists (adel WEAK_REF mc). repeat split; auto.
          * now apply wf_adel.
          * now apply sections_adel_weak.
          * intros q Hq Hqn. cbn [lookup]. rewrite Ec. destruct q as [|j q]; [congruence|].
            apply lookup_adel_other. intros <-. apply Hq; left; auto.
        + exists mc. repeat split; auto. intros q Hq Hqn. simpl. rewrite Ec. reflexivity.
      - destruct cn.
        + exists []. repeat split; auto.
          * apply sections_empty.
          * intros q Hq Hqn. cbn [lookup]. rewrite Ec. destruct q; [congruence|reflexivity].
        + exists [(WEAK_REF, VBool true)]. repeat split; auto.
          * now apply sections_single.
          * intros q Hq Hqn. cbn [lookup]. rewrite Ec. destruct q as [|j q]; [congruence|].
            cbn [lookup aget]. rewrite eqb_neq_str; auto. intros ->; apply Hq; left; auto. }
    rewrite insert_cons_dict in Ic. rewrite Ic.
    destruct (IH (VDict mc) v cn) as (c' & I & W & D & L & U); auto; [discriminate|].
    exists (VDict (aset k c' m)). rewrite I. cbn [rbind]. repeat split; auto.
    + now apply wf_aset.
    + rewrite lookup_aset_same. exact L.
    + intros q Hq Hqw. destruct q as [|j q]; [now apply unrelated_nil_r in Hq|].
      destruct (String.eqb k j) eqn:E.
      * apply String.eqb_eq in E; subst. apply unrelated_cons in Hq.
        rewrite lookup_aset_same, U; auto; [|intros H; apply Hqw; right; exact H].
        apply Lc.
        -- intros H; apply Hqw; right; exact H.
        -- intros ->. now apply unrelated_nil_r in Hq.
      * apply String.eqb_neq in E. now apply lookup_aset_other.
Qed.

(** ** get *)
Lemma get_spec p : forall d,
  p <> [] -> sections d p -> get_path d p = Ok (lookup d p).
Proof.
  induction p as [|k p IH]; intros d Hp Hs; [congruence|].
  destruct (sections_root _ _ _ Hs) as [m ->].
  destruct p as [|k2 r].
  - cbn [get_path py_in rbind lookup]. unfold amem, py_getitem.
    destruct (aget k m) as [c|] eqn:E; cbn [negb rbind]; auto.
  - assert (G : get_path (VDict m) (k :: k2 :: r) =
                match aget k m with None => Ok None | Some c => get_path c (k2 :: r) end).
    { cbn [get_path py_in rbind]. unfold amem, py_getitem.
      destruct (aget k m) as [c|] eqn:E; cbn [negb rbind]; auto. }
    rewrite G. cbn [lookup].
    destruct (aget k m) as [c|] eqn:E; auto.
    apply (IH c); [discriminate|]. eapply sections_cons; eauto.
Qed.

(** ** the rules *)
(** sections on the way to [new], ignoring what disappears with [old] *)
Lemma remove_keeps_sections old new d d' v :
  old <> [] -> wf d = true -> lookup d old = Some v ->
  remove_path d old = Ok (d', Some v) ->
  (forall q x, proper_prefix q new -> lookup d q = Some x -> (exists m, x = VDict m) \/ prefix old q) ->
  sections d' new.
Proof.
  intros Ho Hw Hl Hr Hs q x Hq Hx.
  destruct (remove_present old d v Ho Hw Hl) as (d2 & R & W & N & U & P & A).
  rewrite R in Hr. injection Hr as <-.
  (* position of q relative to old *)
  assert (D : prefix old q \/ proper_prefix q old \/ unrelated old q).
  { clear. revert q. induction old as [|k o IH]; intros q; [left; apply prefix_nil|].
    destruct q as [|j q]; [right; left; apply proper_nil|].
    destruct (String.eqb k j) eqn:E.
    - apply String.eqb_eq in E; subst j. destruct (IH q) as [H|[H|H]].
      + left; now apply prefix_cons.
      + right; left; now apply proper_cons.
      + right; right; now apply unrelated_cons.
    - right; right. apply unrelated_heads. now apply String.eqb_neq. }
  destruct D as [[r ->]|[D|D]].
  - (* below old: nothing there *)
    exfalso. clear - N Hx. revert d2 N Hx. induction old as [|k o IH]; intros d2 N Hx; [discriminate|].
    simpl in *. destruct d2; try discriminate. destruct (aget k d) eqn:E; try discriminate. eauto.
  - destruct (A q D) as [m Hm]. destruct (P q m D Hm) as [m' Hm'].
    rewrite Hm' in Hx. injection Hx as <-. eauto.
  - rewrite U in Hx by exact D. destruct (Hs q x Hq Hx) as [H|H]; auto.
    destruct D as [D _]. contradiction.
Qed.

Lemma unrelated_dec p q : {unrelated p q} + {~ unrelated p q}.
Proof.
  revert q; induction p as [|k p IH]; intros q.
  - right; apply unrelated_nil_l.
  - destruct q as [|j q]; [right; apply unrelated_nil_r|].
    destruct (String.eqb k j) eqn:E.
    + apply String.eqb_eq in E; subst j. destruct (IH q) as [H|H].
      * left; now apply unrelated_cons.
      * right; rewrite unrelated_cons; exact H.
    + left; apply unrelated_heads; now apply String.eqb_neq.
Qed.

Theorem rename_present d old new v :
  wf d = true -> old <> [] -> new <> [] -> ~ In WEAK_REF new ->
  lookup d old = Some v ->
  (forall q x, proper_prefix q new -> lookup d q = Some x -> (exists m, x = VDict m) \/ prefix old q) ->
  exists d', apply_rule (RenameField old new) d = Ok d' /\ wf d' = true /\
    lookup d' new = Some v /\
    (unrelated old new -> ~ In WEAK_REF old -> lookup d' old = None) /\
    (forall q, unrelated old q -> unrelated new q -> ~ In WEAK_REF q -> lookup d' q = lookup d q).
Proof.
  intros Hw Ho Hn Hnw Hl Hs.
  destruct (remove_present old d v Ho Hw Hl) as (d1 & R & W & N & U & P & A).
  assert (S1 := remove_keeps_sections old new d d1 v Ho Hw Hl R Hs).
  destruct (insert_ok new d1 v true Hn W (wf_lookup _ _ _ Hw Hl) Hnw S1) as (d2 & I & W2 & D2 & L2 & U2).
  exists d2. cbn [apply_rule]. rewrite R. cbn [rbind fst snd]. rewrite I. repeat split; auto.
  - intros Hu How. rewrite U2; auto. now apply unrelated_sym.
  - intros q H1 H2 H3. rewrite U2, U; auto.
Qed.

Theorem rename_absent d old new :
  old <> [] -> is_dict d = true -> sections_or_none d old -> lookup d old = None ->
  apply_rule (RenameField old new) d = Ok d.
Proof.
  intros Ho Hd Hs Hl. cbn [apply_rule]. now rewrite (remove_absent old d Ho Hd Hs Hl).
Qed.

Theorem delete_spec d p :
  wf d = true -> p <> [] -> is_dict d = true -> sections_or_none d p ->
  exists d', apply_rule (DeleteField p) d = Ok d' /\ wf d' = true /\
    lookup d' p = None /\
    (forall q, unrelated p q -> lookup d' q = lookup d q) /\
    (lookup d p = None -> d' = d).
Proof.
  intros Hw Hp Hd Hs. cbn [apply_rule].
  destruct (lookup d p) as [v|] eqn:Hl.
  - destruct (remove_present p d v Hp Hw Hl) as (d1 & R & W & N & U & P & A).
    exists d1. rewrite R. cbn [rbind fst]. repeat split; auto. discriminate.
  - rewrite (remove_absent p d Hp Hd Hs Hl). exists d. cbn [rbind fst]. repeat split; auto.
Qed.

Lemma self_sections d p v :
  p <> [] -> wf d = true -> lookup d p = Some v ->
  forall d', remove_path d p = Ok (d', Some v) -> sections d' p.
Proof.
  intros Hp Hw Hl d' R. eapply remove_keeps_sections; eauto.
  intros q x Hq Hx. left.
  destruct (remove_present p d v Hp Hw Hl) as (_ & _ & _ & _ & _ & _ & A).
  destruct (A q Hq) as [m Hm]. rewrite Hm in Hx. injection Hx as <-. eauto.
Qed.

Theorem map_present d p f r v v' :
  wf d = true -> p <> [] -> ~ In WEAK_REF p -> lookup d p = Some v ->
  f v = Ok v' -> wf v' = true ->
  exists d', apply_rule (MapFieldValue p f r) d = Ok d' /\ wf d' = true /\
    lookup d' p = Some v' /\
    (forall q, unrelated p q -> ~ In WEAK_REF q -> lookup d' q = lookup d q).
Proof.
  intros Hw Hp Hpw Hl Hf Hv'. cbn [apply_rule].
  destruct (remove_present p d v Hp Hw Hl) as (d1 & R & W & N & U & P & A).
  assert (S1 := self_sections d p v Hp Hw Hl d1 R).
  destruct (insert_ok p d1 v' true Hp W Hv' Hpw S1) as (d2 & I & W2 & D2 & L2 & U2).
  exists d2. rewrite R. cbn [rbind fst snd]. rewrite Hf. cbn [rbind]. rewrite I.
  repeat split; auto. intros q H1 H2. rewrite U2, U; auto.
Qed.

Theorem map_error d p f r v e :
  wf d = true -> p <> [] -> lookup d p = Some v -> f v = Err e ->
  apply_rule (MapFieldValue p f r) d = Err e.
Proof.
  intros Hw Hp Hl Hf. cbn [apply_rule].
  destruct (remove_present p d v Hp Hw Hl) as (d1 & R & _).
  rewrite R. cbn [rbind fst snd]. now rewrite Hf.
Qed.

Theorem map_absent d p f r :
  p <> [] -> is_dict d = true -> sections_or_none d p -> lookup d p = None ->
  apply_rule (MapFieldValue p f r) d = Ok d.
Proof.
  intros Hp Hd Hs Hl. cbn [apply_rule]. now rewrite (remove_absent p d Hp Hd Hs Hl).
Qed.

Theorem change_default_present d p old new v :
  wf d = true -> p <> [] -> ~ In WEAK_REF p -> lookup d p = Some v -> is_weak v = false ->
  exists d', apply_rule (ChangeDefault p old new) d = Ok d' /\ wf d' = true /\
    lookup d' p = Some v /\
    (forall q, unrelated p q -> ~ In WEAK_REF q -> lookup d' q = lookup d q).
Proof.
  intros Hw Hp Hpw Hl Hv. cbn [apply_rule].
  destruct (remove_present p d v Hp Hw Hl) as (d1 & R & W & N & U & P & A).
  assert (S1 := self_sections d p v Hp Hw Hl d1 R).
  destruct (insert_ok p d1 v true Hp W (wf_lookup _ _ _ Hw Hl) Hpw S1) as (d2 & I & W2 & D2 & L2 & U2).
  exists d2. rewrite R. cbn [rbind fst snd]. rewrite Hv. rewrite I.
  repeat split; auto. intros q H1 H2. rewrite U2, U; auto.
Qed.

Theorem change_default_absent d p old new :
  wf d = true -> p <> [] -> ~ In WEAK_REF p -> sections d p -> lookup d p = None -> wf old = true ->
  exists d', apply_rule (ChangeDefault p old new) d = Ok d' /\ wf d' = true /\
    lookup d' p = Some old /\
    (forall q, unrelated p q -> ~ In WEAK_REF q -> lookup d' q = lookup d q).
Proof.
  intros Hw Hp Hpw Hs Hl Ho. cbn [apply_rule].
  assert (Hd : is_dict d = true).
  { destruct p; [congruence|]. destruct (sections_root _ _ _ Hs) as [m ->]; reflexivity. }
  rewrite (remove_absent p d Hp Hd (sections_weaken _ _ Hs) Hl). cbn [rbind fst snd].
  destruct (insert_ok p d old false Hp Hw Ho Hpw Hs) as (d2 & I & W2 & D2 & L2 & U2).
  exists d2. rewrite I. repeat split; auto.
Qed.

Theorem add_default_present d p dv v :
  wf d = true -> p <> [] -> ~ In WEAK_REF p -> lookup d p = Some v ->
  exists d', apply_rule (AddDefault p dv) d = Ok d' /\ wf d' = true /\
    lookup d' p = Some v /\
    (forall q, unrelated p q -> ~ In WEAK_REF q -> lookup d' q = lookup d q).
Proof.
  intros Hw Hp Hpw Hl. cbn [apply_rule].
  destruct (remove_present p d v Hp Hw Hl) as (d1 & R & W & N & U & P & A).
  assert (S1 := self_sections d p v Hp Hw Hl d1 R).
  destruct (insert_ok p d1 v false Hp W (wf_lookup _ _ _ Hw Hl) Hpw S1) as (d2 & I & W2 & D2 & L2 & U2).
  exists d2. rewrite R. cbn [rbind fst snd]. rewrite I.
  repeat split; auto. intros q H1 H2. rewrite U2, U; auto.
Qed.

Theorem add_default_absent d p dv :
  wf d = true -> p <> [] -> ~ In WEAK_REF p -> sections d p -> lookup d p = None -> wf dv = true ->
  exists d', apply_rule (AddDefault p dv) d = Ok d' /\ wf d' = true /\
    lookup d' p = Some dv /\
    (forall q, unrelated p q -> ~ In WEAK_REF q -> lookup d' q = lookup d q).
Proof.
  intros Hw Hp Hpw Hs Hl Ho. cbn [apply_rule].
  assert (Hd : is_dict d = true).
  { destruct p; [congruence|]. destruct (sections_root _ _ _ Hs) as [m ->]; reflexivity. }
  rewrite (remove_absent p d Hp Hd (sections_weaken _ _ Hs) Hl). cbn [rbind fst snd].
  destruct (insert_ok p d dv false Hp Hw Ho Hpw Hs) as (d2 & I & W2 & D2 & L2 & U2).
  exists d2. rewrite I. repeat split; auto.
Qed.

(** ** weak references *)
Lemma given_cons m k q : given (VDict m) (k :: q) <-> exists c, aget k m = Some c /\ given c q.
Proof.
  unfold given. simpl. destruct (aget k m) as [c|]; split.
  - intros H; exists c; auto.
  - intros [c' [H1 H2]]; injection H1 as <-; exact H2.
  - intros [m' [H _]]; discriminate.
  - intros [c' [H _]]; discriminate.
Qed.

Lemma given_dict m : given (VDict m) [] <-> aget WEAK_REF m = None.
Proof.
  unfold given. simpl. split.
  - intros [m' [H1 H2]]; injection H1 as <-; exact H2.
  - intros H; exists m; auto.
Qed.

Lemma proper_cons_inv q k p :
  proper_prefix q (k :: p) -> q = [] \/ exists q', q = k :: q' /\ proper_prefix q' p.
Proof.
  intros [s [Hs He]]. destruct q as [|j q]; [auto|]. right.
  simpl in He. injection He as -> ->. exists q; split; auto. exists s; auto.
Qed.

Lemma insert_weak_given p : forall d v d' q,
  ~ In WEAK_REF p -> sections d p -> insert_path d p v false = Ok d' ->
  proper_prefix q p -> (given d' q <-> given d q).
Proof.
  induction p as [|k p IH]; intros d v d' q Hn Hs Hi Hq.
  { destruct Hq as [s [Hs' He]]. destruct q, s; simpl in He; congruence. }
  destruct (sections_root _ _ _ Hs) as [m ->].
  destruct p as [|k2 r].
  - cbn [insert_path py_setitem] in Hi. injection Hi as <-.
    apply proper_cons_inv in Hq as [->|[q' [-> [s [Hs' He]]]]].
    + rewrite !given_dict, aget_aset_other; [tauto|]. intros <-. apply Hn; left; auto.
    + destruct q', s; simpl in He; congruence.
  - rewrite insert_cons_dict in Hi.
    assert (Hn2 : ~ In WEAK_REF (k2 :: r)) by (intros H; apply Hn; right; exact H).
    destruct (aget k m) as [c|] eqn:Ec.
    + assert (Hsc := sections_cons _ _ _ _ Hs Ec).
      destruct (sections_root _ _ _ Hsc) as [mc ->].
      apply rbind_ok in Hi as (c' & Hc' & Hd'). injection Hd' as <-.
      apply proper_cons_inv in Hq as [->|[q' [-> Hq']]].
      * rewrite !given_dict, aget_aset_other; [tauto|]. intros <-. apply Hn; left; auto.
      * rewrite !given_cons, aget_aset_same, Ec.
        assert (G := IH _ _ _ _ Hn2 Hsc Hc' Hq'). split; intros [c [H1 H2]]; injection H1 as <-;
          eexists; split; try reflexivity; now apply G.
    + apply rbind_ok in Hi as (c' & Hc' & Hd'). injection Hd' as <-.
      apply proper_cons_inv in Hq as [->|[q' [-> Hq']]].
      * rewrite !given_dict, aget_aset_other; [tauto|]. intros <-. apply Hn; left; auto.
      * rewrite !given_cons, aget_aset_same, Ec.
        assert (G := IH _ _ _ _ Hn2 (sections_single _ Hn2) Hc' Hq').
        split; [|intros [c [H _]]; discriminate].
        intros [c [H1 H2]]. injection H1 as <-. apply G in H2. exfalso.
        destruct H2 as [mm [H2 H3]]. destruct q' as [|j q'].
        -- simpl in H2. injection H2 as <-. discriminate.
        -- cbn [lookup aget] in H2. rewrite eqb_neq_str in H2; [discriminate|].
           intros ->. apply Hn2. destruct Hq' as [s [_ ->]]. left; auto.
Qed.

Lemma remove_given p : forall d v d' q,
  ~ In WEAK_REF p -> wf d = true -> remove_path d p = Ok (d', Some v) ->
  proper_prefix q p -> (given d' q <-> given d q).
Proof.
  induction p as [|k p IH]; intros d v d' q Hn Hw Hr Hq.
  { destruct Hq as [s [Hs' He]]. destruct q, s; simpl in He; congruence. }
  assert (Hkw : WEAK_REF <> k) by (intros <-; apply Hn; left; auto).
  destruct p as [|k2 r].
  - cbn [remove_path] in Hr. destruct d as [| | | | | | |m| | | |]; try discriminate.
    destruct (aget k m); try discriminate. injection Hr as <- _.
    apply proper_cons_inv in Hq as [->|[q' [-> [s [Hs' He]]]]].
    + rewrite !given_dict, aget_adel_other; tauto.
    + destruct q', s; simpl in He; congruence.
  - assert (exists m, d = VDict m) as [m ->].
    { cbn [remove_path] in Hr. apply rbind_ok in Hr as (b & Hb & Hr).
      destruct b; cbn [negb] in Hr; [|discriminate].
      apply rbind_ok in Hr as (c & Hc & Hr). destruct d; try discriminate. eauto. }
    rewrite remove_cons_dict in Hr. destruct (aget k m) as [c|] eqn:Ec; [|discriminate].
    destruct (is_none c); [discriminate|].
    apply rbind_ok in Hr as ([c' o] & Hc' & Hd'). cbn [fst snd] in Hd'. injection Hd' as <- ->.
    apply proper_cons_inv in Hq as [->|[q' [-> Hq']]].
    + rewrite !given_dict, aget_aset_other; tauto.
    + rewrite !given_cons, aget_aset_same, Ec.
      assert (Hn2 : ~ In WEAK_REF (k2 :: r)) by (intros H; apply Hn; right; exact H).
      assert (G := IH _ _ _ _ Hn2 (wf_child _ _ _ Hw Ec) Hc' Hq').
      split; intros [x [H1 H2]]; injection H1 as <-; eexists; split; try reflexivity; now apply G.
Qed.

Theorem add_default_given d p dv d' q :
  wf d = true -> p <> [] -> ~ In WEAK_REF p -> sections d p ->
  apply_rule (AddDefault p dv) d = Ok d' -> proper_prefix q p -> (given d' q <-> given d q).
Proof.
  intros Hw Hp Hn Hs Ha Hq. cbn [apply_rule] in Ha.
  destruct (lookup d p) as [v|] eqn:Hl.
  - destruct (remove_present p d v Hp Hw Hl) as (d1 & R & W & _).
    rewrite R in Ha. cbn [rbind fst snd] in Ha.
    rewrite (insert_weak_given p d1 _ d' q Hn (self_sections d p v Hp Hw Hl d1 R) Ha Hq).
    eapply remove_given; eauto.
  - assert (Hd : is_dict d = true).
    { destruct p; [congruence|]. destruct (sections_root _ _ _ Hs) as [m ->]; reflexivity. }
    rewrite (remove_absent p d Hp Hd (sections_weaken _ _ Hs) Hl) in Ha. cbn [rbind fst snd] in Ha.
    eapply insert_weak_given; eauto.
Qed.

Theorem change_default_given d p old new d' q :
  wf d = true -> p <> [] -> ~ In WEAK_REF p -> sections d p -> lookup d p = None ->
  apply_rule (ChangeDefault p old new) d = Ok d' -> proper_prefix q p -> (given d' q <-> given d q).
Proof.
  intros Hw Hp Hn Hs Hl Ha Hq. cbn [apply_rule] in Ha.
  assert (Hd : is_dict d = true).
  { destruct p; [congruence|]. destruct (sections_root _ _ _ Hs) as [m ->]; reflexivity. }
  rewrite (remove_absent p d Hp Hd (sections_weaken _ _ Hs) Hl) in Ha. cbn [rbind fst snd] in Ha.
  eapply insert_weak_given; eauto.
Qed.

(** ** checks *)
Theorem check_value_spec d p allowed :
  p <> [] -> sections d p ->
  apply_rule (CheckValue p allowed) d =
  match lookup d p with
  | None => Ok d
  | Some x => if hashable x then (if py_elem x allowed then Ok d else Err ValueError)
              else Err TypeError
  end.
Proof.
  intros Hp Hs. cbn [apply_rule]. rewrite (get_spec p d Hp Hs). cbn [rbind].
  destruct (lookup d p) as [x|]; auto. unfold py_in_set.
  destruct (hashable x); auto.
Qed.

Lemma check_value_pure d p allowed d' : apply_rule (CheckValue p allowed) d = Ok d' -> d' = d.
Proof.
  cbn [apply_rule]. intros H. apply rbind_ok in H as (o & Ho & H).
  destruct o; [|congruence]. apply rbind_ok in H as (b & _ & H).
  destruct b; congruence.
Qed.

Theorem reject_values_spec d p bad :
  wf d = true -> p <> [] -> is_dict d = true -> sections_or_none d p ->
  exists d1, apply_rule (DeleteField p) d = Ok d1 /\
  apply_rule (RejectValues p bad) d =
  match lookup d p with
  | None => Ok d
  | Some x => if hashable x then (if py_elem x bad then Err ValueError else Ok d1)
              else Err TypeError
  end.
Proof.
  intros Hw Hp Hd Hs. cbn [apply_rule].
  destruct (lookup d p) as [v|] eqn:Hl.
  - destruct (remove_present p d v Hp Hw Hl) as (d1 & R & W & N & U & P & A).
    exists d1. rewrite R. cbn [rbind fst snd]. split; auto.
    unfold py_in_set. destruct (hashable v); auto.
  - rewrite (remove_absent p d Hp Hd Hs Hl). exists d. auto.
Qed.

(** ** hashing *)
Lemma hashable_iff x : hashable x = false <-> unhashable x.
Proof.
  induction x as [|b|z|f|s|l IH|l IH|d IH|n d IH|c d IH|c m x IH|c x IH] using pyval_ind'; cbn [hashable];
    try (split; [discriminate|intros H; now inversion H]); try (split; [constructor|reflexivity]).
  - split.
    + intros H. destruct (existsb (fun v => negb (hashable v)) l) eqn:E.
      * apply existsb_exists in E. destruct E as (v & I & E). apply negb_true_iff in E. rewrite Forall_forall in IH.
        econstructor; [exact I|]. now apply IH.
      * exfalso. enough (forallb hashable l = true) by congruence. apply forallb_forall. intros v I.
        destruct (hashable v) eqn:Q; [reflexivity|]. enough (existsb (fun v => negb (hashable v)) l = true) by congruence.
        apply existsb_exists. exists v. now rewrite Q.
    + intros H. inversion H as [| | |l0 v I U|]; subst. rewrite Forall_forall in IH. apply (IH v I) in U.
      destruct (forallb hashable l) eqn:E; [|reflexivity]. rewrite forallb_forall in E. rewrite (E v I) in U. discriminate.
  - split.
    + intros H. destruct (existsb (fun kv : string * pyval => negb (hashable (snd kv))) d) eqn:E.
      * apply existsb_exists in E. destruct E as ([k v] & I & E). apply negb_true_iff in E. rewrite Forall_forall in IH.
        econstructor; [exact I|]. now apply (IH (k, v) I).
      * exfalso. enough (forallb (fun kv : string * pyval => hashable (snd kv)) d = true) by congruence. apply forallb_forall. intros v I.
        destruct (hashable (snd v)) eqn:Q; [reflexivity|]. enough (existsb (fun kv : string * pyval => negb (hashable (snd kv))) d = true) by congruence.
        apply existsb_exists. exists v. now rewrite Q.
    + intros H. inversion H as [| | | |n0 d0 k v I U]; subst. rewrite Forall_forall in IH. apply (IH (k, v) I) in U. cbn [snd] in U.
      destruct (forallb _ d) eqn:E; [|reflexivity]. rewrite forallb_forall in E. specialize (E _ I). cbn [snd] in E. congruence.
Qed.

Lemma elem_among x l : py_elem x l = true <-> among x l.
Proof. apply existsb_exists. Qed.

Lemma check_value_cases d p allowed : p <> [] -> sections d p ->
  (lookup d p = None -> apply_rule (CheckValue p allowed) d = Ok d) /\
  (forall x, lookup d p = Some x ->
     (unhashable x -> apply_rule (CheckValue p allowed) d = Err TypeError) /\
     (~ unhashable x -> among x allowed -> apply_rule (CheckValue p allowed) d = Ok d) /\
     (~ unhashable x -> ~ among x allowed -> apply_rule (CheckValue p allowed) d = Err ValueError)).
Proof.
  intros Hp Hs. rewrite (check_value_spec d p allowed Hp Hs). split; [now intros ->|]. intros x ->.
  rewrite <- hashable_iff, <- elem_among. destruct (hashable x), (py_elem x allowed); intuition congruence.
Qed.

Lemma reject_values_cases d p bad : wf d = true -> p <> [] -> is_dict d = true -> sections_or_none d p ->
  (lookup d p = None -> apply_rule (RejectValues p bad) d = Ok d) /\
  (forall x, lookup d p = Some x ->
     (unhashable x -> apply_rule (RejectValues p bad) d = Err TypeError) /\
     (~ unhashable x -> among x bad -> apply_rule (RejectValues p bad) d = Err ValueError) /\
     (~ unhashable x -> ~ among x bad -> exists d1, apply_rule (RejectValues p bad) d = Ok d1 /\ apply_rule (DeleteField p) d = Ok d1)).
Proof.
  intros Hw Hp Hd Hs. destruct (reject_values_spec d p bad Hw Hp Hd Hs) as (d1 & D & R). rewrite R. split; [now intros ->|]. intros x ->.
  rewrite <- hashable_iff, <- elem_among. destruct (hashable x), (py_elem x bad); repeat split; intros; try congruence; eauto.
Qed.
