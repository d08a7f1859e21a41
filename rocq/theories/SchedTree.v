(** SchedTree.v -- the dict of schedules: building it ([sched_add]) and applying
    it to a config ([apply_schedules]). *)
From Verif Require Import Base AFacts Value Schema Rewrite Sched Types Asdict FromDict Manager Induct SpecTree SpecTypes
  RewriteFacts FromDictFacts RoundTrip SpecState ResumeFacts.
From Verif Require OverrideFacts.

(** ** [sched_add] on positions of at most two segments *)

(** positions at which schedules may sit *)
Definition good (M : list string -> schedule -> Prop) : Prop :=
  (forall p s, M p s -> length p <= 2) /\
  (forall p s s', M p s -> M p s' -> s = s') /\
  (forall k k' s s', M [k] s -> M [k; k'] s' -> False).

(** everything in the dict is at such a position *)
Definition only (M : list string -> schedule -> Prop) (root : list (string * stree)) : Prop :=
  NoDup (akeys root) /\
  forall k t, aget k root = Some t ->
    match t with
    | SLeaf s => M [k] s
    | SNode l => NoDup (akeys l) /\ (exists k2 s2, M [k; k2] s2) /\
                 forall k2 t2, aget k2 l = Some t2 -> exists s, t2 = SLeaf s /\ M [k; k2] s
    end.

Definition keeps (a b : list (string * stree)) : Prop :=
  forall p s, sched_at (SNode a) p = Some s -> sched_at (SNode b) p = Some s.

Lemma keeps_refl a : keeps a a.
Proof. intros p s; auto. Qed.
Lemma keeps_trans a b c : keeps a b -> keeps b c -> keeps a c.
Proof. unfold keeps; auto. Qed.

Lemma only_nil M : only M [].
Proof. split; [constructor|]. intros k t; discriminate. Qed.

Lemma only_at M root p s : only M root -> sched_at (SNode root) p = Some s -> M p s.
Proof.
  intros [_ H] Hs. destruct p as [|k p]; [discriminate|]. cbn [sched_at] in Hs.
  destruct (aget k root) as [t|] eqn:Ek; [|discriminate]. apply H in Ek. destruct t as [s'|l].
  - destruct p; [|destruct p; discriminate]. cbn in Hs. congruence.
  - destruct p as [|k2 p]; [discriminate|]. cbn [sched_at] in Hs. destruct (aget k2 l) as [t2|] eqn:E2; [|discriminate].
    destruct Ek as (_ & _ & Ek). apply Ek in E2 as (s2 & -> & Hm). destruct p; [|discriminate]. cbn in Hs. congruence.
Qed.

Lemma sched_add_good M root path s :
  good M -> only M root -> M (split_on "." path) s ->
  exists root', sched_add root path s = Ok root' /\ only M root' /\ keeps root root' /\
                sched_at (SNode root') (split_on "." path) = Some s.
Proof.
  intros (G1 & G2 & G3) [Hr Ho] Hm. unfold sched_add. assert (Hl := G1 _ _ Hm).
  assert (Hn := OverrideFacts.split_on_nonempty "." path).
  destruct (split_on "." path) as [|k [|k2 [|k3 r]]]; [easy| | |simpl in Hl; lia]; clear Hl Hn.
  - cbn [removelast sched_walk rbind fst snd last sched_assign]. exists (aset k (SLeaf s) root).
    split; [reflexivity|]. split; [|split].
    + split; [now apply nodup_aset|]. intros j t Hj. rewrite aget_aset in Hj. destruct (String.eqb_spec j k) as [->|Hjk].
      * injection Hj as <-. exact Hm.
      * now apply Ho.
    + intros p s' Hp. destruct p as [|j p]; [discriminate|]. cbn [sched_at] in *. rewrite aget_aset.
      destruct (String.eqb_spec j k) as [->|Hjk]; auto.
      destruct (aget k root) as [t|] eqn:Ek; [|discriminate]. apply Ho in Ek. destruct t as [s2|l].
      * destruct p; [|destruct p; discriminate]. cbn in *. f_equal. injection Hp as ->. eapply G2; eauto.
      * destruct Ek as (_ & (k2 & s2 & Hk) & _). exfalso. eapply G3; eauto.
    + cbn [sched_at]. now rewrite aget_aset_same.
  - cbn [removelast last sched_walk sched_contains rbind].
    destruct (amem k root) eqn:Ek.
    + cbn [rbind]; rewrite ?Ek; cbn [rbind fst snd sched_assign]. rewrite amem_aget in Ek.
      destruct (aget k root) as [t|] eqn:Et; [|discriminate]. assert (Et' := Et). apply Ho in Et'.
      destruct t as [s2|l]; [exfalso; eapply G3; eauto|]. destruct Et' as (Hnl & _ & Hc).
      exists (aset k (SNode (aset k2 (SLeaf s) l)) root). split; [reflexivity|]. split; [|split].
      * split; [now apply nodup_aset|]. intros j t Hj. rewrite aget_aset in Hj. destruct (String.eqb_spec j k) as [->|Hjk]; [|now apply Ho].
        injection Hj as <-. split; [now apply nodup_aset|]. split; [eauto|]. intros j2 t2 Hj2. rewrite aget_aset in Hj2.
        destruct (String.eqb_spec j2 k2) as [->|Hjk2]; [injection Hj2 as <-; eauto|auto].
      * intros p s' Hp. destruct p as [|j p]; [discriminate|]. cbn [sched_at] in *. rewrite aget_aset.
        destruct (String.eqb_spec j k) as [->|Hjk]; auto. rewrite Et in Hp.
        destruct p as [|j2 p]; [discriminate|]. cbn [sched_at] in *. rewrite aget_aset.
        destruct (String.eqb_spec j2 k2) as [->|Hjk2]; auto.
        destruct (aget k2 l) as [t2|] eqn:E2; [|discriminate]. apply Hc in E2 as (s3 & -> & Hm2).
        destruct p; [|discriminate]. cbn in *. f_equal. injection Hp as ->. eapply G2; eauto.
      * cbn [sched_at]. rewrite aget_aset_same. cbn [sched_at]. now rewrite aget_aset_same.
    + cbn [sched_assign rbind]. assert (amem k (aset k (SNode []) root) = true) as -> by (rewrite amem_aget, aget_aset_same; auto).
      cbn [sched_walk rbind fst snd sched_assign]. rewrite aget_aset_same. cbn [aset]. rewrite aset_aset.
      exists (aset k (SNode [(k2, SLeaf s)]) root). split; [reflexivity|].
      rewrite amem_aget in Ek. destruct (aget k root) eqn:Et; [discriminate|]. split; [|split].
      * split; [now apply nodup_aset|]. intros j t Hj. rewrite aget_aset in Hj. destruct (String.eqb_spec j k) as [->|Hjk]; [|now apply Ho].
        injection Hj as <-. split; [constructor; [easy|constructor]|]. split; [eauto|]. intros j2 t2 Hj2. cbn [aget] in Hj2.
        destruct (String.eqb_spec j2 k2) as [->|Hjk2]; [injection Hj2 as <-; eauto|discriminate].
      * intros p s' Hp. destruct p as [|j p]; [discriminate|]. cbn [sched_at] in *. rewrite aget_aset.
        destruct (String.eqb_spec j k) as [->|Hjk]; auto. now rewrite Et in Hp.
      * cbn [sched_at]. rewrite aget_aset_same. cbn [sched_at aget]. now rewrite String.eqb_refl.
Qed.

(** ** applying schedules *)

Definition apply_go (E : env) (state : pyval) :=
  fix go (l : list (string * stree)) (c : pyval) : res pyval :=
    match l with
    | [] => Ok c
    | (k', t') :: r => let* c' := apply_entry E state k' t' c in go r c'
    end.

Lemma apply_schedules_go E state l : forall c, apply_schedules E state l c = apply_go E state l c.
Proof. induction l as [|[k t] l IH]; intros c; [reflexivity|]. cbn [apply_schedules apply_go]. destruct (apply_entry _ _ _ _ _); cbn [rbind]; auto. Qed.

Lemma apply_entry_node E state k l c :
  apply_entry E state k (SNode l) c =
  (let* sub := py_getattr c k in let* sub' := apply_schedules E state l sub in py_setattr c k sub').
Proof. cbn [apply_entry]. destruct (py_getattr c k); cbn [rbind]; auto. rewrite apply_schedules_go. reflexivity. Qed.

Lemma stree_ind' (P : stree -> Prop) :
  (forall s, P (SLeaf s)) ->
  (forall l, Forall (fun kt => P (snd kt)) l -> P (SNode l)) ->
  forall t, P t.
Proof.
  intros H1 H2. fix IH 1. intros [s|l]; [apply H1|]. apply H2.
  induction l as [|[k t] l IHl]; constructor; [apply IH|exact IHl].
Qed.

Lemma aset_same {A} k (x : A) d : aget k d = Some x -> aset k x d = d.
Proof.
  induction d as [|[j y] d IH]; cbn [aget aset]; intros H; [discriminate|].
  destruct (String.eqb_spec k j) as [->|Hkj]; [injection H as ->; reflexivity|]. f_equal; auto.
Qed.

(** without schedules nothing changes *)
Lemma barren_entry E state t : forall k c c', named k t -> (forall p s, sched_at t p <> Some s) ->
  apply_entry E state k t c = Ok c' -> c' = c.
Proof.
  induction t as [s|l IH] using stree_ind'; intros k c c' Hn Hb H; [exfalso; apply (Hb [] s); reflexivity|].
  rewrite apply_entry_node in H. apply rbind_ok in H as [sub [H1 H]]. apply rbind_ok in H as [sub' [H2 H]].
  assert (sub' = sub) as ->.
  { destruct Hn as [Hnd Hall]. clear H H1. revert sub sub' H2 Hb Hnd Hall. induction l as [|[j t] l IHl]; intros sub sub' H2 Hb Hnd Hall.
    - cbn in H2. congruence.
    - cbn [apply_schedules] in H2. apply rbind_ok in H2 as [c1 [H2 H3]].
      inversion IH as [|? ? Hh Ht]; subst. inversion Hnd as [|? ? Hk Hnd']; subst. destruct Hall as [Hn Hall].
      assert (c1 = sub) as ->.
      { eapply (Hh j); [exact Hn| |exact H2]. intros p s Hp. apply (Hb (j :: p) s). cbn [sched_at aget]. now rewrite String.eqb_refl. }
      apply IHl; auto. intros p s Hp. destruct p as [|i p]; [discriminate|]. apply (Hb (i :: p) s). cbn [sched_at aget] in *.
      destruct (String.eqb_spec i j) as [->|]; [rewrite (aget_notin j l Hk) in Hp; discriminate|exact Hp]. }
  destruct c as [| | | | | | | | |n d| |]; try discriminate. cbn [py_getattr] in H1. cbn [py_setattr] in H.
  destruct (aget k d) as [x|] eqn:Ek; [|discriminate]. injection H1 as ->. injection H as <-. f_equal. now apply aset_same.
Qed.

Lemma barren_schedules E state l c c' : NoDup (akeys l) ->
  all (fun kt : string * stree => let '(k', t') := kt in named k' t') l ->
  (forall p s, sched_at (SNode l) p <> Some s) -> apply_schedules E state l c = Ok c' -> c' = c.
Proof.
  revert c. induction l as [|[j t] l IHl]; intros c Hnd Hall Hb H.
  - cbn in H. congruence.
  - cbn [apply_schedules] in H. apply rbind_ok in H as [c1 [H2 H3]].
    inversion Hnd as [|? ? Hk Hnd']; subst. destruct Hall as [Hn Hall].
    assert (c1 = c) as ->.
    { eapply (barren_entry _ _ _ j); [exact Hn| |exact H2]. intros p s Hp. apply (Hb (j :: p) s). cbn [sched_at aget]. now rewrite String.eqb_refl. }
    apply IHl; auto. intros p s Hp. destruct p as [|i p]; [discriminate|]. apply (Hb (i :: p) s). cbn [sched_at aget] in *.
    destruct (String.eqb_spec i j) as [->|]; [rewrite (aget_notin j l Hk) in Hp; discriminate|exact Hp].
Qed.

(** one entry: what it sets and what it leaves alone *)
Definition entry_spec E state (k : string) (t : stree) : Prop :=
  forall c c', apply_entry E state k t c = Ok c' ->
  exists n d d' w, c = VObj n d /\ c' = VObj n d' /\ d' = aset k w d /\
    (forall p s, sched_at t p = Some s -> exists r, schedule_value E s state = Ok r /\ field_at w p = Some r) /\
    (forall q, (forall p s, sched_at t p = Some s -> ~ prefix_of p q /\ ~ prefix_of q p) ->
       field_at c' (k :: q) = field_at c (k :: q)).

Lemma apply_loop E state l : Forall (fun kt => forall k, named k (snd kt) -> entry_spec E state k (snd kt)) l ->
  NoDup (akeys l) -> all (fun kt : string * stree => let '(k', t') := kt in named k' t') l ->
  forall c c', apply_schedules E state l c = Ok c' ->
  (forall p s, sched_at (SNode l) p = Some s -> exists r, schedule_value E s state = Ok r /\ field_at c' p = Some r) /\
  (forall q, q <> [] -> (forall p s, sched_at (SNode l) p = Some s -> ~ prefix_of p q /\ ~ prefix_of q p) ->
     field_at c' q = field_at c q).
Proof.
intros HF Hnd Hall. induction l as [|[k t] l IHl]; intros c c' H.
      - cbn in H. injection H as <-. split; [|auto]. intros p s Hp. destruct p; discriminate.
      - cbn [apply_schedules] in H. apply rbind_ok in H as [c1 [H1 H2]].
        inversion HF as [|? ? Hh Ht]; subst. inversion Hnd as [|? ? Hk Hnd']; subst. destruct Hall as [Hn Hall].
        destruct (Hh k Hn c c1 H1) as (n & d & d' & w & -> & -> & -> & A1 & A2).
        destruct (IHl Ht Hnd' Hall _ _ H2) as [B1 B2]. clear IHl.
        assert (Nk : aget k l = None) by now apply aget_notin.
        assert (K : forall q, field_at c' (k :: q) = field_at w q).
        { intros q. rewrite B2.
          - cbn [field_at]. now rewrite aget_aset_same.
          - discriminate.
          - intros p s Hp. destruct p as [|j p]; [discriminate|]. cbn [sched_at] in Hp.
            destruct (String.eqb_spec j k) as [->|Hjk]; [rewrite Nk in Hp; discriminate|].
            cbn [prefix_of]. split; intros [X _]; congruence. }
        split.
        + intros p s Hp. destruct p as [|j p]; [discriminate|]. cbn [sched_at aget] in Hp.
          destruct (String.eqb_spec j k) as [->|Hjk].
          * rewrite K. apply A1; auto.
          * apply (B1 (j :: p) s). exact Hp.
        + intros q Hq Hd. destruct q as [|j q]; [easy|]. destruct (String.eqb_spec j k) as [->|Hjk].
          * rewrite K. rewrite <- A2.
            -- cbn [field_at]. now rewrite aget_aset_same.
            -- intros p s Hp. destruct (Hd (k :: p) s) as [D1 D2].
               { cbn [sched_at aget]. now rewrite String.eqb_refl. }
               cbn [prefix_of] in D1, D2. tauto.
          * rewrite B2.
            -- cbn [field_at]. rewrite aget_aset_other by auto. reflexivity.
            -- discriminate.
            -- intros p s Hp. destruct p as [|i p]; [discriminate|]. apply (Hd (i :: p) s). cbn [sched_at aget] in *.
               destruct (String.eqb_spec i k) as [->|]; [rewrite Nk in Hp; discriminate|exact Hp]. 
Qed.

Lemma entry_sets E state t : forall k, named k t -> entry_spec E state k t.
Proof.
  induction t as [s|l IH] using stree_ind'; intros k Hn c c' H.
  - cbn [apply_entry] in H. unfold schedule_update in H. apply rbind_ok in H as [r [Hr H]].
    simpl in Hn. subst k. destruct c as [| | | | | | | | |n d| |]; try discriminate. cbn [py_setattr] in H. injection H as <-.
    exists n, d, (aset (sch_field s) r d), r. split; [reflexivity|]. split; [reflexivity|]. split; [reflexivity|].
    split.
    + intros p s' Hp. destruct p; [|discriminate]. cbn in Hp. injection Hp as <-. exists r. auto.
    + intros q Hq. destruct (Hq [] s eq_refl) as [Hq' _]. exfalso. apply Hq'. exact I.
  - rewrite apply_entry_node in H. apply rbind_ok in H as [sub [H1 H]]. apply rbind_ok in H as [sub' [H2 H]].
    destruct c as [| | | | | | | | |n d| |]; try discriminate. cbn [py_getattr] in H1. cbn [py_setattr] in H. injection H as <-.
    destruct (aget k d) as [sub0|] eqn:Ek; [|discriminate]. injection H1 as ->.
    exists n, d, (aset k sub' d), sub'. split; [reflexivity|]. split; [reflexivity|]. split; [reflexivity|].
    destruct Hn as [Hnd Hall]. destruct (apply_loop E state l IH Hnd Hall _ _ H2) as [G1 G2]. split; [exact G1|].
    intros q Hq. cbn [field_at]. rewrite aget_aset_same, Ek. destruct q as [|j q].
    + (* a node without schedules below: nothing changes *)
      cbn [field_at]. f_equal.
      assert (Hno : forall p s, sched_at (SNode l) p <> Some s).
      { intros p s Hp. destruct (Hq p s Hp) as [_ X]. apply X. exact I. }
      eapply barren_schedules; eauto.
    + apply G2; [discriminate|auto].
Qed.

Lemma apply_sets E state l c c' : named "" (SNode l) -> apply_schedules E state l c = Ok c' ->
  (forall p s, sched_at (SNode l) p = Some s -> exists r, schedule_value E s state = Ok r /\ field_at c' p = Some r) /\
  (forall q, (forall p s, sched_at (SNode l) p = Some s -> ~ prefix_of p q /\ ~ prefix_of q p) ->
     field_at c' q = field_at c q).
Proof.
  intros [Hnd Hall] H.
  assert (HF : Forall (fun kt => forall k, named k (snd kt) -> entry_spec E state k (snd kt)) l).
  { apply Forall_forall. intros [k t] _ j Hj. now apply entry_sets. }
  destruct (apply_loop E state l HF Hnd Hall c c' H) as [H1 H2]. split; auto.
  intros q Hq. destruct q as [|k q]; [|apply H2; auto; discriminate].
  cbn [field_at]. f_equal. eapply barren_schedules; eauto.
  intros p s Hp. destruct (Hq p s Hp) as [_ X]. apply X. exact I.
Qed.

(** ** the exact result *)
(** [v] with every scheduled field set to [val] of its schedule *)
Fixpoint updated (val : schedule -> pyval) (v : pyval) (tr : option stree) {struct v} : pyval :=
  match is_leaf tr with
  | Some s => val s
  | None =>
      match v with
      | VObj c d => VObj c (map (fun kv => (fst kv, updated val (snd kv) (child tr (fst kv)))) d)
      | _ => v
      end
  end.

Lemma updated_leaf val v s : updated val v (Some (SLeaf s)) = val s.
Proof. destruct v; reflexivity. Qed.

Lemma updated_none val v : updated val v None = v.
Proof.
  induction v as [|x|z|f|s|l IH|l IH|d IH|n d IH|n d IH|c m x IH|c x IH] using pyval_ind'; try reflexivity.
  cbn [updated is_leaf child]. f_equal. induction IH as [|[k x] d Hx Hd IHd]; [reflexivity|].
  cbn [map fst snd]. cbn [snd] in Hx. rewrite Hx. f_equal. exact IHd.
Qed.

Fixpoint uniq (v : pyval) : Prop :=
  match v with
  | VObj _ d => NoDup (akeys d) /\ all (fun kv : string * pyval => uniq (snd kv)) d
  | _ => True
  end.

Definition val_at (E : env) (state : pyval) (s : schedule) : pyval :=
  match schedule_value E s state with Ok r => r | Err _ => VNone end.

Lemma map_aset_other {A} (g : string -> A -> A) k w d : NoDup (akeys d) ->
  (forall x, g k x = x) ->
  map (fun kv => (fst kv, g (fst kv) (snd kv))) (aset k w d) =
  aset k w (map (fun kv => (fst kv, g (fst kv) (snd kv))) d).
Proof.
  intros Hn Hg. induction d as [|[j x] d IH]; cbn [aset map fst snd]; [now rewrite Hg|].
  inversion Hn; subst. destruct (String.eqb_spec k j) as [->|Hkj]; cbn [map fst snd].
  - rewrite Hg. reflexivity.
  - rewrite IH; auto.
Qed.

Lemma entry_updated E state t : forall k c d ft x,
  named k t -> (forall p s, sched_at t p = Some s -> exists r, schedule_value E s state = Ok r) ->
  NoDup (akeys d) -> uniq x -> aget k d = Some x -> fits E k t ft x ->
  apply_entry E state k t (VObj c d) = Ok (VObj c (aset k (updated (val_at E state) x (Some t)) d)).
Proof.
  induction t as [s|l IH] using stree_ind'; intros k c d ft x Hn Hv Hd Hu Hx Hf.
  - cbn [apply_entry]. unfold schedule_update. destruct (Hv [] s eq_refl) as [r Hr]. rewrite Hr. cbn [rbind py_setattr].
    simpl in Hn. rewrite Hn. rewrite updated_leaf. unfold val_at. rewrite Hr. reflexivity.
  - rewrite apply_entry_node. cbn [py_getattr]. rewrite Hx. cbn [rbind].
    destruct Hn as [Hnd Hall].
    assert (Hf' : forall k' t', In (k', t') l -> exists c d ft y, x = VObj c d /\ aget k' d = Some y /\ fits E k' t' ft y).
    { intros k' t' Hin. cbn [fits] in Hf. apply all_Forall in Hf. rewrite Forall_forall in Hf.
      destruct (Hf (k', t') Hin) as (c' & d' & fs & ft' & fd & y & H1 & H2 & H3 & H4 & H5).
      exists c', d', ft', y. auto. }
    assert (G : apply_schedules E state l x = Ok (updated (val_at E state) x (Some (SNode l)))).
    { destruct l as [|[k1 t1] l1].
      - cbn [apply_schedules]. f_equal. symmetry. clear. 
        induction x as [|x|z|f|s|l IH|l IH|d IH|n d IH|n d IH|c m x IH|c x IH] using pyval_ind'; try reflexivity.
        cbn [updated is_leaf child]. f_equal. cbn [aget]. induction d as [|[k x] d IHd]; [reflexivity|].
        cbn [map fst snd]. rewrite updated_none. f_equal. inversion IH; auto.
      - remember ((k1, t1) :: l1) as l eqn:El.
        assert (exists c1 d1, x = VObj c1 d1) as (c1 & d1 & ->).
        { destruct (Hf' k1 t1) as (c1 & d1 & ft1 & y & -> & _); [rewrite El; left; auto|]. eauto. }
        clear El k1 t1 l1. cbn [updated is_leaf child]. destruct Hu as [Hu1 Hu2]. clear Hx Hf Hd d.
        assert (Hf2 : forall k' t', In (k', t') l -> exists ft y, aget k' d1 = Some y /\ uniq y /\ fits E k' t' ft y).
        { intros k' t' Hin. destruct (Hf' k' t' Hin) as (c3 & d3 & ft3 & y3 & Q1 & Q2 & Q3). injection Q1 as <- <-. exists ft3, y3. split; auto. split; auto.
            apply all_Forall in Hu2. rewrite Forall_forall in Hu2. apply aget_some_in in Q2. apply (Hu2 _ Q2). }
        clear Hf' Hu2. revert d1 Hu1 Hf2. induction l as [|[k1 t1] l IHl]; intros d1 Hu1 Hf2.
        + cbn [apply_schedules aget]. do 2 f_equal. clear. induction d1 as [|[k x] d IHd]; [reflexivity|].
          cbn [map fst snd]. rewrite updated_none. f_equal. exact IHd.
        + cbn [apply_schedules]. inversion IH as [|? ? IH1 IH2]; subst. inversion Hnd as [|? ? N1 N2]; subst. destruct Hall as [A1 A2].
          destruct (Hf2 k1 t1 (or_introl eq_refl)) as (ft1 & y & Hy & Huy & Hfy).
          assert (Nk : aget k1 l = None) by now apply aget_notin.
          cbn [snd] in IH1. rewrite (IH1 k1 c1 d1 ft1 y); auto.
          2:{ intros p s Hp. apply (Hv (k1 :: p) s). cbn [sched_at aget]. now rewrite String.eqb_refl. }
          cbn [rbind]. rewrite IHl; auto.
          * do 2 f_equal.
            rewrite (map_aset_other (fun k x => updated (val_at E state) x (aget k l))); auto.
            2:{ intros x. rewrite Nk. apply updated_none. }
            clear - Hy Hu1 Nk. revert Hy Hu1. induction d1 as [|[j x] d IH]; cbn [aget]; intros Hy Hu1; [discriminate|].
            cbn [map fst snd aset]. inversion Hu1 as [|? ? U1 U2]; subst. cbn [fst] in *.
            rewrite (eqb_sym_str j k1). destruct (String.eqb_spec k1 j) as [<-|Hkj].
            -- injection Hy as ->. f_equal. apply map_ext_in. intros [i z] Hi. cbn [fst snd].
               destruct (String.eqb_spec i k1) as [->|]; [|reflexivity]. exfalso. apply U1. change k1 with (fst (k1, z)). now apply in_map.
            -- f_equal. apply IH; auto.
          * intros p s Hp. destruct p as [|j p]; [discriminate|]. apply (Hv (j :: p) s). cbn [sched_at aget] in *.
            destruct (String.eqb_spec j k1) as [->|]; [rewrite Nk in Hp; discriminate|exact Hp].
          * now apply nodup_aset.
          * intros k' t' Hin. destruct (Hf2 k' t' (or_intror Hin)) as (ft' & y' & Q1 & Q2 & Q3).
            exists ft', y'. split; auto. rewrite aget_aset_other; auto. intros ->.
            apply N1. change k1 with (fst (k1, t')). now apply in_map. }
    rewrite G. reflexivity.
Qed.

Lemma apply_updated E state l n t v :
  named "" (SNode l) -> (forall p s, sched_at (SNode l) p = Some s -> exists r, schedule_value E s state = Ok r) ->
  uniq v -> fits E n (SNode l) t v ->
  apply_schedules E state l v = Ok (updated (val_at E state) v (Some (SNode l))).
Proof.
  intros Hn Hv Hu Hf.
  assert (H := entry_updated E state (SNode l) n "" [(n, v)] t v Hn Hv).
  rewrite apply_entry_node in H. cbn [py_getattr aget aset] in H. rewrite String.eqb_refl in H. cbn [rbind] in H.
  assert (X : NoDup (akeys [(n, v)])) by (constructor; [easy|constructor]).
  specialize (H X Hu eq_refl Hf). destruct (apply_schedules E state l v) as [w|]; [|discriminate].
  cbn [rbind py_setattr aset] in H. rewrite String.eqb_refl in H. congruence.
Qed.
