(** SessionFacts.v -- what a new StateManager finds in a checkpoint. *)
From Coq Require Import Permutation.
From Verif Require Import Base AFacts Value Schema Rewrite Sched Types Asdict FromDict Manager Ckpt Lazy Session
  Induct SpecTree SpecTypes RewriteFacts FromDictFacts RoundTrip SpecState ResumeFacts SchedTree ResumeProps
  SpecCkpt CkptFacts CrashFacts SpecLazy SpecLoad SpecOverride SpecAgain SpecSession LazyFacts ConfigFacts AgainFacts.
From Verif Require OverrideFacts OverrideSim UpgradeFacts.

(** ** file names *)
Lemma replace_absent c t s : has_char c s = false -> replace_char c t s = s.
Proof.
  induction s as [|a s IH]; [reflexivity|]. cbn [has_char replace_char]. destruct (Ascii.eqb a c); [discriminate|].
  intros H. f_equal. auto.
Qed.

Lemma blob_file_plain k : plain_name k -> blob_file k = ("state." ++ k ++ ".msgpack").
Proof.
  intros (_ & _ & H1 & H2 & _). unfold blob_file. now rewrite (replace_absent _ _ _ H1), (replace_absent _ _ _ H2).
Qed.

Lemma append_inj_r a b c : (a ++ c) = (b ++ c) -> a = b.
Proof.
  intros H. assert (L : String.length a = String.length b).
  { assert (X := f_equal String.length H). rewrite !length_app in X. lia. }
  revert b H L. induction a as [|x a IH]; destruct b as [|y b]; cbn; intros H L; try discriminate; auto.
  injection H as -> H. f_equal. apply IH; auto; lia.
Qed.

Lemma blob_file_inj k k' : plain_name k -> plain_name k' -> blob_file k = blob_file k' -> k = k'.
Proof.
  intros H H' E. rewrite !blob_file_plain in E by auto. apply append_inj_l in E. now apply append_inj_r in E.
Qed.

Lemma blob_not_config k : blob_file k <> "config.ron".
Proof. unfold blob_file. discriminate. Qed.

Lemma blob_not_state k : blob_file k <> "state.ron".
Proof.
  unfold blob_file. generalize (replace_char "]" "" (replace_char "[" "_" k)). intros s H. cbn in H.
  injection H as H. assert (L := f_equal String.length H). rewrite length_app in L. cbn in L. lia.
Qed.

(** ** Serializable attributes *)
Definition unload (x : pyval) : pyval := match x with VBlob _ _ => VNone | _ => x end.
Definition blob_attrs (d : list (string * pyval)) : list (string * (string * pyval)) :=
  concat (map (fun kx : string * pyval => match snd kx with VBlob c p => [(fst kx, (c, p))] | _ => [] end) d).

Lemma blob_attrs_in d k c p : In (k, (c, p)) (blob_attrs d) <-> In (k, VBlob c p) d.
Proof.
  unfold blob_attrs. rewrite in_concat. split.
  - intros (l & H1 & H2). apply in_map_iff in H1 as ([k' x] & <- & H1). cbn [fst snd] in H2.
    destruct x; cbn in H2; try contradiction. destruct H2 as [H2|[]]. now injection H2 as -> -> ->.
  - intros H. exists [(k, (c, p))]. split; [|now left]. apply in_map_iff. exists (k, VBlob c p). auto.
Qed.

Lemma blob_attrs_keys d : NoDup (akeys d) -> NoDup (akeys (blob_attrs d)).
Proof.
  induction d as [|[k x] d IH]; intros H; [constructor|]. inversion H; subst.
  change (blob_attrs ((k, x) :: d)) with ((match x with VBlob c p => [(k, (c, p))] | _ => [] end) ++ blob_attrs d)%list.
  destruct x; cbn; auto. constructor; auto. intros C. apply in_map_iff in C as ([k' [c' p']] & E & C). cbn in E. subst k'.
  apply blob_attrs_in in C. apply H2. apply in_map_iff. now exists (k, VBlob c' p').
Qed.

Lemma blob_free_blobless v : blob_free v -> blobless v = true.
Proof.
  induction v as [|x|z|f|s|l IH|l IH|d IH|n d IH|n d IH|c m x IH|c x IH] using pyval_ind'; intros H; try reflexivity; try contradiction;
    simpl in *; try (apply all_Forall in H; rewrite Forall_forall in H, IH; apply forallb_forall; intros y Hy; apply IH; auto).
Qed.

Section Root.
  Variable d : list (string * pyval).
  Hypothesis Hr : Forall (fun kx => plain_name (fst kx) /\ ((exists c p, snd kx = VBlob c p) \/ blob_free (snd kx))) d.

  Lemma root_dblobs n : dblobs (VObj n d) None "" = map (fun a => (fst a, snd (snd a))) (blob_attrs d).
  Proof.
    cbn [dblobs is_leaf]. induction Hr as [|[k x] d' [Hk Hx] Hd IH]; [reflexivity|].
    change (blob_attrs ((k, x) :: d')) with ((match x with VBlob c p => [(k, (c, p))] | _ => [] end) ++ blob_attrs d')%list.
    rewrite map_app, <- IH by auto. cbn [map concat fst snd]. f_equal.
    change (path_join "" k) with k. cbn [snd] in Hx. destruct Hx as [(c & p & ->)|Hx]; [reflexivity|].
    rewrite blobless_dblobs by (now apply blob_free_blobless). destruct x; try reflexivity. contradiction.
  Qed.

  Lemma root_lazies n dir : forall z, lazies dir (leff (VObj n d) None "") z =
    fold_left (fun z a => aset (fst a) (mkLazy (fst (snd a)) (dir_of dir ++ "/" ++ blob_file (fst a)) false) z) (blob_attrs d) z.
  Proof.
    cbn [leff is_leaf child]. induction Hr as [|[k x] d' [Hk Hx] Hd IH]; intros z; [reflexivity|].
    change (blob_attrs ((k, x) :: d')) with ((match x with VBlob c p => [(k, (c, p))] | _ => [] end) ++ blob_attrs d')%list.
    cbn [map concat fst snd]. unfold lazies. rewrite !fold_left_app. fold (lazies dir (leff x None (path_join "" k)) z).
    change (path_join "" k) with k. cbn [snd] in Hx.
    assert (E : lazies dir (leff x None k) z =
      fold_left (fun z a => aset (fst a) (mkLazy (fst (snd a)) (dir_of dir ++ "/" ++ blob_file (fst a)) false) z)
        (match x with VBlob c p => [(k, (c, p))] | _ => [] end) z).
    { destruct Hx as [(c & p & ->)|Hx]; [reflexivity|].
      rewrite blobless_lazies by (now apply blob_free_blobless). destruct x; try reflexivity. contradiction. }
    rewrite E. exact (IH Hd _).
  Qed.

  Lemma root_resumed E n : resumed E (VObj n d) None =
    VObj n (map (fun kx => (fst kx, unload (snd kx))) d).
  Proof.
    cbn [resumed is_leaf]. f_equal. apply map_ext_in. intros [k x] Hin. rewrite Forall_forall in Hr. apply Hr in Hin as [_ Hx].
    cbn [fst snd child] in *. f_equal. destruct Hx as [(c & p & ->)|Hx]; [reflexivity|].
    rewrite resumed_none by (now apply blob_free_blobless). destruct x; try reflexivity. contradiction.
  Qed.
End Root.

(** folds of assignments *)
Lemma aset_fold {A B} (key : B -> string) (val : B -> A) l : forall acc,
  (forall f, (~ exists b, In b l /\ key b = f) -> aget f (fold_left (fun z b => aset (key b) (val b) z) l acc) = aget f acc) /\
  (NoDup (map key l) -> forall b, In b l -> aget (key b) (fold_left (fun z b => aset (key b) (val b) z) l acc) = Some (val b)).
Proof.
  induction l as [|b l IH]; intros acc; cbn [fold_left map].
  - split; [auto|]. intros _ b [].
  - destruct (IH (aset (key b) (val b) acc)) as [I1 I2]. split.
    + intros f Hf. rewrite I1; [|intros (b' & Hb & E); apply Hf; exists b'; split; [now right|auto]].
      apply aget_aset_other. intros E. apply Hf. exists b. split; [now left|auto].
    + intros N b' [<-|Hb].
      * inversion N; subst. rewrite I1; [apply aget_aset_same|]. intros (b' & Hb & E). apply H1. rewrite <- E. now apply in_map.
      * apply I2; auto. now inversion N.
Qed.

Lemma aset_fold_nodup {A B} (key : B -> string) (val : B -> A) l : forall acc,
  NoDup (akeys acc) -> NoDup (akeys (fold_left (fun z b => aset (key b) (val b) z) l acc)).
Proof. induction l as [|b l IH]; intros acc H; cbn [fold_left]; auto. apply IH. now apply nodup_aset. Qed.

Lemma aset_fold_keys {A B} (key : B -> string) (val : B -> A) l : forall acc f,
  In f (akeys (fold_left (fun z b => aset (key b) (val b) z) l acc)) -> In f (akeys acc) \/ In f (map key l).
Proof.
  induction l as [|b l IH]; intros acc f H; cbn [fold_left map] in *; auto.
  apply IH in H as [H|H]; [|right; now right]. apply in_akeys_aset in H as [->|H]; [right; now left|auto].
Qed.

(** ** the state of a checkpoint *)
Section State.
  Variables (E : env) (c : cinfo) (fs : list (string * (ty * dflt))) (n : string) (d : list (string * pyval)).
  Let v := VObj n d.
  Hypothesis HE : order_ok E.
  Hypothesis Hp : persistable E true (TData c fs).
  Hypothesis Hh : holds (TData c fs) v.
  Hypothesis Hc : clean v = true.
  Hypothesis Hr : root_blobs v.

  Lemma state_names : NoDup (akeys d).
  Proof using Hp Hh.
    assert (D := holds_dumpable E true (TData c fs) v Hp Hh). simpl in D. apply andb_true_iff in D as [D _].
    apply andb_true_iff in D as [D _]. now apply nodupb_NoDup in D.
  Qed.

  Definition state_tree : pyval := dtree2 (e_class E) v None.
  Definition state_blobs : blobs := blobs_add (map (fun a => (fst a, snd (snd a))) (blob_attrs d)) [].

  Lemma state_dump : typed_dump (e_class E) v None false = Ok (state_tree, state_blobs).
  Proof using Hp Hh Hr.
    rewrite (cfg_plain_dump E true c fs v Hp Hh). unfold state_blobs. now rewrite <- (root_dblobs d Hr n).
  Qed.

  Lemma blob_keys_plain k a : In (k, a) (blob_attrs d) -> plain_name k.
  Proof using Hr.
    destruct a as [c0 p]. intros H. apply blob_attrs_in in H. cbn in Hr. rewrite Forall_forall in Hr. now apply (Hr _ H).
  Qed.

  Lemma blob_files_nodup : NoDup (map (fun kv : string * pyval => blob_file (fst kv)) (map (fun a => (fst a, snd (snd a))) (blob_attrs d))).
  Proof using Hp Hh Hr.
    rewrite map_map. cbn [fst]. assert (N := blob_attrs_keys d state_names). assert (P := blob_keys_plain).
    unfold akeys in N. induction (blob_attrs d) as [|[k a] l IH]; [constructor|]. cbn [map fst] in *. inversion N; subst. constructor.
    - intros C. apply in_map_iff in C as ([k' a'] & E1 & C). cbn [fst] in E1. apply blob_file_inj in E1.
      + subst k'. apply H1. apply in_map_iff. now exists (k, a').
      + eapply P. right. exact C.
      + eapply P. now left.
    - apply IH; auto. intros. eapply P. right. eauto.
  Qed.

  Lemma state_blob k c0 p : In (k, VBlob c0 p) d -> aget (blob_file k) state_blobs = Some p.
  Proof using Hp Hh Hr.
    intros H. unfold state_blobs, blobs_add.
    destruct (aset_fold (fun kv : string * pyval => blob_file (fst kv)) snd (map (fun a => (fst a, snd (snd a))) (blob_attrs d)) []) as [_ F].
    specialize (F blob_files_nodup (k, p)). apply F. apply in_map_iff. exists (k, (c0, p)). split; auto. now apply blob_attrs_in.
  Qed.

  Lemma state_blobs_nodup : NoDup (akeys state_blobs).
  Proof. unfold state_blobs, blobs_add. apply (aset_fold_nodup (fun kv : string * pyval => blob_file (fst kv)) snd). constructor. Qed.

  Lemma state_blobs_keys f : In f (akeys state_blobs) -> exists k, f = blob_file k.
  Proof.
    intros H. unfold state_blobs, blobs_add in H.
    apply (aset_fold_keys (fun kv : string * pyval => blob_file (fst kv)) snd) in H as [[]|H].
    apply in_map_iff in H as (a & <- & _). eauto.
  Qed.

  Lemma state_blob_files f p : In (f, p) state_blobs -> exists k c0, f = blob_file k /\ In (k, VBlob c0 p) d.
  Proof using Hp Hh Hr.
    intros H. assert (A := in_nodup_aget _ _ _ state_blobs_nodup H).
    assert (K := state_blobs_keys f (aget_some_inkeys _ _ _ A)). destruct K as [k0 ->].
    unfold state_blobs, blobs_add in A.
    destruct (aset_fold (fun kv : string * pyval => blob_file (fst kv)) snd (map (fun a => (fst a, snd (snd a))) (blob_attrs d)) []) as [F1 F2].
    destruct (in_dec string_dec (blob_file k0) (map (fun kv : string * pyval => blob_file (fst kv)) (map (fun a => (fst a, snd (snd a))) (blob_attrs d)))) as [I|I].
    - apply in_map_iff in I as ([k p'] & E1 & I). specialize (F2 blob_files_nodup (k, p') I). cbn [fst snd] in *. rewrite E1 in F2.
      rewrite F2 in A. injection A as ->. exists k.
      apply in_map_iff in I as ([k1 [c1 p1]] & E2 & I). cbn [fst snd] in E2. injection E2 as -> ->. exists c1. split; auto. now apply blob_attrs_in.
    - rewrite F1 in A; [discriminate|]. intros (b & Hb & Eb). apply I. apply in_map_iff. eauto.
  Qed.

  Definition state_attrs : list (string * pyval) :=
    map (fun kx => (fst kx, unload (snd kx))) d.
  Definition state_lazies (dir : string) : list (string * lazyrec) :=
    fold_left (fun z a => aset (fst a) (mkLazy (fst (snd a)) (dir ++ "/" ++ blob_file (fst a)) false) z) (blob_attrs d) [].

  Lemma state_load dir allow ig : typed_load E (TData c fs) (ron_view state_tree) (Some dir) None allow ig =
    Ok (mkL (VObj n state_attrs) [] (state_lazies dir)).
  Proof using HE Hp Hh Hc Hr.
    unfold typed_load, state_tree.
    rewrite (load_tree E HE None allow (Some dir) true) with (n := ""); auto; try discriminate; try exact I.
    assert (G : SchedTree.good (fun _ _ => False)) by (split; [easy|split; easy]).
    destruct (run_good (fun _ _ => False) (Some dir) (leff v None "") G) with (st := st_init) as (st' & R1 & R2 & R3 & R4 & R5).
    { intros p s H. eapply leff_none; eauto. }
    { apply only_nil. }
    unfold v in R5. rewrite (root_lazies d Hr) in R5. rewrite R1. cbn [rbind fst snd]. rewrite R5. unfold v at 1. rewrite (root_resumed d Hr).
    do 2 f_equal. destruct R2 as [_ O2]. destruct (st_sched st') as [|[k t] r]; [reflexivity|]. exfalso.
    specialize (O2 k t). cbn [aget] in O2. rewrite String.eqb_refl in O2. specialize (O2 eq_refl).
    destruct t as [s|l2]; [exact O2|]. destruct O2 as (_ & (k3 & s3 & O) & _). exact O.
  Qed.

  Lemma lazies_nodup dir : NoDup (akeys (state_lazies dir)).
  Proof. unfold state_lazies. apply (aset_fold_nodup fst). constructor. Qed.

  Lemma lazies_get dir k c0 p : In (k, VBlob c0 p) d ->
    aget k (state_lazies dir) = Some (mkLazy c0 (dir ++ "/" ++ blob_file k) false).
  Proof using Hp Hh.
    intros H. unfold state_lazies.
    destruct (aset_fold (A := lazyrec) fst (fun a : string * (string * pyval) => mkLazy (fst (snd a)) (dir ++ "/" ++ blob_file (fst a)) false) (blob_attrs d) []) as [_ F].
    specialize (F (blob_attrs_keys d state_names) (k, (c0, p))). apply F. now apply blob_attrs_in.
  Qed.

  Lemma lazies_only dir k r : aget k (state_lazies dir) = Some r ->
    exists c0 p, In (k, VBlob c0 p) d /\ r = mkLazy c0 (dir ++ "/" ++ blob_file k) false.
  Proof using Hp Hh.
    intros H. assert (X : exists b, In b (blob_attrs d) /\ fst b = k).
    { assert (K := aget_some_inkeys _ _ _ H). unfold state_lazies in K. apply (aset_fold_keys fst) in K as [[]|K].
      apply in_map_iff in K as (b & E1 & K). eauto. }
    destruct X as ([k' [c0 p]] & Hb & E1). cbn [fst] in E1. subst k'. apply blob_attrs_in in Hb.
    rewrite (lazies_get dir k c0 p Hb) in H. injection H as <-. eauto.
  Qed.

  Lemma lazies_other dir k x : In (k, x) d -> (forall c0 p, x <> VBlob c0 p) -> aget k (state_lazies dir) = None.
  Proof using Hp Hh.
    intros H Hx. destruct (aget k (state_lazies dir)) as [r|] eqn:A; [|reflexivity]. exfalso.
    apply lazies_only in A as (c0 & p & A & _). apply (Hx c0 p).
    apply (in_nodup_aget _ _ _ state_names) in H. apply (in_nodup_aget _ _ _ state_names) in A. congruence.
  Qed.

  Lemma state_attr k x : In (k, x) d -> (forall c0 p, x <> VBlob c0 p) -> aget k state_attrs = Some x.
  Proof using Hp Hh.
    intros H Hx. unfold state_attrs. rewrite (aget_map unload).
    rewrite (in_nodup_aget _ _ _ state_names H). cbn. f_equal. destruct x; auto. now destruct (Hx cls x).
  Qed.

  (** every attribute read from the loaded object *)
  Section Read.
    Variable deser : string -> pyval -> inst -> res pyval.
    Variable pk : bool.
    Variable disk : string -> option pyval.
    Variable dir : string.
    Hypothesis Hser : forall k c0 p o, In (k, VBlob c0 p) d -> deser c0 p o = Ok (VBlob c0 p).
    Hypothesis Hdisk : forall k c0 p, In (k, VBlob c0 p) d -> disk (dir ++ "/" ++ blob_file k) = Some p.

    Lemma state_pending k c0 p : In (k, VBlob c0 p) d ->
      pending deser pk disk (mkLazy c0 (dir ++ "/" ++ blob_file k) false) (VBlob c0 p).
    Proof using Hser Hdisk. intros H. split; [discriminate|]. exists p. cbn [lz_file lz_cls]. split; [exact (Hdisk _ _ _ H)|]. intros o. exact (Hser _ _ _ o H). Qed.

    (** a sequence of reads: the object after reading [done] *)
    Lemma read_any k x done o : In (k, x) d ->
      i_cls o = n ->
      (forall k x, In (k, x) d -> aget k (i_unloaded o) = None -> aget k (i_attrs o) = Some x) ->
      (forall k r, aget k (i_unloaded o) = Some r -> aget k (state_lazies dir) = Some r) ->
      NoDup (akeys (i_unloaded o)) -> akeys (i_attrs o) = akeys d ->
      (forall k, In k done -> aget k (i_unloaded o) = None) ->
      exists o' ev, lazy_get deser pk disk o k = (Ok x, o', ev) /\
        i_cls o' = n /\
        (forall k x, In (k, x) d -> aget k (i_unloaded o') = None -> aget k (i_attrs o') = Some x) /\
        (forall k r, aget k (i_unloaded o') = Some r -> aget k (state_lazies dir) = Some r) /\
        NoDup (akeys (i_unloaded o')) /\ akeys (i_attrs o') = akeys d /\
        (forall k', In k' (k :: done) -> aget k' (i_unloaded o') = None).
    Proof using Hp Hh Hser Hdisk.
      intros Hin Hcl Ha Hu N Hk Hd. destruct (aget k (i_unloaded o)) as [r|] eqn:Ek.
      - assert (L := Hu _ _ Ek). apply lazies_only in L as (c0 & p & Hb & ->).
        assert (x = VBlob c0 p).
        { apply (in_nodup_aget _ _ _ state_names) in Hin. apply (in_nodup_aget _ _ _ state_names) in Hb. congruence. }
        subst x. rewrite (get_pending deser pk disk o k _ _ Ek (state_pending _ _ _ Hb)).
        do 2 eexists. split; [reflexivity|]. cbn [i_cls i_attrs i_unloaded].
        split; [exact Hcl|]. split; [|split; [|split; [|split]]].
        + intros k' x' Hin' Hn'. rewrite aget_aset. destruct (String.eqb_spec k' k) as [->|Dk].
          * apply (in_nodup_aget _ _ _ state_names) in Hin'. apply (in_nodup_aget _ _ _ state_names) in Hin. congruence.
          * apply Ha; auto. now rewrite aget_adel_other in Hn' by auto.
        + intros k' r' H'. apply Hu. destruct (string_dec k' k) as [->|Dk]; [rewrite aget_adel_same in H' by auto; discriminate|].
          now rewrite aget_adel_other in H' by auto.
        + now apply nodup_adel.
        + rewrite akeys_aset_in; auto. rewrite Hk. apply in_map_iff. now exists (k, VBlob c0 p).
        + intros k' [<-|H']; [now apply aget_adel_same|]. destruct (string_dec k' k) as [->|Dk]; [now apply aget_adel_same|].
          rewrite aget_adel_other by auto. auto.
      - rewrite get_loaded by auto. rewrite (Ha _ _ Hin Ek). do 2 eexists. split; [reflexivity|].
        split; [exact Hcl|]. split; [exact Ha|]. split; [exact Hu|]. split; [exact N|]. split; [exact Hk|].
        intros k' [<-|H']; auto.
    Qed.

    Definition state_inst : inst := mkInst n state_attrs (state_lazies dir).

    Lemma inst_attrs k x : In (k, x) d -> aget k (state_lazies dir) = None -> aget k state_attrs = Some x.
    Proof using Hp Hh.
      intros Hin Hn. apply state_attr; auto. intros c0 p ->. rewrite (lazies_get dir k c0 p Hin) in Hn. discriminate.
    Qed.

    Lemma inst_keys : akeys state_attrs = akeys d.
    Proof. unfold state_attrs. apply (akeys_map unload). Qed.

    Lemma read_one k x : In (k, x) d -> result (lazy_get deser pk disk state_inst k) = Ok x.
    Proof using Hp Hh Hser Hdisk.
      intros Hin. destruct (read_any k x [] state_inst Hin) as (o' & ev & -> & _); auto.
      - intros. now apply inst_attrs.
      - apply lazies_nodup.
      - apply inst_keys.
      - intros k' [].
    Qed.

    Lemma same_dict {A} (l : list (string * A)) : forall m, NoDup (akeys m) -> akeys l = akeys m ->
      (forall k x, In (k, x) m -> aget k l = Some x) -> l = m.
    Proof.
      induction l as [|[k x] l IH]; intros [|[k' x'] m] N Hk Ha; try discriminate; auto.
      cbn in Hk. injection Hk as <- Hk. inversion N; subst.
      assert (X := Ha k x' (or_introl eq_refl)). cbn [aget] in X. rewrite String.eqb_refl in X. injection X as ->.
      f_equal. apply IH; auto. intros j y Hy. assert (Z := Ha j y (or_intror Hy)). cbn [aget] in Z.
      rewrite eqb_neq_str in Z; auto. intros ->. apply H1. apply in_map_iff. now exists (k, y).
    Qed.

    Lemma read_all : load_fields deser pk disk (map fst d) state_inst = Ok (mkInst n d []).
    Proof using Hp Hh Hser Hdisk.
      assert (G : forall l done o, (forall kx, In kx l -> In kx d) -> (forall k, In k (akeys d) -> In k done \/ In k (map fst l)) ->
        i_cls o = n ->
        (forall k x, In (k, x) d -> aget k (i_unloaded o) = None -> aget k (i_attrs o) = Some x) ->
        (forall k r, aget k (i_unloaded o) = Some r -> aget k (state_lazies dir) = Some r) ->
        NoDup (akeys (i_unloaded o)) -> akeys (i_attrs o) = akeys d ->
        (forall k, In k done -> aget k (i_unloaded o) = None) ->
        load_fields deser pk disk (map fst l) o = Ok (mkInst n d [])).
      { induction l as [|[k x] l IH]; intros done o Hl Hall Hcl Ha Hu N Hk Hd; cbn [map fst load_fields].
        - destruct o as [oc oa ou]. cbn [i_cls i_attrs i_unloaded] in *. subst oc. do 2 f_equal.
          + apply same_dict; auto using state_names. intros k x Hin. apply Ha; auto.
            destruct (Hall k) as [H|[]]; auto. apply in_map_iff. now exists (k, x).
          + destruct ou as [|[k r] ou]; [reflexivity|]. exfalso. assert (X := Hu k r). cbn [aget] in X. rewrite String.eqb_refl in X.
            specialize (X eq_refl). apply lazies_only in X as (c0 & p & Hb & _).
            destruct (Hall k) as [H|[]]; [apply in_map_iff; now exists (k, VBlob c0 p)|]. apply Hd in H. cbn [aget] in H. now rewrite String.eqb_refl in H.
        - destruct (read_any k x done o) as (o' & ev & -> & R1 & R2 & R3 & R4 & R5 & R6); auto; [apply Hl; now left|].
          apply (IH (k :: done)); auto.
          + intros kx Hkx. apply Hl. now right.
          + intros k' Hk'. destruct (Hall k' Hk') as [H|[<-|H]]; [left; now right|left; now left|now right]. }
      apply (G d []); auto.
      - intros. now apply inst_attrs.
      - apply lazies_nodup.
      - apply inst_keys.
      - intros k [].
    Qed.
  End Read.
End State.

(** ** directories *)
Lemma slash_split p p' : has_char "/" p = false -> has_char "/" p' = false ->
  forall f f', (p ++ "/" ++ f) = (p' ++ "/" ++ f') -> p = p' /\ f = f'.
Proof.
  revert p'. induction p as [|a p IH]; intros [|b p'] H H' f f' E; cbn [append has_char] in *.
  - split; auto. now injection E.
  - injection E as <- E. discriminate.
  - injection E as -> E. discriminate.
  - injection E as -> E. destruct (Ascii.eqb b "/"); [discriminate|]. destruct (IH p' H H' f f' E) as [-> ->]. auto.
Qed.

Lemma aget_app {A} k (l l' : list (string * A)) : aget k (l ++ l')%list = match aget k l with Some x => Some x | None => aget k l' end.
Proof. induction l as [|[j x] l IH]; [reflexivity|]. cbn [app aget]. destruct (String.eqb k j); auto. Qed.

Lemma aget_under p f (l : list (string * pyval)) :
  aget (p ++ "/" ++ f) (map (fun fc : string * pyval => ((p ++ "/" ++ fst fc)%string, snd fc)) l) = aget f l.
Proof.
  induction l as [|[g x] l IH]; [reflexivity|]. cbn [map aget fst snd]. destruct (String.eqb_spec f g) as [->|Df].
  - now rewrite String.eqb_refl.
  - rewrite eqb_neq_str; auto. intros E. apply append_inj_l in E. apply append_inj_l in E. auto.
Qed.

Lemma all_files_get D : dir_ok D -> names_ok D -> forall p f l, In (p, EDir l) D -> aget (p ++ "/" ++ f) (all_files D) = aget f l.
Proof.
  induction D as [|[q e] D IH]; intros OK N p f l Hin; [contradiction|].
  unfold all_files. cbn [map concat fst snd]. fold (all_files D). rewrite aget_app.
  assert (OK' : dir_ok D) by (now inversion OK). assert (N' : names_ok D) by (intros x y Hy; apply (N x y); now right).
  destruct Hin as [Hin|Hin].
  - injection Hin as -> ->. rewrite aget_under. destruct (aget f l) as [x|] eqn:Ef; [reflexivity|].
    apply aget_notin. intros C. unfold all_files in C. unfold akeys in C. rewrite concat_map in C. apply in_concat in C as (ks & C1 & C2).
    apply in_map_iff in C1 as (fsl & <- & C1). apply in_map_iff in C1 as ([p' e'] & <- & C1). cbn [fst snd] in C2.
    destruct e' as [l'|]; [|destruct C2]. rewrite map_map in C2. apply in_map_iff in C2 as ([f' x] & C2 & _). cbn [fst] in C2.
    apply slash_split in C2 as [-> _].
    + inversion OK; subst. apply H1. apply in_map_iff. now exists (p, EDir l').
    + apply (N p' (EDir l')). now right.
    + apply (N p (EDir l)). now left.
  - assert (X : aget (p ++ "/" ++ f) (match e with EDir l0 => map (fun fc : string * pyval => ((q ++ "/" ++ fst fc)%string, snd fc)) l0 | EOther => [] end) = None).
    { destruct e as [l0|]; [|reflexivity]. apply aget_notin. intros C. unfold akeys in C. rewrite map_map in C. apply in_map_iff in C as ([f' x] & C & _). cbn [fst] in C.
      apply slash_split in C as [-> _].
      + inversion OK; subst. apply H1. apply in_map_iff. now exists (p, EDir l).
      + apply (N q (EDir l0)). now left.
      + apply (N p (EDir l)). now right. }
    rewrite X. now apply IH.
Qed.

Lemma disk_get S D p f l x : dir_ok D -> names_ok D -> In (p, EDir l) D -> aget f l = Some x -> disk_of S D (p ++ "/" ++ f) = Some x.
Proof. intros OK N Hin Hf. unfold disk_of. rewrite aget_app, (all_files_get D OK N p f l Hin), Hf. reflexivity. Qed.

Lemma perm_aget {A} (l l' : list (string * A)) k : Permutation l l' -> NoDup (akeys l') -> aget k l = aget k l'.
Proof.
  intros P N. assert (N' : NoDup (akeys l)) by (eapply Permutation_NoDup; [apply Permutation_map, Permutation_sym, P|exact N]).
  destruct (aget k l') as [x|] eqn:E'.
  - apply in_nodup_aget; auto. eapply Permutation_in; [apply Permutation_sym, P|]. now apply aget_some_in.
  - destruct (aget k l) as [x|] eqn:E1; [|reflexivity]. apply aget_some_in in E1. apply (Permutation_in _ P) in E1.
    apply (in_nodup_aget _ _ _ N) in E1. congruence.
Qed.

(** ** config classes *)
Lemma load_no_overrides E c fs x dir allow ig : configurable (TData c fs) ->
  typed_load E (TData c fs) x dir (Some []) allow ig = typed_load E (TData c fs) x dir None allow ig.
Proof.
  intros H. rewrite OverrideSim.typed_load_overrides by reflexivity. apply configurable_iff in H as [s Hs].
  destruct (OverrideFacts.schema_fields _ _ _ Hs) as (fields & v & -> & _). unfold deser_overrides. rewrite Hs. reflexivity.
Qed.

(** ** schedules read only the key *)
Lemma updated_val val val' v : forall tr, (forall p s, opt_at tr p = Some s -> val s = val' s) -> updated val v tr = updated val' v tr.
Proof.
  induction v as [|x|z|f|s|l IH|l IH|d IH|n d IH|n d IH|c m x IH|c x IH] using pyval_ind'; intros tr H;
    assert (H0 := H []); rewrite opt_at_leaf in H0; cbn [updated]; destruct (is_leaf tr) eqn:El; auto.
  f_equal. apply map_ext_in. intros [k x] Hin. cbn [fst snd]. f_equal. rewrite Forall_forall in IH. apply (IH (k, x) Hin).
  intros p s Hps. apply (H (k :: p)). now rewrite opt_at_child.
Qed.

Lemma value_transfer E s st st' r : schedule_value E s st = Ok r ->
  (forall k x f, py_getattr st k = Ok x -> key_number x = Ok f -> py_getattr st' k = Ok x) -> schedule_value E s st' = Ok r.
Proof.
  unfold schedule_value. intros H T. apply rbind_ok in H as [x [H1 H]]. destruct (pw_segments (sch_pw s)) eqn:Es; [discriminate|].
  apply rbind_ok in H as [f [H2 H]]. rewrite (T _ _ _ H1 H2). cbn [rbind]. rewrite H2. exact H.
Qed.

Lemma apply_transfer E st st' l n t cfg cfg' : named "" (SNode l) -> uniq cfg -> fits E n (SNode l) t cfg ->
  apply_schedules E st l cfg = Ok cfg' ->
  (forall k x f, py_getattr st k = Ok x -> key_number x = Ok f -> py_getattr st' k = Ok x) ->
  apply_schedules E st' l cfg = Ok cfg'.
Proof.
  intros Hn Hu Hf Ha T. destruct (apply_sets E st l cfg cfg' Hn Ha) as [A1 _].
  assert (V : forall p s, sched_at (SNode l) p = Some s -> exists r, schedule_value E s st = Ok r).
  { intros p s Hp. destruct (A1 p s Hp) as (r & R & _). eauto. }
  assert (V' : forall p s, sched_at (SNode l) p = Some s -> schedule_value E s st' = schedule_value E s st).
  { intros p s Hp. destruct (V p s Hp) as [r R]. rewrite R. eapply value_transfer; eauto. }
  rewrite (apply_updated E st l n t) in Ha by auto. rewrite (apply_updated E st' l n t); auto.
  - rewrite <- Ha. f_equal. apply updated_val. intros p s Hp. unfold val_at. now rewrite (V' p s Hp).
  - intros p s Hp. rewrite (V' p s Hp). eauto.
Qed.

Lemma clean_updated val v : (forall s, match val s with VInt _ | VFloat _ | VNone => True | _ => False end) ->
  forall tr, clean v = true -> clean (updated val v tr) = true.
Proof.
  intros Hv. induction v as [|x|z|f|s|l IH|l IH|d IH|n d IH|n d IH|c m x IH|c x IH] using pyval_ind'; intros tr H; cbn [updated];
    destruct (is_leaf tr) as [s0|] eqn:El; try exact H; try (specialize (Hv s0); destruct (val s0); easy).
  simpl in H |- *. rewrite forallb_forall in *. intros kv Hkv. apply in_map_iff in Hkv as ([k x] & <- & Hin). cbn [fst snd].
  rewrite Forall_forall in IH. apply (IH (k, x) Hin). apply (H _ Hin).
Qed.

(** ** restart *)
Section Restart.
  Variables (E : env) (S : settings) (cfg : pyval) (l : list (string * stree)) (n : string) (d : list (string * pyval)).
  Variable deser : string -> pyval -> inst -> res pyval.
  Variable pk : bool.
  Hypothesis HS : resumable E S cfg l n d.
  Hypothesis Hser : reads_back deser d.
  Hypothesis Hap : apply_schedules E (VObj n d) l cfg = Ok cfg.

  Lemma put_all_files tree (bl : files pyval) cfgtree : NoDup (akeys bl) -> (forall f, In f (akeys bl) -> f <> "config.ron" /\ f <> "state.ron") ->
    let F := put_all (("state.ron", tree) :: bl) (put_all [("config.ron", cfgtree)] []) in
    aget "config.ron" F = Some cfgtree /\ aget "state.ron" F = Some tree /\ (forall f x, aget f bl = Some x -> aget f F = Some x) /\ NoDup (akeys F).
  Proof.
    intros N K F. assert (NL : NoDup (map fst (("state.ron", tree) :: bl))).
    { cbn [map fst]. constructor; auto. intros C. now apply K in C. }
    unfold F, put_all. destruct (aset_fold fst snd (("state.ron", tree) :: bl) (fold_left (fun acc fc => aset (fst fc) (snd fc) acc) [("config.ron", cfgtree)] [])) as [F1 F2].
    split; [|split; [|split]].
    - rewrite F1; [reflexivity|]. intros ([f x] & [Hb|Hb] & Ef); cbn [fst] in Ef; [injection Hb as <- <-; discriminate|].
      subst f. destruct (K "config.ron"); auto. apply in_map_iff. now exists ("config.ron", x).
    - apply (F2 NL ("state.ron", tree)). now left.
    - intros f x Hx. apply (F2 NL (f, x)). right. now apply aget_some_in.
    - apply (aset_fold_nodup fst snd). repeat constructor. easy.
  Qed.

  Lemma restart_full : exists F, checkpoint_files (e_class E) cfg l (VObj n d) = Ok F /\
    forall D p, dir_ok D -> names_ok D -> resume_point D = Some p -> complete D p F ->
    exists m, manager_start E S D = Ok m /\ holds_session deser pk (disk_of S D) m cfg l n d /\
      untouched (m_state m) /\ checkpoint_files (e_class E) (m_config m) (m_sched m) (VObj n d) = Ok F /\
      apply_schedules E (as_value (m_state m)) (m_sched m) cfg = Ok cfg /\
      (forall k x, aget k d = Some x -> (forall c0 p0, x <> VBlob c0 p0) -> aget k (i_attrs (m_state m)) = Some x) /\
      m_state m = state_inst n d p /\ (forall k c0 p0, In (k, VBlob c0 p0) d -> disk_of S D (p ++ "/" ++ blob_file k) = Some p0) /\
      resumable E S cfg (m_sched m) n d.
  Proof using HS Hser Hap.
    destruct HS as [HE (c & fs & Sc & Hp & Hcf & Hh & Hc & Hf & Hn & Hs) (c2 & fs2 & Ss & Hp2 & Hh2 & Hc2 & Hr2) Ho].
    destruct (schedules_survive E c fs cfg l HE Hp Hh Hc Hf Hs) as (dt & l' & v0 & D1 & D2 & D3 & D4 & D5).
    assert (DS := state_dump E c2 fs2 n d Hp2 Hh2 Hr2).
    set (tree := state_tree E n d) in *. set (bl := state_blobs d) in *.
    exists (put_all (("state.ron", ron_view tree) :: bl) (put_all [("config.ron", ron_view dt)] [])).
    assert (CF : checkpoint_files (e_class E) cfg l (VObj n d) = Ok (put_all (("state.ron", ron_view tree) :: bl) (put_all [("config.ron", ron_view dt)] []))).
    { unfold checkpoint_files. rewrite D1. cbn [rbind]. rewrite DS. reflexivity. }
    split; [exact CF|].
    assert (NB := state_blobs_nodup d). fold bl in NB.
    destruct (put_all_files (ron_view tree) bl (ron_view dt) NB) as (F1 & F2 & F3 & F4).
    { intros f Hfk. apply state_blobs_keys in Hfk as [k ->]. split; [apply blob_not_config|apply blob_not_state]. }
    set (F := put_all (("state.ron", ron_view tree) :: bl) (put_all [("config.ron", ron_view dt)] [])) in *.
    intros D p OK N R (lf & Hin & P).
    assert (G : forall k, aget k lf = aget k F) by (intros k; now apply perm_aget).
    assert (Hd : aget p D = Some (EDir lf)) by (now apply in_nodup_aget).
    assert (MC : manager_config E S D (resume_point D) = Ok (mkL v0 l' [])).
    { unfold manager_config. rewrite R, Hd. unfold read_ron. rewrite G, F1. cbn [rbind]. rewrite Sc.
      assert (X : typed_load E (TData c fs) (ron_view dt) (Some p) (Some (match s_overrides S with Some o => o | None => [] end)) true (s_ignore S) = Ok (mkL v0 l' [])).
      { unfold overrides_kept in Ho. rewrite Sc in Ho. destruct (s_overrides S) as [[|o ovs]|].
        - rewrite load_no_overrides by auto. apply D2.
        - destruct Ho as (O1 & O2 & O3 & O4). apply (overrides_again E c fs cfg l HE Hp Hh Hc O2 O1 (o :: ovs) dt (mkL v0 l' []) (Some p) (s_ignore S)); auto.
        - rewrite load_no_overrides by auto. apply D2. }
      exact X. }
    assert (MS : manager_state E S D (resume_point D) v0 = Ok (mkL (VObj n (state_attrs d)) [] (state_lazies d p))).
    { unfold manager_state. rewrite R, Hd. unfold read_ron. rewrite G, F2. cbn [rbind]. rewrite Ss.
      apply (state_load E c2 fs2 n d); auto. }
    assert (U : uniq cfg) by (eapply dumpable_uniq, (holds_dumpable E false (TData c fs)); eauto).
    assert (NM := state_names E c2 fs2 n d Hp2 Hh2).
    assert (AT : apply_schedules E (VObj n (state_attrs d)) l cfg = Ok cfg).
    { apply (apply_transfer E (VObj n d) _ l "" (TData c fs) cfg cfg); auto.
      intros k x f. cbn [py_getattr]. destruct (aget k d) as [y|] eqn:Ek; [|discriminate]. intros Q K. injection Q as ->.
      rewrite (state_attr E c2 fs2 n d Hp2 Hh2 k x); [reflexivity|now apply aget_some_in|]. intros c0 p0 ->. discriminate. }
    assert (AP : apply_schedules E (VObj n (state_attrs d)) l' v0 = Ok cfg) by (apply (resume_state E c fs cfg l Hp Hh Hf Hn); auto).
    assert (F5 : fits E "" (SNode l') (TData c fs) cfg) by (eapply (only_fits E c fs cfg l); eauto).
    assert (AC : apply_schedules E (VObj n (state_attrs d)) l' cfg = Ok cfg).
    { destruct (apply_sets E _ l _ _ Hn AT) as [A1 _].
      assert (V : forall q s, sched_at (SNode l) q = Some s -> exists r, schedule_value E s (VObj n (state_attrs d)) = Ok r).
      { intros q s Hq. destruct (A1 q s Hq) as (r & Hr & _). eauto. }
      rewrite (apply_updated E _ l "" (TData c fs)) in AT by auto. rewrite (apply_updated E _ l' "" (TData c fs)); auto.
      - rewrite (updated_ext _ _ (Some (SNode l')) (Some (SNode l))) by (intros q; apply D5). exact AT.
      - eapply only_named; eauto.
      - intros q s. rewrite D5. apply V. }
    exists (mkLive cfg l' (state_inst n d p)).
    assert (Hdisk : forall k c0 p0, In (k, VBlob c0 p0) d -> disk_of S D (p ++ "/" ++ blob_file k) = Some p0).
    { intros k c0 p0 Hk. apply (disk_get S D p _ lf); auto. rewrite G. apply F3. eapply (state_blob E c2 fs2 n d); eauto. }
    split; [|split; [|split; [|split; [|split; [exact AC|split; [|split; [reflexivity|split; [exact Hdisk|]]]]]]]].
    - unfold manager_start. rewrite MC. cbn [rbind l_value l_sched]. rewrite MS. cbn [rbind]. unfold inst_of. cbn [l_value l_lazy].
      unfold as_value. cbn [i_cls i_attrs]. rewrite AP. reflexivity.
    - split; [reflexivity|]. split; [exact D5|]. cbn [m_state]. split.
      + intros k x Hk. apply (read_one E c2 fs2 n d Hp2 Hh2 deser pk (disk_of S D) p Hser Hdisk k x Hk).
      + apply (read_all E c2 fs2 n d Hp2 Hh2 deser pk (disk_of S D) p Hser Hdisk).
    - split; cbn [m_state state_inst i_unloaded i_attrs]; [apply lazies_nodup|].
      intros k r Hk. apply (lazies_only E c2 fs2 n d Hp2 Hh2) in Hk as (c0 & p0 & Hk & _).
      unfold state_attrs. rewrite (aget_map unload). now rewrite (in_nodup_aget _ _ _ NM Hk).
    - cbn [m_config m_sched]. rewrite <- CF. unfold checkpoint_files.
      rewrite (cfg_dump E false c fs cfg l') by auto. rewrite (cfg_dump E false c fs cfg l) by auto.
      rewrite !blobless_dblobs by (eapply holds_blobless; eauto).
      rewrite (dtree2_ext (e_class E) cfg (Some (SNode l')) (Some (SNode l))) by (intros q; apply D5). reflexivity.
    - intros k x Hk Hx. apply (state_attr E c2 fs2 n d Hp2 Hh2); auto. now apply aget_some_in.
    - cbn [m_sched]. split; auto.
      + exists c, fs. split; [exact Sc|]. split; [exact Hp|]. split; [exact Hcf|]. split; [exact Hh|]. split; [exact Hc|]. split; [exact F5|].
        split; [eapply only_named; eauto|]. intros q s Hq. rewrite D5 in Hq. eapply Hs; eauto.
      + exists c2, fs2. auto 10.
      + unfold overrides_kept in *. destruct (s_overrides S) as [[|o ovs]|]; auto. destruct Ho as (O1 & O2 & O3 & O4).
        split; [exact O1|]. split; [exact O2|]. split; [|exact O4]. revert O3. apply obeys_all_impl. intros o' (q & text & ft & val & u & G1 & G2 & G3 & G4 & G5).
        exists q, text, ft, val, u. split; [exact G1|]. split; [exact G2|]. split; [exact G3|]. split; [exact G4|].
        destruct G5 as [(s & Hq & Hv)|[Hq Hv]]; [left; exists s; now rewrite D5|right; split; [|exact Hv]]. intros q' s Hq'. rewrite D5 in Hq'. eauto.
  Qed.

  Lemma restart : exists F, checkpoint_files (e_class E) cfg l (VObj n d) = Ok F /\
    forall D p, dir_ok D -> names_ok D -> resume_point D = Some p -> complete D p F ->
    exists m, manager_start E S D = Ok m /\ holds_session deser pk (disk_of S D) m cfg l n d /\
      untouched (m_state m) /\ checkpoint_files (e_class E) (m_config m) (m_sched m) (VObj n d) = Ok F /\
      apply_schedules E (as_value (m_state m)) (m_sched m) cfg = Ok cfg /\
      forall k x, aget k d = Some x -> (forall c0 p0, x <> VBlob c0 p0) -> aget k (i_attrs (m_state m)) = Some x.
  Proof using HS Hser Hap.
    destruct restart_full as (F & CF & R). exists F. split; [exact CF|]. intros D p OK N Rp Cp. destruct (R D p OK N Rp Cp) as (m & A1 & A2 & A3 & A4 & A5 & A6 & _).
    exists m. auto 10.
  Qed.
End Restart.

(** ** a step and a restart *)
Lemma obeys_applied E t state cfg cfg' l o : named "" (SNode l) -> apply_schedules E state l cfg = Ok cfg' ->
  obeys E t cfg l o -> obeys E t cfg' l o.
Proof.
  intros Hn Ha (p & text & ft & val & u & N & T & V & U & H). destruct (apply_sets E _ l _ _ Hn Ha) as [A1 A2].
  destruct H as [(s & Hs & Hv)|[Hs Hd]].
  - destruct (A1 p s Hs) as (r & _ & R). exists p, text, ft, val, r. split; auto. split; auto. split; auto. split; [exact R|]. left. eauto.
  - exists p, text, ft, val, u. split; auto. split; auto. split; auto. split; [|auto].
    rewrite <- U. apply A2. intros q s Hq. apply Hs in Hq. tauto.
Qed.

Lemma load_fields_keeps deser pk disk names : forall o o', untouched o -> load_fields deser pk disk names o = Ok o' ->
  untouched o' /\ i_cls o' = i_cls o /\ forall k x, aget k (i_attrs o) = Some x -> x <> VNone -> aget k (i_attrs o') = Some x.
Proof.
  induction names as [|f names IH]; intros o o' U H; cbn [load_fields] in H.
  - injection H as <-. auto.
  - destruct (lazy_get deser pk disk o f) as [[[y|e] o1] ev] eqn:G; [|discriminate].
    destruct (aget f (i_unloaded o)) as [r|] eqn:Ef.
    + assert (X : o1 = mkInst (i_cls o) (aset f y (i_attrs o)) (adel f (i_unloaded o))).
      { unfold lazy_get in G. rewrite Ef in G. destruct (disk (lz_file r)); [|discriminate].
        destruct (lz_pickle r && negb pk); [discriminate|]. destruct (deser (lz_cls r) p o); [|discriminate]. now injection G as -> <- _. }
      subst o1. destruct U as [N U]. assert (U1 : untouched (mkInst (i_cls o) (aset f y (i_attrs o)) (adel f (i_unloaded o)))).
      { split; cbn [i_unloaded i_attrs]; [now apply nodup_adel|]. intros k r' Hk.
        destruct (string_dec k f) as [->|Dk]; [now rewrite aget_adel_same in Hk|].
        rewrite aget_adel_other in Hk by auto. rewrite aget_aset_other by auto. eauto. }
      destruct (IH _ _ U1 H) as (I1 & I2 & I3). split; auto. split; auto. intros k x Hk Hx. apply I3; auto. cbn [i_attrs]. rewrite aget_aset_other; auto.
        intros ->. rewrite (U _ _ Ef) in Hk. congruence.
    + rewrite get_loaded in G by auto. injection G as _ <- _. eauto.
Qed.

Lemma step_restart E S deser pk D names m m' k cn d F :
  step_prepare E deser pk S D names m = Ok (m', k, Ok (mkInst cn d [], F)) ->
  resumable E S (m_config m) (m_sched m) cn d -> untouched (m_state m) -> reads_back deser d ->
  forall D' p, dir_ok D' -> names_ok D' -> resume_point D' = Some p -> complete D' p F ->
  exists m2, manager_start E S D' = Ok m2 /\ holds_session deser pk (disk_of S D') m2 (m_config m') (m_sched m') cn d.
Proof.
  unfold step_prepare. intros H HS U Hser D' p OK N R C.
  apply rbind_ok in H as [cfg [Ha H]]. destruct (aget (s_key S) (i_attrs (m_state m))) as [kv|]; [|discriminate].
  destruct (as_int kv) as [z|]; [|discriminate]. injection H as <- <- H.
  apply rbind_ok in H as [o [Hl H]]. apply rbind_ok in H as [F' [HF H]]. injection H as -> ->.
  destruct (load_fields_keeps _ _ _ _ _ _ U Hl) as (_ & K1 & K2). cbn [i_cls i_attrs] in K1, K2.
  destruct HS as [HE (c & fs & Sc & Hp & Hcf & Hh & Hc & Hf & Hn & Hs) Hst Ho].
  assert (Uq : uniq (m_config m)) by (eapply dumpable_uniq, (holds_dumpable E false (TData c fs)); eauto).
  assert (Ha' : apply_schedules E (VObj cn d) (m_sched m) (m_config m) = Ok cfg).
  { apply (apply_transfer E _ _ (m_sched m) "" (TData c fs) (m_config m) cfg Hn Uq Hf Ha).
    intros a x f. unfold as_value. cbn [py_getattr]. destruct (aget a (i_attrs (m_state m))) as [y|] eqn:Ea; [|discriminate].
    intros Q Kn. injection Q as ->. rewrite (K2 _ _ Ea); auto. intros ->. discriminate. }
  destruct (apply_sets E _ (m_sched m) _ _ Hn Ha') as [A1 _].
  destruct (step_total E c fs (m_config m) (m_sched m) (VObj cn d) Hp Hh Hf Hn) as (cfg' & T1 & T2 & T3 & T4).
  { intros q s Hq. destruct (A1 q s Hq) as (r & Hr & _). eauto. }
  rewrite Ha' in T1. injection T1 as <-.
  assert (Hcl : clean cfg = true).
  { rewrite (apply_updated E (VObj cn d) (m_sched m) "" (TData c fs)) in Ha'; auto.
    - injection Ha' as <-. apply clean_updated; auto. intros s. unfold val_at.
      destruct (schedule_value E s (VObj cn d)) as [r|e] eqn:Hr; [|exact I]. apply val_at_type in Hr. destruct r; auto.
    - intros q s Hq. destruct (A1 q s Hq) as (r & Hr & _). eauto. }
  assert (HS' : resumable E S cfg (m_sched m) cn d).
  { split; auto; [exists c, fs; auto 10|]. unfold overrides_kept in *. destruct (s_overrides S) as [[|o ovs]|]; auto.
    destruct Ho as (O1 & O2 & O3 & O4). split; auto. split; auto. split; auto. revert O3. apply obeys_all_impl. intros o'.
    eapply obeys_applied; eauto. }
  destruct (restart E S cfg (m_sched m) cn d deser pk HS' Hser T4) as (F2 & C1 & C2).
  unfold as_value in HF. cbn [i_cls i_attrs] in HF. rewrite HF in C1. injection C1 as <-.
  destruct (C2 D' p OK N R C) as (m2 & M1 & M2 & _). exists m2. auto.
Qed.

(** ** C48 *)
Lemma blobs_found E c fs n d dir allow ig : order_ok E -> persistable E true (TData c fs) ->
  holds (TData c fs) (VObj n d) -> clean (VObj n d) = true -> root_blobs (VObj n d) ->
  exists tree bl o,
    typed_dump (e_class E) (VObj n d) None false = Ok (tree, bl) /\
    typed_load E (TData c fs) (ron_view tree) (Some dir) None allow ig = Ok (mkL (VObj n o) [] (state_lazies d dir)) /\
    NoDup (map fst bl) /\ NoDup (map fst (state_lazies d dir)) /\
    (forall k c0 p, In (k, VBlob c0 p) d ->
       exists f, In (f, p) bl /\ aget k (state_lazies d dir) = Some (mkLazy c0 (dir ++ "/" ++ f) false)) /\
    (forall k r, aget k (state_lazies d dir) = Some r -> exists c0 p, In (k, VBlob c0 p) d) /\
    (forall k1 k2 r1 r2, aget k1 (state_lazies d dir) = Some r1 -> aget k2 (state_lazies d dir) = Some r2 ->
       lz_file r1 = lz_file r2 -> k1 = k2) /\
    (forall k x, In (k, x) d -> blob_free x -> aget k o = Some x).
Proof.
  intros HE Hp Hh Hc Hr. exists (state_tree E n d), (state_blobs d), (state_attrs d).
  split; [now apply (state_dump E c fs)|]. split; [now apply (state_load E c fs n d)|].
  split; [apply state_blobs_nodup|]. split; [apply lazies_nodup|]. split; [|split; [|split]].
  - intros k c0 p H. exists (blob_file k). split.
    + apply aget_some_in. now apply (state_blob E c fs n d Hp Hh Hr k c0).
    + now apply (lazies_get E c fs n d Hp Hh dir k c0 p).
  - intros k r H. apply (lazies_only E c fs n d Hp Hh) in H as (c0 & p & H & _). eauto.
  - intros k1 k2 r1 r2 H1 H2 Ef. apply (lazies_only E c fs n d Hp Hh) in H1 as (c1 & p1 & H1 & ->).
    apply (lazies_only E c fs n d Hp Hh) in H2 as (c2 & p2 & H2 & ->). cbn [lz_file] in Ef.
    apply append_inj_l in Ef. apply append_inj_l in Ef. cbn in Hr. rewrite Forall_forall in Hr.
    apply blob_file_inj in Ef; auto; [now apply (Hr _ H1)|now apply (Hr _ H2)].
  - intros k x H Hx. apply (state_attr E c fs n d Hp Hh k x H). intros c0 p ->. exact Hx.
Qed.

(** ** C44 *)
Definition set_init (S : settings) (i : init_src) : settings :=
  mkSettings (s_config S) (s_state S) (s_initial S) i (s_overrides S) (s_ignore S) (s_key S).

Lemma start_from_checkpoint E S D p l : dir_ok D -> resume_point D = Some p -> In (p, EDir l) D ->
  manager_start E S D = manager_start E (set_init S (IDir p l)) [].
Proof.
  intros OK R Hin. apply in_nodup_aget in Hin; auto. unfold manager_start. rewrite R. change (resume_point (@nil (string * entry pyval))) with (@None string).
  unfold manager_config, manager_state. rewrite Hin. reflexivity.
Qed.

Lemma start_from_init E S D : resume_point D = None -> manager_start E S D = manager_start E S [].
Proof. intros R. unfold manager_start. rewrite R. reflexivity. Qed.

Lemma blobs_found_again E c fs n d dir allow ig : order_ok E -> persistable E true (TData c fs) ->
  holds (TData c fs) (VObj n d) -> clean (VObj n d) = true -> root_blobs (VObj n d) ->
  exists tree bl o lz,
    typed_dump (e_class E) (VObj n d) None false = Ok (tree, bl) /\
    typed_load E (TData c fs) (ron_view tree) (Some dir) None allow ig = Ok (mkL (VObj n o) [] lz) /\
    NoDup (map fst bl) /\ NoDup (map fst lz) /\
    (forall k c0 p, In (k, VBlob c0 p) d ->
       exists f, In (f, p) bl /\ aget k lz = Some (mkLazy c0 (dir ++ "/" ++ f) false)) /\
    (forall k r, aget k lz = Some r -> exists c0 p, In (k, VBlob c0 p) d) /\
    (forall k1 k2 r1 r2, aget k1 lz = Some r1 -> aget k2 lz = Some r2 -> lz_file r1 = lz_file r2 -> k1 = k2) /\
    (forall k x, In (k, x) d -> blob_free x -> aget k o = Some x).
Proof.
  intros HE Hp Hh Hc Hr. destruct (blobs_found E c fs n d dir allow ig HE Hp Hh Hc Hr) as (tree & bl & o & H).
  exists tree, bl, o, (state_lazies d dir). exact H.
Qed.

Lemma step_history_restart E S deser pk D0 names m m' k cn d F evs D last t :
  step_prepare E deser pk S D0 names m = Ok (m', k, Ok (mkInst cn d [], F)) ->
  resumable E S (m_config m) (m_sched m) cn d -> untouched (m_state m) -> reads_back deser d ->
  history (s_key S) (Step k (Ok F) (Done t) :: evs) D last -> names_ok D ->
  exists m2, manager_start E S D = Ok m2 /\ holds_session deser pk (disk_of S D) m2 (m_config m') (m_sched m') cn d.
Proof.
  intros H HS U R Hi N. destruct (history_intact _ _ _ _ Hi) as (OK & _). destruct (history_done _ _ _ _ _ _ _ Hi) as (_ & _ & R1 & C).
  eapply step_restart; eauto.
Qed.

(** the manager after a restart can be stepped and restarted again *)
Lemma restart_again E S cfg l n d deser pk : resumable E S cfg l n d -> reads_back deser d ->
  apply_schedules E (VObj n d) l cfg = Ok cfg ->
  exists F, checkpoint_files (e_class E) cfg l (VObj n d) = Ok F /\
  forall D p, dir_ok D -> names_ok D -> resume_point D = Some p -> complete D p F ->
  exists m, manager_start E S D = Ok m /\ holds_session deser pk (disk_of S D) m cfg l n d /\
    untouched (m_state m) /\
    forall z, (exists x, aget (s_key S) d = Some x /\ as_int x = Some z) ->
      step_prepare E deser pk S D (map fst d) m = Ok (m, z, Ok (mkInst n d [], F)).
Proof.
  intros HS R A. destruct (restart E S cfg l n d deser pk HS R A) as (F & F1 & F2). exists F. split; [exact F1|].
  intros D p OK N RP C. destruct (F2 D p OK N RP C) as (m & M1 & M2 & M3 & M4 & M5 & M6). exists m. split; auto. split; auto. split; auto.
  intros z (x & Hx & Hz). destruct M2 as (H1 & H2 & H3 & H4). destruct m as [mc ms mo]. cbn [m_config m_sched m_state] in *. subst mc.
  unfold step_prepare. cbn [m_config m_sched m_state]. rewrite M5. cbn [rbind]. rewrite (M6 _ _ Hx) by (intros c0 p0 ->; discriminate).
  rewrite Hz, H4. cbn [rbind]. unfold as_value. cbn [i_cls i_attrs]. rewrite M4. reflexivity.
Qed.

Lemma start_after_history E S evs D last n F t :
  history (s_key S) evs D last -> In (Step n (Ok F) (Done t)) evs ->
  exists p n' F' l, p = ckpt_name (s_key S) n' /\ Permutation l F' /\
    (exists ev, In ev evs /\ key_of ev = Some (n', Ok F')) /\
    forall i, manager_start E (set_init S i) D = manager_start E (set_init S (IDir p l)) [].
Proof.
  intros H Hi. destruct (history_never_none _ _ _ _ _ _ _ H Hi) as (n' & F' & R & (l & Hl & P) & Ev).
  exists (ckpt_name (s_key S) n'), n', F', l. split; [reflexivity|]. split; [exact P|]. split; [exact Ev|].
  intros i. destruct (history_intact _ _ _ _ H) as (OK & _).
  rewrite (start_from_checkpoint E (set_init S i) D _ l OK R Hl). reflexivity.
Qed.

Lemma read_ron_in l f x : read_ron l f = Ok x -> In (f, x) l.
Proof. unfold read_ron. destruct (aget f l) as [y|] eqn:E; [|discriminate]. intros H. injection H as ->. now apply aget_some_in. Qed.

Lemma start_cases E S m : manager_start E S [] = Ok m ->
  let ovs := Some (match s_overrides S with Some o => o | None => [] end) in
  match s_init S with
  | INone => exists c st, typed_load E (s_config S) (VDict []) None ovs true (s_ignore S) = Ok c /\
      s_initial S (l_value c) = Ok st /\ m_state m = inst_of (mkL st [] []) /\ m_sched m = l_sched c /\
      apply_schedules E (as_value (m_state m)) (l_sched c) (l_value c) = Ok (m_config m)
  | IFile data dir => exists c st, typed_load E (s_config S) data (Some dir) ovs true (s_ignore S) = Ok c /\
      s_initial S (l_value c) = Ok st /\ m_state m = inst_of (mkL st [] []) /\ m_sched m = l_sched c /\
      apply_schedules E (as_value (m_state m)) (l_sched c) (l_value c) = Ok (m_config m)
  | IDir p l => exists dc ds c st, In ("config.ron", dc) l /\ In ("state.ron", ds) l /\
      typed_load E (s_config S) dc (Some p) ovs true (s_ignore S) = Ok c /\
      typed_load E (s_state S) ds (Some p) None false (s_ignore S) = Ok st /\
      m_state m = inst_of st /\ m_sched m = l_sched c /\
      apply_schedules E (as_value (m_state m)) (l_sched c) (l_value c) = Ok (m_config m)
  | IMissing => False
  end.
Proof.
  intros H ovs. unfold manager_start in H. change (resume_point (@nil (string * entry pyval))) with (@None string) in H.
  apply rbind_ok in H as [c [Hc H]]. apply rbind_ok in H as [s [Hs H]]. apply rbind_ok in H as [cfg [Ha H]]. injection H as <-.
  cbn [m_config m_sched m_state]. unfold manager_config, manager_state in Hc, Hs. destruct (s_init S) as [|data dir|p l|].
  - apply rbind_ok in Hs as [v [Hv Hs]]. injection Hs as <-. exists c, v. auto.
  - apply rbind_ok in Hs as [v [Hv Hs]]. injection Hs as <-. exists c, v. auto.
  - apply rbind_ok in Hc as [dc [Hdc Hc]]. apply rbind_ok in Hs as [ds [Hds Hs]]. apply read_ron_in in Hdc, Hds.
    exists dc, ds, c, s. auto 10.
  - discriminate.
Qed.

(** ** C54 *)
Lemma config_class_rejected E S D m c fs : s_config S = TData c fs -> ~ configurable (TData c fs) -> manager_start E S D <> Ok m.
Proof.
  intros Sc N H. unfold manager_start in H. apply rbind_ok in H as [l [H _]].
  assert (X : forall x dir o, typed_load E (s_config S) x dir (Some o) true (s_ignore S) <> Ok l).
  { intros x dir o C. rewrite Sc, OverrideSim.typed_load_overrides in C by reflexivity. apply rbind_ok in C as [y [C _]].
    unfold deser_overrides in C. apply rbind_ok in C as [s [C _]]. apply N, configurable_iff. eauto. }
  unfold manager_config in H. destruct (resume_point D) as [p|].
  - destruct (aget p D) as [[fl|]|]; try discriminate. apply rbind_ok in H as [x [_ H]]. now apply X in H.
  - destruct (s_init S); try discriminate; try (now apply X in H). apply rbind_ok in H as [x [_ H]]. now apply X in H.
Qed.

Lemma config_class_accepted E S D data dir c fs : s_config S = TData c fs -> configurable (TData c fs) ->
  (s_overrides S = None \/ s_overrides S = Some []) ->
  config_file S D data dir ->
  manager_config E S D (resume_point D) = typed_load E (TData c fs) data dir None true (s_ignore S).
Proof.
  intros Sc Hc Ho H. unfold manager_config.
  assert (X : forall x dir, typed_load E (s_config S) x dir (Some (match s_overrides S with Some o => o | None => [] end)) true (s_ignore S) =
                            typed_load E (TData c fs) x dir None true (s_ignore S)).
  { intros x dr. rewrite Sc. destruct Ho as [->| ->]; now apply load_no_overrides. }
  unfold config_file in H. destruct (resume_point D) as [q|].
  - destruct H as (l & H1 & H2 & H3 & H4 & ->). rewrite (in_nodup_aget _ _ _ H4 H1). unfold read_ron.
    rewrite (in_nodup_aget _ _ _ H3 H2). cbn [rbind]. apply X.
  - destruct (s_init S) as [|x d|q l|].
    + destruct H as (-> & ->). apply X.
    + destruct H as (-> & ->). apply X.
    + destruct H as (H1 & H2 & ->). unfold read_ron. rewrite (in_nodup_aget _ _ _ H2 H1). cbn [rbind]. apply X.
    + contradiction.
Qed.

(** C16 *)
Lemma version_assumed E S D c fs n rules d dir :
  s_config S = TData c fs -> configurable (TData c fs) -> loadable (TData c fs) ->
  (s_overrides S = None \/ s_overrides S = Some []) -> config_file S D (VDict d) dir -> filev (VDict d) = true ->
  c_versioned c = Some (n, rules) -> Forall (fun kv => (fst kv < n)%Z) rules -> aget "version" d = None ->
  manager_config E S D (resume_point D) =
  typed_load E (TData c fs) (VDict (("version", VInt n) :: d)) dir None true (s_ignore S).
Proof.
  intros Sc Hc Hl Ho Hf Hx Hv Hr Hd. rewrite (config_class_accepted E S D (VDict d) dir c fs Sc Hc Ho Hf).
  assert (Hx' : filev (VDict (("version", VInt n) :: d)) = true).
  { cbn [filev] in *. apply andb_prop in Hx as [X1 X2]. apply andb_true_intro. split; [|exact X2].
    apply nodupb_NoDup. apply nodupb_NoDup in X1. constructor; auto. now apply aget_none_notin. }
  rewrite (UpgradeFacts.load_current E c fs n rules (("version", VInt n) :: d) n dir true (s_ignore S)); auto using Z.le_refl.
  change (adel "version" (("version", VInt n) :: d)) with d.
  apply UpgradeFacts.load_eq_plain; auto. cbn [deser_versioned]. rewrite Hv, Hd. rewrite adel_notin; auto. now apply aget_none_notin.
Qed.

(** ** a manager that is started with overrides *)
Lemma start_obeys E S c fs data ovs m : order_ok E -> ron_file E -> s_config S = TData c fs -> loadable (TData c fs) ->
  field_idents (TData c fs) -> s_overrides S = Some ovs -> apart ovs ->
  (forall o p text, In o ovs -> names o p text -> SpecOverride.untouched (TData c fs) p) ->
  (forall o, In o ovs -> ~ bad_bool (TData c fs) o) ->
  filev (VDict data) = true -> markerless (VDict data) = true ->
  (s_init S = INone /\ data = []) \/ (exists dir, s_init S = IFile (VDict data) dir) ->
  manager_start E S [] = Ok m -> m_sched m = [] -> obeys_all E (TData c fs) (m_config m) [] ovs.
Proof.
  intros HE Hr Sc Hl Hi So Ha Hu Hb Hf Hm Hs H Hn. apply start_cases in H. cbv zeta in H. rewrite So, Sc in H.
  destruct Hs as [[Si ->]|[dir Si]]; rewrite Si in H.
  - destruct H as (l & st & H1 & _ & _ & H2 & H3). rewrite Hn in H2. rewrite <- H2 in H3. cbn in H3. injection H3 as H3.
    rewrite <- H3. eapply load_obeys; eauto.
  - destruct H as (l & st & H1 & _ & _ & H2 & H3). rewrite Hn in H2. rewrite <- H2 in H3. cbn in H3. injection H3 as H3.
    rewrite <- H3. eapply load_obeys; eauto.
Qed.
