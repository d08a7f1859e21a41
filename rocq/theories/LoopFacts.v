(** LoopFacts.v -- a training loop that is interrupted (C74). *)
From Coq Require Import Permutation.
From Verif Require Import Base AFacts Value Schema Rewrite Sched Types Asdict FromDict Manager Ckpt Lazy Session Induct SpecTree SpecTypes RewriteFacts FromDictFacts RoundTrip SpecState ResumeFacts SchedTree ResumeProps SpecCkpt CkptFacts CrashFacts SpecLazy SpecLoad SpecOverride SpecAgain SpecSession LazyFacts ConfigFacts AgainFacts Run Loop SpecRun SpecLoop SessionFacts RunFacts.

Lemma aget_nokey {A} k (z : list (string * A)) : ~ In k (akeys z) -> aget k z = None.
Proof. intros Hz. destruct (aget k z) eqn:Q; auto. apply aget_some_inkeys in Q. contradiction. Qed.

Lemma alist_eq {A} : forall l l' : list (string * A), akeys l = akeys l' -> NoDup (akeys l) -> (forall k, aget k l = aget k l') -> l = l'.
Proof.
  induction l as [|[k x] l IH]; intros [|[k' x'] l'] K N H; try discriminate; [reflexivity|].
  cbn [akeys map fst] in K. injection K as Qk K. subst k'. fold (akeys l) (akeys l') in K.
  assert (Hk := H k). cbn [aget] in Hk. rewrite String.eqb_refl in Hk. injection Hk as <-.
  inversion N as [|? ? N1 N2]; subst. fold (akeys l) in N1, N2. f_equal. apply IH; [exact K|exact N2|]. intros j.
  destruct (String.eqb j k) eqn:Q.
  - apply String.eqb_eq in Q. rewrite Q, !aget_nokey; auto. now rewrite <- K.
  - specialize (H j). cbn [aget] in H. now rewrite Q in H.
Qed.

(** ** configs and schedules that are the same at every path *)
Lemma apply_same E S st cfg cfg' l l' n d n' d' : resumable E S cfg l n d -> resumable E S cfg l' n' d' ->
  (forall p, sched_at (SNode l') p = sched_at (SNode l) p) ->
  apply_schedules E st l' cfg = Ok cfg' -> apply_schedules E st l cfg = Ok cfg'.
Proof.
  intros [_ (c & fs & Sc & Hp & Hcf & Hh & Hc & Hf & Hn & Hs) _ _] [_ (c1 & fs1 & Sc1 & _ & _ & _ & _ & Hf1 & Hn1 & _) _ _] P Ha.
  rewrite Sc in Sc1. injection Sc1 as <- <-.
  assert (U : uniq cfg) by (eapply dumpable_uniq, (holds_dumpable E false (TData c fs)); eauto).
  destruct (apply_sets E st l' cfg cfg' Hn1 Ha) as [A1 _].
  assert (V : forall q s, sched_at (SNode l') q = Some s -> exists r, schedule_value E s st = Ok r).
  { intros q s Hq. destruct (A1 q s Hq) as (r & Hr & _). eauto. }
  rewrite (apply_updated E _ l' "" (TData c fs)) in Ha by auto. rewrite (apply_updated E _ l "" (TData c fs)); auto.
  - rewrite (updated_ext _ _ (Some (SNode l)) (Some (SNode l'))) by (intros q; symmetry; apply P). exact Ha.
  - intros q s. rewrite <- P. apply V.
Qed.

Lemma resumable_next E S deser cfg cfg' l n d d1 : resumable E S cfg l n d -> keepable E S deser n d1 ->
  apply_schedules E (VObj n d1) l cfg = Ok cfg' ->
  resumable E S cfg' l n d1 /\ apply_schedules E (VObj n d1) l cfg' = Ok cfg'.
Proof.
  intros [HE (c & fs & Sc & Hp & Hcf & Hh & Hc & Hf & Hn & Hs) _ Ho] [Hst _] Ha.
  assert (Uq : uniq cfg) by (eapply dumpable_uniq, (holds_dumpable E false (TData c fs)); eauto).
  destruct (apply_sets E _ l _ _ Hn Ha) as [A1 _].
  assert (V : forall q s, sched_at (SNode l) q = Some s -> exists r, schedule_value E s (VObj n d1) = Ok r).
  { intros q s Hq. destruct (A1 q s Hq) as (r & Hr & _). eauto. }
  destruct (step_total E c fs cfg l (VObj n d1) Hp Hh Hf Hn V) as (cfg2 & T1 & T2 & T3 & T4).
  rewrite Ha in T1. injection T1 as <-. split; [|exact T4].
  assert (Hcl : clean cfg' = true).
  { rewrite (apply_updated E (VObj n d1) l "" (TData c fs)) in Ha by auto.
    injection Ha as <-. apply clean_updated; auto. intros s. unfold val_at.
    destruct (schedule_value E s (VObj n d1)) as [r|e] eqn:Hr; [|exact I]. apply val_at_type in Hr. destruct r; auto. }
  split; auto; [exists c, fs; auto 10|]. unfold overrides_kept in *. destruct (s_overrides S) as [[|o ovs]|]; auto.
  destruct Ho as (O1 & O2 & O3 & O4). split; auto. split; auto. split; auto. revert O3. apply obeys_all_impl. intros o'.
  eapply obeys_applied; eauto.
Qed.

Section Facts.
Variable E : env.
Variable deser : string -> pyval -> inst -> res pyval.
Variable pk : bool.
Variable S : settings.
Variable names : list string.
Variable body : pyval -> code.
Variable n : string.
Variable l : list (string * stree).
Variable cfg0 : pyval.
Variable d0 : list (string * pyval).
Hypothesis HJ : sound_job E S deser names body n l cfg0 d0.

Notation steps := (uninterrupted E body n l cfg0 d0).

(** ** user code *)
Definition stands (disk : string -> option pyval) (o : inst) (d : list (string * pyval)) : Prop :=
  i_cls o = n /\ akeys (i_attrs o) = names /\ map fst d = names /\ untouched o /\ stands_for deser pk disk names o d /\
  forall a r, aget a (i_unloaded o) = Some r -> exists c p, aget a d = Some (VBlob c p).

Lemma stands_get disk o d a v o1 ev : stands disk o d -> lazy_get deser pk disk o a = (Ok v, o1, ev) ->
  aget a d = Some v /\ stands disk o1 d.
Proof.
  intros (C & K & M & U & T & B) G. destruct (stands_read deser pk names disk o d a T) as (o' & ev' & Q & T' & _ & _).
  rewrite G in Q. destruct (aget a d) as [x|] eqn:Ga; [|discriminate Q]. injection Q as <- <- <-. split; [reflexivity|].
  unfold lazy_get in G. destruct (aget a (i_unloaded o)) as [r|] eqn:Ef.
  - destruct (disk (lz_file r)) as [data|]; [|discriminate G]. destruct (lz_pickle r && negb pk); [discriminate G|].
    destruct (deser (lz_cls r) data o) as [y|]; [|discriminate G]. injection G as <- <- _. destruct U as [N U].
    split; [exact C|]. split; [|split; [exact M|split; [split|split; [exact T'|]]]]; cbn [i_attrs i_unloaded].
    + rewrite akeys_aset_in; [exact K|]. eapply aget_some_inkeys, U, Ef.
    + now apply nodup_adel.
    + intros j r' Hj. destruct (string_dec j a) as [->|Dj]; [now rewrite aget_adel_same in Hj|].
      rewrite aget_adel_other in Hj by auto. rewrite aget_aset_other by auto. eauto.
    + intros j r' Hj. destruct (string_dec j a) as [->|Dj]; [now rewrite aget_adel_same in Hj|]. rewrite aget_adel_other in Hj by auto. eauto.
  - destruct (aget a (i_attrs o)); [|discriminate G]. injection G as _ <- _. repeat (split; auto).
Qed.

Lemma stands_set disk o d a v : stands disk o d -> In a names -> aget a (i_unloaded o) = None -> stands disk (lazy_set o a v) (aset a v d).
Proof.
  intros (C & K & M & [N U] & (N' & I' & T) & B) Ha G. unfold lazy_set. split; [exact C|]. split; [|split; [|split; [split|split; [split; [exact N'|split; [exact I'|]]|]]]]; cbn [i_attrs i_unloaded].
  - rewrite akeys_aset_in; [exact K|]. now rewrite K.
  - change (akeys (aset a v d) = names). rewrite akeys_aset_in; [exact M|]. unfold akeys. now rewrite M.
  - exact N.
  - intros j r Hj. rewrite aget_aset_other; [eauto|]. intros ->. congruence.
  - intros j. specialize (T j). destruct (String.eqb_spec j a) as [->|Hne].
    + rewrite G. now rewrite !aget_aset_same.
    + rewrite !aget_aset_other by auto. exact T.
  - intros j r Hj. rewrite aget_aset_other; [eauto|]. intros ->. congruence.
Qed.

Lemma acts_plain disk : forall c o o2, acts deser pk names disk c o o2 -> forall d, stands disk o d ->
  exists d2, plainly c d = Some d2 /\ stands disk o2 d2.
Proof.
  induction 1 as [o|a k o v o1 ev o2 G A IH|a v k o o2 Ha G A IH]; intros d H; cbn [plainly].
  - eauto.
  - destruct (stands_get disk o d a v o1 ev H G) as [-> H1]. auto.
  - apply IH. now apply stands_set.
Qed.

(** reading everything *)
Lemma stands_full disk o d : stands disk o d -> NoDup names -> load_fields deser pk disk names o = Ok (mkInst n d []).
Proof.
  intros H ND. assert (L : forall ns o, stands disk o d -> (forall j, In j ns -> In j names) -> exists o', load_fields deser pk disk ns o = Ok o' /\ stands disk o' d).
  { induction ns as [|a ns IH]; intros o1 H1 Hn; cbn [load_fields]; [eauto|].
    destruct H1 as (C & K & M & U & T & B). destruct (stands_read deser pk names disk o1 d a T) as (o' & ev' & Q & _).
    assert (Ga : exists x, aget a d = Some x).
    { assert (X : In a (map fst d)) by (rewrite M; apply Hn; now left). apply in_map_iff in X as ([j x] & <- & X). exists x. apply in_nodup_aget; auto. unfold akeys. now rewrite M. }
    destruct Ga as [x Ga]. rewrite Ga in Q. rewrite Q. apply IH; [|intros; apply Hn; now right].
    eapply stands_get; [|exact Q]. repeat (split; auto). }
  destruct (L names o H (fun j x => x)) as (o' & Q & H'). rewrite Q. f_equal.
  destruct H as (_ & _ & M & _ & T & _). destruct (stands_load deser pk names disk d names o o' T Q) as (_ & _ & G).
  destruct H' as (C & K & _ & _ & (N' & I' & T') & _).
  assert (U : i_unloaded o' = []).
  { destruct (i_unloaded o') as [|[j r] z] eqn:Z; auto. assert (X : In j names) by (apply I'; now left). apply G in X. cbn [aget] in X. rewrite String.eqb_refl in X. discriminate X. }
  destruct o' as [c1 a1 u1]. cbn [i_cls i_attrs i_unloaded] in *. subst u1 c1. f_equal. apply alist_eq.
  - unfold akeys in *. now rewrite K, M.
  - now rewrite K.
  - intros k. specialize (T' k). exact T'.
Qed.

Lemma stands_loaded_any disk disk' d : stands disk (mkInst n d []) d -> stands disk' (mkInst n d []) d.
Proof. intros (C & K & M & U & (N & I1 & T) & B). repeat (split; auto). Qed.

(** ** what the manager holds, and what is in the directory *)
Definition at_k (k : nat) (cfg : pyval) (d : list (string * pyval)) (l' : list (string * stree)) : Prop :=
  steps k = Some (cfg, d) /\ resumable E S cfg l' n d /\ reads_back deser d /\ (forall p, sched_at (SNode l') p = sched_at (SNode l) p) /\ map fst d = names.

Definition saved (k : nat) (F : files pyval) : Prop :=
  exists cfg d l', at_k k cfg d l' /\ checkpoint_files (e_class E) cfg l' (VObj n d) = Ok F /\ apply_schedules E (VObj n d) l' cfg = Ok cfg.

Definition held (k : nat) (D : fs pyval) (m : live) : Prop :=
  exists d, at_k k (m_config m) d (m_sched m) /\ stands (disk_of S D) (m_state m) d.

Definition in_dir (k : nat) (cur : option (Z * files pyval)) : Prop :=
  match cur with None => k = O | Some (_, F) => saved k F end.

Lemma state_nodup m d : resumable E S (m_config m) (m_sched m) n d -> NoDup (akeys d).
Proof. intros [_ _ (c & fs & _ & Hp & Hh & _) _]. eapply state_names; eauto. Qed.

Lemma at_0 : at_k 0 cfg0 d0 l.
Proof. destruct HJ as [A B C D]. destruct (D 0%nat cfg0 d0 eq_refl) as [_ R]. split; [reflexivity|]. auto. Qed.

(** at every iteration the schedules fit, as they were at first *)
Lemma steps_resumable : forall k cfg d, steps k = Some (cfg, d) -> resumable E S cfg l n d.
Proof.
  induction k as [|k IH]; intros cfg d H.
  - injection H as <- <-. apply HJ.
  - assert (K := sj_state _ _ _ _ _ _ _ _ _ HJ _ _ _ H). cbn [uninterrupted] in H. destruct (steps k) as [[c1 d1]|]; [|discriminate H].
    destruct (plainly (body c1) d1) as [d2|]; [|discriminate H]. destruct (apply_schedules E (VObj n d2) l c1) as [c2|] eqn:A; [|discriminate H].
    injection H as -> ->. eapply resumable_next; eauto.
Qed.

(** starting a manager *)
Lemma start_held k D cur : dir_ok D -> names_ok D -> intact (s_key S) D cur -> in_dir k cur ->
  exists m, manager_start E S D = Ok m /\ held k D m.
Proof.
  intros OK N I Hk. assert (R := intact_resume _ _ _ OK I). destruct cur as [[z F]|]; cbn [in_dir last_of option_map fst] in *.
  - destruct Hk as (cfg & d & l' & (K1 & K2 & K3 & K4 & K5) & CF & Ha).
    destruct (restart_full E S cfg l' n d deser pk K2 K3 Ha) as (F1 & C1 & R1). rewrite CF in C1. injection C1 as <-.
    destruct (resumed_stands E S cfg l' n d deser pk K2 K3 Ha) as (F2 & C2 & R2). rewrite CF in C2. injection C2 as <-.
    assert (Cp : complete D (ckpt_name (s_key S) z) F).
    { destruct I as (_ & (lf & Hl & P) & _). exists lf. split; auto. now apply aget_some_in. }
    destruct (R1 D _ OK N R Cp) as (m & M1 & (B1 & B2 & B3 & B4) & U & _ & _ & _ & Qi & _ & Rs).
    destruct (R2 D _ OK N R Cp) as (m2 & M2 & T). rewrite M1 in M2. injection M2 as <-.
    exists m. split; [exact M1|]. exists d. split.
    + rewrite B1. split; [exact K1|]. split; [exact Rs|]. split; [exact K3|]. split; [|exact K5]. intros p. now rewrite B2.
    + split; [now rewrite Qi|]. split; [|split; [exact K5|split; [exact U|split; [now rewrite <- K5|]]]].
      * rewrite Qi. cbn [state_inst i_attrs]. unfold state_attrs, akeys. rewrite map_map. cbn [fst]. exact K5.
      * rewrite Qi. cbn [state_inst i_unloaded]. destruct K2 as [_ _ (c2 & fs2 & _ & Hp2 & Hh2 & _) _]. intros a r Hu.
        apply (lazies_only E c2 fs2 n d Hp2 Hh2) in Hu as (c0 & p0 & Hu & _). exists c0, p0. apply in_nodup_aget; auto. now apply (state_names E c2 fs2 n d).
  - subst k. exists (mkLive cfg0 l (mkInst n d0 [])). split; [rewrite start_from_init by exact R; apply HJ|].
    exists d0. split; [apply at_0|]. split; [reflexivity|]. cbn [m_state i_attrs].
    assert (M := sj_names _ _ _ _ _ _ _ _ _ HJ). split; [exact M|]. split; [exact M|]. split; [split; [constructor|discriminate]|].
    split; [|discriminate]. split; [constructor|]. split; [intros j []|]. intros j. reflexivity.
Qed.

(** one iteration *)
Lemma put_all_nodup (fl acc : files pyval) : NoDup (akeys acc) -> NoDup (akeys (put_all fl acc)).
Proof. unfold put_all. apply (aset_fold_nodup fst snd). Qed.

Lemma files_nodup c s F st : checkpoint_files (e_class E) c s st = Ok F -> NoDup (akeys F).
Proof.
  unfold checkpoint_files. intros H. apply rbind_ok in H as [[x b] [_ H]]. apply rbind_ok in H as [[y b'] [_ H]]. injection H as <-.
  apply put_all_nodup, nodup_aset, put_all_nodup. repeat constructor. easy.
Qed.

Lemma step_core k w o m z dumped : held k (w_dir w) (w_live w) ->
  acts deser pk names (disk_of S (w_dir w)) (body (m_config (w_live w))) (m_state (w_live w)) o ->
  step_prepare E deser pk S (w_dir w) names (w_live (with_state w o)) = Ok (m, z, dumped) ->
  exists d2 x, at_k (Datatypes.S k) (m_config m) d2 (m_sched m) /\ aget (s_key S) d2 = Some x /\ as_int x = Some z /\ aget (s_key S) (i_attrs o) = Some x /\
    (forall o2 F, dumped = Ok (o2, F) -> o2 = mkInst n d2 [] /\ saved (Datatypes.S k) F /\
      stands (disk_of S (w_dir w)) (mkInst n d2 []) d2 /\ NoDup (akeys F) /\
      load_fields deser pk (disk_of S (w_dir w)) names (m_state m) = Ok o2).
Proof.
  intros (d & (K1 & K2 & K3 & K4 & K5) & T) A H. unfold step_prepare in H. cbn [with_state w_live m_state m_config m_sched] in H.
  destruct (acts_plain _ _ _ _ A d T) as (d2 & P & T2).
  apply rbind_ok in H as [cfg [Ha H]]. destruct (aget (s_key S) (i_attrs o)) as [kv|] eqn:Ek; [|discriminate].
  destruct (as_int kv) as [z'|] eqn:Ez; [|discriminate]. injection H as <- <- <-. cbn [m_config m_sched m_state].
  assert (Up : forall a y, aget a (i_attrs o) = Some y -> y <> VNone -> aget a d2 = Some y).
  { intros a y Ea Hy. destruct T2 as (_ & _ & _ & [_ U] & (_ & _ & T2) & _). specialize (T2 a).
    destruct (aget a (i_unloaded o)) as [r|] eqn:Eu; [|now rewrite <- T2, Ea]. apply U in Eu. rewrite Eu in Ea. injection Ea as <-. now destruct Hy. }
  assert (Ha' : apply_schedules E (VObj n d2) (m_sched (w_live w)) (m_config (w_live w)) = Ok cfg).
  { destruct K2 as [HE (c & fs & Sc & Hp & Hcf & Hh & Hc & Hf & Hn & Hs) Hst Ho].
    assert (Uq : uniq (m_config (w_live w))) by (eapply dumpable_uniq, (holds_dumpable E false (TData c fs)); eauto).
    apply (apply_transfer E _ _ (m_sched (w_live w)) "" (TData c fs) _ cfg Hn Uq Hf Ha).
    intros a x f. unfold as_value. cbn [py_getattr]. destruct (aget a (i_attrs o)) as [y|] eqn:Ea; [|discriminate].
    intros Q Kn. injection Q as ->. rewrite (Up a x Ea); [reflexivity|]. intros ->. discriminate Kn. }
  assert (Su : steps (Datatypes.S k) = Some (cfg, d2)).
  { cbn [uninterrupted]. rewrite K1, P. rewrite (apply_same E S (VObj n d2) _ cfg l (m_sched (w_live w)) n d n d); auto. now apply (steps_resumable k). }
  assert (Kp := sj_state _ _ _ _ _ _ _ _ _ HJ _ _ _ Su).
  destruct (resumable_next E S deser _ cfg (m_sched (w_live w)) n d d2 K2 Kp Ha') as [R2 R3].
  assert (AK : at_k (Datatypes.S k) cfg d2 (m_sched (w_live w))).
  { split; [exact Su|]. split; [exact R2|]. split; [apply Kp|]. split; [exact K4|apply T2]. }
  exists d2, kv. split; [exact AK|]. split; [apply Up; [exact Ek|intros ->; discriminate Ez]|]. split; [exact Ez|]. split; [reflexivity|].
  intros o2 F H. apply rbind_ok in H as [o3 [Hl H]]. apply rbind_ok in H as [F' [HF H]]. injection H as -> ->.
  assert (ND : NoDup names) by (rewrite <- K5; exact (state_nodup (w_live w) d K2)).
  assert (Hl' := stands_full _ _ _ T2 ND). rewrite Hl in Hl'. injection Hl' as ->.
  split; [reflexivity|]. split; [exists cfg, d2, (m_sched (w_live w)); split; [exact AK|split; [exact HF|exact R3]]|].
  split; [|split; [eapply files_nodup; exact HF|exact Hl]].
  split; [reflexivity|]. split; [apply T2|]. split; [apply T2|]. split; [split; [constructor|discriminate]|].
  split; [|discriminate]. split; [constructor|]. split; [intros j []|]. intros j. reflexivity.
Qed.

Lemma step_facts k w o m z dumped : held k (w_dir w) (w_live w) -> at_step deser pk S names body (grown S) w o ->
  step_prepare E deser pk S (w_dir w) names (w_live (with_state w o)) = Ok (m, z, dumped) ->
  grown S (w_dir w) z /\
  forall o2 F, dumped = Ok (o2, F) -> exists d2, at_k (Datatypes.S k) (m_config m) d2 (m_sched m) /\ o2 = mkInst n d2 [] /\ saved (Datatypes.S k) F /\
    stands (disk_of S (w_dir w)) (mkInst n d2 []) d2 /\ NoDup (akeys F) /\
    load_fields deser pk (disk_of S (w_dir w)) names (m_state m) = Ok o2.
Proof.
  intros Hm [A Fr] H. destruct (step_core k w o m z dumped Hm A H) as (d2 & x & X1 & X2 & X3 & X4 & X5). split; [eauto|].
  intros o2 F Q. exists d2. split; [exact X1|]. now apply X5.
Qed.

Lemma grown_fits D z dumped : dir_ok D -> grown S D z -> (forall l, dumped = Ok l -> NoDup (akeys l)) -> fits_step (s_key S) D z dumped.
Proof.
  intros OK (R & L & T) N. apply (fits_increasing (s_key S) D (Crash z dumped)); auto. intros z' d' Q. injection Q as <- <-. auto.
Qed.

Notation Job := (job E deser pk S names body no_checkpoint proper (grown S)).

Lemma iter_case k cur w o t w' : proper (w_dir w) -> intact (s_key S) (w_dir w) cur -> w_last w = last_of (s_key S) cur ->
  held k (w_dir w) (w_live w) -> at_step deser pk S names body (grown S) w o ->
  does E deser pk S names (with_state w o) StepNow (AStep (Done t)) w' ->
  exists cross m z dumped ops F, step_prepare E deser pk S (w_dir w) names (w_live (with_state w o)) = Ok (m, z, dumped) /\
    step_ops cross (s_key S) (w_dir w) (w_last w) z (files_of dumped) ops (Done t) /\ w_dir w' = exec_all ops (w_dir w) /\
    intact (s_key S) (w_dir w') (Some (z, F)) /\ w_last w' = last_of (s_key S) (Some (z, F)) /\ in_dir (Datatypes.S k) (Some (z, F)) /\
    held (Datatypes.S k) (w_dir w') (w_live w').
Proof.
  intros [OK N] I La Hm A Do. inversion Do as [| | |cross m z dumped ops out o2 Q O Q'|]; subst. clear Do.
  cbn [w_dir w_live w_last with_state] in *. destruct (step_facts k w o m z dumped Hm A Q) as (G & X).
  assert (Ex : exists_in (w_dir w) (ckpt_name (s_key S) z) = false).
  { rewrite exists_aget. destruct (aget _ (w_dir w)) eqn:Z; auto. apply aget_some_in in Z. now apply G in Z. }
  rewrite Ex in Q'. rewrite La in O.
  assert (FS : fits_step (s_key S) (w_dir w) z (files_of dumped)).
  { apply grown_fits; auto. intros lf E1. destruct dumped as [[o3 F]|]; [|discriminate E1]. injection E1 as <-. destruct (X _ _ eq_refl) as (d2 & X1). apply X1. }
  destruct (step_whole (s_key S) cross _ cur z _ _ _ OK I FS O) as (F & Q1 & -> & I').
  destruct dumped as [[o3 F3]|]; [|discriminate Q1]. injection Q1 as <-. destruct (X _ _ eq_refl) as (d2 & X1 & X2 & X3 & X4 & X5 & X6). subst o3.
  exists cross, m, z, (Ok (mkInst n d2 [], F3)), ops, F3. split; [exact Q|]. split; [now rewrite La|]. split; [reflexivity|]. split; [exact I'|]. split; [reflexivity|]. split; [exact X3|].
  assert (Eo : o2 = mkInst n d2 []).
  { destruct Q' as [o' L|first rest o' e _ _ L]; congruence. }
  subst o2. exists d2. cbn [m_config m_sched m_state]. split; [exact X1|]. eapply stands_loaded_any; exact X4.
Qed.

Lemma kill_case k cur w o D m : proper (w_dir w) -> intact (s_key S) (w_dir w) cur -> w_last w = last_of (s_key S) cur -> in_dir k cur ->
  held k (w_dir w) (w_live w) -> at_step deser pk S names body (grown S) w o ->
  dies E deser pk S names w o D -> proper D -> manager_start E S D = Ok m ->
  exists cross m1 z dumped ops out pre post, step_prepare E deser pk S (w_dir w) names (w_live (with_state w o)) = Ok (m1, z, dumped) /\
    step_ops cross (s_key S) (w_dir w) (w_last w) z (files_of dumped) ops out /\ ops = (pre ++ post)%list /\ D = exec_all pre (w_dir w) /\
    exists k' cur', intact (s_key S) D cur' /\ resume_point D = last_of (s_key S) cur' /\ in_dir k' cur' /\ held k' D m /\
      ((k' = k /\ cur' = cur /\ aget (ckpt_name (s_key S) z) D = None) \/ (k' = Datatypes.S k /\ exists F, cur' = Some (z, F))).
Proof.
  intros [OK N] I La Hd Hm A Di [OK' N'] M. destruct Di as [cross m1 z dumped ops out pre post Q O Eo].
  destruct (step_facts k w o m1 z dumped Hm A Q) as (G & X).
  assert (FS : fits_step (s_key S) (w_dir w) z (files_of dumped)).
  { apply grown_fits; auto. intros lf E1. destruct dumped as [[o3 F]|]; [|discriminate E1]. injection E1 as <-. destruct (X _ _ eq_refl) as (d2 & X1). apply X1. }
  exists cross, m1, z, dumped, ops, out, pre, post. split; [exact Q|]. split; [exact O|]. split; [exact Eo|]. split; [reflexivity|].
  rewrite La in O. destruct (step_prefix_none (s_key S) cross _ cur z _ _ _ _ _ OK I FS O Eo) as [[I' Nz]|(F & Q1 & I')].
  - exists k, cur. split; [exact I'|]. split; [now apply intact_resume|]. split; [exact Hd|]. split; [|left; auto].
    destruct (start_held k _ cur OK' N' I' Hd) as (m' & M' & H). rewrite M in M'. injection M' as <-. exact H.
  - destruct dumped as [[o3 F3]|]; [|discriminate Q1]. injection Q1 as <-. destruct (X _ _ eq_refl) as (d2 & _ & _ & X3 & _).
    exists (Datatypes.S k), (Some (z, F3)). split; [exact I'|]. split; [now apply intact_resume|]. split; [exact X3|]. split; [|right; eauto].
    destruct (start_held (Datatypes.S k) _ (Some (z, F3)) OK' N' I' X3) as (m' & M' & H). rewrite M in M'. injection M' as <-. exact H.
Qed.

Lemma again_case k cur D m : proper D -> intact (s_key S) D cur -> in_dir k cur -> manager_start E S D = Ok m -> held k D m.
Proof.
  intros [OK N] I Hd M. destruct (start_held k _ cur OK N I Hd) as (m' & M' & H). rewrite M in M'. injection M' as <-. exact H.
Qed.

Lemma job_inv tr w : Job tr w -> proper (w_dir w) /\ exists k cur,
  (iterations tr <= k <= iterations tr + deaths tr)%nat /\ intact (s_key S) (w_dir w) cur /\ w_last w = last_of (s_key S) cur /\ in_dir k cur /\ held k (w_dir w) (w_live w).
Proof.
  induction 1 as [D m C P M|tr w o t w' J (P & k & cur & B & I & La & Hd & Hm) A Do P'|tr w o D m J (P & k & cur & B & I & La & Hd & Hm) A Di P' M|tr w m J (P & k & cur & B & I & La & Hd & Hm) M].
  - split; [exact P|]. exists 0%nat, None. cbn [w_dir w_live w_last]. assert (I : intact (s_key S) D None).
    { intros name lf z H1 H2. apply (C name z). apply numbered_aget; [apply P|eauto]. }
    split; [cbn; lia|]. split; [exact I|]. split; [apply intact_resume; [apply P|exact I]|]. split; [reflexivity|]. now apply (again_case 0 None).
  - destruct (iter_case k cur w o t w' P I La Hm A Do) as (cross & m & z & dumped & ops & F & _ & _ & _ & H1 & H2 & H3 & H4).
    split; [exact P'|]. exists (Datatypes.S k), (Some (z, F)). split; [cbn; lia|]. auto.
  - destruct (kill_case k cur w o D m P I La Hd Hm A Di P' M) as (cross & m1 & z & dumped & ops & out & pre & post & _ & _ & _ & _ & k' & cur' & H1 & H2 & H3 & H4 & H5).
    split; [exact P'|]. exists k', cur'. split; [cbn; destruct H5 as [(-> & _)|(-> & _)]; lia|]. auto.
  - split; [exact P|]. exists k, cur. cbn [w_dir w_live w_last]. split; [cbn; lia|]. split; [exact I|]. split; [apply intact_resume; [apply P|exact I]|]. split; [exact Hd|].
    now apply (again_case k cur).
Qed.

Lemma held_session k D m : held k D m -> exists cfg d, steps k = Some (cfg, d) /\ holds_session deser pk (disk_of S D) m cfg l n d.
Proof.
  intros (d & (K1 & K2 & K3 & K4 & K5) & T). exists (m_config m), d. split; [exact K1|]. split; [reflexivity|]. split; [exact K4|].
  assert (ND := state_nodup m d K2). split.
  - intros a x Hx. destruct T as (_ & _ & _ & _ & T & _). destruct (stands_read deser pk names (disk_of S D) (m_state m) d a T) as (o' & ev & Q & _). rewrite Q.
    cbn [fst]. now rewrite (in_nodup_aget a x d ND Hx).
  - rewrite K5. apply stands_full; auto. rewrite <- K5. exact ND.
Qed.

Lemma job_holds tr w : Job tr w -> exists k cfg d, (iterations tr <= k <= iterations tr + deaths tr)%nat /\
  steps k = Some (cfg, d) /\ holds_session deser pk (disk_of S (w_dir w)) (w_live w) cfg l n d.
Proof.
  intros J. destruct (job_inv tr w J) as (_ & k & cur & B & _ & _ & _ & H). destruct (held_session k _ _ H) as (cfg & d & A1 & A2). eauto 10.
Qed.

Lemma job_restarts tr w : Job tr w ->
  (exists m, manager_start E S (w_dir w) = Ok m) /\
  forall o D, at_step deser pk S names body (grown S) w o -> dies E deser pk S names w o D -> proper D -> exists m, manager_start E S D = Ok m.
Proof.
  intros J. destruct (job_inv tr w J) as ([OK N] & k & cur & B & I & La & Hd & Hm). split.
  - destruct (start_held k _ cur OK N I Hd) as (m & M & _). eauto.
  - intros o D A Di [OK' N']. destruct Di as [cross m1 z dumped ops out pre post Q O Eo]. destruct (step_facts k w o m1 z dumped Hm A Q) as (G & X). rewrite La in O.
    assert (FS : fits_step (s_key S) (w_dir w) z (files_of dumped)).
    { apply grown_fits; auto. intros lf E1. destruct dumped as [[o3 F]|]; [|discriminate E1]. injection E1 as <-. destruct (X _ _ eq_refl) as (d2 & X1). apply X1. }
    destruct (step_prefix (s_key S) cross _ cur z _ _ _ _ _ OK I FS O Eo) as [I'|(F & Q1 & I')].
    + destruct (start_held k _ cur OK' N' I' Hd) as (m & M & _). eauto.
    + destruct dumped as [[o3 F3]|]; [|discriminate Q1]. injection Q1 as <-. destruct (X _ _ eq_refl) as (d2 & _ & _ & X3 & _).
      destruct (start_held (Datatypes.S k) _ (Some (z, F3)) OK' N' I' X3) as (m & M & _). eauto.
Qed.

(** the next step does not raise if the run in memory goes on *)
Lemma stands_attr disk o d a x : stands disk o d -> aget a d = Some x -> (forall c p, x <> VBlob c p) -> aget a (i_attrs o) = Some x.
Proof.
  intros (_ & _ & _ & _ & (_ & _ & T) & B) Ha Hx. specialize (T a). destruct (aget a (i_unloaded o)) as [r|] eqn:G; [|now rewrite T].
  destruct (B a r G) as (c & p & Q). rewrite Ha in Q. injection Q as Q. now destruct (Hx c p).
Qed.

Lemma step_ready k w o cfg' d' x z : held k (w_dir w) (w_live w) -> at_step deser pk S names body (grown S) w o ->
  steps (Datatypes.S k) = Some (cfg', d') -> aget (s_key S) d' = Some x -> as_int x = Some z ->
  exists m F, step_prepare E deser pk S (w_dir w) names (w_live (with_state w o)) = Ok (m, z, Ok (mkInst n d' [], F)) /\ m_config m = cfg'.
Proof.
  intros (d & (K1 & K2 & K3 & K4 & K5) & T) [A Fr] Su Hx Hz. destruct (acts_plain _ _ _ _ A d T) as (d2 & P & T2).
  assert (Kp := sj_state _ _ _ _ _ _ _ _ _ HJ _ _ _ Su). assert (Rl := steps_resumable k _ _ K1).
  cbn [uninterrupted] in Su. rewrite K1, P in Su. destruct (apply_schedules E (VObj n d2) l (m_config (w_live w))) as [c2|] eqn:Ha; [|discriminate Su].
  injection Su as -> ->.
  assert (Ha' : apply_schedules E (VObj n d') (m_sched (w_live w)) (m_config (w_live w)) = Ok cfg').
  { apply (apply_same E S (VObj n d') _ cfg' (m_sched (w_live w)) l n d n d); auto. }
  destruct (resumable_next E S deser _ cfg' (m_sched (w_live w)) n d d' K2 Kp Ha') as [R2 R3].
  assert (Ho : apply_schedules E (as_value o) (m_sched (w_live w)) (m_config (w_live w)) = Ok cfg').
  { destruct K2 as [HE (c & fs & Sc & Hp & Hcf & Hh & Hc & Hf & Hn & Hs) Hst Hov].
    assert (Uq : uniq (m_config (w_live w))) by (eapply dumpable_uniq, (holds_dumpable E false (TData c fs)); eauto).
    apply (apply_transfer E _ _ (m_sched (w_live w)) "" (TData c fs) _ cfg' Hn Uq Hf Ha').
    intros a y f. unfold as_value. cbn [py_getattr]. destruct (aget a d') as [y'|] eqn:Ea; [|discriminate].
    intros Q Kn. injection Q as ->. rewrite (stands_attr _ _ _ a y T2 Ea); [reflexivity|]. intros c0 p0 ->. discriminate Kn. }
  assert (ND : NoDup names) by (rewrite <- K5; exact (state_nodup (w_live w) d K2)).
  destruct (restart_full E S cfg' (m_sched (w_live w)) n d' deser pk R2 (proj2 Kp) R3) as (F & CF & _).
  exists (mkLive cfg' (m_sched (w_live w)) o), F. split; [|reflexivity].
  unfold step_prepare. cbn [with_state w_live m_state m_config m_sched]. rewrite Ho. cbn [rbind].
  rewrite (stands_attr _ _ _ _ x T2 Hx); [|intros c0 p0 ->; discriminate Hz]. rewrite Hz. rewrite (stands_full _ _ _ T2 ND). cbn [rbind].
  unfold as_value. cbn [i_cls i_attrs]. rewrite CF. reflexivity.
Qed.

Lemma job_goes_on tr w : Job tr w -> exists k d, (iterations tr <= k <= iterations tr + deaths tr)%nat /\ steps k = Some (m_config (w_live w), d) /\
  forall o cfg' d' x z, at_step deser pk S names body (grown S) w o ->
    steps (Datatypes.S k) = Some (cfg', d') -> aget (s_key S) d' = Some x -> as_int x = Some z ->
    exists m dumped, step_prepare E deser pk S (w_dir w) names (w_live (with_state w o)) = Ok (m, z, dumped) /\ m_config m = cfg' /\
      (exists ops, step_ops false (s_key S) (w_dir w) (w_last w) z (files_of dumped) ops (Done (ckpt_name (s_key S) z))) /\
      forall cross ops out, step_ops cross (s_key S) (w_dir w) (w_last w) z (files_of dumped) ops out -> out = Done (ckpt_name (s_key S) z).
Proof.
  intros J. destruct (job_inv tr w J) as ([OK N] & k & cur & B & I & La & Hd & Hm). destruct Hm as (d & AK & T). exists k, d. split; [exact B|]. split; [apply AK|].
  assert (Hm : held k (w_dir w) (w_live w)) by (exists d; auto). intros o cfg' d' x z A Su Hx Hz.
  destruct (step_ready k w o cfg' d' x z Hm A Su Hx Hz) as (m & F & Q & Qc). exists m, (Ok (mkInst n d' [], F)). split; [exact Q|]. split; [exact Qc|].
  destruct (step_facts k w o m z _ Hm A Q) as (G & X). destruct (X _ _ eq_refl) as (d2 & _ & _ & _ & _ & NF & _). cbn [files_of].
  assert (FS : fits_step (s_key S) (w_dir w) z (Ok F)) by (apply grown_fits; auto; intros lf E1; now injection E1 as <-).
  assert (Ex : exists_in (w_dir w) (ckpt_name (s_key S) z) = false).
  { rewrite exists_aget. destruct (aget _ (w_dir w)) eqn:Z; auto. apply aget_some_in in Z. now apply G in Z. }
  split.
  - rewrite La. assert (W : write_new false (w_dir w) (ckpt_name (s_key S) z) (Ok F) [Install (ckpt_name (s_key S) z) F] None) by (eapply w_new; auto; now apply in_same).
    destruct cur as [[y Fy]|]; cbn [last_of option_map fst].
    + eexists. eapply step_done; [exact W|]. apply d_move; [|now apply out_same]. rewrite exists_aget. cbn [exec_all fold_left exec].
      destruct I as (_ & (lf & Hl & _) & _). destruct (String.eqb_spec (ckpt_name (s_key S) y) (ckpt_name (s_key S) z)) as [->|Hne]; [now rewrite aget_aset_same|].
      now rewrite aget_aset_other, Hl by auto.
    + eexists. eapply step_done; [exact W|]. apply d_none.
  - intros cross ops out O. rewrite La in O. assert (H := step_whole (s_key S) cross _ cur z _ _ _ OK I FS O). destruct out as [t|e]; [|now destruct H].
    destruct H as (lf & _ & -> & _). reflexivity.
Qed.

Lemma job_same tr w : Job tr w -> exists k, (iterations tr <= k <= iterations tr + deaths tr)%nat /\
  forall tr' w', Job tr' w' -> deaths tr' = 0%nat -> iterations tr' = k ->
    m_config (w_live w) = m_config (w_live w') /\
    (forall p, sched_at (SNode (m_sched (w_live w))) p = sched_at (SNode (m_sched (w_live w'))) p) /\
    load_fields deser pk (disk_of S (w_dir w)) names (m_state (w_live w)) = load_fields deser pk (disk_of S (w_dir w')) names (m_state (w_live w')).
Proof.
  intros J. destruct (job_inv tr w J) as (_ & k & cur & B & _ & _ & _ & H). exists k. split; [exact B|].
  intros tr' w' J' Z Ik. destruct (job_inv tr' w' J') as (_ & k' & cur' & B' & _ & _ & _ & H').
  assert (k' = k) as -> by lia. destruct H as (d & (K1 & K2 & K3 & K4 & K5) & T). destruct H' as (d' & (K1' & K2' & K3' & K4' & K5') & T').
  rewrite K1 in K1'. injection K1' as -> ->. split; [reflexivity|]. split; [intros p; now rewrite K4, K4'|].
  assert (ND : NoDup names) by (rewrite <- K5; exact (state_nodup _ _ K2')). rewrite !(stands_full _ _ d') by auto. reflexivity.
Qed.

(** ** keys that grow *)
Lemma step_touch cross D last z dumped ops o : step_ops cross (s_key S) D last z dumped ops o ->
  exists t : string, num t = None /\ forall x : op pyval, In x ops -> forall nm, In nm (touches x) -> nm = t \/ nm = ckpt_name (s_key S) z \/ last = Some nm.
Proof.
  intros H. assert (W : forall w ex, write_new cross D (ckpt_name (s_key S) z) dumped w ex -> exists t : string, num t = None /\
    forall x : op pyval, In x w -> forall nm, In nm (touches x) -> nm = t \/ nm = ckpt_name (s_key S) z).
  { intros w ex [X|e X Q|lf w0 X Q M]; [exists ""; split; [reflexivity|intros x []]|exists ""; split; [reflexivity|intros x []]|].
    destruct M as [Ec|id l' q Ec Hid P C].
    - exists "". split; [reflexivity|]. intros x [<-|[]] nm [<-|[]]. auto.
    - exists (ckpt_name (s_key S) z ++ "." ++ id ++ ".tmp")%string. split; [rewrite <- !app_string_assoc; apply num_tmp|].
      intros x [<-|Hx] nm Hn; [destruct Hn as [<-|[]]; auto|]. apply in_app_or in Hx as [Hx|[<-|[]]].
      + assert (Fo := copy_files_at _ _ _ C). rewrite Forall_forall in Fo. rewrite (Fo x Hx) in Hn. destruct Hn as [<-|[]]. auto.
      + destruct Hn as [<-|[<-|[]]]; auto. }
  assert (Dr : forall D' w ex, drop_old cross D' last w ex -> forall x : op pyval, In x w -> forall nm, In nm (touches x) -> last = Some nm).
  { intros D' w ex [|p X|p w0 X M] x Hx nm Hn; try now destruct Hx. apply move_out_at in M. rewrite Forall_forall in M. rewrite (M x Hx) in Hn. now destruct Hn as [<-|[]]. }
  destruct H as [w e Hw|w w' e Hw Hd|w w' Hw Hd]; destruct (W _ _ Hw) as (t & Nt & Ht); exists t; (split; [exact Nt|]); intros x Hx nm Hn.
  - destruct (Ht x Hx nm Hn); auto.
  - apply in_app_or in Hx as [Hx|Hx]; [destruct (Ht x Hx nm Hn); auto|right; right; eapply Dr; eauto].
  - apply in_app_or in Hx as [Hx|Hx]; [destruct (Ht x Hx nm Hn); auto|right; right; eapply Dr; eauto].
Qed.

Section Keys.
Variable key : nat -> Z.
Hypothesis Kr : forall k cfg d, steps k = Some (cfg, d) -> in_range (key k) /\ exists x, aget (s_key S) d = Some x /\ as_int x = Some (key k).
Hypothesis Kg : forall k, steps (Datatypes.S k) <> None -> (key k < key (Datatypes.S k))%Z.

(** the directory has no number beyond the key *)
Definition below (k : nat) (D : fs pyval) : Prop :=
  (forall z, in_range z -> (key k < z)%Z -> aget (ckpt_name (s_key S) z) D = None) /\ (forall name y, numbered D name y -> (y <= key k)%Z).

Lemma below_grown k D z : dir_ok D -> below k D -> in_range z -> (key k < z)%Z -> grown S D z.
Proof.
  intros OK [B1 B2] R L. split; [exact R|]. split; [intros name y H; apply B2 in H; lia|].
  intros e H. apply in_nodup_aget in H; [|exact OK]. rewrite (B1 z R L) in H. discriminate H.
Qed.

Lemma key_next k w o m z dumped : held k (w_dir w) (w_live w) ->
  acts deser pk names (disk_of S (w_dir w)) (body (m_config (w_live w))) (m_state (w_live w)) o ->
  step_prepare E deser pk S (w_dir w) names (w_live (with_state w o)) = Ok (m, z, dumped) ->
  z = key (Datatypes.S k) /\ in_range z /\ (key k < z)%Z /\ exists x, as_int x = Some z /\ aget (s_key S) (i_attrs o) = Some x.
Proof.
  intros Hm A H. destruct (step_core k w o m z dumped Hm A H) as (d2 & x & (X1 & _) & X2 & X3 & X4 & _).
  destruct (Kr _ _ _ X1) as (R & x' & Q & Q'). rewrite X2 in Q. injection Q as <-. rewrite X3 in Q'. injection Q' as ->.
  split; [reflexivity|]. split; [exact R|]. split; [apply Kg; congruence|]. eauto.
Qed.

Lemma key_at_step k w o m z dumped : dir_ok (w_dir w) -> below k (w_dir w) -> held k (w_dir w) (w_live w) -> at_step deser pk S names body (fun _ _ => True) w o ->
  step_prepare E deser pk S (w_dir w) names (w_live (with_state w o)) = Ok (m, z, dumped) -> at_step deser pk S names body (grown S) w o.
Proof.
  intros OK Bl Hm [A _] H. destruct (key_next k w o m z dumped Hm A H) as (_ & R & L & x & X1 & X2). split; [exact A|].
  intros v y Q Q'. rewrite X2 in Q. injection Q as <-. rewrite X1 in Q'. injection Q' as <-. now apply (below_grown k).
Qed.

Lemma untouched_entry k cur (D : fs pyval) z cross dumped ops out pre post nm : dir_ok D -> intact (s_key S) D cur ->
  step_ops cross (s_key S) D (last_of (s_key S) cur) z dumped ops out -> ops = (pre ++ post)%list ->
  num nm <> None -> nm <> ckpt_name (s_key S) z -> (aget nm D = None \/ ~ (numbered D nm k)) -> num nm = Some k -> aget nm (exec_all pre D) = aget nm D.
Proof.
  intros OK I O Eo N1 N2 N3 Nk. destruct (step_touch _ _ _ _ _ _ _ O) as (t & Nt & Ht).
  apply (exec_all_off [t; ckpt_name (s_key S) z; match last_of (s_key S) cur with Some p => p | None => t end]).
  - intros x Hx j Hj. destruct (Ht x) with (nm := j) as [->|[->|Q]]; auto; [rewrite Eo; apply in_or_app; now left|now left|right; now left|]. rewrite Q. right. right. now left.
  - intros [Q|[Q|[Q|[]]]]; [now subst|now subst|]. destruct cur as [[y F]|]; cbn [last_of option_map fst] in Q; [|now subst].
    destruct I as (Ry & (lf & Hl & _) & _). rewrite Q in Hl. destruct N3 as [N3|N3]; [congruence|]. apply N3. apply numbered_aget; eauto.
Qed.

Lemma below_new k cur (D : fs pyval) z F cross dumped ops out pre post : dir_ok D -> below k D -> intact (s_key S) D cur -> z = key (Datatypes.S k) -> in_range z -> (key k < z)%Z ->
  step_ops cross (s_key S) D (last_of (s_key S) cur) z dumped ops out -> ops = (pre ++ post)%list -> dir_ok (exec_all pre D) ->
  intact (s_key S) (exec_all pre D) (Some (z, F)) -> below (Datatypes.S k) (exec_all pre D).
Proof.
  intros OK [B1 B2] I Qz R L O Eo OK' I'. split.
  - rewrite <- Qz. intros y Ry Ly. assert (Ny : aget (ckpt_name (s_key S) y) D = None) by (apply B1; [exact Ry|lia]).
    rewrite (untouched_entry y cur D z cross dumped ops out pre post); auto; rewrite ?ck_num; auto; try discriminate.
    intros Q. apply ck_inj in Q; auto. lia.
  - rewrite <- Qz. intros name y H. apply numbered_aget in H as [[lf Hl] Hn]; auto. destruct I' as (_ & _ & M). destruct (M _ _ _ Hl Hn) as [H| ->]; [lia|].
    rewrite ck_num in Hn by auto. injection Hn as <-. lia.
Qed.

Lemma below_old k cur (D : fs pyval) z cross dumped ops out pre post : dir_ok D -> below k D -> intact (s_key S) D cur ->
  step_ops cross (s_key S) D (last_of (s_key S) cur) z dumped ops out -> ops = (pre ++ post)%list -> dir_ok (exec_all pre D) ->
  aget (ckpt_name (s_key S) z) (exec_all pre D) = None -> below k (exec_all pre D).
Proof.
  intros OK [B1 B2] I O Eo OK' Nz. split.
  - intros y Ry Ly. destruct (string_dec (ckpt_name (s_key S) y) (ckpt_name (s_key S) z)) as [->|Hne]; [exact Nz|].
    assert (Ny := B1 y Ry Ly). rewrite (untouched_entry y cur D z cross dumped ops out pre post); auto; rewrite ?ck_num; auto; discriminate.
  - intros name y H. assert (H' := H). apply numbered_aget in H' as [[lf Hl] Hn]; auto. destruct (Z_le_gt_dec y (key k)) as [?|Hgt]; [assumption|].
    assert (Nn : ~ numbered D name y) by (intros C; apply B2 in C; lia).
    rewrite (untouched_entry y cur D z cross dumped ops out pre post) in Hl; auto; [|congruence|intros ->; congruence].
    exfalso. apply Nn. apply numbered_aget; eauto.
Qed.

Notation Job' := (job E deser pk S names body (unused S) proper (fun _ _ => True)).

Lemma job_grown tr w : Job' tr w -> Job tr w /\ proper (w_dir w) /\ exists k cur,
  intact (s_key S) (w_dir w) cur /\ w_last w = last_of (s_key S) cur /\ in_dir k cur /\ held k (w_dir w) (w_live w) /\ below k (w_dir w).
Proof.
  induction 1 as [D m [C1 C2] P M|tr w o t w' J (J0 & P & k & cur & I & La & Hd & Hm & Bl) A Do P'|tr w o D m J (J0 & P & k & cur & I & La & Hd & Hm & Bl) A Di P' M|tr w m J (J0 & P & k & cur & I & La & Hd & Hm & Bl) M].
  - assert (C : no_checkpoint D) by (intros name z H; now apply C1 in H). split; [now apply job_start|]. split; [exact P|]. exists 0%nat, None. cbn [w_dir w_live w_last].
    assert (I : intact (s_key S) D None).
    { intros name lf z H1 H2. apply (C name z). apply numbered_aget; [apply P|eauto]. }
    split; [exact I|]. split; [apply intact_resume; [apply P|exact I]|]. split; [reflexivity|]. split; [now apply (again_case 0 None)|]. split.
    + intros z _ _. destruct (aget (ckpt_name (s_key S) z) D) as [e|] eqn:Q; auto. apply aget_some_in in Q. now apply C2 in Q.
    + intros name y H. now apply C1 in H.
  - assert (Q : exists m z dumped, step_prepare E deser pk S (w_dir w) names (w_live (with_state w o)) = Ok (m, z, dumped)).
    { inversion Do as [| | |cross m z dumped ops out o2 Q O Q'|]; subst. eauto. }
    destruct Q as (m & z & dumped & Q). assert (A' := key_at_step k w o m z dumped (proj1 P) Bl Hm A Q).
    split; [eapply job_iter; eauto|]. split; [exact P'|].
    destruct (iter_case k cur w o t w' P I La Hm A' Do) as (cross & m1 & z1 & dumped1 & ops & F & Q1 & O & Ed & H1 & H2 & H3 & H4).
    destruct (key_next k w o m1 z1 dumped1 Hm (proj1 A) Q1) as (Qz & R & L & _).
    exists (Datatypes.S k), (Some (z1, F)). split; [exact H1|]. split; [exact H2|]. split; [exact H3|]. split; [exact H4|].
    rewrite Ed in *. rewrite La in O. eapply (below_new k cur (w_dir w) z1 F cross _ ops _ ops []); eauto; [apply P|now rewrite app_nil_r|apply P'].
  - assert (Q : exists m z dumped, step_prepare E deser pk S (w_dir w) names (w_live (with_state w o)) = Ok (m, z, dumped)) by (destruct Di; eauto).
    destruct Q as (m0 & z & dumped & Q). assert (A' := key_at_step k w o m0 z dumped (proj1 P) Bl Hm A Q).
    split; [eapply job_kill; eauto|]. split; [exact P'|].
    destruct (kill_case k cur w o D m P I La Hd Hm A' Di P' M) as (cross & m1 & z1 & dumped1 & ops & out & pre & post & Q1 & O & Eo & Ed & k' & cur' & H1 & H2 & H3 & H4 & H5).
    destruct (key_next k w o m1 z1 dumped1 Hm (proj1 A) Q1) as (Qz & R & L & _).
    exists k', cur'. split; [exact H1|]. split; [exact H2|]. split; [exact H3|]. split; [exact H4|]. cbn [w_dir]. rewrite La in O. subst D.
    destruct H5 as [(-> & -> & Nz)|(-> & F & ->)].
    + eapply (below_old k cur); eauto; [apply P|apply P'].
    + eapply (below_new k cur); eauto; [apply P|apply P'].
  - split; [now apply job_again|]. split; [exact P|]. exists k, cur. cbn [w_dir w_live w_last]. split; [exact I|]. split; [apply intact_resume; [apply P|exact I]|].
    split; [exact Hd|]. split; [now apply (again_case k cur)|exact Bl].
Qed.
End Keys.

Lemma job_keys tr w : keys_grow E S body n l cfg0 d0 -> job E deser pk S names body (unused S) proper (fun _ _ => True) tr w ->
  Job tr w /\ forall o m z dumped, at_step deser pk S names body (fun _ _ => True) w o ->
    step_prepare E deser pk S (w_dir w) names (w_live (with_state w o)) = Ok (m, z, dumped) -> at_step deser pk S names body (grown S) w o.
Proof.
  intros (key & Kr & Kg) J. destruct (job_grown key Kr Kg tr w J) as (J' & P & k & cur & I & La & Hd & Hm & Bl). split; [exact J'|].
  intros o m z dumped A Q. eapply (key_at_step key Kr Kg); eauto. apply P.
Qed.
End Facts.
