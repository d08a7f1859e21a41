(** RunFacts.v -- the state while checkpoints come and go (C72). *)
From Verif Require Import Base Value Schema Rewrite Sched Types Asdict FromDict Manager Ckpt Lazy Session Run AFacts SpecTypes SpecState SpecCkpt SpecLazy SpecSession SpecRun LazyFacts SessionFacts.

Section Facts.
Variable E : env.
Variable deser : string -> pyval -> inst -> res pyval.
Variable pk : bool.
Variable S : settings.
Variable names : list string.

Lemma stands_read disk o attrs n : stands_for deser pk disk names o attrs ->
  exists o' ev, lazy_get deser pk disk o n = (match aget n attrs with Some v => Ok v | None => Err AttributeError end, o', ev) /\
    stands_for deser pk disk names o' attrs /\ aget n (i_unloaded o') = None /\ (forall j, aget j (i_unloaded o) = None -> aget j (i_unloaded o') = None).
Proof.
  intros (N & I & H). pose proof (H n) as Hn. unfold lazy_get. destruct (aget n (i_unloaded o)) as [r|] eqn:G.
  - destruct Hn as (v & Av & Pk & data & Dd & Ds). rewrite Dd, Av.
    destruct (lz_pickle r && negb pk) eqn:Q; [exfalso; apply andb_true_iff in Q; destruct Q as [Q1 Q2]; rewrite (Pk Q1) in Q2; discriminate Q2|].
    rewrite Ds. do 2 eexists. split; [reflexivity|]. cbn [i_unloaded i_attrs]. split; [split; [|split]|split].
    + now apply nodup_adel.
    + intros j Hj. apply I. cbn [i_unloaded] in Hj. apply in_map_iff in Hj. destruct Hj as ([j' x] & Qj & Hj). apply in_adel in Hj. apply in_map_iff. now exists (j', x).
    + intros j. cbn [i_unloaded i_attrs]. destruct (String.eqb_spec j n) as [->|Hne].
      * rewrite aget_adel_same by exact N. rewrite aget_aset_same. now rewrite Av.
      * rewrite aget_adel_other, aget_aset_other by auto. exact (H j).
    + now apply aget_adel_same.
    + intros j Hj. destruct (String.eqb_spec j n) as [->|Hne]; [now apply aget_adel_same|now rewrite aget_adel_other].
  - rewrite Hn. destruct (aget n attrs) as [v|] eqn:Av; (do 2 eexists; split; [reflexivity|]; split; [split; [exact N|split; [exact I|exact H]]|split; [exact G|auto]]).
Qed.

Lemma stands_load disk attrs : forall ns o o', stands_for deser pk disk names o attrs -> load_fields deser pk disk ns o = Ok o' ->
  stands_for deser pk disk names o' attrs /\ (forall j, aget j (i_unloaded o) = None -> aget j (i_unloaded o') = None) /\ forall j, In j ns -> aget j (i_unloaded o') = None.
Proof.
  induction ns as [|n ns IH]; intros o o' H L; cbn [load_fields] in L; [injection L as <-; split; [exact H|split; [auto|intros j []]]|].
  destruct (stands_read disk o attrs n H) as (o1 & ev & Q & H1 & G1 & M1). rewrite Q in L. destruct (aget n attrs) as [v|]; [|discriminate L].
  destruct (IH o1 o' H1 L) as (H2 & M2 & G2). split; [exact H2|]. split; [auto|]. intros j [<-|J]; auto.
Qed.

(** once everything is loaded, the files do not matter *)
Lemma stands_loaded disk disk' o attrs : stands_for deser pk disk names o attrs -> (forall j, In j names -> aget j (i_unloaded o) = None) -> stands_for deser pk disk' names o attrs.
Proof.
  intros (N & I & H) G. split; [exact N|]. split; [exact I|]. intros n. pose proof (H n) as Hn. destruct (aget n (i_unloaded o)) as [r|] eqn:Q; [|exact Hn].
  exfalso. rewrite G in Q; [discriminate Q|]. apply I. apply aget_some_in in Q. apply in_map_iff. now exists (n, r).
Qed.

Lemma stands_dumping disk o o' attrs : stands_for deser pk disk names o attrs -> dumping deser pk names disk o o' -> stands_for deser pk disk names o' attrs.
Proof. intros H [o1 L|first rest o1 e _ L _]; exact (proj1 (stands_load disk attrs _ _ _ H L)). Qed.

Definition good (w : world) (attrs : list (string * pyval)) : Prop := stands_for deser pk (disk_of S (w_dir w)) names (m_state (w_live w)) attrs.

Definition after (a : doing) (attrs : list (string * pyval)) : list (string * pyval) := match a with Write n v => aset n v attrs | _ => attrs end.

Lemma does_plain w a r w' attrs : good w attrs -> careful S w a -> does E deser pk S names w a r w' ->
  good w' (after a attrs) /\ (forall n, a = Read n -> r = AValue (match aget n attrs with Some v => Ok v | None => Err AttributeError end)).
Proof.
  unfold good. intros H C D. destruct D as [n r o ev Q|n v|e cfg Q|cross m k dumped ops out o Q O Q'|r o Q]; cbn [with_state w_live w_dir m_state after].
  - destruct (stands_read _ _ _ n H) as (o' & ev' & Q2 & H' & _). rewrite Q in Q2. injection Q2 as -> -> ->. split; [exact H'|]. intros n' Qn. now injection Qn as <-.
  - split; [|intros n' Qn; discriminate Qn]. cbn [careful] in C. destruct H as (N & I & H). split; [exact N|]. split; [exact I|]. intros j. unfold lazy_set. cbn [i_unloaded i_attrs].
    pose proof (H j) as Hj. destruct (String.eqb_spec j n) as [->|Hne].
    + rewrite C. now rewrite !aget_aset_same.
    + rewrite !aget_aset_other by auto. exact Hj.
  - split; [exact H|]. intros n' Qn. discriminate Qn.
  - split; [|intros n' Qn; discriminate Qn]. cbn [careful] in C.
    unfold step_prepare in Q. destruct (apply_schedules E _ _ _) as [cfg|e0]; [|discriminate Q]. cbn [rbind] in Q.
    destruct (aget (s_key S) (i_attrs (m_state (w_live w)))) as [x|] eqn:Gx; [|discriminate Q]. destruct (as_int x) as [k0|] eqn:Kx; [|discriminate Q]. injection Q as Q1 Q2 Q3.
    subst k0 m. cbn [m_state] in Q'. destruct C as [All|C].
    { apply (stands_loaded (disk_of S (w_dir w))).
      - destruct (exists_in _ _); [now subst o|exact (stands_dumping _ _ _ _ H Q')].
      - intros j _. assert (U : aget j (i_unloaded (m_state (w_live w))) = None) by now rewrite All.
        destruct (exists_in _ _); [now subst o|]. destruct Q' as [o1 L|first rest o1 e1 _ L _]; exact (proj1 (proj2 (stands_load _ attrs _ _ _ H L)) j U). }
    specialize (C x k eq_refl Kx). rewrite C in Q'.
    assert (W : forall ops1 oe, write_new cross (w_dir w) (ckpt_name (s_key S) k) (files_of dumped) ops1 oe ->
      (ops1 = [] /\ oe <> None) \/ forall j, In j names -> aget j (i_unloaded o) = None).
    { intros ops1 oe W. destruct W as [Ex|e1 _ _|l1 o1 _ Dd _]; [congruence|left; split; [reflexivity|discriminate]|right].
      rewrite <- Q3 in Dd. destruct (load_fields deser pk (disk_of S (w_dir w)) names (m_state (w_live w))) as [o2|e2] eqn:L; [|discriminate Dd].
      destruct Q' as [o3 L3|first rest o3 e3 _ _ L3]; [|congruence]. rewrite L in L3. injection L3 as <-. exact (proj2 (proj2 (stands_load _ attrs _ _ _ H L))). }
    pose proof (stands_dumping _ _ _ _ H Q') as H'.
    destruct O as [o1 e1 W1|o1 o2 e1 W1 _|o1 o2 W1 _]; destruct (W _ _ W1) as [[-> Ne]|G]; try (now destruct Ne); try exact H'; now apply (stands_loaded (disk_of S (w_dir w))).
  - split; [|intros n' Qn; discriminate Qn]. exact (stands_dumping _ _ _ _ H Q).
Qed.

Lemma runs_plain w l w' : runs E deser pk S names (careful S) w l w' -> forall attrs, good w attrs -> as_plain l attrs.
Proof.
  induction 1 as [w|w a r w1 l w2 C D R IH]; intros attrs H; [exact Logic.I|].
  destruct (does_plain _ _ _ _ _ H C D) as [H1 A]. cbn [as_plain]. destruct a as [n|n v| |]; cbn [after] in H1; try (now apply IH). split; [now apply A|now apply IH].
Qed.

(** ** After a step that wrote a checkpoint *)
Lemma load_gone disk : forall ns o o', NoDup (akeys (i_unloaded o)) -> load_fields deser pk disk ns o = Ok o' ->
  NoDup (akeys (i_unloaded o')) /\ (forall j, aget j (i_unloaded o) = None -> aget j (i_unloaded o') = None) /\ (forall j, aget j (i_attrs o) <> None -> aget j (i_attrs o') <> None) /\
  forall j, In j ns -> aget j (i_unloaded o') = None /\ aget j (i_attrs o') <> None.
Proof.
  induction ns as [|n ns IH]; intros o o' N L; cbn [load_fields] in L; [injection L as <-; repeat split; auto; destruct H|].
  destruct (lazy_get deser pk disk o n) as [[[v|e] o1] ev] eqn:Q; [|discriminate L].
  assert (H1 : NoDup (akeys (i_unloaded o1)) /\ (forall j, aget j (i_unloaded o) = None -> aget j (i_unloaded o1) = None) /\ (forall j, aget j (i_attrs o) <> None -> aget j (i_attrs o1) <> None) /\
    aget n (i_unloaded o1) = None /\ aget n (i_attrs o1) <> None).
  { unfold lazy_get in Q. destruct (aget n (i_unloaded o)) as [r|] eqn:G.
    - destruct (disk (lz_file r)) as [data|]; [|discriminate Q]. destruct (lz_pickle r && negb pk); [discriminate Q|]. destruct (deser (lz_cls r) data o) as [v1|]; [|discriminate Q].
      injection Q as <- <- _. cbn [i_unloaded i_attrs]. split; [now apply nodup_adel|]. split; [|split; [|split; [now apply aget_adel_same|rewrite aget_aset_same; discriminate]]].
      + intros j Hj. destruct (String.eqb_spec j n) as [->|Hne]; [now apply aget_adel_same|now rewrite aget_adel_other].
      + intros j Hj. destruct (String.eqb_spec j n) as [->|Hne]; [rewrite aget_aset_same; discriminate|now rewrite aget_aset_other].
    - destruct (aget n (i_attrs o)) as [v1|] eqn:Ga; [|discriminate Q]. injection Q as <- <- _. repeat split; auto. congruence. }
  destruct H1 as (N1 & U1 & A1 & Gn & An). destruct (IH o1 o' N1 L) as (N2 & U2 & A2 & G2).
  split; [exact N2|]. split; [auto|]. split; [auto|]. intros j [<-|J]; auto.
Qed.

Lemma step_detached w t w' :
  (forall x k, aget (s_key S) (i_attrs (m_state (w_live w))) = Some x -> as_int x = Some k -> exists_in (w_dir w) (ckpt_name (s_key S) k) = false) -> NoDup (map fst (i_unloaded (m_state (w_live w)))) ->
  does E deser pk S names w StepNow (AStep (Done t)) w' ->
  forall n disk, In n names -> exists v, lazy_get deser pk disk (m_state (w_live w')) n = (Ok v, m_state (w_live w'), []).
Proof.
  intros C N D n disk In. inversion D as [| | |cross m k dumped ops out o Q O Q' Q4|]; subst. cbn [w_live m_state].
  unfold step_prepare in Q. destruct (apply_schedules E _ _ _) as [cfg|e0]; [|discriminate Q]. cbn [rbind] in Q.
  destruct (aget (s_key S) (i_attrs (m_state (w_live w)))) as [x|] eqn:Gx; [|discriminate Q]. destruct (as_int x) as [k0|] eqn:Kx; [|discriminate Q]. injection Q as Q1 Q2 Q3.
  subst k0 m. specialize (C x k eq_refl Kx). rewrite C in Q'. cbn [m_state] in Q'.
  assert (L : load_fields deser pk (disk_of S (w_dir w)) names (m_state (w_live w)) = Ok o).
  { inversion O as [| |o1 o2 W1 _ Qa Qb]; subst. inversion W1 as [Ex|e1 Ex Dd|l1 o3 Ex Dd _]; subst; [congruence|].
    destruct (load_fields deser pk (disk_of S (w_dir w)) names (m_state (w_live w))) as [o4|e2] eqn:L; [|discriminate Dd].
    destruct Q' as [o3' L3|first rest o3' e3 _ _ L3]; congruence. }
  destruct (load_gone _ _ _ _ N L) as (_ & _ & _ & G). destruct (G n In) as [G1 G2]. unfold lazy_get. rewrite G1. destruct (aget n (i_attrs o)) as [v|]; [now exists v|now destruct G2].
Qed.
End Facts.

(** ** A manager that resumed *)
Lemma resumed_stands E S cfg l n d deser pk :
  resumable E S cfg l n d -> reads_back deser d -> apply_schedules E (VObj n d) l cfg = Ok cfg ->
  exists F, checkpoint_files (e_class E) cfg l (VObj n d) = Ok F /\
  forall D p, dir_ok D -> names_ok D -> resume_point D = Some p -> complete D p F ->
  exists m, manager_start E S D = Ok m /\ stands_for deser pk (disk_of S D) (map fst d) (m_state m) d.
Proof.
  intros HS Hser Hap. destruct (restart_full E S cfg l n d deser pk HS Hser Hap) as (F & CF & R). exists F. split; [exact CF|].
  intros D p OK N Rp Cp. destruct (R D p OK N Rp Cp) as (m & A1 & _ & _ & _ & _ & A6 & Qi & Hd & _). exists m. split; [exact A1|]. rewrite Qi.
  destruct HS as [_ _ (c2 & fs2 & Ss & Hp2 & Hh2 & Hc2 & Hr2) _].
  assert (NM := state_names E c2 fs2 n d Hp2 Hh2). split; [apply lazies_nodup|]. cbn [state_inst i_unloaded i_attrs]. split.
  - intros k Hk. destruct (aget k (state_lazies d p)) as [r|] eqn:G.
    + apply (lazies_only E c2 fs2 n d Hp2 Hh2) in G as (c0 & p0 & G & _). apply in_map_iff. now exists (k, VBlob c0 p0).
    + exfalso. revert G. clear -Hk. induction (state_lazies d p) as [|[j r] z IH]; [destruct Hk|]. cbn [aget]. destruct (String.eqb_spec k j) as [->|Hne]; [discriminate|].
      destruct Hk as [Q|Hk]; [cbn [fst] in Q; congruence|auto].
  - intros k. destruct (aget k (state_lazies d p)) as [r|] eqn:G.
    + apply (lazies_only E c2 fs2 n d Hp2 Hh2) in G as (c0 & p0 & G & ->). exists (VBlob c0 p0). split; [now apply in_nodup_aget|]. apply (state_pending d deser pk (disk_of S D) p Hser Hd _ _ _ G).
    + destruct (aget k d) as [x|] eqn:Gd.
      * apply aget_some_in in Gd. now apply (inst_attrs E c2 fs2 n d Hp2 Hh2 p).
      * unfold state_attrs. rewrite (aget_map unload). now rewrite Gd.
Qed.

Lemma resumed_plain E S cfg l n d deser pk :
  resumable E S cfg l n d -> reads_back deser d -> apply_schedules E (VObj n d) l cfg = Ok cfg ->
  exists F, checkpoint_files (e_class E) cfg l (VObj n d) = Ok F /\
  forall D p, dir_ok D -> names_ok D -> resume_point D = Some p -> complete D p F ->
  exists m, manager_start E S D = Ok m /\
    forall acts w, runs E deser pk S (map fst d) (careful S) (mkW m D (Some p)) acts w -> as_plain acts d.
Proof.
  intros HS Hser Hap. destruct (resumed_stands E S cfg l n d deser pk HS Hser Hap) as (F & CF & R). exists F. split; [exact CF|].
  intros D p OK N Rp Cp. destruct (R D p OK N Rp Cp) as (m & A1 & A2). exists m. split; [exact A1|]. intros acts w H. now apply (runs_plain E deser pk S (map fst d) _ _ _ H).
Qed.
