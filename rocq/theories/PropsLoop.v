(** PropsLoop.v -- a training loop that is interrupted: C74. *)
From Coq Require Import Permutation.
From Verif Require Import Base Value Schema Rewrite Sched Types Asdict FromDict Manager Ckpt Lazy Session Run Loop
  SpecTypes SpecState FromDictFacts SpecCkpt SpecLazy SpecLoad SpecOverride SpecAgain SpecSession SpecRun SpecLoop SessionFacts LoopFacts
  Examples PropsState PropsLazy PropsSession.

(** ** C74 *)
(** Whatever happened to a job, the manager holds config, schedules and state of the run without
    interruptions after some number of iterations: no completed iteration is lost, and at
    each death in [step] at most the one in progress counts as well.
    Missing: schedules more than two levels deep and Serializable objects below the attributes of
    the state (false: C37_deep_schedule_refuted, C48_list_refuted), user code that reads [config]
    before the first access to [state] (false: C43_config_before_state_refuted), or assigns a
    Serializable field before it is loaded (false: C46_attributes_refuted), and initial
    checkpoints with Serializable objects. *)
Theorem C74_run_partial : forall E deser pickle_allowed S names body n l cfg0 d0 tr w,
  sound_job E S deser names body n l cfg0 d0 ->
  job E deser pickle_allowed S names body no_checkpoint proper (grown S) tr w ->
  exists k cfg d, (iterations tr <= k <= iterations tr + deaths tr)%nat /\
    uninterrupted E body n l cfg0 d0 k = Some (cfg, d) /\
    holds_session deser pickle_allowed (disk_of S (w_dir w)) (w_live w) cfg l n d.
Proof. intros. eapply job_holds; eauto. Qed.
Print Assumptions C74_run_partial.

(** The same without naming the run: config, schedules and state are those that any job
    without deaths in [step] has after that many iterations. *)
Theorem C74_same_partial : forall E deser pickle_allowed S names body n l cfg0 d0 tr w,
  sound_job E S deser names body n l cfg0 d0 ->
  job E deser pickle_allowed S names body no_checkpoint proper (grown S) tr w ->
  exists k, (iterations tr <= k <= iterations tr + deaths tr)%nat /\
  forall tr' w', job E deser pickle_allowed S names body no_checkpoint proper (grown S) tr' w' -> deaths tr' = 0%nat -> iterations tr' = k ->
    m_config (w_live w) = m_config (w_live w') /\
    (forall p, sched_at (SNode (m_sched (w_live w))) p = sched_at (SNode (m_sched (w_live w'))) p) /\
    load_fields deser pickle_allowed (disk_of S (w_dir w)) names (m_state (w_live w)) =
      load_fields deser pickle_allowed (disk_of S (w_dir w')) names (m_state (w_live w')).
Proof. intros. eapply job_same; eauto. Qed.
Print Assumptions C74_same_partial.

(** Starting the job again always succeeds, wherever it died. *)
Theorem C74_starts_partial : forall E deser pickle_allowed S names body n l cfg0 d0 tr w,
  sound_job E S deser names body n l cfg0 d0 ->
  job E deser pickle_allowed S names body no_checkpoint proper (grown S) tr w ->
  (exists m, manager_start E S (w_dir w) = Ok m) /\
  forall o D, at_step deser pickle_allowed S names body (grown S) w o -> dies E deser pickle_allowed S names w o D -> proper D ->
    exists m, manager_start E S D = Ok m.
Proof. intros. eapply job_restarts; eauto. Qed.
Print Assumptions C74_starts_partial.

(** While the run in memory goes on, and the key is an integer, [step] does not raise, gives the
    config of the next iteration, and ends with a checkpoint for its key. *)
Theorem C74_goes_on_partial : forall E deser pickle_allowed S names body n l cfg0 d0 tr w,
  sound_job E S deser names body n l cfg0 d0 ->
  job E deser pickle_allowed S names body no_checkpoint proper (grown S) tr w ->
  exists k d, (iterations tr <= k <= iterations tr + deaths tr)%nat /\
  uninterrupted E body n l cfg0 d0 k = Some (m_config (w_live w), d) /\
  forall o cfg' d' x z, at_step deser pickle_allowed S names body (grown S) w o ->
    uninterrupted E body n l cfg0 d0 (Datatypes.S k) = Some (cfg', d') -> aget (s_key S) d' = Some x -> as_int x = Some z ->
    exists m dumped, step_prepare E deser pickle_allowed S (w_dir w) names (w_live (with_state w o)) = Ok (m, z, dumped) /\ m_config m = cfg' /\
      (exists ops, step_ops false (s_key S) (w_dir w) (w_last w) z (files_of dumped) ops (Done (ckpt_name (s_key S) z))) /\
      forall cross ops out, step_ops cross (s_key S) (w_dir w) (w_last w) z (files_of dumped) ops out -> out = Done (ckpt_name (s_key S) z).
Proof. intros. eapply job_goes_on; eauto. Qed.
Print Assumptions C74_goes_on_partial.

(** That the number of each checkpoint is above all numbers in the directory, and its name is free,
    follows if the key grows from each iteration of the run in memory to the next and the job starts
    in a directory without numbers: so the theorems above apply.  (The remaining condition on
    directories is that the names in them are such that the newest is found.) *)
Theorem C74_growing_key_partial : forall E deser pickle_allowed S names body n l cfg0 d0 tr w,
  sound_job E S deser names body n l cfg0 d0 -> keys_grow E S body n l cfg0 d0 ->
  job E deser pickle_allowed S names body (unused S) proper (fun _ _ => True) tr w ->
  job E deser pickle_allowed S names body no_checkpoint proper (grown S) tr w /\
  forall o m z dumped, at_step deser pickle_allowed S names body (fun _ _ => True) w o ->
    step_prepare E deser pickle_allowed S (w_dir w) names (w_live (with_state w o)) = Ok (m, z, dumped) ->
    at_step deser pickle_allowed S names body (grown S) w o.
Proof. intros. eapply job_keys; eauto. Qed.
Print Assumptions C74_growing_key_partial.

(** ** example: a network that is trained from step 2, with two schedules *)
Definition lp_attrs (z : Z) : list (string * pyval) :=
  [("step", VInt z); ("net", VBlob "Network" (VDict [("w", VInt (2 * z))])); ("buf", VNone)].
Definition lp_file : pyval := Eval vm_compute in match aget "config.ron" ex_files with Some x => x | None => VNone end.
Definition lp_S : settings := mkSettings tCfg tLearner (fun _ => Ok (VObj "Learner" (lp_attrs 2))) (IFile lp_file "") None false "step".
Definition lp_live : live := Eval vm_compute in match manager_start sess_env lp_S [] with Ok m => m | Err _ => mkLive VNone [] (mkInst "" [] []) end.
Definition lp_names : list string := ["step"; "net"; "buf"].
Definition lp_train (s w : pyval) : pyval * pyval :=
  match s, w with
  | VInt z, VBlob c (VDict [(k, VInt x)]) => (VInt (z + 1), VBlob c (VDict [(k, VInt (x + 2))]))
  | _, _ => (VNone, VNone)
  end.
Definition lp_over (s : pyval) : bool := match s with VInt z => (1000 <=? z)%Z | _ => true end.
Definition lp_body (cfg : pyval) : code :=
  GetAttr "step" (fun s => if lp_over s then GetAttr "over" (fun _ => Finish) else GetAttr "net" (fun w => SetAttr "step" (fst (lp_train s w)) (SetAttr "net" (snd (lp_train s w)) Finish))).

Lemma lp_keepable z : keepable sess_env lp_S ex_deser "Learner" (lp_attrs z).
Proof.
  split; [|intros k c p o _; reflexivity].
  do 2 eexists. split; [reflexivity|]. split; [exact learner_persistable|]. split; [|split; [reflexivity|]].
  - simpl. repeat split. left. reflexivity.
  - unfold root_blobs, lp_attrs. repeat apply Forall_cons; [| | |constructor]; (split; [repeat split; discriminate|]);
      [right; exact I|left; simpl; eauto|right; exact I].
Qed.

Lemma lp_resumable : resumable sess_env lp_S (m_config lp_live) (m_sched lp_live) "Learner" (lp_attrs 2).
Proof.
  assert (X : resumable sess_env lp_S ex_cfg10 (m_sched lp_live) "Learner" ex_attrs10).
  { destruct C43_ex as (A1 & A2 & A3 & _ & A5 & A6 & A7 & A8 & _).
    destruct (restart_full sess_env (sess IMissing) ex_cfg10 ex_tree "Learner" ex_attrs10 ex_deser false A1 A2 A3) as (F & CF & R).
    assert (Q : checkpoint_files (e_class sess_env) ex_cfg10 ex_tree (VObj "Learner" ex_attrs10) = Ok ex_files) by (vm_compute; reflexivity).
    rewrite CF in Q. injection Q as ->. destruct (R _ _ A5 A6 A7 A8) as (m & M & _ & _ & _ & _ & _ & _ & _ & H).
    assert (Q : (let* x := manager_start sess_env (sess IMissing) ex_ckpts in Ok (m_sched x)) = Ok (m_sched lp_live)) by (vm_compute; reflexivity).
    rewrite M in Q. cbn [rbind] in Q. injection Q as Q. rewrite Q in H. destruct H as [H1 H2 H3 H4]. split; auto. }
  apply (resumable_next sess_env lp_S ex_deser ex_cfg10 _ _ "Learner" ex_attrs10 (lp_attrs 2) X (lp_keepable 2)). vm_compute. reflexivity.
Qed.

Lemma lp_states : forall k cfg d, uninterrupted sess_env lp_body "Learner" (m_sched lp_live) (m_config lp_live) (lp_attrs 2) k = Some (cfg, d) ->
  d = lp_attrs (Z.of_nat k + 2) /\ (Z.of_nat k + 2 <= 1000)%Z.
Proof.
  induction k as [|k IH]; intros cfg d H; [injection H as <- <-; split; [reflexivity|lia]|]. cbn [uninterrupted] in H.
  destruct (uninterrupted _ _ _ _ _ _ k) as [[c1 d1]|]; [|discriminate H]. rewrite (proj1 (IH c1 d1 eq_refl)) in H.
  cbn [plainly lp_body aget lp_attrs String.eqb Ascii.eqb Bool.eqb lp_over] in H. destruct (Z.leb_spec 1000 (Z.of_nat k + 2)) as [_|Lt]; [discriminate H|].
  cbn [plainly aget lp_attrs String.eqb Ascii.eqb Bool.eqb aset lp_train fst snd] in H. destruct (apply_schedules _ _ _ _) as [c2|]; [|discriminate H].
  injection H as _ <-. split; [|lia]. unfold lp_attrs. replace (Z.of_nat (Datatypes.S k) + 2)%Z with (Z.of_nat k + 2 + 1)%Z by lia.
  replace (2 * (Z.of_nat k + 2 + 1))%Z with (2 * (Z.of_nat k + 2) + 2)%Z by lia. reflexivity.
Qed.

Lemma lp_sound : sound_job sess_env lp_S ex_deser lp_names lp_body "Learner" (m_sched lp_live) (m_config lp_live) (lp_attrs 2).
Proof.
  split.
  - vm_compute. reflexivity.
  - exact lp_resumable.
  - reflexivity.
  - intros k cfg d H. rewrite (proj1 (lp_states k cfg d H)). apply lp_keepable.
Qed.

(** One iteration; then the process dies in [step], after the new checkpoint was moved in and
    before the old one was removed; it starts again, and dies outside [step]. *)
Definition lp_D : fs pyval := [("notes.txt", EOther)].
Definition lp_job := job sess_env ex_deser false lp_S lp_names lp_body no_checkpoint proper (grown lp_S).

Definition lp_o (z : Z) : inst := mkInst "Learner" (lp_attrs z) [].
Definition lp_next (w : world) (o : inst) : live * files pyval :=
  match step_prepare sess_env ex_deser false lp_S (w_dir w) lp_names (w_live (with_state w o)) with
  | Ok (m, _, Ok (_, F)) => (m, F)
  | _ => (w_live w, [])
  end.
Definition lp_w0 : world := mkW lp_live lp_D None.
Definition lp_n1 : live * files pyval := Eval vm_compute in lp_next lp_w0 (lp_o 3).
Definition lp_w1 : world := Eval vm_compute in
  mkW (mkLive (m_config (fst lp_n1)) (m_sched (fst lp_n1)) (lp_o 3)) (exec (Install "latest-step000000000003" (snd lp_n1)) lp_D) (Some "latest-step000000000003").
Definition lp_n2 : live * files pyval := Eval vm_compute in lp_next lp_w1 (lp_o 4).
Definition lp_D2 : fs pyval := Eval vm_compute in exec (Install "latest-step000000000004" (snd lp_n2)) (w_dir lp_w1).
Definition lp_w2 : world := Eval vm_compute in
  match manager_start sess_env lp_S lp_D2 with Ok m => mkW m lp_D2 (resume_point lp_D2) | Err _ => lp_w1 end.

Definition lp_wk : world := Eval vm_compute in
  match manager_start sess_env lp_S (w_dir lp_w1) with Ok m => mkW m (w_dir lp_w1) (resume_point (w_dir lp_w1)) | Err _ => lp_w1 end.

Ltac lp_acts :=
  eapply act_get; [vm_compute; reflexivity|]; cbn [lp_over Z.leb Z.compare Pos.compare Pos.compare_cont]; eapply act_get; [vm_compute; reflexivity|];
  eapply act_set; [cbn; tauto|reflexivity|]; eapply act_set; [cbn; tauto|reflexivity|]; apply act_finish.

Lemma lp_proper1 : proper (w_dir lp_w1).
Proof. split; [repeat constructor; simpl; intuition discriminate|]. intros x e [H|[H|[]]]; injection H as <- _; reflexivity. Qed.
Lemma lp_proper2 : proper lp_D2.
Proof. split; [repeat constructor; simpl; intuition discriminate|]. intros x e [H|[H|[H|[]]]]; injection H as <- _; reflexivity. Qed.

Lemma lp_job0 : lp_job [] lp_w0.
Proof.
  apply (job_start sess_env ex_deser false lp_S lp_names lp_body no_checkpoint proper (grown lp_S) lp_D lp_live).
  - intros name z H. apply CkptFacts.numbered_iff in H as [(l & [H|[]]) _]. discriminate H.
  - split; [repeat constructor; simpl; intuition discriminate|]. intros x e [H|[]]. injection H as <- _. reflexivity.
  - vm_compute. reflexivity.
Qed.

Lemma lp_at1 : at_step ex_deser false lp_S lp_names lp_body (grown lp_S) lp_w0 (lp_o 3).
Proof.
  split; [lp_acts|]. intros v z Q Q'. vm_compute in Q. injection Q as <-. vm_compute in Q'. injection Q' as <-.
  split; [split; reflexivity|]. split.
  - intros name y H. apply CkptFacts.numbered_iff in H as [(l & [H|[]]) _]. discriminate H.
  - intros e [H|[]]. vm_compute in H. discriminate H.
Qed.

Lemma lp_job1 : lp_job [Iterated] lp_w1.
Proof.
  apply (job_iter sess_env ex_deser false lp_S lp_names lp_body no_checkpoint proper (grown lp_S) [] lp_w0 (lp_o 3) "latest-step000000000003" lp_w1).
  - exact lp_job0.
  - exact lp_at1.
  - refine (do_step sess_env ex_deser false lp_S lp_names (with_state lp_w0 (lp_o 3)) false (fst lp_n1) 3%Z (Ok (lp_o 3, snd lp_n1))
      [Install "latest-step000000000003" (snd lp_n1)] (Done "latest-step000000000003") (lp_o 3) _ _ _).
    + vm_compute. reflexivity.
    + apply (step_done false "step" _ _ 3%Z _ [Install "latest-step000000000003" (snd lp_n1)] []).
      * eapply w_new; [reflexivity|reflexivity|]. now apply in_same.
      * apply d_none.
    + vm_compute exists_in. apply dump_all. vm_compute. reflexivity.
  - exact lp_proper1.
Qed.

Lemma lp_at2 : at_step ex_deser false lp_S lp_names lp_body (grown lp_S) lp_w1 (lp_o 4).
Proof.
  split; [lp_acts|]. intros v z Q Q'. vm_compute in Q. injection Q as <-. vm_compute in Q'. injection Q' as <-.
  split; [split; reflexivity|]. split.
  - intros name y H. apply CkptFacts.numbered_iff in H as [(l & [H|[H|[]]]) Q]; [discriminate H|]. injection H as <- _. vm_compute in Q. injection Q as <-. reflexivity.
  - intros e [H|[H|[]]]; vm_compute in H; discriminate H.
Qed.

Lemma lp_dies2 : dies sess_env ex_deser false lp_S lp_names lp_w1 (lp_o 4) lp_D2.
Proof.
  refine (die sess_env ex_deser false lp_S lp_names lp_w1 (lp_o 4) false (fst lp_n2) 4%Z (Ok (lp_o 4, snd lp_n2))
    ([Install "latest-step000000000004" (snd lp_n2)] ++ [Takeout "latest-step000000000003"])%list (Done "latest-step000000000004")
    [Install "latest-step000000000004" (snd lp_n2)] [Takeout "latest-step000000000003"] _ _ _).
  - vm_compute. reflexivity.
  - apply (step_done false "step" _ _ 4%Z).
    + eapply w_new; [reflexivity|reflexivity|]. now apply in_same.
    + eapply d_move; [reflexivity|]. now apply out_same.
  - reflexivity.
Qed.

Example C74_ex :
  sound_job sess_env lp_S ex_deser lp_names lp_body "Learner" (m_sched lp_live) (m_config lp_live) (lp_attrs 2) /\
  lp_job [Restarted; Killed; Iterated] lp_w2 /\
  map fst (w_dir lp_w2) = ["notes.txt"; "latest-step000000000003"; "latest-step000000000004"] /\
  i_attrs (m_state (w_live lp_w2)) = [("step", VInt 4); ("net", VNone); ("buf", VNone)] /\
  load_fields ex_deser false (disk_of lp_S (w_dir lp_w2)) lp_names (m_state (w_live lp_w2)) = Ok (lp_o 4) /\
  (exists cfg1 cfg2, uninterrupted sess_env lp_body "Learner" (m_sched lp_live) (m_config lp_live) (lp_attrs 2) 1 = Some (cfg1, lp_attrs 3) /\
    uninterrupted sess_env lp_body "Learner" (m_sched lp_live) (m_config lp_live) (lp_attrs 2) 2 = Some (cfg2, lp_attrs 4) /\
    m_config (w_live lp_w2) = cfg2 /\ cfg1 <> cfg2).
Proof.
  split; [exact lp_sound|]. split.
  { apply (job_again sess_env ex_deser false lp_S lp_names lp_body no_checkpoint proper (grown lp_S) [Killed; Iterated] lp_w2 (w_live lp_w2)); [|vm_compute; reflexivity].
    apply (job_kill sess_env ex_deser false lp_S lp_names lp_body no_checkpoint proper (grown lp_S) [Iterated] lp_w1 (lp_o 4) lp_D2 (w_live lp_w2)).
    - exact lp_job1.
    - exact lp_at2.
    - exact lp_dies2.
    - exact lp_proper2.
    - vm_compute. reflexivity. }
  split; [reflexivity|]. split; [reflexivity|]. split; [vm_compute; reflexivity|].
  do 2 eexists. split; [vm_compute; reflexivity|]. split; [vm_compute; reflexivity|]. split; [vm_compute; reflexivity|discriminate].
Qed.

Lemma lp_keys : keys_grow sess_env lp_S lp_body "Learner" (m_sched lp_live) (m_config lp_live) (lp_attrs 2).
Proof.
  exists (fun k => Z.of_nat k + 2)%Z. split; [|intros k _; lia]. intros k cfg d H. destruct (lp_states k cfg d H) as [-> L].
  split; [unfold in_range; lia|]. eexists. split; reflexivity.
Qed.

(** The same job: that the numbers grow need not be assumed. *)
Example C74_growing_key_ex :
  keys_grow sess_env lp_S lp_body "Learner" (m_sched lp_live) (m_config lp_live) (lp_attrs 2) /\
  job sess_env ex_deser false lp_S lp_names lp_body (unused lp_S) proper (fun _ _ => True) [Killed] lp_wk /\
  i_attrs (m_state (w_live lp_wk)) = [("step", VInt 3); ("net", VNone); ("buf", VNone)].
Proof.
  split; [exact lp_keys|]. split; [|reflexivity].
  apply (job_kill sess_env ex_deser false lp_S lp_names lp_body (unused lp_S) proper (fun _ _ => True) [] lp_w0 (lp_o 3) (w_dir lp_w1) (w_live lp_wk)).
  - apply (job_start sess_env ex_deser false lp_S lp_names lp_body (unused lp_S) proper (fun _ _ => True) lp_D lp_live).
    + split; [intros name z H; apply CkptFacts.numbered_iff in H as [(l & [H|[]]) _]; discriminate H|].
      intros z e [H|[]]. unfold ckpt_name in H. discriminate H.
    + split; [repeat constructor; simpl; intuition discriminate|]. intros x e [H|[]]. injection H as <- _. reflexivity.
    + vm_compute. reflexivity.
  - split; [apply lp_at1|trivial].
  - refine (die sess_env ex_deser false lp_S lp_names lp_w0 (lp_o 3) false (fst lp_n1) 3%Z (Ok (lp_o 3, snd lp_n1))
      ([Install "latest-step000000000003" (snd lp_n1)] ++ [])%list (Done "latest-step000000000003")
      [Install "latest-step000000000003" (snd lp_n1)] [] _ _ _).
    + vm_compute. reflexivity.
    + apply (step_done false "step" _ _ 3%Z).
      * eapply w_new; [reflexivity|reflexivity|]. now apply in_same.
      * apply d_none.
    + reflexivity.
  - exact lp_proper1.
  - vm_compute. reflexivity.
Qed.
