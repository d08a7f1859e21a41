(** PropsSession.v -- restarting a StateManager: C43, C44. *)
From Coq Require Import Permutation.
From Verif Require Import Base Value Schema Rewrite Sched Types Asdict FromDict Manager Ckpt Lazy Session
  SpecTypes SpecState FromDictFacts SpecCkpt SpecLazy SpecLoad SpecOverride SpecAgain SpecSession SessionFacts Examples PropsState PropsLazy.
From Verif Require OverrideFacts UpgradeFacts PropsOverride.

(** ** C43 *)
(** A checkpoint of an up-to-date config and a state is written, and a manager started on
    any directory whose resume point is a directory with these files holds the same
    config, the same schedules and the same state, Serializable attributes included once
    they are read.  Stepping it again writes the same files.  Overrides may be given again:
    the config must obey them (as it does unless they or the overridden fields were changed:
    below).
    Missing: an override for a part of the field of another one, schedules more than two levels deep
    and Serializable objects below the attributes of the state (for these two the claim is
    false: C37_deep_schedule_refuted, C48_list_refuted), and reading [config] before [state]
    (false, below). *)
Theorem C43_restart_partial : forall E S cfg l n d deser pickle_allowed,
  resumable E S cfg l n d -> reads_back deser d -> apply_schedules E (VObj n d) l cfg = Ok cfg ->
  exists F, checkpoint_files (e_class E) cfg l (VObj n d) = Ok F /\
  forall D p, dir_ok D -> names_ok D -> resume_point D = Some p -> complete D p F ->
  exists m, manager_start E S D = Ok m /\ holds_session deser pickle_allowed (disk_of S D) m cfg l n d /\
    untouched (m_state m) /\
    forall z, (exists x, aget (s_key S) d = Some x /\ as_int x = Some z) ->
      step_prepare E deser pickle_allowed S D (map fst d) m = Ok (m, z, Ok (mkInst n d [], F)).
Proof. exact restart_again. Qed.
Print Assumptions C43_restart_partial.

(** After any history of steps and crashes ending with a completed step of manager [m],
    which left it with config, schedules [m'] and state [n d], a new manager on the same
    directory has the same config, schedules and state. *)
Theorem C43_after_step_partial : forall E S deser pickle_allowed D0 names m m' k n d F evs D last t,
  step_prepare E deser pickle_allowed S D0 names m = Ok (m', k, Ok (mkInst n d [], F)) ->
  resumable E S (m_config m) (m_sched m) n d -> untouched (m_state m) -> reads_back deser d ->
  history (s_key S) (Step k (Ok F) (Done t) :: evs) D last -> names_ok D ->
  exists m2, manager_start E S D = Ok m2 /\
    holds_session deser pickle_allowed (disk_of S D) m2 (m_config m') (m_sched m') n d.
Proof. exact step_history_restart. Qed.
Print Assumptions C43_after_step_partial.

(** A manager that is started with overrides, from a file or from nothing, has a config that
    obeys the last one for each field (and no override is for a part of the field of another).
    Missing: configs with schedules (C43_obeyed_schedules_partial), and overrides for fields that upgrade rules concern
    (C13_override_wins_refuted). *)
Theorem C43_obeyed_partial : forall E S c fs data ovs m, order_ok E -> ron_file E ->
  s_config S = TData c fs -> loadable (TData c fs) -> field_idents (TData c fs) ->
  s_overrides S = Some ovs -> apart ovs ->
  (forall o p text, In o ovs -> names o p text -> SpecOverride.untouched (TData c fs) p) ->
  (forall o, In o ovs -> ~ bad_bool (TData c fs) o) ->
  filev (VDict data) = true -> markerless (VDict data) = true ->
  (s_init S = INone /\ data = []) \/ (exists dir, s_init S = IFile (VDict data) dir) ->
  manager_start E S [] = Ok m -> m_sched m = [] -> obeys_all E (TData c fs) (m_config m) [] ovs.
Proof. exact start_obeys. Qed.
Print Assumptions C43_obeyed_partial.

(** ** example *)
Definition ov_ron (s : string) : res pyval :=
  if String.eqb s """step: 3@0 7@10""" then Ok (VStr "step: 3@0 7@10") else ex_ron s.
Definition sess_env : env :=
  mkEnv ex_float (fun f => f) ov_ron (fun _ => None)
    (fun n => if String.eqb n "Learner" then e_class learner_env n else ex_class n) (fun l => l).
Definition sess (i : init_src) : settings := mkSettings tCfg tLearner (fun _ => Err RuntimeError) i None false "step".
Definition ex_attrs10 : list (string * pyval) :=
  [("step", VInt 10); ("net", VBlob "Network" (VDict [("w", VInt 5)])); ("buf", VNone)].

Lemma sess_resumable i : resumable sess_env (sess i) ex_cfg10 ex_tree "Learner" ex_attrs10.
Proof.
  split.
  - intros l. apply Permutation_refl.
  - do 2 eexists. split; [reflexivity|]. split; [|split; [simpl; repeat split|split; [|split; [vm_compute; reflexivity|split; [|split; [exact ex_named|exact ex_shallow]]]]]].
    + exact ex_persistable.
    + destruct ex_holds as (_ & H). simpl in H |- *. intuition.
    + pose proof ex_fits as H. unfold ex_tree in *. simpl in H |- *. destruct H as (H1 & H2 & _). split; [|split; [|exact I]].
      * clear H2. destruct H1 as (c0 & d0 & fs & ft & fd & x & V & M & A & B & F). exists "Config". do 5 eexists.
        split; [reflexivity|]. split; [reflexivity|]. split; [reflexivity|].
        split; [reflexivity|]. split; [|exact I]. exists "Optimizer". do 5 eexists. split; [reflexivity|].
        split; [reflexivity|]. split; [reflexivity|]. split; [reflexivity|].
        split; [reflexivity|]. split; [reflexivity|]. split; [reflexivity|]. split; [vm_compute; reflexivity|].
        eexists. vm_compute. reflexivity.
      * exists "Config". do 5 eexists. split; [reflexivity|]. split; [reflexivity|]. split; [reflexivity|].
        split; [reflexivity|]. split; [reflexivity|]. split; [reflexivity|]. split; [reflexivity|].
        split; [vm_compute; reflexivity|]. eexists. vm_compute. reflexivity.
  - do 2 eexists. split; [reflexivity|]. split; [exact learner_persistable|]. split; [|split; [reflexivity|]].
    + simpl. repeat split. left. reflexivity.
    + unfold root_blobs, ex_attrs10. repeat apply Forall_cons; [| | |constructor]; (split; [repeat split; discriminate|]);
        [right; exact I|left; simpl; eauto|right; exact I].
  - exact I.
Qed.

Definition ex_files : files pyval := Eval vm_compute in
  match checkpoint_files (e_class sess_env) ex_cfg10 ex_tree (VObj "Learner" ex_attrs10) with Ok F => F | Err _ => [] end.
Definition ex_ckpts : fs pyval := [("notes.txt", EOther); ("latest-step000000000010", EDir (rev ex_files))].
Example C43_ex :
  resumable sess_env (sess IMissing) ex_cfg10 ex_tree "Learner" ex_attrs10 /\ reads_back ex_deser ex_attrs10 /\
  apply_schedules sess_env (VObj "Learner" ex_attrs10) ex_tree ex_cfg10 = Ok ex_cfg10 /\
  map fst ex_files = ["config.ron"; "state.ron"; "state.net.msgpack"] /\
  dir_ok ex_ckpts /\ names_ok ex_ckpts /\ resume_point ex_ckpts = Some "latest-step000000000010" /\
  complete ex_ckpts "latest-step000000000010" ex_files /\
  (let* m := manager_start sess_env (sess IMissing) ex_ckpts in Ok (m_state m)) =
    Ok (mkInst "Learner" [("step", VInt 10); ("net", VNone); ("buf", VNone)]
          [("net", mkLazy "Network" "latest-step000000000010/state.net.msgpack" false)]).
Proof.
  split; [apply sess_resumable|]. split; [intros k c p o _; reflexivity|]. split; [vm_compute; reflexivity|].
  split; [reflexivity|]. split; [repeat constructor; simpl; intuition discriminate|].
  split; [intros n e [H|[H|[]]]; injection H as <- <-; reflexivity|]. split; [vm_compute; reflexivity|].
  split; [|vm_compute; reflexivity]. exists (rev ex_files). split; [simpl; auto|]. apply Permutation_sym, Permutation_rev.
Qed.

(** with overrides: one for a field that has a schedule, one for a float and two for a str *)
Definition ov_list : list string := ["name=draft"; "opt.lr=""step: 3@0 7@10"""; "opt.eps=0.5"; "name=run@1"].
Definition ov_sess (ovs : list string) : settings :=
  mkSettings tCfg tLearner (fun _ => Err RuntimeError) IMissing (Some ovs) false "step".

Lemma names_spec o p text : p <> [] -> forallb segment p = true -> o = join "." p ++ "=" ++ text -> names o p text.
Proof. now split. Qed.

Ltac named_as p s := apply (names_spec _ p s); [discriminate|reflexivity|reflexivity].

(** the schedules are at opt.lr and steps *)
Lemma ov_scheds q s : sched_at (SNode ex_tree) q = Some s -> q = ["opt"; "lr"] \/ q = ["steps"].
Proof.
  destruct q as [|k q]; [discriminate|]. cbn [sched_at ex_tree aget]. destruct (String.eqb k "opt") eqn:E1; [apply String.eqb_eq in E1 as ->|].
  - destruct q as [|k2 q]; [discriminate|]. cbn [sched_at aget]. destruct (String.eqb k2 "lr") eqn:E2; [apply String.eqb_eq in E2 as ->|discriminate].
    destruct q; [auto|discriminate].
  - destruct (String.eqb k "steps") eqn:E2; [apply String.eqb_eq in E2 as ->|discriminate]. destruct q; [auto|discriminate].
Qed.

Lemma ov_names o p s : In o ov_list -> names o p s -> (o, p) = (nth 0 ov_list "", ["name"]) \/ (o, p) = (nth 1 ov_list "", ["opt"; "lr"]) \/
  (o, p) = (nth 2 ov_list "", ["opt"; "eps"]) \/ (o, p) = (nth 3 ov_list "", ["name"]).
Proof.
  intros [<-|[<-|[<-|[<-|[]]]]] N.
  - left. f_equal. eapply OverrideFacts.names_fun; [named_as ["name"] "draft"|exact N].
  - right. left. f_equal. eapply OverrideFacts.names_fun; [named_as ["opt"; "lr"] """step: 3@0 7@10"""|exact N].
  - right. right. left. f_equal. eapply OverrideFacts.names_fun; [named_as ["opt"; "eps"] "0.5"|exact N].
  - right. right. right. f_equal. eapply OverrideFacts.names_fun; [named_as ["name"] "run@1"|exact N].
Qed.

Lemma ov_apart : apart ov_list.
Proof.
  intros l1 o l2 o' p q s s' Hl Hin N N'.
  assert (Ho : In o ov_list) by (rewrite Hl; apply in_or_app; right; now left).
  assert (Ho' : In o' ov_list) by (rewrite Hl; apply in_or_app; right; now right).
  apply (ov_names _ _ _ Ho) in N. apply (ov_names _ _ _ Ho') in N'.
  destruct N as [N|[N|[N|N]]]; injection N as -> ->; destruct N' as [N'|[N'|[N'|N']]]; injection N' as -> ->;
    try (now right); left; split; intros [r Hr]; discriminate.
Qed.

Ltac last_for p0 s0 :=
  let N := fresh in let o' := fresh in let p' := fresh in let s1 := fresh in let s' := fresh in let Hi := fresh in let N1 := fresh in let N2 := fresh in
  intros (o' & p' & s1 & s' & Hi & N1 & N2);
  match type of N1 with names ?o _ _ => assert (N : names o p0 s0) by named_as p0 s0 end;
  apply (fun x => proj1 (OverrideFacts.names_fun _ _ _ _ _ x N1)) in N; subst p';
  assert (In o' ov_list) as Hin by (simpl in Hi |- *; tauto); apply (ov_names _ _ _ Hin) in N2; cbn [nth ov_list] in N2;
  cbn [In] in Hi; intuition congruence.

Lemma ov_resumable : resumable sess_env (ov_sess ov_list) ex_cfg10 ex_tree "Learner" ex_attrs10.
Proof.
  destruct (sess_resumable IMissing) as [R1 R2 R3 _]. split; [exact R1|exact R2|exact R3|].
  unfold overrides_kept. cbn [ov_sess s_overrides ov_list]. split; [|split; [|split]].
  - intros s y. cbn [sess_env e_ron]. unfold ov_ron. destruct (String.eqb s _); [intros [= <-]; split; reflexivity|apply PropsOverride.ex_ron_file].
  - unfold tCfg. simpl. repeat match goal with
           | |- _ /\ _ => split
           | |- True => exact I
           | |- NoDup _ => solve [nodup]
           | |- ~ _ => simpl; intuition discriminate
           | |- forall _ _ _ _, None = Some _ -> _ => discriminate
           end.
    + intros ver rules i rs [= <- <-] [].
    + intros ver rules i rs [= <- <-] [[= <- <-]|[]]. repeat constructor.
  - split; [right|split; [left; split; [|last_for ["opt"; "lr"] """step: 3@0 7@10"""]|split; [left; split; [|last_for ["opt"; "eps"] "0.5"]|split; [left; split; [|last_for ["name"] "run@1"]|exact I]]]].
    + split; [exists ["name"], "draft", TStr, (VStr "draft"); split; [named_as ["name"] "draft"|split; reflexivity]|].
      exists "name=run@1", ["name"], "draft", "run@1". split; [simpl; auto|]. split; [named_as ["name"] "draft"|named_as ["name"] "run@1"].
    + do 5 eexists. split; [named_as ["opt"; "lr"] """step: 3@0 7@10"""|]. split; [reflexivity|]. split; [reflexivity|]. split; [reflexivity|].
      left. eexists. split; reflexivity.
    + do 5 eexists. split; [named_as ["opt"; "eps"] "0.5"|]. split; [reflexivity|]. split; [reflexivity|]. split; [reflexivity|].
      right. split; [|reflexivity]. intros q s Hq. destruct (ov_scheds q s Hq) as [-> | ->]; cbn; intuition discriminate.
    + do 5 eexists. split; [named_as ["name"] "run@1"|]. split; [reflexivity|]. split; [reflexivity|]. split; [reflexivity|].
      right. split; [|reflexivity]. intros q s Hq. destruct (ov_scheds q s Hq) as [-> | ->]; cbn; intuition discriminate.
  - apply ov_apart.
Qed.

(** the state and all of the config come back with these overrides given again *)
Example C43_overrides_ex : exists m, manager_start sess_env (ov_sess ov_list) ex_ckpts = Ok m /\
  m_config m = ex_cfg10 /\ m_sched m <> [] /\ resumable sess_env (ov_sess ov_list) ex_cfg10 ex_tree "Learner" ex_attrs10.
Proof.
  eexists. split; [vm_compute; reflexivity|]. split; [reflexivity|]. split; [discriminate|]. exact ov_resumable.
Qed.

(** a first start: a sub-config and two overrides in it *)
Definition job_state : ty := TData (mkC "JobState" None) [("step", (TInt, DValue (VInt 0)))].
Definition job_sess : settings :=
  mkSettings PropsOverride.tJob job_state (fun _ => Ok (VObj "JobState" [("step", VInt 0)]))
    (IFile (VDict [("opt", VDict [("eps", VInt 10)])]) "runs") (Some ["opt.lr=7"; "opt.tag=a=b"]) false "step".
Example C43_obeyed_ex : exists m, manager_start ex_env job_sess [] = Ok m /\ m_sched m = [] /\
  field_at (m_config m) ["opt"; "lr"] = Some (VInt 7) /\
  loadable PropsOverride.tJob /\ field_idents PropsOverride.tJob /\ apart ["opt.lr=7"; "opt.tag=a=b"] /\
  (forall o p text, In o ["opt.lr=7"; "opt.tag=a=b"] -> names o p text -> SpecOverride.untouched PropsOverride.tJob p) /\
  (forall o, In o ["opt.lr=7"; "opt.tag=a=b"] -> ~ bad_bool PropsOverride.tJob o).
Proof.
  assert (N1 : names "opt.lr=7" ["opt"; "lr"] "7") by named_as ["opt"; "lr"] "7".
  assert (N2 : names "opt.tag=a=b" ["opt"; "tag"] "a=b") by named_as ["opt"; "tag"] "a=b".
  eexists. split; [vm_compute; reflexivity|]. split; [reflexivity|]. split; [reflexivity|].
  split; [exact PropsOverride.tJob_loadable|]. split; [apply UpgradeFacts.identsb_ok; reflexivity|]. split; [|split].
  - intros l1 o l2 o' p q s s' Hl Hin M M'. destruct l1 as [|a [|b l1]].
    + injection Hl as <- <-. destruct Hin as [<-|[]]. destruct (OverrideFacts.names_fun _ _ _ _ _ N1 M) as [-> _].
      destruct (OverrideFacts.names_fun _ _ _ _ _ N2 M') as [-> _]. left. split; intros [r Hr]; discriminate.
    + injection Hl as <- <- <-. contradiction.
    + destruct l1; discriminate.
  - intros o p text [<-|[<-|[]]] M.
    + destruct (OverrideFacts.names_fun _ _ _ _ _ N1 M) as [-> _]. cbn. repeat split; discriminate.
    + destruct (OverrideFacts.names_fun _ _ _ _ _ N2 M) as [-> _]. cbn. repeat split; discriminate.
  - intros o [<-|[<-|[]]].
    + apply (PropsOverride.not_bad _ _ ["opt"; "lr"] "7"); [exact N1|left; discriminate].
    + apply (PropsOverride.not_bad _ _ ["opt"; "tag"] "a=b"); [exact N2|left; discriminate].
Qed.

(** A field that was overridden and then changed by the program is not restored: the
    override wins over the checkpoint. *)
Theorem C43_changed_field_refuted : exists E S cfg l n d F D p o text m,
  resumable E (sess IMissing) cfg l n d /\ apply_schedules E (VObj n d) l cfg = Ok cfg /\
  checkpoint_files (e_class E) cfg l (VObj n d) = Ok F /\
  dir_ok D /\ names_ok D /\ resume_point D = Some p /\ complete D p F /\
  S = ov_sess [o] /\ names o ["name"] text /\ manager_start E S D = Ok m /\
  field_at cfg ["name"] = Some (VStr "run@1") /\ field_at (m_config m) ["name"] = Some (VStr "run@2").
Proof.
  exists sess_env, (ov_sess ["name=run@2"]), ex_cfg10, ex_tree, "Learner", ex_attrs10, ex_files, ex_ckpts, "latest-step000000000010", "name=run@2", "run@2".
  destruct C43_ex as (H1 & _ & H3 & _ & H5 & H6 & H7 & H8 & _).
  eexists. split; [exact H1|]. split; [exact H3|]. split; [vm_compute; reflexivity|]. do 4 (split; [assumption|]).
  split; [reflexivity|]. split; [named_as ["name"] "run@2"|]. split; [vm_compute; reflexivity|]. split; reflexivity.
Qed.
Print Assumptions C43_changed_field_refuted.

(** The config alone, before the state is first accessed, has the values of the schedules
    at 0, not those of the checkpoint. *)
Theorem C43_config_before_state_refuted : exists E S cfg l n d F D p c,
  resumable E S cfg l n d /\ apply_schedules E (VObj n d) l cfg = Ok cfg /\
  checkpoint_files (e_class E) cfg l (VObj n d) = Ok F /\
  dir_ok D /\ names_ok D /\ resume_point D = Some p /\ complete D p F /\
  manager_config E S D (resume_point D) = Ok c /\ l_value c <> cfg.
Proof.
  exists sess_env, (sess IMissing), ex_cfg10, ex_tree, "Learner", ex_attrs10, ex_files, ex_ckpts, "latest-step000000000010".
  destruct C43_ex as (H1 & _ & H3 & _ & H5 & H6 & H7 & H8 & _).
  eexists. split; [exact H1|]. split; [exact H3|]. split; [vm_compute; reflexivity|]. do 4 (split; [assumption|]).
  split; [vm_compute; reflexivity|]. vm_compute. discriminate.
Qed.
Print Assumptions C43_config_before_state_refuted.

(** ** C44 *)
(** A directory with a resume point: the manager is the one started with [init_path] set to
    that checkpoint and no checkpoint directory, whatever its own [init_path]. *)
Theorem C44_checkpoint_wins : forall E S D p l,
  dir_ok D -> resume_point D = Some p -> In (p, EDir l) D ->
  manager_start E S D = manager_start E (set_init S (IDir p l)) [].
Proof. exact start_from_checkpoint. Qed.
Print Assumptions C44_checkpoint_wins.

(** Once a step has completed there is always such a checkpoint, after any history of
    steps and crashes in a directory that step() owns: it is one that a step wrote.
    Missing: directories in which other software puts numbered directories (false, below). *)
Theorem C44_history_partial : forall E S evs D last n F t,
  history (s_key S) evs D last -> In (Step n (Ok F) (Done t)) evs ->
  exists p n' F' l, p = ckpt_name (s_key S) n' /\ Permutation l F' /\
    (exists ev, In ev evs /\ key_of ev = Some (n', Ok F')) /\
    forall i, manager_start E (set_init S i) D = manager_start E (set_init S (IDir p l)) [].
Proof. exact start_after_history. Qed.
Print Assumptions C44_history_partial.

(** Without a resume point the directory does not matter, *)
Theorem C44_no_checkpoint : forall E S D,
  resume_point D = None -> manager_start E S D = manager_start E S [].
Proof. exact start_from_init. Qed.
Print Assumptions C44_no_checkpoint.

(** and config and state come from [init_path]: from a directory, both; from a file, the
    config, with the initial state of that config; without one, the defaults (the empty
    file), with the initial state of that config. *)
Theorem C44_init_path : forall E S m,
  manager_start E S [] = Ok m ->
  let ovs := Some (match s_overrides S with Some o => o | None => [] end) in
  match s_init S with
  | INone => exists c st, typed_load E (s_config S) (VDict []) None ovs true (s_ignore S) = Ok c /\
      s_initial S (l_value c) = Ok st /\ m_state m = inst_of (mkL st [] []) /\ m_sched m = l_sched c /\
      apply_schedules E (as_value (m_state m)) (l_sched c) (l_value c) = Ok (m_config m)
  | IFile data dir => exists c st, typed_load E (s_config S) data (Some dir) ovs true (s_ignore S) = Ok c /\
      s_initial S (l_value c) = Ok st /\ m_state m = inst_of (mkL st [] []) /\ m_sched m = l_sched c /\
      apply_schedules E (as_value (m_state m)) (l_sched c) (l_value c) = Ok (m_config m)
  | IDir p l => exists dc ds c st, In ("config.ron", dc) l /\ In ("state.ron", ds) l /\
      typed_load E (s_config S) dc (Some p) ovs true (s_ignore S) = Ok c /\
      typed_load E (s_state S) ds (Some p) None false (s_ignore S) = Ok st /\
      m_state m = inst_of st /\ m_sched m = l_sched c /\
      apply_schedules E (as_value (m_state m)) (l_sched c) (l_value c) = Ok (m_config m)
  | IMissing => False
  end.
Proof. exact start_cases. Qed.
Print Assumptions C44_init_path.

(** A numbered directory of another name with a larger number hides the checkpoint. *)
Theorem C44_foreign_refuted : exists E S D p F m,
  dir_ok D /\ complete D p F /\ String.prefix "latest" p = true /\
  manager_start E S [(p, EDir F)] = Ok m /\ manager_start E S D = Err FileNotFoundError.
Proof.
  exists sess_env, (sess IMissing), (("backup-202201010000", EDir []) :: ex_ckpts), "latest-step000000000010", ex_files.
  eexists. split; [repeat constructor; simpl; intuition discriminate|]. split.
  - exists (rev ex_files). split; [simpl; auto|]. apply Permutation_sym, Permutation_rev.
  - split; [reflexivity|]. split; vm_compute; reflexivity.
Qed.
Print Assumptions C44_foreign_refuted.

(** the checkpoint of the example is used although [init_path] does not exist *)
Example C44_ex :
  resume_point ex_ckpts = Some "latest-step000000000010" /\ In ("latest-step000000000010", EDir (rev ex_files)) ex_ckpts /\
  (let* m := manager_start sess_env (sess IMissing) ex_ckpts in Ok (m_config m)) = Ok ex_cfg10 /\
  manager_start sess_env (sess IMissing) [] = Err FileNotFoundError.
Proof. split; [vm_compute; reflexivity|]. split; [simpl; auto|]. split; vm_compute; reflexivity. Qed.

(** ** C54 *)
(** A manager without overrides reads its config exactly as [load] reads the same file
    (except that a version may be missing, C16_manager_assumes_current), for every class
    without Serializable and bare [None] annotations.
    Missing: the other classes, for which it is false (next). *)
Theorem C54_same_as_load_partial : forall E S D data dir c fs,
  s_config S = TData c fs -> configurable (TData c fs) ->
  (s_overrides S = None \/ s_overrides S = Some []) ->
  config_file S D data dir ->
  manager_config E S D (resume_point D) = typed_load E (TData c fs) data dir None true (s_ignore S).
Proof. exact config_class_accepted. Qed.
Print Assumptions C54_same_as_load_partial.

(** With any other config class a manager never gets a config, whatever the files. *)
Theorem C54_rejected : forall E S D m c fs,
  s_config S = TData c fs -> ~ configurable (TData c fs) -> manager_start E S D <> Ok m.
Proof. exact config_class_rejected. Qed.
Print Assumptions C54_rejected.

Theorem C54_same_as_load_refuted : exists E S data l,
  s_init S = IFile data "." /\
  typed_load E (s_config S) data (Some ".") None true (s_ignore S) = Ok l /\
  manager_start E S [] = Err ValueError.
Proof.
  exists learner_env, (mkSettings tLearner tLearner (fun _ => Ok VNone)
    (IFile (VDict [("step", VInt 3); ("net", VStr "<blob:msgpack>"); ("buf", VNone)]) ".") None false "step").
  do 2 eexists. split; [reflexivity|]. split; vm_compute; reflexivity.
Qed.
Print Assumptions C54_same_as_load_refuted.

Example C54_ex : configurable tCfg /\ ~ configurable tLearner.
Proof. split; [simpl; repeat split|simpl; tauto]. Qed.

(** ** C16 *)
(** A StateManager does not require a version: [isinstance(self.config_cls, Versioned)] is
    False for every class.  It reads a config file without one as a file of the current
    version. *)
Theorem C16_manager_assumes_current : forall E S D c fs n rules d dir,
  s_config S = TData c fs -> configurable (TData c fs) -> loadable (TData c fs) ->
  (s_overrides S = None \/ s_overrides S = Some []) -> config_file S D (VDict d) dir -> filev (VDict d) = true ->
  c_versioned c = Some (n, rules) -> Forall (fun kv => (fst kv < n)%Z) rules -> aget "version" d = None ->
  manager_config E S D (resume_point D) =
  typed_load E (TData c fs) (VDict (("version", VInt n) :: d)) dir None true (s_ignore S).
Proof. exact version_assumed. Qed.
Print Assumptions C16_manager_assumes_current.

Definition run_sess (d : list (string * pyval)) : settings :=
  mkSettings PropsOverride.tRun PropsOverride.tRun (fun _ => Ok VNone) (IFile (VDict d) ".") None true "step".

(** So an old file without version, which [load] rejects, is accepted by a manager, and
    here (with ignore_extra_fields) silently loses its learning rate, which it keeps when
    the file says "version: 0". *)
Theorem C16_manager_refuted : exists E d l l0,
  aget "version" d = None /\ filev (VDict d) = true /\
  hs_load E PropsOverride.tRun (Some (VDict d, ".")) None = Err ValueError /\
  manager_config E (run_sess d) [] None = Ok l /\ field_at (l_value l) ["learning_rate"] = Some (VInt 3) /\
  manager_config E (run_sess (("version", VInt 0) :: d)) [] None = Ok l0 /\ field_at (l_value l0) ["learning_rate"] = Some (VInt 10).
Proof.
  exists ex_env, [("lr", VInt 10)]. do 2 eexists. split; [reflexivity|]. split; [reflexivity|].
  split; [vm_compute; reflexivity|]. split; [vm_compute; reflexivity|]. split; [reflexivity|]. split; [vm_compute; reflexivity|reflexivity].
Qed.
Print Assumptions C16_manager_refuted.

Example C16_manager_ex : configurable PropsOverride.tRun /\ loadable PropsOverride.tRun /\
  config_file (run_sess [("seed", VInt 5)]) [] (VDict [("seed", VInt 5)]) (Some ".") /\
  manager_config ex_env (run_sess [("seed", VInt 5)]) [] None =
    Ok (mkL (VObj "Run" [("seed", VInt 5); ("learning_rate", VInt 3)]) [] []).
Proof.
  split; [simpl; repeat split|]. split; [exact PropsOverride.tRun_loadable|]. split; [split; reflexivity|vm_compute; reflexivity].
Qed.
