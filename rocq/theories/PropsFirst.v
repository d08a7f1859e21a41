(** PropsFirst.v -- the first start of a manager with overrides: C43. *)
From Coq Require Import Permutation.
From Verif Require Import Base Value Schema Rewrite Sched Types Asdict FromDict Manager Ckpt Lazy Session
  SpecTree SpecTypes SpecState FromDictFacts SpecLoad SpecOverride SpecPlaced PlacedFacts SpecAgain SpecSession SpecFirst FirstFacts
  Examples PropsUpgrade PropsSession.
From Verif Require OverrideFacts UpgradeFacts PropsOverride.

(** ** C43 *)
(** A manager that is started with overrides for fields without parts, from a file or from
    nothing, has a config and schedules that obey the last override for each field, be it a
    value or a schedule, whatever schedules the file has: so it may be started again with the
    same overrides (C43_restart_partial).
    Missing: schedules more than two levels deep or in lists, tuples and dicts
    (C37_deep_schedule_refuted, C38), and overrides for fields that upgrade rules concern
    (C13_override_wins_refuted). *)
Theorem C43_obeyed_schedules_partial : forall E S c fs data ovs m, order_ok E -> ron_file E ->
  s_config S = TData c fs -> loadable (TData c fs) -> field_idents (TData c fs) -> persistable E false (TData c fs) ->
  s_overrides S = Some ovs -> apart ovs ->
  (forall o p text, In o ovs -> names o p text ->
     SpecOverride.untouched (TData c fs) p /\ forall ft, type_at (TData c fs) p = Some ft -> scalar_field ft) ->
  (forall o, In o ovs -> ~ bad_bool (TData c fs) o) ->
  (forall x', written E (TData c fs) ovs (VDict data) x' -> shallow_file E true (TData c fs) x') ->
  filev (VDict data) = true -> markerless (VDict data) = true ->
  (s_init S = INone /\ data = []) \/ (exists dir, s_init S = IFile (VDict data) dir) ->
  manager_start E S [] = Ok m -> obeys_all E (TData c fs) (m_config m) (m_sched m) ovs.
Proof. exact start_obeys_sched. Qed.
Print Assumptions C43_obeyed_schedules_partial.

(** ** example: the file has a schedule for the field that version 0 calls lr; the overrides give
    opt.eps another schedule and opt.steps a value, the second time a different one *)
Definition first_env : env := mkEnv ex_float (fun f => f) ov_ron (fun _ => None) (e_class up_env) (fun l => l).
Definition first_ovs : list string := ["opt.steps=3"; "opt.eps=""step: 3@0 7@10"""; "opt.steps=7"].
Definition first_file : list (string * pyval) :=
  [("version", VInt 0); ("lr", VStr "step: 3@0 7@10"); ("opt", VDict [("steps", VStr "step: 3@0 7@10")])].
Definition first_sess : settings :=
  mkSettings (TData up_c up_fs) job_state (fun _ => Ok (VObj "JobState" [("step", VInt 10)]))
    (IFile (VDict first_file) "runs") (Some first_ovs) false "step".

Lemma first_names o p s : In o first_ovs -> names o p s ->
  (o = "opt.steps=3" /\ p = ["opt"; "steps"]) \/ (o = "opt.eps=""step: 3@0 7@10""" /\ p = ["opt"; "eps"]) \/ (o = "opt.steps=7" /\ p = ["opt"; "steps"]).
Proof.
  intros [<-|[<-|[<-|[]]]] N.
  - left. split; [reflexivity|]. eapply OverrideFacts.names_fun; [named_as ["opt"; "steps"] "3"|exact N].
  - right. left. split; [reflexivity|]. eapply OverrideFacts.names_fun; [named_as ["opt"; "eps"] """step: 3@0 7@10"""|exact N].
  - right. right. split; [reflexivity|]. eapply OverrideFacts.names_fun; [named_as ["opt"; "steps"] "7"|exact N].
Qed.

Definition first_written : pyval := Eval vm_compute in
  match deser_overrides first_env first_ovs (TData up_c up_fs) (VDict first_file) with Ok x => x | Err _ => VNone end.

Lemma first_not_bad o : In o first_ovs -> ~ bad_bool (TData up_c up_fs) o.
Proof.
  intros [<-|[<-|[<-|[]]]].
  - apply (PropsOverride.not_bad _ _ ["opt"; "steps"] "3"); [named_as ["opt"; "steps"] "3"|left; discriminate].
  - apply (PropsOverride.not_bad _ _ ["opt"; "eps"] """step: 3@0 7@10"""); [named_as ["opt"; "eps"] """step: 3@0 7@10"""|left; discriminate].
  - apply (PropsOverride.not_bad _ _ ["opt"; "steps"] "7"); [named_as ["opt"; "steps"] "7"|left; discriminate].
Qed.

Lemma first_shallow : shallow_file first_env true (TData up_c up_fs) first_written.
Proof.
  intros q b text H. apply sched_in_data in H as (y & d & n & ft & fd & w & q' & H1 & H2 & H3 & H4 & H5 & ->).
  vm_compute in H1. injection H1 as <-. injection H2 as <-.
  destruct H3 as [H3|[H3|[H3|[H3|[]]]]]; injection H3 as <- <- <-; try discriminate H4; injection H4 as <-.
  - inversion H5; subst. eexists. split; [reflexivity|]. simpl. lia.
  - apply sched_in_data in H5 as (y & d & n & ft & fd & w & q & H1 & H2 & H3 & H4 & H5 & ->).
    vm_compute in H1. injection H1 as <-. injection H2 as <-.
    destruct H3 as [H3|[H3|[]]]; injection H3 as <- <- <-; injection H4 as <-; inversion H5; subst; eexists; (split; [reflexivity|]); simpl; lia.
Qed.

Example C43_obeyed_schedules_ex : exists m, manager_start first_env first_sess [] = Ok m /\
  field_at (m_config m) ["opt"; "steps"] = Some (VInt 7) /\ field_at (m_config m) ["opt"; "eps"] = Some (VFloat (sf_of_Z 7)) /\
  field_at (m_config m) ["rate"] = Some (VFloat (sf_of_Z 7)) /\
  sched_at (SNode (m_sched m)) ["opt"; "steps"] = None /\ sched_at (SNode (m_sched m)) ["opt"; "eps"] <> None /\ sched_at (SNode (m_sched m)) ["rate"] <> None /\
  order_ok first_env /\ ron_file first_env /\ loadable (TData up_c up_fs) /\ field_idents (TData up_c up_fs) /\ persistable first_env false (TData up_c up_fs) /\
  apart first_ovs /\
  (forall o p text, In o first_ovs -> names o p text ->
     SpecOverride.untouched (TData up_c up_fs) p /\ forall ft, type_at (TData up_c up_fs) p = Some ft -> scalar_field ft) /\
  (forall o, In o first_ovs -> ~ bad_bool (TData up_c up_fs) o) /\
  (forall x', written first_env (TData up_c up_fs) first_ovs (VDict first_file) x' -> shallow_file first_env true (TData up_c up_fs) x') /\
  filev (VDict first_file) = true /\ markerless (VDict first_file) = true.
Proof.
  eexists. split; [vm_compute; reflexivity|]. do 4 (split; [reflexivity|]). do 2 (split; [discriminate|]).
  destruct C24_ex as (L & _ & Hl & Hp & _).
  split; [intros l; apply Permutation_refl|]. split.
  { intros s y. cbn [first_env e_ron]. unfold ov_ron. destruct (String.eqb s _); [intros [= <-]; split; reflexivity|apply PropsOverride.ex_ron_file]. }
  split; [exact Hl|]. split; [apply UpgradeFacts.identsb_ok; reflexivity|]. split; [exact Hp|]. split.
  { intros l1 o l2 o' p q s s' El Hin N N'.
    assert (Ho : In o first_ovs) by (rewrite El; apply in_or_app; right; now left).
    assert (Ho' : In o' first_ovs) by (rewrite El; apply in_or_app; right; now right).
    destruct (first_names _ _ _ Ho N) as [[_ ->]|[[_ ->]|[_ ->]]]; destruct (first_names _ _ _ Ho' N') as [[_ ->]|[[_ ->]|[_ ->]]];
      try (now right); left; split; intros [r Hr]; discriminate. }
  split.
  { intros o p text Ho N. destruct (first_names _ _ _ Ho N) as [[_ ->]|[[_ ->]|[_ ->]]]; (split; [|intros ft [= <-]; exact I]);
      (split; [|split; [discriminate|exact I]]); intros cur rules [= <- <-]; (split; [discriminate|]);
      intros i rs ru q [K|[]] Hru Hq; injection K as <- <-; destruct Hru as [<-|[]]; destruct Hq as [<-|[<-|[]]];
      (split; [split; intros [r Hr]; discriminate|simpl; intuition discriminate]). }
  split; [exact first_not_bad|]. split; [|split; reflexivity].
  intros x' W. apply OverrideFacts.overrides_ok_iff in W; [|reflexivity|exact first_not_bad|eexists; vm_compute; reflexivity].
  assert (Q : deser_overrides first_env first_ovs (TData up_c up_fs) (VDict first_file) = Ok first_written) by (vm_compute; reflexivity).
  rewrite Q in W. injection W as <-. exact first_shallow.
Qed.
