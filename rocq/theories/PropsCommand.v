(** PropsCommand.v -- command lines: C52, C57. *)
From Verif Require Import Base Value Schema Rewrite Sched Types Asdict FromDict Checker HelpM Command SpecCommand
  SpecTypes SpecLoad SpecOverride OverrideFacts Examples PropsOverride CommandFacts.

(** C52: the function is run, once and with a manager made from the command line, when
    there is no --hps-info, not both --config and --resume-from, every override has a
    "=" and the checkpoint directory can be used *)
Theorem C52_stateful_runs : forall A construct cfg_cls state_cls key (f : manager_args -> outcome A) args,
  go_ahead construct args ->
  exists x, calls (fst (stateful_command construct cfg_cls state_cls key f args)) = [x] /\ made_from cfg_cls state_cls key args x.
Proof. intros. eexists. split; [now apply stateful_calls|apply the_args_made]. Qed.
Print Assumptions C52_stateful_runs.

(** ... and never otherwise *)
Theorem C52_stateful_never : forall A construct cfg_cls state_cls key (f : manager_args -> outcome A) args,
  ~ go_ahead construct args -> calls (fst (stateful_command construct cfg_cls state_cls key f args)) = [].
Proof. intros. now apply stateful_no_calls. Qed.
Print Assumptions C52_stateful_never.

(** --hps-info only prints what [help] says and exits with 0; giving both paths prints an
    error and exits with 1 *)
Theorem C52_stateful_exits : forall A construct cfg_cls state_cls key (f : manager_args -> outcome A) args,
  describable cfg_cls ->
  (forall q, a_hps_info args = Some q -> exists l, help cfg_cls q = Ok l /\
     stateful_command construct cfg_cls state_cls key f args = ([EHelp l], Exited 0)) /\
  (a_hps_info args = None -> a_config args <> None -> a_resume_from args <> None ->
     stateful_command construct cfg_cls state_cls key f args = ([EError MBothPaths], Exited 1)).
Proof.
  intros A construct cfg_cls state_cls key f args D. unfold stateful_command. split.
  - intros q ->. destruct (@hps_info manager_args A cfg_cls q (exit 0) D) as (l & H & E). exists l. auto.
  - intros -> C R. destruct (a_config args); [|congruence]. destruct (a_resume_from args); [|congruence]. reflexivity.
Qed.
Print Assumptions C52_stateful_exits.

(** C52 for [command]: the function is run, once, with the config the command line
    describes, and its result is the result; it is not run for --hps-info or an override
    without "=" *)
Theorem C52_command_runs : forall A E read cls (f : pyval -> outcome A) args cfg,
  plain_run args -> loaded_config E read cls args = Ok cfg -> command E read cls f args = ([ERun cfg], f cfg).
Proof. intros. now apply command_ok. Qed.
Print Assumptions C52_command_runs.

Theorem C52_command_never : forall A E read cls (f : pyval -> outcome A) args,
  ~ plain_run args -> calls (fst (command E read cls f args)) = [].
Proof. intros. now apply command_no_calls. Qed.
Print Assumptions C52_command_never.

Theorem C52_command_exits : forall A E read cls (f : pyval -> outcome A) args q,
  describable cls -> a_hps_info args = Some q -> exists l, help cls q = Ok l /\ command E read cls f args = ([EHelp l], Exited 0).
Proof.
  intros A E read cls f args q D H. unfold command. rewrite H.
  destruct (@hps_info pyval A cls q (exit 0) D) as (l & Hl & Eq). exists l. auto.
Qed.
Print Assumptions C52_command_exits.

(** C57: an override without "=": the error names it, [help] is shown for it *)
Theorem C57_malformed : forall A E read cls (f : pyval -> outcome A) args l1 o l2,
  describable cls -> a_hps_info args = None -> a_hyperparams args = (l1 ++ o :: l2)%list ->
  (forall o', In o' l1 -> has_char "=" o' = true) -> has_char "=" o = false ->
  exists l, help cls o = Ok l /\ command E read cls f args = ([EError (MInvalidOverride o); EHelp l], Exited 0).
Proof.
  intros A E read cls f args l1 o l2 D H1 H2 H3 H4. unfold command. rewrite H1, H2. now apply bad_override.
Qed.
Print Assumptions C57_malformed.

(** C57: a mistake in the config is reported and the exit status is 1 *)
Theorem C57_reported : forall A E read cls (f : pyval -> outcome A) args e,
  plain_run args -> loaded_config E read cls args = Err e -> config_error e -> describable cls ->
  let r := command E read cls f args in
  snd r = Exited 1 /\ errors (fst r) = [MException e] /\ calls (fst r) = [].
Proof. intros A E read cls f args e H L C D. destruct (command_report E read cls f args e H L C D) as (A1 & A2 & A3 & _). cbn zeta. auto. Qed.
Print Assumptions C57_reported.

(** in particular all unknown override fields [ks] are reported, and similar fields are
    listed for each *)
Theorem C57_unknown_fields : forall A E read cls (f : pyval -> outcome A) args kept ks x',
  plain_run args -> a_config args = None -> describable cls -> (forall o, In o kept -> ~ bad_bool cls o) ->
  sorted cls (a_hyperparams args) kept ks -> ks <> [] -> written E cls kept (VDict []) x' ->
  let r := command E read cls f args in
  snd r = Exited 1 /\ errors (fst r) = [MException (report ks)] /\ calls (fst r) = [] /\ similar_for (fst r) = map last_name ks.
Proof. exact @command_unknown. Qed.
Print Assumptions C57_unknown_fields.

(** [stateful_command]: the same for mistakes that surface while the function runs; what
    the function returns, and how it exits, is passed on *)
Theorem C57_stateful : forall A construct cfg_cls state_cls key (f : manager_args -> outcome A) args,
  go_ahead construct args -> describable cfg_cls ->
  let r := stateful_command construct cfg_cls state_cls key f args in
  exists x, calls (fst r) = [x] /\
    match f x with
    | Raised e => config_error e -> snd r = Exited 1 /\ errors (fst r) = [MException e]
    | o => snd r = o /\ errors (fst r) = []
    end.
Proof.
  intros A construct cfg_cls state_cls key f args H D. cbn zeta. exists (the_args cfg_cls state_cls key args).
  split; [now apply stateful_calls|]. exact (stateful_end construct cfg_cls state_cls key f args H D).
Qed.
Print Assumptions C57_stateful.

(** every other exception is passed on *)
Theorem C57_others_raised : forall A E read cls (f : pyval -> outcome A) args e,
  plain_run args -> loaded_config E read cls args = Err e -> ~ config_error e -> command E read cls f args = ([], Raised e).
Proof. intros. now apply command_err. Qed.
Print Assumptions C57_others_raised.

Definition no_files (p : string) : res (pyval * string) := Err FileNotFoundError.
Definition line_of (l : list string) : cli := mkCli None None false l None None.
Definition steps (v : pyval) : outcome pyval := Returned v.

Example C52_case :
  plain_run (line_of job_ovs) /\ describable tJob /\
  (exists cfg, command ex_env no_files tJob steps (line_of job_ovs) = ([ERun cfg], Returned cfg) /\
     obj_at cfg ["opt"; "lr"] = Some (VInt 7)) /\
  go_ahead (fun _ => Ok tt) (mkCli (Some "config.ron") None true ["n=3"] (Some "out") None) /\
  ~ go_ahead (fun _ => Ok tt) (mkCli (Some "config.ron") None true ["n=3"] (Some "out") (Some "old")).
Proof.
  split; [|split; [|split; [|split]]].
  - split; [reflexivity|]. intros o [<-|[<-|[<-|[<-|[]]]]]; reflexivity.
  - split; [reflexivity|]. eexists. vm_compute. reflexivity.
  - eexists. split; [|vm_compute]; vm_compute; reflexivity.
  - repeat split; auto. { intros [_ H]. now apply H. } intros o [<-|[]]; reflexivity.
  - intros (_ & H & _). apply H. split; discriminate.
Qed.

Example C57_case :
  sorted tJob bad_ovs ["opt.lr=7"] ["opt.momentum"; "n.x"] /\
  snd (command ex_env no_files tJob steps (line_of bad_ovs)) = Exited 1 /\
  errors (fst (command ex_env no_files tJob steps (line_of bad_ovs))) = [MException (FieldsNotFound ["opt.momentum"; "n.x"])] /\
  similar_for (fst (command ex_env no_files tJob steps (line_of bad_ovs))) = ["momentum"; "x"].
Proof. split; [apply C11_ex|]. repeat split; vm_compute; reflexivity. Qed.

(** C57 refuted: an invalid command line can end with exit status 0 *)
Theorem C57_status_refuted : exists E cls args, describable cls /\ a_hps_info args = None /\
  (exists o, In o (a_hyperparams args) /\ has_char "=" o = false) /\
  snd (command E no_files cls steps args) = Exited 0.
Proof.
  exists ex_env, tJob, (line_of ["opt.lr"]). split; [split; [reflexivity|eexists; vm_compute; reflexivity]|].
  split; [reflexivity|]. split; [exists "opt.lr"; split; [now left|reflexivity]|]. vm_compute. reflexivity.
Qed.
Print Assumptions C57_status_refuted.

(** class Paint: color: Color = Color.RED; size: int *)
Definition tPaint : ty := TData (mkC "Paint" None) [("color", (tColor, DValue (VEnum "Color" "RED" (VStr "RED")))); ("size", (TInt, DMissing))].
Definition paint_file (p : string) : res (pyval * string) := Ok (VDict [("color", VStr "GREEN"); ("size", VInt 3)], "").

(** C57 refuted: a value that is not one of an enum's, a required value that is missing,
    and a misspelt truth value are not reported: the exception is passed on *)
Theorem C57_mistakes_refuted :
  (exists E cls args, describable cls /\ plain_run args /\
     command E paint_file cls steps args = ([], Raised ValueError)) /\
  (exists E cls args, describable cls /\ plain_run args /\
     command E no_files cls steps args = ([], Raised (MissingFields "Paint" ["size"]))) /\
  (exists E cls args, describable cls /\ plain_run args /\ (exists o, In o (a_hyperparams args) /\ bad_bool cls o) /\
     command E no_files cls steps args = ([], Raised UnboundLocalError)).
Proof.
  split; [|split].
  - exists ex_env, tPaint, (mkCli (Some "paint.ron") None false [] None None).
    split; [split; [reflexivity|eexists; vm_compute; reflexivity]|]. split; [split; [reflexivity|intros ? []]|]. vm_compute. reflexivity.
  - exists ex_env, tPaint, (line_of []).
    split; [split; [reflexivity|eexists; vm_compute; reflexivity]|]. split; [split; [reflexivity|intros ? []]|]. vm_compute. reflexivity.
  - exists ex_env, tFlags, (line_of ["b=maybe"]).
    split; [split; [reflexivity|eexists; vm_compute; reflexivity]|]. split; [split; [reflexivity|intros ? [<-|[]]; reflexivity]|].
    split; [exists "b=maybe"; split; [now left|exact maybe_bad]|]. vm_compute. reflexivity.
Qed.
Print Assumptions C57_mistakes_refuted.
