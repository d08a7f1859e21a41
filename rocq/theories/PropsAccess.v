(** PropsAccess.v -- programs that use [sm.config], [sm.state] and [sm.step()]: C64. *)
From Verif Require Import Base Value Schema Rewrite Sched Types Asdict FromDict Manager Ckpt Lazy Session Access
  SpecTypes SpecState FromDictFacts AccessFacts Examples.

(** ** C64 *)
(** Once the state was accessed (or assigned to, or [step] was called) successfully, the
    files do not matter any more: whatever happened before ([pre]), the program gets the
    same with any other files. *)
Theorem C64_read_once : forall E S last pre D op r r',
  let m := snd (perform_all E S last pre new_mgr) in let gm := perform E S D last op m in
  op <> UseConfig -> (forall e, fst gm <> GRaised e) -> map snd r = map snd r' ->
  perform_all E S last r (snd gm) = perform_all E S last r' (snd gm).
Proof. exact read_once. Qed.
Print Assumptions C64_read_once.

(** The same for the config alone. *)
Theorem C64_config_once : forall E S last D m cfg m',
  perform E S D last UseConfig m = (GConfig cfg, m') ->
  forall D', perform E S D' last UseConfig m' = (GConfig cfg, m').
Proof. exact config_once. Qed.
Print Assumptions C64_config_once.

(** If the config cannot be loaded, every access raises the same exception, and nothing is
    kept: a later access tries again. *)
Theorem C64_config_fails : forall E S D last e ops, manager_config E S D last = Err e ->
  perform_all E S last (map (pair D) ops) new_mgr = (map (fun _ => GRaised e) ops, new_mgr).
Proof. exact config_fails. Qed.
Print Assumptions C64_config_fails.

(** If only the state cannot be loaded, the config can be used and everything else raises. *)
Theorem C64_state_fails : forall E S D last c e ops,
  manager_config E S D last = Ok c -> manager_state E S D last (l_value c) = Err e ->
  fst (perform_all E S last (map (pair D) ops) new_mgr) =
  map (fun op => match op with UseConfig => GConfig (l_value c) | _ => GRaised e end) ops.
Proof. exact state_fails. Qed.
Print Assumptions C64_state_fails.

(** If a manager starts, every program gets its config and state from the first access to
    the state on; the config is the unscheduled one before (C43_config_before_state_refuted),
    and steps without a change of the state do nothing. *)
Theorem C64_started : forall E S D m k ops,
  manager_start E S D = Ok m -> named "" (SNode (m_sched m)) -> (forall D' n v, ~ In (D', Assign n v) ops) ->
  exists c, fst (perform_all E S (resume_point D) (repeat (D, UseConfig) k ++ (D, UseState) :: ops) new_mgr) =
    (repeat (GConfig c) k ++ GState (m_state m) ::
     map (fun x => match snd x with UseConfig => GConfig (m_config m) | UseState => GState (m_state m) | _ => GDone end) ops)%list.
Proof. exact started. Qed.
Print Assumptions C64_started.

(** If a schedule cannot be evaluated, only the first access to the state raises (and
    every [step]); from then on the state is there and the config is not up to date. *)
Theorem C64_schedule_error : forall E S D c s e k ops,
  manager_config E S D (resume_point D) = Ok c -> manager_state E S D (resume_point D) (l_value c) = Ok s ->
  apply_schedules E (as_value (inst_of s)) (l_sched c) (l_value c) = Err e -> named "" (SNode (l_sched c)) ->
  (forall D' n v, ~ In (D', Assign n v) ops) ->
  exists cfg, fst (perform_all E S (resume_point D) (repeat (D, UseConfig) k ++ (D, UseState) :: ops) new_mgr) =
    (repeat (GConfig (l_value c)) k ++ GRaised e ::
     map (fun x => match snd x with UseConfig => GConfig cfg | UseState => GState (inst_of s) | _ => GRaised e end) ops)%list.
Proof. exact schedule_error. Qed.
Print Assumptions C64_schedule_error.

Definition lr_class : ty := TData (mkC "Cfg" None) [("lr", (TFloat, DMissing)); ("wd", (TFloat, DMissing))].
Definition lr_sess (text : string) : settings :=
  mkSettings lr_class (TData (mkC "St" None) [("step", (TInt, DMissing))]) (fun _ => Ok (VObj "St" [("step", VInt 10)]))
    (IFile (VDict [("lr", VStr "step: 1@0 3@10"); ("wd", VStr text)]) ".") None false "step".

(** A program that goes on after the exception of the first access works with a config
    that is not up to date, without another exception: the key of the second schedule is
    misspelt. *)
Theorem C64_silent_refuted : exists E S D e o cfg,
  fst (perform_all E S None [(D, UseState); (D, UseState); (D, UseConfig)] new_mgr) = [GRaised e; GState o; GConfig cfg] /\
  field_at cfg ["wd"] = Some (VFloat (sf_of_Z 1)) /\ field_at cfg ["lr"] = Some (VFloat (sf_of_Z 3)).
Proof.
  exists ex_env, (lr_sess "stpe: 1@0 3@10"), []. do 3 eexists. split; [vm_compute; reflexivity|]. split; reflexivity.
Qed.
Print Assumptions C64_silent_refuted.

Example C64_ex :
  (exists m, manager_start ex_env (lr_sess "step: 1@0 3@10") [] = Ok m /\ named "" (SNode (m_sched m))) /\
  fst (perform_all ex_env (lr_sess "step: 1@0 3@10") None
         [([], UseConfig); ([], UseState); ([], UseConfig); ([], Assign "step" (VInt 0)); ([], Step); ([], UseConfig)] new_mgr) =
  [GConfig (VObj "Cfg" [("lr", VFloat (sf_of_Z 1)); ("wd", VFloat (sf_of_Z 1))]);
   GState (mkInst "St" [("step", VInt 10)] []);
   GConfig (VObj "Cfg" [("lr", VFloat (sf_of_Z 3)); ("wd", VFloat (sf_of_Z 3))]);
   GDone; GDone;
   GConfig (VObj "Cfg" [("lr", VFloat (sf_of_Z 1)); ("wd", VFloat (sf_of_Z 1))])] /\
  manager_config ex_env (mkSettings lr_class lr_class (fun _ => Ok VNone) IMissing None false "step") [] None = Err FileNotFoundError /\
  (exists c s, manager_config ex_env (lr_sess "stpe: 1@0 3@10") [] None = Ok c /\
     manager_state ex_env (lr_sess "stpe: 1@0 3@10") [] None (l_value c) = Ok s /\
     apply_schedules ex_env (as_value (inst_of s)) (l_sched c) (l_value c) = Err AttributeError /\ named "" (SNode (l_sched c))).
Proof.
  split.
  - eexists. split; [vm_compute; reflexivity|]. cbn [named m_sched l_sched akeys map fst all]. split; [nodup|]. split; [reflexivity|]. split; [reflexivity|exact I].
  - split; [vm_compute; reflexivity|]. split; [vm_compute; reflexivity|].
    do 2 eexists. split; [vm_compute; reflexivity|]. split; [vm_compute; reflexivity|]. split; [vm_compute; reflexivity|].
    cbn [named m_sched l_sched akeys map fst all]. split; [nodup|]. split; [reflexivity|]. split; [reflexivity|exact I].
Qed.
