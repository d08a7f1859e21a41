(** PropsRun.v -- the state of a running program while checkpoints come and go (C72). *)
From Verif Require Import Base Value Schema Rewrite Sched Types Asdict FromDict Manager Ckpt Lazy Session Run
  SpecTypes SpecState FromDictFacts SpecCkpt SpecLazy SpecLoad SpecOverride SpecAgain SpecSession SpecRun RunFacts Examples PropsState PropsLazy PropsSession.

(** ** C72 *)
(** A program reads and assigns attributes of the state, saves checkpoints and calls [step],
    which removes the checkpoint the state was loaded from; also after exceptions.  If it is
    careful, it sees an ordinary object: each attribute has the value assigned last, or the
    one the checkpoint says, whether it was read before the checkpoint was removed or not.
    Missing for the full claim: [step] without a new value of the key
    ([C72_same_key_refuted]), and assigning fields that are not loaded (C46_assign_refuted);
    user code that fails, or looks at the rest of the state ([pending]). *)
Theorem C72_plain_partial : forall E deser pickle_allowed S names w acts w' attrs,
  stands_for deser pickle_allowed (disk_of S (w_dir w)) names (m_state (w_live w)) attrs ->
  runs E deser pickle_allowed S names (careful S) w acts w' -> as_plain acts attrs.
Proof. intros E deser pickle_allowed S names w acts w' attrs H R. now apply (runs_plain E deser pickle_allowed S names w acts w' R attrs). Qed.
Print Assumptions C72_plain_partial.

(** In particular, a manager that resumed from a checkpoint of config [cfg], schedules [l] and
    state [n d]: the program sees the attributes [d]. *)
Theorem C72_resumed_partial : forall E S cfg l n d deser pickle_allowed,
  resumable E S cfg l n d -> reads_back deser d -> apply_schedules E (VObj n d) l cfg = Ok cfg ->
  exists F, checkpoint_files (e_class E) cfg l (VObj n d) = Ok F /\
  forall D p, dir_ok D -> names_ok D -> resume_point D = Some p -> complete D p F ->
  exists m, manager_start E S D = Ok m /\
    forall acts w, runs E deser pickle_allowed S (map fst d) (careful S) (mkW m D (Some p)) acts w -> as_plain acts d.
Proof. exact resumed_plain. Qed.
Print Assumptions C72_resumed_partial.

(** After a call of [step] that wrote a checkpoint, no field of the state needs a file again,
    whatever happens to the disk. *)
Theorem C72_detached : forall E deser pickle_allowed S names w t w',
  (forall x k, aget (s_key S) (i_attrs (m_state (w_live w))) = Some x -> as_int x = Some k -> exists_in (w_dir w) (ckpt_name (s_key S) k) = false) ->
  NoDup (map fst (i_unloaded (m_state (w_live w)))) ->
  does E deser pickle_allowed S names w StepNow (AStep (Done t)) w' ->
  forall n disk, In n names -> exists v, lazy_get deser pickle_allowed disk (m_state (w_live w')) n = (Ok v, m_state (w_live w'), []).
Proof. exact step_detached. Qed.
Print Assumptions C72_detached.

(** ** example: resume at step 10, train one step without looking at the network, [step], and
    look at it then *)
Definition run_start : world :=
  Eval vm_compute in match manager_start sess_env (sess IMissing) ex_ckpts with
                     | Ok m => mkW m ex_ckpts (Some "latest-step000000000010")
                     | Err _ => mkW (mkLive VNone [] (mkInst "" [] [])) [] None
                     end.
Definition run_names : list string := ["step"; "net"; "buf"].
Definition run_net : pyval := VBlob "Network" (VDict [("w", VInt 5)]).
Definition run_acts : list (doing * answer) :=
  [(Read "step", AValue (Ok (VInt 10))); (Write "step" (VInt 11), ADone); (StepNow, AStep (Done "latest-step000000000011"));
   (Read "net", AValue (Ok run_net)); (Read "loss", AValue (Err AttributeError)); (Read "step", AValue (Ok (VInt 11)))].

Example C72_case : exists w,
  manager_start sess_env (sess IMissing) ex_ckpts = Ok (w_live run_start) /\
  stands_for ex_deser false (disk_of (sess IMissing) (w_dir run_start)) run_names (m_state (w_live run_start)) ex_attrs10 /\
  runs sess_env ex_deser false (sess IMissing) run_names (careful (sess IMissing)) run_start run_acts w /\
  map fst (w_dir w) = ["notes.txt"; "latest-step000000000011"].
Proof.
  eexists. split; [vm_compute; reflexivity|]. split.
  { split; [cbn; repeat constructor; intros []|]. split; [cbn; intros n [<-|[]]; auto|]. intros n. cbn [run_start w_live w_dir m_state i_unloaded i_attrs aget ex_attrs10].
    destruct (String.eqb_spec n "net") as [->|Hn].
    - exists run_net. split; [reflexivity|]. split; [discriminate|]. eexists. split; [vm_compute; reflexivity|]. intros o. reflexivity.
    - reflexivity. }
  split.
  - eapply run_more; [exact I|eapply do_read; vm_compute; reflexivity|].
    eapply run_more; [vm_compute; reflexivity|apply do_write|].
    eapply run_more.
    { right. intros x k. vm_compute. intros Q Q'. injection Q as <-. injection Q' as <-. reflexivity. }
    { eapply (do_step _ _ _ _ _ _ false); [vm_compute; reflexivity| |vm_compute; apply dump_all; vm_compute; reflexivity].
      vm_compute. refine (step_done false "step" _ _ 11 _ _ [Takeout "latest-step000000000010"] _ _).
      - eapply w_new; [reflexivity|reflexivity|]. now apply in_same.
      - eapply d_move; [reflexivity|]. now apply out_same. }
    eapply run_more; [exact I|eapply do_read; vm_compute; reflexivity|].
    eapply run_more; [exact I|eapply do_read; vm_compute; reflexivity|].
    eapply run_more; [exact I|eapply do_read; vm_compute; reflexivity|]. apply run_none.
  - vm_compute. reflexivity.
Qed.

(** Calling [step] right after resuming, before the key has changed, loses whatever was not
    read: the checkpoint is removed, no other is written, and the network is gone. *)
Theorem C72_same_key_refuted : exists E deser S names w attrs acts w',
  manager_start E S (w_dir w) = Ok (w_live w) /\ w_last w = resume_point (w_dir w) /\
  stands_for deser false (disk_of S (w_dir w)) names (m_state (w_live w)) attrs /\
  runs E deser false S names (fun _ _ => True) w acts w' /\
  (exists t, In (StepNow, AStep (Done t)) acts) /\ In (Read "net", AValue (Err FileNotFoundError)) acts /\ aget "net" attrs <> None /\
  resume_point (w_dir w') = None.
Proof.
  exists sess_env, ex_deser, (sess IMissing), run_names, run_start, ex_attrs10,
    [(StepNow, AStep (Done "latest-step000000000010")); (Read "net", AValue (Err FileNotFoundError))]. eexists.
  destruct C72_case as (_ & H1 & H2 & _). split; [exact H1|]. split; [reflexivity|]. split; [exact H2|]. split.
  - eapply run_more; [exact I| |].
    { eapply (do_step _ _ _ _ _ _ false); [vm_compute; reflexivity| |vm_compute; reflexivity].
      vm_compute. refine (step_done false "step" _ _ 10 _ [] [Takeout "latest-step000000000010"] _ _).
      - now apply w_exists.
      - eapply d_move; [reflexivity|]. now apply out_same. }
    eapply run_more; [exact I|eapply do_read; vm_compute; reflexivity|]. apply run_none.
  - split; [eexists; now left|]. split; [right; now left|]. split; [discriminate|]. vm_compute. reflexivity.
Qed.
Print Assumptions C72_same_key_refuted.
