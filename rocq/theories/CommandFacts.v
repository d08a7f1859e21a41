(** CommandFacts.v -- facts about commands (C52, C57). *)
From Verif Require Import Base Value AFacts Schema Rewrite Sched Types Asdict FromDict Checker HelpM Command SpecCommand
  SpecTypes SpecLoad SpecOverride OverrideFacts UpgradeFacts.

Lemma contains_char c o : str_contains (String c "") o = has_char c o.
Proof.
  induction o as [|a o IH]; [reflexivity|]. cbn [str_contains has_char]. rewrite IH. f_equal. cbn [prefix].
  rewrite Ascii.eqb_sym. destruct (ascii_dec c a) as [->|N].
  - rewrite Ascii.eqb_refl. now destruct o.
  - symmetry. now apply Ascii.eqb_neq.
Qed.

Lemma calls_app {X} (a b : list (event X)) : calls (a ++ b) = (calls a ++ calls b)%list.
Proof. induction a as [|[] a IH]; simpl; auto. now rewrite IH. Qed.
Lemma errors_app {X} (a b : list (event X)) : errors (a ++ b) = (errors a ++ errors b)%list.
Proof. induction a as [|[] a IH]; simpl; auto. now rewrite IH. Qed.
Lemma similar_app {X} (a b : list (event X)) : similar_for (a ++ b) = (similar_for a ++ similar_for b)%list.
Proof. induction a as [|[] a IH]; simpl; auto. now rewrite IH. Qed.

Lemma materialized_struct t s : is_dataclass_ty t = true -> materialize_type t = Ok s -> is_struct s = true.
Proof.
  destruct t; try discriminate. cbn [materialize_type]. intros _ H. apply rbind_ok in H. destruct H as (x & _ & H). now injection H as <-.
Qed.

Lemma help_ok t q : describable t -> exists l, help t q = Ok l.
Proof. intros [D [s M]]. unfold help. rewrite M. cbn [rbind]. rewrite (materialized_struct _ _ D M). eauto. Qed.

Lemma show_ok {X} t q : describable t -> exists l, @show_help X t q = ([EHelp l], Returned tt) /\ help t q = Ok l.
Proof. intros D. destruct (help_ok t q D) as [l E]. exists l. unfold show_help. rewrite E. auto. Qed.

(** nothing is ever run while checking overrides or reporting *)
Lemma show_calls {X} t q : calls (fst (@show_help X t q)) = [].
Proof. unfold show_help. destruct (help t q); reflexivity. Qed.

Lemma bind_calls {X A B} (m : io X A) (k : A -> io X B) : calls (fst m) = [] -> (forall a, snd m = Returned a -> calls (fst (k a)) = []) ->
  calls (fst (io_bind m k)) = [].
Proof.
  intros H K. unfold io_bind. destruct (snd m) eqn:E; cbn [fst]; auto. rewrite calls_app, H, (K a); auto.
Qed.

Lemma check_ok {X} t l : (forall o, In o l -> has_char "=" o = true) -> @check_overrides X t l = skip.
Proof.
  induction l as [|o l IH]; intros H; [reflexivity|]. cbn [check_overrides]. rewrite contains_char, (H o (or_introl eq_refl)). cbn [negb].
  apply IH. intros; apply H; now right.
Qed.

Lemma check_first {X} t l1 o l2 : (forall o', In o' l1 -> has_char "=" o' = true) -> has_char "=" o = false ->
  @check_overrides X t (l1 ++ o :: l2) = (say (EError (MInvalidOverride o)) ;; show_help t o ;; exit 0).
Proof.
  induction l1 as [|x l1 IH]; intros H N; cbn [app check_overrides]; rewrite contains_char.
  - now rewrite N.
  - rewrite (H x (or_introl eq_refl)). cbn [negb]. apply IH; auto. intros; apply H; now right.
Qed.

Lemma check_calls {X} t l : calls (fst (@check_overrides X t l)) = [] /\
  (~ (forall o, In o l -> has_char "=" o = true) -> forall a, snd (@check_overrides X t l) <> Returned a).
Proof.
  induction l as [|o l [IH1 IH2]]; [split; [reflexivity|intros H; exfalso; apply H; intros ? []]|].
  cbn [check_overrides]. rewrite contains_char. destruct (has_char "=" o) eqn:E; cbn [negb].
  - split; [exact IH1|]. intros H. apply IH2. intros N. apply H. intros o' [<-|I]; auto.
  - split.
    + apply bind_calls; [reflexivity|]. intros _ _. apply bind_calls; [apply show_calls|reflexivity].
    + intros _ a. unfold io_bind, say, show_help, exit, raise. cbn [fst snd]. unfold lift, io_bind.
      destruct (help t o); cbn; discriminate.
Qed.

Lemma handler_calls {X} t e v : calls (fst (@print_config_exception X t e v)) = [].
Proof.
  assert (T : calls (fst (if v then say ETraceback else @skip X)) = []) by (destruct v; reflexivity).
  destruct e; cbn [print_config_exception]; auto;
    repeat (apply bind_calls; [first [reflexivity|exact T|apply show_calls]|intros ? ?]); try reflexivity.
  apply bind_calls; [|reflexivity]. clear H. induction keys as [|k ks IH]; [reflexivity|]. cbn [fold_right].
  apply bind_calls; [reflexivity|]. intros _ _. apply bind_calls; [apply show_calls|intros; exact IH].
Qed.

(** the handler *)
Lemma handler_other {X} t e v : ~ config_error e -> @print_config_exception X t e v = skip.
Proof. intros N. destruct e; try reflexivity; exfalso; apply N; constructor. Qed.

Lemma handler_report {X} t e v : describable t -> config_error e ->
  exists l, @print_config_exception X t e v = (l, Exited 1) /\ errors l = [MException e] /\ calls l = [] /\
    similar_for l = match e with FieldNotFound k => [last_name k] | FieldsNotFound ks => map last_name ks | _ => [] end.
Proof.
  intros D C. destruct C as [k|ks|c f| |]; cbn [print_config_exception].
  - destruct (@show_ok X t (field_name k) D) as (l & Sh & _). rewrite Sh.
    destruct v; cbn; eexists; (split; [reflexivity|]); auto.
  - assert (L : exists l, fold_right (fun k m => say (ESimilar (field_name k)) ;; @show_help X t (field_name k) ;; m) skip ks = (l, Returned tt) /\
        errors l = [] /\ calls l = [] /\ similar_for l = map last_name ks).
    { induction ks as [|k ks (l & E & E1 & E2 & E3)]; [exists []; auto|]. cbn [fold_right]. rewrite E.
      destruct (@show_ok X t (field_name k) D) as (h & Sh & _). rewrite Sh. cbn. eexists. split; [reflexivity|]. cbn. rewrite E3. auto. }
    destruct L as (l & E & E1 & E2 & E3). rewrite E. unfold io_bind, say, exit. cbn [fst snd]. eexists. split; [reflexivity|].
    rewrite app_nil_r. cbn. rewrite E1, E2, E3. auto.
  - destruct v; cbn; eexists; (split; [reflexivity|]); auto.
  - destruct v; cbn; eexists; (split; [reflexivity|]); auto.
  - destruct v; cbn; eexists; (split; [reflexivity|]); auto.
Qed.

Lemma skip_bind {X A} (m : io X A) : (@skip X ;; m) = m.
Proof. destruct m. reflexivity. Qed.

(** ** [stateful_command] *)
Section Stateful.
  Context {A : Type}.
  Variables (construct : option string -> res unit) (cfg_cls state_cls : ty) (key : string) (f : manager_args -> outcome A) (args : cli).

  Definition the_args : manager_args :=
    mkMA cfg_cls state_cls (py_or (a_config args) (a_resume_from args)) (a_checkpoint_dir args) (a_hyperparams args) key.

  Lemma reporting_calls {X B} (x : X) (g : X -> outcome B) h : (forall e, calls (fst (h e)) = []) ->
    calls (fst (reporting (call g x) h)) = [x].
  Proof.
    intros H. unfold reporting, call. cbn [fst snd]. destruct (g x); try reflexivity.
    unfold io_bind. cbn [fst snd]. rewrite calls_app. cbn [calls].
    change (x :: calls (fst (io_bind (h e) (fun _ => @raise X B e))) = [x]). f_equal. apply bind_calls; [apply H|reflexivity].
  Qed.

  Lemma stateful_run : go_ahead construct args -> stateful_command construct cfg_cls state_cls key f args =
    reporting (call f the_args) (fun e => print_config_exception cfg_cls e (a_verbose args)).
  Proof.
    intros (H1 & H2 & H3 & H4). unfold stateful_command. rewrite H1.
    assert (E : (check_overrides cfg_cls (a_hyperparams args) ;; lift (construct (a_checkpoint_dir args)) ;;
       reporting (call f the_args) (fun e => print_config_exception cfg_cls e (a_verbose args))) =
      reporting (call f the_args) (fun e => print_config_exception cfg_cls e (a_verbose args))).
    { rewrite (check_ok _ _ H3), skip_bind, H4. cbn [lift]. apply skip_bind. }
    unfold the_args in *. destruct (a_config args); [destruct (a_resume_from args)|]; auto. exfalso. apply H2. split; discriminate.
  Qed.

  Lemma stateful_calls : go_ahead construct args -> calls (fst (stateful_command construct cfg_cls state_cls key f args)) = [the_args].
  Proof. intros H. rewrite (stateful_run H). apply reporting_calls. intros. apply handler_calls. Qed.

  Lemma stateful_no_calls : ~ go_ahead construct args -> calls (fst (stateful_command construct cfg_cls state_cls key f args)) = [].
  Proof.
    intros N. unfold stateful_command. destruct (a_hps_info args) as [q|] eqn:H1.
    { apply bind_calls; [apply show_calls|reflexivity]. }
    assert (G : forall m, ~ (a_config args <> None /\ a_resume_from args <> None) ->
      calls (fst (check_overrides cfg_cls (a_hyperparams args) ;; lift (construct (a_checkpoint_dir args)) ;; m : io manager_args A)) = []).
    { intros m H2. apply bind_calls; [apply check_calls|]. intros u Hu. apply bind_calls; [destruct (construct _); reflexivity|].
      intros [] Hc. exfalso. apply N. repeat split; auto.
      - destruct (forallb (has_char "=") (a_hyperparams args)) eqn:Fb; [apply forallb_forall; exact Fb|].
        exfalso. eapply check_calls; [|exact Hu]. intros Q. apply forallb_forall in Q. congruence.
      - destruct (construct (a_checkpoint_dir args)) as [[]|]; [reflexivity|discriminate]. }
    destruct (a_config args) eqn:H2; [destruct (a_resume_from args) eqn:H3|]; [reflexivity| |]; apply G; intros [? ?]; congruence.
  Qed.

  Lemma stateful_end : go_ahead construct args -> describable cfg_cls ->
    let r := stateful_command construct cfg_cls state_cls key f args in
    match f the_args with
    | Raised e => config_error e -> snd r = Exited 1 /\ errors (fst r) = [MException e]
    | o => snd r = o /\ errors (fst r) = []
    end.
  Proof.
    intros H D. cbn zeta. rewrite (stateful_run H). unfold reporting, call. cbn [fst snd]. destruct (f the_args) as [a|e|c] eqn:F; [cbn; auto| |cbn; auto].
    intros C. destruct (@handler_report manager_args cfg_cls e (a_verbose args) D C) as (l & E & E1 & _). rewrite E. cbn. rewrite E1. auto.
  Qed.

  Lemma stateful_raise e : go_ahead construct args -> f the_args = Raised e -> ~ config_error e ->
    snd (stateful_command construct cfg_cls state_cls key f args) = Raised e.
  Proof. intros H F N. rewrite (stateful_run H). unfold reporting, call. cbn [fst snd]. rewrite F, (handler_other _ _ _ N). reflexivity. Qed.
End Stateful.

(** ** [command] *)
Section Command.
  Context {A : Type}.
  Variables (E : env) (read : string -> res (pyval * string)) (cls : ty) (f : pyval -> outcome A) (args : cli).


  Lemma command_run : plain_run args -> command E read cls f args =
    io_bind (reporting (lift (loaded_config E read cls args)) (fun e => print_config_exception cls e (a_verbose args))) (call f).
  Proof. intros [H1 H2]. unfold command. rewrite H1, (check_ok _ _ H2), skip_bind. reflexivity. Qed.

  Lemma command_ok cfg : plain_run args -> loaded_config E read cls args = Ok cfg -> command E read cls f args = ([ERun cfg], f cfg).
  Proof. intros H L. rewrite (command_run H), L. reflexivity. Qed.

  Lemma command_err e : plain_run args -> loaded_config E read cls args = Err e -> ~ config_error e -> command E read cls f args = ([], Raised e).
  Proof. intros H L N. rewrite (command_run H), L. unfold reporting. cbn [lift raise snd]. rewrite (handler_other _ _ _ N). reflexivity. Qed.

  Lemma command_report e : plain_run args -> loaded_config E read cls args = Err e -> config_error e -> describable cls ->
    let r := command E read cls f args in
    snd r = Exited 1 /\ errors (fst r) = [MException e] /\ calls (fst r) = [] /\
    similar_for (fst r) = match e with FieldNotFound k => [last_name k] | FieldsNotFound ks => map last_name ks | _ => [] end.
  Proof.
    intros H L C D. cbn zeta. rewrite (command_run H), L. destruct (@handler_report pyval cls e (a_verbose args) D C) as (l & Eq & E1 & E2 & E3).
    unfold reporting. cbn [lift raise snd fst]. rewrite Eq. cbn. rewrite E1, E2, E3. auto.
  Qed.

  Lemma command_no_calls : ~ plain_run args -> calls (fst (command E read cls f args)) = [].
  Proof.
    intros N. unfold command. destruct (a_hps_info args) as [q|] eqn:H1.
    { apply bind_calls; [apply show_calls|reflexivity]. }
    apply bind_calls; [apply check_calls|]. intros u Hu. exfalso. apply (proj2 (@check_calls pyval cls (a_hyperparams args))) in Hu; auto.
    intros Q. apply N. split; auto.
  Qed.
End Command.

Lemma hps_info {X A} t q (rest : io X A) : describable t -> exists l, help t q = Ok l /\ (@show_help X t q ;; exit 0) = ([EHelp l], @Exited A 0).
Proof. intros D. destruct (@show_ok X t q D) as (l & Sh & H). exists l. rewrite Sh. auto. Qed.

Lemma bad_override {X A} t l1 o l2 (rest : io X A) : describable t -> (forall o', In o' l1 -> has_char "=" o' = true) -> has_char "=" o = false ->
  exists l, help t o = Ok l /\ (check_overrides t (l1 ++ o :: l2) ;; rest) = ([EError (MInvalidOverride o); EHelp l], Exited 0).
Proof.
  intros D H N. rewrite (check_first _ _ _ _ H N). destruct (@show_ok X t o D) as (l & Sh & Hl). rewrite Sh. exists l. auto.
Qed.

(** unknown fields *)
Lemma report_config_error ks : config_error (report ks).
Proof. unfold report. destruct ks as [|k [|]]; constructor. Qed.

Lemma command_unknown {A} E read cls (f : pyval -> outcome A) args kept ks x' :
  plain_run args -> a_config args = None -> describable cls -> (forall o, In o kept -> ~ bad_bool cls o) ->
  sorted cls (a_hyperparams args) kept ks -> ks <> [] -> written E cls kept (VDict []) x' ->
  let r := command E read cls f args in
  snd r = Exited 1 /\ errors (fst r) = [MException (report ks)] /\ calls (fst r) = [] /\ similar_for (fst r) = map last_name ks.
Proof.
  intros H Cf D B S K W. cbn zeta.
  assert (L : loaded_config E read cls args = Err (report ks)).
  { unfold loaded_config, hs_load. rewrite Cf. destruct D as [D M]. rewrite (unknown_error E cls [] None (a_hyperparams args) kept ks x' _ _ D M B S K W). reflexivity. }
  destruct (command_report E read cls f args _ H L (report_config_error ks) D) as (R1 & R2 & R3 & R4). repeat split; auto.
  rewrite R4. destruct ks as [|k [|k' ks]]; reflexivity.
Qed.

Lemma the_args_made cfg_cls state_cls key args : made_from cfg_cls state_cls key args (the_args cfg_cls state_cls key args).
Proof.
  unfold made_from, the_args. cbn. repeat split; auto.
  - intros s [-> N]. destruct s; [congruence|reflexivity].
  - intros N. unfold py_or. destruct (a_config args) as [[|c s]|]; auto. exfalso. apply (N (String c s)). split; [reflexivity|discriminate].
Qed.
