(** PropsEvolve.v -- a compatible schema check, upgrade rules included, means that old files load (C58). *)
From Verif Require Import Base Value Schema Rewrite Sched Types Asdict FromDict Checker SpecTree SpecTypes SpecLoad SpecSubtype SpecCheck SpecCompat
  SpecMirror SpecEvolve FromDictFacts MirrorFacts EvolveFacts PropsCompat PropsMirror.

(** ** C58 *)
(** A file that conforms to a schema and is complete loads with the class the schema
    describes.  (Files with sections marked by default rules included.)
    Missing: Union types, enum and literal values that are not None, bool, int or str. *)
Theorem C58_conforming_partial : forall E s x dir allow,
  order_ok E -> ordinary_schema E s -> fits true s x -> filev x = true -> is_weak x = false -> floatable x ->
  exists L, typed_load E (class_of s) x dir None allow false = Ok L /\ l_sched L = [].
Proof. exact conforming_loads. Qed.
Print Assumptions C58_conforming_partial.

(** check-schema upgrades the schema in the file with the rules of the class and compares.
    If it says that the schemas are compatible, then every complete file of the old schema
    loads with the new class, whose rules upgrade it.
    [in_step] asks of the rules what C25 asks (they keep files and schema in step), and
    [apply_upgrades] to run without error.  Missing for the full claim: what is missing
    from C25 and C28. *)
Theorem C58_check_schema_partial : forall E n fs v cur rules c' gs file rep d dir allow s' y,
  order_ok E -> c_versioned c' = Some (cur, rules) ->
  load_schema file = Ok (SStruct n fs (Some v)) -> check_schema file (TData c' gs) = Ok rep -> rp_compatible rep = true ->
  (forall w p o n, In (w, TypeChanged p o n) (rp_lines rep) -> sflat o) ->
  apply_schema_upgrades cur rules (SStruct n fs (Some v)) = Ok s' ->
  ordinary_schema E s' -> ordinary E c' gs -> lost_values_gone (class_of s') (TData c' gs) ->
  filev (VDict d) = true -> aget "version" d = Some (VInt v) -> amem WEAK_REF d = false ->
  fits true (SStruct n fs (Some v)) (VDict (adel "version" d)) ->
  in_step true (SStruct n fs (Some v)) (VDict (adel "version" d)) (flat_map (rules_at rules) (zrange v cur)) ->
  apply_upgrades cur rules (VDict (adel "version" d)) (VInt v) = Ok y -> floatable y ->
  exists L, typed_load E (TData c' gs) (VDict d) dir None allow false = Ok L /\ l_sched L = [].
Proof. exact check_upgrades. Qed.
Print Assumptions C58_check_schema_partial.

(** A field is renamed, the default of a field in a section that the file leaves out
    changes (so that the upgraded file has a marked section), a field is added and a type
    is widened. *)
Definition ev_old : ty :=
  TData (mkC "Config" (Some (0%Z, [])))
    [("steps", (TInt, DMissing)); ("lr", (TInt, DMissing));
     ("opt", (TData (mkC "Opt" None) [("eps", (TInt, DValue (VInt 1))); ("decay", (TInt, DValue (VInt 0)))], DMissing))].
Definition ev_rules : list rule := [RenameField ["steps"] ["train_steps"]; ChangeDefault ["opt"; "eps"] (VInt 1) (VInt 2)].
Definition ev_c : cinfo := mkC "Config" (Some (1%Z, [(0%Z, ev_rules)])).
Definition ev_new : list (string * (ty * dflt)) :=
  [("train_steps", (TInt, DMissing)); ("lr", (TFloat, DMissing));
   ("opt", (TData (mkC "Opt" None) [("eps", (TInt, DValue (VInt 2))); ("decay", (TInt, DValue (VInt 0))); ("beta", (TInt, DValue (VInt 9)))], DMissing))].
Definition ev_file : list (string * pyval) := [("version", VInt 0); ("steps", VInt 3); ("lr", VInt 4)].

Example C58_case :
  exists file fs rep s' y,
    dump_schema ev_old = Ok file /\ load_schema file = Ok (SStruct "Config" fs (Some 0%Z)) /\
    check_schema file (TData ev_c ev_new) = Ok rep /\ rp_compatible rep = true /\
    (forall w p o n, In (w, TypeChanged p o n) (rp_lines rep) -> sflat o) /\
    apply_schema_upgrades 1 [(0%Z, ev_rules)] (SStruct "Config" fs (Some 0%Z)) = Ok s' /\
    ordinary_schema compat_env s' /\ ordinary compat_env ev_c ev_new /\ lost_values_gone (class_of s') (TData ev_c ev_new) /\
    filev (VDict ev_file) = true /\
    fits true (SStruct "Config" fs (Some 0%Z)) (VDict (adel "version" ev_file)) /\
    in_step true (SStruct "Config" fs (Some 0%Z)) (VDict (adel "version" ev_file)) (flat_map (rules_at [(0%Z, ev_rules)]) (zrange 0 1)) /\
    apply_upgrades 1 [(0%Z, ev_rules)] (VDict (adel "version" ev_file)) (VInt 0) = Ok y /\ floatable y /\
    y = VDict [("lr", VInt 4); ("train_steps", VInt 3); ("opt", VDict [(WEAK_REF, VBool true); ("eps", VInt 1)])].
Proof.
  do 5 eexists. split; [vm_compute; reflexivity|]. split; [vm_compute; reflexivity|]. split; [vm_compute; reflexivity|]. split; [reflexivity|].
  split.
  { cbn. intros w p o n H. repeat (destruct H as [H|H]; [try discriminate H; injection H as <- <- <- <-; exact I|]). destruct H. }
  split; [vm_compute; reflexivity|]. split; [split; [cbn; tauto|cbn [class_of]; unfold ordinary; compat_side]|].
  split.
  { unfold ordinary. split; [|compat_side]. cbn [loadable]. split; [compat_side|]. split; [compat_side|]. split; [|compat_side].
    intros ver rules i rs Q I. injection Q as <- <-. destruct I as [I|[]]. injection I as <- <-. repeat constructor. }
  split.
  { intros p ms m. cbn [class_of enum_at map]. destruct p as [|k [|k' [|]]]; cbn; try discriminate;
      repeat (match goal with |- context [String.eqb ?a ?b] => destruct (String.eqb_spec a b) as [->|] end; cbn; try discriminate). }
  split; [reflexivity|]. split; [cbn [ev_file adel String.eqb Ascii.eqb Bool.eqb]; fits|]. split.
  { match goal with |- in_step _ ?s ?x _ => change (in_step true s (VDict [("steps", VInt 3); ("lr", VInt 4)]) ev_rules) end. unfold ev_rules.
    cbn [in_step]. split; [|split].
    { cbn [keeps_types]. split; [through|]. split; [through|]. split; [repeat split|]. right. reflexivity. }
    { intros _. cbn [keeps_complete]. split; [exact I|]. left. intros q (r & R & E). destruct q as [|a q]; simpl in E; [eexists; split; reflexivity|].
      injection E as <- E. destruct q; simpl in E; [now subst|discriminate]. }
    intros ? ? A X; vm_compute in A, X; injection A as <-; injection X as <-; cbn [in_step]. split; [|split; [|intros; exact I]].
    { cbn [keeps_types]. split; [through|]. intros t g H. injection H as <- <-. constructor. }
    { intros _. cbn [keeps_complete]. split; [|intros t f H; now injection H as <- <-]. intros H. now destruct H. } }
  split; [vm_compute; reflexivity|]. split; [cbn; repeat split; eexists; vm_compute; reflexivity|reflexivity].
Qed.
