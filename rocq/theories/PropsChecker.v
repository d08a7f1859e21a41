(** PropsChecker.v -- the schema checker and schema files: C26, C27, C33, C34. *)
From Verif Require Import Base Value Schema Rewrite Types Sched Asdict FromDict Checker
  SpecTypes SpecRenames SpecCheck RenameFacts FindFacts CheckFacts.

(** ** C27 *)
(** The severity of a checker is the worst severity of its changes, INFO if there is none. *)
Theorem C27_worst : forall k, worst (map change_severity (ck_changes k)) (checker_severity k).
Proof. exact severity_worst. Qed.
Print Assumptions C27_worst.

(** It is INFO exactly if every change is. *)
Theorem C27_info_iff : forall k,
  checker_severity k = INFO <-> forall c, In c (ck_changes k) -> change_severity c = INFO.
Proof.
  intros k. pose proof (severity_worst k) as W. split.
  - intros E. rewrite E in W. intros c C. apply (proj1 (worst_info _) W). now apply in_map.
  - intros H. destruct (checker_severity k) eqn:E; [reflexivity| |];
      assert (W' : worst (map change_severity (ck_changes k)) INFO)
        by (apply worst_info; intros x X; apply in_map_iff in X; destruct X as (c & <- & C); auto);
      pose proof (worst_fold _ INFO _ W) as A; pose proof (worst_fold _ INFO _ W') as B; rewrite A in B; discriminate.
Qed.
Print Assumptions C27_info_iff.

(** WARN means that there is a fix, ERROR that there is none. *)
Theorem C27_fixes : forall c,
  (change_severity c = ERROR -> proposed_fix c = None) /\
  (change_severity c = WARN -> exists r, proposed_fix c = Some r).
Proof. exact severity_fix. Qed.
Print Assumptions C27_fixes.

(** upgrade-schema rewrites the file exactly when the severity is INFO; otherwise it
    reports and leaves the file alone. *)
Theorem C27_upgrade_schema : forall file clz s k,
  load_schema file = Ok s -> schema_checker s clz true = Ok k ->
  (checker_severity k = INFO -> exists f, dump_schema clz = Ok f /\ upgrade_schema file clz = Ok (Rewritten f)) /\
  (checker_severity k <> INFO -> upgrade_schema file clz = Ok (Reported (print_report k))).
Proof. exact upgrade_schema_rewrites. Qed.
Print Assumptions C27_upgrade_schema.

Definition ex_net : ty := TData (mkC "Net" None) [("size", (TInt, DValue (VInt 3))); ("act", (TEnum "Act" [("RELU", VStr "relu"); ("GELU", VStr "gelu")], DValue (VEnum "Act" "GELU" (VStr "gelu"))))].
Definition ex_cls (net : ty) (d : dflt) : ty :=
  TData (mkC "Config" (Some (2%Z, [(0%Z, []); (1%Z, [])])))
    [("lr", (TFloat, DMissing)); ("steps", (TList TInt, DFactory (VList [VInt 1; VInt 2])));
     ("mode", (TOpt (TLit [VStr "a"; VStr "b"]), DValue VNone)); ("net", (net, d))].

(** a field with default added (INFO), one removed (WARN) and one without default added (ERROR) *)
Example C27_case :
  let old := TData (mkC "Config" (Some (0%Z, []))) [("alpha", (TInt, DMissing)); ("zzz", (TStr, DValue (VStr "")))] in
  let new := TData (mkC "Config" (Some (0%Z, []))) [("alpha", (TInt, DMissing)); ("b", (TBool, DValue (VBool true))); ("qwertyu", (TFloat, DMissing))] in
  exists s f k, materialize_type old = Ok s /\ dump_schema old = Ok f /\ load_schema f = Ok s /\
    schema_checker s new true = Ok k /\ map change_severity (ck_changes k) = [INFO; ERROR; WARN] /\
    checker_severity k = ERROR /\ upgrade_schema f new = Ok (Reported (print_report k)).
Proof. cbv zeta. do 3 eexists. repeat (split; [vm_compute; reflexivity|]). vm_compute. reflexivity. Qed.

(** ** C33 *)
(** Detection of renamed fields always terminates without an error on the changes
    between two schemas, and computes a matching between removed and added fields; so
    does detection of renamed enum variants afterwards. *)
Theorem C33_matching : forall old new cs,
  distinct_names old -> distinct_names new -> find_changes old new [] = Ok cs ->
  exists c2 c3 k, compare_schemas old new = Ok k /\ ck_changes k = c3 /\
    matching is_FieldAdded is_FieldRemoved field_similarity field_renamed cs c2 /\
    matching is_VariantAdded is_VariantRemoved enum_similarity enum_renamed c2 c3.
Proof.
  intros old new cs Do Dn F. destruct (compare_ok old new cs Do Dn F) as (c2 & c3 & E & M2 & M3).
  exists c2, c3. eexists. split; [exact E|]. split; [reflexivity|]. auto.
Qed.
Print Assumptions C33_matching.

(** The same for any list of changes that are about different fields or variants. *)
Theorem C33_any_changes : forall cs, NoDup (map change_key cs) ->
  exists c2 c3, find_field_renames cs = Ok c2 /\ find_enum_variant_renames c2 = Ok c3 /\
    matching is_FieldAdded is_FieldRemoved field_similarity field_renamed cs c2 /\
    matching is_VariantAdded is_VariantRemoved enum_similarity enum_renamed c2 c3.
Proof.
  intros cs N. destruct (field_renames_ok cs) as (c2 & E2 & M2 & Fl); [now apply nodup_filter_keys|].
  destruct (enum_renames_ok c2) as (c3 & E3 & M3); [rewrite Fl; now apply nodup_filter_keys|]. eauto 8.
Qed.
Print Assumptions C33_any_changes.

(** The schema of a class has distinct names. *)
Theorem C33_schemas_of_classes : forall t s, materialize_type t = Ok s -> names_differ t -> distinct_names s.
Proof. exact materialize_distinct. Qed.
Print Assumptions C33_schemas_of_classes.

(** two removed fields, three added: "learning_rate" becomes "lr", "batchsize" becomes "batch_size" *)
Example C33_case :
  let int := SPrim "int" in let m n := mkF n VNone false None in
  let old := SStruct "C" [("learning_rate", (SPrim "float", m "learning_rate")); ("batchsize", (int, m "batchsize")); ("kept", (int, m "kept"))] (Some 0%Z) in
  let new := SStruct "C" [("kept", (int, m "kept")); ("batch_size", (int, m "batch_size")); ("lr", (SPrim "float", m "lr")); ("xyzzy", (int, m "xyzzy"))] (Some 0%Z) in
  exists k, distinct_names old /\ distinct_names new /\ compare_schemas old new = Ok k /\
    ck_changes k = [FieldAdded ["xyzzy"] int VNone false; FieldRenamed ["learning_rate"] ["lr"]; FieldRenamed ["batchsize"] ["batch_size"]].
Proof.
  cbv zeta. eexists. split; [|split]; [cbn; intuition (repeat constructor; cbn; intuition discriminate)..|].
  split; vm_compute; reflexivity.
Qed.

(** ** C34 *)
(** For classes built from int, float, str, bool, List, Optional, enums, literals and
    dataclasses whose recorded values (defaults, enum and literal values) are made of
    None, numbers, strings, lists and dicts, the schema file reads back as the schema of the class.
    Missing: other annotations and other recorded values (false, below). *)
Theorem C34_round_trip_partial : forall c fs, file_type (TData c fs) -> values_in simple (TData c fs) ->
  exists s file, materialize_type (TData c fs) = Ok s /\ dump_schema (TData c fs) = Ok file /\ load_schema file = Ok s.
Proof.
  intros c fs F V. destruct (file_type_configurable _ F) as [s M]. destruct (dump_loads c fs s M) as (D & L & _).
  exists s, (schema_ron s). split; [exact M|]. split; [exact D|]. rewrite (L F). f_equal. now apply (materialize_reread _ _ M F V).
Qed.
Print Assumptions C34_round_trip_partial.

(** The file of a class is readable at all exactly if the class has no Tuple, Dict or
    Union annotation. *)
Theorem C34_readable_iff : forall c fs s, materialize_type (TData c fs) = Ok s ->
  exists file, dump_schema (TData c fs) = Ok file /\
    (file_type (TData c fs) -> exists s', load_schema file = Ok s') /\
    (~ file_type (TData c fs) -> load_schema file = Err ValueError).
Proof.
  intros c fs s M. destruct (dump_loads c fs s M) as (D & L & N). exists (schema_ron s). split; [exact D|]. split; [eauto|exact N].
Qed.
Print Assumptions C34_readable_iff.

(** A class with a tuple field: the dumped file cannot be read. *)
Theorem C34_tuple_refuted : exists c fs file, names_differ (TData c fs) /\ values_in simple (TData c fs) /\
  dump_schema (TData c fs) = Ok file /\ load_schema file = Err ValueError.
Proof.
  exists (mkC "C" None), [("betas", (TTuple [TFloat; TFloat], DMissing))]. eexists.
  split; [cbn; intuition (repeat constructor; cbn; intuition discriminate)|]. split; [cbn; repeat split; intros v []|].
  split; vm_compute; reflexivity.
Qed.
Print Assumptions C34_tuple_refuted.

(** A class with a sub-config built by default: the default reads back as something else. *)
Theorem C34_subconfig_default_refuted : exists c fs s file s', file_type (TData c fs) /\ names_differ (TData c fs) /\
  materialize_type (TData c fs) = Ok s /\ dump_schema (TData c fs) = Ok file /\ load_schema file = Ok s' /\ s' <> s.
Proof.
  exists (mkC "C" None), [("net", (ex_net, DFactory (VObj "Net" [("size", VInt 3); ("act", VEnum "Act" "GELU" (VStr "gelu"))])))].
  do 3 eexists. split; [cbn; tauto|]. split; [cbn; intuition (repeat constructor; cbn; intuition discriminate)|].
  split; [vm_compute; reflexivity|]. split; [vm_compute; reflexivity|]. split; [vm_compute; reflexivity|]. discriminate.
Qed.
Print Assumptions C34_subconfig_default_refuted.

Example C34_case : file_type (ex_cls ex_net DMissing) /\ values_in simple (ex_cls ex_net DMissing) /\
  exists f, dump_schema (ex_cls ex_net DMissing) = Ok f.
Proof.
  split; [cbn; tauto|]. split; [|eexists; vm_compute; reflexivity]. cbn. repeat split; intros v H; (contradiction || (subst v; cbn; tauto)).
Qed.

(** ** C26 *)
(** Comparing the schema of a class with itself finds nothing, if no recorded value
    contains a NaN. *)
Theorem C26_same_partial : forall t s, materialize_type t = Ok s ->
  file_type t -> values_in self_equal t -> names_differ t ->
  exists k, compare_schemas s s = Ok k /\ ck_changes k = [] /\ ck_fixes k = [] /\ checker_severity k = INFO.
Proof.
  intros t s M F V N. eexists. split; [apply compare_self; now apply (materialize_comparable _ _ M F V N)|]. repeat split.
Qed.
Print Assumptions C26_same_partial.

(** check-schema on the file dump-schema has just written reports compatibility and
    nothing else; upgrade-schema leaves the file as it is. *)
Theorem C26_dumped_partial : forall c fs v rules, c_versioned c = Some (v, rules) ->
  file_type (TData c fs) -> values_in simple (TData c fs) -> values_in self_equal (TData c fs) -> names_differ (TData c fs) ->
  exists file, dump_schema (TData c fs) = Ok file /\
    check_schema file (TData c fs) = Ok (mkRep [] false true None None) /\
    upgrade_schema file (TData c fs) = Ok (Rewritten file).
Proof. exact check_dumped. Qed.
Print Assumptions C26_dumped_partial.

Example C26_case : let t := ex_cls ex_net DMissing in
  file_type t /\ values_in simple t /\ values_in self_equal t /\ names_differ t /\
  exists f, dump_schema t = Ok f /\ upgrade_schema f t = Ok (Rewritten f).
Proof.
  cbv zeta. split; [cbn; tauto|]. split; [apply C34_case|]. split.
  - cbn; repeat split; intros v H; (contradiction || (subst v; reflexivity)).
  - split; [cbn; intuition (repeat constructor; cbn; intuition discriminate)|]. eexists. split; [vm_compute; reflexivity|]. vm_compute. reflexivity.
Qed.

(** A NaN default is reported as changed. *)
Theorem C26_nan_refuted : exists t s k, file_type t /\ values_in simple t /\ names_differ t /\
  materialize_type t = Ok s /\ compare_schemas s s = Ok k /\
  ck_changes k = [DefaultValueChanged ["x"] (VFloat S754_nan) (VFloat S754_nan)].
Proof.
  exists (TData (mkC "C" None) [("x", (TFloat, DValue (VFloat S754_nan)))]). do 2 eexists.
  split; [cbn; tauto|]. split; [cbn; repeat split; intros v ->; exact I|].
  split; [cbn; intuition (repeat constructor; cbn; intuition discriminate)|]. repeat (split; [vm_compute; reflexivity|]). vm_compute. reflexivity.
Qed.
Print Assumptions C26_nan_refuted.

(** A class with a tuple field cannot be compared with itself. *)
Theorem C26_tuple_refuted : exists t s, values_in self_equal t /\ names_differ t /\
  materialize_type t = Ok s /\ compare_schemas s s = Err ValueError.
Proof.
  exists (TData (mkC "C" None) [("betas", (TTuple [TFloat; TFloat], DMissing))]). eexists.
  split; [cbn; repeat split; intros v []|].
  split; [cbn; intuition (repeat constructor; cbn; intuition discriminate)|]. repeat (split; [vm_compute; reflexivity|]). vm_compute. reflexivity.
Qed.
Print Assumptions C26_tuple_refuted.

(** A class with a sub-config built by default: check-schema reports an incompatible
    change on the file just written, and upgrade-schema refuses to rewrite it. *)
Theorem C26_subconfig_default_refuted : exists c fs v rules file r, c_versioned c = Some (v, rules) /\
  file_type (TData c fs) /\ values_in self_equal (TData c fs) /\ names_differ (TData c fs) /\
  dump_schema (TData c fs) = Ok file /\
  check_schema file (TData c fs) = Ok r /\ rp_compatible r = false /\
  upgrade_schema file (TData c fs) = Ok (Reported r).
Proof.
  exists (mkC "C" (Some (0%Z, []))), [("net", (ex_net, DFactory (VObj "Net" [("size", VInt 3); ("act", VEnum "Act" "GELU" (VStr "gelu"))])))], 0%Z, [].
  do 2 eexists. split; [reflexivity|]. split; [cbn; tauto|]. split.
  - cbn; repeat split; intros v H; (contradiction || (subst v; reflexivity)).
  - split; [cbn; intuition (repeat constructor; cbn; intuition discriminate)|]. repeat (split; [vm_compute; reflexivity|]). vm_compute. reflexivity.
Qed.
Print Assumptions C26_subconfig_default_refuted.
