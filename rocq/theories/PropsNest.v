(** PropsNest.v -- proposed rules repair old files, also inside sub-configs (C29, C55). *)
From Verif Require Import Base Value Schema Rewrite Sched Types Asdict FromDict Checker SpecTypes SpecLoad SpecSubtype SpecCheck SpecCompat SpecFix SpecNest
  FromDictFacts NestFix NestValues PropsCompat PropsFix.

(** ** C29 with sub-configs *)
(** As [C29_fixes_partial], for classes with sub-configs at any depth: fields may change
    inside them and move from one to another.
    Missing for the full claim: sub-configs that come or go ([C29_section_refuted]), files
    that leave a sub-config out ([C29_nested_default_refuted]), classes inside lists
    ([C29_list_refuted]), and the changes that [repairable_at] leaves out, as before. *)
Theorem C29_nested_partial : forall E c fs c' gs c2 s r k v rules rules' d dir allow L,
  order_ok E -> ordinary E c fs -> ordinary E c2 gs -> all_sectioned fs -> all_sectioned gs -> same_sections fs gs ->
  lost_values_gone (TData c fs) (TData c' gs) ->
  materialize_type (TData c fs) = Ok s -> materialize_type (TData c' gs) = Ok r ->
  compare_schemas s r = Ok k -> checker_severity k <> ERROR ->
  (forall ch, In ch (ck_changes k) -> repairable_at E fs gs (ck_changes k) ch) ->
  c_versioned c = Some (v, rules) -> c_versioned c2 = Some (v + 1, rules')%Z ->
  (forall i rs, In (i, rs) rules' -> (i < v + 1)%Z) -> rules_at rules' v = ck_fixes k ->
  filev (VDict d) = true -> floatable (VDict (adel "version" d)) -> unmarked (VDict d) -> aget "version" d = Some (VInt v) -> sections_given fs (VDict d) ->
  typed_load E (TData c fs) (VDict d) dir None allow false = Ok L -> l_sched L = [] ->
  exists L', typed_load E (TData c2 gs) (VDict d) dir None allow false = Ok L' /\ l_sched L' = [].
Proof. exact nested_load. Qed.
Print Assumptions C29_nested_partial.

(** With commands, as [C29_check_schema_partial]. *)
Theorem C29_nested_check_schema_partial : forall E c fs c' gs c2 v v' rules0 rules file rep w fixes rules' d dir allow L,
  order_ok E -> ordinary E c fs -> ordinary E c2 gs -> all_sectioned fs -> all_sectioned gs -> same_sections fs gs ->
  lost_values_gone (TData c fs) (TData c' gs) ->
  c_versioned c = Some (v, rules0) -> c_versioned c' = Some (v', rules) -> (v' = v \/ v' = v + 1 /\ rules_at rules v = [])%Z ->
  file_type (TData c fs) -> values_in simple (TData c fs) ->
  dump_schema (TData c fs) = Ok file -> check_schema file (TData c' gs) = Ok rep ->
  (forall w ch, In (w, ch) (rp_lines rep) -> w <> ERROR /\ repairable_at E fs gs (map snd (rp_lines rep)) ch) ->
  rp_rules rep = Some (Some w, fixes) -> rules_at rules' w = fixes ->
  c_versioned c2 = Some (match rp_bump rep with Some b => b | None => v' end, rules') ->
  (forall i rs, In (i, rs) rules' -> (i <= w)%Z) ->
  filev (VDict d) = true -> floatable (VDict (adel "version" d)) -> unmarked (VDict d) -> aget "version" d = Some (VInt v) -> sections_given fs (VDict d) ->
  typed_load E (TData c fs) (VDict d) dir None allow false = Ok L -> l_sched L = [] ->
  exists L', typed_load E (TData c2 gs) (VDict d) dir None allow false = Ok L' /\ l_sched L' = [].
Proof. exact nested_check_schema. Qed.
Print Assumptions C29_nested_check_schema_partial.

(** a field moves from one sub-config to another, others change inside a sub-config of a sub-config *)
Definition nest_old : list (string * (ty * dflt)) :=
  [("net", (TData (mkC "Net" None)
     [("learning_rate", (TFloat, DMissing));
      ("body", (TData (mkC "Body" None)
         [("layers", (TInt, DMissing)); ("act", (TEnum "Act" [("RELU", VStr "relu"); ("TANH", VStr "tanh")], DMissing));
          ("steps", (TInt, DValue (VInt 10)))], DMissing))], DMissing));
   ("opt", (TData (mkC "Opt" None) [("batch", (TInt, DValue (VInt 32))); ("debug_verbosity", (TBool, DValue (VBool false)))], DMissing))].
Definition nest_new : list (string * (ty * dflt)) :=
  [("net", (TData (mkC "Net" None)
     [("body", (TData (mkC "Body" None)
         [("layers", (TList TInt, DMissing)); ("act", (TEnum "Act" [("RELU", VStr "ReLU"); ("TANH", VStr "tanh")], DMissing));
          ("steps", (TInt, DValue (VInt 20)))], DMissing))], DMissing));
   ("opt", (TData (mkC "Opt" None) [("batch", (TInt, DMissing)); ("x", (TOpt TStr, DMissing)); ("learning_rate", (TFloat, DMissing))], DMissing))].
Definition nest_file : list (string * pyval) :=
  [("version", VInt 2); ("net", VDict [("learning_rate", VFloat f64_half); ("body", VDict [("layers", VInt 3); ("act", VStr "relu")])]);
   ("opt", VDict [("debug_verbosity", VBool true)])].
Definition nest_rules : list rule :=
  [MapFieldValue ["net"; "body"; "layers"] (fun x => Ok (VList [x])) (Some "lambda x: [x]");
   MapFieldValue ["net"; "body"; "act"] (fun x => Ok (if py_eq x (VStr "relu") then VStr "ReLU" else x)) None;
   ChangeDefault ["net"; "body"; "steps"] (VInt 10) (VInt 20); AddDefault ["opt"; "batch"] (VInt 32); AddDefault ["opt"; "x"] VNone;
   DeleteField ["opt"; "debug_verbosity"]; RenameField ["net"; "learning_rate"] ["opt"; "learning_rate"]].
Definition nest_report : report :=
  mkRep [(WARN, TypeChanged ["net"; "body"; "layers"] (SPrim "int") (SList (SPrim "int")));
         (WARN, EnumVariantValueChanged ["net"; "body"; "act"] "Act" "RELU" (VStr "relu") (VStr "ReLU"));
         (WARN, DefaultValueChanged ["net"; "body"; "steps"] (VInt 10) (VInt 20)); (WARN, DefaultValueRemoved ["opt"; "batch"] (VInt 32));
         (WARN, FieldAdded ["opt"; "x"] (SOption (SPrim "str")) VNone false); (WARN, FieldRemoved ["opt"; "debug_verbosity"] (SPrim "bool") (VBool false) true);
         (WARN, FieldRenamed ["net"; "learning_rate"] ["opt"; "learning_rate"])]
    true false (Some (Some 2%Z, nest_rules)) (Some 3%Z).

Ltac by_path p :=
  repeat (cbn; try discriminate; try reflexivity;
    first [match goal with |- context [String.eqb ?a ?b] => destruct (String.eqb_spec a b) as [->|] end | destruct p as [|? p]]).

Example C29_nested_case :
  let c := mkC "Config" (Some (2%Z, [])) in
  ordinary compat_env c nest_old /\ all_sectioned nest_old /\ all_sectioned nest_new /\ same_sections nest_old nest_new /\
  lost_values_gone (TData c nest_old) (TData c nest_new) /\
  file_type (TData c nest_old) /\ values_in simple (TData c nest_old) /\
  filev (VDict nest_file) = true /\ floatable (VDict nest_file) /\ unmarked (VDict nest_file) /\ sections_given nest_old (VDict nest_file) /\
  exists file, dump_schema (TData c nest_old) = Ok file /\ check_schema file (TData c nest_new) = Ok nest_report /\
    (forall w ch, In (w, ch) (rp_lines nest_report) -> w <> ERROR /\ repairable_at compat_env nest_old nest_new (map snd (rp_lines nest_report)) ch) /\
    ordinary compat_env (fix_c nest_rules) nest_new /\
    (exists L, typed_load compat_env (TData c nest_old) (VDict nest_file) None None false false = Ok L /\ l_sched L = []) /\
    (exists L, typed_load compat_env (TData (fix_c nest_rules) nest_new) (VDict nest_file) None None false false = Ok L /\
       l_value L = VObj "Config"
         [("net", VObj "Net" [("body", VObj "Body" [("layers", VList [VInt 3]); ("act", VEnum "Act" "RELU" (VStr "ReLU")); ("steps", VInt 10)])]);
          ("opt", VObj "Opt" [("batch", VInt 32); ("x", VNone); ("learning_rate", VFloat f64_half)])]).
Proof.
  cbv zeta. split; [unfold ordinary; compat_side|]. split; [compat_side|]. split; [compat_side|].
  split; [intros p; unfold is_section, nest_old, nest_new; by_path p|]. split.
  { intros p ms m. unfold nest_old, nest_new. by_path p. intros Q I. injection Q as <-. destruct I as [<-|[<-|[]]].
    - right. intros q ms' m'. by_path q. intros Q I. injection Q as <-. destruct I as [<-|[<-|[]]]; reflexivity.
    - left. do 2 eexists. split; [reflexivity|]. split; [right; now left|reflexivity]. }
  split; [compat_side|]. split; [cbn; repeat split; intros; try contradiction; subst; try exact I|]. split; [reflexivity|]. split.
  { cbn; repeat split; eexists; vm_compute; reflexivity. }
  split; [compat_side; reflexivity|].
  split; [intros p; unfold is_section, nest_old, nest_file; by_path p; intros; eexists; reflexivity|].
  eexists. split; [vm_compute; reflexivity|]. split; [vm_compute; reflexivity|]. split.
  { intros w ch H. cbn [nest_report rp_lines In map snd] in *.
    repeat match goal with H : _ \/ _ |- _ => destruct H as [H|H] end; try (destruct H; fail); injection H as <- <-; (split; [discriminate|]); cbn [repairable_at].
    - split; [exact I|]. right. do 3 eexists. repeat (split; [reflexivity|]). intros (o & [H|(n & H)]); repeat destruct H as [H|H]; try discriminate H; destruct H.
    - do 6 eexists. repeat (split; [reflexivity|]). eexists. split; [now left|reflexivity].
    - do 2 eexists. split; [reflexivity|]. split; [reflexivity|]. intros. now exists (VInt 10).
    - do 2 eexists. split; [reflexivity|]. split; [reflexivity|]. intros. now exists (VInt 32).
    - exact I.
    - exact I.
    - intros t d0 s G M. injection G as <- <-. injection M as <-. exact I. }
  split.
  { unfold ordinary. split; [|compat_side]. split; [compat_side|]. split; [compat_side|]. split; [|compat_side].
    intros ver rs0 j rs Q. injection Q as <- <-. intros [Q|[]]. injection Q as <- <-. repeat constructor; cbn; try reflexivity.
    - intros x y Hx Q. injection Q as <-. cbn. now rewrite Hx.
    - intros x y Hx Q. injection Q as <-. now destruct (py_eq x (VStr "relu")). }
  split; (eexists; split; [vm_compute; reflexivity|]); reflexivity.
Qed.

(** ** C55 with sub-configs *)
(** As [C55_values_partial], for attributes of sub-configs at any depth.
    Missing for the full claim: as for C29, and several changed variants of one enum
    ([C55_exchange_refuted]). *)
Theorem C55_nested_values_partial : forall E c fs c' gs c2 s r k v rules rules' d dir allow L L',
  order_ok E -> ordinary E c fs -> ordinary E c2 gs -> all_sectioned fs -> all_sectioned gs -> same_sections fs gs ->
  materialize_type (TData c fs) = Ok s -> materialize_type (TData c' gs) = Ok r ->
  compare_schemas s r = Ok k -> checker_severity k <> ERROR ->
  (forall ch, In ch (ck_changes k) -> repairable_at E fs gs (ck_changes k) ch) ->
  c_versioned c = Some (v, rules) -> c_versioned c2 = Some (v + 1, rules')%Z ->
  (forall i rs, In (i, rs) rules' -> (i < v + 1)%Z) -> rules_at rules' v = ck_fixes k ->
  filev (VDict d) = true -> unmarked (VDict d) -> aget "version" d = Some (VInt v) -> sections_given fs (VDict d) ->
  typed_load E (TData c fs) (VDict d) dir None allow false = Ok L -> l_sched L = [] ->
  typed_load E (TData c2 gs) (VDict d) dir None allow false = Ok L' -> l_sched L' = [] ->
  let m := VDict (adel "version" d) in
  (forall p u fd w, leaf gs p = Some (u, fd) -> becomes_at (ck_changes k) m p w ->
     exists v', attr_at (l_value L') p = Some v' /\ denotes E false allow (is_some dir) false u w v') /\
  (forall p t od fd, leaf fs p = Some (t, od) -> leaf gs p = Some (t, fd) ->
     (forall ch, In ch (ck_changes k) -> change_field ch = p -> about_default ch) ->
     value_at m p <> None -> attr_at (l_value L') p = attr_at (l_value L) p) /\
  (forall p t od, leaf fs p = Some (t, od) -> leaf gs p = Some (t, od) ->
     (forall ch, In ch (ck_changes k) -> change_field ch <> p) -> attr_at (l_value L') p = attr_at (l_value L) p) /\
  (forall a b t od fd, leaf fs a = Some (t, od) -> leaf gs b = Some (t, fd) -> In (FieldRenamed a b) (ck_changes k) ->
     value_at m a <> None -> attr_at (l_value L') b = attr_at (l_value L) a).
Proof. exact nested_values. Qed.
Print Assumptions C55_nested_values_partial.

Example C55_nested_case :
  let cs := map snd (rp_lines nest_report) in let m := VDict (adel "version" nest_file) in
  becomes_at cs m ["opt"; "learning_rate"] (VFloat f64_half) /\ becomes_at cs m ["net"; "body"; "layers"] (VList [VInt 3]) /\
  becomes_at cs m ["net"; "body"; "act"] (VStr "ReLU") /\ becomes_at cs m ["net"; "body"; "steps"] (VInt 10) /\ becomes_at cs m ["opt"; "batch"] (VInt 32).
Proof.
  cbn. split; [eapply (ba_renamed _ _ _ ["net"; "learning_rate"]); [do 6 right; left; reflexivity|reflexivity]|].
  split; [eapply ba_wrapped; [reflexivity|left; reflexivity|reflexivity]|].
  split.
  { eapply (ba_mapped _ _ _ (VStr "relu") "Act" "RELU" (VStr "relu") (VStr "ReLU")); [reflexivity|right; left; reflexivity|reflexivity|].
    intros c H Q. repeat destruct H as [H|H]; subst; try discriminate Q; try (destruct H; fail). now left. }
  split.
  - apply ba_default; [reflexivity|right; eexists; do 2 right; left; reflexivity|].
    intros c H Q. repeat destruct H as [H|H]; subst; try discriminate Q; try (destruct H; fail). left. exact I.
  - apply ba_default; [reflexivity|left; do 3 right; left; reflexivity|].
    intros c H Q. repeat destruct H as [H|H]; subst; try discriminate Q; try (destruct H; fail). left. exact I.
Qed.
