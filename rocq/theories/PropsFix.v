(** PropsFix.v -- proposed rules repair old files (C29). *)
From Verif Require Import Base Value Schema Rewrite Sched Types Asdict FromDict Checker SpecTypes SpecLoad SpecSubtype SpecCheck SpecCompat SpecFix
  FromDictFacts FixFacts PropsCompat.

(** ** C29 *)
(** The schemas of the classes [c'] (new fields) and [c] (old fields) are compared, no
    change is an ERROR, and the proposed rules become the rules from version [v] to
    [v + 1] of the class [c2].  Then every file of version [v] that loads with the old
    class loads with [c2].
    Missing for the full claim: classes with sub-configs (PropsNest.v), and the changes
    that [repairable] leaves out (false of each of them, below). *)
Theorem C29_fixes_partial : forall E c fs c' gs c2 s r k v rules rules' d dir allow L,
  order_ok E -> ordinary E c fs -> ordinary E c2 gs -> one_level fs -> one_level gs ->
  lost_values_gone (TData c fs) (TData c' gs) ->
  materialize_type (TData c fs) = Ok s -> materialize_type (TData c' gs) = Ok r ->
  compare_schemas s r = Ok k -> checker_severity k <> ERROR ->
  (forall ch, In ch (ck_changes k) -> repairable E fs gs (ck_changes k) ch) ->
  c_versioned c = Some (v, rules) -> c_versioned c2 = Some (v + 1, rules')%Z ->
  (forall i rs, In (i, rs) rules' -> (i < v + 1)%Z) -> rules_at rules' v = ck_fixes k ->
  filev (VDict d) = true -> floatable (VDict (adel "version" d)) -> unmarked (VDict d) -> aget "version" d = Some (VInt v) ->
  typed_load E (TData c fs) (VDict d) dir None allow false = Ok L -> l_sched L = [] ->
  exists L', typed_load E (TData c2 gs) (VDict d) dir None allow false = Ok L' /\ l_sched L' = [].
Proof. exact fixes_load. Qed.
Print Assumptions C29_fixes_partial.

(** The same with commands: dump-schema with the old class, then check-schema with the
    new one, whose version was increased already or not; the entry it prints (for version
    [w]) is put into the class, and so is the version it asks for, if any. *)
Theorem C29_check_schema_partial : forall E c fs c' gs c2 v v' rules0 rules file rep w fixes rules' d dir allow L,
  order_ok E -> ordinary E c fs -> ordinary E c2 gs -> one_level fs -> one_level gs ->
  lost_values_gone (TData c fs) (TData c' gs) ->
  c_versioned c = Some (v, rules0) -> c_versioned c' = Some (v', rules) -> (v' = v \/ v' = v + 1 /\ rules_at rules v = [])%Z ->
  file_type (TData c fs) -> values_in simple (TData c fs) ->
  dump_schema (TData c fs) = Ok file -> check_schema file (TData c' gs) = Ok rep ->
  (forall w ch, In (w, ch) (rp_lines rep) -> w <> ERROR /\ repairable E fs gs (map snd (rp_lines rep)) ch) ->
  rp_rules rep = Some (Some w, fixes) -> rules_at rules' w = fixes ->
  c_versioned c2 = Some (match rp_bump rep with Some b => b | None => v' end, rules') ->
  (forall i rs, In (i, rs) rules' -> (i <= w)%Z) ->
  filev (VDict d) = true -> floatable (VDict (adel "version" d)) -> unmarked (VDict d) -> aget "version" d = Some (VInt v) ->
  typed_load E (TData c fs) (VDict d) dir None allow false = Ok L -> l_sched L = [] ->
  exists L', typed_load E (TData c2 gs) (VDict d) dir None allow false = Ok L' /\ l_sched L' = [].
Proof. exact fixes_check_schema. Qed.
Print Assumptions C29_check_schema_partial.

(** renamed, removed and added fields, a wrapped type, a changed enum value, a changed and
    a removed default *)
Definition fix_old : list (string * (ty * dflt)) :=
  [("learning_rate", (TFloat, DMissing)); ("layers", (TInt, DMissing)); ("act", (TEnum "Act" [("RELU", VStr "relu"); ("TANH", VStr "tanh")], DMissing));
   ("steps", (TInt, DValue (VInt 10))); ("batch", (TInt, DValue (VInt 32))); ("debug_verbosity", (TBool, DValue (VBool false)))].
Definition fix_new : list (string * (ty * dflt)) :=
  [("lerning_rate", (TFloat, DMissing)); ("layers", (TList TInt, DMissing)); ("act", (TEnum "Act" [("RELU", VStr "ReLU"); ("TANH", VStr "tanh")], DMissing));
   ("steps", (TInt, DValue (VInt 20))); ("batch", (TInt, DMissing)); ("x", (TOpt TStr, DMissing))].
Definition fix_file : list (string * pyval) :=
  [("version", VInt 2); ("learning_rate", VFloat f64_half); ("layers", VInt 3); ("act", VStr "relu"); ("debug_verbosity", VBool true)].
Definition fix_rules : list rule :=
  [MapFieldValue ["layers"] (fun x => Ok (VList [x])) (Some "lambda x: [x]");
   MapFieldValue ["act"] (fun x => Ok (if py_eq x (VStr "relu") then VStr "ReLU" else x)) None;
   ChangeDefault ["steps"] (VInt 10) (VInt 20); AddDefault ["batch"] (VInt 32); AddDefault ["x"] VNone;
   DeleteField ["debug_verbosity"]; RenameField ["learning_rate"] ["lerning_rate"]].
Definition fix_report : report :=
  mkRep [(WARN, TypeChanged ["layers"] (SPrim "int") (SList (SPrim "int")));
         (WARN, EnumVariantValueChanged ["act"] "Act" "RELU" (VStr "relu") (VStr "ReLU"));
         (WARN, DefaultValueChanged ["steps"] (VInt 10) (VInt 20)); (WARN, DefaultValueRemoved ["batch"] (VInt 32));
         (WARN, FieldAdded ["x"] (SOption (SPrim "str")) VNone false); (WARN, FieldRemoved ["debug_verbosity"] (SPrim "bool") (VBool false) true);
         (WARN, FieldRenamed ["learning_rate"] ["lerning_rate"])]
    true false (Some (Some 2%Z, fix_rules)) (Some 3%Z).
Definition fix_c (rules : list rule) : cinfo := mkC "Config" (Some (3%Z, [(2%Z, rules)])).

Example C29_case :
  let c := mkC "Config" (Some (2%Z, [])) in
  ordinary compat_env c fix_old /\ one_level fix_old /\ one_level fix_new /\
  lost_values_gone (TData c fix_old) (TData c fix_new) /\
  file_type (TData c fix_old) /\ values_in simple (TData c fix_old) /\
  filev (VDict fix_file) = true /\ floatable (VDict fix_file) /\ unmarked (VDict fix_file) /\
  exists file, dump_schema (TData c fix_old) = Ok file /\ check_schema file (TData c fix_new) = Ok fix_report /\
    (forall w ch, In (w, ch) (rp_lines fix_report) -> w <> ERROR /\ repairable compat_env fix_old fix_new (map snd (rp_lines fix_report)) ch) /\
    ordinary compat_env (fix_c fix_rules) fix_new /\
    (exists L, typed_load compat_env (TData c fix_old) (VDict fix_file) None None false false = Ok L /\ l_sched L = []) /\
    (exists L, typed_load compat_env (TData (fix_c fix_rules) fix_new) (VDict fix_file) None None false false = Ok L /\
       l_value L = VObj "Config" [("lerning_rate", VFloat f64_half); ("layers", VList [VInt 3]); ("act", VEnum "Act" "RELU" (VStr "ReLU"));
                                  ("steps", VInt 10); ("batch", VInt 32); ("x", VNone)]).
Proof.
  cbv zeta. split; [unfold ordinary; compat_side|]. split; [compat_side|]. split; [compat_side|]. split.
  { intros p ms m. destruct p as [|k [|]]; cbn; try discriminate;
      repeat (match goal with |- context [String.eqb ?a ?b] => destruct (String.eqb_spec a b) as [->|] end; cbn; try discriminate).
    intros Q I. injection Q as <-. destruct I as [<-|[<-|[]]].
    - right. intros q ms' m'. destruct q as [|k [|]]; cbn; try discriminate;
      repeat (match goal with |- context [String.eqb ?a ?b] => destruct (String.eqb_spec a b) as [->|] end; cbn; try discriminate).
      intros Q I. injection Q as <-. destruct I as [<-|[<-|[]]]; reflexivity.
    - left. do 2 eexists. split; [reflexivity|]. split; [right; now left|reflexivity]. }
  split; [compat_side|]. split; [cbn; repeat split; intros; try contradiction; subst; try exact I|]. split; [reflexivity|]. split.
  { cbn; repeat split; eexists; vm_compute; reflexivity. }
  split; [compat_side; reflexivity|].
  eexists. split; [vm_compute; reflexivity|]. split; [vm_compute; reflexivity|]. split.
  { intros w ch H. cbn [fix_report rp_lines In map snd] in *.
    repeat match goal with H : _ \/ _ |- _ => destruct H as [H|H] end; try (destruct H; fail); injection H as <- <-; (split; [discriminate|]); cbn [repairable].
    - split; [exact I|]. right. do 4 eexists. repeat (split; [reflexivity|]). intros (o & [H|(n & H)]); repeat destruct H as [H|H]; try discriminate H; destruct H.
    - do 7 eexists. repeat (split; [reflexivity|]). eexists. split; [now left|reflexivity].
    - intros f u d0 Q G. injection Q as <-. injection G as <- <-. split; [reflexivity|]. intros. now exists (VInt 10).
    - intros f u d0 Q G. injection Q as <-. injection G as <- <-. split; [reflexivity|]. intros. now exists (VInt 32).
    - exact I.
    - exact I.
    - intros f t d0 s Q G M. injection Q as <-. injection G as <- <-. injection M as <-. exact I. }
  split.
  { unfold ordinary. split; [|compat_side]. split; [compat_side|]. split; [compat_side|]. split; [|compat_side].
    intros ver rs0 j rs Q. injection Q as <- <-. intros [Q|[]]. injection Q as <- <-. repeat constructor; cbn; try reflexivity.
    - intros x y Hx Q. injection Q as <-. cbn. now rewrite Hx.
    - intros x y Hx Q. injection Q as <-. now destruct (py_eq x (VStr "relu")). }
  split; (eexists; split; [vm_compute; reflexivity|]); reflexivity.
Qed.

(** The old class has fields [fs] and version 2, the new one fields [gs]: check-schema
    reports the changes [cs], each with a rule; with these rules in the class, the file
    [d], which loads with the old class, gives [e]. *)
Definition fixes_fail (fs gs : list (string * (ty * dflt))) (d : list (string * pyval)) (cs : list change) (e : exc) : Prop :=
  let c := mkC "Config" (Some (2%Z, [])) in
  exists file rep rules L, dump_schema (TData c fs) = Ok file /\ check_schema file (TData c gs) = Ok rep /\
    rp_lines rep = map (fun ch => (WARN, ch)) cs /\ rp_rules rep = Some (Some 2%Z, rules) /\ rp_bump rep = Some 3%Z /\
    typed_load compat_env (TData c fs) (VDict (("version", VInt 2) :: d)) None None false false = Ok L /\
    typed_load compat_env (TData (fix_c rules) gs) (VDict (("version", VInt 2) :: d)) None None false false = Err e.
Definition the_rules (fs gs : list (string * (ty * dflt))) : list rule :=
  let c := mkC "Config" (Some (2%Z, [])) in
  match (let* file := dump_schema (TData c fs) in check_schema file (TData c gs)) with
  | Ok rep => match rp_rules rep with Some (_, rules) => rules | None => [] end
  | Err _ => []
  end.
Ltac fails :=
  match goal with |- fixes_fail ?fs ?gs _ _ _ => do 2 eexists; exists (the_rules fs gs) end;
  eexists; split; [vm_compute; reflexivity|]; split; [cbv; reflexivity|]; split; [reflexivity|]; split; [cbv; reflexivity|]; split; [reflexivity|];
  split; [vm_compute; reflexivity|]; vm_compute; reflexivity.

(** A literal loses a value: the proposed RejectValues deletes the field of a file that has
    an allowed value. *)
Theorem C29_reject_refuted : exists fs gs d,
  fixes_fail fs gs d [LiteralValuesRemoved ["x"] [VStr "b"]] (MissingFields "Config" ["x"]) /\ d = [("x", VStr "a")].
Proof.
  exists [("x", (TLit [VStr "a"; VStr "b"], DMissing))], [("x", (TLit [VStr "a"], DMissing))], [("x", VStr "a")]. split; [fails|reflexivity].
Qed.
Print Assumptions C29_reject_refuted.

(** A type becomes a literal: the proposed CheckValue rejects other values on purpose. *)
Theorem C29_check_refuted : exists fs gs d, fixes_fail fs gs d [TypeChanged ["x"] (SPrim "int") (SLit [VInt 1])] ValueError.
Proof. exists [("x", (TInt, DMissing))], [("x", (TLit [VInt 1], DMissing))], [("x", VInt 2)]. fails. Qed.
Print Assumptions C29_check_refuted.

(** The field becomes a list and so does its default: the old default is put into the file
    after values were wrapped. *)
Theorem C29_wrap_default_refuted : exists fs gs d,
  fixes_fail fs gs d [TypeChanged ["x"] (SPrim "int") (SList (SPrim "int")); DefaultValueChanged ["x"] (VInt 3) (VList [VInt 3])] DeserializeTypeError.
Proof. exists [("x", (TInt, DValue (VInt 3)))], [("x", (TList TInt, DFactory (VList [VInt 3])))], []. fails. Qed.
Print Assumptions C29_wrap_default_refuted.

(** The inside of an Optional becomes a list: None becomes [None]. *)
Theorem C29_wrap_none_refuted : exists fs gs d,
  fixes_fail fs gs d [TypeChanged ["x"] (SPrim "int") (SList (SPrim "int"))] DeserializeTypeError.
Proof. exists [("x", (TOpt TInt, DMissing))], [("x", (TOpt (TList TInt), DMissing))], [("x", VNone)]. fails. Qed.
Print Assumptions C29_wrap_none_refuted.

(** The value of an enum variant changes in a list of enums. *)
Theorem C29_enum_list_refuted : exists fs gs d,
  fixes_fail fs gs d [EnumVariantValueChanged ["x"] "A" "R" (VInt 1) (VInt 2)] ValueError.
Proof.
  exists [("x", (TList (TEnum "A" [("R", VInt 1)]), DMissing))], [("x", (TList (TEnum "A" [("R", VInt 2)]), DMissing))], [("x", VList [VInt 1])]. fails.
Qed.
Print Assumptions C29_enum_list_refuted.

(** A default inside a sub-config is removed, and the file leaves the sub-config out. *)
Theorem C29_nested_default_refuted : exists fs gs d,
  fixes_fail fs gs d [DefaultValueRemoved ["net"; "a"] (VInt 1)] (MissingFields "Net" ["net.a"]) /\ d = [].
Proof.
  exists [("net", (TData (mkC "Net" None) [("a", (TInt, DValue (VInt 1)))], DMissing))],
    [("net", (TData (mkC "Net" None) [("a", (TInt, DMissing))], DMissing))], []. split; [fails|reflexivity].
Qed.
Print Assumptions C29_nested_default_refuted.

(** A sub-config is removed: its fields are deleted but not the empty section. *)
Theorem C29_section_refuted : exists fs gs d,
  fixes_fail fs gs d [FieldRemoved ["net"; "a"] (SPrim "int") (VInt 1) true] (UnknownField "Config" "net").
Proof.
  exists [("net", (TData (mkC "Net" None) [("a", (TInt, DValue (VInt 1)))], DMissing)); ("y", (TInt, DMissing))], [("y", (TInt, DMissing))],
    [("net", VDict [("a", VInt 2)]); ("y", VInt 1)]. fails.
Qed.
Print Assumptions C29_section_refuted.

(** A field is renamed in a class that is used in a list. *)
Theorem C29_list_refuted : exists fs gs d,
  fixes_fail fs gs d [FieldRenamed ["net"; "aa"] ["net"; "ab"]] (UnknownField "Net" "aa").
Proof.
  exists [("net", (TList (TData (mkC "Net" None) [("aa", (TInt, DMissing))]), DMissing))],
    [("net", (TList (TData (mkC "Net" None) [("ab", (TInt, DMissing))]), DMissing))], [("net", VList [VDict [("aa", VInt 1)]])]. fails.
Qed.
Print Assumptions C29_list_refuted.

(** A field is matched with one of a narrower type (C30). *)
Theorem C29_narrower_refuted : exists fs gs d, fixes_fail fs gs d [FieldRenamed ["ab"] ["abc"]] DeserializeTypeError.
Proof.
  exists [("ab", (TList (TOpt TFloat), DMissing))], [("abc", (TOpt (TList (TOpt TInt)), DMissing))], [("ab", VList [VFloat f64_half])]. fails.
Qed.
Print Assumptions C29_narrower_refuted.

(** ** C55 *)
(** The repaired file means what the old one meant: the value of every field is what the
    old file said, with the reported change carried out on it ([becomes]); fields whose
    type did not change keep the value the file gave them even if their default changed,
    fields that are not in the report keep their value, renamed fields carry theirs along.
    Missing for the full claim: as for C29, and several changed variants of one enum
    (false, below). *)
Theorem C55_values_partial : forall E c fs c' gs c2 s r k v rules rules' d dir allow L L',
  order_ok E -> ordinary E c fs -> ordinary E c2 gs -> one_level fs -> one_level gs ->
  materialize_type (TData c fs) = Ok s -> materialize_type (TData c' gs) = Ok r ->
  compare_schemas s r = Ok k -> checker_severity k <> ERROR ->
  (forall ch, In ch (ck_changes k) -> repairable E fs gs (ck_changes k) ch) ->
  c_versioned c = Some (v, rules) -> c_versioned c2 = Some (v + 1, rules')%Z ->
  (forall i rs, In (i, rs) rules' -> (i < v + 1)%Z) -> rules_at rules' v = ck_fixes k ->
  filev (VDict d) = true -> unmarked (VDict d) -> aget "version" d = Some (VInt v) ->
  typed_load E (TData c fs) (VDict d) dir None allow false = Ok L -> l_sched L = [] ->
  typed_load E (TData c2 gs) (VDict d) dir None allow false = Ok L' -> l_sched L' = [] ->
  exists o o', l_value L = VObj (c_name c) o /\ l_value L' = VObj (c_name c2) o' /\
    (forall n u fd w, aget n gs = Some (u, fd) -> becomes (ck_changes k) (adel "version" d) n w ->
       exists v', aget n o' = Some v' /\ denotes E false allow (is_some dir) false u w v') /\
    (forall n t od fd, aget n fs = Some (t, od) -> aget n gs = Some (t, fd) ->
       (forall ch, In ch (ck_changes k) -> change_field ch = [n] -> about_default ch) ->
       aget n (adel "version" d) <> None -> aget n o' = aget n o) /\
    (forall n t od, aget n fs = Some (t, od) -> aget n gs = Some (t, od) ->
       (forall ch, In ch (ck_changes k) -> change_field ch <> [n]) -> aget n o' = aget n o) /\
    (forall a b t od fd, aget a fs = Some (t, od) -> aget b gs = Some (t, fd) -> In (FieldRenamed [a] [b]) (ck_changes k) ->
       aget a (adel "version" d) <> None -> aget b o' = aget a o).
Proof. exact fixes_values. Qed.
Print Assumptions C55_values_partial.

(** The file of [C29_case], which meets the hypotheses: each kind of change occurs. *)
Example C55_case :
  let cs := map snd (rp_lines fix_report) in let m := adel "version" fix_file in
  becomes cs m "lerning_rate" (VFloat f64_half) /\ becomes cs m "layers" (VList [VInt 3]) /\ becomes cs m "act" (VStr "ReLU") /\
  becomes cs m "steps" (VInt 10) /\ becomes cs m "batch" (VInt 32).
Proof.
  cbn. split; [eapply (bc_renamed _ _ _ "learning_rate"); [do 6 right; left; reflexivity|reflexivity]|].
  split; [eapply bc_wrapped; [reflexivity|left; reflexivity|reflexivity]|].
  split.
  { eapply (bc_mapped _ _ _ (VStr "relu") "Act" "RELU" (VStr "relu") (VStr "ReLU")); [reflexivity|right; left; reflexivity|reflexivity|].
    intros c H Q. repeat destruct H as [H|H]; subst; try discriminate Q; try (destruct H; fail). now left. }
  split.
  - apply bc_default; [reflexivity|right; eexists; do 2 right; left; reflexivity|].
    intros c H Q. repeat destruct H as [H|H]; subst; try discriminate Q; try (destruct H; fail). left. exact I.
  - apply bc_default; [reflexivity|left; do 3 right; left; reflexivity|].
    intros c H Q. repeat destruct H as [H|H]; subst; try discriminate Q; try (destruct H; fail). left. exact I.
Qed.

(** Two variants of an enum exchange their values: no error, but the file now means the
    other variant, because the two proposed rules undo each other. *)
Theorem C55_exchange_refuted : exists fs gs d,
  let c := mkC "Config" (Some (2%Z, [])) in
  exists file rep L L', dump_schema (TData c fs) = Ok file /\ check_schema file (TData c gs) = Ok rep /\
    rp_lines rep = [(WARN, EnumVariantValueChanged ["x"] "A" "ON" (VInt 1) (VInt 2)); (WARN, EnumVariantValueChanged ["x"] "A" "OFF" (VInt 2) (VInt 1))] /\
    typed_load compat_env (TData c fs) (VDict d) None None false false = Ok L /\ l_value L = VObj "Config" [("x", VEnum "A" "ON" (VInt 1))] /\
    typed_load compat_env (TData (fix_c (the_rules fs gs)) gs) (VDict d) None None false false = Ok L' /\
    l_value L' = VObj "Config" [("x", VEnum "A" "OFF" (VInt 1))].
Proof.
  exists [("x", (TEnum "A" [("ON", VInt 1); ("OFF", VInt 2)], DMissing))], [("x", (TEnum "A" [("ON", VInt 2); ("OFF", VInt 1)], DMissing))],
    [("version", VInt 2); ("x", VInt 1)]. cbv zeta.
  do 4 eexists. split; [vm_compute; reflexivity|]. split; [cbv; reflexivity|]. split; [reflexivity|].
  split; [vm_compute; reflexivity|]. split; [reflexivity|]. split; [vm_compute; reflexivity|]. reflexivity.
Qed.
Print Assumptions C55_exchange_refuted.
