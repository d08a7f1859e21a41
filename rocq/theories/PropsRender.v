(** PropsRender.v -- what check-schema prints (C67, C68). *)
From Verif Require Import Base Value Schema Rewrite Sched Types Asdict FromDict Checker SpecTypes SpecFix Render SpecRender RenderFacts Examples.
Local Open Scope string_scope.

(** ** C67: the proposed entry of [upgrade_rules] can be pasted *)

(** The report has an entry "version: [rule, ...]," below "- add upgrade rules:"; as Python
    source it evaluates to the version and the rules of the report.  [rf] is Python's
    [repr] of floats; [literal] asks that it can be read back. *)
Theorem C67_paste_partial : forall E rf addr file clz rep version rules,
  check_schema file clz = Ok rep -> rp_rules rep = Some (version, rules) -> Forall (pasteable E rf) rules ->
  exists before entry after,
    report_text rf addr rep = before ++ line "- add upgrade rules:" ++ entry ++ after /\
    after = match rp_bump rep with Some v => line ("- bump version to " ++ show_Z v) | None => "" end /\
    read_entry E entry = Some (match version with Some v => VInt v | None => VNone end, rules).
Proof.
  intros E rf addr file clz rep version rules C R P. destruct (report_rules rf addr file clz rep version rules C R) as [b B].
  exists b, (entry_text rf addr version rules), (bump_text rep). split; [exact B|]. split; [reflexivity|now apply entry_back].
Qed.
Print Assumptions C67_paste_partial.

(** If one of the rules is a MapFieldValue, the entry is not Python source. *)
Theorem C67_function : forall E rf addr file clz rep version rules p f c rules',
  check_schema file clz = Ok rep -> rp_rules rep = Some (version, rules ++ MapFieldValue p f c :: rules')%list ->
  Forall (pasteable E rf) rules ->
  exists before entry after,
    report_text rf addr rep = before ++ line "- add upgrade rules:" ++ entry ++ after /\
    after = match rp_bump rep with Some v => line ("- bump version to " ++ show_Z v) | None => "" end /\
    read_entry E entry = None.
Proof.
  intros E rf addr file clz rep version rules p f c rules' C R P. destruct (report_rules rf addr file clz rep _ _ C R) as [b B].
  exists b, (entry_text rf addr version (rules ++ MapFieldValue p f c :: rules')), (bump_text rep).
  split; [exact B|]. split; [reflexivity|now apply entry_function].
Qed.
Print Assumptions C67_function.

(** The report of comparing the schema of a class with fields [fs] (of [vold]) with a class
    with fields [gs], version 2. *)
Definition compares (vold : option (Z * list (Z * list rule))) (fs gs : list (string * (ty * dflt))) (rep : report) : Prop :=
  exists file, dump_schema (TData (mkC "Config" vold) fs) = Ok file /\
               check_schema file (TData (mkC "Config" (Some (2%Z, []))) gs) = Ok rep.
Ltac compares := do 1 eexists; split; [vm_compute; reflexivity|cbv; reflexivity].

(** A field becomes a list: the entry is not Python source. *)
Theorem C67_list_refuted : exists fs gs rep rules, compares (Some (2%Z, [])) fs gs rep /\ rp_rules rep = Some (Some 2%Z, rules) /\
  forall E rf addr, read_entry E (entry_text rf addr (Some 2%Z) rules) = None.
Proof.
  exists [("x", (TInt, DMissing))], [("x", (TList TInt, DMissing))]. do 2 eexists. split; [compares|]. split; [reflexivity|].
  intros. apply (entry_function E rf addr (Some 2%Z) []). constructor.
Qed.
Print Assumptions C67_list_refuted.

(** The default was NaN: it is printed as the name [nan]. *)
Theorem C67_nan_refuted : exists fs gs rep rules, compares (Some (2%Z, [])) fs gs rep /\ rp_rules rep = Some (Some 2%Z, rules) /\
  forall E rf addr, rf SpecFloat.S754_nan = "nan" -> read_entry E (entry_text rf addr (Some 2%Z) rules) = None.
Proof.
  exists [("x", (TFloat, DValue (VFloat SpecFloat.S754_nan)))], [("x", (TFloat, DMissing))]. do 2 eexists. split; [compares|].
  split; [reflexivity|]. intros E rf addr H. unfold entry_text. cbn [fold_right rule_text py_repr]. rewrite H. reflexivity.
Qed.
Print Assumptions C67_nan_refuted.

(** The new default is a list of enum members: they are printed as [<Color.RED: 1>]. *)
Theorem C67_enum_refuted : exists fs gs rep rules, compares (Some (2%Z, [])) fs gs rep /\ rp_rules rep = Some (Some 2%Z, rules) /\
  forall E rf addr, read_entry E (entry_text rf addr (Some 2%Z) rules) = None.
Proof.
  exists [("x", (TList (TEnum "Color" [("RED", VInt 1%Z); ("BLUE", VInt 2%Z)]), DFactory (VList [])))],
    [("x", (TList (TEnum "Color" [("RED", VInt 1%Z); ("BLUE", VInt 2%Z)]), DFactory (VList [VEnum "Color" "RED" (VInt 1%Z)])))].
  do 2 eexists. split; [compares|]. split; [reflexivity|]. intros. reflexivity.
Qed.
Print Assumptions C67_enum_refuted.

(** The old class had no version: the entry has the key [None], not 0. *)
Theorem C67_version_refuted : exists fs gs rep rules, compares None fs gs rep /\ rp_rules rep = Some (None, rules) /\ rules <> [] /\
  forall E rf addr, read_entry E (entry_text rf addr None rules) = Some (VNone, rules).
Proof.
  exists [("x", (TInt, DMissing)); ("y", (TInt, DMissing))], [("x", (TInt, DMissing))]. do 2 eexists. split; [compares|].
  split; [reflexivity|]. split; [discriminate|]. intros. apply (entry_back E rf addr None). repeat constructor.
Qed.
Print Assumptions C67_version_refuted.

(** ** C68: every printed line says how severe a change is and which field it is about *)

(** One line for each change, in order, then the verdict.  The descriptions may contain
    anything but newlines (they show default values). *)
Theorem C68_lines_partial : forall rf addr file clz rep, check_schema file clz = Ok rep ->
  (forall s c, In (s, c) (rp_lines rep) ->
     has_char (ascii_of_nat 10) (diagnostic rf addr c) = false /\ forallb (every letter) (change_field c) = true /\ change_field c <> []) ->
  exists ls rest, split_on (ascii_of_nat 10) (report_text rf addr rep) =
    (ls ++ (if rp_version_warning rep then ["warn  schema changed but version identical"] else []) ++
     (if all_info (rp_lines rep) then "Schema compatible" else "Schema incompatible") :: rest)%list /\
    map read_line ls = map (fun sc => Some (severity_word (fst sc), change_field (snd sc))) (rp_lines rep).
Proof.
  intros rf addr file clz rep C H. destruct (report_lines rf addr file clz rep C) as [rest R].
  { intros s c Hc. rewrite where_is. eauto. }
  exists (map (diagnostic_line rf addr) (rp_lines rep)), rest. split; [exact R|]. rewrite map_map. apply map_ext_in.
  intros [s c] Hc. apply H in Hc as (_ & H1 & H2). cbn [fst snd]. rewrite <- where_is in *. now apply line_back.
Qed.
Print Assumptions C68_lines_partial.

(** A new field that has a default is reported as one that has none. *)
Theorem C68_default_refuted : exists fs gs rep, compares (Some (2%Z, [])) fs gs rep /\ gs = [("x", (TInt, DValue (VInt 1)))] /\
  forall rf addr, report_text rf addr rep =
    line "info  new field without default value: x" ++ line "Schema compatible".
Proof. exists [], [("x", (TInt, DValue (VInt 1)))]. eexists. split; [compares|]. split; reflexivity. Qed.
Print Assumptions C68_default_refuted.

(** The old name of a renamed enum variant is not printed: two different changes give the
    same report. *)
Theorem C68_variant_refuted : exists fs fs' gs rep rep', compares (Some (2%Z, [])) fs gs rep /\ compares (Some (2%Z, [])) fs' gs rep' /\
  rp_lines rep = [(INFO, EnumVariantRenamed ["x"] "Act" "relu" "relu6")] /\
  rp_lines rep' = [(INFO, EnumVariantRenamed ["x"] "Act" "relux" "relu6")] /\
  forall rf addr, report_text rf addr rep = report_text rf addr rep'.
Proof.
  exists [("x", (TEnum "Act" [("relu", VInt 1)], DMissing))], [("x", (TEnum "Act" [("relux", VInt 1)], DMissing))],
         [("x", (TEnum "Act" [("relu6", VInt 1)], DMissing))]. do 2 eexists. split; [compares|]. split; [compares|].
  split; [reflexivity|]. split; [reflexivity|]. reflexivity.
Qed.
Print Assumptions C68_variant_refuted.

(** Values are printed with [str]: a default that changes from 1 to "1" "changed from 1 to
    1". *)
Theorem C68_value_refuted : exists fs gs rep, compares (Some (2%Z, [])) fs gs rep /\
  In (WARN, DefaultValueChanged ["x"] (VInt 1) (VStr "1")) (rp_lines rep) /\
  forall rf addr, diagnostic_line rf addr (WARN, DefaultValueChanged ["x"] (VInt 1) (VStr "1")) = "warn  default value changed from 1 to 1: x".
Proof.
  exists [("x", (TInt, DValue (VInt 1)))], [("x", (TStr, DValue (VStr "1")))]. eexists. split; [compares|].
  split; [right; left; reflexivity|reflexivity].
Qed.
Print Assumptions C68_value_refuted.

(** ** Example *)

(** A renamed field, a removed one, a changed default (with quotes, a backslash and a
    newline), a removed value of a literal, a new field with a list. *)
Definition render_old : list (string * (ty * dflt)) :=
  [("lr_rate", (TFloat, DMissing)); ("gone", (TStr, DMissing)); ("note", (TStr, DValue (VStr "it's")));
   ("act", (TLit [VStr "a"; VInt 1], DMissing))].
Definition render_new : list (string * (ty * dflt)) :=
  [("lr_rates", (TFloat, DMissing)); ("note", (TStr, DValue (VStr (String "\" (String (ascii_of_nat 10) "'""")))));
   ("act", (TLit [VInt 1], DMissing)); ("more", (TList TInt, DMissing))].
Definition render_rules : list rule :=
  [ChangeDefault ["note"] (VStr "it's") (VStr (String "\" (String (ascii_of_nat 10) "'""")));
   RejectValues ["act"] [VStr "a"]; AddDefault ["more"] (VList []); DeleteField ["gone"]; RenameField ["lr_rate"] ["lr_rates"]].

Example C67_C68_example : exists rep, compares (Some (2%Z, [])) render_old render_new rep /\
  rp_rules rep = Some (Some 2%Z, render_rules) /\ rp_bump rep = Some 3%Z /\
  Forall (pasteable ex_env (fun _ => "")) render_rules /\
  (forall rf addr, entry_text rf addr (Some 2%Z) render_rules =
    line "    2: [" ++
    line "        ChangeDefault(field=('note',), old_default=""it's"", new_default='\\\n\'""')," ++
    line "        RejectValues(field=('act',), disallowed_values={'a'})," ++
    line "        AddDefault(field=('more',), default=[])," ++
    line "        DeleteField(field=('gone',))," ++
    line "        RenameField(old_field=('lr_rate',), new_field=('lr_rates',))," ++
    line "    ],") /\
  (forall s c, In (s, c) (rp_lines rep) -> forallb (every letter) (change_field c) = true /\ change_field c <> []) /\
  read_line "warn  field renamed to lr_rates: lr_rate" = Some ("warn ", ["lr_rate"]).
Proof.
  eexists. split; [compares|]. split; [reflexivity|]. split; [reflexivity|]. split; [repeat constructor|]. split; [reflexivity|]. split.
  - cbn [rp_lines]. intros s c H. repeat (destruct H as [H|H]; [injection H as <- <-; split; [reflexivity|discriminate]|]). destruct H.
  - reflexivity.
Qed.

Example C68_example : exists rep,
  compares (Some (2%Z, [])) [("lr", (TInt, DMissing)); ("opt", (TData (mkC "Opt" None) [("eps", (TStr, DMissing))], DMissing))]
    [("lr", (TOpt TInt, DMissing)); ("opt", (TData (mkC "Opt" None) [("eps", (TInt, DMissing))], DMissing))] rep /\
  (forall rf addr, forall s c, In (s, c) (rp_lines rep) ->
     has_char (ascii_of_nat 10) (diagnostic rf addr c) = false /\ forallb (every letter) (change_field c) = true /\ change_field c <> []) /\
  forall rf addr, report_text rf addr rep =
    line "info  type changed from int to Optional[int]: lr" ++
    line "error type changed from str to int: opt.eps" ++
    line "warn  schema changed but version identical" ++
    line "Schema incompatible" ++ line "" ++ line "Proposed mitigations" ++ line "- bump version to 3".
Proof.
  eexists. split; [compares|]. split.
  - cbn [rp_lines]. intros rf addr s c H. repeat (destruct H as [H|H]; [injection H as <- <-; split; [reflexivity|split; [reflexivity|discriminate]]|]). destruct H.
  - reflexivity.
Qed.
