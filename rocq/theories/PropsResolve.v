(** PropsResolve.v -- the rules that check-schema proposes settle its report (C69). *)
From Verif Require Import Base Value Schema Rewrite Types FromDict Checker SpecTree SpecRenames SpecCheck SpecResolve ResolveFacts ResolveRules.

(** C69: a stored schema is compared with a class that has sub-configs at the same places;
    fields may have been added, removed, renamed and moved between them.  The entry that
    check-schema prints (for version [w]) is put into the class, and so is the version it
    asks for, if any; then check-schema says that the schema is compatible, proposes
    nothing more, and upgrade-schema rewrites the file.  Missing: changes of the other
    kinds (see below), renamed enum variants, sub-configs added, removed or inside other
    types, and their defaults. *)
Theorem C69_check_schema_partial : forall file c' c2 gs nm sf v v' sg rules rep w fixes rules',
  load_schema file = Ok (SStruct nm sf (Some v)) -> materialize_type (TData c' gs) = Ok (SStruct (c_name c') sg (Some v')) ->
  distinct_names (SStruct nm sf (Some v)) -> distinct_names (SStruct (c_name c') sg (Some v')) -> plain_fields sf -> plain_fields sg -> same_places sf sg ->
  c_versioned c' = Some (v', rules) -> (v' = v \/ v' = v + 1 /\ rules_at rules v = [])%Z ->
  check_schema file (TData c' gs) = Ok rep ->
  (forall w ch, In (w, ch) (rp_lines rep) -> w <> ERROR /\ settled sf sg ch) ->
  rp_rules rep = Some (Some w, fixes) -> rules_at rules' w = fixes ->
  c_versioned c2 = Some (match rp_bump rep with Some b => b | None => v' end, rules') ->
  exists rep' file', check_schema file (TData c2 gs) = Ok rep' /\ rp_compatible rep' = true /\ rp_rules rep' = None /\ rp_bump rep' = None /\
    rp_version_warning rep' = false /\ dump_schema (TData c2 gs) = Ok file' /\ upgrade_schema file (TData c2 gs) = Ok (Rewritten file').
Proof. exact settle_check_schema. Qed.
Print Assumptions C69_check_schema_partial.

(** The same about the rules alone: applied to the old schema they give one that differs
    from the new schema in harmless ways only. *)
Theorem C69_rules_partial : forall nm fs ver nm' gs ver' nm2 ver2 k,
  distinct_names (SStruct nm fs ver) -> distinct_names (SStruct nm' gs ver') -> plain_fields fs -> plain_fields gs -> same_places fs gs ->
  compare_schemas (SStruct nm fs ver) (SStruct nm' gs ver') = Ok k ->
  (forall ch, In ch (ck_changes k) -> change_severity ch <> ERROR /\ settled fs gs ch) ->
  exists fs1 k1, apply_rules_schema (ck_fixes k) (SStruct nm fs ver) = Ok (SStruct nm fs1 ver) /\
    compare_schemas (SStruct nm fs1 ver) (SStruct nm2 gs ver2) = Ok k1 /\ checker_severity k1 = INFO /\
    ck_old k1 = SStruct nm fs1 ver /\ ck_new k1 = SStruct nm2 gs ver2.
Proof. exact rules_settle. Qed.
Print Assumptions C69_rules_partial.

(** removed and added fields, one moved into a sub-config, a changed enum value, changed
    defaults, a type that becomes a literal, one that is widened *)
Definition settle_sub (fields : list (string * (ty * dflt))) : ty := TData (mkC "Opt" None) fields.
Definition settle_old : list (string * (ty * dflt)) :=
  [("learning_rate", (TFloat, DMissing)); ("act", (TEnum "Act" [("RELU", VStr "relu"); ("TANH", VStr "tanh")], DMissing));
   ("steps", (TInt, DValue (VInt 10))); ("mode", (TStr, DMissing)); ("debug_verbosity", (TBool, DValue (VBool false)));
   ("opt", (settle_sub [("size", (TInt, DMissing)); ("momentum", (TFloat, DMissing)); ("deep", (settle_sub [("eps", (TInt, DValue (VInt 1)))], DMissing))], DMissing))].
Definition settle_new : list (string * (ty * dflt)) :=
  [("act", (TEnum "Act" [("RELU", VStr "ReLU"); ("TANH", VStr "tanh"); ("GELU", VStr "gelu")], DMissing));
   ("steps", (TInt, DValue (VInt 20))); ("mode", (TLit [VStr "a"; VStr "b"], DMissing));
   ("opt", (settle_sub [("size", (TFloat, DMissing)); ("learning_rate", (TFloat, DMissing));
                        ("deep", (settle_sub [("eps", (TInt, DValue (VInt 2))); ("x", (TOpt TStr, DMissing))], DMissing))], DMissing))].
Definition settle_rules : list rule :=
  [MapFieldValue ["act"] (fun x => Ok (if py_eq x (VStr "relu") then VStr "ReLU" else x)) None;
   ChangeDefault ["steps"] (VInt 10) (VInt 20); CheckValue ["mode"] [VStr "a"; VStr "b"]; ChangeDefault ["opt"; "deep"; "eps"] (VInt 1) (VInt 2);
   AddDefault ["opt"; "deep"; "x"] VNone; DeleteField ["opt"; "momentum"]; DeleteField ["debug_verbosity"]; RenameField ["learning_rate"] ["opt"; "learning_rate"]].
Definition settle_c (ver : Z) (rules : list rule) : cinfo := mkC "Config" (Some (ver, match rules with [] => [] | _ => [(2%Z, rules)] end)).
Definition schema_fields (s : res sty) : list (string * (sty * fmeta)) := match s with Ok (SStruct _ fs _) => fs | _ => [] end.

Example C69_case :
  let c := settle_c 2 [] in
  exists file rep sf sg, dump_schema (TData c settle_old) = Ok file /\ load_schema file = Ok (SStruct "Config" sf (Some 2%Z)) /\
    materialize_type (TData c settle_new) = Ok (SStruct "Config" sg (Some 2%Z)) /\
    distinct_names (SStruct "Config" sf (Some 2%Z)) /\ distinct_names (SStruct "Config" sg (Some 2%Z)) /\ plain_fields sf /\ plain_fields sg /\ same_places sf sg /\
    check_schema file (TData c settle_new) = Ok rep /\ rp_compatible rep = false /\
    (forall w ch, In (w, ch) (rp_lines rep) -> w <> ERROR /\ settled sf sg ch) /\
    rp_rules rep = Some (Some 2%Z, settle_rules) /\ rp_bump rep = Some 3%Z /\
    exists rep', check_schema file (TData (settle_c 3 settle_rules) settle_new) = Ok rep' /\ rp_compatible rep' = true /\
      map snd (rp_lines rep') =
        [EnumVariantAdded ["act"] "Act" "GELU" (VStr "gelu"); TypeChanged ["opt"; "size"] (SPrim "int") (SPrim "float");
         TypeChanged ["opt"; "deep"; "x"] SNothing (SOption (SPrim "str"))].
Proof.
  cbv zeta. eexists. eexists.
  exists (schema_fields (materialize_type (TData (settle_c 2 []) settle_old))), (schema_fields (materialize_type (TData (settle_c 2 []) settle_new))).
  split; [vm_compute; reflexivity|]. split; [vm_compute; reflexivity|]. split; [vm_compute; reflexivity|].
  split; [vm_compute; repeat split; repeat constructor; intros H; repeat destruct H as [H|H]; try discriminate H; destruct H|].
  split; [vm_compute; repeat split; repeat constructor; intros H; repeat destruct H as [H|H]; try discriminate H; destruct H|].
  split.
  { intros n f I. vm_compute in I. repeat destruct I as [I|I]; try (destruct I; fail); injection I as <- <-; cbn; auto 20. intros v x J. repeat destruct J as [J|J]; try (destruct J; fail); injection J as <- <-; reflexivity. }
  split.
  { intros n f I. vm_compute in I. repeat destruct I as [I|I]; try (destruct I; fail); injection I as <- <-; cbn; auto 20.
    - intros v x J. repeat destruct J as [J|J]; try (destruct J; fail); injection J as <- <-; reflexivity.
    - intros x J. repeat destruct J as [J|J]; try (destruct J; fail); subst x; reflexivity. }
  split.
  { intros [|a [|b [|c r]]]; cbn; repeat (match goal with |- context [String.eqb ?x ?y] => destruct (String.eqb_spec x y) as [->|_] end; cbn);
      split; intros; try reflexivity; discriminate. }
  split; [cbv; reflexivity|]. split; [reflexivity|]. split.
  { intros w ch H. cbn [rp_lines In map snd] in H.
    repeat match goal with H : _ \/ _ |- _ => destruct H as [H|H] end; try (destruct H; fail); injection H as <- <-; (split; [discriminate|]); cbn [settled]; try exact Logic.I.
    - do 6 eexists. split; [reflexivity|]. split; [reflexivity|]. split; [now left|]. split; [reflexivity|]. split; [reflexivity|].
      intros w z J. cbn in J. repeat destruct J as [J|J]; try (destruct J; fail); injection J as <- <-; (split; [reflexivity|]); intros N; try reflexivity; now destruct N.
    - split; [discriminate|split; reflexivity].
    - right. do 2 eexists. split; reflexivity.
    - left. reflexivity.
    - split; [discriminate|split; reflexivity].
    - intros f g If Ig. vm_compute in If. injection If as <-. exact Logic.I. }
  split; [reflexivity|]. split; [reflexivity|]. eexists. split; [vm_compute; reflexivity|]. split; reflexivity.
Qed.

(** ** What is not settled
    The old class has fields [fs] and version 2, the new one fields [gs]; check-schema
    reports the changes [cs], all repaired by rules; [after] is what it says once the rules
    are in the class and the version is 3. *)
Definition once_pasted (fs gs : list (string * (ty * dflt))) (cs : list change) (after : list rule -> res report -> Prop) : Prop :=
  exists file rep rules, dump_schema (TData (settle_c 2 []) fs) = Ok file /\ check_schema file (TData (settle_c 2 []) gs) = Ok rep /\
    rp_lines rep = map (fun ch => (WARN, ch)) cs /\ rp_rules rep = Some (Some 2%Z, rules) /\ rp_bump rep = Some 3%Z /\
    after rules (check_schema file (TData (settle_c 3 rules) gs)).
(** it proposes the rules [more] for the next version *)
Definition not_settled (more : list rule -> list rule -> Prop) (rules : list rule) (r : res report) : Prop :=
  exists rep rules', r = Ok rep /\ rp_compatible rep = false /\ rp_rules rep = Some (Some 2%Z, rules') /\ more rules rules'.
Definition raises (e : exc) (rules : list rule) (r : res report) : Prop := r = Err e.
Definition proposed (fs gs : list (string * (ty * dflt))) : list rule :=
  match (let* file := dump_schema (TData (settle_c 2 []) fs) in check_schema file (TData (settle_c 2 []) gs)) with
  | Ok rep => match rp_rules rep with Some (_, rules) => rules | None => [] end
  | Err _ => []
  end.
Ltac pasted :=
  match goal with |- once_pasted ?fs ?gs _ _ => do 2 eexists; exists (proposed fs gs) end;
  split; [vm_compute; reflexivity|]; split; [cbv; reflexivity|]; split; [reflexivity|]; split; [cbv; reflexivity|]; split; [reflexivity|];
  first [vm_compute; reflexivity | do 2 eexists; split; [vm_compute; reflexivity|]; split; [reflexivity|]; split; reflexivity].

(** A default is removed: the proposed AddDefault does not change the schema of a field that
    has a default, so it is proposed again. *)
Theorem C69_default_removed_refuted : exists fs gs, once_pasted fs gs [DefaultValueRemoved ["x"] (VInt 1)] (not_settled eq).
Proof. exists [("x", (TInt, DValue (VInt 1)))], [("x", (TInt, DMissing))]. pasted. Qed.
Print Assumptions C69_default_removed_refuted.

(** A value becomes a list: the proposed MapFieldValue does not change the type. *)
Theorem C69_wrap_refuted : exists fs gs, once_pasted fs gs [TypeChanged ["x"] (SPrim "int") (SList (SPrim "int"))] (not_settled eq).
Proof. exists [("x", (TInt, DMissing))], [("x", (TList TInt, DMissing))]. pasted. Qed.
Print Assumptions C69_wrap_refuted.

(** A literal loses a value: the proposed RejectValues cannot be applied to any schema. *)
Theorem C69_literal_refuted : exists fs gs, once_pasted fs gs [LiteralValuesRemoved ["x"] [VInt 2]] (raises AssertionError).
Proof. exists [("x", (TLit [VInt 1; VInt 2], DMissing))], [("x", (TLit [VInt 1], DMissing))]. pasted. Qed.
Print Assumptions C69_literal_refuted.

(** A field with a Tuple, Dict or Union type is renamed: it can be compared only as long as
    the names differ.  Stored schemas cannot have such types (check-schema raises
    ValueError), but a SchemaChecker can be made from two classes. *)
Theorem C69_rename_refuted : forall t, In t [TTuple [TInt; TInt]; TDict TStr TInt; TUnion [TInt; TStr]] ->
  exists old k, materialize_type (TData (settle_c 2 []) [("size", (t, DMissing))]) = Ok old /\
    schema_checker old (TData (settle_c 2 []) [("sise", (t, DMissing))]) true = Ok k /\
    ck_changes k = [FieldRenamed ["size"] ["sise"]] /\ checker_severity k = WARN /\ ck_fixes k = [RenameField ["size"] ["sise"]] /\
    schema_checker old (TData (settle_c 3 (ck_fixes k)) [("sise", (t, DMissing))]) true = Err ValueError.
Proof.
  intros t I. repeat destruct I as [<-|I]; try (destruct I; fail); do 2 eexists; (split; [reflexivity|]); (split; [vm_compute; reflexivity|]); repeat split; vm_compute; reflexivity.
Qed.
Print Assumptions C69_rename_refuted.

(** The value of a variant changes in an enum inside Optional: the proposed MapFieldValue
    changes enums only. *)
Theorem C69_enum_inside_refuted : exists fs gs, once_pasted fs gs [EnumVariantValueChanged ["x"] "A" "R" (VInt 1) (VInt 2)] (not_settled eq).
Proof. exists [("x", (TOpt (TEnum "A" [("R", VInt 1)]), DMissing))], [("x", (TOpt (TEnum "A" [("R", VInt 2)]), DMissing))]. pasted. Qed.
Print Assumptions C69_enum_inside_refuted.

(** Two variants exchange their values: the two proposed rules, applied one after the
    other, give both the same value. *)
Theorem C69_enum_swap_refuted : exists fs gs,
  once_pasted fs gs [EnumVariantValueChanged ["x"] "A" "P" (VInt 1) (VInt 2); EnumVariantValueChanged ["x"] "A" "Q" (VInt 2) (VInt 1)]
    (fun _ r => exists rep, r = Ok rep /\ rp_lines rep = [(WARN, EnumVariantValueChanged ["x"] "A" "P" (VInt 1) (VInt 2))]).
Proof.
  exists [("x", (TEnum "A" [("P", VInt 1); ("Q", VInt 2)], DMissing))], [("x", (TEnum "A" [("P", VInt 2); ("Q", VInt 1)], DMissing))].
  match goal with |- once_pasted ?fs ?gs _ _ => do 2 eexists; exists (proposed fs gs) end.
  split; [vm_compute; reflexivity|]. split; [cbv; reflexivity|]. split; [reflexivity|]. split; [cbv; reflexivity|]. split; [reflexivity|].
  eexists. split; [vm_compute; reflexivity|]. reflexivity.
Qed.
Print Assumptions C69_enum_swap_refuted.

(** The elements of a list become literals: the proposed CheckValue makes the whole field a
    literal, and the next rule proposed puts the lists of files into lists. *)
Theorem C69_check_inside_refuted : exists fs gs, once_pasted fs gs [TypeChanged ["x"] (SPrim "str") (SLit [VStr "a"])]
  (fun _ r => exists rep, r = Ok rep /\ rp_lines rep = [(WARN, TypeChanged ["x"] (SLit [VStr "a"]) (SList (SLit [VStr "a"])))] /\
     rp_rules rep = Some (Some 2%Z, [MapFieldValue ["x"] (fun x => Ok (VList [x])) (Some "lambda x: [x]")])).
Proof.
  exists [("x", (TList TStr, DMissing))], [("x", (TList (TLit [VStr "a"]), DMissing))].
  match goal with |- once_pasted ?fs ?gs _ _ => do 2 eexists; exists (proposed fs gs) end.
  split; [vm_compute; reflexivity|]. split; [cbv; reflexivity|]. split; [reflexivity|]. split; [cbv; reflexivity|]. split; [reflexivity|].
  eexists. split; [vm_compute; reflexivity|]. split; reflexivity.
Qed.
Print Assumptions C69_check_inside_refuted.
