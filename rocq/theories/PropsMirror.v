(** PropsMirror.v -- C25: a rule does to the schema what it does to files.
    Vocabulary ([fits], [keeps_types], [keeps_complete], [in_step]): SpecMirror.v. *)
From Verif Require Import Base Value Schema Rewrite Sched Types FromDict Checker SpecTree SpecMirror RewriteFacts MirrorFacts.

(** A file that conforms to the schema (for [complete := false]: has no unknown or
    wrongly typed fields; for [true]: also lacks none) conforms to the upgraded schema
    after the rule.  Missing for the full claim: the rules and places excluded by
    [keeps_types] and [keeps_complete], where it is false (below). *)
Theorem C25_rule_partial : forall complete n fs ver m r s' x',
  fits complete (SStruct n fs ver) (VDict m) -> keeps_types complete (SStruct n fs ver) r ->
  (complete = true -> keeps_complete (SStruct n fs ver) (VDict m) r) ->
  apply_rule_schema r (SStruct n fs ver) = Ok s' -> apply_rule r (VDict m) = Ok x' ->
  fits complete s' x' /\ exists fs' m', s' = SStruct n fs' ver /\ x' = VDict m'.
Proof. exact mirror_rule. Qed.
Print Assumptions C25_rule_partial.

(** the same for all the rules between the version of the file and the current one *)
Theorem C25_upgrades_partial : forall complete n fs v m cur rules s' x',
  fits complete (SStruct n fs (Some v)) (VDict m) ->
  in_step complete (SStruct n fs (Some v)) (VDict m) (flat_map (rules_at rules) (zrange v cur)) ->
  apply_schema_upgrades cur rules (SStruct n fs (Some v)) = Ok s' ->
  apply_upgrades cur rules (VDict m) (VInt v) = Ok x' -> fits complete s' x'.
Proof. exact mirror_upgrades. Qed.
Print Assumptions C25_upgrades_partial.

(** on a file that conforms, a rule that applies to the schema does not fail *)
Theorem C25_runs_partial : forall complete n fs ver m r s',
  fits complete (SStruct n fs ver) (VDict m) -> keeps_types complete (SStruct n fs ver) r ->
  apply_rule_schema r (SStruct n fs ver) = Ok s' ->
  match r with
  | MapFieldValue p f _ => forall v, lookup (VDict m) p = Some v -> exists v', f v = Ok v'
  | CheckValue _ _ => False
  | _ => True
  end ->
  exists x', apply_rule r (VDict m) = Ok x'.
Proof. exact rule_runs. Qed.
Print Assumptions C25_runs_partial.

(** A config with a section, an optional section and an enum. *)
Definition req (n : string) : fmeta := mkF n VNone false None.
Definition opt (n : string) (v : pyval) : fmeta := mkF n v true None.
Definition m_opt : sty := SStruct "Opt" [("lr", (SPrim "float", req "lr")); ("eps", (SPrim "int", opt "eps" (VInt 1)))] None.
Definition m_fields : list (string * (sty * fmeta)) :=
  [("opt", (m_opt, req "opt")); ("eval", (SOption m_opt, opt "eval" VNone)); ("act", (SEnum "Act" [("RELU", VStr "relu")], req "act"))].
Definition m_schema : sty := SStruct "Config" m_fields (Some 0%Z).
Definition m_file : list (string * pyval) :=
  [("opt", VDict [("lr", VInt 3)]); ("eval", VNone); ("act", VStr "relu")].
Definition m_upper (v : pyval) : res pyval := match v with VStr s => if String.eqb s "relu" then Ok (VStr "RELU") else Err ValueError | _ => Err ValueError end.
Definition m_rules : list rule :=
  [RenameField ["opt"; "lr"] ["optimizer"; "rate"]; AddDefault ["eval"; "eps"] (VInt 1); MapFieldValue ["act"] m_upper None;
   ChangeDefault ["opt"; "eps"] (VInt 1) (VInt 2); DeleteField ["eval"; "lr"]].

Ltac optional := first [apply op_default; reflexivity|apply optional_entries; repeat (apply Forall_cons || apply Forall_nil); cbn [fst snd]; optional].
Ltac fits :=
  lazymatch goal with
  | |- fits _ (SStruct _ _ _) (VDict _) =>
      apply fits_entries; [reflexivity|reflexivity| |];
      repeat (apply Forall_cons || apply Forall_nil); cbn [fst snd];
      first [left; reflexivity|right; do 2 eexists; split; [reflexivity|fits]|left; eexists; split; reflexivity|right; optional]
  | |- fits _ (SOption _) VNone => apply fi_none
  | |- fits _ (SOption _) _ => apply fi_some; fits
  | |- fits _ (SEnum _ _) _ => eapply fi_enum; [left; reflexivity|reflexivity]
  | |- _ => constructor
  end.

Example C25_case_file : fits true m_schema (VDict m_file).
Proof. unfold m_schema, m_fields, m_opt, m_file. fits. Qed.

Ltac through :=
  match goal with
  | |- through _ [] => exact I
  | |- through _ (_ :: _) =>
      split; [reflexivity|]; do 3 eexists; split; [reflexivity|]; split; [apply nodupb_NoDup; reflexivity|];
      let H := fresh in intros ? ? H; first [discriminate H|injection H as <- <-]; through
  end.

(** the hypotheses of [C25_upgrades_partial] hold, for complete files *)
Example C25_case :
  in_step true m_schema (VDict m_file) (flat_map (rules_at [(0%Z, m_rules)]) (zrange 0 1)) /\
  (exists s', apply_schema_upgrades 1 [(0%Z, m_rules)] m_schema = Ok s') /\
  apply_upgrades 1 [(0%Z, m_rules)] (VDict m_file) (VInt 0) =
  Ok (VDict [("opt", VDict [("eps", VInt 1)]); ("eval", VNone); ("optimizer", VDict [("rate", VInt 3)]); ("act", VStr "RELU")]).
Proof.
  split; [|split; [eexists; vm_compute; reflexivity|reflexivity]].
  change (in_step true m_schema (VDict m_file) m_rules). unfold m_rules.
  cbn [in_step]. split; [|split].
  { cbn [keeps_types]. split; [through|]. split; [through|]. split; [repeat split|]. right. reflexivity. }
  { intros _. cbn [keeps_complete]. split.
    - cbn [given_or_none]. intros * E A. simpl in E. inversion E; subst. discriminate.
    - left. intros q (r & R & E). destruct q as [|a [|b q]]; simpl in E.
      + exists m_file. split; reflexivity.
      + injection E as <- E. exists [("lr", VInt 3)]. split; reflexivity.
      + injection E as <- <- E. destruct q; simpl in E; [|discriminate]. now subst. }
  Local Ltac next := let A := fresh in let X := fresh in intros ? ? A X; vm_compute in A, X; injection A as <-; injection X as <-; cbn [in_step].
  next. split; [|split].
  { cbn [keeps_types]. split; [through|]. do 2 eexists. split; [reflexivity|]. constructor. }
  { intros _. exact I. }
  next. split; [|split].
  { cbn [keeps_types]. split; [through|]. intros t g H. injection H as <- <-. intros v w v' w' E V W. unfold m_upper in *.
    destruct v as [| | | |a| | | | | | |]; try discriminate. destruct w as [| | | |b| | | | | | |]; try discriminate.
    destruct (String.eqb a "relu"); [|discriminate]. destruct (String.eqb b "relu"); [|discriminate].
    injection V as <-. injection W as <-. reflexivity. }
  { intros _. cbn [keeps_complete]. split.
    - intros _ q (r & R & E). destruct q as [|a q]; simpl in E; [eexists; split; reflexivity|].
      injection E as <- E. destruct q; simpl in E; [now subst|discriminate].
    - intros v v' H. unfold m_upper in H. destruct v as [| | | |a| | | | | | |]; try discriminate.
      destruct (String.eqb a "relu"); [|discriminate]. now injection H as <-. }
  next. split; [|split].
  { cbn [keeps_types]. split; [through|]. intros t g H. injection H as <- <-. constructor. }
  { intros _. cbn [keeps_complete]. split; [|intros t f H; now injection H as <- <-].
    intros H. now destruct H. }
  next. split; [cbn [keeps_types]; through|]. split; [intros _; exact I|]. intros; exact I.
Qed.

(** ** where it is false *)

(** classes inside lists: the schema changes, files do not (rewrite_rule.py:27 "handle lists") *)
Theorem C25_list_refuted : exists s x r s' x',
  fits true s x /\ apply_rule_schema r s = Ok s' /\ apply_rule r x = Ok x' /\ ~ fits false s' x'.
Proof.
  exists (SStruct "C" [("l", (SList (SStruct "E" [("a", (SPrim "int", req "a"))] None), req "l"))] None),
    (VDict [("l", VList [VDict [("a", VInt 1)]])]), (DeleteField ["l"; "a"]).
  do 2 eexists. split; [|split; [vm_compute; reflexivity|split; [vm_compute; reflexivity|]]].
  - fits. { intros x [<-|[]]. reflexivity. } intros x [<-|[]]. fits.
  - intros F. destruct (fits_struct_inv _ _ _ _ _ F) as (_ & T & _). specialize (T "l" _ _ _ eq_refl eq_refl eq_refl).
    assert (L : forall x, In x [VDict [("a", VInt 1)]] -> fits false (SStruct "E" [] None) x) by (inversion T; subst; auto). specialize (L _ (or_introl eq_refl)).
    destruct (fits_struct_inv _ _ _ _ _ L) as (K & _ & _). apply (K "a"); [now left|reflexivity].
Qed.
Print Assumptions C25_list_refuted.

(** optional enums: the values of files are mapped, those of the schema are not (rewrite_rule.py:68) *)
Theorem C25_optional_enum_refuted : exists s x r s' x',
  fits true s x /\ apply_rule_schema r s = Ok s' /\ apply_rule r x = Ok x' /\ ~ fits false s' x'.
Proof.
  exists (SStruct "C" [("act", (SOption (SEnum "Act" [("RELU", VStr "relu")]), req "act"))] None),
    (VDict [("act", VStr "relu")]), (MapFieldValue ["act"] m_upper None).
  do 2 eexists. split; [|split; [vm_compute; reflexivity|split; [vm_compute; reflexivity|]]].
  - fits.
  - intros F. destruct (fits_struct_inv _ _ _ _ _ F) as (_ & T & _). specialize (T "act" _ _ _ eq_refl eq_refl eq_refl).
    inversion T; subst. match goal with H : fits _ (SEnum _ _) _ |- _ => inversion H; subst end.
    match goal with H : In _ [_] |- _ => destruct H as [H|[]]; injection H as <- <- end. discriminate.
Qed.
Print Assumptions C25_optional_enum_refuted.

(** a field moved out of an optional section that the file leaves out is missing afterwards *)
Theorem C25_rename_out_refuted : exists s x r s' x',
  fits true s x /\ keeps_types true s r /\ apply_rule_schema r s = Ok s' /\ apply_rule r x = Ok x' /\ ~ fits true s' x'.
Proof.
  exists (SStruct "C" [("opt", (SOption (SStruct "O" [("lr", (SPrim "int", req "lr"))] None), req "opt"))] None),
    (VDict [("opt", VNone)]), (RenameField ["opt"; "lr"] ["lr"]).
  do 2 eexists. split; [|split; [|split; [vm_compute; reflexivity|split; [vm_compute; reflexivity|]]]].
  - fits.
  - cbn [keeps_types]. split; [through|]. split; [through|]. split; [repeat split|]. now right.
  - intros F. destruct (fits_struct_inv _ _ _ _ _ F) as (_ & _ & C).
    specialize (C eq_refl eq_refl "lr" _ _ eq_refl ltac:(intros v H; discriminate)). apply optional_prim in C. discriminate.
Qed.
Print Assumptions C25_rename_out_refuted.

(** a field moved into a section with a default that the file leaves out: the section is then
    there, without its other fields *)
Theorem C25_rename_into_refuted : exists s x r s' x',
  fits true s x /\ keeps_types true s r /\ apply_rule_schema r s = Ok s' /\ apply_rule r x = Ok x' /\ ~ fits true s' x'.
Proof.
  exists (SStruct "C" [("lr", (SPrim "int", req "lr"));
                       ("opt", (SStruct "O" [("eps", (SPrim "int", req "eps"))] None, opt "opt" (VDict [("eps", VInt 1)])))] None),
    (VDict [("lr", VInt 3)]), (RenameField ["lr"] ["opt"; "lr"]).
  do 2 eexists. split; [|split; [|split; [vm_compute; reflexivity|split; [vm_compute; reflexivity|]]]].
  - fits.
  - cbn [keeps_types]. split; [through|]. split; [through|]. split; [repeat split|]. now right.
  - intros F. destruct (fits_struct_inv _ _ _ _ _ F) as (_ & T & _). specialize (T "opt" _ _ _ eq_refl eq_refl eq_refl).
    destruct (fits_struct_inv _ _ _ _ _ T) as (_ & _ & C).
    specialize (C eq_refl eq_refl "eps" _ _ eq_refl ltac:(intros v H; discriminate)). apply optional_prim in C. discriminate.
Qed.
Print Assumptions C25_rename_into_refuted.

(** renaming onto a field that is still there: without the old field the file keeps the other
    one, which now has the wrong type *)
Theorem C25_rename_onto_refuted : exists s x r s' x',
  fits true s x /\ apply_rule_schema r s = Ok s' /\ apply_rule r x = Ok x' /\ ~ fits false s' x'.
Proof.
  exists (SStruct "C" [("a", (SPrim "int", opt "a" (VInt 0))); ("b", (SPrim "str", req "b"))] None),
    (VDict [("b", VStr "x")]), (RenameField ["a"] ["b"]).
  do 2 eexists. split; [|split; [vm_compute; reflexivity|split; [vm_compute; reflexivity|]]].
  - fits.
  - intros F. destruct (fits_struct_inv _ _ _ _ _ F) as (_ & T & _). specialize (T "b" _ _ _ eq_refl eq_refl eq_refl). inversion T.
Qed.
Print Assumptions C25_rename_onto_refuted.

(** AddDefault of a field that the old schema does not have, as check-schema proposes it for
    new fields: it gets the type that no value has, and no default (rewrite_rule.py:121-127) *)
Theorem C25_add_default_refuted : exists s x r s' x',
  fits true s x /\ apply_rule_schema r s = Ok s' /\ apply_rule r x = Ok x' /\ ~ fits false s' x'.
Proof.
  exists (SStruct "C" [("a", (SPrim "int", req "a"))] None), (VDict [("a", VInt 1)]), (AddDefault ["b"] (VInt 2)).
  do 2 eexists. split; [|split; [vm_compute; reflexivity|split; [vm_compute; reflexivity|]]].
  - fits.
  - intros F. destruct (fits_struct_inv _ _ _ _ _ F) as (_ & T & _). specialize (T "b" _ _ _ eq_refl eq_refl eq_refl). inversion T.
Qed.
Print Assumptions C25_add_default_refuted.

(** RejectValues: the schema upgrade always fails (rewrite_rule.py:172 tests the wrong object),
    so check-schema fails as soon as a class has such a rule *)
Theorem C25_reject_values_refuted : forall n fs ver p bad, p <> [] -> through (SStruct n fs ver) p ->
  apply_rule_schema (RejectValues p bad) (SStruct n fs ver) = Err AssertionError.
Proof. exact reject_schema. Qed.
Print Assumptions C25_reject_values_refuted.

Example C25_reject_values_case :
  through m_schema ["opt"; "lr"] /\ fits true m_schema (VDict m_file) /\
  exists x', apply_rule (RejectValues ["opt"; "lr"] [VInt 4]) (VDict m_file) = Ok x'.
Proof. split; [through|]. split; [apply C25_case_file|]. eexists. reflexivity. Qed.
