(** PropsReport.v -- the report of the schema checker accounts for every difference: C59. *)
From Verif Require Import Base Value Schema Types Checker SpecTypes SpecRenames CheckFacts FindFacts SpecReport ReportFacts.

(** [_find_changes] finds exactly the differences between the two schemas. *)
Theorem C59_found : forall old new cs, distinct_names old -> distinct_names new -> find_changes old new [] = Ok cs ->
  forall c, In c cs <-> difference old new c.
Proof. intros old new cs Do Dn F c. exact (find_report new old [] cs Do Dn F c). Qed.
Print Assumptions C59_found.

(** The report of the checker accounts for every difference and invents none. *)
Theorem C59_report_partial : forall old clz u k, schema_checker old clz u = Ok k ->
  distinct_names (ck_old k) -> distinct_names (ck_new k) -> accounts (ck_old k) (ck_new k) (ck_changes k).
Proof. exact checker_accounts. Qed.
Print Assumptions C59_report_partial.

(** By path: a value that only the old class has is reported as removed or renamed, one that only
    the new class has as added or the new name of one, and a value of both whose type or
    default changed as such. *)
Theorem C59_values : forall old new k, distinct_names old -> distinct_names new ->
  is_struct old = true -> is_struct new = true -> compare_schemas old new = Ok k ->
  (forall p f, value_field old p f -> (forall g, ~ value_field new p g) ->
     In (FieldRemoved p (fst f) (fm_default (snd f)) (fm_has_default (snd f))) (ck_changes k) \/
     exists q, In (FieldRenamed p q) (ck_changes k)) /\
  (forall p g, value_field new p g -> (forall f, ~ value_field old p f) ->
     In (FieldAdded p (fst g) (fm_default (snd g)) (fm_has_default (snd g))) (ck_changes k) \/
     exists q, In (FieldRenamed q p) (ck_changes k)) /\
  (forall p f g, value_field old p f -> value_field new p g ->
     (clash (fst f) (fst g) -> In (TypeChanged p (fst f) (fst g)) (ck_changes k)) /\
     (fm_has_default (snd f) = true -> fm_has_default (snd g) = true -> py_eq (fm_default (snd f)) (fm_default (snd g)) = false ->
        In (DefaultValueChanged p (fm_default (snd f)) (fm_default (snd g))) (ck_changes k)) /\
     (fm_has_default (snd f) = true -> fm_has_default (snd g) = false ->
        In (DefaultValueRemoved p (fm_default (snd f))) (ck_changes k))).
Proof. exact report_values. Qed.
Print Assumptions C59_values.

(** The comparison succeeds exactly if there are no two tuples, two dicts or two unions at the same place. *)
Theorem C59_succeeds_iff : forall old new, distinct_names old -> distinct_names new ->
  (exists k, compare_schemas old new = Ok k) <-> comparable_pair old new.
Proof. exact compare_succeeds. Qed.
Print Assumptions C59_succeeds_iff.

(** Adding a field to a class with a tuple: no report, an error instead. *)
Theorem C59_tuple_refuted : exists old new, distinct_names old /\ distinct_names new /\
  is_struct old = true /\ is_struct new = true /\ (exists c, difference old new c) /\ compare_schemas old new = Err ValueError.
Proof.
  pose (m n := mkF n VNone false None). pose (t := STuple [SPrim "float"; SPrim "float"]).
  exists (SStruct "C" [("betas", (t, m "betas"))] None), (SStruct "C" [("betas", (t, m "betas")); ("lr", (SPrim "float", m "lr"))] None).
  split; [cbn; intuition (repeat constructor; cbn; intuition discriminate)|]. split; [cbn; intuition (repeat constructor; cbn; intuition discriminate)|].
  do 2 (split; [reflexivity|]). split; [|reflexivity].
  exists (FieldAdded ["lr"] (SPrim "float") VNone false). exists []. do 2 eexists. split; [constructor|].
  apply (l_added [] "C" [("betas", (t, m "betas"))] None "C" [("betas", (t, m "betas")); ("lr", (SPrim "float", m "lr"))] None "lr" (SPrim "float", m "lr") [] (SPrim "float", m "lr")).
  - right. now left.
  - left. cbn. intuition discriminate.
  - now constructor.
Qed.
Print Assumptions C59_tuple_refuted.

(** A variant that an enum lost is not reported at its field if another enum got one with a similar name. *)
Theorem C59_enum_refuted : exists old new k p n v x, distinct_names old /\ distinct_names new /\ compare_schemas old new = Ok k /\
  difference old new (EnumVariantRemoved p n v x) /\ forall c, In c (ck_changes k) -> fst (change_key c) <> (7%nat, p) /\ snd (fst (change_key c)) <> p.
Proof.
  pose (m n := mkF n VNone false None).
  exists (SStruct "C" [("x", (SEnum "X" [("A", VInt 1); ("SLOW", VInt 2)], m "x")); ("y", (SEnum "Y" [("C", VInt 3)], m "y"))] None).
  exists (SStruct "C" [("x", (SEnum "X" [("A", VInt 1)], m "x")); ("y", (SEnum "Y" [("C", VInt 3); ("SLOW", VInt 2)], m "y"))] None).
  eexists. exists ["x"], "X", "SLOW", (VInt 2).
  split; [cbn; intuition (repeat constructor; cbn; intuition discriminate)|]. split; [cbn; intuition (repeat constructor; cbn; intuition discriminate)|].
  split; [vm_compute; reflexivity|]. split.
  - exists ["x"], (SEnum "X" [("A", VInt 1); ("SLOW", VInt 2)]), (SEnum "X" [("A", VInt 1)]). split.
    + change ["x"] with ([] ++ ["x"])%list.
      change (SEnum "X" [("A", VInt 1); ("SLOW", VInt 2)]) with (fst (SEnum "X" [("A", VInt 1); ("SLOW", VInt 2)], m "x")) at 2.
      change (SEnum "X" [("A", VInt 1)]) with (fst (SEnum "X" [("A", VInt 1)], m "x")) at 2.
      eapply cm_field; [constructor|now left|now left|reflexivity].
    + apply l_variant_removed; [right; now left|]. cbn. intuition discriminate.
  - intros c [<-|[]]. cbn. split; discriminate.
Qed.
Print Assumptions C59_enum_refuted.

(** A section whose field moved out, a renamed field, a changed default, a new literal and a changed type. *)
Example C59_case :
  let m n := mkF n VNone false None in let d n x := mkF n x true None in let int := SPrim "int" in
  let old := SStruct "C" [("net", (SStruct "Net" [("size", (int, d "size" (VInt 3))); ("depth", (int, m "depth"))] None, m "net"));
    ("mode", (SOption (SLit [VStr "a"]), m "mode")); ("learning_rate", (SPrim "float", m "learning_rate")); ("opt", (SStruct "Opt" [("beta", (SPrim "str", m "beta"))] None, m "opt"))] (Some 0%Z) in
  let new := SStruct "C" [("net", (SStruct "Net" [("size", (int, d "size" (VInt 4))); ("depth", (SList int, m "depth"))] None, m "net"));
    ("mode", (SOption (SLit [VStr "a"; VStr "b"]), m "mode")); ("lr", (SPrim "float", m "lr")); ("opt", (int, m "opt"))] (Some 0%Z) in
  exists k, distinct_names old /\ distinct_names new /\ is_struct old = true /\ is_struct new = true /\ compare_schemas old new = Ok k /\
    value_field old ["net"; "size"] (int, d "size" (VInt 3)) /\ value_field new ["net"; "size"] (int, d "size" (VInt 4)) /\
    value_field old ["opt"; "beta"] (SPrim "str", m "beta") /\
    ck_changes k = [DefaultValueChanged ["net"; "size"] (VInt 3) (VInt 4); TypeChanged ["net"; "depth"] int (SList int);
      LiteralValuesAdded ["mode"] [VStr "b"]; FieldAdded ["opt"] int VNone false; FieldRemoved ["opt"; "beta"] (SPrim "str") VNone false;
      FieldRenamed ["learning_rate"] ["lr"]].
Proof.
  cbv zeta. eexists. split; [|split]; [cbn; intuition (repeat constructor; cbn; intuition discriminate)..|].
  do 2 (split; [reflexivity|]). split; [vm_compute; reflexivity|].
  split; [econstructor; [now left|]; eapply leaf_sub; [reflexivity|now left|now constructor]|].
  split; [econstructor; [now left|]; eapply leaf_sub; [reflexivity|now left|now constructor]|].
  split; [econstructor; [do 3 right; now left|]; eapply leaf_sub; [reflexivity|now left|now constructor]|].
  vm_compute. reflexivity.
Qed.
