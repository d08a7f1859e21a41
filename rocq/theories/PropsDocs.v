(** PropsDocs.v -- descriptions of fields: C65 and C66. *)
From Verif Require Import Base Value Schema Rewrite Sched Types Asdict FromDict Checker HelpM Docs
  SpecTree SpecTypes SpecDocs DocsFacts Examples.

(** ** C65 *)
(** At every place of a schema: a field has a description if and only if its class or a base
    class gives one, and it is the last of those given, in the order class, then bases from
    left to right. *)
Theorem C65_description : forall D t s k gs n f, materialize_docs D t = Ok s -> inside t s k gs -> In (n, f) gs ->
  (given (D k) n = [] /\ fm_doc (snd f) = None) \/
  exists before x, given (D k) n = (before ++ [x])%list /\ fm_doc (snd f) = Some x.
Proof. exact described. Qed.
Print Assumptions C65_description.

(** Apart from descriptions the schema does not depend on docstrings. *)
Theorem C65_only_descriptions : forall D t, materialize_type t = let* s := materialize_docs D t in Ok (bare s).
Proof. exact materialize_bare. Qed.
Print Assumptions C65_only_descriptions.

Definition tNet : ty := TData (mkC "Net" None) [("layers", (TInt, DMissing)); ("width", (TInt, DValue (VInt 64)))].
Definition base_doc : docclass := DC [("layers", Some "number of layers"); ("width", Some "units per layer")] [].

(** A class that describes an inherited field anew does not get its own description, but
    that of the base class. *)
Theorem C65_override_refuted : exists D own s n gs v f,
  D tNet = DC [("layers", Some own)] [base_doc] /\ materialize_docs D tNet = Ok s /\ s = SStruct n gs v /\
  aget "layers" gs = Some f /\ fm_doc (snd f) = Some "number of layers" /\ own <> "number of layers".
Proof.
  exists (fun _ => DC [("layers", Some "number of residual blocks")] [base_doc]), "number of residual blocks". do 5 eexists.
  split; [reflexivity|]. split; [vm_compute; reflexivity|]. split; [reflexivity|]. split; [reflexivity|]. split; [reflexivity|discriminate].
Qed.
Print Assumptions C65_override_refuted.

Example C65_ex : exists s, materialize_docs (fun _ => DC [("width", None)] [base_doc]) (TOpt tNet) = Ok s /\
  inside (TOpt tNet) s tNet
    [("layers", (SPrim "int", mkF "layers" VNone false (Some "number of layers")));
     ("width", (SPrim "int", mkF "width" (VInt 64) true (Some "units per layer")))].
Proof. eexists. split; [vm_compute; reflexivity|]. apply in_opt, in_here. Qed.

(** ** C66 *)
(** Whatever the descriptions in the schemas compared, and in the types reported, the checker
    finds the same changes in the same order, raises the same exceptions, and says
    "compatible" for the same schemas. *)
Theorem C66_changes : forall old old' new new', bare old = bare old' -> bare new = bare new' ->
  in_schema_file old -> regular old -> regular new ->
  match compare_schemas old new, compare_schemas old' new' with
  | Ok k, Ok k' => map bare_change (ck_changes k) = map bare_change (ck_changes k') /\
      (checker_severity k = INFO <-> checker_severity k' = INFO)
  | Err e, Err e' => e = e'
  | _, _ => False
  end.
Proof. exact docs_changes. Qed.
Print Assumptions C66_changes.

(** The severities and proposed rules are the same too, if the types that changed (before)
    contain no classes.
    Missing: the other types, for which it is false (next). *)
Theorem C66_fixes_partial : forall old old' new new' k k', bare old = bare old' -> bare new = bare new' ->
  in_schema_file old -> regular old -> regular new ->
  compare_schemas old new = Ok k -> compare_schemas old' new' = Ok k' ->
  (forall p o n, In (TypeChanged p o n) (ck_changes k) -> classless o) ->
  ck_fixes k = ck_fixes k' /\ map change_severity (ck_changes k) = map change_severity (ck_changes k') /\ checker_severity k = checker_severity k'.
Proof. exact docs_fixes. Qed.
Print Assumptions C66_fixes_partial.

(** Schema files do not contain descriptions. *)
Theorem C66_files : forall D D' t s s', materialize_docs D t = Ok s -> materialize_docs D' t = Ok s' ->
  bare s = bare s' /\ schema_from_namedtuple (schema_ron s) = schema_from_namedtuple (schema_ron s').
Proof.
  intros D D' t s s' A B. pose proof (same_class_bare _ _ _ _ _ A B) as E. split; [exact E|exact (file_without_docs _ _ E)].
Qed.
Print Assumptions C66_files.

Definition tUser (t : ty) : ty := TData (mkC "Cfg" None) [("net", (t, DMissing))].
Definition file_of (t : ty) : res sty := let* s := materialize_type t in schema_from_namedtuple (schema_ron s).

(** When an optional section becomes a list of such sections, the rule that wraps the value
    in a list is proposed if the class has no docstring; with a docstring the change is
    an error without rule, because the schema file has no descriptions. *)
Theorem C66_fixes_refuted : exists old new new' k k' D,
  file_of (tUser (TOpt tNet)) = Ok old /\
  materialize_type (tUser (TList (TOpt tNet))) = Ok new /\ materialize_docs D (tUser (TList (TOpt tNet))) = Ok new' /\
  compare_schemas old new = Ok k /\ checker_severity k = WARN /\ length (ck_fixes k) = 1 /\
  compare_schemas old new' = Ok k' /\ checker_severity k' = ERROR /\ ck_fixes k' = [].
Proof.
  do 5 eexists. exists (fun _ => base_doc). split; [vm_compute; reflexivity|]. split; [vm_compute; reflexivity|]. split; [vm_compute; reflexivity|].
  split; [vm_compute; reflexivity|]. split; [vm_compute; reflexivity|]. split; [reflexivity|].
  split; [vm_compute; reflexivity|]. split; [vm_compute; reflexivity|]. reflexivity.
Qed.
Print Assumptions C66_fixes_refuted.

Ltac reg := cbn; repeat match goal with
  | |- _ /\ _ => split | |- True => exact I
  | |- NoDup (_ :: _) => constructor; [cbn; intuition discriminate|] | |- NoDup [] => constructor end.

Example C66_ex : exists old new new' k, file_of (tUser tNet) = Ok old /\ materialize_type (tUser (TList (TOpt tNet))) = Ok new /\
  materialize_docs (fun _ => base_doc) (tUser (TList (TOpt tNet))) = Ok new' /\ new <> new' /\
  in_schema_file old /\ regular old /\ regular new /\ compare_schemas old new = Ok k /\
  (forall p o n, In (TypeChanged p o n) (ck_changes k) -> classless o) /\ length (ck_changes k) = 3.
Proof.
  do 4 eexists. split; [vm_compute; reflexivity|]. split; [vm_compute; reflexivity|]. split; [vm_compute; reflexivity|].
  split; [discriminate|]. split; [cbn; tauto|]. split; [reg|]. split; [reg|].
  split; [vm_compute; reflexivity|]. split; [|reflexivity]. intros p o n I. cbn in I. repeat (destruct I as [I|I]; [discriminate|]). destruct I.
Qed.
