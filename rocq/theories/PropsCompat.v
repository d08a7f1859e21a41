(** PropsCompat.v -- "Schema compatible" (C28). *)
From Coq Require Import Permutation.
From Verif Require Import Base Value Schema Rewrite Sched Types Asdict FromDict Checker SpecTypes SpecLoad SpecSubtype SpecCheck SpecCompat
  FromDictFacts CompatFacts.

(** ** C28 *)
(** If comparing the schemas of two classes gives severity INFO, then every file that
    loads with the old class loads with the new one.
    [y] is the file after upgrades, which both classes must agree on (they do if the file
    is at their common version, below).
    Missing for the full claim: type changes in which the old type has an Optional, Union
    or dataclass inside, empty dataclasses, enum values that move from one field to
    another, and ints too large for a float (all false, below); enum and literal values
    that are not None, bool, int or str; files that set schedules. *)
Theorem C28_compatible_partial : forall E c fs c' gs s r k x y dir allow L,
  order_ok E -> ordinary E c fs -> ordinary E c' gs -> all (fun f => no_empty (fst (snd f))) fs ->
  lost_values_gone (TData c fs) (TData c' gs) ->
  materialize_type (TData c fs) = Ok s -> materialize_type (TData c' gs) = Ok r ->
  compare_schemas s r = Ok k -> checker_severity k = INFO ->
  (forall p o n, In (TypeChanged p o n) (ck_changes k) -> sflat o) ->
  filev x = true ->
  deser_versioned (e_class E) allow (TData c fs) x = Ok y -> deser_versioned (e_class E) allow (TData c' gs) x = Ok y ->
  floatable y -> unmarked y ->
  typed_load E (TData c fs) x dir None allow false = Ok L -> l_sched L = [] ->
  exists L', typed_load E (TData c' gs) x dir None allow false = Ok L' /\ l_sched L' = [].
Proof. exact compat_loads. Qed.
Print Assumptions C28_compatible_partial.

(** The same with commands: dump-schema with the old class, then check-schema with the new
    one, which says that the schemas are compatible; the classes have the same version. *)
Theorem C28_check_schema_partial : forall E c fs c' gs v rules rules' file rep d dir allow L,
  order_ok E -> ordinary E c fs -> ordinary E c' gs -> all (fun f => no_empty (fst (snd f))) fs ->
  lost_values_gone (TData c fs) (TData c' gs) ->
  c_versioned c = Some (v, rules) -> c_versioned c' = Some (v, rules') -> (forall i rs, In (i, rs) rules' -> (i < v)%Z) ->
  file_type (TData c fs) -> values_in simple (TData c fs) ->
  dump_schema (TData c fs) = Ok file -> check_schema file (TData c' gs) = Ok rep -> rp_compatible rep = true ->
  (forall w p o n, In (w, TypeChanged p o n) (rp_lines rep) -> sflat o) ->
  filev (VDict d) = true -> floatable (VDict d) -> unmarked (VDict d) -> aget "version" d = Some (VInt v) ->
  typed_load E (TData c fs) (VDict d) dir None allow false = Ok L -> l_sched L = [] ->
  exists L', typed_load E (TData c' gs) (VDict d) dir None allow false = Ok L' /\ l_sched L' = [].
Proof. exact compat_check_schema. Qed.
Print Assumptions C28_check_schema_partial.

Definition compat_env : env :=
  mkEnv (fun _ => None) (fun x => x) (fun _ => Err SyntaxError) (fun _ => None) (fun _ => mkCM None []) (fun l => l).

(** int becomes float, a literal gains a value, an enum variant is renamed, a field and a
    section are added *)
Definition compat_old : list (string * (ty * dflt)) :=
  [("lr", (TInt, DMissing)); ("mode", (TOpt (TLit [VStr "a"]), DMissing));
   ("net", (TData (mkC "Net" None) [("act", (TList (TEnum "Act" [("RELU", VStr "relu"); ("TANH", VStr "tanh")]), DMissing))], DMissing))].
Definition compat_new : list (string * (ty * dflt)) :=
  [("net", (TData (mkC "Net" None) [("act", (TList (TEnum "Act" [("RLU", VStr "relu"); ("TANH", VStr "tanh")]), DMissing)); ("size", (TInt, DValue (VInt 64)))], DMissing));
   ("mode", (TOpt (TLit [VStr "a"; VStr "b"]), DMissing)); ("lr", (TOpt TFloat, DMissing));
   ("opt", (TData (mkC "Opt" None) [("eps", (TFloat, DValue (VFloat f64_one)))], DMissing))].
Definition compat_file : list (string * pyval) :=
  [("version", VInt 2); ("lr", VInt 3); ("mode", VNone); ("net", VDict [("act", VList [VStr "relu"; VStr "tanh"])])].

Ltac compat_side :=
  repeat match goal with
         | |- _ /\ _ => split
         | |- True => exact I
         | |- NoDup _ => repeat constructor; cbn; intuition discriminate
         | |- ~ _ => cbn; intuition discriminate
         | |- _ <> _ => discriminate
         | |- None = None => reflexivity
         | |- forall _ _ _ _, _ = Some _ -> _ => intros ? ? ? ? Q; injection Q as <- <-; intros []
         | |- forall _ _ _ _, None = Some _ -> _ => discriminate
         | |- _ => progress cbn
         end.

Example C28_case :
  let c := mkC "Config" (Some (2%Z, [])) in
  ordinary compat_env c compat_old /\ ordinary compat_env c compat_new /\ all (fun f => no_empty (fst (snd f))) compat_old /\
  lost_values_gone (TData c compat_old) (TData c compat_new) /\
  file_type (TData c compat_old) /\ values_in simple (TData c compat_old) /\
  filev (VDict compat_file) = true /\ floatable (VDict compat_file) /\ unmarked (VDict compat_file) /\
  exists file rep, dump_schema (TData c compat_old) = Ok file /\ check_schema file (TData c compat_new) = Ok rep /\
    rp_compatible rep = true /\ (forall w p o n, In (w, TypeChanged p o n) (rp_lines rep) -> sflat o) /\
    map snd (rp_lines rep) =
      [FieldAdded ["net"; "size"] (SPrim "int") (VInt 64) true; LiteralValuesAdded ["mode"] [VStr "b"];
       TypeChanged ["lr"] (SPrim "int") (SOption (SPrim "float"));
       FieldAdded ["opt"; "eps"] (SPrim "float") (VFloat f64_one) true;
       EnumVariantRenamed ["net"; "act"] "Act" "RELU" "RLU"] /\
    exists L, typed_load compat_env (TData c compat_old) (VDict compat_file) None None false false = Ok L /\ l_sched L = [].
Proof.
  cbv zeta. split; [unfold ordinary; compat_side|]. split; [unfold ordinary; compat_side|]. split; [compat_side|].
  split.
  { intros p ms m. cbn [enum_at]. destruct p as [|k [|k' [|]]]; cbn; try discriminate;
      repeat (match goal with |- context [String.eqb ?a ?b] => destruct (String.eqb_spec a b) as [->|] end; cbn; try discriminate).
    intros Q I. injection Q as <-. left. destruct I as [<-|[<-|[]]].
    - do 2 eexists. split; [reflexivity|]. split; [now left|reflexivity].
    - do 2 eexists. split; [reflexivity|]. split; [right; now left|reflexivity]. }
  split; [compat_side|]. split; [cbn; repeat split; intros v []|]. split; [reflexivity|]. split.
  { cbn; repeat split; eexists; vm_compute; reflexivity. }
  split; [compat_side; reflexivity|].
  do 2 eexists. split; [vm_compute; reflexivity|]. split; [vm_compute; reflexivity|]. split; [reflexivity|]. split.
  { cbn. intros w p o n H. repeat (destruct H as [H|H]; [try discriminate H|]); [|destruct H]. injection H as <- <- <- <-. exact I. }
  split; [reflexivity|]. eexists. split; [vm_compute; reflexivity|reflexivity].
Qed.

Definition compat_class (fs : list (string * (ty * dflt))) : ty := TData (mkC "Config" None) fs.

(** A list of optional floats becomes an optional list of optional ints: compatible. *)
Theorem C28_optional_refuted : exists fs gs s r k x L,
  materialize_type (compat_class fs) = Ok s /\ materialize_type (compat_class gs) = Ok r /\
  compare_schemas s r = Ok k /\ checker_severity k = INFO /\
  typed_load compat_env (compat_class fs) x None None false false = Ok L /\
  typed_load compat_env (compat_class gs) x None None false false = Err DeserializeTypeError.
Proof.
  exists [("x", (TList (TOpt TFloat), DMissing))], [("x", (TOpt (TList (TOpt TInt)), DMissing))]. do 3 eexists.
  exists (VDict [("x", VList [VFloat f64_half])]). eexists.
  repeat (split; [vm_compute; reflexivity|]). vm_compute. reflexivity.
Qed.
Print Assumptions C28_optional_refuted.

(** A field whose class has no fields is removed: no change is reported. *)
Theorem C28_empty_refuted : exists fs gs s r k x L,
  materialize_type (compat_class fs) = Ok s /\ materialize_type (compat_class gs) = Ok r /\
  compare_schemas s r = Ok k /\ ck_changes k = [] /\ checker_severity k = INFO /\
  typed_load compat_env (compat_class fs) x None None false false = Ok L /\
  typed_load compat_env (compat_class gs) x None None false false = Err (UnknownField "Config" "x").
Proof.
  exists [("x", (TData (mkC "Empty" None) [], DMissing))], []. do 3 eexists.
  exists (VDict [("x", VDict [])]). eexists.
  repeat (split; [vm_compute; reflexivity|]). vm_compute. reflexivity.
Qed.
Print Assumptions C28_empty_refuted.

(** An enum variant disappears from one field and appears in another: reported as renamed. *)
Theorem C28_enum_refuted : exists fs gs s r k x L,
  materialize_type (compat_class fs) = Ok s /\ materialize_type (compat_class gs) = Ok r /\
  compare_schemas s r = Ok k /\ ck_changes k = [EnumVariantRenamed ["y"] "Y" "B" "B"] /\ checker_severity k = INFO /\
  typed_load compat_env (compat_class fs) x None None false false = Ok L /\
  typed_load compat_env (compat_class gs) x None None false false = Err ValueError.
Proof.
  exists [("x", (TEnum "X" [("A", VInt 1); ("B", VInt 2)], DMissing)); ("y", (TEnum "Y" [("C", VInt 3)], DMissing))],
    [("x", (TEnum "X" [("A", VInt 1)], DMissing)); ("y", (TEnum "Y" [("C", VInt 3); ("B", VInt 2)], DMissing))]. do 3 eexists.
  exists (VDict [("x", VInt 2); ("y", VInt 3)]). eexists.
  repeat (split; [vm_compute; reflexivity|]). vm_compute. reflexivity.
Qed.
Print Assumptions C28_enum_refuted.

(** An int field becomes a float field: compatible, but 2^1024 no longer loads. *)
Theorem C28_overflow_refuted : exists fs gs s r k x L,
  materialize_type (compat_class fs) = Ok s /\ materialize_type (compat_class gs) = Ok r /\
  compare_schemas s r = Ok k /\ checker_severity k = INFO /\
  typed_load compat_env (compat_class fs) x None None false false = Ok L /\
  typed_load compat_env (compat_class gs) x None None false false = Err OverflowError.
Proof.
  exists [("x", (TInt, DMissing))], [("x", (TFloat, DMissing))]. do 3 eexists.
  exists (VDict [("x", VInt (2 ^ 1024))]). eexists.
  repeat (split; [vm_compute; reflexivity|]). vm_compute. reflexivity.
Qed.
Print Assumptions C28_overflow_refuted.
