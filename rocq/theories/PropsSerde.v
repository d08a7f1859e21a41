(** PropsSerde.v -- C01, C02, C03, C15: dumping and loading.
    Vocabulary ([storable], [conforms], [clean], [enum_by_name]): SpecTypes.v. *)
From Verif Require Import Base Value Schema Rewrite Sched Types Asdict FromDict
  SpecTypes FromDictFacts RoundTrip ElideFacts ElideLoad SpecTree Examples.

(** ** C01 round trip *)

(** Every well-typed value of a storable type is dumped, and loading the dump
    (as text or as a file) gives exactly the value back; nothing is left as a
    schedule or unloaded field.  With [short] this includes the tuples with too few
    items that [load] accepts (C07). *)
Theorem C01_round_trip : forall E short t v ig,
  order_ok E -> storable E t -> conforms short t v -> clean v = true ->
  exists d, hs_dumps E v false = Ok d /\ hs_loads E t (ron_view d) None ig = Ok v.
Proof. exact round_trip. Qed.
Print Assumptions C01_round_trip.

Theorem C01_round_trip_file : forall E short t v dir,
  order_ok E -> storable E t -> conforms short t v -> clean v = true ->
  exists d, typed_dump (e_class E) v None false = Ok (d, []) /\
    typed_load E t (ron_view d) (Some dir) None false false = Ok (mkL v [] []).
Proof. exact round_trip_file. Qed.
Print Assumptions C01_round_trip_file.

Example C01_round_trip_ex :
  order_ok ex_env /\ storable ex_env tCfg /\ conforms false tCfg ex_cfg /\ clean ex_cfg = true.
Proof.
  split; [intros l; apply Permutation.Permutation_refl|].
  split; [exact ex_storable|]. split; [exact ex_conforms|reflexivity].
Qed.

(** ** C53 Outside the storable types the round trip is false of the code.
    [Optional[Union[A, B]]] is [Union[A, B, None]] in Python, which
    hyperstate does not treat as optional: an unset field cannot be loaded. *)
Theorem C53_optional_union_refuted :
  exists E t v d, order_ok E /\ conforms false t v /\ clean v = true /\
    hs_dumps E v false = Ok d /\
    hs_loads E t (ron_view d) None false = Err DeserializeValueError.
Proof. exact optional_union_refuted. Qed.
Print Assumptions C53_optional_union_refuted.

(** A Literal whose constants Python's typing module does not accept as type
    arguments (text such as "a b"; integers up to Python 3.10) cannot be loaded. *)
Theorem C53_literal_refuted :
  exists E t v d, order_ok E /\ conforms false t v /\ clean v = true /\
    hs_dumps E v false = Ok d /\
    hs_loads E t (ron_view d) None false = Err SyntaxError.
Proof. exact literal_refuted. Qed.
Print Assumptions C53_literal_refuted.

(** A Union of str and float: the text "7" comes back as the number 7.0. *)
Theorem C53_scalar_union_refuted :
  exists E t v w d, order_ok E /\ conforms false t v /\ clean v = true /\
    hs_dumps E v false = Ok d /\
    hs_loads E t (ron_view d) None false = Ok w /\ py_eq v w = false.
Proof. exact scalar_union_refuted. Qed.
Print Assumptions C53_scalar_union_refuted.

(** ** C02 enums *)

(** A config with an enum field: the member is dumped, and it is loaded back
    exactly if looking the member's name up among the member values finds it. *)
Theorem C02_enum_round_trip_iff : forall E c f n ms df m x ig,
  order_ok E -> c_versioned c = None -> cm_version (e_class E (c_name c)) = None ->
  field_name_ok false f = true -> In (m, x) ms ->
  exists d, hs_dumps E (VObj (c_name c) [(f, VEnum n m x)]) false = Ok d /\
    (hs_loads E (TData c [(f, (TEnum n ms, df))]) (ron_view d) None ig =
       Ok (VObj (c_name c) [(f, VEnum n m x)]) <->
     List.find (fun mx => py_eq (snd mx) (VStr m)) ms = Some (m, x)).
Proof. exact enum_round_trip_iff. Qed.
Print Assumptions C02_enum_round_trip_iff.

Example C02_enum_ex :
  order_ok ex_env /\ cm_version (e_class ex_env "Job") = None /\
  field_name_ok false "color" = true /\
  In ("BLUE", VStr "BLUE") [("RED", VStr "RED"); ("BLUE", VStr "BLUE")] /\
  List.find (fun mx => py_eq (snd mx) (VStr "BLUE")) [("RED", VStr "RED"); ("BLUE", VStr "BLUE")]
    = Some ("BLUE", VStr "BLUE").
Proof.
  repeat split; simpl; auto. intros l; apply Permutation.Permutation_refl.
Qed.

(** an ordinary enum (RED = 1) is dumped but the dump cannot be loaded *)
Theorem C02_enum_refuted :
  exists E t v d, order_ok E /\ conforms false t v /\
    hs_dumps E v false = Ok d /\ hs_loads E t (ron_view d) None false = Err ValueError.
Proof. exact enum_refuted. Qed.
Print Assumptions C02_enum_refuted.

(** worse, A = "B", B = "A": the dump loads to the other member *)
Theorem C02_enum_swap_refuted :
  exists E t v w d, order_ok E /\ conforms false t v /\
    hs_dumps E v false = Ok d /\ hs_loads E t (ron_view d) None false = Ok w /\
    py_eq v w = false.
Proof. exact enum_swap_refuted. Qed.
Print Assumptions C02_enum_swap_refuted.

(** ** C03 eliding defaults *)

(** Only fields equal to their default are left out (the version entry and all
    other fields are written, in order), and loading the result gives the same
    config: equal field by field ([same]), hence Python-equal unless the config
    contains a NaN. *)
Theorem C03_elide_round_trip : forall E short t v ig,
  order_ok E -> storable E t -> defaults_typed t -> conforms short t v -> clean v = true ->
  exists d w,
    hs_dumps E v true = Ok d /\
    dumped_as (e_class E) true
      (fun c k x => exists y, default_for (e_class E) c k = Some y /\ py_eq x y = true) v d /\
    hs_loads E t (ron_view d) None ig = Ok w /\ same v w /\
    (wf v = true -> py_eq v v = true -> py_eq v w = true).
Proof. exact elide_round_trip. Qed.
Print Assumptions C03_elide_round_trip.

Example C03_elide_ex :
  order_ok ex_env /\ storable ex_env tCfg /\ defaults_typed tCfg /\ conforms false tCfg ex_cfg /\
  clean ex_cfg = true /\ wf ex_cfg = true /\ py_eq ex_cfg ex_cfg = true /\
  (* "steps", equal to its default, and "eps" of the optimizer are left out *)
  match hs_dumps ex_env ex_cfg true with
  | Ok (VNt _ d) => akeys d = ["version"; "name"; "tags"; "shape"; "table"; "opt"; "alg"; "net"; "color"] /\
                    aget "opt" d = Some (VNt "Optimizer" [("lr", VFloat f_half)])
  | _ => False
  end.
Proof.
  split; [intros l; apply Permutation.Permutation_refl|].
  split; [exact ex_storable|]. split; [|split; [exact ex_conforms|]].
  - simpl. repeat split; auto. exists (VStr "relu"); simpl; auto.
  - vm_compute. repeat split.
Qed.

(** ** C15 the version is recorded *)

(** Whatever [dumps] writes for a value whose dataclass instances have the
    fields of their classes: at every depth a struct of a versioned class starts
    with its version, other structs have none, and the fields follow in order;
    with [elide_defaults] some fields having a default may be missing, never the
    version. *)
Theorem C15_dumps_version : forall E v elided d,
  instances_ok (e_class E) v -> hs_dumps E v elided = Ok d ->
  dumped_as (e_class E) true (fun c k _ => elided = true /\ default_for (e_class E) c k <> None) v d.
Proof. exact dumps_written. Qed.
Print Assumptions C15_dumps_version.

Theorem C15_config_dict_version : forall cls v d,
  instances_ok cls v -> config_dict cls v = Ok d -> dumped_as cls false (fun _ _ _ => False) v d.
Proof. exact config_dict_written. Qed.
Print Assumptions C15_config_dict_version.

Example C15_ex :
  instances_ok ex_class ex_cfg /\
  is_ok (hs_dumps ex_env ex_cfg true) = true /\ is_ok (config_dict ex_class ex_cfg) = true.
Proof.
  split; [|split; vm_compute; reflexivity].
  apply (instances_conforms ex_env false tCfg); [exact ex_storable|exact ex_conforms].
Qed.
