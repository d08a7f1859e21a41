(** PropsDump.v -- what can be dumped (C60) and what is left out (C61). *)
From Verif Require Import Base Value Schema Rewrite Sched Types Asdict FromDict Checker SpecTree SpecTypes SpecState SpecLoad SpecDump
  RewriteFacts FromDictFacts DefaultFacts RoundTrip ElideFacts LoadSound OrderFacts SetOrder LoadProps DumpFacts Examples.

(** ** C60 *)
(** Dumping an object succeeds exactly if no dataclass instance in it has a field whose
    name starts with an underscore. *)
Theorem C60_dump_iff : forall cls v, (exists r, typed_dump cls v None false = Ok r) <-> public_fields v.
Proof.
  intros cls v. split.
  - intros [r H]. exact (dump_only cls v "" [] r H).
  - intros P. apply (dump_total cls false v); [discriminate|exact P].
Qed.
Print Assumptions C60_dump_iff.

(** With elide_defaults it succeeds whenever the instances have the fields of their classes. *)
Theorem C60_dump_elided : forall cls v, instances_ok cls v -> public_fields v -> exists r, typed_dump cls v None true = Ok r.
Proof. intros cls v Hi P. apply (dump_total cls true v); auto. Qed.
Print Assumptions C60_dump_elided.

(** Whatever was loaded, with any overrides, can be dumped, if no class has a private field.
    Missing: private fields, and dumping schedules along (both false, below). *)
Theorem C60_loaded_partial : forall E t x dir ovs allow ig L,
  order_ok E -> ron_filev E -> loadable t -> defaults_typed t -> is_dataclass_ty t = true -> filev x = true -> public_class t ->
  typed_load E t x dir ovs allow ig = Ok L -> exists r, typed_dump (e_class E) (l_value L) None false = Ok r.
Proof.
  intros E t x dir ovs allow ig L O R Ld D T F P H. apply C60_dump_iff. apply (conforms_public t); auto.
  exact (load_conforms E t x dir ovs allow ig L O R Ld D T F H).
Qed.
Print Assumptions C60_loaded_partial.

Example C60_case : public_class tCfg /\ public_fields ex_cfg.
Proof. split; cbn; repeat (split || constructor). Qed.

(** class C: _seed: int.  It loads but cannot be dumped. *)
Theorem C60_private_refuted : exists E t x L,
  typed_load E t x None None false false = Ok L /\ typed_dump (e_class E) (l_value L) None false = Err ValueError.
Proof.
  exists ex_env, (TData (mkC "C" None) [("_seed", (TInt, DMissing))]), (VDict [("_seed", VInt 1)]). eexists.
  split; vm_compute; reflexivity.
Qed.
Print Assumptions C60_private_refuted.

(** class Cfg: d: Dict[str, float].  A file with a schedule for key "a" and a value for key "a.b"
    loads, but can neither be dumped nor upgraded. *)
Theorem C60_schedule_refuted : exists E t x L, public_class t /\
  typed_load E t x (Some "dir") None false false = Ok L /\
  typed_dump (e_class E) (l_value L) (Some (l_sched L)) false = Err TypeError /\
  upgrade_config E x "dir" t false false = Err TypeError.
Proof.
  exists (mkEnv ex_float (fun f => f) ex_ron (fun _ => None) (fun _ => mkCM None [("d", DMissing)]) (fun l => l)),
    (TData (mkC "Cfg" None) [("d", (TDict TStr TFloat, DMissing))]),
    (VDict [("d", VDict [("a", VStr "step: 3@0 7@10"); ("a.b", VFloat f64_one)])]). eexists.
  split; [cbn; repeat (split || constructor)|]. split; [vm_compute; reflexivity|]. split; vm_compute; reflexivity.
Qed.
Print Assumptions C60_schedule_refuted.

(** ** C61 *)
(** A field of any dataclass instance in the config, at any depth, whose value is made of numbers,
    strings, None, lists, tuples and dicts and equals its default is not written.  (That every field
    not written equals its default is C03_elide_round_trip.)
    Missing: enums and dataclasses (false, below). *)
Theorem C61_left_out_partial : forall E v d p c fs k x y, instances_ok (e_class E) v -> hs_dumps E v true = Ok d ->
  field_at v p = Some (VObj c fs) -> In (k, x) fs -> default_for (e_class E) c k = Some y ->
  bare x = true -> py_eq x y = true -> k <> "!__name__" -> lookup (ron_view d) (p ++ [k])%list = None.
Proof.
  intros E v d p c fs k x y Hi H Hf Hx Hy B Q N. unfold hs_dumps in H. apply AFacts.rbind_ok in H as [[d' b] [H1 H2]].
  injection H2 as <-. exact (elided_absent (e_class E) p v c fs k x y "" [] d' b Hi H1 Hf Hx Hy B Q N).
Qed.
Print Assumptions C61_left_out_partial.

(** In a section that is written, such a field is written if it differs from its default. *)
Theorem C61_written_partial : forall E v d p c fs k x w, instances_ok (e_class E) v -> hs_dumps E v true = Ok d ->
  field_at v p = Some (VObj c fs) -> lookup (ron_view d) p = Some w -> In (k, x) fs -> bare x = true ->
  (forall y, default_for (e_class E) c k = Some y -> py_eq x y = false) -> k <> "!__name__" -> ~ In "!__name__" p ->
  lookup (ron_view d) (p ++ [k])%list = Some (ron_view x).
Proof.
  intros E v d p c fs k x w Hi H Hf L Hx B Q N Np. unfold hs_dumps in H. apply AFacts.rbind_ok in H as [[d' b] [H1 H2]].
  injection H2 as <-. exact (written_field (e_class E) p v c fs k x "" [] d' b w Hi H1 Hf L Hx B Q N Np).
Qed.
Print Assumptions C61_written_partial.

(** class Opt: eps: float = 1.0; name: str = "adam".   class Cfg: steps: int = 10; opt: Opt *)
Definition el_env : env :=
  mkEnv ex_float (fun f => f) ex_ron (fun _ => None)
    (fun n => if String.eqb n "Cfg" then mkCM None [("steps", DValue (VInt 10)); ("opt", DMissing)]
              else mkCM None [("eps", DValue (VFloat f64_one)); ("name", DValue (VStr "adam"))]) (fun l => l).
Example C61_case :
  let v := VObj "Cfg" [("steps", VInt 10); ("opt", VObj "Opt" [("eps", VInt 1); ("name", VStr "sgd")])] in
  instances_ok (e_class el_env) v /\ field_at v ["opt"] = Some (VObj "Opt" [("eps", VInt 1); ("name", VStr "sgd")]) /\
  py_eq (VInt 1) (VFloat f64_one) = true /\
  exists d, hs_dumps el_env v true = Ok d /\ ron_view d = VDict [("!__name__", VStr "Cfg"); ("opt", VDict [("!__name__", VStr "Opt"); ("name", VStr "sgd")])].
Proof.
  cbv zeta. split; [cbn; repeat (split || constructor || intros []); cbn; intuition discriminate|]. split; [reflexivity|]. split; [reflexivity|].
  eexists. split; vm_compute; reflexivity.
Qed.

(** class Cfg: act: Act = Act.RELU.  The default is written nevertheless. *)
Theorem C61_enum_refuted : exists E v d x y, instances_ok (e_class E) v /\ hs_dumps E v true = Ok d /\
  v = VObj "Cfg" [("act", x)] /\ default_for (e_class E) "Cfg" "act" = Some y /\ py_eq x y = true /\
  lookup (ron_view d) ["act"] = Some (VStr "RELU").
Proof.
  exists (mkEnv ex_float (fun f => f) ex_ron (fun _ => None) (fun _ => mkCM None [("act", DValue (VEnum "Act" "RELU" (VStr "relu")))]) (fun l => l)).
  exists (VObj "Cfg" [("act", VEnum "Act" "RELU" (VStr "relu"))]). do 3 eexists.
  split; [cbn; repeat (split || constructor || intros []); cbn; intuition discriminate|]. split; [vm_compute; reflexivity|].
  split; [reflexivity|]. split; [reflexivity|]. split; reflexivity.
Qed.
Print Assumptions C61_enum_refuted.

(** class Cfg: opt: Opt = Opt().  A default sub-config leaves an empty section behind. *)
Theorem C61_section_refuted : exists E v d x y, instances_ok (e_class E) v /\ hs_dumps E v true = Ok d /\
  v = VObj "Cfg" [("opt", x)] /\ default_for (e_class E) "Cfg" "opt" = Some y /\ py_eq x y = true /\
  lookup (ron_view d) ["opt"] = Some (VDict [("!__name__", VStr "Opt")]).
Proof.
  exists (mkEnv ex_float (fun f => f) ex_ron (fun _ => None)
    (fun n => if String.eqb n "Cfg" then mkCM None [("opt", DFactory (VObj "Opt" [("eps", VInt 1)]))] else mkCM None [("eps", DValue (VInt 1))]) (fun l => l)).
  exists (VObj "Cfg" [("opt", VObj "Opt" [("eps", VInt 1)])]). do 3 eexists.
  split; [cbn; repeat (split || constructor || intros []); cbn; intuition discriminate|]. split; [vm_compute; reflexivity|].
  split; [reflexivity|]. split; [reflexivity|]. split; reflexivity.
Qed.
Print Assumptions C61_section_refuted.
