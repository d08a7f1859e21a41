(** PropsLoad.v -- C04 .. C08: loading.
    Vocabulary ([constructible], [default_of], [required], [bare_subconfig], ...): SpecTypes.v. *)
From Coq Require Import Permutation.
From Verif Require Import Base Value Schema Rewrite Sched Types Asdict FromDict
  SpecTypes FromDictFacts DefaultFacts SpecTree SpecLoad OrderFacts SetOrder LoadProps Examples.

(** ** C04 default construction *)

(** With neither file nor overrides, [load] gives the instance holding the
    declared default of every field (recursively for default-less dataclass
    fields) if every default-less field is a default-constructible dataclass.
    Otherwise it raises TypeError for one default-less sub-config (reached by the
    path [p]; [[]] is the config itself), naming exactly all its required leaf
    fields by full dotted path; only the order of the names is unspecified. *)
Theorem C04_default_construction : forall E t,
  order_ok E -> names_ok t -> is_dataclass_ty t = true ->
  (constructible t = true ->
     exists v, hs_load E t None None = Ok v /\ default_of t v) /\
  (constructible t = false ->
     exists p c fs names,
       bare_subconfig t p = Some (TData c fs) /\ names <> [] /\ Permutation names (required fs) /\
       hs_load E t None None =
         Err (MissingFields (c_name c) (map (fun n => join "." (p ++ [n])) names))).
Proof. exact load_default. Qed.
Print Assumptions C04_default_construction.

(** class App: alg: PPO; retries: int = 3    (constructible)
    class Top: app: App; net: Net            (not: Net.width has no default) *)
Definition tApp : ty := TData (mkC "App" None) [("alg", (tPPO, DMissing)); ("retries", (TInt, DValue (VInt 3)))].
Definition tTop : ty := TData (mkC "Top" None) [("app", (tApp, DMissing)); ("net", (tNet, DMissing))].

Example C04_ex :
  order_ok ex_env /\ names_ok tApp /\ constructible tApp = true /\
  names_ok tTop /\ constructible tTop = false /\
  hs_load ex_env tTop None None = Err (MissingFields "Net" ["net.width"]).
Proof.
  split; [intros l; apply Permutation_refl|].
  repeat match goal with
         | |- _ /\ _ => split
         | |- True => exact I
         | |- NoDup _ => solve [nodup]
         | |- ~ _ => simpl; intuition discriminate
         | |- _ = _ => reflexivity
         | |- names_ok _ => simpl
         | |- all _ _ => simpl
         end.
Qed.

(** ** C05 given fields and defaults; order *)

(** [denotes E sch allow from_file ig t x v] (SpecLoad.v) says, field by field,
    what object file [x] stands for.  A load that succeeds returns such an object,
    and a file that stands for an object loads to it.  [sch] only tells whether
    int and float fields may be given as schedules. *)
Theorem C05_loads_meaning : forall E t x ig v,
  order_ok E -> loadable t -> filev x = true ->
  (denotes E false false false ig t x v -> hs_loads E t x None ig = Ok v) /\
  (hs_loads E t x None ig = Ok v -> denotes E true false false ig t x v).
Proof. exact loads_iff. Qed.
Print Assumptions C05_loads_meaning.

(** The fields of the loaded object are the declared ones, in order; a given
    field holds what the file says, every other field its default. *)
Theorem C05_given_and_default : forall E c fs x items dir allow ig L,
  order_ok E -> loadable (TData c fs) -> filev x = true -> c_versioned c = None ->
  items_of x = Some items ->
  typed_load E (TData c fs) x dir None allow ig = Ok L ->
  exists o, l_value L = VObj (c_name c) o /\ map fst o = field_names fs /\
    forall n ft fd, aget n fs = Some (ft, fd) -> exists v, aget n o = Some v /\
      match aget n items with
      | Some w => is_weak w = false -> denotes E true allow (is_some dir) false ft w v
      | None => match fd with
                | DValue d | DFactory d => v = d
                | DMissing => default_of ft v
                end
      end.
Proof. exact load_fields. Qed.
Print Assumptions C05_given_and_default.

(** Reordering the entries of the file's dicts, at every depth, and iterating
    over Python sets in any order [o], gives the same object up to the order of
    the entries of Dict-typed fields -- for files that set no schedule. *)
Theorem C05_order_independent_partial : forall E o t x x' dir allow ig L,
  order_ok E -> (forall l, Permutation (o l) l) -> loadable t -> orderless t ->
  filev x = true -> dperm x x' ->
  typed_load E t x dir None allow ig = Ok L -> l_sched L = [] ->
  exists L', typed_load (with_order E o) t x' dir None allow ig = Ok L' /\
             dperm (l_value L) (l_value L') /\ l_sched L' = [].
Proof. exact load_reordered. Qed.
Print Assumptions C05_order_independent_partial.

(** The set iteration order alone changes nothing at all, schedules and overrides included. *)
Theorem C05_set_order_independent : forall E o t x dir ovs allow ig L,
  order_ok E -> (forall l, Permutation (o l) l) -> loadable t ->
  typed_load E t x dir ovs allow ig = Ok L ->
  typed_load (with_order E o) t x dir ovs allow ig = Ok L.
Proof. exact load_set_order. Qed.
Print Assumptions C05_set_order_independent.

(** class B: c: float;  class A: b: B;  class C: x: float;  class Cfg: a: A; b: C *)
Definition sB := TData (mkC "B" None) [("c", (TFloat, DMissing))].
Definition sA := TData (mkC "A" None) [("b", (sB, DMissing))].
Definition sC := TData (mkC "C" None) [("x", (TFloat, DMissing))].
Definition sCfg := TData (mkC "Cfg" None) [("a", (sA, DMissing)); ("b", (sC, DMissing))].
Definition sched_file1 :=
  VDict [("b", VDict [("x", VStr "step: 3@0 7@10")]);
         ("a", VDict [("b", VDict [("c", VStr "step: 1@0 3@10")])])].
Definition sched_file2 :=
  VDict [("a", VDict [("b", VDict [("c", VStr "step: 1@0 3@10")])]);
         ("b", VDict [("x", VStr "step: 3@0 7@10")])].

(** With schedules the order of fields does matter: the same two entries load in
    one order and raise KeyError in the other. *)
Theorem C05_schedule_order_refuted : exists E t x x' v,
  order_ok E /\ loadable t /\ orderless t /\ filev x = true /\ dperm x x' /\
  hs_loads E t x None false = Ok v /\ hs_loads E t x' None false = Err KeyError.
Proof.
  exists ex_env, sCfg, sched_file1, sched_file2.
  exists (VObj "Cfg" [("a", VObj "A" [("b", VObj "B" [("c", VFloat (sf_of_Z 1))])]);
                      ("b", VObj "C" [("x", VFloat (sf_of_Z 3))])]).
  split; [intros l; apply Permutation_refl|]. split; [|split; [|split; [|split; [|split]]]].
  - repeat match goal with
           | |- _ /\ _ => split
           | |- True => exact I
           | |- NoDup _ => solve [nodup]
           | |- ~ _ => simpl; intuition discriminate
           | |- loadable _ => simpl
           | |- forall _ _ _ _, None = Some _ -> _ => discriminate
           end.
  - repeat match goal with
           | |- _ /\ _ => split
           | |- True => exact I
           | |- orderless _ => simpl
           | |- forall _ _ _ _, None = Some _ -> _ => discriminate
           end.
  - reflexivity.
  - apply dperm_perm, perm_swap.
  - vm_compute. reflexivity.
  - vm_compute. reflexivity.
Qed.
Print Assumptions C05_schedule_order_refuted.

(** the retries are given, the PPO section partly, in either order *)
Definition app_file1 := VDict [("retries", VInt 5); ("alg", VDict [])].
Definition app_file2 := VDict [("alg", VDict []); ("retries", VInt 5)].

Lemma ex_order : order_ok ex_env.
Proof. intros l. apply Permutation_refl. Qed.

Lemma tApp_loadable : loadable tApp.
Proof.
  repeat match goal with
         | |- _ /\ _ => split
         | |- True => exact I
         | |- NoDup _ => solve [nodup]
         | |- ~ _ => simpl; intuition discriminate
         | |- loadable _ => simpl
         | |- forall _ _ _ _, None = Some _ -> _ => discriminate
         end.
Qed.

Example C05_ex :
  loadable tApp /\ orderless tApp /\ filev app_file1 = true /\ dperm app_file1 app_file2 /\
  typed_load ex_env tApp app_file1 None None false false =
    Ok (mkL (VObj "App" [("alg", VObj "PPO" [("clip", VInt 3)]); ("retries", VInt 5)]) [] []).
Proof.
  split; [exact tApp_loadable|]. split; [|split; [|split]].
  - repeat match goal with
           | |- _ /\ _ => split
           | |- True => exact I
           | |- orderless _ => simpl
           | |- forall _ _ _ _, None = Some _ -> _ => discriminate
           end.
  - reflexivity.
  - apply dperm_perm, perm_swap.
  - vm_compute. reflexivity.
Qed.

(** ** C06 unknown fields *)

(** No load without ignore_extra_fields succeeds when some section of the file, at
    any depth (through fields, lists, tuples, dicts, Optionals and Unions, after
    upgrades), has an entry for which its dataclass declares no field.  (Entries
    called "!__name__" and weak references are not fields of the file format.) *)
Theorem C06_unknown_rejected : forall E t x dir allow fs d k w,
  order_ok E -> loadable t -> filev x = true -> section_in E allow t x fs d -> In (k, w) d ->
  ~ In k (field_names fs) -> k <> "!__name__" -> is_weak w = false ->
  exists e, typed_load E t x dir None allow false = Err e.
Proof. exact unknown_rejected. Qed.
Print Assumptions C06_unknown_rejected.

(** If [x] loads and [x'] is [x] with one extra entry [k] for which the dataclass
    [cn] has no field, at any depth, loading [x'] fails with the DeserializeTypeError
    naming [cn] and [k]. *)
Theorem C06_unknown_error : forall E allow dir k w t x x' cn L,
  plus_key k w t x x' cn -> loadable t ->
  typed_load E t x dir None allow false = Ok L ->
  typed_load E t x' dir None allow false = Err (UnknownField cn k).
Proof. exact load_extra. Qed.
Print Assumptions C06_unknown_error.

(** With ignore_extra_fields the result (error or object, schedules and lazy
    fields) is that of the file, upgraded, without the unknown entries of the top
    level. *)
Theorem C06_ignored_partial : forall E c fs x y items dir allow,
  order_ok E -> loadable (TData c fs) -> filev x = true ->
  deser_versioned (e_class E) allow (TData c fs) x = Ok y -> items_of y = Some items ->
  typed_load E (TData c fs) x dir None allow true =
  typed_load E (TData (mkC (c_name c) None) fs)
             (VDict (filter (known_entry fs) items)) dir None allow false.
Proof. exact load_ignore. Qed.
Print Assumptions C06_ignored_partial.

(** ... but unknown entries of nested sections are rejected all the same *)
Theorem C06_ignore_nested_refuted : exists E t x x' k w cn v,
  order_ok E /\ loadable t /\ filev x' = true /\ plus_key k w t x x' cn /\
  hs_loads E t x None true = Ok v /\ hs_loads E t x' None true = Err (UnknownField cn k).
Proof.
  exists ex_env, tApp, (VDict [("alg", VDict [("clip", VInt 7)])]),
    (VDict [("alg", VDict [("clip", VInt 7); ("gamma", VInt 1)])]), "gamma", (VInt 1), "PPO",
    (VObj "App" [("alg", VObj "PPO" [("clip", VInt 7)]); ("retries", VInt 3)]).
  split; [exact ex_order|]. split; [exact tApp_loadable|]. split; [reflexivity|]. split; [|split].
  - apply (pk_field _ _ _ _ [] [] "alg" tPPO DMissing); try reflexivity.
    apply (pk_here _ _ cPPO fPPO [("clip", VInt 7)] []); try reflexivity; try discriminate. simpl; intuition discriminate.
  - vm_compute. reflexivity.
  - vm_compute. reflexivity.
Qed.
Print Assumptions C06_ignore_nested_refuted.

(** ... and an unknown entry that looks like a weak reference is not rejected *)
Theorem C06_weak_unknown_refuted : exists E t x k w v,
  order_ok E /\ loadable t /\ t = tApp /\ x = VDict [(k, w)] /\ k = "gamma" /\ filev x = true /\
  hs_loads E t x None false = Ok v.
Proof.
  exists ex_env, tApp, (VDict [("gamma", VDict [(WEAK_REF, VBool true)])]), "gamma", (VDict [(WEAK_REF, VBool true)]),
    (VObj "App" [("alg", VObj "PPO" [("clip", VInt 3)]); ("retries", VInt 3)]).
  split; [exact ex_order|]. split; [exact tApp_loadable|]. repeat (split; [reflexivity|]). vm_compute. reflexivity.
Qed.
Print Assumptions C06_weak_unknown_refuted.

Example C06_ex :
  plus_key "gamma" (VInt 1) tApp (VDict [("alg", VDict [("clip", VInt 7)])])
    (VDict [("alg", VDict [("clip", VInt 7); ("gamma", VInt 1)])]) "PPO" /\
  section_in ex_env false tApp (VDict [("alg", VDict [("clip", VInt 7); ("gamma", VInt 1)])])
    fPPO [("clip", VInt 7); ("gamma", VInt 1)] /\
  hs_loads ex_env tApp (VDict [("gamma", VInt 1); ("retries", VInt 7)]) None true =
    Ok (VObj "App" [("alg", VObj "PPO" [("clip", VInt 3)]); ("retries", VInt 7)]).
Proof.
  split; [|split].
  - apply (pk_field _ _ _ _ [] [] "alg" tPPO DMissing); try reflexivity.
    apply (pk_here _ _ cPPO fPPO [("clip", VInt 7)] []); try reflexivity; try discriminate. simpl; intuition discriminate.
  - eapply (si_field _ _ _ _ _ _ _ "alg" tPPO DMissing); try reflexivity. eapply si_here; reflexivity.
  - vm_compute. reflexivity.
Qed.

(** ** C07 type safety *)

Lemma ex_ron_filev : ron_filev ex_env.
Proof.
  intros s y H. cbn in H. unfold ex_ron in H.
  repeat match type of H with context [if ?b then _ else _] => destruct b end; try discriminate; injection H as <-; reflexivity.
Qed.

(** Every value loaded conforms to the type, with or without overrides, except
    that a tuple may be shorter than annotated ([conforms true]). *)
Theorem C07_loaded_values_conform_partial : forall E t x dir ovs allow ig L,
  order_ok E -> ron_filev E -> loadable t -> defaults_typed t -> is_dataclass_ty t = true -> filev x = true ->
  typed_load E t x dir ovs allow ig = Ok L -> conforms true t (l_value L).
Proof. exact load_conforms. Qed.
Print Assumptions C07_loaded_values_conform_partial.

(** class P: xy: Tuple[int, int] *)
Definition tPair : ty := TData (mkC "P" None) [("xy", (TTuple [TInt; TInt], DMissing))].

(** A tuple with too few items is accepted. *)
Theorem C07_short_tuple_refuted : exists E t x v,
  order_ok E /\ ron_filev E /\ loadable t /\ defaults_typed t /\ filev x = true /\
  hs_loads E t x None false = Ok v /\ ~ conforms false t v.
Proof.
  exists ex_env, tPair, (VDict [("xy", VTuple [VInt 1])]), (VObj "P" [("xy", VTuple [VInt 1])]).
  split; [exact ex_order|]. split; [|split; [|split; [|split; [|split]]]].
  - exact ex_ron_filev.
  - repeat match goal with
         | |- _ /\ _ => split
         | |- True => exact I
         | |- NoDup _ => solve [nodup]
         | |- ~ _ => simpl; intuition discriminate
         | |- loadable _ => simpl
         | |- forall _ _ _ _, None = Some _ -> _ => discriminate
         end.
  - simpl. auto.
  - reflexivity.
  - vm_compute. reflexivity.
  - simpl. intros [_ [[_ [_ H]] _]]. discriminate H.
Qed.
Print Assumptions C07_short_tuple_refuted.

Example C07_ex :
  ron_filev ex_env /\ defaults_typed tApp /\
  hs_loads ex_env tApp (VDict []) (Some ["alg.clip=7"; "retries=3"]) false =
    Ok (VObj "App" [("alg", VObj "PPO" [("clip", VInt 7)]); ("retries", VInt 3)]).
Proof. split; [exact ex_ron_filev|]. split; [simpl; auto|]. vm_compute. reflexivity. Qed.
