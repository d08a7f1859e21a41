(** PropsUpgrade.v -- the upgrade-config command (C24) and the schedules of a file (C37). *)
From Coq Require Import Permutation.
From Verif Require Import Base Value Schema Rewrite Sched Types Asdict FromDict Checker SpecTree SpecTypes SpecState SpecLoad
  FromDictFacts SpecPlaced PlacedFacts UpgradeProps RoundTrip Examples.

(** ** C37: the schedules of a file *)
(** Loading a config file collects exactly the schedules written in it, each under the
    path of its field, and the scheduled fields hold the value at 0.
    Missing for the full claim: schedules more than two levels deep or inside lists,
    tuples and dicts (false: C37_deep_schedule_refuted, C37_misplaced_schedule_refuted,
    C38_list_element_refuted, C38_dict_entry_refuted). *)
Theorem C37_file_schedules_partial : forall E c fs x dir allow ig L,
  order_ok E -> loadable (TData c fs) -> (exists blobs, persistable E blobs (TData c fs)) ->
  filev x = true -> shallow_file E allow (TData c fs) x ->
  typed_load E (TData c fs) x dir None allow ig = Ok L ->
  (forall p s, sched_at (SNode (l_sched L)) p = Some s <->
     exists b text, sched_in E allow (TData c fs) x (Some p) b text /\ schedule_for E p b text s) /\
  (forall p s, sched_at (SNode (l_sched L)) p = Some s ->
     exists r, initial_value E s = Ok r /\ field_at (l_value L) p = Some r).
Proof.
  intros E c fs x dir allow ig L HE Hl [bl Hp] Hx Hsh HL. split.
  - intros p s. exact (file_exact E allow dir bl ig c fs x L HE Hl Hp Hx HL Hsh p s).
  - intros p s. exact (file_initial E allow dir bl ig c fs x L HE Hl Hp Hx HL Hsh p s).
Qed.
Print Assumptions C37_file_schedules_partial.

(** ** C24 *)
(** Every config file that loads is rewritten to a file at the current version (in
    every Versioned section that is written) that loads to an equal config (the very
    same one without [elide_defaults]) with the same schedules, and upgrading the
    result again changes nothing.
    Missing for the full claim: schedules more than two levels deep or inside lists,
    tuples and dicts (false, below), and dicts that use the reserved marker key. *)
Theorem C24_upgrade_config_partial : forall E c fs el dir x L,
  order_ok E -> loadable (TData c fs) -> persistable E false (TData c fs) -> defaults_typed (TData c fs) ->
  filev x = true -> shallow_file E false (TData c fs) x ->
  typed_load E (TData c fs) x (Some dir) None false false = Ok L ->
  clean (l_value L) = true -> wf (l_value L) = true ->
  exists y L',
    upgrade_config E x dir (TData c fs) el false = Ok y /\
    typed_load E (TData c fs) y (Some dir) None false false = Ok L' /\
    (py_eq (l_value L) (l_value L) = true -> py_eq (l_value L) (l_value L') = true) /\
    (el = false -> l_value L' = l_value L) /\
    (forall p, sched_at (SNode (l_sched L')) p = sched_at (SNode (l_sched L)) p) /\
    (forall p cn d z m, field_at (l_value L) p = Some (VObj cn d) -> cm_version (e_class E cn) = Some z ->
       lookup y p = Some (VDict m) -> aget "version" m = Some (VInt z)) /\
    (exists m, y = VDict m) /\
    upgrade_config E y dir (TData c fs) el false = Ok y.
Proof. exact upgrade_config_ok. Qed.
Print Assumptions C24_upgrade_config_partial.

(** A file that does not load is not rewritten. *)
Theorem C24_only_loadable_files : forall E x dir t el dry y,
  upgrade_config E x dir t el dry = Ok y -> exists L, typed_load E t x (Some dir) None false false = Ok L.
Proof. exact upgrade_config_loads. Qed.
Print Assumptions C24_only_loadable_files.

(** A dry run leaves the file as it is. *)
Theorem C24_dry_run : forall E x dir t el y, upgrade_config E x dir t el true = Ok y -> y = x.
Proof. exact upgrade_config_dry. Qed.
Print Assumptions C24_dry_run.

(** *** a versioned config with schedules at both levels, written at version 0 *)
(** class Opt: steps: int = 10;
    class Run(Versioned): rate: float; name: str = "x"; opt: Opt; sizes: List[int] *)
Definition up_sub : list (string * (ty * dflt)) := [("steps", (TInt, DValue (VInt 10))); ("eps", (TFloat, DValue (VFloat f_half)))].
Definition up_c : cinfo := mkC "Run" (Some (1%Z, [(0%Z, [RenameField ["lr"] ["rate"]])])).
Definition up_fs : list (string * (ty * dflt)) :=
  [("rate", (TFloat, DMissing)); ("name", (TStr, DValue (VStr "x")));
   ("opt", (TData (mkC "Opt" None) up_sub, DMissing)); ("sizes", (TList TInt, DFactory (VList [])))].
Definition up_env : env :=
  mkEnv ex_float (fun f => f) ex_ron (fun _ => None)
    (fun n => if String.eqb n "Run" then meta up_c up_fs
              else if String.eqb n "Opt" then meta (mkC "Opt" None) up_sub else mkCM None [])
    (fun l => l).
Definition up_file : pyval :=
  VDict [("!__name__", VStr "Run"); ("version", VInt 0); ("lr", VStr "step: 3@0 7@10"); ("name", VStr "x");
         ("opt", VDict [("steps", VStr "step: 3@0 step 10@7 0@10")]); ("sizes", VList [VInt 1; VInt 2])].
Definition up_new : pyval :=
  VDict [("!__name__", VStr "Run"); ("version", VInt 1); ("rate", VStr "step: 3@0 7@10"); 
         ("opt", VDict [("!__name__", VStr "Opt"); ("steps", VStr "step: 3@0 step 10@7 0@10")]); ("sizes", VList [VInt 1; VInt 2])].

Lemma up_shallow : shallow_file up_env false (TData up_c up_fs) up_file.
Proof.
  intros q b text H. apply sched_in_data in H as (y & d & n & ft & fd & w & q' & H1 & H2 & H3 & H4 & H5 & ->).
  vm_compute in H1. injection H1 as <-. injection H2 as <-.
  destruct H3 as [H3|[H3|[H3|[H3|[]]]]]; injection H3 as <- <- <-; injection H4 as <-.
  - inversion H5; subst. eexists. split; [reflexivity|]. simpl. lia.
  - inversion H5.
  - apply sched_in_data in H5 as (y & d & n & ft & fd & w & q & H1 & H2 & H3 & H4 & H5 & ->).
    vm_compute in H1. injection H1 as <-. injection H2 as <-.
    destruct H3 as [H3|[H3|[]]]; injection H3 as <- <- <-; try discriminate H4; injection H4 as <-.
    inversion H5; subst. eexists. split; [reflexivity|]. simpl. lia.
  - inversion H5 as [| | | | |i l w q b' text' Hin Hs| |]; subst. destruct Hin as [<-|[<-|[]]]; inversion Hs.
Qed.

Example C24_ex : exists L,
  order_ok up_env /\ loadable (TData up_c up_fs) /\ persistable up_env false (TData up_c up_fs) /\
  defaults_typed (TData up_c up_fs) /\ filev up_file = true /\ shallow_file up_env false (TData up_c up_fs) up_file /\
  typed_load up_env (TData up_c up_fs) up_file (Some "d") None false false = Ok L /\
  clean (l_value L) = true /\ wf (l_value L) = true /\
  upgrade_config up_env up_file "d" (TData up_c up_fs) true false = Ok up_new /\
  upgrade_config up_env up_new "d" (TData up_c up_fs) true false = Ok up_new.
Proof.
  eexists. split; [intros l; apply Permutation_refl|]. split.
  { simpl. repeat match goal with
      | |- _ /\ _ => split
      | |- True => exact I
      | |- NoDup _ => solve [nodup]
      | |- ~ _ => solve [simpl; intuition discriminate]
      | |- forall _ _ _ _, Some _ = Some _ -> _ =>
          let H := fresh in let K := fresh in intros ? ? ? ? H K; injection H as <- <-; destruct K as [K|[]]; injection K as <- <-; repeat constructor
      | |- forall _ _ _ _, None = Some _ -> _ => discriminate
      end. }
  split.
  { simpl. repeat match goal with
      | |- _ /\ _ => split
      | |- True => exact I
      | |- NoDup _ => solve [nodup]
      | |- forall _ _, Some _ = Some _ -> _ => let H := fresh in intros ? ? H; injection H as <- <-; repeat constructor
      | |- forall _ _, None = Some _ -> _ => discriminate
      | |- Forall _ _ => solve [repeat constructor]
      | |- _ = _ => reflexivity
      end. }
  split; [simpl; repeat split; constructor|]. split; [reflexivity|]. split; [exact up_shallow|].
  split; [vm_compute; reflexivity|]. repeat (split; [vm_compute; reflexivity|]). vm_compute. reflexivity.
Qed.

(** *** where the claim is false *)
(** class Cfg: xs: List[float].  A schedule for an element of a list is replaced by its
    value at 0: the upgraded file has lost it. *)
Theorem C24_list_schedule_refuted : exists E c fs x dir L y L',
  order_ok E /\ loadable (TData c fs) /\ persistable E false (TData c fs) /\ filev x = true /\
  typed_load E (TData c fs) x (Some dir) None false false = Ok L /\ l_sched L <> [] /\
  upgrade_config E x dir (TData c fs) false false = Ok y /\
  typed_load E (TData c fs) y (Some dir) None false false = Ok L' /\ l_sched L' = [].
Proof.
  exists (mkEnv ex_float (fun f => f) ex_ron (fun _ => None) (fun _ => mkCM None [("xs", DMissing)]) (fun l => l)),
    (mkC "Cfg" None), [("xs", (TList TFloat, DMissing))], (VDict [("xs", VList [VStr "step: 3@0 7@10"])]), "d". do 3 eexists.
  split; [intros l; apply Permutation_refl|].
  split; [split; [nodup|split; [simpl; intuition discriminate|split; [discriminate|split; exact I]]]|].
  split. { split; [nodup|]. split; [repeat constructor|]. split; [reflexivity|]. split; [discriminate|split; exact I]. }
  split; [reflexivity|]. split; [vm_compute; reflexivity|]. split; [vm_compute; discriminate|].
  split; [vm_compute; reflexivity|]. split; [vm_compute; reflexivity|]. reflexivity.
Qed.
Print Assumptions C24_list_schedule_refuted.
