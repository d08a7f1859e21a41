(** PropsState.v -- schedules in configs: C37 (dump and load), C38 (step). *)
From Coq Require Import Permutation.
From Verif Require SchedTree.
From Verif Require Import Base Value Schema Rewrite Sched Types Asdict FromDict Manager SpecTypes SpecState FromDictFacts RoundTrip
  ResumeProps Examples.

(** ** C37 *)
(** Dumping a config with its schedules writes the text of every schedule at its
    place, at any depth, and otherwise exactly what a dump without schedules writes. *)
Theorem C37_dump_texts : forall E c fs v l,
  persistable E false (TData c fs) -> holds (TData c fs) v ->
  fits E "" (SNode l) (TData c fs) v ->
  exists d d0,
    typed_dump (e_class E) v (Some l) false = Ok (d, []) /\ typed_dump (e_class E) v None false = Ok (d0, []) /\
    (forall p s, sched_at (SNode l) p = Some s -> entry_at d p = Some (VStr (sch_unparsed s))) /\
    (forall q, (forall p s, sched_at (SNode l) p = Some s -> ~ prefix_of p q /\ ~ prefix_of q p) ->
       entry_at d q = entry_at d0 q).
Proof. exact dump_with_schedules. Qed.
Print Assumptions C37_dump_texts.

(** Loading that dump restores every schedule at its place; scheduled fields hold the
    value at 0, all others their dumped value; and if the dumped config was up to
    date, one application of the schedules to the loaded one restores it exactly.
    Missing for the full claim: schedules more than two levels deep (false, below). *)
Theorem C37_schedules_survive_partial : forall E c fs v l,
  order_ok E -> persistable E false (TData c fs) -> holds (TData c fs) v -> clean v = true ->
  fits E "" (SNode l) (TData c fs) v -> named "" (SNode l) -> shallow l ->
  exists d l' v0,
    typed_dump (e_class E) v (Some l) false = Ok (d, []) /\
    (forall dir allow ig, typed_load E (TData c fs) (ron_view d) dir None allow ig = Ok (mkL v0 l' [])) /\
    (forall p, sched_at (SNode l') p = sched_at (SNode l) p) /\
    (forall p s, sched_at (SNode l) p = Some s -> exists r, initial_value E s = Ok r /\ field_at v0 p = Some r) /\
    (forall q, (forall p s, sched_at (SNode l) p = Some s -> ~ prefix_of p q /\ ~ prefix_of q p) ->
       field_at v0 q = field_at v q) /\
    (forall state, apply_schedules E state l v = Ok v -> apply_schedules E state l' v0 = Ok v).
Proof. exact C37_survive. Qed.
Print Assumptions C37_schedules_survive_partial.

(** ** an example with schedules at both levels *)
Definition leaf (n : string) (i : bool) (text : string) : stree :=
  match parse_schedule ex_float text with
  | Ok pw => SLeaf (mkSched pw n i text)
  | Err _ => SNode []
  end.

Definition ex_tree : list (string * stree) := Eval vm_compute in
  [("opt", SNode [("lr", leaf "lr" false "step: 3@0 7@10")]);
   ("steps", leaf "steps" true "step: 3@0 step 10@7 0@10")].

Lemma ex_persistable : persistable ex_env false tCfg.
Proof.
  unfold tCfg. simpl.
  repeat match goal with
         | |- _ /\ _ => split
         | |- True => exact I
         | |- NoDup _ => solve [nodup]
         | |- forall _ _, Some _ = Some _ -> _ =>
             let H := fresh in intros ? ? H; injection H as <- <-; repeat constructor
         | |- forall _ _, None = Some _ -> _ => discriminate
         | |- Forall _ _ => solve [repeat constructor]
         | |- enum_by_name _ =>
             let H := fresh in
             intros m x H; simpl in H;
             repeat destruct H as [H|H]; try easy; injection H as <- <-; reflexivity
         | |- _ = _ => reflexivity
         end.
Qed.

Lemma ex_holds : holds tCfg ex_cfg.
Proof.
  simpl. split; [reflexivity|].
  repeat match goal with
         | |- _ /\ _ => split
         | |- True => exact I
         | |- _ = _ => reflexivity
         | |- Forall _ _ => solve [repeat constructor]
         end.
  - right. repeat split.
  - right. left. repeat split.
  - exists (VStr "tanh"). simpl. auto.
  - simpl. auto.
Qed.

Lemma ex_fits : fits ex_env "" (SNode ex_tree) tCfg ex_cfg.
Proof.
  unfold ex_tree. simpl. split; [|split; [|exact I]].
  - exists "Config". do 5 eexists. split; [reflexivity|]. split; [reflexivity|]. split; [reflexivity|].
    split; [reflexivity|]. split; [|exact I]. exists "Optimizer". do 5 eexists. split; [reflexivity|].
    split; [reflexivity|]. split; [reflexivity|]. split; [reflexivity|].
    split; [reflexivity|]. split; [reflexivity|]. split; [reflexivity|]. split; [vm_compute; reflexivity|].
    eexists. vm_compute. reflexivity.
  - exists "Config". do 5 eexists. split; [reflexivity|]. split; [reflexivity|]. split; [reflexivity|].
    split; [reflexivity|]. split; [reflexivity|]. split; [reflexivity|]. split; [reflexivity|].
    split; [vm_compute; reflexivity|]. eexists. vm_compute. reflexivity.
Qed.

Lemma ex_named : named "" (SNode ex_tree).
Proof. simpl. repeat split; try nodup. Qed.

Lemma ex_shallow : shallow ex_tree.
Proof.
  intros p s H. destruct p as [|k p]; [discriminate|]. cbn [sched_at ex_tree aget] in H.
  destruct (String.eqb k "opt").
  - destruct p as [|k2 p]; [discriminate|]. cbn [sched_at aget] in H. destruct (String.eqb k2 "lr"); [|discriminate].
    destruct p; [|discriminate]. simpl. lia.
  - destruct (String.eqb k "steps"); [|discriminate]. destruct p; [|discriminate]. simpl. lia.
Qed.

(** the config at step 10: the hypotheses hold and the config is up to date *)
Definition ex_state : pyval := VObj "State" [("step", VInt 10)].
Definition ex_cfg10 : pyval :=
  VObj "Config"
    [("steps", VInt 10); ("name", VStr "run@1"); ("tags", VList [VStr "a"; VStr "b"]);
     ("shape", VTuple [VInt 4; VFloat f_half]); ("table", VDict [("x", VInt 1); ("y", VInt 2)]);
     ("opt", VObj "Optimizer" [("lr", VFloat (sf_of_Z 7)); ("eps", VFloat f_half)]);
     ("alg", VObj "DQN" [("eps_greedy", VBool true)]);
     ("net", VObj "Net" [("width", VInt 64); ("act", VStr "tanh")]);
     ("color", VEnum "Color" "BLUE" (VStr "BLUE"))].

Example C37_ex :
  persistable ex_env false tCfg /\ holds tCfg ex_cfg /\ fits ex_env "" (SNode ex_tree) tCfg ex_cfg /\
  named "" (SNode ex_tree) /\ shallow ex_tree /\
  (let* d := typed_dump ex_class ex_cfg (Some ex_tree) false in Ok (entry_at (fst d) ["opt"; "lr"])) =
    Ok (Some (VStr "step: 3@0 7@10")).
Proof.
  split; [exact ex_persistable|]. split; [exact ex_holds|]. split; [exact ex_fits|]. split; [exact ex_named|].
  split; [exact ex_shallow|]. vm_compute. reflexivity.
Qed.

(** ** schedules three levels deep *)
(** class B: c: float;  class A: b: B;  class C: x: float;  class Cfg: b: C; a: A *)
Definition dB : list (string * (ty * dflt)) := [("c", (TFloat, DMissing))].
Definition dA : list (string * (ty * dflt)) := [("b", (TData (mkC "B" None) dB, DMissing))].
Definition dC : list (string * (ty * dflt)) := [("x", (TFloat, DMissing))].
Definition dCfg : list (string * (ty * dflt)) :=
  [("b", (TData (mkC "C" None) dC, DMissing)); ("a", (TData (mkC "A" None) dA, DMissing))].
Definition deep_env : env :=
  mkEnv ex_float (fun f => f) ex_ron (fun _ => None)
    (fun n => if String.eqb n "B" then meta (mkC "B" None) dB
              else if String.eqb n "A" then meta (mkC "A" None) dA
              else if String.eqb n "C" then meta (mkC "C" None) dC
              else if String.eqb n "Cfg" then meta (mkC "Cfg" None) dCfg else mkCM None [])
    (fun l => l).
Definition deep_cfg : pyval :=
  VObj "Cfg" [("b", VObj "C" [("x", VFloat (sf_of_Z 3))]);
              ("a", VObj "A" [("b", VObj "B" [("c", VFloat (sf_of_Z 1))])])].
Definition deep_tree : list (string * stree) := Eval vm_compute in
  [("a", SNode [("b", SNode [("c", leaf "c" false "step: 1@0 3@10")])])].
Definition two_trees : list (string * stree) := Eval vm_compute in
  (("b", SNode [("x", leaf "x" false "step: 3@0 7@10")]) :: deep_tree)%list.

Ltac persistable_tac :=
  simpl; repeat match goal with
         | |- _ /\ _ => split
         | |- True => exact I
         | |- NoDup _ => solve [nodup]
         | |- forall _ _, None = Some _ -> _ => discriminate
         | |- Forall _ _ => solve [repeat constructor]
         | |- _ = _ => reflexivity
         end.

Lemma deep_ok : order_ok deep_env /\ persistable deep_env false (TData (mkC "Cfg" None) dCfg) /\
  holds (TData (mkC "Cfg" None) dCfg) deep_cfg /\ clean deep_cfg = true /\
  fits deep_env "" (SNode two_trees) (TData (mkC "Cfg" None) dCfg) deep_cfg /\
  fits deep_env "" (SNode deep_tree) (TData (mkC "Cfg" None) dCfg) deep_cfg /\
  named "" (SNode two_trees) /\ named "" (SNode deep_tree).
Proof.
  split; [intros l; apply Permutation_refl|].
  assert (D : fits deep_env "" (SNode deep_tree) (TData (mkC "Cfg" None) dCfg) deep_cfg).
  { unfold deep_tree. simpl. split; [|exact I].
    exists "Cfg". do 5 eexists. do 4 (split; [reflexivity|]). split; [|exact I].
    exists "A". do 5 eexists. do 4 (split; [reflexivity|]). split; [|exact I].
    exists "B". do 5 eexists. do 4 (split; [reflexivity|]).
    split; [reflexivity|]. split; [reflexivity|]. split; [reflexivity|]. split; [vm_compute; reflexivity|].
    eexists. vm_compute. reflexivity. }
  split; [persistable_tac|]. split; [persistable_tac|]. split; [reflexivity|]. split; [|split; [exact D|]].
  - split; [|exact D]. exists "Cfg". do 5 eexists. do 4 (split; [reflexivity|]). split; [|exact I].
    exists "C". do 5 eexists. do 4 (split; [reflexivity|]).
    split; [reflexivity|]. split; [reflexivity|]. split; [reflexivity|]. split; [vm_compute; reflexivity|].
    eexists. vm_compute. reflexivity.
  - split; simpl; repeat split; nodup.
Qed.

(** A checkpoint with a schedule three levels deep is written but cannot be loaded. *)
Theorem C37_deep_schedule_refuted : exists E c fs v l d,
  order_ok E /\ persistable E false (TData c fs) /\ holds (TData c fs) v /\ clean v = true /\
  fits E "" (SNode l) (TData c fs) v /\ named "" (SNode l) /\
  typed_dump (e_class E) v (Some l) false = Ok (d, []) /\
  typed_load E (TData c fs) (ron_view d) None None false false = Err KeyError.
Proof.
  exists deep_env, (mkC "Cfg" None), dCfg, deep_cfg, deep_tree. eexists.
  destruct deep_ok as (H1 & H2 & H3 & H4 & H5 & H6 & H7 & H8).
  do 6 (split; [assumption|]). split; [vm_compute; reflexivity|]. vm_compute. reflexivity.
Qed.
Print Assumptions C37_deep_schedule_refuted.

(** Or it is loaded and silently attached to another section of the same name: the
    field keeps its value at 0 whatever the state says. *)
Theorem C37_misplaced_schedule_refuted : exists E c fs v l d L s state v',
  order_ok E /\ persistable E false (TData c fs) /\ holds (TData c fs) v /\ clean v = true /\
  fits E "" (SNode l) (TData c fs) v /\ named "" (SNode l) /\
  typed_dump (e_class E) v (Some l) false = Ok (d, []) /\
  typed_load E (TData c fs) (ron_view d) None None false false = Ok L /\
  sched_at (SNode l) ["a"; "b"; "c"] = Some s /\ sched_at (SNode (l_sched L)) ["a"; "b"; "c"] = None /\
  apply_schedules E state (l_sched L) (l_value L) = Ok v' /\
  schedule_value E s state = Ok (VFloat (sf_of_Z 3)) /\ field_at v' ["a"; "b"; "c"] = Some (VFloat (sf_of_Z 1)).
Proof.
  exists deep_env, (mkC "Cfg" None), dCfg, deep_cfg, two_trees. do 3 eexists. exists ex_state. eexists.
  destruct deep_ok as (H1 & H2 & H3 & H4 & H5 & H6 & H7 & H8).
  do 6 (split; [assumption|]). split; [vm_compute; reflexivity|]. split; [vm_compute; reflexivity|].
  split; [vm_compute; reflexivity|]. split; [vm_compute; reflexivity|]. split; [vm_compute; reflexivity|].
  split; vm_compute; reflexivity.
Qed.
Print Assumptions C37_misplaced_schedule_refuted.

(** ** C38 *)
(** If bringing the schedules up to date succeeds then every scheduled field (at any
    depth) holds its schedule's value at the state's key, and everything else is as before. *)
Theorem C38_scheduled_fields_up_to_date : forall E state l config config',
  named "" (SNode l) -> apply_schedules E state l config = Ok config' ->
  (forall p s, sched_at (SNode l) p = Some s ->
     exists r, schedule_value E s state = Ok r /\ field_at config' p = Some r) /\
  (forall q, (forall p s, sched_at (SNode l) p = Some s -> ~ prefix_of p q /\ ~ prefix_of q p) ->
     field_at config' q = field_at config q).
Proof. exact SchedTree.apply_sets. Qed.
Print Assumptions C38_scheduled_fields_up_to_date.

(** It does succeed if the schedules sit at int and float fields of the config and all
    have a value; the config keeps its types, the schedules still fit, and doing it
    again changes nothing: so it can be repeated for every later state. *)
Theorem C38_update_succeeds : forall E c fs v l state,
  persistable E false (TData c fs) -> holds (TData c fs) v ->
  fits E "" (SNode l) (TData c fs) v -> named "" (SNode l) ->
  (forall p s, sched_at (SNode l) p = Some s -> exists r, schedule_value E s state = Ok r) ->
  exists v', apply_schedules E state l v = Ok v' /\ holds (TData c fs) v' /\
             fits E "" (SNode l) (TData c fs) v' /\ apply_schedules E state l v' = Ok v'.
Proof. exact step_total. Qed.
Print Assumptions C38_update_succeeds.

Example C38_ex :
  apply_schedules ex_env ex_state ex_tree ex_cfg = Ok ex_cfg10 /\
  apply_schedules ex_env ex_state ex_tree ex_cfg10 = Ok ex_cfg10.
Proof. split; vm_compute; reflexivity. Qed.

(** class Cfg: xs: List[float];  class Cfg2: table: Dict[str, float] *)
Definition list_ty := TData (mkC "Cfg" None) [("xs", (TList TFloat, DMissing))].
Definition list_file := VDict [("xs", VList [VStr "step: 3@0 7@10"])].
Definition dict_ty := TData (mkC "Cfg2" None) [("table", (TDict TStr TFloat, DMissing))].
Definition dict_file := VDict [("table", VDict [("a", VStr "step: 3@0 7@10")])].

(** A schedule for an element of a list is accepted but never applied: the element
    keeps the value at 0 and the config gets a stray attribute. *)
Theorem C38_list_element_refuted : exists E t x L state v' s,
  order_ok E /\ typed_load E t x None None true false = Ok L /\
  apply_schedules E state (l_sched L) (l_value L) = Ok v' /\
  sched_at (SNode (l_sched L)) ["xs[0]"] = Some s /\
  schedule_value E s state = Ok (VFloat (sf_of_Z 7)) /\
  field_at v' ["xs"] = Some (VList [VFloat (sf_of_Z 3)]) /\
  field_at v' ["xs[0]"] = Some (VFloat (sf_of_Z 7)).
Proof.
  exists ex_env, list_ty, list_file. eexists. exists ex_state. do 2 eexists.
  split; [intros l; apply Permutation_refl|]. split; [vm_compute; reflexivity|]. split; [vm_compute; reflexivity|].
  split; [vm_compute; reflexivity|]. split; [vm_compute; reflexivity|]. split; vm_compute; reflexivity.
Qed.
Print Assumptions C38_list_element_refuted.

(** A schedule for an entry of a Dict field is accepted and then breaks every step. *)
Theorem C38_dict_entry_refuted : exists E t x L,
  order_ok E /\ typed_load E t x None None true false = Ok L /\
  forall state n, py_getattr state "step" = Ok (VInt n) -> n = 10%Z ->
    apply_schedules E state (l_sched L) (l_value L) = Err AttributeError.
Proof.
  exists ex_env, dict_ty, dict_file. eexists.
  split; [intros l; apply Permutation_refl|]. split; [vm_compute; reflexivity|].
  intros state n H ->. cbn [l_sched l_value apply_schedules]. rewrite SchedTree.apply_entry_node.
  cbn [py_getattr aget String.eqb rbind apply_schedules apply_entry]. unfold schedule_update, schedule_value.
  cbn [sch_pw pw_xname]. change (py_getattr state "step") with (py_getattr state "step").
  assert (py_getattr state "step" = Ok (VInt 10)) as -> by exact H. vm_compute. reflexivity.
Qed.
Print Assumptions C38_dict_entry_refuted.
