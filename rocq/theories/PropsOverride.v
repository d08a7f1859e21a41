(** PropsOverride.v -- C09 .. C14, C16, C51: overrides and versions.
    Vocabulary ([names], [type_at], [text_value], [written], [obj_at], ...): SpecOverride.v;
    [denotes]: SpecLoad.v; [lookup], [unrelated]: SpecTree.v. *)
From Coq Require Import Permutation.
From Verif Require Import Base Value Schema Rewrite Sched Types Asdict FromDict
  SpecTypes FromDictFacts SpecTree SpecLoad SpecOverride OverrideFacts UpgradeFacts Examples PropsLoad.

(** ** C09 an override sets the named field *)

(** Loading with overrides is loading the file into which the values were written
    one after the other: all of it succeeds or fails together. *)
Theorem C09_overrides_are_edits : forall E t d dir ovs allow ig L,
  is_dataclass_ty t = true -> (exists s, materialize_type t = Ok s) ->
  (forall o, In o ovs -> ~ bad_bool t o) ->
  (typed_load E t (VDict d) dir (Some ovs) allow ig = Ok L <->
   exists x', written E t ovs (VDict d) x' /\ typed_load E t x' dir None allow ig = Ok L).
Proof. exact load_with_overrides. Qed.
Print Assumptions C09_overrides_are_edits.

(** "a.b.c=text" (text is all after the first "=") makes the field at a.b.c hold
    what [text] stands for at the field's type, whatever the file and the earlier
    overrides [l1] say, if no later override is for it (a part of it, or a section
    around it).  When a Versioned dataclass lies on the way, either the file is not
    upgraded there or its rules do not concern the field (C13). *)
Theorem C09_override_sets_field : forall E t d dir l1 o l2 allow ig L p text ft,
  order_ok E -> ron_file E -> loadable t -> field_idents t -> is_dataclass_ty t = true ->
  filev (VDict d) = true -> markerless (VDict d) = true ->
  (forall o', In o' (l1 ++ o :: l2)%list -> ~ bad_bool t o') ->
  names o p text -> type_at t p = Some ft ->
  (forall o' q s, In o' l2 -> names o' q s -> unrelated q p) ->
  (untouched t p \/ forall x', written E t (l1 ++ o :: l2)%list (VDict d) x' -> settled t x' p) ->
  typed_load E t (VDict d) dir (Some (l1 ++ o :: l2)%list) allow ig = Ok L ->
  exists val u, text_value E ft text val /\ obj_at (l_value L) p = Some u /\
                denotes E true allow (is_some dir) false ft val u.
Proof. exact override_sets. Qed.
Print Assumptions C09_override_sets_field.

(** class Adam: lr: int = 3; eps: int = 3; debug: bool = False; tag: str = ""
    class Job: opt: Adam; n: int = 1 *)
Definition tAdam : ty := TData (mkC "Adam" None)
  [("lr", (TInt, DValue (VInt 3))); ("eps", (TInt, DValue (VInt 3)));
   ("debug", (TBool, DValue (VBool false))); ("tag", (TStr, DValue (VStr "")))].
Definition tJob : ty := TData (mkC "Job" None) [("opt", (tAdam, DMissing)); ("n", (TInt, DValue (VInt 1)))].

Lemma ex_ron_file : ron_file ex_env.
Proof.
  intros s y H. unfold ex_env, e_ron, ex_ron in H.
  destruct (String.eqb s "7"); [injection H as <-; auto|]. destruct (String.eqb s "0.5"); [injection H as <-; auto|].
  destruct (String.eqb s "3"); [injection H as <-; auto|discriminate].
Qed.

Ltac loadable_tac :=
  repeat match goal with
         | |- _ /\ _ => split
         | |- True => exact I
         | |- NoDup _ => solve [nodup]
         | |- ~ _ => simpl; intuition discriminate
         | |- loadable _ => simpl
         | |- forall _ _ _ _, None = Some _ -> _ => discriminate
         | |- forall _ _ _ _, Some _ = Some _ -> _ =>
             let H := fresh in let G := fresh in
             intros ? ? ? ? H G; injection H as <- <-; simpl in G; intuition (try discriminate);
             match goal with K : _ = _ |- _ => injection K as <- <- end; repeat constructor
         end.

Lemma tJob_loadable : loadable tJob.
Proof. loadable_tac. Qed.

Definition job_ovs := ["opt.lr=0.5"; "opt.lr=7"; "opt.tag=a=b"; "opt.debug=T"].
Definition job_loaded : pyval :=
  VObj "Job" [("opt", VObj "Adam" [("lr", VInt 7); ("eps", VInt 10); ("debug", VBool true); ("tag", VStr "a=b")]); ("n", VInt 1)].

Lemma names_intro o p text : p <> [] -> forallb segment p = true -> o = (join "." p ++ "=" ++ text)%string -> names o p text.
Proof. repeat split; auto. Qed.

Lemma not_bad t o p text : names o p text -> (type_at t p <> Some TBool \/ exists b, bool_text text b) -> ~ bad_bool t o.
Proof.
  intros Hn H (p' & text' & Hn' & Ht & Hb). destruct (names_fun _ _ _ _ _ Hn Hn') as [-> ->].
  destruct H as [H|[b H]]; [auto|eapply Hb; eauto].
Qed.

Example C09_ex :
  order_ok ex_env /\ ron_file ex_env /\ loadable tJob /\ field_idents tJob /\ is_dataclass_ty tJob = true /\
  (forall o, In o job_ovs -> ~ bad_bool tJob o) /\
  names "opt.lr=7" ["opt"; "lr"] "7" /\ type_at tJob ["opt"; "lr"] = Some TInt /\ untouched tJob ["opt"; "lr"] /\
  (forall o q s, In o ["opt.tag=a=b"; "opt.debug=T"] -> names o q s -> unrelated q ["opt"; "lr"]) /\
  names "opt.tag=a=b" ["opt"; "tag"] "a=b" /\
  (exists s, materialize_type tJob = Ok s) /\
  typed_load ex_env tJob (VDict [("opt", VDict [("lr", VInt 9); ("eps", VInt 10)])]) None (Some job_ovs) false false =
    Ok (mkL job_loaded [] []).
Proof.
  split; [exact ex_order|]. split; [exact ex_ron_file|]. split; [exact tJob_loadable|].
  split; [apply identsb_ok; reflexivity|]. split; [reflexivity|]. split; [|split; [|split; [|split; [|split; [|split; [|split]]]]]].
  - intros o [<-|[<-|[<-|[<-|[]]]]].
    + apply (not_bad _ _ ["opt"; "lr"] "0.5"); [now apply names_intro|left; discriminate].
    + apply (not_bad _ _ ["opt"; "lr"] "7"); [now apply names_intro|left; discriminate].
    + apply (not_bad _ _ ["opt"; "tag"] "a=b"); [now apply names_intro|left; discriminate].
    + apply (not_bad _ _ ["opt"; "debug"] "T"); [now apply names_intro|right; exists true; simpl; tauto].
  - now apply names_intro.
  - reflexivity.
  - apply unversioned_untouched. simpl. auto.
  - intros o q s [<-|[<-|[]]] Hn.
    + assert (G : names "opt.tag=a=b" ["opt"; "tag"] "a=b") by now apply names_intro.
      destruct (names_fun _ _ _ _ _ Hn G) as [G1 _]; subst. split; intros [r Hr]; discriminate.
    + assert (G : names "opt.debug=T" ["opt"; "debug"] "T") by now apply names_intro.
      destruct (names_fun _ _ _ _ _ Hn G) as [G1 _]; subst. split; intros [r Hr]; discriminate.
  - now apply names_intro.
  - eexists. vm_compute. reflexivity.
  - vm_compute. reflexivity.
Qed.

(** ** C10 overrides change nothing else *)

(** A field [q] none of whose sections or parts is overridden keeps the value it
    has without overrides -- except when an override creates a section around it
    that the file does not give and whose declared default is an instance. *)
Theorem C10_others_unchanged_partial : forall E t d dir ovs allow ig L0 L q u,
  order_ok E -> ron_file E -> loadable t -> field_idents t -> is_dataclass_ty t = true ->
  filev (VDict d) = true -> markerless (VDict d) = true ->
  (forall o, In o ovs -> ~ bad_bool t o) ->
  type_at t q <> None ->
  (forall o p s, In o ovs -> names o p s -> unrelated p q) ->
  (forall x', written E t ovs (VDict d) x' -> settled t (VDict d) q /\ settled t x' q) ->
  (forall o p text s, In o ovs -> names o p text -> prefix s p -> proper_prefix s q -> s <> [] ->
     lookup (VDict d) s = None -> ~ object_default t s) ->
  typed_load E t (VDict d) dir None allow ig = Ok L0 ->
  typed_load E t (VDict d) dir (Some ovs) allow ig = Ok L ->
  obj_at (l_value L0) q = Some u -> obj_at (l_value L) q = Some u.
Proof. exact overrides_elsewhere. Qed.
Print Assumptions C10_others_unchanged_partial.

(** opt.lr keeps its default when opt.eps is overridden and the file has no section opt *)
Example C10_ex :
  ~ bad_bool tJob "opt.eps=7" /\ type_at tJob ["opt"; "lr"] <> None /\
  (forall x', settled tJob x' ["opt"; "lr"]) /\
  (forall s, s <> [] -> proper_prefix s ["opt"; "lr"] -> ~ object_default tJob s) /\
  typed_load ex_env tJob (VDict []) None None false false =
    Ok (mkL (VObj "Job" [("opt", VObj "Adam" [("lr", VInt 3); ("eps", VInt 3); ("debug", VBool false); ("tag", VStr "")]); ("n", VInt 1)]) [] []) /\
  typed_load ex_env tJob (VDict []) None (Some ["opt.eps=7"]) false false =
    Ok (mkL (VObj "Job" [("opt", VObj "Adam" [("lr", VInt 3); ("eps", VInt 7); ("debug", VBool false); ("tag", VStr "")]); ("n", VInt 1)]) [] []).
Proof.
  split; [|split; [|split; [|split; [|split]]]].
  - apply (not_bad _ _ ["opt"; "eps"] "7"); [now apply names_intro|left; discriminate].
  - discriminate.
  - intros x'. apply OverrideLoad.unversioned_settled. simpl. auto.
  - intros s Hs [r [Hr Heq]]. destruct s as [|a [|b [|c s]]]; [easy| | |].
    + injection Heq as <- _. intros (c & o & [H|H]); discriminate H.
    + injection Heq as _ _ Heq. now destruct r.
    + injection Heq as _ _ Heq. discriminate.
  - vm_compute. reflexivity.
  - vm_compute. reflexivity.
Qed.

(** class Train: opt: Adam = field(default_factory=lambda: Adam(lr=7)) *)
Definition tTrain : ty := TData (mkC "Train" None)
  [("opt", (tAdam, DFactory (VObj "Adam" [("lr", VInt 7); ("eps", VInt 3); ("debug", VBool false); ("tag", VStr "")])))].

(** The exception is real: overriding opt.eps resets opt.lr from 7 to 3. *)
Theorem C10_others_unchanged_refuted : exists E t d ovs L0 L q,
  order_ok E /\ ron_file E /\ loadable t /\ filev (VDict d) = true /\
  (forall o, In o ovs -> ~ bad_bool t o) /\ type_at t q <> None /\ unversioned t q /\
  (forall o p s, In o ovs -> names o p s -> unrelated p q) /\
  typed_load E t (VDict d) None None false false = Ok L0 /\
  typed_load E t (VDict d) None (Some ovs) false false = Ok L /\
  obj_at (l_value L0) q = Some (VInt 7) /\ obj_at (l_value L) q = Some (VInt 3).
Proof.
  exists ex_env, tTrain, [], ["opt.eps=3"],
    (mkL (VObj "Train" [("opt", VObj "Adam" [("lr", VInt 7); ("eps", VInt 3); ("debug", VBool false); ("tag", VStr "")])]) [] []),
    (mkL (VObj "Train" [("opt", VObj "Adam" [("lr", VInt 3); ("eps", VInt 3); ("debug", VBool false); ("tag", VStr "")])]) [] []),
    ["opt"; "lr"].
  assert (G : names "opt.eps=3" ["opt"; "eps"] "3") by now apply names_intro.
  split; [exact ex_order|]. split; [exact ex_ron_file|]. split; [loadable_tac|]. split; [reflexivity|].
  split; [intros o [<-|[]]; apply (not_bad _ _ _ _ G); left; discriminate|].
  split; [discriminate|]. split; [simpl; auto|]. split.
  - intros o p s [<-|[]] Hn. destruct (names_fun _ _ _ _ _ Hn G) as [G1 _]; subst. split; intros [r Hr]; discriminate.
  - repeat split; vm_compute; reflexivity.
Qed.
Print Assumptions C10_others_unchanged_refuted.

(** ** C11 unknown or malformed overrides *)

(** no config is returned if some override is unknown or has no "=" *)
Theorem C11_never_loaded : forall E t d dir ovs o allow ig L,
  is_dataclass_ty t = true -> In o ovs -> (unknown t o \/ has_char "=" o = false) ->
  typed_load E t (VDict d) dir (Some ovs) allow ig <> Ok L.
Proof. exact unknown_never. Qed.
Print Assumptions C11_never_loaded.

(** the error reports exactly the unknown names [ks], in order -- given that the
    known overrides [kept] have readable texts and can be written *)
Theorem C11_unknown_reported : forall E t d dir ovs kept ks x' allow ig,
  is_dataclass_ty t = true -> (exists s, materialize_type t = Ok s) ->
  (forall o, In o kept -> ~ bad_bool t o) ->
  sorted t ovs kept ks -> ks <> [] -> written E t kept (VDict d) x' ->
  typed_load E t (VDict d) dir (Some ovs) allow ig = Err (report ks).
Proof. exact unknown_error. Qed.
Print Assumptions C11_unknown_reported.

(** ... and ValueError for the first one without "=" *)
Theorem C11_malformed : forall E t d dir l1 kept ks x' o l2 allow ig,
  is_dataclass_ty t = true -> (exists s, materialize_type t = Ok s) ->
  (forall o, In o kept -> ~ bad_bool t o) ->
  sorted t l1 kept ks -> written E t kept (VDict d) x' -> has_char "=" o = false ->
  typed_load E t (VDict d) dir (Some (l1 ++ o :: l2)%list) allow ig = Err ValueError.
Proof. exact malformed_error. Qed.
Print Assumptions C11_malformed.

Definition bad_ovs := ["opt.momentum=3"; "opt.lr=7"; "n.x=3"].
Example C11_ex :
  sorted tJob bad_ovs ["opt.lr=7"] ["opt.momentum"; "n.x"] /\
  written ex_env tJob ["opt.lr=7"] (VDict []) (VDict [("opt", VDict [("lr", VInt 7)])]) /\
  typed_load ex_env tJob (VDict []) None (Some bad_ovs) false false = Err (FieldsNotFound ["opt.momentum"; "n.x"]) /\
  typed_load ex_env tJob (VDict []) None (Some ["opt.momentum=3"; "oops"]) false false = Err ValueError.
Proof.
  assert (G : names "opt.lr=7" ["opt"; "lr"] "7") by now apply names_intro.
  split; [|split; [|split]].
  - apply (so_unknown _ _ ["opt"; "momentum"] "3"); [now apply names_intro|reflexivity|].
    apply so_known; [exists ["opt"; "lr"], "7", TInt; auto|].
    apply (so_unknown _ _ ["n"; "x"] "3"); [now apply names_intro|reflexivity|constructor].
  - eapply (wr_cons _ _ _ _ ["opt"; "lr"] "7" TInt (VInt 7)); [exact G|reflexivity|reflexivity|reflexivity|constructor].
  - vm_compute. reflexivity.
  - vm_compute. reflexivity.
Qed.

(** ** C12 boolean overrides *)

(** the ten texts mean what they say *)
Theorem C12_bool_texts : forall E t d dir o p text b x' allow ig,
  is_dataclass_ty t = true -> (exists s, materialize_type t = Ok s) ->
  names o p text -> type_at t p = Some TBool -> bool_text text b ->
  write (VDict d) p (VBool b) = Some x' ->
  typed_load E t (VDict d) dir (Some [o]) allow ig = typed_load E t x' dir None allow ig.
Proof. exact bool_override. Qed.
Print Assumptions C12_bool_texts.

(** Any other text is rejected if no known override comes before it.  (The
    exception is UnboundLocalError: the code forgets to raise one.) *)
Theorem C12_other_texts_partial : forall E t d dir l1 ks o l2 allow ig,
  is_dataclass_ty t = true -> (exists s, materialize_type t = Ok s) ->
  sorted t l1 [] ks -> bad_bool t o ->
  typed_load E t (VDict d) dir (Some (l1 ++ o :: l2)%list) allow ig = Err UnboundLocalError.
Proof. exact bool_rejected. Qed.
Print Assumptions C12_other_texts_partial.

(** class Flags: a: bool = False; b: bool = False *)
Definition tFlags : ty := TData (mkC "Flags" None)
  [("a", (TBool, DValue (VBool false))); ("b", (TBool, DValue (VBool false)))].

Lemma maybe_bad : bad_bool tFlags "b=maybe".
Proof.
  exists ["b"], "maybe". split; [now apply names_intro|]. split; [reflexivity|].
  intros [] H; simpl in H; intuition discriminate.
Qed.

(** After a known override the other texts are accepted: b=maybe sets b to the
    value of the override before it. *)
Theorem C12_other_texts_refuted : exists E t ovs L,
  (exists o, In o ovs /\ bad_bool t o) /\
  typed_load E t (VDict []) None (Some ovs) false false = Ok L /\
  obj_at (l_value L) ["b"] = Some (VBool true).
Proof.
  exists ex_env, tFlags, ["a=true"; "b=maybe"], (mkL (VObj "Flags" [("a", VBool true); ("b", VBool true)]) [] []).
  split; [|split; vm_compute; reflexivity]. exists "b=maybe". split; [simpl; auto|exact maybe_bad].
Qed.
Print Assumptions C12_other_texts_refuted.

Example C12_ex :
  bool_text "f" false /\ ~ bool_text "FALSE" false /\ ~ bool_text "" true /\
  typed_load ex_env tFlags (VDict [("a", VBool true)]) None (Some ["a=f"]) false false =
    Ok (mkL (VObj "Flags" [("a", VBool false); ("b", VBool false)]) [] []) /\
  typed_load ex_env tFlags (VDict []) None (Some ["b=maybe"; "a=true"]) false false = Err UnboundLocalError.
Proof.
  split; [simpl; tauto|]. split; [simpl; intuition discriminate|]. split; [simpl; intuition discriminate|].
  split; vm_compute; reflexivity.
Qed.

(** ** C13 overrides win over upgraded old files *)

(** If no upgrade rule concerns the field ([untouched]), the override wins for a
    file of any version. *)
Theorem C13_override_wins_partial : forall E t d dir l1 o l2 allow ig L p text ft,
  order_ok E -> ron_file E -> loadable t -> field_idents t -> is_dataclass_ty t = true ->
  filev (VDict d) = true -> markerless (VDict d) = true ->
  (forall o', In o' (l1 ++ o :: l2)%list -> ~ bad_bool t o') ->
  names o p text -> type_at t p = Some ft ->
  (forall o' q s, In o' l2 -> names o' q s -> unrelated q p) ->
  untouched t p ->
  typed_load E t (VDict d) dir (Some (l1 ++ o :: l2)%list) allow ig = Ok L ->
  exists val u, text_value E ft text val /\ obj_at (l_value L) p = Some u /\
                denotes E true allow (is_some dir) false ft val u.
Proof. intros. eapply override_sets; eauto. Qed.
Print Assumptions C13_override_wins_partial.

(** class Run(Versioned), version 1: seed: int = 0; learning_rate: int = 3;
    version 0 called it lr *)
Definition tRun : ty := TData (mkC "Run" (Some (1%Z, [(0%Z, [RenameField ["lr"] ["learning_rate"]])])))
  [("seed", (TInt, DValue (VInt 0))); ("learning_rate", (TInt, DValue (VInt 3)))].

Lemma tRun_loadable : loadable tRun.
Proof. loadable_tac. Qed.

Example C13_ex : untouched tRun ["seed"] /\
  typed_load ex_env tRun (VDict [("version", VInt 0); ("lr", VInt 10)]) None (Some ["seed=7"]) false false =
    Ok (mkL (VObj "Run" [("seed", VInt 7); ("learning_rate", VInt 10)]) [] []).
Proof.
  split; [|vm_compute; reflexivity]. split; [|exact I]. intros cur rules [= <- <-]. split; [discriminate|].
  intros i rs ru q [[= <- <-]|[]] [<-|[]] [<-|[<-|[]]];
    (split; [split; intros [r Hr]; discriminate|simpl; intuition discriminate]).
Qed.

(** Otherwise it may not: the file's value for the old name, renamed after the
    overrides were written, replaces the override learning_rate=7. *)
Theorem C13_override_wins_refuted : exists E t d o p L,
  order_ok E /\ ron_file E /\ loadable t /\ filev (VDict d) = true /\
  names o p "7" /\ type_at t p = Some TInt /\ e_ron E "7" = Ok (VInt 7) /\
  typed_load E t (VDict d) None (Some [o]) false false = Ok L /\
  obj_at (l_value L) p = Some (VInt 10).
Proof.
  exists ex_env, tRun, [("version", VInt 0); ("lr", VInt 10)], "learning_rate=7", ["learning_rate"],
    (mkL (VObj "Run" [("seed", VInt 0); ("learning_rate", VInt 10)]) [] []).
  split; [exact ex_order|]. split; [exact ex_ron_file|]. split; [exact tRun_loadable|].
  split; [reflexivity|]. split; [now apply names_intro|]. repeat split; vm_compute; reflexivity.
Qed.
Print Assumptions C13_override_wins_refuted.

(** ** C14 upgrades *)

(** Loading a file of version [v] into class [c] of version [n] is loading [y]
    into the same class without versions, where [y] is the file (without its
    version) after the rules of v, ..., n-1 ([upgraded], SpecOverride.v). *)
Theorem C14_load_upgrades : forall E c fs n rules d v y dir allow ig,
  loadable (TData c fs) -> filev (VDict d) = true ->
  c_versioned c = Some (n, rules) -> NoDup (map fst rules) -> Forall (fun kv => (fst kv < n)%Z) rules ->
  aget "version" d = Some (VInt v) ->
  upgraded rules n v (VDict (adel "version" d)) y ->
  typed_load E (TData c fs) (VDict d) dir None allow ig =
  typed_load E (TData (mkC (c_name c) None) fs) y dir None allow ig.
Proof. exact load_upgrades. Qed.
Print Assumptions C14_load_upgrades.

(** If some rule fails, so does the load. *)
Theorem C14_load_needs_upgrade : forall E c fs n rules d v dir allow ig L,
  loadable (TData c fs) -> filev (VDict d) = true ->
  c_versioned c = Some (n, rules) -> NoDup (map fst rules) -> Forall (fun kv => (fst kv < n)%Z) rules ->
  aget "version" d = Some (VInt v) ->
  typed_load E (TData c fs) (VDict d) dir None allow ig = Ok L ->
  exists y, upgraded rules n v (VDict (adel "version" d)) y.
Proof. exact load_needs_upgrade. Qed.
Print Assumptions C14_load_needs_upgrade.

(** Upgrading from v to m and then from m to n is upgrading from v to n. *)
Theorem C14_upgrades_compose : forall rules n v m x z,
  (v <= m <= n)%Z ->
  ((exists y, upgraded rules m v x y /\ upgraded rules n m y z) <-> upgraded rules n v x z).
Proof. intros. now apply upgraded_trans. Qed.
Print Assumptions C14_upgrades_compose.

(** A file at (or beyond) the current version is loaded as it is. *)
Theorem C14_current_version : forall E c fs n rules d v dir allow ig,
  loadable (TData c fs) -> filev (VDict d) = true ->
  c_versioned c = Some (n, rules) -> Forall (fun kv => (fst kv < n)%Z) rules ->
  aget "version" d = Some (VInt v) -> (n <= v)%Z ->
  typed_load E (TData c fs) (VDict d) dir None allow ig =
  typed_load E (TData (mkC (c_name c) None) fs) (VDict (adel "version" d)) dir None allow ig.
Proof. exact load_current. Qed.
Print Assumptions C14_current_version.

(** two steps: version 0 lr -> rate, version 1 rate -> learning_rate *)
Definition run_rules := [(0%Z, [RenameField ["lr"] ["rate"]]); (1%Z, [RenameField ["rate"] ["learning_rate"]; DeleteField ["junk"]])].
Definition tRun2 : ty := TData (mkC "Run" (Some (2%Z, run_rules))) [("learning_rate", (TInt, DValue (VInt 3)))].
Example C14_ex :
  loadable tRun2 /\ NoDup (map fst run_rules) /\ Forall (fun kv => (fst kv < 2)%Z) run_rules /\
  upgraded run_rules 2 0 (VDict [("lr", VInt 10); ("junk", VInt 1)]) (VDict [("learning_rate", VInt 10)]) /\
  typed_load ex_env tRun2 (VDict [("version", VInt 0); ("lr", VInt 10); ("junk", VInt 1)]) None None false false =
    Ok (mkL (VObj "Run" [("learning_rate", VInt 10)]) [] []).
Proof.
  split; [|split; [|split; [|split]]].
  - repeat split; try (simpl; intuition discriminate); [nodup|].
    intros ver rules i rs [= <- <-] H. destruct H as [[= <- <-]|[[= <- <-]|[]]]; repeat constructor.
  - nodup.
  - repeat constructor.
  - apply upgraded_iff; [nodup|]. vm_compute. reflexivity.
  - vm_compute. reflexivity.
Qed.

(** ** C16 missing version *)

(** a file without (or with None as) version is rejected ... *)
Theorem C16_missing_version_rejected : forall E c fs d dir ig,
  loadable (TData c fs) -> filev (VDict d) = true ->
  c_versioned c <> None -> aget "version" d = None \/ aget "version" d = Some VNone ->
  typed_load E (TData c fs) (VDict d) dir None false ig = Err ValueError.
Proof. exact missing_version. Qed.
Print Assumptions C16_missing_version_rejected.

(** ... and so is one in which a section of a Versioned dataclass has none *)
Theorem C16_nested_version_required : forall E t x dir ig L p m c fs0,
  order_ok E -> loadable t -> filev x = true -> markerless x = true ->
  typed_load E t x dir None false ig = Ok L ->
  lookup x p = Some (VDict m) -> p <> [] -> ~ In WEAK_REF p -> untouched t p ->
  forall ft, type_at t p = Some ft -> strip_opt ft = TData c fs0 -> c_versioned c <> None ->
  aget "version" m <> None /\ aget "version" m <> Some VNone.
Proof. exact nested_version. Qed.
Print Assumptions C16_nested_version_required.

(** class Outer: run: Run *)
Definition tOuter : ty := TData (mkC "Outer" None) [("run", (tRun, DMissing))].

(** README.md:147 says a file without version is of version 0; it is not loaded,
    although the same file with version 0 is. *)
Theorem C16_version_zero_refuted : exists E t d v,
  order_ok E /\ loadable t /\ filev (VDict d) = true /\ aget "version" d = None /\
  hs_loads E t (VDict (("version", VInt 0) :: d)) None false = Ok v /\
  hs_loads E t (VDict d) None false = Err ValueError.
Proof.
  exists ex_env, tRun, [("lr", VInt 10)], (VObj "Run" [("seed", VInt 0); ("learning_rate", VInt 10)]).
  split; [exact ex_order|]. split; [exact tRun_loadable|]. repeat split; vm_compute; reflexivity.
Qed.
Print Assumptions C16_version_zero_refuted.

(** Without a file no version is needed -- unless the Versioned class is not the
    config itself: then overriding a field of it fails. *)
Theorem C16_no_file_refuted : exists E t o p v,
  order_ok E /\ loadable t /\ names o p "7" /\ type_at t p = Some TInt /\
  hs_load E t None None = Ok v /\ hs_load E t None (Some [o]) = Err ValueError.
Proof.
  exists ex_env, tOuter, "run.seed=7", ["run"; "seed"],
    (VObj "Outer" [("run", VObj "Run" [("seed", VInt 0); ("learning_rate", VInt 3)])]).
  split; [exact ex_order|]. split; [split; [nodup|split; [simpl; intuition discriminate|split; [discriminate|split; [exact tRun_loadable|exact I]]]]|].
  split; [now apply names_intro|]. repeat split; vm_compute; reflexivity.
Qed.
Print Assumptions C16_no_file_refuted.

(** ** C63 version numbers *)

(** A version that is not a whole number is an error. *)
Theorem C63_malformed_rejected : forall E c fs n rules d ver dir allow ig,
  loadable (TData c fs) -> filev (VDict d) = true ->
  c_versioned c = Some (n, rules) -> Forall (fun kv => (fst kv < n)%Z) rules ->
  aget "version" d = Some ver -> ver <> VNone -> (forall z, ver <> VInt z) -> (forall b, ver <> VBool b) ->
  typed_load E (TData c fs) (VDict d) dir None allow ig = Err TypeError.
Proof. exact malformed_version. Qed.
Print Assumptions C63_malformed_rejected.

(** A class with a rule for its current or a later version cannot read any file that has a version. *)
Theorem C63_misplaced_rules : forall E c fs n rules d ver dir allow ig i rs,
  loadable (TData c fs) -> filev (VDict d) = true ->
  c_versioned c = Some (n, rules) -> In (i, rs) rules -> (n <= i)%Z ->
  aget "version" d = Some ver -> ver <> VNone ->
  typed_load E (TData c fs) (VDict d) dir None allow ig = Err AssertionError.
Proof. exact misplaced_rules. Qed.
Print Assumptions C63_misplaced_rules.

(** A file of a newer version than the class is read as one of the current version.
    (This is so for all of them: C14_current_version.) *)
Theorem C63_newer_refuted : exists E c fs n rules d v dir L,
  loadable (TData c fs) /\ filev (VDict d) = true /\ c_versioned c = Some (n, rules) /\
  Forall (fun kv => (fst kv < n)%Z) rules /\ aget "version" d = Some (VInt v) /\ (n < v)%Z /\
  typed_load E (TData c fs) (VDict d) dir None false false = Ok L.
Proof.
  exists ex_env. do 4 eexists. exists [("version", VInt 7); ("seed", VInt 5)], 7%Z, None. eexists.
  split; [exact tRun_loadable|]. split; [reflexivity|]. split; [reflexivity|]. split; [repeat constructor|].
  split; [reflexivity|]. split; [reflexivity|]. vm_compute. reflexivity.
Qed.
Print Assumptions C63_newer_refuted.

Example C63_ex : loadable tRun /\ filev (VDict [("version", VStr "1"); ("seed", VInt 5)]) = true /\
  typed_load ex_env tRun (VDict [("version", VStr "1"); ("seed", VInt 5)]) None None false false = Err TypeError /\
  (let bad := mkC "Run" (Some (1%Z, [(1%Z, [DeleteField ["seed"]])])) in
   loadable (TData bad [("seed", (TInt, DMissing))]) /\
   typed_load ex_env (TData bad [("seed", (TInt, DMissing))]) (VDict [("version", VInt 1); ("seed", VInt 5)]) None None false false = Err AssertionError).
Proof.
  split; [exact tRun_loadable|]. split; [reflexivity|]. split; [vm_compute; reflexivity|]. split; [loadable_tac|vm_compute; reflexivity].
Qed.

Example C16_ex :
  hs_load ex_env tRun None (Some ["seed=7"]) = Ok (VObj "Run" [("seed", VInt 7); ("learning_rate", VInt 3)]) /\
  hs_load ex_env tRun (Some (VDict [("seed", VInt 7)], "dir")) None = Err ValueError /\
  lookup (VDict [("run", VDict [("version", VInt 0); ("lr", VInt 7)])]) ["run"] = Some (VDict [("version", VInt 0); ("lr", VInt 7)]) /\
  hs_loads ex_env tOuter (VDict [("run", VDict [("version", VInt 0); ("lr", VInt 7)])]) None false =
    Ok (VObj "Outer" [("run", VObj "Run" [("seed", VInt 0); ("learning_rate", VInt 7)])]).
Proof. repeat split; vm_compute; reflexivity. Qed.

(** ** C51 field lookup *)

(** An override's name is found exactly when following its parts through nested,
    possibly Optional, dataclass fields leads to a declared field; the type then
    determines how the text is read. *)
Theorem C51_field_lookup : forall c fs fields v p,
  p <> [] -> materialize_type (TData c fs) = Ok (SStruct (c_name c) fields v) ->
  match type_at (TData c fs) p with
  | Some ft => exists st m, find_field fields p = Some (st, m) /\ materialize_type ft = Ok st
  | None => find_field fields p = None
  end.
Proof. intros. eapply find_field_type; eauto. Qed.
Print Assumptions C51_field_lookup.

(** Accordingly a load with that override fails naming it, or is the load of the
    file with the value written. *)
Theorem C51_accepted : forall E t d dir o p text allow ig,
  is_dataclass_ty t = true -> (exists s, materialize_type t = Ok s) -> names o p text ->
  match type_at t p with
  | None => typed_load E t (VDict d) dir (Some [o]) allow ig = Err (FieldNotFound (join "." p))
  | Some ft => forall val x', text_value E ft text val -> write (VDict d) p val = Some x' ->
                 typed_load E t (VDict d) dir (Some [o]) allow ig = typed_load E t x' dir None allow ig
  end.
Proof. exact lookup_accepted. Qed.
Print Assumptions C51_accepted.

Example C51_ex :
  type_at tCfg ["opt"; "lr"] = Some TFloat /\ type_at tCfg ["alg"; "clip"] = None /\
  type_at tCfg ["net"; "act"] <> None /\ (exists s, materialize_type tCfg = Ok s) /\
  hs_loads ex_env tCfg (VDict []) (Some ["alg.clip=7"]) false = Err (FieldNotFound "alg.clip").
Proof. repeat split; try discriminate; try (eexists; vm_compute; reflexivity); vm_compute; reflexivity. Qed.
