(** PropsHistory.v -- files survive a series of releases (C71). *)
From Verif Require Import Base Value Schema Rewrite Sched Types Asdict FromDict Checker SpecTypes SpecLoad SpecSubtype SpecCheck SpecCompat SpecFix SpecNest SpecHistory
  FromDictFacts FixFacts HistoryFacts NestHistory PropsCompat PropsNest.

(** ** C71 *)
(** A config class went through any number of releases; each increased the version by one
    and kept the rules that the comparison of the schemas proposed.  Then a file written
    for any of these releases loads with the last one.  What the file said about a field is
    carried through the reports one by one ([carried]), and the field of the last release
    has the value that results; if the file says nothing and no report did, it has its
    default.
    Missing for the full claim: as for C29, classes with sub-configs (for these,
    [C71_nested_partial]) and the changes that [repairable] leaves out; defaults and enum values that are marks of the library or
    numbers too large for a float; a field called "version". *)
Theorem C71_history_partial : forall E n rules v fs hs w ks d dir allow L,
  order_ok E -> history E n rules v fs hs w ks -> ordinary E (release n rules v) fs ->
  filev (VDict d) = true -> floatable (VDict (adel "version" d)) -> unmarked (VDict d) -> aget "version" d = Some (VInt v) ->
  typed_load E (TData (release n rules v) fs) (VDict d) dir None allow false = Ok L -> l_sched L = [] ->
  exists L' o', typed_load E (TData (release n rules w) ks) (VDict d) dir None allow false = Ok L' /\ l_sched L' = [] /\ l_value L' = VObj n o' /\
    forall a b y u fd, carried fs hs a (aget a (adel "version" d)) b y -> aget b ks = Some (u, fd) ->
      exists z, aget b o' = Some z /\
        match y with Some x => denotes E false allow (is_some dir) false u x z | None => default_field u fd (VDict []) z end.
Proof. exact history_values. Qed.
Print Assumptions C71_history_partial.

(** In particular, a field whose text the reports leave alone (it may be renamed, its default
    may change, its type may be widened and come back) and whose type is the same in the
    first and the last release has the same value with both. *)
Theorem C71_kept_partial : forall E n rules v fs hs w ks d dir allow L a b x t od fd,
  order_ok E -> history E n rules v fs hs w ks -> ordinary E (release n rules v) fs ->
  filev (VDict d) = true -> floatable (VDict (adel "version" d)) -> unmarked (VDict d) -> aget "version" d = Some (VInt v) ->
  typed_load E (TData (release n rules v) fs) (VDict d) dir None allow false = Ok L -> l_sched L = [] ->
  aget a (adel "version" d) = Some x -> carried fs hs a (Some x) b (Some x) -> aget a fs = Some (t, od) -> aget b ks = Some (t, fd) ->
  exists L' o o' z, typed_load E (TData (release n rules w) ks) (VDict d) dir None allow false = Ok L' /\
    l_value L = VObj n o /\ l_value L' = VObj n o' /\ aget a o = Some z /\ aget b o' = Some z.
Proof. exact history_kept. Qed.
Print Assumptions C71_kept_partial.

(** Three releases: a field is renamed and a default changes; then the renamed field becomes
    a list, and its old name is used again for something else. *)
Definition hist_1 : fields := [("learning_rate", (TFloat, DMissing)); ("steps", (TInt, DValue (VInt 10)))].
Definition hist_2 : fields := [("lerning_rate", (TFloat, DMissing)); ("steps", (TInt, DValue (VInt 20)))].
Definition hist_3 : fields := [("lerning_rate", (TList TFloat, DMissing)); ("steps", (TInt, DValue (VInt 20))); ("learning_rate", (TOpt TStr, DMissing))].
Definition hist_cs2 : list change := [DefaultValueChanged ["steps"] (VInt 10) (VInt 20); FieldRenamed ["learning_rate"] ["lerning_rate"]].
Definition hist_cs3 : list change :=
  [TypeChanged ["lerning_rate"] (SPrim "float") (SList (SPrim "float")); FieldAdded ["learning_rate"] (SOption (SPrim "str")) VNone false].
Definition hist_rules : list (Z * list rule) :=
  [(1%Z, [ChangeDefault ["steps"] (VInt 10) (VInt 20); RenameField ["learning_rate"] ["lerning_rate"]]);
   (2%Z, [MapFieldValue ["lerning_rate"] (fun x => Ok (VList [x])) (Some "lambda x: [x]"); AddDefault ["learning_rate"] VNone])].
Definition hist_file : list (string * pyval) := [("version", VInt 1); ("learning_rate", VFloat f64_half)].

Ltac hist_ordinary :=
  unfold ordinary; split; [|compat_side]; split; [compat_side|]; split; [compat_side|]; split; [|compat_side];
  intros ver rs0 j rs Q; injection Q as <- <-; cbn; intros Q; repeat destruct Q as [Q|Q]; try (destruct Q; fail); injection Q as <- <-;
  repeat constructor; cbn; try reflexivity; intros x y Hx Q; injection Q as <-; cbn; now rewrite Hx.
Ltac no_enums := intros p ms m; destruct p as [|k [|]]; cbn; try discriminate;
      repeat (match goal with |- context [String.eqb ?a ?b] => destruct (String.eqb_spec a b) as [->|] end; cbn; try discriminate).

Example C71_case :
  history compat_env "Config" hist_rules 1 hist_1 [(hist_2, hist_cs2); (hist_3, hist_cs3)] 3 hist_3 /\
  ordinary compat_env (release "Config" hist_rules 1) hist_1 /\
  filev (VDict hist_file) = true /\ floatable (VDict (adel "version" hist_file)) /\ unmarked (VDict hist_file) /\
  (exists L, typed_load compat_env (TData (release "Config" hist_rules 1) hist_1) (VDict hist_file) None None false false = Ok L /\ l_sched L = []) /\
  carried hist_1 [(hist_2, hist_cs2); (hist_3, hist_cs3)] "learning_rate" (Some (VFloat f64_half)) "lerning_rate" (Some (VList [VFloat f64_half])) /\
  carried hist_1 [(hist_2, hist_cs2); (hist_3, hist_cs3)] "steps" None "steps" (Some (VInt 10)) /\
  exists L, typed_load compat_env (TData (release "Config" hist_rules 3) hist_3) (VDict hist_file) None None false false = Ok L /\
    l_value L = VObj "Config" [("lerning_rate", VList [VFloat f64_half]); ("steps", VInt 10); ("learning_rate", VNone)].
Proof.
  split.
  { eapply h_next; [|eapply h_next; [|apply h_now]].
    - split; [hist_ordinary|]. split; [compat_side|]. split; [hist_ordinary|]. split; [compat_side|]. split; [cbn; intuition discriminate|].
      split; [no_enums|]. do 3 eexists. split; [reflexivity|]. split; [reflexivity|]. split; [vm_compute; reflexivity|]. split; [reflexivity|]. split; [reflexivity|].
      intros c [<-|[<-|[]]]; (split; [discriminate|]); cbn [repairable tame].
      + split; [|split; cbn; [eexists; vm_compute; reflexivity|exact I]].
        intros f u d0 Q G. injection Q as <-. injection G as <- <-. split; [reflexivity|]. intros. now exists (VInt 10).
      + split; [|exact I]. intros f t d0 s Q G M. injection Q as <-. injection G as <- <-. injection M as <-. exact I.
    - split; [hist_ordinary|]. split; [compat_side|]. split; [hist_ordinary|]. split; [compat_side|]. split; [cbn; intuition discriminate|].
      split; [no_enums|]. do 3 eexists. split; [reflexivity|]. split; [reflexivity|]. split; [vm_compute; reflexivity|]. split; [reflexivity|]. split; [reflexivity|].
      intros c [<-|[<-|[]]]; (split; [discriminate|]); cbn [repairable tame].
      + split; [|exact I]. split; [exact I|]. right. do 4 eexists. repeat (split; [reflexivity|]). intros (o & [H|(n & H)]); repeat destruct H as [H|H]; try discriminate H; destruct H.
      + split; exact I. }
  split; [hist_ordinary|]. split; [reflexivity|]. split; [cbn; auto|]. split; [compat_side; reflexivity|].
  split; [eexists; split; [vm_compute; reflexivity|reflexivity]|]. split; [|split].
  - eapply ca_step; [now left|apply ra_renamed; right; now left|now left|]. eapply ca_step; [now left|eapply ra_wrapped; [left; reflexivity|reflexivity]|now left|apply ca_end].
  - eapply ca_step; [right; now left|apply ra_default; [right; eexists; left; reflexivity|]|right; now left|].
    { intros c [<-|[<-|[]]] Q; try discriminate Q. left. exact I. }
    eapply ca_step; [right; now left|apply ra_same|right; now left|apply ca_end]. intros c [<-|[<-|[]]] Q; discriminate Q.
  - eexists. split; [vm_compute; reflexivity|reflexivity].
Qed.

(** The field of the second release is the renamed one of the first. *)
Example C71_kept_case :
  history compat_env "Config" hist_rules 1 hist_1 [(hist_2, hist_cs2)] 2 hist_2 /\
  carried hist_1 [(hist_2, hist_cs2)] "learning_rate" (Some (VFloat f64_half)) "lerning_rate" (Some (VFloat f64_half)) /\
  aget "learning_rate" (adel "version" hist_file) = Some (VFloat f64_half) /\
  aget "learning_rate" hist_1 = Some (TFloat, DMissing) /\ aget "lerning_rate" hist_2 = Some (TFloat, DMissing).
Proof.
  split; [|split; [|repeat split]].
  - destruct C71_case as [H _]. inversion H as [|? ? ? ? ? ? ? N _]; subst. eapply h_next; [exact N|apply h_now].
  - eapply ca_step; [now left|apply ra_renamed; right; now left|now left|apply ca_end].
Qed.

(** ** C71 with sub-configs *)
(** As [C71_history_partial], for classes with sub-configs at any depth; between two releases
    fields may change inside them and move from one to another.
    Missing for the full claim: as for C29, sub-configs that come or go, files that leave a
    sub-config out, classes inside lists; and as for [C71_history_partial]. *)
Theorem C71_nested_partial : forall E n rules v fs hs w ks d dir allow L,
  order_ok E -> history_at E n rules v fs hs w ks -> ordinary E (release n rules v) fs ->
  filev (VDict d) = true -> floatable (VDict (adel "version" d)) -> unmarked (VDict d) -> aget "version" d = Some (VInt v) -> sections_given fs (VDict d) ->
  typed_load E (TData (release n rules v) fs) (VDict d) dir None allow false = Ok L -> l_sched L = [] ->
  exists L', typed_load E (TData (release n rules w) ks) (VDict d) dir None allow false = Ok L' /\ l_sched L' = [] /\
    forall p q y u fd, carried_at fs hs p (value_at (VDict (adel "version" d)) p) q y -> leaf ks q = Some (u, fd) ->
      exists z, attr_at (l_value L') q = Some z /\
        match y with Some x => denotes E false allow (is_some dir) false u x z | None => default_field u fd (VDict []) z end.
Proof. exact history_at_values. Qed.
Print Assumptions C71_nested_partial.

(** A field at any depth whose text the reports leave alone and whose type is the same in the
    first and the last release has the same value with both, wherever it was moved. *)
Theorem C71_nested_kept_partial : forall E n rules v fs hs w ks d dir allow L p q x t od fd,
  order_ok E -> history_at E n rules v fs hs w ks -> ordinary E (release n rules v) fs ->
  filev (VDict d) = true -> floatable (VDict (adel "version" d)) -> unmarked (VDict d) -> aget "version" d = Some (VInt v) -> sections_given fs (VDict d) ->
  typed_load E (TData (release n rules v) fs) (VDict d) dir None allow false = Ok L -> l_sched L = [] ->
  value_at (VDict (adel "version" d)) p = Some x -> carried_at fs hs p (Some x) q (Some x) -> leaf fs p = Some (t, od) -> leaf ks q = Some (t, fd) ->
  exists L' z, typed_load E (TData (release n rules w) ks) (VDict d) dir None allow false = Ok L' /\
    attr_at (l_value L) p = Some z /\ attr_at (l_value L') q = Some z.
Proof. exact history_at_kept. Qed.
Print Assumptions C71_nested_kept_partial.

(** Three releases: a field moves from one sub-config to another and a default inside a
    sub-config changes; then the moved field becomes a list. *)
Definition nhist (opt net : fields) : fields := [("opt", (TData (mkC "Opt" None) opt, DMissing)); ("net", (TData (mkC "Net" None) net, DMissing))].
Definition nhist_1 : fields := nhist [("learning_rate", (TFloat, DMissing)); ("steps", (TInt, DValue (VInt 10)))] [("act", (TStr, DMissing))].
Definition nhist_2 : fields := nhist [("steps", (TInt, DValue (VInt 20)))] [("act", (TStr, DMissing)); ("learning_rate", (TFloat, DMissing))].
Definition nhist_3 : fields := nhist [("steps", (TInt, DValue (VInt 20)))] [("act", (TStr, DMissing)); ("learning_rate", (TList TFloat, DMissing))].
Definition nhist_cs2 : list change := [DefaultValueChanged ["opt"; "steps"] (VInt 10) (VInt 20); FieldRenamed ["opt"; "learning_rate"] ["net"; "learning_rate"]].
Definition nhist_cs3 : list change := [TypeChanged ["net"; "learning_rate"] (SPrim "float") (SList (SPrim "float"))].
Definition nhist_rules : list (Z * list rule) :=
  [(1%Z, [ChangeDefault ["opt"; "steps"] (VInt 10) (VInt 20); RenameField ["opt"; "learning_rate"] ["net"; "learning_rate"]]);
   (2%Z, [MapFieldValue ["net"; "learning_rate"] (fun x => Ok (VList [x])) (Some "lambda x: [x]")])].
Definition nhist_file : list (string * pyval) := [("version", VInt 1); ("opt", VDict [("learning_rate", VFloat f64_half)]); ("net", VDict [("act", VStr "relu")])].

Example C71_nested_case :
  history_at compat_env "Config" nhist_rules 1 nhist_1 [(nhist_2, nhist_cs2); (nhist_3, nhist_cs3)] 3 nhist_3 /\
  ordinary compat_env (release "Config" nhist_rules 1) nhist_1 /\
  filev (VDict nhist_file) = true /\ floatable (VDict (adel "version" nhist_file)) /\ unmarked (VDict nhist_file) /\ sections_given nhist_1 (VDict nhist_file) /\
  (exists L, typed_load compat_env (TData (release "Config" nhist_rules 1) nhist_1) (VDict nhist_file) None None false false = Ok L /\ l_sched L = []) /\
  carried_at nhist_1 [(nhist_2, nhist_cs2); (nhist_3, nhist_cs3)] ["opt"; "learning_rate"] (Some (VFloat f64_half)) ["net"; "learning_rate"] (Some (VList [VFloat f64_half])) /\
  carried_at nhist_1 [(nhist_2, nhist_cs2); (nhist_3, nhist_cs3)] ["net"; "act"] (Some (VStr "relu")) ["net"; "act"] (Some (VStr "relu")) /\
  carried_at nhist_1 [(nhist_2, nhist_cs2); (nhist_3, nhist_cs3)] ["opt"; "steps"] None ["opt"; "steps"] (Some (VInt 10)) /\
  exists L, typed_load compat_env (TData (release "Config" nhist_rules 3) nhist_3) (VDict nhist_file) None None false false = Ok L /\
    l_value L = VObj "Config" [("opt", VObj "Opt" [("steps", VInt 10)]); ("net", VObj "Net" [("act", VStr "relu"); ("learning_rate", VList [VFloat f64_half])])].
Proof.
  split.
  { eapply ha_next; [|eapply ha_next; [|apply ha_now]].
    - split; [hist_ordinary|]. split; [compat_side|]. split; [hist_ordinary|]. split; [compat_side|].
      split; [intros p; unfold is_section, nhist_1, nhist_2, nhist; by_path p|]. split; [cbn; intuition discriminate|].
      split; [intros p ms m; unfold nhist_1, nhist; by_path p|]. do 3 eexists. split; [reflexivity|]. split; [reflexivity|]. split; [vm_compute; reflexivity|]. split; [reflexivity|]. split; [reflexivity|].
      intros c [<-|[<-|[]]]; (split; [discriminate|]); cbn [repairable_at tame].
      + split; [|split; cbn; [eexists; vm_compute; reflexivity|exact I]].
        do 2 eexists. split; [reflexivity|]. split; [reflexivity|]. intros. now exists (VInt 10).
      + split; [|exact I]. intros t d0 s G M. injection G as <- <-. injection M as <-. exact I.
    - split; [hist_ordinary|]. split; [compat_side|]. split; [hist_ordinary|]. split; [compat_side|].
      split; [intros p; unfold is_section, nhist_2, nhist_3, nhist; by_path p|]. split; [cbn; intuition discriminate|].
      split; [intros p ms m; unfold nhist_2, nhist; by_path p|]. do 3 eexists. split; [reflexivity|]. split; [reflexivity|]. split; [vm_compute; reflexivity|]. split; [reflexivity|]. split; [reflexivity|].
      intros c [<-|[]]; (split; [discriminate|]); cbn [repairable_at tame].
      split; [|exact I]. split; [exact I|]. right. do 3 eexists. repeat (split; [reflexivity|]). intros (o & [H|(n & H)]); repeat destruct H as [H|H]; try discriminate H; destruct H. }
  split; [hist_ordinary|]. split; [reflexivity|]. split; [cbn; auto|]. split; [compat_side; reflexivity|].
  split; [intros p; unfold is_section, nhist_1, nhist, nhist_file; by_path p; intros; eexists; reflexivity|].
  split; [eexists; split; [vm_compute; reflexivity|reflexivity]|]. split; [|split; [|split]].
  - eapply caa_step; [discriminate|apply raa_renamed; right; now left|discriminate|]. eapply caa_step; [discriminate|eapply raa_wrapped; [left; reflexivity|reflexivity]|discriminate|apply caa_end].
  - eapply caa_step; [discriminate|apply raa_same|discriminate|].
    { intros c [<-|[<-|[]]] Q; discriminate Q. }
    eapply caa_step; [discriminate|apply raa_same|discriminate|apply caa_end]. intros c [<-|[]] Q; discriminate Q.
  - eapply caa_step; [discriminate|apply raa_default; [right; eexists; left; reflexivity|]|discriminate|].
    { intros c [<-|[<-|[]]] Q; try discriminate Q. left. exact I. }
    eapply caa_step; [discriminate|apply raa_same|discriminate|apply caa_end]. intros c [<-|[]] Q; discriminate Q.
  - eexists. split; [vm_compute; reflexivity|reflexivity].
Qed.
