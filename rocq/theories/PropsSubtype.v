(** PropsSubtype.v -- [is_subtype]: C30. *)
From Verif Require Import Base Value Schema Rewrite Sched Types Asdict FromDict SpecTypes SpecLoad SpecSubtype SchemaFacts SubtypeFacts.

(** If the schema of [old] is a subtype of that of [new], every file value accepted
    for a field of type [old] is accepted for a field of type [new].
    [old] is built from int, float, str, bool, List, Tuple, Dict, enums and literals;
    [new] is arbitrary.  Missing: Optional and dataclasses in [old] (false, below),
    Unions, enum and literal values that are not None, bool, int or str, and ints too
    large for a float (false, below). *)
Theorem C30_sound_partial : forall E sch allow from_file ig old new s r x,
  flat old -> exact_values old -> exact_values new -> literals_load E new -> floatable x ->
  materialize_type old = Ok s -> materialize_type new = Ok r -> is_subtype s r = true ->
  accepts E sch allow from_file ig old x -> accepts E sch allow from_file ig new x.
Proof. intros. eapply sub_mono; eauto. Qed.
Print Assumptions C30_sound_partial.

(** [is_subtype] does not depend on how much fuel the model gives the recursion. *)
Theorem C30_fuel : forall n a b, (sty_size a + sty_size b <= n)%nat -> is_sub n a b = is_subtype a b.
Proof. intros n a b H. apply is_sub_fuel; [exact H|apply Nat.le_refl]. Qed.
Print Assumptions C30_fuel.

Definition sub_env : env :=
  mkEnv (fun _ => None) (fun x => x) (fun _ => Err SyntaxError) (fun _ => None) (fun _ => mkCM None []) (fun l => l).

(** a list of pairs of an int and a literal, read as a list of pairs of an optional float and a string *)
Example C30_case :
  let old := TList (TTuple [TInt; TLit [VStr "a"; VStr "b"]]) in
  let new := TOpt (TList (TTuple [TOpt TFloat; TStr])) in
  let x := VList [VTuple [VInt 3; VStr "b"]; VTuple []] in
  exists s r, flat old /\ exact_values old /\ exact_values new /\ literals_load sub_env new /\ floatable x /\
    materialize_type old = Ok s /\ materialize_type new = Ok r /\ is_subtype s r = true /\
    accepts sub_env false false false false old x.
Proof.
  cbv zeta. do 2 eexists. split; [cbn; tauto|]. split; [cbn; tauto|]. split; [cbn; tauto|]. split; [cbn; tauto|].
  split; [cbn; repeat split; eexists; vm_compute; reflexivity|]. split; [reflexivity|]. split; [reflexivity|].
  split; [vm_compute; reflexivity|]. exists (VList [VTuple [VInt 3; VStr "b"]; VTuple []]). cbn [denotes].
  do 2 eexists. split; [reflexivity|]. split; [reflexivity|]. constructor.
  - do 2 eexists. split; [reflexivity|]. split; [reflexivity|]. cbn. split; [reflexivity|]. split; [|exact I].
    split; [repeat constructor|]. split; [reflexivity|]. exists (VStr "b"). split; [tauto|reflexivity].
  - constructor; [|constructor]. do 2 eexists. split; [reflexivity|]. split; [reflexivity|]. exact I.
Qed.

(** Optional[float] counts as a subtype of Optional[int]. *)
Theorem C30_option_refuted : exists E old new s r x,
  materialize_type old = Ok s /\ materialize_type new = Ok r /\ is_subtype s r = true /\
  accepts E false false false false old x /\ ~ accepts E true false false false new x.
Proof.
  exists sub_env, (TOpt TFloat), (TOpt TInt). do 2 eexists. exists (VFloat f64_half).
  split; [reflexivity|]. split; [reflexivity|]. split; [vm_compute; reflexivity|]. split.
  - exists (VFloat f64_half). right. split; [discriminate|reflexivity].
  - intros (v & [[H _]|[_ (z & H & _)]]); [discriminate|]. unfold float_is in H. cbn [Z_eq_float f64_half] in H.
    change ((0 <=? -53)%Z) with false in H. cbv iota in H. apply Z.eqb_eq in H. lia.
Qed.
Print Assumptions C30_option_refuted.

(** A dataclass counts as a subtype of one with narrower fields ... *)
Theorem C30_struct_refuted : exists E old new s r x,
  materialize_type old = Ok s /\ materialize_type new = Ok r /\ is_subtype s r = true /\
  accepts E false false false false old x /\ ~ accepts E true false false false new x.
Proof.
  exists sub_env, (TData (mkC "C" None) [("x", (TFloat, DMissing))]), (TData (mkC "C" None) [("x", (TInt, DMissing))]).
  do 2 eexists. exists (VDict [("x", VFloat f64_half)]).
  split; [reflexivity|]. split; [reflexivity|]. split; [vm_compute; reflexivity|]. split.
  - exists (VObj "C" [("x", VFloat f64_half)]). cbn [denotes]. do 3 eexists. split; [reflexivity|]. split; [reflexivity|].
    split; [reflexivity|]. split.
    + intros k w [H|[]]. injection H as <- <-. right. right. left. now left.
    + cbn. auto.
  - intros (v & D). cbn [denotes] in D. destruct D as (y & items & o & Ey & Ei & -> & _ & D).
    injection Ey as <-. injection Ei as <-. destruct o as [|[k w] o]; cbn in D; [discriminate|].
    destruct D as [[_ (z & H & _)] _]. unfold float_is in H. cbn [Z_eq_float f64_half] in H.
    change ((0 <=? -53)%Z) with false in H. cbv iota in H. apply Z.eqb_eq in H. lia.
Qed.
Print Assumptions C30_struct_refuted.

(** ... and of one with more required fields. *)
Theorem C30_required_refuted : exists E old new s r x,
  materialize_type old = Ok s /\ materialize_type new = Ok r /\ is_subtype s r = true /\
  accepts E false false false false old x /\ ~ accepts E true false false false new x.
Proof.
  exists sub_env, (TData (mkC "C" None) []), (TData (mkC "C" None) [("x", (TInt, DMissing))]).
  do 2 eexists. exists (VDict []).
  split; [reflexivity|]. split; [reflexivity|]. split; [vm_compute; reflexivity|]. split.
  - exists (VObj "C" []). cbn [denotes]. do 3 eexists. split; [reflexivity|]. split; [reflexivity|].
    split; [reflexivity|]. split; [intros k w []|]. exact I.
  - intros (v & D). cbn [denotes] in D. destruct D as (y & items & o & Ey & Ei & -> & _ & D).
    injection Ey as <-. injection Ei as <-. destruct o as [|[k w] o]; cbn in D; [discriminate|].
    destruct D as [[_ [D _]] _]. exact D.
Qed.
Print Assumptions C30_required_refuted.

(** int counts as a subtype of float, but 2^1024 is no float. *)
Theorem C30_overflow_refuted : exists E old new s r x,
  materialize_type old = Ok s /\ materialize_type new = Ok r /\ is_subtype s r = true /\
  accepts E false false false false old x /\ ~ accepts E true false false false new x.
Proof.
  exists sub_env, TInt, TFloat. do 2 eexists. exists (VInt (2 ^ 1024)).
  split; [reflexivity|]. split; [reflexivity|]. split; [vm_compute; reflexivity|]. split.
  - exists (VInt (2 ^ 1024)). reflexivity.
  - intros (v & f & H & _). vm_compute in H. discriminate.
Qed.
Print Assumptions C30_overflow_refuted.
