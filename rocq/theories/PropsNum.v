(** PropsNum.v -- C08: numeric coercion.  Vocabulary ([int_field], [float_field],
    [nearest], [is_integer], [numeral]): SpecNum.v. *)
From Coq Require Import Permutation Reals Lra Lia DecimalString.
From Flocq Require Import Core.
From Verif Require Import Base AFacts Value Schema Rewrite Sched Types Asdict FromDict
  SpecTypes FromDictFacts SpecLoad LoadFacts LoadSound LoadProps SpecNum FloatFacts Examples.

(** In any loaded object, an int field that the file gives holds the number of the
    file: an int itself, a float only if it is integral and then that integer. *)
Theorem C08_int_fields : forall E c fs x items dir allow ig L n fd w,
  order_ok E -> loadable (TData c fs) -> filev x = true -> c_versioned c = None -> items_of x = Some items ->
  typed_load E (TData c fs) x dir None allow ig = Ok L -> l_sched L = [] ->
  aget n fs = Some (TInt, fd) -> aget n items = Some w -> is_weak w = false ->
  exists o v, l_value L = VObj (c_name c) o /\ aget n o = Some v /\ int_field E w v.
Proof.
  intros E c fs x items dir allow ig L n fd w H1 H2 H3 H4 H5 H6 H7 H8 H9 H10.
  destruct (load_field_unscheduled E c fs x items dir allow ig L n TInt fd w H1 H2 H3 H4 H5 H6 H7 H8 H9 H10) as (o & v & G1 & G2 & G3).
  exists o, v. split; [exact G1|]. split; [exact G2|]. now apply int_field_iff in G3.
Qed.
Print Assumptions C08_int_fields.

(** ... and a float field holds the double nearest to the file's number. *)
Theorem C08_float_fields : forall E c fs x items dir allow ig L n fd w,
  order_ok E -> loadable (TData c fs) -> filev x = true -> c_versioned c = None -> items_of x = Some items ->
  typed_load E (TData c fs) x dir None allow ig = Ok L -> l_sched L = [] ->
  aget n fs = Some (TFloat, fd) -> aget n items = Some w -> is_weak w = false ->
  exists o v, l_value L = VObj (c_name c) o /\ aget n o = Some v /\ float_field E w v.
Proof.
  intros E c fs x items dir allow ig L n fd w H1 H2 H3 H4 H5 H6 H7 H8 H9 H10.
  destruct (load_field_unscheduled E c fs x items dir allow ig L n TFloat fd w H1 H2 H3 H4 H5 H6 H7 H8 H9 H10) as (o & v & G1 & G2 & G3).
  exists o, v. split; [exact G1|]. split; [exact G2|]. now apply float_field_iff in G3.
Qed.
Print Assumptions C08_float_fields.

(** Everything the specification allows for an int field is accepted, and every
    int whose nearest double is finite is accepted for a float field. *)
Theorem C08_accepted : forall E c n fd,
  order_ok E -> c_versioned c = None -> n <> "!__name__" ->
  (forall w v, filev w = true -> is_weak w = false -> int_field E w v ->
     hs_loads E (TData c [(n, (TInt, fd))]) (VDict [(n, w)]) None false = Ok (VObj (c_name c) [(n, v)])) /\
  (forall z, (Rabs (nearest (IZR z)) < bpow radix2 1024)%R -> exists f,
     hs_loads E (TData c [(n, (TFloat, fd))]) (VDict [(n, VInt z)]) None false = Ok (VObj (c_name c) [(n, VFloat f)]) /\
     finite f = true /\ real_of f = nearest (IZR z)).
Proof. exact num_accepted. Qed.
Print Assumptions C08_accepted.

(** Full claim for texts: a decimal numeral given for an int field yields that very
    integer.  It holds up to 2^53 ... *)
Theorem C08_numeral_partial : forall E c n fd s z,
  order_ok E -> reads_numerals E -> c_versioned c = None -> n <> "!__name__" ->
  numeral s z -> has_char "@" s = false -> (Z.abs z <= 2 ^ 53)%Z ->
  hs_loads E (TData c [(n, (TInt, fd))]) (VDict [(n, VStr s)]) None false = Ok (VObj (c_name c) [(n, VInt z)]).
Proof. exact numeral_accepted. Qed.
Print Assumptions C08_numeral_partial.

(** Python's [float()] on decimal numerals *)
Definition num_env : env :=
  mkEnv (fun s => option_map (fun i => sf_of_Z (Z.of_int i)) (NilZero.int_of_string s))
        (fun f => f) ex_ron (fun _ => None) ex_class (fun l => l).
Definition tInt : ty := TData (mkC "I" None) [("n", (TInt, DMissing))].

Lemma num_env_reads : reads_numerals num_env.
Proof.
  intros s z H. unfold numeral in H. cbn [e_float num_env]. destruct (NilZero.int_of_string s); [|discriminate].
  injection H as <-. reflexivity.
Qed.

(** ... but beyond it the loaded number silently differs from the one in the file. *)
Theorem C08_numeral_refuted : exists E t s z z',
  order_ok E /\ reads_numerals E /\ loadable t /\ numeral s z /\ z <> z' /\
  hs_loads E t (VDict [("n", VStr s)]) None false = Ok (VObj "I" [("n", VInt z')]).
Proof.
  exists num_env, tInt, "9007199254740993", 9007199254740993%Z, 9007199254740992%Z.
  split; [intros l; apply Permutation_refl|]. split; [exact num_env_reads|].
  split; [|split; [reflexivity|split; [discriminate|vm_compute; reflexivity]]].
  simpl. split; [nodup|]. split; [intuition discriminate|]. split; [discriminate|auto].
Qed.
Print Assumptions C08_numeral_refuted.

(** 0.5 is refused for an int field, 7.0 and "7" are the integer 7; 2^53 + 1 given
    for a float field becomes 2^53, the nearest double *)
Example C08_ex :
  hs_loads num_env tInt (VDict [("n", VFloat f_half)]) None false = Err DeserializeTypeError /\
  hs_loads num_env tInt (VDict [("n", VFloat (sf_of_Z 7))]) None false = Ok (VObj "I" [("n", VInt 7)]) /\
  hs_loads num_env tInt (VDict [("n", VStr "7")]) None false = Ok (VObj "I" [("n", VInt 7)]) /\
  hs_loads num_env (TData (mkC "F" None) [("n", (TFloat, DMissing))]) (VDict [("n", VInt 9007199254740993)]) None false =
    Ok (VObj "F" [("n", VFloat (sf_of_Z 9007199254740992))]) /\
  numeral "7" 7 /\ is_integer (sf_of_Z 7) 7 /\ (Rabs (nearest (IZR 7)) < bpow radix2 1024)%R.
Proof.
  split; [vm_compute; reflexivity|]. split; [vm_compute; reflexivity|]. split; [vm_compute; reflexivity|].
  split; [vm_compute; reflexivity|]. split; [reflexivity|]. split; [apply sf_of_Z_small; lia|].
  rewrite nearest_small by lia. rewrite Rabs_right by lra. apply Rlt_le_trans with (IZR (2 ^ 3)); [apply IZR_lt; lia|].
  change (IZR (2 ^ 3)) with (bpow radix2 3). apply bpow_le. lia.
Qed.
