(** PropsMsgpack.v -- arrays and tensors in blob files (C49). *)
From Coq Require Import ZArith NArith Lia.
From Verif Require Import Base AFacts Msgpack SpecMsgpack MsgpackFacts.
Local Open Scope nat_scope.

(** ** C49: tensor encoding round trip *)

(** decoding an encoded array gives an array with the same dtype, shape and elements: any
    number of axes, any strides (views, transposes, reversals, broadcasts), any byte order,
    with and without torch on either side *)
Theorem C49_array_partial torch torch' td chain chain' a : in_memory a -> scalar_dtype (nd_dtype a) ->
  exists w b, encode torch chain (OArray a) = Ok w /\ decode torch' td chain' w = Ok (OArray b) /\ same_array a b.
Proof. exact (array_decoded torch torch' td chain chain' a). Qed.
Print Assumptions C49_array_partial.

(** so does decoding an encoded tensor: a tensor in main memory, or an array where torch is
    not installed *)
Theorem C49_tensor_partial torch' td chain chain' t :
  in_memory (tn_array t) -> scalar_dtype (nd_dtype (tn_array t)) ->
  tn_grad t = false -> tn_in_numpy t = true -> td (nd_dtype (tn_array t)) = true ->
  exists w o, encode true chain (OTensor t) = Ok w /\ decode torch' td chain' w = Ok o /\
    if torch' then exists t', o = OTensor t' /\ same_tensor t t' else exists b, o = OArray b /\ same_array (tn_array t) b.
Proof. exact (tensor_decoded torch' td chain chain' t). Qed.
Print Assumptions C49_tensor_partial.

(** objects that are not tensors pass through unchanged, or go to the next encoder *)
Theorem C49_encode_others torch chain o : (forall a, o <> OArray a) -> (forall t, o <> OTensor t) ->
  encode torch None o = Ok o /\ encode torch (Some chain) o = chain o.
Proof. exact (encode_others torch chain o). Qed.
Print Assumptions C49_encode_others.

Theorem C49_decode_others torch td chain d :
  (exists k, In k ["__tensor__"; "data"; "dtype"; "shape"] /\ ~ In (KBytes k) (map fst d)) ->
  decode torch td None (ODict d) = Ok (ODict d) /\ decode torch td (Some chain) (ODict d) = chain (ODict d).
Proof. exact (decode_others torch td chain d). Qed.
Print Assumptions C49_decode_others.

(** whole files: what is read back from a saved state is that state, arrays and tensors at
    any depth included; tuples come back as lists *)
Theorem C49_file td o : savable td o ->
  exists w, packb true o = Ok w /\ exists o', unpackb true td w = Ok o' /\ same_obj o o'.
Proof. exact (file_roundtrip td o). Qed.
Print Assumptions C49_file.

(** ** Where the claim fails *)

(** arrays of Python objects are encoded as addresses, and cannot be decoded *)
Theorem C49_objects_refuted : exists a, in_memory a /\
  exists w, encode true None (OArray a) = Ok w /\ forall torch td chain, decode torch td chain w = Err ValueError.
Proof. exact objects_refuted. Qed.
Print Assumptions C49_objects_refuted.

(** arrays of records come back as arrays of raw bytes, without an error *)
Theorem C49_records_refuted : exists a, in_memory a /\ (0 < itemsize (nd_dtype a)) /\
  exists w b, encode true None (OArray a) = Ok w /\ (forall torch td chain, decode torch td chain w = Ok (OArray b)) /\
    nd_dtype b <> nd_dtype a.
Proof. exact records_refuted. Qed.
Print Assumptions C49_records_refuted.

(** a tensor that requires grad, such as the parameters of a model, cannot be encoded *)
Theorem C49_grad_refuted t chain : tn_grad t = true -> encode true chain (OTensor t) = Err RuntimeError.
Proof. exact (grad_refuted t chain). Qed.
Print Assumptions C49_grad_refuted.

(** a dict that is not a tensor is taken for one if it has the four keys *)
Theorem C49_impostor_refuted : exists d, packb true (ODict d) = Ok (ODict d) /\
  forall td, exists a, unpackb true td (ODict d) = Ok (OArray a).
Proof. exact impostor_refuted. Qed.
Print Assumptions C49_impostor_refuted.

(** the decoded array is not quite the array that was encoded: it is read-only *)
Theorem C49_readonly torch td chain a : in_memory a -> scalar_dtype (nd_dtype a) ->
  exists w b, encode torch None (OArray a) = Ok w /\ decode torch td chain w = Ok (OArray b) /\ nd_writeable b = false.
Proof. exact (array_readonly torch td chain a). Qed.
Print Assumptions C49_readonly.

(** an array of 4 GiB or more can be encoded but not written *)
Theorem C49_large_refuted torch a : in_memory a -> (2 ^ 32 <= Z.of_nat (prod (nd_shape a) * itemsize (nd_dtype a)))%Z ->
  forall w, packb torch (OArray a) <> Ok w.
Proof. exact (large_refuted torch a). Qed.
Print Assumptions C49_large_refuted.

(** ** Examples *)

(** the transpose of a 2 x 3 array of 16 bit integers, as numpy makes it: a view of the same
    buffer with the strides swapped *)
Definition f2x3 : list ascii := map ascii_of_nat [1; 0; 2; 0; 3; 0; 4; 0; 5; 0; 6; 0].
Definition transposed : ndarray := mkNd (DPlain "<" "i" 2 "") [3; 2] [2; 6]%Z 0 f2x3 true.
Definition reversed : ndarray := mkNd (DPlain "<" "i" 2 "") [6] [-2]%Z 10 f2x3 true.

Lemma in_memory_dec a : length (nd_strides a) = length (nd_shape a) ->
  forallb (fun idx => ((0 <=? nd_offset a + dot (nd_strides a) idx) &&
    (nd_offset a + dot (nd_strides a) idx + Z.of_nat (itemsize (nd_dtype a)) <=? Z.of_nat (length (nd_buf a))))%Z)
    (indices (nd_shape a)) = true -> in_memory a.
Proof.
  intros L H. split; [exact L|]. intros idx I. rewrite forallb_forall in H. specialize (H idx (proj2 (index_in _ _) I)).
  apply andb_true_iff in H. destruct H as [A B]. apply Z.leb_le in A, B. now split.
Qed.

Example C49_case : in_memory transposed /\ in_memory reversed /\ scalar_dtype (nd_dtype transposed) /\
  tobytes transposed = map ascii_of_nat [1; 0; 4; 0; 2; 0; 5; 0; 3; 0; 6; 0] /\
  tobytes reversed = map ascii_of_nat [6; 0; 5; 0; 4; 0; 3; 0; 2; 0; 1; 0] /\
  element_at transposed [2; 1] = map ascii_of_nat [6; 0].
Proof.
  split; [apply in_memory_dec; vm_compute; reflexivity|]. split; [apply in_memory_dec; vm_compute; reflexivity|].
  split; [|vm_compute; auto]. exists "<"%char, "i"%char, 2%N, "". repeat split; [discriminate|auto].
Qed.

(** a training state: a step, a list of arrays, and a tensor on a GPU *)
Definition on_gpu : tensor := mkTn transposed "cuda:0" false true.
Definition state : obj :=
  ODict [(KStr "step", OInt 1000); (KStr "layers", OList [OArray transposed; OArray reversed]);
         (KStr "moments", OTuple [OTensor on_gpu; ONone])].

Example C49_file_case : savable (fun _ => true) state /\
  match packb true state with
  | Ok w => match unpackb true (fun _ => true) w with
            | Ok (ODict [_; (_, OList [OArray a; _]); (_, OList [OTensor t; ONone])]) =>
                tobytes a = tobytes transposed /\ tn_device t = "cpu"
            | _ => False
            end
  | Err _ => False
  end.
Proof.
  assert (D : scalar_dtype (DPlain "<" "i" 2 "")).
  { exists "<"%char, "i"%char, 2%N, "". repeat split; [discriminate|auto]. }
  assert (A : savable_array transposed).
  { split; [apply in_memory_dec; vm_compute; reflexivity|]. split; [exact D|]. unfold small, int64.
    split; [cbn; lia|]. split; [cbn; lia|]. split; [|cbn; lia].
    repeat apply Forall_cons; try apply Forall_nil; cbn; lia. }
  assert (B : savable_array reversed).
  { split; [apply in_memory_dec; vm_compute; reflexivity|]. split; [exact D|]. unfold small, int64.
    split; [cbn; lia|]. split; [cbn; lia|]. split; [|cbn; lia].
    repeat apply Forall_cons; try apply Forall_nil; cbn; lia. }
  split; [|vm_compute; auto]. apply sv_dict.
  - unfold small; cbn; lia.
  - repeat apply Forall_cons; try apply Forall_nil; cbn [fst snd]; (split; [unfold small_key, small; cbn; lia|]).
    + apply sv_int. unfold int64. lia.
    + apply sv_list; [unfold small; cbn; lia|]. repeat apply Forall_cons; try apply Forall_nil; apply sv_array; assumption.
    + apply sv_tuple; [unfold small; cbn; lia|]. repeat apply Forall_cons; try apply Forall_nil.
      * apply sv_tensor; auto.
      * apply sv_none.
  - cbn. intros [H|[H|[H|[]]]]; discriminate.
Qed.

(** one zero byte broadcast to 2^32 elements *)
Example C49_large_case : let a := mkNd (DPlain "|" "u" 1 "") [N.to_nat (2 ^ 32)] [0%Z] 0 ["000"%char] true in
  in_memory a /\ (2 ^ 32 <= Z.of_nat (prod (nd_shape a) * itemsize (nd_dtype a)))%Z.
Proof.
  intros a. subst a. split.
  - split; [reflexivity|]. cbn [nd_shape nd_offset nd_strides nd_dtype nd_buf]. generalize (N.to_nat (2 ^ 32)). intros m idx I.
    inversion I as [|? i ? t Hi Ht]; subst. inversion Ht; subst. cbn. lia.
  - cbn [nd_shape nd_dtype prod fold_right itemsize]. change (Ascii.eqb "u" "U") with false. cbn iota.
    change (N.to_nat 1) with 1. rewrite !Nat.mul_1_r. rewrite N_nat_Z. lia.
Qed.
