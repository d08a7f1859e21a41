(** SpecMsgpack.v -- when arrays and objects are the same, and which can be saved (C49). *)
From Verif Require Import Base Msgpack.

(** [idx] is an index of an array of this shape *)
Definition index_of (shape idx : list nat) : Prop := Forall2 (fun n i => i < n)%nat shape idx.

(** the elements lie inside the buffer *)
Definition in_memory (a : ndarray) : Prop :=
  length (nd_strides a) = length (nd_shape a) /\
  forall idx, index_of (nd_shape a) idx ->
    (0 <= nd_offset a + dot (nd_strides a) idx)%Z /\
    (nd_offset a + dot (nd_strides a) idx + Z.of_nat (itemsize (nd_dtype a)) <= Z.of_nat (length (nd_buf a)))%Z.

(** a dtype of numbers, strings, times or raw bytes *)
Definition scalar_dtype (d : dtype) : Prop :=
  exists o k n unit, d = DPlain o k n unit /\ k <> "O"%char /\ (0 < n)%N /\ (unit = "" \/ exists r, unit = "[" ++ r).

(** same dtype, same shape, same elements *)
Definition same_array (a b : ndarray) : Prop :=
  nd_dtype a = nd_dtype b /\ nd_shape a = nd_shape b /\
  forall idx, index_of (nd_shape a) idx -> element_at a idx = element_at b idx.

(** same elements; the copy lives in main memory and does not require grad *)
Definition same_tensor (a b : tensor) : Prop :=
  same_array (tn_array a) (tn_array b) /\ tn_device b = "cpu" /\ tn_grad b = false.

(** the same object, lists and tuples not distinguished *)
Inductive same_obj : obj -> obj -> Prop :=
| so_none : same_obj ONone ONone
| so_bool b : same_obj (OBool b) (OBool b)
| so_int z : same_obj (OInt z) (OInt z)
| so_float f : same_obj (OFloat f) (OFloat f)
| so_str s : same_obj (OStr s) (OStr s)
| so_bytes l : same_obj (OBytes l) (OBytes l)
| so_list l m : Forall2 same_obj l m -> same_obj (OList l) (OList m)
| so_tuple l m : Forall2 same_obj l m -> same_obj (OTuple l) (OList m)
| so_dict d e : Forall2 (fun kv kw => fst kv = fst kw /\ same_obj (snd kv) (snd kw)) d e -> same_obj (ODict d) (ODict e)
| so_array a b : same_array a b -> same_obj (OArray a) (OArray b)
| so_tensor a b : same_tensor a b -> same_obj (OTensor a) (OTensor b).

(** no more than 2^32 - 1 items or bytes *)
Definition small {A} (l : list A) : Prop := (Z.of_nat (length l) <= 2 ^ 32 - 1)%Z.
Definition int64 (z : Z) : Prop := (- 2 ^ 63 <= z < 2 ^ 64)%Z.
Definition small_key (k : key) : Prop :=
  match k with KStr s | KBytes s => small (list_ascii_of_string s) | KInt z => int64 z end.

Definition savable_array (a : ndarray) : Prop :=
  in_memory a /\ scalar_dtype (nd_dtype a) /\ small (list_ascii_of_string (dtype_str (nd_dtype a))) /\
  small (nd_shape a) /\ Forall (fun n => int64 (Z.of_nat n)) (nd_shape a) /\
  (Z.of_nat (prod (nd_shape a) * itemsize (nd_dtype a)) <= 2 ^ 32 - 1)%Z.

(** objects that can be saved: no dict of the user has a key b"__tensor__" *)
Inductive savable (torch_dtype : dtype -> bool) : obj -> Prop :=
| sv_none : savable torch_dtype ONone
| sv_bool b : savable torch_dtype (OBool b)
| sv_int z : int64 z -> savable torch_dtype (OInt z)
| sv_float f : savable torch_dtype (OFloat f)
| sv_str s : small (list_ascii_of_string s) -> savable torch_dtype (OStr s)
| sv_bytes l : small l -> savable torch_dtype (OBytes l)
| sv_list l : small l -> Forall (savable torch_dtype) l -> savable torch_dtype (OList l)
| sv_tuple l : small l -> Forall (savable torch_dtype) l -> savable torch_dtype (OTuple l)
| sv_dict d : small d -> Forall (fun kv => small_key (fst kv) /\ savable torch_dtype (snd kv)) d ->
    ~ In (KBytes "__tensor__") (map fst d) -> savable torch_dtype (ODict d)
| sv_array a : savable_array a -> savable torch_dtype (OArray a)
| sv_tensor t : savable_array (tn_array t) -> tn_grad t = false -> tn_in_numpy t = true ->
    torch_dtype (nd_dtype (tn_array t)) = true -> savable torch_dtype (OTensor t).
