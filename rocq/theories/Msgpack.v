(** Msgpack.v -- hyperstate/msgpack_torch.py: encoding of arrays and tensors, and the way
    lazy.py uses it to write and read blob files. *)
From Verif Require Import Base.

(** ** numpy: dtypes *)

(** [DPlain order kind n unit]: a scalar dtype, e.g. "<f4", "|u1", "<U7", "<M8[ns]"; kind is
    not "O".  [DObject]: Python objects.  [DFields]: a structured dtype of [size] bytes. *)
Inductive dtype : Type :=
| DPlain (order kind : ascii) (n : N) (unit : string)
| DObject
| DFields (names : list string) (size : N).

(** [dtype.itemsize]: "U" counts characters of four bytes *)
Definition itemsize (d : dtype) : nat :=
  match d with
  | DPlain _ k n _ => N.to_nat (if Ascii.eqb k "U" then 4 * n else n)
  | DObject => 8
  | DFields _ size => N.to_nat size
  end.

(** [dtype.str]: the fields of a structured dtype are not part of it *)
Definition dtype_str (d : dtype) : string :=
  match d with
  | DPlain o k n unit => String o (String k (show_N n ++ unit))
  | DObject => "|O"
  | DFields _ size => "|V" ++ show_N size
  end.

Definition digit_value (a : ascii) : option N :=
  let n := N_of_ascii a in
  if (N.leb 48 n && N.leb n 57)%bool then Some (n - 48)%N else None.

Fixpoint read_digits (acc : N) (s : string) : N * string :=
  match s with
  | EmptyString => (acc, s)
  | String a r => match digit_value a with Some d => read_digits (acc * 10 + d)%N r | None => (acc, s) end
  end.

(** [np.dtype(s)] for a string of the form [dtype_str] returns; TypeError otherwise *)
Definition np_dtype (s : string) : res dtype :=
  match s with
  | String o (String k r) =>
      if Ascii.eqb k "O" then Ok DObject
      else match r with
           | EmptyString => Err TypeError
           | _ => let p := read_digits 0 r in Ok (DPlain o k (fst p) (snd p))
           end
  | _ => Err TypeError
  end.

(** ** numpy: arrays *)

(** An array is a view of a buffer: the element at an index starts at the offset plus the
    strides times the index. *)
Record ndarray := mkNd {
  nd_dtype : dtype;
  nd_shape : list nat;
  nd_strides : list Z;
  nd_offset : Z;
  nd_buf : list ascii;
  nd_writeable : bool }.

Fixpoint dot (strides : list Z) (idx : list nat) : Z :=
  match strides, idx with
  | s :: ss, i :: is_ => (s * Z.of_nat i + dot ss is_)%Z
  | _, _ => 0%Z
  end.

Definition element_at (a : ndarray) (idx : list nat) : list ascii :=
  firstn (itemsize (nd_dtype a)) (skipn (Z.to_nat (nd_offset a + dot (nd_strides a) idx)) (nd_buf a)).

(** all indices in C order: the last one changes fastest *)
Fixpoint indices (shape : list nat) : list (list nat) :=
  match shape with
  | [] => [[]]
  | n :: r => concat (map (fun i => map (cons i) (indices r)) (seq 0 n))
  end.

(** [np.ndarray.tobytes(a)]: the elements in C order, whatever the strides *)
Definition tobytes (a : ndarray) : list ascii := concat (map (element_at a) (indices (nd_shape a))).

Definition prod (l : list nat) : nat := fold_right Nat.mul 1 l.

Fixpoint c_strides (size : nat) (shape : list nat) : list Z :=
  match shape with
  | [] => []
  | _ :: r => Z.of_nat (prod r * size) :: c_strides size r
  end.

(** [np.ndarray(buffer=data, dtype=d, shape=shape)] with immutable [data]: a read-only
    contiguous view; ValueError for objects, TypeError if the buffer is too small (what numpy
    does with items of size zero is not modelled: nothing is claimed of them) *)
Definition np_ndarray (data : list ascii) (d : dtype) (shape : list nat) : res ndarray :=
  match d with
  | DObject => Err ValueError
  | _ =>
      if Nat.ltb (length data) (prod shape * itemsize d) then Err TypeError
      else Ok (mkNd d shape (c_strides (itemsize d) shape) 0 data false)
  end.

(** [np.copy(a)] of a contiguous array *)
Definition np_copy (a : ndarray) : ndarray :=
  mkNd (nd_dtype a) (nd_shape a) (c_strides (itemsize (nd_dtype a)) (nd_shape a)) 0 (tobytes a) true.

(** ** torch *)

(** a tensor: its elements as an array, where it lives, whether it requires grad, whether
    its dtype exists in numpy *)
Record tensor := mkTn {
  tn_array : ndarray;
  tn_device : string;
  tn_grad : bool;
  tn_in_numpy : bool }.

(** [t.cpu().numpy()]: RuntimeError if it requires grad, TypeError for dtypes like bfloat16 *)
Definition to_numpy (t : tensor) : res ndarray :=
  if tn_grad t then Err RuntimeError
  else if tn_in_numpy t then Ok (tn_array t) else Err TypeError.

(** ** Objects *)
Inductive key : Type := KStr (s : string) | KBytes (s : string) | KInt (z : Z).

Inductive obj : Type :=
| ONone
| OBool (b : bool)
| OInt (z : Z)
| OFloat (bits : Z)
| OStr (s : string)
| OBytes (l : list ascii)
| OList (l : list obj)
| OTuple (l : list obj)
| ODict (d : list (key * obj))
| OArray (a : ndarray)
| OTensor (t : tensor)
| OOther (class : string)   (* anything msgpack does not know *).

Definition key_eqb (a b : key) : bool :=
  match a, b with
  | KStr s, KStr t => String.eqb s t
  | KBytes s, KBytes t => String.eqb s t
  | KInt x, KInt y => Z.eqb x y
  | _, _ => false
  end.
Fixpoint dget (k : key) (d : list (key * obj)) : option obj :=
  match d with
  | [] => None
  | (k', v) :: r => if key_eqb k k' then Some v else dget k r
  end.

Definition chained (chain : option (obj -> res obj)) (o : obj) : res obj :=
  match chain with None => Ok o | Some f => f o end.

(** msgpack_torch.py:10-24 [encode]; [torch]: whether torch can be imported (4-7) *)
Definition encode (torch : bool) (chain : option (obj -> res obj)) (o : obj) : res obj :=
  let array (kind : string) (a : ndarray) :=
    Ok (ODict [(KBytes "__tensor__", OStr kind);
               (KBytes "dtype", OStr (dtype_str (nd_dtype a)));
               (KBytes "shape", OTuple (map (fun n => OInt (Z.of_nat n)) (nd_shape a)));
               (KBytes "data", OBytes (tobytes a))]) in
  match o with
  | OTensor t => if torch then let* a := to_numpy t in array "torch" a else chained chain o
  | OArray a => array "numpy" a
  | _ => chained chain o
  end.

(** a shape: a list or tuple of non-negative ints *)
Definition shape_of (o : obj) : res (list nat) :=
  match o with
  | OTuple l | OList l =>
      rmap (fun x => match x with
                     | OInt z => if (z <? 0)%Z then Err ValueError else Ok (Z.to_nat z)
                     | _ => Err TypeError
                     end) l
  | _ => Err TypeError
  end.

(** msgpack_torch.py:27-42 [decode] of a dict, with torch's [from_numpy] accepting the
    dtypes [torch_dtype] (TypeError otherwise).  The only other objects it accepts
    without TypeError are lists, which [msgpack] never passes to the hook. *)
Definition decode (torch : bool) (torch_dtype : dtype -> bool) (chain : option (obj -> res obj)) (o : obj) : res obj :=
  match o with
  | ODict d =>
      match dget (KBytes "__tensor__") d with
      | None => chained chain o
      | Some kind =>
          match dget (KBytes "data") d, dget (KBytes "dtype") d, dget (KBytes "shape") d with
          | Some data, Some dt, Some shape =>
              match data, dt with
              | OBytes data, OStr dt =>
                  let* dt := np_dtype dt in
                  let* shape := shape_of shape in
                  let* a := np_ndarray data dt shape in
                  if (match kind with OStr s => String.eqb s "torch" | _ => false end && torch)%bool then
                    if torch_dtype dt then Ok (OTensor (mkTn (np_copy a) "cpu" false true)) else Err TypeError
                  else Ok (OArray a)
              | _, _ => Err TypeError
              end
          | _, _, _ => chained chain o                              (* KeyError, 41-42 *)
          end
      end
  | _ => Err TypeError
  end.

(** ** [msgpack.packb(o, default=encode)] followed by [msgpack.unpack(f, object_hook=decode,
    strict_map_key=False)] (lazy.py:137-139, 59-61), as trees.  Limits of the format: 64 bit
    integers (OverflowError), 2^32 - 1 items or bytes (ValueError).  Not modelled: limits on
    nesting, invalid UTF-8. *)
Definition ITEM_LIMIT : Z := 4294967295.
Definition too_long {A} (l : list A) : bool := (ITEM_LIMIT <? Z.of_nat (length l))%Z.
Definition limited {A} (l : list A) (o : obj) : res obj := if too_long l then Err ValueError else Ok o.
Definition packed_int (z : Z) : res obj :=
  if ((- 2 ^ 63 <=? z) && (z <? 2 ^ 64))%Z then Ok (OInt z) else Err OverflowError.
Definition packed_key (k : key) : res key :=
  match k with
  | KStr s | KBytes s => if too_long (list_ascii_of_string s) then Err ValueError else Ok k
  | KInt z => let* _ := packed_int z in Ok k
  end.

(** what the file contains for objects msgpack knows; [default] handles the others *)
Fixpoint pack (default : obj -> res obj) (o : obj) : res obj :=
  match o with
  | ONone | OBool _ | OFloat _ => Ok o
  | OInt z => packed_int z
  | OStr s => limited (list_ascii_of_string s) o
  | OBytes l => limited l o
  | OList l | OTuple l => let* l' := rmap (pack default) l in limited l (OList l')
  | ODict d =>
      let* d' := rmap (fun kv : key * obj =>
                         let* k := packed_key (fst kv) in let* v := pack default (snd kv) in Ok (k, v)) d in
      limited d (ODict d')
  | OArray _ | OTensor _ | OOther _ => default o
  end.

(** [default] returns an object that is packed in turn.  For [encode] this is a dict of
    strings, ints and bytes, or the object itself, which cannot be packed (TypeError). *)
Definition packb (torch : bool) : obj -> res obj :=
  pack (fun o => let* o' := encode torch None o in pack (fun _ => Err TypeError) o').

(** the hook is applied to every dict, innermost first *)
Fixpoint unpack (hook : obj -> res obj) (o : obj) : res obj :=
  match o with
  | OList l => let* l' := rmap (unpack hook) l in Ok (OList l')
  | ODict d =>
      let* d' := rmap (fun kv : key * obj => let* v := unpack hook (snd kv) in Ok (fst kv, v)) d in
      hook (ODict d')
  | _ => Ok o
  end.
Definition unpackb (torch : bool) (torch_dtype : dtype -> bool) : obj -> res obj :=
  unpack (decode torch torch_dtype None).
