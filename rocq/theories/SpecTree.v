(** SpecTree.v -- specification vocabulary for the rewrite rules: what is at a
    path of a parsed config file, and when two paths are unrelated.
    Nothing here refers to the model of the rules. *)
From Verif Require Import Base Value.

(** A parsed config file: Python dicts never have a key twice. *)
Fixpoint nodupb (l : list string) : bool :=
  match l with
  | [] => true
  | x :: r => negb (existsb (String.eqb x) r) && nodupb r
  end.

Fixpoint wf (v : pyval) : bool :=
  match v with
  | VDict d => nodupb (map fst d) && forallb (fun kv => wf (snd kv)) d
  | VNt _ d => nodupb (map fst d) && forallb (fun kv => wf (snd kv)) d
  | VObj _ d => nodupb (map fst d) && forallb (fun kv => wf (snd kv)) d
  | VList l => forallb wf l
  | VTuple l => forallb wf l
  | VEnum _ _ x => wf x
  | VBlob _ p => wf p
  | _ => true
  end.

(** the value at a path of nested dicts *)
Fixpoint lookup (d : pyval) (p : list string) : option pyval :=
  match p with
  | [] => Some d
  | k :: r => match d with
              | VDict m => match aget k m with
                           | Some c => lookup c r
                           | None => None
                           end
              | _ => None
              end
  end.

Definition prefix (p q : list string) : Prop := exists r, q = (p ++ r)%list.
Definition proper_prefix (p q : list string) : Prop := exists r, r <> [] /\ q = (p ++ r)%list.
Definition unrelated (p q : list string) : Prop := ~ prefix p q /\ ~ prefix q p.

(** every section of [d] on the way to [p] that is present is a dict *)
Definition sections (d : pyval) (p : list string) : Prop :=
  forall q x, proper_prefix q p -> lookup d q = Some x -> exists m, x = VDict m.

(** ... or None *)
Definition sections_or_none (d : pyval) (p : list string) : Prop :=
  forall q x, proper_prefix q p -> lookup d q = Some x -> x = VNone \/ exists m, x = VDict m.

(** A section is "given" by the file when it is a dict that is not marked as a
    weak reference (the marker key is rewrite_rule.py:8). *)
Definition given (d : pyval) (q : list string) : Prop :=
  exists m, lookup d q = Some (VDict m) /\ aget "!weak ref" m = None.

(** a list, dict or (non-frozen) dataclass object, or a tuple containing one: Python cannot hash it *)
Inductive unhashable : pyval -> Prop :=
| uh_list l : unhashable (VList l)
| uh_dict d : unhashable (VDict d)
| uh_obj c d : unhashable (VObj c d)
| uh_tuple l x : In x l -> unhashable x -> unhashable (VTuple l)
| uh_nt n d k x : In (k, x) d -> unhashable x -> unhashable (VNt n d).

(** [x] equals an element of [l] *)
Definition among (x : pyval) (l : list pyval) : Prop := exists a, In a l /\ py_eq a x = true.
