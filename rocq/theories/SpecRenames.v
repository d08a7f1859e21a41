(** SpecRenames.v -- rename detection as a matching (C33). *)
From Coq Require Import Permutation.
From Verif Require Import Base Value Schema Checker.

(** [l] is [m] with some elements left out *)
Inductive subseq {A} : list A -> list A -> Prop :=
| subseq_nil : subseq [] []
| subseq_keep x l m : subseq l m -> subseq (x :: l) (x :: m)
| subseq_skip x l m : subseq l m -> subseq l (x :: m).

(** the double nearest to 0.1 (C32_constant) *)
Definition one_tenth : pyfloat := S754_finite false 7205759403792794 (-56).

Section Matching.
  Variable is_added is_removed : change -> bool.
  Variable similarity : change -> change -> option pyfloat.
  Variable renamed : change -> change -> change.

  (** removed [r] and added [a] are similar enough: more than 0.1 *)
  Definition similar (r a : change) : Prop :=
    exists x, similarity a r = Some x /\ SFltb one_tenth x = true.

  (** [(r', a')] is more similar than [(r, a)] *)
  Definition more_similar (r' a' r a : change) : Prop :=
    exists x y, similarity a' r' = Some x /\ similarity a r = Some y /\ SFltb y x = true.

  (** [after] results from [before] by replacing the pairs of a matching:
      every pair is a removed and an added entry of [before] that are similar
      enough, no entry is used twice, everything else is kept in order, and no
      two similar entries are left.  Pairs are formed best first. *)
  Definition matching (before after : list change) : Prop :=
    exists pairs rest,
      after = (rest ++ map (fun p => renamed (snd p) (fst p)) pairs)%list /\
      Permutation before (rest ++ map fst pairs ++ map snd pairs) /\
      subseq rest before /\
      (forall r a, In (r, a) pairs -> is_removed r = true /\ is_added a = true /\ similar r a) /\
      (forall r a, In r rest -> In a rest -> is_removed r = true -> is_added a = true -> ~ similar r a) /\
      (forall pre r a post, pairs = (pre ++ (r, a) :: post)%list ->
         forall r' a', In r' (rest ++ map fst ((r, a) :: post)) -> In a' (rest ++ map snd ((r, a) :: post)) ->
           is_removed r' = true -> is_added a' = true -> ~ more_similar r' a' r a).
End Matching.

(** which object a change is about; no two changes of one comparison agree on this *)
Definition change_key (c : change) : nat * list string * string :=
  match c with
  | FieldAdded p _ _ _ => (0, p, "")
  | FieldRemoved p _ _ _ => (1, p, "")
  | FieldRenamed p _ => (2, p, "")
  | DefaultValueChanged p _ _ => (3, p, "")
  | DefaultValueRemoved p _ => (4, p, "")
  | TypeChanged p _ _ => (5, p, "")
  | EnumVariantValueChanged p _ v _ _ => (6, p, v)
  | EnumVariantRemoved p _ v _ => (7, p, v)
  | EnumVariantAdded p _ v _ => (8, p, v)
  | EnumVariantRenamed p _ v _ => (9, p, v)
  | LiteralValuesAdded p _ => (10, p, "")
  | LiteralValuesRemoved p _ => (11, p, "")
  end%nat.

(** A schema as materialize_type or a schema file produces it: dict keys are distinct. *)
Fixpoint distinct_names (t : sty) : Prop :=
  match t with
  | SList i | SOption i => distinct_names i
  | STuple l | SUnion l => (fix go l := match l with [] => True | x :: r => distinct_names x /\ go r end) l
  | SDict k v => distinct_names k /\ distinct_names v
  | SStruct _ fs _ =>
      NoDup (map fst fs) /\
      (fix go (l : list (string * sfield)) := match l with [] => True | (_, (ft, _)) :: r => distinct_names ft /\ go r end) fs
  | SEnum _ vs => NoDup (map fst vs)
  | _ => True
  end.
