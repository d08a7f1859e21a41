(** SpecRun.v -- what a program should see of the state while checkpoints come and go (C72). *)
From Verif Require Import Base Value Schema Rewrite Sched Types Asdict FromDict Manager Ckpt Lazy Session Run SpecLazy.

(** The answers are those of an ordinary object with the attributes [attrs]. *)
Fixpoint as_plain (l : list (doing * answer)) (attrs : list (string * pyval)) : Prop :=
  match l with
  | [] => True
  | (Read n, a) :: r => a = AValue (match aget n attrs with Some v => Ok v | None => Err AttributeError end) /\ as_plain r attrs
  | (Write n v, _) :: r => as_plain r (aset n v attrs)
  | (StepNow, _) :: r | (Save, _) :: r => as_plain r attrs
  end.

(** A careful program assigns a Serializable field only after it was loaded (otherwise the
    assignment is lost, C46), and calls [step] only when there is no checkpoint for the
    present value of the key, or all fields are loaded. *)
Definition careful (S : settings) (w : world) (a : doing) : Prop :=
  match a with
  | Write n _ => aget n (i_unloaded (m_state (w_live w))) = None
  | StepNow => i_unloaded (m_state (w_live w)) = [] \/ forall x k, aget (s_key S) (i_attrs (m_state (w_live w))) = Some x -> as_int x = Some k ->
      exists_in (w_dir w) (ckpt_name (s_key S) k) = false
  | _ => True
  end.

(** The object has the attributes [attrs], some of them still in the files. *)
Definition stands_for (deser : string -> pyval -> inst -> res pyval) (pickle_allowed : bool) (disk : string -> option pyval)
    (names : list string) (o : inst) (attrs : list (string * pyval)) : Prop :=
  NoDup (map fst (i_unloaded o)) /\ (forall n, In n (map fst (i_unloaded o)) -> In n names) /\
  forall n, match aget n (i_unloaded o) with
            | Some r => exists v, aget n attrs = Some v /\ pending deser pickle_allowed disk r v
            | None => aget n (i_attrs o) = aget n attrs
            end.
