(** SpecLoop.v -- the run without interruptions (C74). *)
From Verif Require Import Base Value Schema Rewrite Sched Types Asdict FromDict Manager Ckpt Lazy Session Run Loop
  SpecTypes SpecState SpecCkpt SpecLazy SpecLoad SpecSession.

(** what user code does to the attributes of an ordinary object; [None] if it reads an attribute
    that is not there *)
Fixpoint plainly (c : code) (d : list (string * pyval)) : option (list (string * pyval)) :=
  match c with
  | Finish => Some d
  | GetAttr a k => match aget a d with Some v => plainly (k v) d | None => None end
  | SetAttr a v k => plainly k (aset a v d)
  end.

(** Config and state after [k] iterations in memory, without any files: user code, then the
    schedules [l] set their fields.  The state is of class [n]. *)
Fixpoint uninterrupted (E : env) (body : pyval -> code) (n : string) (l : list (string * stree))
    (cfg0 : pyval) (d0 : list (string * pyval)) (k : nat) : option (pyval * list (string * pyval)) :=
  match k with
  | O => Some (cfg0, d0)
  | Datatypes.S k' =>
      match uninterrupted E body n l cfg0 d0 k' with
      | None => None
      | Some (cfg, d) =>
          match plainly (body cfg) d with
          | None => None
          | Some d' => match apply_schedules E (VObj n d') l cfg with Ok cfg' => Some (cfg', d') | Err _ => None end
          end
      end
  end.

Fixpoint iterations (tr : list happening) : nat :=
  match tr with [] => 0 | Iterated :: r => Datatypes.S (iterations r) | _ :: r => iterations r end.
Fixpoint deaths (tr : list happening) : nat :=
  match tr with [] => 0 | Killed :: r => Datatypes.S (deaths r) | _ :: r => deaths r end.

(** At first there is no checkpoint; file names are unique and contain no slash. *)
Definition no_checkpoint (D : fs pyval) : Prop := forall name z, numbered D name z -> String.prefix "latest" name = false.
Definition proper (D : fs pyval) : Prop := dir_ok D /\ names_ok D.
(** the key has grown beyond all numbers in the directory *)
Definition grown (S : settings) (D : fs pyval) (z : Z) : Prop :=
  in_range z /\ (forall name y, numbered D name y -> (y < z)%Z) /\ forall e, ~ In (ckpt_name (s_key S) z, e) D.

(** a state of class [n] that can be checkpointed: it has its declared type, Serializable
    objects are attributes of it, and user code reads back what it writes *)
Definition keepable (E : env) (S : settings) (deser : string -> pyval -> inst -> res pyval) (n : string) (d : list (string * pyval)) : Prop :=
  (exists c fs, s_state S = TData c fs /\ persistable E true (TData c fs) /\
    holds (TData c fs) (VObj n d) /\ clean (VObj n d) = true /\ root_blobs (VObj n d)) /\ reads_back deser d.

(** A job: a manager started without a checkpoint gets config [cfg0], schedules [l] and the state
    [n d0], all of it in memory; config and schedules can be checkpointed, and so can the state
    after any number of iterations. *)
Record sound_job (E : env) (S : settings) deser (names : list string) body (n : string) (l : list (string * stree)) (cfg0 : pyval)
    (d0 : list (string * pyval)) : Prop := {
  sj_first : manager_start E S [] = Ok (mkLive cfg0 l (mkInst n d0 []));
  sj_start : resumable E S cfg0 l n d0;
  sj_names : map fst d0 = names;
  sj_state : forall k cfg d, uninterrupted E body n l cfg0 d0 k = Some (cfg, d) -> keepable E S deser n d }.

(** The key is an integer that grows with the iterations of the run in memory. *)
Definition keys_grow (E : env) (S : settings) body (n : string) (l : list (string * stree)) (cfg0 : pyval) (d0 : list (string * pyval)) : Prop :=
  exists key : nat -> Z,
    (forall k cfg d, uninterrupted E body n l cfg0 d0 k = Some (cfg, d) ->
       in_range (key k) /\ exists x, aget (s_key S) d = Some x /\ as_int x = Some (key k)) /\
    forall k, uninterrupted E body n l cfg0 d0 (Datatypes.S k) <> None -> (key k < key (Datatypes.S k))%Z.

(** a directory without numbered subdirectories, and without anything named as a checkpoint *)
Definition unused (S : settings) (D : fs pyval) : Prop :=
  (forall name z, ~ numbered D name z) /\ forall z e, ~ In (ckpt_name (s_key S) z, e) D.
