(** SpecSession.v -- what a restart should find. *)
From Verif Require Import Base Value Schema Rewrite Sched Types Asdict FromDict Manager Ckpt Lazy Session
  SpecTypes SpecState FromDictFacts SpecCkpt SpecLazy SpecLoad SpecOverride SpecAgain.

(** The config obeys the last override for each field that the manager is given one for, and
    no override is for a part of a field that another one is for.
    RON texts denote plain file values. *)
Definition overrides_kept (E : env) (S : settings) (cfg : pyval) (l : list (string * stree)) : Prop :=
  match s_overrides S with
  | None | Some [] => True
  | Some ovs => ron_file E /\ loadable (s_config S) /\ obeys_all E (s_config S) cfg l ovs /\ apart ovs
  end.

(** A config, its schedules and a state object that a manager with settings [S] may hold:
    they have the declared types, the schedules sit at numeric fields no more than two
    levels deep, Serializable objects are attributes of the state itself, and the config
    obeys the overrides. *)
Record resumable (E : env) (S : settings) (cfg : pyval) (l : list (string * stree))
    (n : string) (d : list (string * pyval)) : Prop := {
  rs_order : order_ok E;
  rs_config : exists c fs, s_config S = TData c fs /\ persistable E false (TData c fs) /\ configurable (TData c fs) /\
    holds (TData c fs) cfg /\ clean cfg = true /\
    fits E "" (SNode l) (TData c fs) cfg /\ named "" (SNode l) /\ shallow l;
  rs_state : exists c fs, s_state S = TData c fs /\ persistable E true (TData c fs) /\
    holds (TData c fs) (VObj n d) /\ clean (VObj n d) = true /\ root_blobs (VObj n d);
  rs_overrides : overrides_kept E S cfg l }.

(** user code reads back what it wrote *)
Definition reads_back (deser : string -> pyval -> inst -> res pyval) (d : list (string * pyval)) : Prop :=
  forall k c p o, In (k, VBlob c p) d -> deser c p o = Ok (VBlob c p).

(** file names contain no slash *)
Definition names_ok {A} (D : fs A) : Prop := forall n e, In (n, e) D -> has_char "/" n = false.

(** The manager [m] holds this config, these schedules and this state: config equal,
    schedules the same at every path, every attribute reads as its value, and reading all
    of them gives exactly the object. *)
Definition holds_session (deser : string -> pyval -> inst -> res pyval) (pickle_allowed : bool)
    (disk : string -> option pyval) (m : live)
    (cfg : pyval) (l : list (string * stree)) (n : string) (d : list (string * pyval)) : Prop :=
  m_config m = cfg /\
  (forall p, sched_at (SNode (m_sched m)) p = sched_at (SNode l) p) /\
  (forall k x, In (k, x) d -> fst (fst (lazy_get deser pickle_allowed disk (m_state m) k)) = Ok x) /\
  load_fields deser pickle_allowed disk (map fst d) (m_state m) = Ok (mkInst n d []).

(** Serializable fields that are not loaded yet were not assigned either *)
Definition untouched (o : inst) : Prop :=
  NoDup (akeys (i_unloaded o)) /\ forall k r, aget k (i_unloaded o) = Some r -> aget k (i_attrs o) = Some VNone.

(** the config file of a manager on the directory [D], and where it is: that of the
    checkpoint to resume from, or the one at [init_path]; without any, the empty file *)
Definition config_file (S : settings) (D : fs pyval) (data : pyval) (dir : option string) : Prop :=
  match resume_point D with
  | Some q => exists l, In (q, EDir l) D /\ In ("config.ron", data) l /\ NoDup (map fst l) /\ dir_ok D /\ dir = Some q
  | None => match s_init S with
            | INone => data = VDict [] /\ dir = None
            | IFile x d => data = x /\ dir = Some d
            | IDir q l => In ("config.ron", data) l /\ NoDup (map fst l) /\ dir = Some q
            | IMissing => False
            end
  end.
