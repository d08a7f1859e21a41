(** Session.v -- hyperstate/hyperstate.py: what a [StateManager] loads and writes. *)
From Verif Require Import Base Value Schema Rewrite Sched Types Asdict FromDict Manager Ckpt Lazy.

(** File contents: a .ron file is the tree [pyron.load] returns for it, a .msgpack file
    the object that was packed. *)

(** [init_path] (hyperstate.py:81, 154-182): absent, a file (with the directory it is in),
    a directory with its files, or a path that does not exist *)
Inductive init_src :=
| INone
| IFile (data : pyval) (dir : string)
| IDir (name : string) (l : files pyval)
| IMissing.

(** constructor arguments, hyperstate.py:53-63 *)
Record settings := mkSettings {
  s_config : ty;
  s_state : ty;
  s_initial : pyval -> res pyval;
  s_init : init_src;
  s_overrides : option (list string);
  s_ignore : bool;
  s_key : string }.

Definition read_ron (l : files pyval) (f : string) : res pyval :=
  match aget f l with Some d => Ok d | None => Err FileNotFoundError end.

(** hyperstate.py:154-168 [_load_config].  [self.overrides or []];
    [isinstance(self.config_cls, Versioned)] is False for every class, so a missing
    version is always allowed.  Blobs in a config cannot occur: [materialize_type] raises
    for Serializable fields, and overrides are never None here. *)
Definition manager_config (E : env) (S : settings) (D : fs pyval) (last : option string) : res loaded :=
  let load data dir :=
    typed_load E (s_config S) data dir (Some (match s_overrides S with Some o => o | None => [] end))
      true (s_ignore S) in
  match last with
  | Some p =>
      match aget p D with
      | Some (EDir l) => let* data := read_ron l "config.ron" in load data (Some p)
      | _ => Err FileNotFoundError
      end
  | None =>
      match s_init S with
      | INone => load (VDict []) None
      | IFile data dir => load data (Some dir)
      | IDir p l => let* data := read_ron l "config.ron" in load data (Some p)
      | IMissing => Err FileNotFoundError
      end
  end.

(** hyperstate.py:170-182 [_load_state] *)
Definition manager_state (E : env) (S : settings) (D : fs pyval) (last : option string) (cfg : pyval)
  : res loaded :=
  let load data dir := typed_load E (s_state S) data (Some dir) None false (s_ignore S) in
  match last with
  | Some p =>
      match aget p D with
      | Some (EDir l) => let* data := read_ron l "state.ron" in load data p
      | _ => Err FileNotFoundError
      end
  | None =>
      match s_init S with
      | IDir p l => let* data := read_ron l "state.ron" in load data p
      | _ => let* v := s_initial S cfg in Ok (mkL v [] [])
      end
  end.

(** a manager after the first access to [state] (hyperstate.py:94-107): config with
    schedules applied, schedules, state *)
Record live := mkLive {
  m_config : pyval;
  m_sched : list (string * stree);
  m_state : inst }.

(** [_apply_schedules] reads the key with [getattr(state, xname)]; an unloaded Serializable
    field is not a number and is taken as [None], which is not one either. *)
Definition as_value (o : inst) : pyval := VObj (i_cls o) (i_attrs o).

(** a new manager on the directory [D] *)
Definition manager_start (E : env) (S : settings) (D : fs pyval) : res live :=
  let last := resume_point D in
  let* c := manager_config E S D last in
  let* s := manager_state E S D last (l_value c) in
  let o := inst_of s in
  let* cfg := apply_schedules E (as_value o) (l_sched c) (l_value c) in
  Ok (mkLive cfg (l_sched c) o).

(** the files of all checkpoints, by path relative to the checkpoint directory, and of
    the initial checkpoint *)
Definition all_files (D : fs pyval) : list (string * pyval) :=
  concat (map (fun pe : string * entry pyval =>
                 match snd pe with
                 | EDir l => map (fun fc : string * pyval => ((fst pe ++ "/" ++ fst fc)%string, snd fc)) l
                 | EOther => []
                 end) D).
Definition init_files (S : settings) : list (string * pyval) :=
  match s_init S with
  | IDir p l => map (fun fc : string * pyval => ((p ++ "/" ++ fst fc)%string, snd fc)) l
  | _ => []
  end.
Definition disk_of (S : settings) (D : fs pyval) (path : string) : option pyval :=
  aget path (all_files D ++ init_files S)%list.

(** hyperstate.py:184-195 [checkpoint]: the files of a checkpoint.  Both dumps write their
    blobs into the same directory (hyperstate.py:243-246), later files replacing earlier ones of the
    same name. *)
Definition put_all (l : files pyval) (acc : files pyval) : files pyval :=
  fold_left (fun acc fc => aset (fst fc) (snd fc) acc) l acc.
Definition checkpoint_files (cls : string -> cmeta) (cfg : pyval) (sched : list (string * stree)) (state : pyval)
  : res (files pyval) :=
  let* c := typed_dump cls cfg (Some sched) false in
  let* s := typed_dump cls state None false in
  Ok (put_all (("state.ron", ron_view (fst s)) :: snd s)
        (put_all (("config.ron", ron_view (fst c)) :: snd c) [])).

(** hyperstate.py:124-143 [step], the part before the directory changes: schedules, key,
    and the object and files [checkpoint] would dump (evaluated only if there is no such
    checkpoint yet).  [names]: the fields of the state class. *)
Definition step_prepare (E : env) deser pickle_allowed (S : settings) (D : fs pyval) (names : list string) (m : live)
  : res (live * Z * res (inst * files pyval)) :=
  let* cfg := apply_schedules E (as_value (m_state m)) (m_sched m) (m_config m) in
  match aget (s_key S) (i_attrs (m_state m)) with
  | None => Err AttributeError
  | Some v =>
      match as_int v with
      | None => Err AssertionError
      | Some n =>
          Ok (mkLive cfg (m_sched m) (m_state m), n,
              let* o := load_fields deser pickle_allowed (disk_of S D) names (m_state m) in
              let* l := checkpoint_files (e_class E) cfg (m_sched m) (as_value o) in
              Ok (o, l))
      end
  end.
