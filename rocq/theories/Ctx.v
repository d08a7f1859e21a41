(** Ctx.v -- the deserialization context: hyperstate/hyperstate.py [StateManager.set_deserialize_ctx],
    [StateManager.state]; hyperstate/lazy.py [Lazy.set_deserialize_ctx], [Lazy.__getattribute__]. *)
From Verif Require Import Base Value Schema Rewrite Sched Types Asdict FromDict Lazy.

(** [Dict[str, Any]] *)
Definition ctx := list (string * pyval).

(** what a program does with a manager [m] *)
Inductive cop :=
| MSet (k : string) (v : pyval)      (* m.set_deserialize_ctx(k, v) *)
| SSet (k : string) (v : pyval)      (* m.state.set_deserialize_ctx(k, v) *)
| Read (name : string).              (* m.state.name *)

(** the calls of user code that get a context *)
Inductive call :=
| Initial (c : ctx)                      (* initial_state(config, c) *)
| Deserialize (field : string) (c : ctx) (* ser_clz.deserialize(_, _, _, c) for the attribute [field] *).

(** the manager: its own context, hyperstate.py:92, and the state once it was loaded, with
    the state's attribute [_deserialize_ctx] if it has one.
    The manager hands its own dict to [initial_state] and copies it for the state
    (hyperstate.py:105, 170-182); that [initial_state] keeps or changes the dict is not modelled. *)
Record holder := mkH { h_ctx : ctx; h_state : option (inst * option ctx) }.

(** what [_load_state] (hyperstate.py:170-184) would do at some moment: there is a checkpoint,
    and reading it gives a state or raises (the first line); the config cannot be loaded; or
    [initial_state] is called and returns a state, which may have a context of its own, or
    raises *)
Inductive loading :=
| Saved (r : res inst)
| NoConfig (e : exc)
| Fresh (r : res (inst * option ctx)).
(** the surroundings of an operation: the files, what [_load_state] would do, and what
    [_apply_schedules] would raise *)
Record moment := mkM { m_disk : string -> option pyval; m_load : loading; m_sched : option exc }.

Section Program.
(** [isinstance(state, Lazy)] *)
Variable is_lazy : bool.
Variable deser : string -> pyval -> inst -> ctx -> res pyval.
Variable pickle_allowed : bool.

(** hyperstate.py:100-107 [state]; an exception of [_apply_schedules] comes after [_state] was set *)
Definition access (w : moment) (m : holder) : res (inst * option ctx) * holder * list call :=
  match h_state m with
  | Some s => (Ok s, m, [])
  | None =>
      let '(r, calls) :=
        match m_load w with
        | Saved r => ((let* o := r in Ok (o, None)), [])
        | NoConfig e => (Err e, [])
        | Fresh r => (r, [Initial (h_ctx m)])
        end in
      match r with
      | Err e => (Err e, m, calls)
      | Ok s =>
          let s := if is_lazy then (fst s, Some (h_ctx m)) else s in
          (match m_sched w with Some e => Err e | None => Ok s end, mkH (h_ctx m) (Some s), calls)
      end
  end.

(** one operation: result, manager, calls.  lazy.py:62-66: a state without context passes [{}].
    A class that is not [Lazy] has ordinary attributes. *)
Definition cstep (w : moment) (op : cop) (m : holder) : res pyval * holder * list call :=
  match op with
  | MSet k v => (Ok VNone, mkH (aset k v (h_ctx m)) (h_state m), [])          (* hyperstate.py:145-152 *)
  | SSet k v =>                                                            (* lazy.py:73-82 *)
      let '(a, m', calls) := access w m in
      match a with
      | Err e => (Err e, m', calls)
      | Ok (o, c) =>
          if is_lazy
          then (Ok VNone, mkH (h_ctx m') (Some (o, Some (aset k v (match c with Some c => c | None => [] end)))), calls)
          else (Err AttributeError, m', calls)
      end
  | Read n =>
      let '(a, m', calls) := access w m in
      match a with
      | Err e => (Err e, m', calls)
      | Ok (o, c) =>
          if is_lazy then
            let c' := match c with Some c => c | None => [] end in
            let '(r, o', ev) := lazy_get (fun cl d o => deser cl d o c') pickle_allowed (m_disk w) o n in
            (* the second event is the parse of the blob, deserialize is called after it *)
            let called := match ev with _ :: _ :: _ => [Deserialize n c'] | _ => [] end in
            (r, mkH (h_ctx m') (Some (o', c)), (calls ++ called)%list)
          else (match aget n (i_attrs o) with Some v => Ok v | None => Err AttributeError end, m', calls)
      end
  end.

(** a program, each operation with the surroundings as they are at that time; exceptions are
    caught by the program and do not end it *)
Fixpoint crun (l : list (moment * cop)) (m : holder) : list (res pyval * list call) :=
  match l with
  | [] => []
  | (w, op) :: r => let '(v, m', calls) := cstep w op m in (v, calls) :: crun r m'
  end.

(** a new manager *)
Definition new_holder : holder := mkH [] None.
End Program.
