(** Run.v -- hyperstate/hyperstate.py: a program that uses the state of a [StateManager] with a
    checkpoint directory and calls [step]. *)
From Verif Require Import Base Value Schema Rewrite Sched Types Asdict FromDict Manager Ckpt Lazy Session.

(** The manager (after the first access to [state]), the checkpoint directory, and
    [_last_checkpoint]. *)
Record world := mkW {
  w_live : live;
  w_dir : fs pyval;
  w_last : option string }.

Definition with_state (w : world) (o : inst) : world :=
  mkW (mkLive (m_config (w_live w)) (m_sched (w_live w)) o) (w_dir w) (w_last w).

(** what the program does: [sm.state.name], [sm.state.name = v], [sm.step()],
    [sm.checkpoint(target_dir)] with a target outside the checkpoint directory *)
Inductive doing :=
| Read (name : string)
| Write (name : string) (v : pyval)
| StepNow
| Save.

(** what it gets *)
Inductive answer :=
| AValue (r : res pyval)
| ADone
| AStep (o : outcome).

Section Run.
Variable E : env.
Variable deser : string -> pyval -> inst -> res pyval.
Variable pickle_allowed : bool.
Variable S : settings.
(** the fields of the state class *)
Variable names : list string.

(** The state after hyperstate.py:194 [_typed_dump(self.state, ...)]: [asdict] reads the
    fields one after the other with [getattr] (serde.py:78-86); if one of them raises, those
    before it are loaded. *)
Inductive dumping (disk : string -> option pyval) (o : inst) : inst -> Prop :=
| dump_all o' : load_fields deser pickle_allowed disk names o = Ok o' -> dumping disk o o'
| dump_some first rest o' e :
    names = (first ++ rest)%list -> load_fields deser pickle_allowed disk first o = Ok o' ->
    load_fields deser pickle_allowed disk names o = Err e -> dumping disk o o'.

Definition files_of (dumped : res (inst * files pyval)) : res (files pyval) :=
  match dumped with Ok (_, l) => Ok l | Err e => Err e end.

(** One action.  [step] (hyperstate.py:124-143) dumps the state only if there is no such
    checkpoint yet.  A schedule that raises may leave any config behind (Access.v says which). *)
Inductive does (w : world) : doing -> answer -> world -> Prop :=
| do_read n r o ev :
    lazy_get deser pickle_allowed (disk_of S (w_dir w)) (m_state (w_live w)) n = (r, o, ev) ->
    does w (Read n) (AValue r) (with_state w o)
| do_write n v : does w (Write n v) ADone (with_state w (lazy_set (m_state (w_live w)) n v))
| do_unready e cfg :
    step_prepare E deser pickle_allowed S (w_dir w) names (w_live w) = Err e ->
    does w StepNow (AStep (Raised e)) (mkW (mkLive cfg (m_sched (w_live w)) (m_state (w_live w))) (w_dir w) (w_last w))
| do_step cross m k dumped ops out o :
    step_prepare E deser pickle_allowed S (w_dir w) names (w_live w) = Ok (m, k, dumped) ->
    step_ops cross (s_key S) (w_dir w) (w_last w) k (files_of dumped) ops out ->
    (if exists_in (w_dir w) (ckpt_name (s_key S) k) then o = m_state m else dumping (disk_of S (w_dir w)) (m_state m) o) ->
    does w StepNow (AStep out)
      (mkW (mkLive (m_config m) (m_sched m) o) (exec_all ops (w_dir w)) (match out with Done t => Some t | Raised _ => w_last w end))
| do_save a o :
    dumping (disk_of S (w_dir w)) (m_state (w_live w)) o -> does w Save a (with_state w o).

(** A sequence of actions; the program goes on after exceptions.  [ok] restricts what it does
    in which situation. *)
Inductive runs (ok : world -> doing -> Prop) : world -> list (doing * answer) -> world -> Prop :=
| run_none w : runs ok w [] w
| run_more w a r w1 l w2 : ok w a -> does w a r w1 -> runs ok w1 l w2 -> runs ok w ((a, r) :: l) w2.
End Run.
