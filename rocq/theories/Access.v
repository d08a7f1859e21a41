(** Access.v -- hyperstate/hyperstate.py: the properties [config] and [state] of a
    [StateManager], and [step] without a checkpoint directory, as programs use them. *)
From Verif Require Import Base Value Schema Rewrite Sched Types Asdict FromDict Manager Ckpt Lazy Session.

(** hyperstate.py:218-224 [_apply_schedules] again, with what it leaves behind when it
    raises: the config as it is then, and the exception.  One entry of the dict: *)
Fixpoint entry_io (E : env) (state : pyval) (k : string) (t : stree) (config : pyval) : pyval * option exc :=
  match t with
  | SLeaf s =>
      match schedule_update E s config state with
      | Ok c => (c, None)
      | Err e => (config, Some e)
      end
  | SNode l =>
      match py_getattr config k with
      | Err e => (config, Some e)
      | Ok sub =>
          let r := (fix go (l : list (string * stree)) (c : pyval) : pyval * option exc :=
                      match l with
                      | [] => (c, None)
                      | (k', t') :: r =>
                          let ce := entry_io E state k' t' c in
                          match snd ce with None => go r (fst ce) | Some _ => ce end
                      end) l sub in
          (match py_setattr config k (fst r) with Ok c => c | Err _ => config end, snd r)
      end
  end.

Fixpoint schedules_io (E : env) (state : pyval) (l : list (string * stree)) (config : pyval) : pyval * option exc :=
  match l with
  | [] => (config, None)
  | (k, t) :: r =>
      let ce := entry_io E state k t config in
      match snd ce with None => schedules_io E state r (fst ce) | Some _ => ce end
  end.

(** the attributes of the manager, hyperstate.py:89-91: [_config] with [_schedules], and
    [_state] *)
Record mgr := mkMgr {
  g_config : option (pyval * list (string * stree));
  g_state : option inst }.
Definition new_mgr : mgr := mkMgr None None.

(** hyperstate.py:94-98 [config]; [D] is the checkpoint directory and [last] the checkpoint
    to resume from, see [manager_config] *)
Definition get_config (E : env) (S : settings) (D : fs pyval) (last : option string) (m : mgr)
  : res (pyval * list (string * stree)) * mgr :=
  match g_config m with
  | Some c => (Ok c, m)
  | None =>
      match manager_config E S D last with
      | Ok l => (Ok (l_value l, l_sched l), mkMgr (Some (l_value l, l_sched l)) (g_state m))
      | Err e => (Err e, m)
      end
  end.

(** hyperstate.py:100-107 [state], with [_load_state] (170-182), which reads the config
    first.  The state is stored before the schedules are applied. *)
Definition get_state (E : env) (S : settings) (D : fs pyval) (last : option string) (m : mgr) : res inst * mgr :=
  match g_state m with
  | Some o => (Ok o, m)
  | None =>
      match get_config E S D last m with
      | (Err e, m1) => (Err e, m1)
      | (Ok (cfg, sched), m1) =>
          match manager_state E S D last cfg with
          | Err e => (Err e, m1)
          | Ok l =>
              let o := inst_of l in
              let ce := schedules_io E (as_value o) sched cfg in
              (match snd ce with None => Ok o | Some e => Err e end,
               mkMgr (Some (fst ce, sched)) (Some o))
          end
      end
  end.

(** hyperstate.py:124-128 [step] when there is no checkpoint directory *)
Definition do_step (E : env) (S : settings) (D : fs pyval) (last : option string) (m : mgr) : res unit * mgr :=
  match get_state E S D last m with
  | (Err e, m1) => (Err e, m1)
  | (Ok o, m1) =>
      match get_config E S D last m1 with
      | (Err e, m2) => (Err e, m2)
      | (Ok (cfg, sched), m2) =>
          let ce := schedules_io E (as_value o) sched cfg in
          (match snd ce with None => Ok tt | Some e => Err e end, mkMgr (Some (fst ce, sched)) (g_state m2))
      end
  end.

(** what a program does with its manager: [sm.config], [sm.state], [sm.state.name = v],
    [sm.step()] *)
Inductive mop :=
| UseConfig
| UseState
| Assign (name : string) (v : pyval)
| Step.

(** what it gets *)
Inductive got :=
| GConfig (cfg : pyval)
| GState (o : inst)
| GDone
| GRaised (e : exc).

Definition perform (E : env) (S : settings) (D : fs pyval) (last : option string) (op : mop) (m : mgr) : got * mgr :=
  match op with
  | UseConfig =>
      match get_config E S D last m with
      | (Ok c, m') => (GConfig (fst c), m')
      | (Err e, m') => (GRaised e, m')
      end
  | UseState =>
      match get_state E S D last m with
      | (Ok o, m') => (GState o, m')
      | (Err e, m') => (GRaised e, m')
      end
  | Assign n v =>
      match get_state E S D last m with
      | (Ok o, m') => (GDone, mkMgr (g_config m') (Some (lazy_set o n v)))
      | (Err e, m') => (GRaised e, m')
      end
  | Step =>
      match do_step E S D last m with
      | (Ok _, m') => (GDone, m')
      | (Err e, m') => (GRaised e, m')
      end
  end.

(** a program that goes on after exceptions; the files may be others at each access *)
Fixpoint perform_all (E : env) (S : settings) (last : option string) (l : list (fs pyval * mop)) (m : mgr) : list got * mgr :=
  match l with
  | [] => ([], m)
  | (D, op) :: r =>
      let gm := perform E S D last op m in
      let rest := perform_all E S last r (snd gm) in
      (fst gm :: fst rest, snd rest)
  end.
