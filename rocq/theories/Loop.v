(** Loop.v -- hyperstate/hyperstate.py: a training loop on a [StateManager] with a checkpoint
    directory: user code on [sm.state], then [sm.step()], again and again; the process may die
    at any moment and is then started again. *)
From Verif Require Import Base Value Schema Rewrite Sched Types Asdict FromDict Manager Ckpt Lazy Session Run.

(** User code of one iteration: it reads and assigns attributes of the state; what it does may
    depend on what it has read.  (Sample.v and Ctx.v are about reading the config.) *)
Inductive code :=
| Finish
| GetAttr (name : string) (k : pyval -> code)
| SetAttr (name : string) (v : pyval) (k : code).

(** what happens, to the loop *)
Inductive happening :=
| Iterated           (* user code and [step] *)
| Killed             (* the process died in [step], and was started again *)
| Restarted.         (* the process died elsewhere (or raised), and was started again *)

Section Loop.
Variable E : env.
Variable deser : string -> pyval -> inst -> res pyval.
Variable pickle_allowed : bool.
Variable S : settings.
(** the fields of the state class *)
Variable names : list string.
(** the user code of an iteration; it may read the config *)
Variable body : pyval -> code.
(** what the directory is like when the job is started for the first time, what it is like at
    any time, and which key values [step] may be called with *)
Variable clear : fs pyval -> Prop.
Variable always : fs pyval -> Prop.
Variable fresh : fs pyval -> Z -> Prop.

(** User code on the state object (lazy.py:40-71 for reading; assignment is that of [object]).
    It assigns only declared fields, and Serializable ones only after loading them
    (otherwise the assignment is lost: C46). *)
Inductive acts (disk : string -> option pyval) : code -> inst -> inst -> Prop :=
| act_finish o : acts disk Finish o o
| act_get a k o v o1 ev o2 :
    lazy_get deser pickle_allowed disk o a = (Ok v, o1, ev) -> acts disk (k v) o1 o2 ->
    acts disk (GetAttr a k) o o2
| act_set a v k o o2 :
    In a names -> aget a (i_unloaded o) = None -> acts disk k (lazy_set o a v) o2 ->
    acts disk (SetAttr a v k) o o2.

(** the world when user code has changed the state to [o] and calls [step] *)
Definition at_step (w : world) (o : inst) : Prop :=
  acts (disk_of S (w_dir w)) (body (m_config (w_live w))) (m_state (w_live w)) o /\
  forall v z, aget (s_key S) (i_attrs o) = Some v -> as_int v = Some z -> fresh (w_dir w) z.

(** The process dies in [step] (hyperstate.py:124-143) after some of its system calls: the
    directory it leaves.  (Exceptions of [step] that end the process are a case of this.) *)
Inductive dies (w : world) (o : inst) : fs pyval -> Prop :=
| die cross m k dumped ops out pre post :
    step_prepare E deser pickle_allowed S (w_dir w) names (w_live (with_state w o)) = Ok (m, k, dumped) ->
    step_ops cross (s_key S) (w_dir w) (w_last w) k (files_of dumped) ops out ->
    ops = (pre ++ post)%list -> dies w o (exec_all pre (w_dir w)).

(** A job and all that happened to it so far, latest first; it is at the start of an iteration.
    A new process is a new manager (hyperstate.py:94-122). *)
Inductive job : list happening -> world -> Prop :=
| job_start D m :
    clear D -> always D -> manager_start E S D = Ok m -> job [] (mkW m D (resume_point D))
| job_iter tr w o t w' :
    job tr w -> at_step w o ->
    does E deser pickle_allowed S names (with_state w o) StepNow (AStep (Done t)) w' -> always (w_dir w') ->
    job (Iterated :: tr) w'
| job_kill tr w o D m :
    job tr w -> at_step w o -> dies w o D -> always D -> manager_start E S D = Ok m ->
    job (Killed :: tr) (mkW m D (resume_point D))
| job_again tr w m :
    job tr w -> manager_start E S (w_dir w) = Ok m ->
    job (Restarted :: tr) (mkW m (w_dir w) (resume_point (w_dir w))).
End Loop.
