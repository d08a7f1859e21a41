(** Command.v -- hyperstate/command.py: what a command prints, whether it runs the
    decorated function and with what, and how it ends. *)
From Verif Require Import Base Value Schema Rewrite Sched Types Asdict FromDict Checker HelpM.

(** command.py:18-56 [_parse_args]: the namespace argparse returns.  argparse itself is not
    modelled. *)
Record cli := mkCli {
  a_config : option string;
  a_hps_info : option string;
  a_verbose : bool;
  a_hyperparams : list string;
  a_checkpoint_dir : option string;   (* stateful only *)
  a_resume_from : option string       (* stateful only *) }.

(** the text after "error: " *)
Inductive message : Type :=
| MBothPaths                       (* command.py:103 *)
| MInvalidOverride (o : string)    (* command.py:135, with the heading of 138 *)
| MException (e : exc)             (* command.py:145, 152, 162 *).

(** what happens, in order; [X] is what the decorated function is called with *)
Inductive event (X : Type) : Type :=
| EError (m : message)
| ESimilar (field : string)        (* the headings of command.py:148, 154 *)
| EHelp (l : list line)
| ETraceback
| ERun (x : X).
Arguments EError {X} m. Arguments ESimilar {X} field. Arguments EHelp {X} l. Arguments ETraceback {X}. Arguments ERun {X} x.

(** how it ends; [Exited] is [sys.exit] *)
Inductive outcome (A : Type) : Type :=
| Returned (a : A)
| Raised (e : exc)
| Exited (code : Z).
Arguments Returned {A} a. Arguments Raised {A} e. Arguments Exited {A} code.

Definition io (X A : Type) : Type := list (event X) * outcome A.

Definition io_bind {X A B} (m : io X A) (k : A -> io X B) : io X B :=
  match snd m with
  | Returned a => ((fst m ++ fst (k a))%list, snd (k a))
  | Raised e => (fst m, Raised e)
  | Exited c => (fst m, Exited c)
  end.
Notation "m ;; k" := (io_bind m (fun _ => k)) (at level 100, right associativity).

Definition say {X} (e : event X) : io X unit := ([e], Returned tt).
Definition skip {X} : io X unit := ([], Returned tt).
Definition exit {X A} (code : Z) : io X A := ([], Exited code).
Definition raise {X A} (e : exc) : io X A := ([], Raised e).
Definition lift {X A} (r : res A) : io X A := match r with Ok a => ([], Returned a) | Err e => raise e end.

(** [hyperstate.help(cls, query)] *)
Definition show_help {X} (cls : ty) (query : string) : io X unit :=
  io_bind (lift (help cls query)) (fun l => say (EHelp l)).

(** [try: m  except Exception as e: handler(e); raise] *)
Definition reporting {X A} (m : io X A) (handler : exc -> io X unit) : io X A :=
  match snd m with
  | Raised e => (fst m, Returned tt) ;; handler e ;; raise e
  | _ => m
  end.

(** command.py:130-140 [_check_overrides] *)
Fixpoint check_overrides {X} (cls : ty) (overrides : list string) : io X unit :=
  match overrides with
  | [] => skip
  | o :: r =>
      if negb (str_contains "=" o)
      then say (EError (MInvalidOverride o)) ;; show_help cls o ;; exit 0
      else check_overrides cls r
  end.

(** [error.field_name]: the last name of the path (hyperstate.py:379) *)
Definition field_name (key : string) : string := last (split_on "." key) "".

(** command.py:143-167 [_print_config_exception].  [e.cls] is the class the overrides were
    applied to (hyperstate.py:379), the config class. *)
Definition print_config_exception {X} (cls : ty) (e : exc) (verbose : bool) : io X unit :=
  let trace := if verbose then say ETraceback else skip in
  match e with
  | FieldsNotFound ks =>
      say (EError (MException e)) ;;
      fold_right (fun k m => say (ESimilar (field_name k)) ;; show_help cls (field_name k) ;; m) skip ks ;;
      exit 1
  | FieldNotFound k =>
      say (EError (MException e)) ;; say (ESimilar (field_name k)) ;; show_help cls (field_name k) ;; trace ;; exit 1
  | DeserializeTypeError | UnknownField _ _ | DeserializeValueError =>
      say (EError (MException e)) ;; trace ;; exit 1
  | _ => skip
  end.

(** calling the decorated function *)
Definition call {X A} (f : X -> outcome A) (x : X) : io X A := ([ERun x], f x).

(** command.py:59-82 [command].  [read path]: [pyron.load] and the directory of the file. *)
Definition command {A} (E : env) (read : string -> res (pyval * string)) (cls : ty)
    (f : pyval -> outcome A) (args : cli) : io pyval A :=
  match a_hps_info args with
  | Some q => show_help cls q ;; exit 0
  | None =>
      check_overrides cls (a_hyperparams args) ;;
      io_bind
        (reporting
           (lift (match a_config args with
                  | None => hs_load E cls None (Some (a_hyperparams args))
                  | Some p => let* file := read p in hs_load E cls (Some file) (Some (a_hyperparams args))
                  end))
           (fun e => print_config_exception cls e (a_verbose args)))
        (call f)
  end.

(** the arguments of [StateManager(...)], command.py:109-117 *)
Record manager_args := mkMA {
  g_config_cls : ty;
  g_state_cls : ty;
  g_init_path : option string;
  g_checkpoint_dir : option string;
  g_overrides : list string;
  g_checkpoint_key : string }.

(** [a or b] on optional strings: the empty string is false *)
Definition py_or (a b : option string) : option string :=
  match a with Some EmptyString | None => b | Some s => Some s end.

(** command.py:85-127 [stateful_command].  [construct dir]: what the constructor does to
    the checkpoint directory (hyperstate.py:109-122, mkdir may fail); configs and states
    are loaded later, on first use by [f]. *)
Definition stateful_command {A} (construct : option string -> res unit) (cfg_cls state_cls : ty)
    (checkpoint_key : string) (f : manager_args -> outcome A) (args : cli) : io manager_args A :=
  match a_hps_info args with
  | Some q => show_help cfg_cls q ;; exit 0
  | None =>
      match a_config args, a_resume_from args with
      | Some _, Some _ => say (EError MBothPaths) ;; exit 1
      | _, _ =>
          check_overrides cfg_cls (a_hyperparams args) ;;
          lift (construct (a_checkpoint_dir args)) ;;
          reporting
            (call f (mkMA cfg_cls state_cls (py_or (a_config args) (a_resume_from args))
                       (a_checkpoint_dir args) (a_hyperparams args) checkpoint_key))
            (fun e => print_config_exception cfg_cls e (a_verbose args))
      end
  end.
