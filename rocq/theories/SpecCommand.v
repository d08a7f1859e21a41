(** SpecCommand.v -- reading what a command did (C52, C57). *)
From Verif Require Import Base Value Schema Rewrite Sched Types Asdict FromDict Command.

(** the calls of the decorated function, in order *)
Fixpoint calls {X} (l : list (event X)) : list X :=
  match l with
  | [] => []
  | ERun x :: r => x :: calls r
  | _ :: r => calls r
  end.

(** the error messages, in order *)
Fixpoint errors {X} (l : list (event X)) : list message :=
  match l with
  | [] => []
  | EError m :: r => m :: errors r
  | _ :: r => errors r
  end.

(** the fields for which similar ones were listed *)
Fixpoint similar_for {X} (l : list (event X)) : list string :=
  match l with
  | [] => []
  | ESimilar k :: r => k :: similar_for r
  | _ :: r => similar_for r
  end.

(** an option is given if it is present and not the empty string *)
Definition given (o : option string) (s : string) : Prop := o = Some s /\ s <> "".

(** mistakes in a config: unknown override fields, unknown file fields, values of the
    wrong type, values that are not allowed *)
Inductive config_error : exc -> Prop :=
| ce_field k : config_error (FieldNotFound k)
| ce_fields ks : config_error (FieldsNotFound ks)
| ce_unknown c f : config_error (UnknownField c f)
| ce_type : config_error DeserializeTypeError
| ce_value : config_error DeserializeValueError.

(** a class [help] and overrides can handle *)
Definition describable (t : ty) : Prop := is_dataclass_ty t = true /\ exists s, materialize_type t = Ok s.

Definition last_name (key : string) : string := last (split_on "." key) "".

(** the command line asks for a run of the function, and says so correctly *)
Definition plain_run (args : cli) : Prop :=
  a_hps_info args = None /\ forall o, In o (a_hyperparams args) -> has_char "=" o = true.
Definition go_ahead (construct : option string -> res unit) (args : cli) : Prop :=
  a_hps_info args = None /\ ~ (a_config args <> None /\ a_resume_from args <> None) /\
  (forall o, In o (a_hyperparams args) -> has_char "=" o = true) /\ construct (a_checkpoint_dir args) = Ok tt.

(** the config the command line describes: [load] of the file, if any, with the overrides *)
Definition loaded_config (E : env) (read : string -> res (pyval * string)) (cls : ty) (args : cli) : res pyval :=
  match a_config args with
  | None => hs_load E cls None (Some (a_hyperparams args))
  | Some p => let* file := read p in hs_load E cls (Some file) (Some (a_hyperparams args))
  end.

(** a manager made from the arguments of the command line *)
Definition made_from (cfg_cls state_cls : ty) (key : string) (args : cli) (x : manager_args) : Prop :=
  g_config_cls x = cfg_cls /\ g_state_cls x = state_cls /\ g_checkpoint_key x = key /\
  g_overrides x = a_hyperparams args /\ g_checkpoint_dir x = a_checkpoint_dir args /\
  (forall s, given (a_config args) s -> g_init_path x = Some s) /\
  ((forall s, ~ given (a_config args) s) -> g_init_path x = a_resume_from args).
