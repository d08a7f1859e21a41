(** Share.v -- several processes with one checkpoint directory. *)
From Coq Require Import Permutation.
From Verif Require Import Base Ckpt.
Local Open Scope Z_scope.

(** ** What a process is doing
    The parts of [StateManager.step] (hyperstate.py:124-143) between two system calls on
    the checkpoint directory: *)
Section Share.
Context {A : Type}.
Inductive phase :=
| Idle                                                    (* not inside step *)
| Listing (best : option (Z * string)) (names : list string)   (* line 340, [latest] and [latest_dir] and the remaining names *)
| Writing (n : Z) (l : files A)                           (* line 137 found nothing; [l] is written to the temporary directory *)
| Copying (n : Z) (l : files A) (tmp : string) (ops : list (op A))   (* line 534, [ops] are the remaining calls *)
| Dropping (n : Z)                                        (* line 139: the checkpoint for [n] is there *)
| Removing (n : Z) (names : list string).                 (* line 141, [rmtree] after a copy: the remaining files *)
(** with its [_last_checkpoint] *)
Record proc := mkP { p_last : option string; p_phase : phase }.

(** [os.rename] of a directory to [d] succeeds: nothing is there, or an empty directory *)
Definition free (D : fs A) (d : string) : Prop := aget d D = None \/ aget d D = Some (EDir []).

(** hyperstate.py:341-347, one name of the listing: is it a directory now? *)
Definition look (D : fs A) (best : option (Z * string)) (name : string) : option (Z * string) :=
  match aget name D with Some e => find_loop best [(name, e)] | None => best end.
(** hyperstate.py:118-119 *)
Definition resume_of (best : option (Z * string)) : option string :=
  match best with Some (_, name) => if starts_with "latest" name then Some name else None | None => None end.

(** the condition on keys: greater than that of the last checkpoint *)
Variable key : string.
Variable follows : option string -> Z -> Prop.
(** the files that [checkpoint] writes *)
Variable dumps : files A -> Prop.

(** One system call of a process on the directory, or one of its failures, or its end and the
    start of another one.  The last component is a checkpoint that became visible.  Every call
    may fail, for whatever reason; [step] then raises and leaves [_last_checkpoint] as it is.
    Simplifications: [iterdir] reads all names at once ([os.listdir]); a uuid is fresh. *)
Inductive acts (D : fs A) : proc -> fs A -> proc -> option (Z * files A) -> Prop :=
(* line 137: [checkpoint_dir.exists()] *)
| a_there last n : follows last n -> exists_in D (ckpt_name key n) = true ->
    acts D (mkP last Idle) D (mkP last (Dropping n)) None
| a_absent last n l : follows last n -> dumps l -> exists_in D (ckpt_name key n) = false ->
    acts D (mkP last Idle) D (mkP last (Writing n l)) None
(* line 523 *)
| a_install last n l : free D (ckpt_name key n) ->
    acts D (mkP last (Writing n l)) (exec (Install (ckpt_name key n) l) D) (mkP last (Dropping n)) (Some (n, l))
(* line 533-534, another file system *)
| a_mkdir last n l l' id ops :
    aget (ckpt_name key n ++ "." ++ id ++ ".tmp")%string D = None -> Permutation l l' -> copy_files (ckpt_name key n ++ "." ++ id ++ ".tmp")%string l' ops ->
    acts D (mkP last (Writing n l)) (exec (Mkdir (ckpt_name key n ++ "." ++ id ++ ".tmp")%string) D)
      (mkP last (Copying n l (ckpt_name key n ++ "." ++ id ++ ".tmp")%string ops)) None
| a_copy last n l tmp o ops :
    acts D (mkP last (Copying n l tmp (o :: ops))) (exec o D) (mkP last (Copying n l tmp ops)) None
(* line 538 *)
| a_rename last n l tmp : free D (ckpt_name key n) ->
    acts D (mkP last (Copying n l tmp [])) (exec (Rename tmp (ckpt_name key n)) D) (mkP last (Dropping n)) (Some (n, l))
(* line 139-142 *)
| a_first n : acts D (mkP None (Dropping n)) D (mkP (Some (ckpt_name key n)) Idle) None
| a_takeout p n : exists_in D p = true ->
    acts D (mkP (Some p) (Dropping n)) (exec (Takeout p) D) (mkP (Some (ckpt_name key n)) Idle) None
(* line 141, another file system: the files were copied *)
| a_copied p n names : exists_in D p = true ->
    acts D (mkP (Some p) (Dropping n)) D (mkP (Some p) (Removing n names)) None
| a_unlink p n f names : amem f (dir_files D p) = true ->
    acts D (mkP (Some p) (Removing n (f :: names))) (exec (Unlink p f) D) (mkP (Some p) (Removing n names)) None
| a_rmdir p n : aget p D = Some (EDir []) ->
    acts D (mkP (Some p) (Removing n [])) (exec (Rmdir p) D) (mkP (Some (ckpt_name key n)) Idle) None
| a_raise last ph : acts D (mkP last ph) D (mkP last Idle) None
(* hyperstate.py:113-122, 340: another manager *)
| a_start p names : Permutation names (akeys D) -> acts D p D (mkP None (Listing None names)) None
| a_look best name names : acts D (mkP None (Listing best (name :: names))) D (mkP None (Listing (look D best name) names)) None
| a_listed best : acts D (mkP None (Listing best [])) D (mkP (resume_of best) Idle) None.

(** a process that looks at all names while nobody else acts resumes from [resume_point]
    (Ckpt.v), see [listed_alone] in ShareFacts.v *)

(** ** All processes: the directory, the processes, and the checkpoints that became visible so
    far, latest first *)
Record world := mkS { s_dir : fs A; s_proc : nat -> proc; s_log : list (Z * files A) }.
Definition put_proc (i : nat) (p : proc) (f : nat -> proc) : nat -> proc := fun j => if Nat.eq_dec j i then p else f j.
Definition noted (x : option (Z * files A)) (log : list (Z * files A)) : list (Z * files A) := match x with Some c => c :: log | None => log end.

Inductive runs (D0 : fs A) : world -> Prop :=
| runs_start : runs D0 (mkS D0 (fun _ => mkP (resume_point D0) Idle) [])
| runs_act w i D p x : runs D0 w -> acts (s_dir w) (s_proc w i) D p x ->
    runs D0 (mkS D (put_proc i p (s_proc w)) (noted x (s_log w))).
End Share.
Arguments phase : clear implicits.
Arguments proc : clear implicits.
Arguments world : clear implicits.
