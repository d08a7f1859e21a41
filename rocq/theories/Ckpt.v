(** Ckpt.v -- the checkpoint directory: finding the latest checkpoint, and the
    system calls [StateManager.step] makes on it. *)
From Coq Require Import Permutation.
From Verif Require Import Base.
Local Open Scope Z_scope.

(** ** directories *)
(** What [checkpoint_dir] contains: names with either a directory (its files, in
    listing order, each with its content) or something that is not a directory.
    The order of the list is the order in which [iterdir] lists the entries. *)
Section Dir.
Context {A : Type}.
Definition files := list (string * A).
Inductive entry :=
| EDir (l : files)
| EOther.
Definition fs := list (string * entry).

(** *** [int(text)] *)
(** Python's [int] on a string: surrounding whitespace is ignored, an optional sign,
    decimal digits with single underscores between digits; everything else raises
    ValueError ([None]).  Only ASCII digits and whitespace (non-ASCII decimal digits
    are accepted by Python as well; file names with those are not modelled). *)
Definition is_space (c : ascii) : bool :=
  let n := N_of_ascii c in ((9 <=? n) && (n <=? 13))%N || ((28 <=? n) && (n <=? 32))%N.
Definition digit_of (c : ascii) : option Z :=
  let n := N_of_ascii c in if ((48 <=? n) && (n <=? 57))%N then Some (Z.of_N (n - 48)) else None.
Fixpoint lstrip (l : list ascii) : list ascii :=
  match l with
  | [] => []
  | c :: r => if is_space c then lstrip r else l
  end.
Definition strip (l : list ascii) : list ascii := rev (lstrip (rev (lstrip l))).
Fixpoint int_digits (acc : Z) (after_digit : bool) (l : list ascii) : option Z :=
  match l with
  | [] => if after_digit then Some acc else None
  | c :: r =>
      match digit_of c with
      | Some d => int_digits (10 * acc + d) true r
      | None => if Ascii.eqb c "_" && after_digit then int_digits acc false r else None
      end
  end.
Definition py_int (s : string) : option Z :=
  match strip (list_ascii_of_string s) with
  | [] => None
  | c :: r =>
      if Ascii.eqb c "-" then option_map Z.opp (int_digits 0 false r)
      else if Ascii.eqb c "+" then int_digits 0 false r
      else int_digits 0 false (c :: r)
  end.

(** [name[-12:]] for names of at least twelve characters *)
Definition last12 (name : string) : string := substring (String.length name - 12) 12 name.

(** *** hyperstate.py:334-348 [find_latest_checkpoint]: the name of [latest_dir] *)
Definition is_dir (e : entry) : bool := match e with EDir _ => true | EOther => false end.
Fixpoint find_loop (latest : option (Z * string)) (l : fs) : option (Z * string) :=
  match l with
  | [] => latest
  | (name, e) :: r =>
      if is_dir e && Nat.leb 12 (String.length name) then
        match latest, py_int (last12 name) with
        | None, Some n => find_loop (Some (n, name)) r
        | Some (m, d), Some n => if m <? n then find_loop (Some (n, name)) r else find_loop latest r
        | _, None => find_loop latest r
        end
      else find_loop latest r
  end.
Definition find_latest (D : fs) : option string := option_map snd (find_loop None D).

(** hyperstate.py:113-122, setter of [checkpoint_dir]: the checkpoint a new manager
    resumes from.  ([value.mkdir] on an existing directory does nothing.) *)
Definition starts_with (p s : string) : bool := String.prefix p s.
Definition resume_point (D : fs) : option string :=
  match find_latest D with
  | Some name => if starts_with "latest" name then Some name else None
  | None => None
  end.

(** *** hyperstate.py:134-136: [f"latest-{key}{val:012}"] *)
Fixpoint zeros (n : nat) : string := match n with O => "" | S n' => String "0" (zeros n') end.
Definition format012 (n : Z) : string :=
  let digits := show_N (Z.abs_N n) in
  if n <? 0 then ("-" ++ zeros (11 - String.length digits) ++ digits)%string
  else (zeros (12 - String.length digits) ++ digits)%string.
Definition ckpt_name (key : string) (n : Z) : string := ("latest-" ++ key ++ format012 n)%string.

(** ** system calls on the directory *)
Inductive op :=
| Install (d : string) (l : files)     (* rename of a finished temporary directory to d *)
| Mkdir (d : string)                   (* os.makedirs(d) *)
| Put (d f : string) (c : A)           (* create or write file f of d; c is its content from now on *)
| Rename (d d' : string)               (* os.rename(d, d') inside the directory *)
| Unlink (d f : string)                (* remove file f of d *)
| Rmdir (d : string)                   (* remove the directory d *)
| Takeout (d : string).                (* rename of d to a place outside the directory *)

Definition dir_files (D : fs) (d : string) : files :=
  match aget d D with Some (EDir l) => l | _ => [] end.

Definition exec (o : op) (D : fs) : fs :=
  match o with
  | Install d l => aset d (EDir l) D
  | Mkdir d => aset d (EDir []) D
  | Put d f c => aset d (EDir (aset f c (dir_files D d))) D
  | Rename d d' => match aget d D with Some e => aset d' e (adel d D) | None => D end
  | Unlink d f => aset d (EDir (adel f (dir_files D d))) D
  | Rmdir d => adel d D
  | Takeout d => adel d D
  end.
Definition exec_all (l : list op) (D : fs) : fs := fold_left (fun D o => exec o D) l D.

(** ** hyperstate.py:124-143 [step], after the schedules were applied *)
(** [copytree] of a directory with the files [l] into the new directory [d]: the files
    in any order; each is created and written in any number of steps, whatever its
    content is in between. *)
Inductive copy_file (d f : string) (c : A) : list op -> Prop :=
| copy_last : copy_file d f c [Put d f c]
| copy_more c' r : copy_file d f c r -> copy_file d f c (Put d f c' :: r).
Inductive copy_files (d : string) : files -> list op -> Prop :=
| copy_none : copy_files d [] []
| copy_some f c l o r : copy_file d f c o -> copy_files d l r -> copy_files d ((f, c) :: l) (o ++ r)%list.

(** hyperstate.py:507-540 [atomic_move] of a temporary directory with the files [l] to
    [target]; [cross]: the temporary directory is on another file system (EXDEV).
    The name of the copy is [f"{dst}.{copy_id}.tmp"]; a uuid is fresh. *)
Inductive move_in (cross : bool) (D : fs) (target : string) (l : files) : list op -> Prop :=
| in_same : cross = false -> move_in cross D target l [Install target l]
| in_cross id l' o :
    cross = true ->
    aget (target ++ "." ++ id ++ ".tmp")%string D = None ->
    Permutation l l' ->
    copy_files (target ++ "." ++ id ++ ".tmp")%string l' o ->
    move_in cross D target l
      (Mkdir (target ++ "." ++ id ++ ".tmp")%string :: o
       ++ [Rename (target ++ "." ++ id ++ ".tmp")%string target])%list.

(** [shutil.move(last, tmpdir)] (line 140-141) of an existing directory: a rename, or a
    copy out of the directory (no effect here) followed by [rmtree], which removes the
    files in any order and then the directory *)
Inductive move_out (cross : bool) (D : fs) (d : string) : list op -> Prop :=
| out_same : cross = false -> move_out cross D d [Takeout d]
| out_cross names :
    cross = true -> Permutation (akeys (dir_files D d)) names ->
    move_out cross D d (map (Unlink d) names ++ [Rmdir d])%list.

(** How a call of [step] ends: normally, with [_last_checkpoint] set to the name of
    the checkpoint, or with an exception, which leaves [_last_checkpoint] alone. *)
Inductive outcome := Done (last : string) | Raised (e : exc).

Definition exists_in (D : fs) (d : string) : bool := amem d D.

(** lines 137-142.  [dumped]: what [self.checkpoint] would write (an exception of
    [_typed_dump] leaves the checkpoint directory as it is). *)
Inductive write_new (cross : bool) (D : fs) (target : string) (dumped : res files) : list op -> option exc -> Prop :=
| w_exists : exists_in D target = true -> write_new cross D target dumped [] None
| w_raises e : exists_in D target = false -> dumped = Err e -> write_new cross D target dumped [] (Some e)
| w_new l o : exists_in D target = false -> dumped = Ok l -> move_in cross D target l o ->
    write_new cross D target dumped o None.
Inductive drop_old (cross : bool) (D : fs) : option string -> list op -> option exc -> Prop :=
| d_none : drop_old cross D None [] None
| d_missing p : exists_in D p = false -> drop_old cross D (Some p) [] (Some FileNotFoundError)
| d_move p o : exists_in D p = true -> move_out cross D p o -> drop_old cross D (Some p) o None.

(** All system calls of one [step] call with the key value [n], in order. *)
Inductive step_ops (cross : bool) (key : string) (D : fs) (last : option string) (n : Z) (dumped : res files)
  : list op -> outcome -> Prop :=
| step_raise o e :
    write_new cross D (ckpt_name key n) dumped o (Some e) ->
    step_ops cross key D last n dumped o (Raised e)
| step_raise_old o o' e :
    write_new cross D (ckpt_name key n) dumped o None ->
    drop_old cross (exec_all o D) last o' (Some e) ->
    step_ops cross key D last n dumped (o ++ o')%list (Raised e)
| step_done o o' :
    write_new cross D (ckpt_name key n) dumped o None ->
    drop_old cross (exec_all o D) last o' None ->
    step_ops cross key D last n dumped (o ++ o')%list (Done (ckpt_name key n)).

(** ** life of a checkpoint directory *)
(** A manager is alive with its [_last_checkpoint]; it may finish a step (normally or
    with an exception), or die after any number of the system calls of a step; a new
    manager then starts on the directory.  The file systems involved may differ from
    call to call. *)
Inductive event :=
| Step (n : Z) (dumped : res files) (o : outcome)
| Crash (n : Z) (dumped : res files)
| Restart.
Inductive happens (key : string) (D : fs) (last : option string) : event -> fs -> option string -> Prop :=
| h_step cross n dumped ops o :
    step_ops cross key D last n dumped ops o ->
    happens key D last (Step n dumped o) (exec_all ops D)
      (match o with Done t => Some t | Raised _ => last end)
| h_crash cross n dumped ops o pre post :
    step_ops cross key D last n dumped ops o -> ops = (pre ++ post)%list ->
    happens key D last (Crash n dumped) (exec_all pre D) (resume_point (exec_all pre D))
| h_restart : happens key D last Restart D (resume_point D).
End Dir.
Arguments files : clear implicits.
Arguments entry : clear implicits.
Arguments fs : clear implicits.
Arguments op : clear implicits.
Arguments event : clear implicits.
