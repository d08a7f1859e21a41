(** SpecShare.v -- vocabulary for processes that share a checkpoint directory (C73). *)
From Verif Require Import Base Ckpt SpecCkpt Share.
Local Open Scope Z_scope.

(** the keys of a process increase: its next key is greater than that of the checkpoint it
    wrote last, or started from *)
Definition increases (key : string) (last : option string) (n : Z) : Prop :=
  in_range n /\ forall z, in_range z -> last = Some (ckpt_name key z) -> z < n.
(** a checkpoint has at least one file, and file names differ *)
Definition some_files {A} (l : files A) : Prop := l <> [] /\ NoDup (map fst l).

(** a directory without checkpoints *)
Definition no_checkpoints {A} (key : string) (D : fs A) : Prop :=
  dir_ok D /\ (forall name z, ~ numbered D name z) /\ (forall n e, in_range n -> ~ In (ckpt_name key n, e) D).

(** the worlds that processes with increasing keys reach *)
Definition shared {A} (key : string) (D0 : fs A) : world A -> Prop := runs key (increases key) some_files D0.

(** [(n, l)] is the newest of the checkpoints *)
Definition newest {A} (log : list (Z * files A)) (n : Z) (l : files A) : Prop :=
  In (n, l) log /\ forall n' l', In (n', l') log -> n' <= n.

(** the processes go on from one world to another *)
Inductive leads {A} (key : string) (w : world A) : world A -> Prop :=
| leads_here : leads key w w
| leads_act w' i D p x : leads key w w' -> acts key (increases key) some_files (s_dir w') (s_proc w' i) D p x ->
    leads key w (mkS D (put_proc i p (s_proc w')) (noted x (s_log w'))).
