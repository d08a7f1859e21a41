(** SpecCkpt.v -- what the checkpoint directory should look like. *)
From Coq Require Import Permutation.
From Verif Require Import Base Ckpt.
Local Open Scope Z_scope.

(** ** the text of an integer *)
(** decimal digits, possibly with single underscores between digits *)
Inductive numeral : list ascii -> Z -> Prop :=
| num_digit d : (d < 10)%nat -> numeral [ascii_of_nat (48 + d)] (Z.of_nat d)
| num_more l n d : numeral l n -> (d < 10)%nat ->
    numeral (l ++ [ascii_of_nat (48 + d)]) (10 * n + Z.of_nat d)
| num_group l n d : numeral l n -> (d < 10)%nat ->
    numeral (l ++ ["_"%char; ascii_of_nat (48 + d)]) (10 * n + Z.of_nat d).

Definition blank (c : ascii) : Prop := In c (map ascii_of_nat [9; 10; 11; 12; 13; 28; 29; 30; 31; 32]%nat).

(** [s] is the text of the integer [z]: blanks, a sign, a numeral, blanks *)
Definition int_text (s : string) (z : Z) : Prop :=
  exists before after l n,
    Forall blank before /\ Forall blank after /\ numeral l n /\
    ((list_ascii_of_string s = before ++ l ++ after /\ z = n) \/
     (list_ascii_of_string s = before ++ "+"%char :: l ++ after /\ z = n) \/
     (list_ascii_of_string s = before ++ "-"%char :: l ++ after /\ z = - n))%list.

(** [name] is the name of a subdirectory ending in the 12-character integer [z] *)
Definition numbered {A} (D : fs A) (name : string) (z : Z) : Prop :=
  (exists l, In (name, EDir l) D) /\
  exists front text, name = (front ++ text)%string /\ String.length text = 12%nat /\ int_text text z.

(** names are unique in a directory *)
Definition dir_ok {A} (D : fs A) : Prop := NoDup (map fst D).

(** the key values whose checkpoint names are twelve characters of number *)
Definition in_range (n : Z) : Prop := - 10 ^ 11 < n < 10 ^ 12.

(** [name] is a directory with exactly the files [l] *)
Definition complete {A} (D : fs A) (name : string) (l : files A) : Prop :=
  exists l', In (name, EDir l') D /\ Permutation l' l.

(** ** histories *)
(** The checkpoint one expects to find: that of the last completed step, or, for a
    crash in the middle of a step, that one or the one being written.  A step raising an
    exception leaves the previous one. *)
Inductive expected {A} : list (event A) -> option (Z * files A) -> Prop :=
| exp_start : expected [] None
| exp_done evs c n l t : expected evs c -> expected (Step n (Ok l) (Done t) :: evs) (Some (n, l))
| exp_raise evs c n e : expected evs c -> expected (Step n (Err e) (Raised e) :: evs) c
| exp_crash_old evs c n dumped : expected evs c -> expected (Crash n dumped :: evs) c
| exp_crash_new evs c n l : expected evs c -> expected (Crash n (Ok l) :: evs) (Some (n, l))
| exp_restart evs c : expected evs c -> expected (Restart :: evs) c.

(** A history of a directory, latest event first: it starts without a checkpoint of
    ours, and at each attempted step the key is in range and greater than the numbers of
    all subdirectories, i.e. the key increases (and no plain file has the name of the new
    checkpoint). *)
Definition key_of {A} (ev : event A) : option (Z * res (files A)) :=
  match ev with
  | Step n d _ => Some (n, d)
  | Crash n d => Some (n, d)
  | Restart => None
  end.
Definition increasing {A} (key : string) (D : fs A) (ev : event A) : Prop :=
  forall n dumped, key_of ev = Some (n, dumped) ->
    in_range n /\ (forall name z, numbered D name z -> z < n) /\ (forall e, ~ In (ckpt_name key n, e) D) /\
    (forall l, dumped = Ok l -> NoDup (map fst l)).
Inductive history {A} (key : string) : list (event A) -> fs A -> option string -> Prop :=
| hist_start D : dir_ok D -> (forall name z, numbered D name z -> String.prefix "latest" name = false) ->
    history key [] D None
| hist_event evs D last ev D' last' :
    history key evs D last -> happens key D last ev D' last' -> increasing key D ev ->
    history key (ev :: evs) D' last'.
