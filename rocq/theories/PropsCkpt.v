(** PropsCkpt.v -- the checkpoint directory: C39-C42. *)
From Coq Require Import Permutation.
From Verif Require Import Base Ckpt SpecCkpt AFacts CkptFacts CrashFacts.
Local Open Scope Z_scope.

(** ** C39 *)
(** [find_latest_checkpoint] returns a subdirectory with the greatest number, and
    nothing only if there is none with a number. *)
Theorem C39_finds_greatest : forall (A : Type) (D : fs A),
  (forall name, find_latest D = Some name ->
     exists z, numbered D name z /\ forall name' z', numbered D name' z' -> z' <= z) /\
  (find_latest D = None <-> forall name z, ~ numbered D name z).
Proof. intros A D. split; [exact (find_latest_some D)|exact (find_latest_none D)]. Qed.
Print Assumptions C39_finds_greatest.

(** The number found does not depend on the listing order, nor does the directory as
    long as no two subdirectories have the same number.  Missing: directories with the
    same number (false, below). *)
Theorem C39_order_partial : forall (A : Type) (D D' : fs A), Permutation D D' ->
  (forall n n' z, numbered D n z -> numbered D n' z -> n = n') -> find_latest D' = find_latest D.
Proof. exact @find_latest_order. Qed.
Print Assumptions C39_order_partial.

Theorem C39_number_any_order : forall (A : Type) (D D' : fs A) name name' z z', Permutation D D' ->
  find_latest D = Some name -> find_latest D' = Some name' -> numbered D name z -> numbered D' name' z' -> z = z'.
Proof. exact @find_number_order. Qed.
Print Assumptions C39_number_any_order.

Theorem C39_order_refuted : exists (D D' : fs unit), Permutation D D' /\ dir_ok D /\ find_latest D <> find_latest D'.
Proof.
  exists [("a-000000000007", EDir []); ("b-000000000007", EDir [])]%string,
         [("b-000000000007", EDir []); ("a-000000000007", EDir [])]%string.
  split; [apply perm_swap|]. split; [|vm_compute; discriminate].
  repeat constructor; simpl; intuition discriminate.
Qed.
Print Assumptions C39_order_refuted.

(** a directory with everything in it: a number with sign and underscores, a file, a
    temporary copy, a name that is too short and one that is not a number *)
Definition ex_dir : fs unit :=
  [("latest-step000000000041", EDir []); ("notes", EOther); ("run-    +1_000_00 ", EDir []);
   ("latest-step000000009999", EOther); ("latest-step000000000043.0d3a.tmp", EDir []);
   ("12345", EDir []); ("latest-step000000000042", EDir [])]%string.
Example C39_ex : find_latest ex_dir = Some "run-    +1_000_00 "%string /\
  numbered ex_dir "run-    +1_000_00 " 100000 /\ numbered ex_dir "latest-step000000000042" 42 /\
  (forall n n' z, numbered ex_dir n z -> numbered ex_dir n' z -> n = n').
Proof.
  split; [reflexivity|]. split; [|split].
  - apply numbered_iff. split; [exists []; simpl; auto|reflexivity].
  - apply numbered_iff. split; [exists []; simpl; auto 10|reflexivity].
  - intros n n' z H H'. apply numbered_iff in H, H'. destruct H as [(l & H) E], H' as [(l' & H') E'].
    simpl in H, H'. repeat destruct H as [H|H]; try discriminate H; try contradiction; injection H as <- <-;
    repeat destruct H' as [H'|H']; try discriminate H'; try contradiction; injection H' as <- <-;
    try reflexivity; vm_compute in E, E'; congruence.
Qed.

(** ** C40 *)
(** A checkpoint written for [n] is recognised with the number [n] whenever
    -10^11 < n < 10^12.  Missing: all other [n] (false, below). *)
Theorem C40_recognised_partial : forall (A : Type) (D : fs A) key n l, in_range n ->
  In (ckpt_name key n, EDir l) D -> numbered D (ckpt_name key n) n.
Proof. exact @ckpt_numbered. Qed.
Print Assumptions C40_recognised_partial.

(** Beyond that range only the last twelve digits count: never [n]. *)
Theorem C40_long_numbers_misread : forall (A : Type) (D : fs A) key n l, ~ in_range n ->
  In (ckpt_name key n, EDir l) D ->
  numbered D (ckpt_name key n) (Z.abs n mod 10 ^ 12) /\ ~ numbered D (ckpt_name key n) n.
Proof. exact @ckpt_misread. Qed.
Print Assumptions C40_long_numbers_misread.

Theorem C40_long_numbers_refuted : exists n, forall (A : Type) key (l : files A),
  ~ numbered [(ckpt_name key n, EDir l)] (ckpt_name key n) n.
Proof.
  exists (10 ^ 12). intros A key l. apply (ckpt_misread _ key (10 ^ 12) l); [intros [_ H]; lia|now left].
Qed.
Print Assumptions C40_long_numbers_refuted.

Example C40_ex :
  ckpt_name "step" 42 = "latest-step000000000042"%string /\ in_range 42 /\
  ckpt_name "step" (-7) = "latest-step-00000000007"%string /\ in_range (-7) /\
  ~ in_range (10 ^ 12 + 5) /\
  find_latest [(ckpt_name "step" 41, EDir [("state.ron", 0)]); (ckpt_name "step" (10 ^ 12 + 5), EDir [("state.ron", 1)])]%string
    = Some (ckpt_name "step" 41).
Proof. unfold in_range. repeat split; try reflexivity; try lia. Qed.

(** ** C41 *)
(** Whatever the history of steps, crashes at any system call and restarts, as long as
    the key increases: a new manager finds a complete checkpoint, that of the last
    completed step or the one being written when the process died, and a living manager
    knows it.  Missing: steps whose key is not greater than the numbers in the
    directory (false, below). *)
Theorem C41_crash_safe_partial : forall (A : Type) key (evs : list (event A)) D last, history key evs D last ->
  last = resume_point D /\ exists cur, expected evs cur /\
  match cur with
  | None => resume_point D = None
  | Some (n, l) => resume_point D = Some (ckpt_name key n) /\ find_latest D = Some (ckpt_name key n) /\
                   complete D (ckpt_name key n) l
  end.
Proof. exact @history_finds. Qed.
Print Assumptions C41_crash_safe_partial.

(** in particular, once a step has completed there is never no checkpoint *)
Theorem C41_never_none_partial : forall (A : Type) key (evs : list (event A)) D last n l t,
  history key evs D last -> In (Step n (Ok l) (Done t)) evs ->
  exists n' l', resume_point D = Some (ckpt_name key n') /\ complete D (ckpt_name key n') l' /\
    exists ev, In ev evs /\ key_of ev = Some (n', Ok l').
Proof. exact @history_never_none. Qed.
Print Assumptions C41_never_none_partial.

(** a directory with an unrelated checkpoint copy; a step, then a crash during the next
    one across file systems, in the middle of removing the old checkpoint *)
Definition files_a : files Z := [("config.ron", 1); ("state.ron", 2)]%string.
Definition files_b : files Z := [("config.ron", 1); ("state.ron", 3)]%string.
Definition copy_b : string := "latest-step000000000008.77.tmp".
Definition ops_b : list (op Z) :=
  [Mkdir copy_b; Put copy_b "state.ron" 0; Put copy_b "state.ron" 3; Put copy_b "config.ron" 1;
   Rename copy_b "latest-step000000000008"; Unlink "latest-step000000000007" "config.ron";
   Unlink "latest-step000000000007" "state.ron"; Rmdir "latest-step000000000007"]%string.
Definition dir_0 : fs Z := [("backup-000000000003", EDir files_a); ("log.txt", EOther)]%string.
Definition dir_7 : fs Z := exec_all [Install "latest-step000000000007" files_a] dir_0.

Lemma ex_step_7 : happens "step" dir_0 None (Step 7 (Ok files_a) (Done "latest-step000000000007")) dir_7
  (Some "latest-step000000000007"%string).
Proof.
  apply (h_step "step" dir_0 None false 7 (Ok files_a) [Install "latest-step000000000007" files_a] (Done "latest-step000000000007"%string)).
  apply (step_done false "step" dir_0 None 7 (Ok files_a) [Install "latest-step000000000007" files_a] []).
  - eapply w_new; [reflexivity|reflexivity|]. now apply in_same.
  - constructor.
Qed.
Lemma ex_crash_8 : step_ops true "step" dir_7 (Some "latest-step000000000007"%string) 8 (Ok files_b) ops_b
  (Done "latest-step000000000008"%string).
Proof.
  apply (step_done true "step" dir_7 (Some "latest-step000000000007"%string) 8 (Ok files_b) (firstn 5 ops_b) (skipn 5 ops_b)).
  - eapply w_new; [reflexivity|reflexivity|].
    apply (in_cross true dir_7 "latest-step000000000008" files_b "77" (rev files_b)
      [Put copy_b "state.ron" 0; Put copy_b "state.ron" 3; Put copy_b "config.ron" 1]%string); try reflexivity.
    + apply Permutation_rev.
    + apply (copy_some copy_b "state.ron" 3 [("config.ron", 1)]%string [Put copy_b "state.ron" 0; Put copy_b "state.ron" 3]%string).
      * apply copy_more, copy_last.
      * apply (copy_some copy_b "config.ron" 1 [] [Put copy_b "config.ron" 1]%string []); [apply copy_last|constructor].
  - apply d_move; [reflexivity|]. apply (out_cross true _ _ ["config.ron"; "state.ron"]%string); reflexivity.
Qed.

Definition dir_8 : fs Z := exec_all (firstn 6 ops_b) dir_7.
Example C41_ex : history "step" [Crash 8 (Ok files_b); Step 7 (Ok files_a) (Done "latest-step000000000007"%string)]
    dir_8 (Some "latest-step000000000008"%string) /\
  aget "latest-step000000000007" dir_8 = Some (EDir [("state.ron", 2)]%string) /\
  resume_point dir_8 = Some "latest-step000000000008"%string.
Proof.
  split; [|split; reflexivity].
  assert (Num : forall (D : fs Z) name z, numbered D name z ->
            exists l, In (name, EDir l) D /\ num name = Some z).
  { intros D name z H. apply numbered_iff in H. destruct H as [(l & H) E]. eauto. }
  apply (hist_event "step" [Step 7 (Ok files_a) (Done "latest-step000000000007"%string)] dir_7 (Some "latest-step000000000007"%string)).
  - apply (hist_event "step" [] dir_0 None).
    + apply hist_start.
      * repeat constructor; simpl; intuition discriminate.
      * intros name z H. destruct (Num _ _ _ H) as (l & [E|[E|[]]] & _); [injection E as <- <-; reflexivity|discriminate].
    + exact ex_step_7.
    + intros n dumped E. injection E as <- <-. split; [split; reflexivity|]. split; [|split].
      * intros name z H. destruct (Num _ _ _ H) as (l & [E|[E|[]]] & E'); [injection E as <- <-|discriminate].
        vm_compute in E'. injection E' as <-. reflexivity.
      * intros e [E|[E|[]]]; discriminate.
      * intros l E. injection E as <-. repeat constructor; simpl; intuition discriminate.
  - apply (h_crash "step" dir_7 _ true 8 (Ok files_b) ops_b _ (firstn 6 ops_b) (skipn 6 ops_b) ex_crash_8 eq_refl).
  - intros n dumped E. injection E as <- <-. split; [split; reflexivity|]. split; [|split].
    + intros name z H. destruct (Num _ _ _ H) as (l & [E|[E|[E|[]]]] & E'); [|discriminate|]; injection E as <- <-;
      vm_compute in E'; injection E' as <-; reflexivity.
    + intros e [E|[E|[E|[]]]]; discriminate.
    + intros l E. injection E as <-. repeat constructor; simpl; intuition discriminate.
Qed.

(** A step whose key is smaller than the current checkpoint's, across file systems: if
    the process dies while the old checkpoint is removed, the new manager resumes from
    a partial one, although a complete new one exists. *)
Theorem C41_smaller_key_refuted : exists (D D' : fs Z) old new p,
  dir_ok D /\ resume_point D = Some p /\ complete D p old /\
  happens "step" D (Some p) (Crash 5 (Ok new)) D' (Some p) /\
  resume_point D' = Some p /\ ~ complete D' p old /\ ~ complete D' p new /\
  complete D' (ckpt_name "step" 5) new.
Proof.
  exists dir_7, [("backup-000000000003", EDir files_a); ("log.txt", EOther);
                 ("latest-step000000000007", EDir [("state.ron", 2)]);
                 ("latest-step000000000005", EDir files_b)]%string, files_a, files_b, "latest-step000000000007"%string.
  split; [|split; [|split; [|split; [|split; [|split; [|split]]]]]].
  - repeat constructor; simpl; intuition discriminate.
  - reflexivity.
  - exists files_a. split; [simpl; auto|reflexivity].
  - set (copy := "latest-step000000000005.1.tmp"%string).
    set (w := [Mkdir copy; Put copy "config.ron" 1; Put copy "state.ron" 3; Rename copy "latest-step000000000005"]%string).
    set (o := [Unlink "latest-step000000000007" "config.ron"; Unlink "latest-step000000000007" "state.ron"; Rmdir "latest-step000000000007"]%string : list (op Z)).
    apply (h_crash "step" dir_7 (Some "latest-step000000000007"%string) true 5 (Ok files_b) (w ++ o)%list
      (Done "latest-step000000000005"%string) (w ++ firstn 1 o)%list (skipn 1 o)); [|reflexivity].
    apply (step_done true "step" dir_7 _ 5 (Ok files_b) w o).
    + eapply w_new; [reflexivity|reflexivity|].
      apply (in_cross true dir_7 "latest-step000000000005" files_b "1" files_b
        [Put copy "config.ron" 1; Put copy "state.ron" 3]%string); try reflexivity.
      apply (copy_some copy "config.ron" 1 [("state.ron", 3)]%string [Put copy "config.ron" 1]%string); [apply copy_last|].
      apply (copy_some copy "state.ron" 3 [] [Put copy "state.ron" 3]%string []); [apply copy_last|constructor].
    + apply d_move; [reflexivity|]. apply (out_cross true _ _ ["config.ron"; "state.ron"]%string); reflexivity.
  - reflexivity.
  - intros (l & [E|[E|[E|[E|[]]]]] & P); try discriminate. injection E as <-. apply Permutation_length in P. discriminate.
  - intros (l & [E|[E|[E|[E|[]]]]] & P); try discriminate. injection E as <-. apply Permutation_length in P. discriminate.
  - exists files_b. split; [simpl; auto|reflexivity].
Qed.
Print Assumptions C41_smaller_key_refuted.

(** ** C42 *)
(** A completed step leaves a complete checkpoint of the state at that call, provided
    nothing by that name existed and it is not the one last written.  Missing: the other
    cases (false, below). *)
Theorem C42_checkpoint_exists_partial : forall (A : Type) cross key (D : fs A) last n l ops t,
  dir_ok D -> NoDup (map fst l) -> (forall e, ~ In (ckpt_name key n, e) D) -> last <> Some (ckpt_name key n) ->
  step_ops cross key D last n (Ok l) ops (Done t) ->
  t = ckpt_name key n /\ complete (exec_all ops D) t l.
Proof. exact @step_leaves. Qed.
Print Assumptions C42_checkpoint_exists_partial.

(** and so does every completed step of a history with increasing keys *)
Theorem C42_history_partial : forall (A : Type) key n l t (evs : list (event A)) D last,
  history key (Step n (Ok l) (Done t) :: evs) D last ->
  t = ckpt_name key n /\ last = Some t /\ resume_point D = Some t /\ complete D t l.
Proof. exact @history_done. Qed.
Print Assumptions C42_history_partial.

(** Calling [step] twice without a change of the key removes the checkpoint: nothing
    of that name is left, whatever the directory and the file systems. *)
Theorem C42_repeated_key_removes : forall (A : Type) key (D D1 D2 : fs A) last n d d' t t' last1 last2,
  dir_ok D -> happens key D last (Step n d (Done t)) D1 last1 -> happens key D1 last1 (Step n d' (Done t')) D2 last2 ->
  last2 = Some (ckpt_name key n) /\ forall e, ~ In (ckpt_name key n, e) D2.
Proof. exact @repeated_key. Qed.
Print Assumptions C42_repeated_key_removes.

(** After that every step with another key raises, and so do all following ones. *)
Theorem C42_then_steps_raise : forall (A : Type) key (D D' : fs A) m n d o last',
  dir_ok D -> in_range m -> (forall e, ~ In (ckpt_name key m, e) D) -> ckpt_name key n <> ckpt_name key m ->
  happens key D (Some (ckpt_name key m)) (Step n d o) D' last' ->
  (exists e, o = Raised e) /\ last' = Some (ckpt_name key m) /\ (forall e, ~ In (ckpt_name key m, e) D').
Proof. exact @stale_raises. Qed.
Print Assumptions C42_then_steps_raise.

Lemma ex_step_7_again : happens "step" dir_7 (Some "latest-step000000000007"%string)
  (Step 7 (Ok files_b) (Done "latest-step000000000007"%string)) dir_0 (Some "latest-step000000000007"%string).
Proof.
  apply (h_step "step" dir_7 (Some "latest-step000000000007"%string) false 7 (Ok files_b) [Takeout "latest-step000000000007"%string]
    (Done "latest-step000000000007"%string)).
  apply (step_done false "step" dir_7 (Some "latest-step000000000007"%string) 7 (Ok files_b) [] [Takeout "latest-step000000000007"%string]).
  - apply w_exists. reflexivity.
  - apply d_move; [reflexivity|]. now apply out_same.
Qed.
(** A completed step after which there is no checkpoint at all. *)
Theorem C42_repeated_key_refuted : exists (D D1 D2 : fs Z) n l1 l2 t last1 last2,
  dir_ok D /\ happens "step" D None (Step n (Ok l1) (Done t)) D1 last1 /\
  happens "step" D1 last1 (Step n (Ok l2) (Done t)) D2 last2 /\ resume_point D2 = None.
Proof.
  exists dir_0, dir_7, dir_0, 7, files_a, files_b. do 3 eexists.
  split; [repeat constructor; simpl; intuition discriminate|].
  split; [exact ex_step_7|]. split; [exact ex_step_7_again|reflexivity].
Qed.
Print Assumptions C42_repeated_key_refuted.

Example C42_ex :
  happens "step" dir_0 None (Step 7 (Ok files_a) (Done "latest-step000000000007"%string)) dir_7 (Some "latest-step000000000007"%string) /\
  complete dir_7 "latest-step000000000007" files_a /\
  happens "step" dir_7 (Some "latest-step000000000007"%string)
    (Step 7 (Ok files_b) (Done "latest-step000000000007"%string)) dir_0 (Some "latest-step000000000007"%string) /\
  resume_point dir_0 = None.
Proof.
  split; [exact ex_step_7|]. split; [exists files_a; split; [simpl; auto|reflexivity]|].
  split; [exact ex_step_7_again|reflexivity].
Qed.
