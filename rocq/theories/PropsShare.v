(** PropsShare.v -- processes that share a checkpoint directory: C73. *)
From Coq Require Import Permutation.
From Verif Require Import Base Ckpt SpecCkpt AFacts CkptFacts CrashFacts Share SpecShare ShareFacts.
Local Open Scope Z_scope.

(** ** C73 *)
(** Any number of processes whose keys increase, in a directory that had no checkpoints:
    however their system calls interleave, and wherever they raise, die and start again, the
    newest checkpoint that ever became visible is still there, with all its files, and it is the one
    found.  Missing: keys that do not increase or do not fit into twelve characters (C40, C42). *)
Theorem C73_newest_survives_partial : forall (A : Type) key (D0 : fs A) w, no_checkpoints key D0 -> shared key D0 w ->
  (s_log w = [] -> resume_point (s_dir w) = None) /\
  (s_log w <> [] -> exists n l, newest (s_log w) n l) /\
  forall n l, newest (s_log w) n l ->
    find_latest (s_dir w) = Some (ckpt_name key n) /\ resume_point (s_dir w) = Some (ckpt_name key n) /\
    complete (s_dir w) (ckpt_name key n) l.
Proof. intros A key D0 w. exact (newest_survives key D0 w). Qed.
Print Assumptions C73_newest_survives_partial.

(** A process that starts while no other acts resumes from that one. *)
Theorem C73_lone_start_partial : forall (A : Type) key (D0 : fs A) w names n l, no_checkpoints key D0 -> shared key D0 w ->
  newest (s_log w) n l -> Permutation names (map fst (s_dir w)) ->
  resume_of (fold_left (look (s_dir w)) names None) = Some (ckpt_name key n).
Proof.
  intros A key D0 w names n l H0 H N P. rewrite (lone_start key D0 w names H0 H P). destruct (newest_survives key D0 w H0 H) as (_ & _ & R). apply (R n l N).
Qed.
Print Assumptions C73_lone_start_partial.

(** A process whose last checkpoint was removed by another one can only raise, or be replaced
    by a new process; it changes nothing. *)
Theorem C73_gone_raises : forall (A : Type) key (D : fs A) q n D' p x, exists_in D q = false ->
  acts key (increases key) some_files D (mkP (Some q) (Dropping n)) D' p x ->
  D' = D /\ x = None /\ (p = mkP (Some q) Idle \/ exists names, p = mkP None (Listing None names)).
Proof. intros A key. exact (gone_raises key). Qed.
Print Assumptions C73_gone_raises.

(** *** A run of two processes *)
Definition fa : files Z := [("config.ron"%string, 1); ("state.ron"%string, 2)].
Definition fb : files Z := [("config.ron"%string, 1); ("state.ron"%string, 3)].
Notation k5 := "latest-step000000000005"%string.
Notation k6 := "latest-step000000000006"%string.
Definition w0 : world Z := mkS [("notes"%string, EDir [])] (fun _ => mkP (resume_point [("notes"%string, EDir (A := Z) [])]) Idle) [].
Definition go (w : world Z) (i : nat) D p x : world Z := mkS D (put_proc i p (s_proc w)) (noted x (s_log w)).
(* process 0 writes 5 *)
Definition w1 := go w0 0 (s_dir w0) (mkP None (Writing 5 fa)) None.
Definition w2 := go w1 0 (exec (Install k5 fa) (s_dir w1)) (mkP None (Dropping 5)) (Some (5, fa)).
Definition w3 := go w2 0 (s_dir w2) (mkP (Some k5) Idle) None.
(* process 1 starts, resumes from 5 *)
Definition w4 := go w3 1 (s_dir w3) (mkP None (Listing None ["notes"; k5]%string)) None.
Definition w5 := go w4 1 (s_dir w4) (mkP None (Listing None [k5])) None.
Definition w6 := go w5 1 (s_dir w5) (mkP None (Listing (Some (5, k5)) [])) None.
Definition w7 := go w6 1 (s_dir w6) (mkP (Some k5) Idle) None.
(* process 0 writes 6 and removes 5 *)
Definition w8 := go w7 0 (s_dir w7) (mkP (Some k5) (Writing 6 fb)) None.
Definition w9 := go w8 0 (exec (Install k6 fb) (s_dir w8)) (mkP (Some k5) (Dropping 6)) (Some (6, fb)).
Definition w10 := go w9 0 (exec (Takeout k5) (s_dir w9)) (mkP (Some k6) Idle) None.
(* process 1 finds 6 *)
Definition w11 := go w10 1 (s_dir w10) (mkP (Some k5) (Dropping 6)) None.
(* process 2 lists the names after w3; process 0 goes on, process 2 looks after that *)
Definition v4 := go w3 2 (s_dir w3) (mkP None (Listing None ["notes"; k5]%string)) None.
Definition v5 := go v4 0 (s_dir v4) (mkP (Some k5) (Writing 6 fb)) None.
Definition v6 := go v5 0 (exec (Install k6 fb) (s_dir v5)) (mkP (Some k5) (Dropping 6)) (Some (6, fb)).
Definition v7 := go v6 0 (exec (Takeout k5) (s_dir v6)) (mkP (Some k6) Idle) None.
Definition v8 := go v7 2 (s_dir v7) (mkP None (Listing None [k5])) None.
Definition v9 := go v8 2 (s_dir v8) (mkP None (Listing None [])) None.

Lemma C73_start : no_checkpoints "step" [("notes"%string, EDir (A := Z) [])].
Proof.
  split; [repeat constructor; intros []|]. split.
  - intros name z [[l [E|[]]] (f & t & E' & L & _)]. injection E as <- _. apply (f_equal String.length) in E'. rewrite length_app, L in E'. cbn in E'. lia.
  - intros n e R [E|[]]. injection E as E _. discriminate.
Qed.
Lemma C73_inc m n : in_range n -> in_range m -> m < n -> increases "step" (Some (ckpt_name "step" m)) n.
Proof. intros R Rm L. split; [exact R|]. intros z Rz E. assert (E' : ckpt_name "step" m = ckpt_name "step" z) by congruence. apply (ck_inj "step") in E'; auto. lia. Qed.
Lemma C73_fa : some_files fa /\ some_files fb.
Proof. split; (split; [discriminate|repeat constructor; cbn; intuition discriminate]). Qed.
Lemma C73_none n : in_range n -> increases "step" None n.
Proof. intros R. split; [exact R|discriminate]. Qed.
Ltac rng := unfold in_range; lia.

Lemma C73_run3 : shared "step" (s_dir w0) w3.
Proof.
  apply (runs_act _ _ _ _ w2 0%nat (s_dir w2) (mkP (Some k5) Idle) None). 2: apply (a_first "step" _ _ (s_dir w2) 5).
  apply (runs_act _ _ _ _ w1 0%nat (exec (Install k5 fa) (s_dir w1)) (mkP None (Dropping 5)) (Some (5, fa))). 2: apply (a_install "step" _ _ (s_dir w1) None 5 fa); now left.
  apply (runs_act _ _ _ _ w0 0%nat (s_dir w0) (mkP None (Writing 5 fa)) None). 2: apply a_absent; [apply C73_none; rng|apply C73_fa|reflexivity].
  apply runs_start.
Qed.
Lemma C73_run11 : shared "step" (s_dir w0) w11.
Proof.
  apply (runs_act _ _ _ _ w10 1%nat (s_dir w10) (mkP (Some k5) (Dropping 6)) None). 2: apply a_there; [apply (C73_inc 5 6); rng|reflexivity].
  apply (runs_act _ _ _ _ w9 0%nat (exec (Takeout k5) (s_dir w9)) (mkP (Some k6) Idle) None). 2: apply (a_takeout "step" _ _ (s_dir w9) k5 6); reflexivity.
  apply (runs_act _ _ _ _ w8 0%nat (exec (Install k6 fb) (s_dir w8)) (mkP (Some k5) (Dropping 6)) (Some (6, fb))). 2: apply (a_install "step" _ _ (s_dir w8) (Some k5) 6 fb); now left.
  apply (runs_act _ _ _ _ w7 0%nat (s_dir w7) (mkP (Some k5) (Writing 6 fb)) None). 2: apply a_absent; [apply (C73_inc 5 6); rng|apply C73_fa|reflexivity].
  apply (runs_act _ _ _ _ w6 1%nat (s_dir w6) (mkP (Some k5) Idle) None). 2: apply (a_listed "step" _ _ (s_dir w6) (Some (5, k5))).
  apply (runs_act _ _ _ _ w5 1%nat (s_dir w5) (mkP None (Listing (Some (5, k5)) [])) None). 2: apply (a_look "step" _ _ (s_dir w5) None k5 []).
  apply (runs_act _ _ _ _ w4 1%nat (s_dir w4) (mkP None (Listing None [k5])) None). 2: apply (a_look "step" _ _ (s_dir w4) None "notes"%string [k5]).
  apply (runs_act _ _ _ _ w3 1%nat (s_dir w3) (mkP None (Listing None ["notes"; k5]%string)) None). 2: apply (a_start "step" _ _ (s_dir w3)); reflexivity.
  apply C73_run3.
Qed.

(** the hypotheses of C73 hold of that run, and its claim is not empty *)
Example C73_ex : shared "step" (s_dir w0) w11 /\ newest (s_log w11) 6 fb /\ resume_point (s_dir w11) = Some k6 /\ complete (s_dir w11) k6 fb /\
  s_dir w11 = [("notes"%string, EDir []); (k6, EDir fb)] /\ s_log w11 = [(6, fb); (5, fa)].
Proof.
  assert (N : newest (s_log w11) 6 fb). { split; [now left|]. intros n l [E|[E|[]]]; injection E as <- _; lia. }
  split; [exact C73_run11|]. split; [exact N|].
  destruct (C73_newest_survives_partial Z "step" (s_dir w0) w11 C73_start C73_run11) as (_ & _ & H). destruct (H 6 fb N) as (_ & H1 & H2).
  split; [exact H1|]. split; [exact H2|]. split; reflexivity.
Qed.

(** Sharing is not harmless: a process whose last checkpoint another one removed is in the
    middle of a step, and that step cannot succeed any more (C73_gone_raises). *)
Theorem C73_steps_succeed_refuted : exists key (D0 : fs Z) (w : world Z) i q n, no_checkpoints key D0 /\ shared key D0 w /\
  s_proc w i = mkP (Some q) (Dropping n) /\ exists_in (s_dir w) q = false.
Proof. exists "step"%string, (s_dir w0), w11, 1%nat, k5, 6. split; [exact C73_start|]. split; [exact C73_run11|]. split; reflexivity. Qed.
Print Assumptions C73_steps_succeed_refuted.

(** Nor is starting while another process writes: a process that lists the directory when a
    complete checkpoint is there can find none, although at every moment there is one. *)
Theorem C73_busy_start_refuted : exists key (D0 : fs Z) (w w' : world Z) i names n l, no_checkpoints key D0 /\ shared key D0 w /\
  newest (s_log w) n l /\ resume_point (s_dir w) = Some (ckpt_name key n) /\
  s_proc w i = mkP None (Listing None names) /\ Permutation names (map fst (s_dir w)) /\
  leads key w w' /\ s_proc w' i = mkP None (Listing None []).
Proof.
  exists "step"%string, (s_dir w0), v4, v9, 2%nat, ["notes"; k5]%string, 5, fa. split; [exact C73_start|]. split.
  { apply (runs_act _ _ _ _ w3 2%nat (s_dir w3) (mkP None (Listing None ["notes"; k5]%string)) None). 2: apply (a_start "step" _ _ (s_dir w3)); reflexivity. apply C73_run3. }
  split. { split; [now left|]. intros n l [E|[]]; injection E as <- _; lia. }
  split; [reflexivity|]. split; [reflexivity|]. split; [reflexivity|]. split; [|reflexivity].
  apply (leads_act "step" v4 v8 2%nat (s_dir v8) (mkP None (Listing None [])) None). 2: apply (a_look "step" _ _ (s_dir v8) None k5 []).
  apply (leads_act "step" v4 v7 2%nat (s_dir v7) (mkP None (Listing None [k5])) None). 2: apply (a_look "step" _ _ (s_dir v7) None "notes"%string [k5]).
  apply (leads_act "step" v4 v6 0%nat (exec (Takeout k5) (s_dir v6)) (mkP (Some k6) Idle) None). 2: apply (a_takeout "step" _ _ (s_dir v6) k5 6); reflexivity.
  apply (leads_act "step" v4 v5 0%nat (exec (Install k6 fb) (s_dir v5)) (mkP (Some k5) (Dropping 6)) (Some (6, fb))). 2: apply (a_install "step" _ _ (s_dir v5) (Some k5) 6 fb); now left.
  apply (leads_act "step" v4 v4 0%nat (s_dir v4) (mkP (Some k5) (Writing 6 fb)) None). 2: apply a_absent; [apply (C73_inc 5 6); rng|apply C73_fa|reflexivity].
  apply leads_here.
Qed.
Print Assumptions C73_busy_start_refuted.
