(** ShareFacts.v -- facts about processes that share a checkpoint directory (C73). *)
From Coq Require Import Permutation.
From Verif Require Import Base Ckpt SpecCkpt AFacts CkptFacts CrashFacts Share SpecShare.
Local Open Scope Z_scope.

Section Facts.
Context {A : Type}.
Implicit Types D : fs A.
Variable key : string.
Notation ck := (ckpt_name key).

(** the content of a copy after the remaining calls *)
Definition puts (ops : list (op A)) (l : files A) : files A := fold_left (fun l o => match o with Put _ f c => aset f c l | _ => l end) ops l.
Definition put_at (d : string) (o : op A) : Prop := exists f c, o = Put d f c.

Lemma copy_file_puts d f c o : copy_file (A := A) d f c o -> Forall (put_at d) o.
Proof. induction 1; repeat constructor; auto; unfold put_at; eauto. Qed.
Lemma copy_files_puts d l o : copy_files (A := A) d l o -> Forall (put_at d) o.
Proof. induction 1 as [|f c l o r H H' IH]; [constructor|]. apply Forall_app. split; eauto using copy_file_puts. Qed.
Lemma puts_run d ops : Forall (put_at d) ops -> forall D l, exec_all ops (aset d (EDir l) D) = aset d (EDir (puts ops l)) D.
Proof.
  induction 1 as [|o ops (f & c & ->) H IH]; intros D l; [reflexivity|].
  change (exec_all (Put d f c :: ops) (aset d (EDir l) D)) with (exec_all ops (exec (Put d f c) (aset d (EDir l) D))). rewrite put_twice, IH. reflexivity.
Qed.
Lemma copy_puts d l o : copy_files (A := A) d l o -> NoDup (map fst l) -> puts o [] = l.
Proof.
  intros C N. pose proof (copy_files_run d l o C [] [] N) as E. rewrite (puts_run d o (copy_files_puts _ _ _ C)) in E.
  apply (f_equal (aget d)) in E. rewrite !aget_aset_same in E. now injection E.
Qed.

(** ** The invariant *)
Definition reached (log : list (Z * files A)) (z : Z) : Prop := exists n l, In (n, l) log /\ z <= n.

Definition proc_ok D (log : list (Z * files A)) (p : proc A) : Prop :=
  (forall q, p_last p = Some q -> exists z, q = ck z /\ in_range z /\ reached log z) /\
  match p_phase p with
  | Idle => True
  | Listing best _ => forall z name, best = Some (z, name) -> name = ck z /\ in_range z /\ reached log z
  | Writing n l => increases key (p_last p) n /\ some_files l
  | Copying n l tmp ops => increases key (p_last p) n /\ some_files l /\ num tmp = None /\ Forall (put_at tmp) ops /\
      exists l0, aget tmp D = Some (EDir l0) /\ Permutation (puts ops l0) l
  | Dropping n => increases key (p_last p) n /\ reached log n
  | Removing n _ => increases key (p_last p) n /\ reached log n
  end.
Definition copy_of (p : proc A) : option string := match p_phase p with Copying _ _ tmp _ => Some tmp | _ => None end.

Record inv (w : world A) : Prop := {
  i_ok : dir_ok (s_dir w);
  i_names : forall name e z, aget name (s_dir w) = Some e -> num name = Some z -> is_dir e = true -> name = ck z /\ in_range z;
  i_known : forall z e, in_range z -> aget (ck z) (s_dir w) = Some e -> reached (s_log w) z;
  i_log : forall n l, In (n, l) (s_log w) -> in_range n /\ some_files l;
  i_newest : forall n l, newest (s_log w) n l -> exists l', aget (ck n) (s_dir w) = Some (EDir l') /\ Permutation l' l;
  i_procs : forall i, proc_ok (s_dir w) (s_log w) (s_proc w i);
  i_copies : forall i j t, i <> j -> copy_of (s_proc w i) = Some t -> copy_of (s_proc w j) <> Some t }.

Lemma newest_exists (log : list (Z * files A)) : log <> [] -> exists n l, newest log n l.
Proof.
  induction log as [|[n l] log IH]; [congruence|]. intros _. destruct log as [|c log].
  - exists n, l. split; [now left|]. intros n' l' [E|[]]. injection E as <- _. lia.
  - destruct IH as (m & k & I & H); [discriminate|]. destruct (Z.le_gt_cases m n).
    + exists n, l. split; [now left|]. intros n' l' [E|J]; [injection E as <- _; lia|]. specialize (H _ _ J). lia.
    + exists m, k. split; [now right|]. intros n' l' [E|J]; [injection E as <- _; lia|]. eauto.
Qed.
Lemma reached_newest log z n l : newest log n l -> reached log z -> z <= n.
Proof. intros [_ H] (m & k & I & L). specialize (H _ _ I). lia. Qed.

Theorem inv_resume w : inv w -> (s_log w = [] -> resume_point (s_dir w) = None) /\
  forall n l, newest (s_log w) n l -> find_latest (s_dir w) = Some (ck n) /\ resume_point (s_dir w) = Some (ck n) /\ complete (s_dir w) (ck n) l.
Proof.
  intros I. split.
  - intros E. apply bare_resume; [apply (i_ok w I)|]. intros name l z G Nz. exfalso. destruct (i_names w I name _ z G Nz eq_refl) as [-> R].
    destruct (i_known w I z _ R G) as (n & k & J & _). rewrite E in J. destruct J.
  - intros n l H. destruct (i_newest w I n l H) as (l' & G & P). destruct (i_log w I n l (proj1 H)) as [R _].
    assert (Gd : good key (s_dir w) n l).
    { split; [exact R|]. split; [eauto|]. intros name m z G' Nz. destruct (i_names w I name _ z G' Nz eq_refl) as [-> Rz].
      pose proof (reached_newest _ _ _ _ H (i_known w I z _ Rz G')) as L. destruct (Z.eq_dec z n) as [->|]; [now right|left; lia]. }
    destruct (good_resume key (s_dir w) n l (i_ok w I) Gd) as [F1 F2]. split; [exact F1|]. split; [exact F2|]. exists l'. split; [|exact P]. apply in_iff; [apply (i_ok w I)|exact G].
Qed.

Lemma inv_start D0 : no_checkpoints key D0 -> inv (mkS D0 (fun _ => mkP (resume_point D0) Idle) []).
Proof.
  intros (OK & Nn & Nc).
  assert (R : resume_point D0 = None). { apply bare_resume; [exact OK|]. intros name l z G Nz. exfalso. apply (Nn name z), numbered_aget; eauto. }
  split; cbn [s_dir s_log s_proc]; auto.
  - intros name e z G Nz De. exfalso. destruct e as [l|]; [|discriminate]. apply (Nn name z), numbered_aget; eauto.
  - intros z e Rz G. exfalso. apply (Nc z e Rz). now apply in_iff.
  - intros n l [].
  - intros n l [[] _].
  - intros i. split; cbn [p_last p_phase]; [|exact Logic.I]. rewrite R. discriminate.
  - intros i j t _ E. discriminate.
Qed.

(** ** Every call keeps it *)
Lemma noted_incl (x : option (Z * files A)) log : incl log (noted x log).
Proof. destruct x; cbn; intros c H; [now right|exact H]. Qed.
Lemma reached_incl log log' z : incl log log' -> reached log z -> reached log' z.
Proof. intros H (n & l & I & L). exists n, l. auto. Qed.

Lemma frame_proc T D D' log log' p : off T D D' -> incl log log' -> (forall t, copy_of p = Some t -> ~ In t T) -> proc_ok D log p -> proc_ok D' log' p.
Proof.
  intros O L C [H H']. split.
  - intros q Q. destruct (H q Q) as (z & E & R & M). exists z. eauto using reached_incl.
  - unfold copy_of in C. destruct (p_phase p); auto.
    + intros z name E. destruct (H' z name E) as (H1 & H2 & H3). eauto using reached_incl.
    + destruct H' as (H1 & H2 & H3 & H4 & l0 & H5 & H6). split; [exact H1|]. split; [exact H2|]. split; [exact H3|]. split; [exact H4|]. exists l0. split; [|exact H6]. rewrite O; auto.
    + destruct H' as [H1 H2]. split; eauto using reached_incl.
    + destruct H' as [H1 H2]. split; eauto using reached_incl.
Qed.

Lemma inv_step w i D' p' x T : inv w -> dir_ok D' -> off T (s_dir w) D' ->
  (forall name e, In name T -> aget name D' = Some e -> num name = None \/ exists z, in_range z /\ name = ck z /\ reached (noted x (s_log w)) z) ->
  (forall n l, newest (s_log w) n l -> ~ In (ck n) T) ->
  (forall n l, x = Some (n, l) -> in_range n /\ some_files l /\ exists l', aget (ck n) D' = Some (EDir l') /\ Permutation l' l) ->
  proc_ok D' (noted x (s_log w)) p' ->
  (forall j t, j <> i -> copy_of (s_proc w j) = Some t -> ~ In t T /\ copy_of p' <> Some t) ->
  inv (mkS D' (put_proc i p' (s_proc w)) (noted x (s_log w))).
Proof.
  intros I OK O HT Hn Hx Hp Hc. pose proof (noted_incl x (s_log w)) as Inc.
  split; cbn [s_dir s_log s_proc]; auto.
  - intros name e z G Nz De. destruct (in_dec string_dec name T) as [i0|n0].
    + destruct (HT name e i0 G) as [E|(z' & R & -> & _)]; [congruence|]. rewrite (ck_num key z' R) in Nz. injection Nz as <-. auto.
    + rewrite (O name n0) in G. apply (i_names w I name e z G Nz De).
  - intros z e R G. destruct (in_dec string_dec (ck z) T) as [i0|n0].
    + destruct (HT _ e i0 G) as [E|(z' & R' & E & M)]; [rewrite (ck_num key z R) in E; discriminate|]. apply (ck_inj key) in E; auto. now subst z'.
    + rewrite (O _ n0) in G. apply (reached_incl _ _ _ Inc), (i_known w I z e R G).
  - intros n l J. destruct x as [[n1 l1]|]; cbn [noted] in J; [destruct J as [E|J]|].
    + injection E as <- <-. destruct (Hx n1 l1 eq_refl) as (H1 & H2 & _). auto.
    + apply (i_log w I n l J).
    + apply (i_log w I n l J).
  - intros n l [J M].
    assert (C : x = Some (n, l) \/ In (n, l) (s_log w)). { destruct x as [c|]; cbn [noted] in J; [destruct J as [->|J]|]; auto. }
    destruct C as [->|C]; [apply (Hx n l eq_refl)|].
    assert (N : newest (s_log w) n l). { split; [exact C|]. intros n' l' J'. apply (M n' l'). auto. }
    rewrite (O _ (Hn n l N)). apply (i_newest w I n l N).
  - intros j. unfold put_proc. destruct (Nat.eq_dec j i) as [->|N]; [exact Hp|].
    apply (frame_proc T (s_dir w) _ (s_log w)); auto; [|apply (i_procs w I)]. intros t E. apply (Hc j t N E).
  - intros j k t N. unfold put_proc. destruct (Nat.eq_dec j i) as [->|Nj], (Nat.eq_dec k i) as [->|Nk]; try congruence.
    + intros E E'. apply (proj2 (Hc k t Nk E')), E.
    + intros E E'. apply (proj2 (Hc j t Nj E)), E'.
    + apply (i_copies w I j k t N).
Qed.

(** no call but on the directory of a number below the newest, or where nothing is *)
Lemma newest_taken w n l : inv w -> newest (s_log w) n l -> ~ free (s_dir w) (ck n).
Proof.
  intros I N. destruct (i_newest w I n l N) as (l' & G & P). destruct (i_log w I n l (proj1 N)) as [_ [E _]]. unfold free. rewrite G.
  intros [F|F]; [discriminate|]. injection F as ->. apply Permutation_nil in P. congruence.
Qed.
Lemma copy_num w j t : inv w -> copy_of (s_proc w j) = Some t -> num t = None /\ exists l, aget t (s_dir w) = Some (EDir l).
Proof.
  intros I E. pose proof (proj2 (i_procs w I j)) as H. unfold copy_of in E. destruct (p_phase (s_proc w j)); try discriminate. injection E as ->.
  destruct H as (_ & _ & H3 & _ & l0 & H5 & _). eauto.
Qed.

Lemma inv_still w i p' : inv w -> proc_ok (s_dir w) (s_log w) p' -> copy_of p' = None -> inv (mkS (s_dir w) (put_proc i p' (s_proc w)) (s_log w)).
Proof.
  intros I P C. apply (inv_step w i (s_dir w) p' None []); auto; try (now intros); try apply (i_ok w I).
  intros j t _ _. split; [now intro|congruence].
Qed.

Lemma look_some D best name z nm : look D best name = Some (z, nm) ->
  best = Some (z, nm) \/ (nm = name /\ exists e, aget name D = Some e /\ is_dir e = true /\ num name = Some z).
Proof.
  unfold look, num. destruct (aget name D) as [e|]; [|now left]. cbn [find_loop].
  destruct (is_dir e) eqn:De, (Nat.leb 12 (String.length name)); cbn [andb]; try (now left).
  destruct best as [[m d]|], (py_int (last12 name)) as [k|]; try (now left).
  - destruct (m <? k); [|now left]. intro E. injection E as <- <-. right. eauto.
  - intro E. injection E as <- <-. right. eauto.
Qed.
(** a process that looks at all names while nobody else acts *)
Lemma looks_find D names best : (forall n, In n names -> exists e, aget n D = Some e) ->
  exists l, map fst l = names /\ (forall n e, In (n, e) l -> aget n D = Some e) /\ fold_left (look D) names best = find_loop best l.
Proof.
  revert best. induction names as [|n names IH]; intros best H; [exists []; split; [reflexivity|split; [intros n e []|reflexivity]]|].
  destruct (H n (or_introl eq_refl)) as [e G]. destruct (IH (look D best n) (fun m Hm => H m (or_intror Hm))) as (l & E & Hl & F).
  exists ((n, e) :: l). split; [cbn; now rewrite E|]. split.
  - intros m e' [Q|Q]; [injection Q as <- <-; exact G|auto].
  - cbn [fold_left]. rewrite F. unfold look. rewrite G. cbn [find_loop].
    destruct (is_dir e && _)%bool; [|reflexivity]. destruct best as [[m d]|], (py_int (last12 n)) as [k|]; try reflexivity. now destruct (m <? k).
Qed.

Lemma listed_alone D names : dir_ok D -> (forall n n' z, numbered D n z -> numbered D n' z -> n = n') -> Permutation names (akeys D) ->
  resume_of (fold_left (look D) names None) = resume_point D.
Proof.
  intros OK U P. destruct (looks_find D names None) as (l & E & Hl & F).
  { intros n Hn. apply (Permutation_in _ P) in Hn. apply amem_true in Hn. rewrite amem_aget in Hn. destruct (aget n D) as [e|]; [eauto|discriminate]. }
  assert (Pl : Permutation D l).
  { apply NoDup_Permutation.
    - apply (NoDup_map_inv fst). exact OK.
    - apply (NoDup_map_inv fst). rewrite E. apply (Permutation_NoDup (Permutation_sym P)). exact OK.
    - intros [n e]. split; intro J.
      + pose proof J as J'. apply in_iff in J; [|exact OK]. assert (Hn : In n (map fst l)).
        { rewrite E. apply (Permutation_in _ (Permutation_sym P)). apply (in_map fst) in J'. exact J'. }
        apply in_map_iff in Hn. destruct Hn as ([n' e'] & Q & Hn). cbn in Q. subst n'. rewrite (Hl _ _ Hn) in J. injection J as ->. exact Hn.
      + apply in_iff; auto. }
  rewrite F. unfold resume_point. rewrite <- (find_latest_order D l Pl U). unfold find_latest. destruct (find_loop None l) as [[z nm]|]; reflexivity.
Qed.

Lemma inv_acts w i D p x : inv w -> acts key (increases key) some_files (s_dir w) (s_proc w i) D p x ->
  inv (mkS D (put_proc i p (s_proc w)) (noted x (s_log w))).
Proof.
  intros I H. pose proof (i_procs w I i) as P. pose proof (i_ok w I) as OK.
  assert (Ck : forall j t z, in_range z -> copy_of (s_proc w j) = Some t -> t <> ck z).
  { intros j t z R E ->. destruct (copy_num w j _ I E) as [E' _]. rewrite (ck_num key z R) in E'. discriminate. }
  assert (Low : forall p0 n n1 l1, (forall q, Some p0 = Some q -> exists z, q = ck z /\ in_range z /\ reached (s_log w) z) -> increases key (Some p0) n ->
            reached (s_log w) n -> newest (s_log w) n1 l1 -> ~ In (ck n1) [p0]).
  { intros p0 n n1 l1 H1 [_ H2] H3 N [E|[]]. destruct (H1 p0 eq_refl) as (z & -> & R & _). destruct (i_log w I n1 l1 (proj1 N)) as [R1 _].
    apply (ck_inj key) in E; auto. subst z. pose proof (H2 n1 R eq_refl). pose proof (reached_newest _ _ _ _ N H3). lia. }
  remember (s_proc w i) as p0 eqn:Ep. destruct H.
  - (* a_there *) apply inv_still; auto. split; [apply P|]. cbn [p_phase p_last]. split; [exact H|].
    unfold exists_in in H0. rewrite amem_aget in H0. destruct (aget (ck n) (s_dir w)) as [e|] eqn:G; [|discriminate]. apply (i_known w I n e (proj1 H) G).
  - (* a_absent *) apply inv_still; auto. split; [apply P|]. cbn [p_phase p_last]. auto.
  - (* a_install *) destruct P as [P [Inc Sf]]. cbn [p_last] in *. pose proof (proj1 Inc) as R.
    assert (M : reached (noted (Some (n, l)) (s_log w)) n). { exists n, l. split; [now left|lia]. }
    apply (inv_step w i _ _ (Some (n, l)) [ck n]); auto.
    + now apply exec_ok.
    + apply (exec_off (Install (ck n) l)).
    + intros name e [<-|[]] _. right. eauto.
    + intros n1 l1 N [E|[]]. rewrite E in H. exact (newest_taken w n1 l1 I N H).
    + intros n1 l1 E. injection E as <- <-. split; [exact R|]. split; [exact Sf|]. exists l. split; [|reflexivity]. cbn [exec]. now rewrite aget_aset_same.
    + split; cbn [p_last p_phase]; [|auto]. intros q Q. destruct (P q Q) as (z & E & Rz & Mz). exists z. eauto using reached_incl, noted_incl.
    + intros j t Nj E. split; [|discriminate]. intros [F|[]]. exact (Ck j t n R E (eq_sym F)).
  - (* a_mkdir *) destruct P as [P [Inc Sf]]. cbn [p_last] in *. set (tmp := (ck n ++ "." ++ id ++ ".tmp")%string) in *.
    assert (Nt : num tmp = None). { unfold tmp. rewrite <- !app_string_assoc. apply num_tmp. }
    apply (inv_step w i _ _ None [tmp]); auto.
    + now apply exec_ok.
    + apply (exec_off (Mkdir tmp)).
    + intros name e [<-|[]] _. now left.
    + intros n1 l1 N [E|[]]. destruct (i_newest w I n1 l1 N) as (l2 & G & _). rewrite <- E in G. congruence.
    + intros n1 l1 E. discriminate.
    + split; cbn [p_last p_phase]; [exact P|]. split; [exact Inc|]. split; [exact Sf|]. split; [exact Nt|]. split; [eapply copy_files_puts; eauto|].
      exists []. split; [cbn [exec]; apply aget_aset_same|]. rewrite (copy_puts tmp l' ops H1); [now symmetry|].
      eapply Permutation_NoDup; [apply Permutation_map; exact H0|apply Sf].
    + intros j t Nj E. destruct (copy_num w j t I E) as [_ [l2 G]]. split.
      * intros [F|[]]. subst t. congruence.
      * cbn [copy_of p_phase]. intro F. injection F as F. subst t. congruence.
  - (* a_copy *) destruct P as [P (Inc & Sf & Nt & Fo & l0 & G & Pm)]. cbn [p_last] in *. inversion Fo as [|? ? (f & c & ->) Fo']; subst.
    apply (inv_step w i _ _ None [tmp]); auto.
    + now apply exec_ok.
    + apply (exec_off (Put tmp f c)).
    + intros name e [<-|[]] _. now left.
    + intros n1 l1 N [E|[]]. rewrite E, (ck_num key n1) in Nt; [discriminate|]. apply (i_log w I n1 l1 (proj1 N)).
    + intros n1 l1 E. discriminate.
    + split; cbn [p_last p_phase]; [exact P|]. split; [exact Inc|]. split; [exact Sf|]. split; [exact Nt|]. split; [exact Fo'|].
      exists (aset f c l0). split; [|exact Pm]. cbn [exec]. unfold dir_files. rewrite G. apply aget_aset_same.
    + intros j t Nj E. assert (tmp <> t). { intros <-. apply (i_copies w I i j tmp (not_eq_sym Nj)); [now rewrite <- Ep|exact E]. }
      split; [intros [F|[]]; congruence|]. cbn [copy_of p_phase]. congruence.
  - (* a_rename *) destruct P as [P (Inc & Sf & Nt & _ & l0 & G & Pm)]. cbn [p_last] in *. pose proof (proj1 Inc) as R. cbn [puts fold_left] in Pm.
    assert (M : reached (noted (Some (n, l)) (s_log w)) n). { exists n, l. split; [now left|lia]. }
    apply (inv_step w i _ _ (Some (n, l)) [tmp; ck n]); auto.
    + now apply exec_ok.
    + apply (exec_off (Rename tmp (ck n))).
    + intros name e [<-|[<-|[]]] _; [now left|right; eauto].
    + intros n1 l1 N [E|[E|[]]].
      * rewrite E, (ck_num key n1) in Nt; [discriminate|]. apply (i_log w I n1 l1 (proj1 N)).
      * rewrite E in H. exact (newest_taken w n1 l1 I N H).
    + intros n1 l1 E. injection E as <- <-. split; [exact R|]. split; [exact Sf|]. exists l0. split; [|exact Pm]. cbn [exec]. rewrite G. apply aget_aset_same.
    + split; cbn [p_last p_phase]; [|auto]. intros q Q. destruct (P q Q) as (z & E & Rz & Mz). exists z. eauto using reached_incl, noted_incl.
    + intros j t Nj E. split; [|discriminate]. intros [F|[F|[]]]; [|exact (Ck j t n R E (eq_sym F))].
      subst t. apply (i_copies w I i j tmp (not_eq_sym Nj)); [now rewrite <- Ep|exact E].
  - (* a_first *) apply inv_still; auto. destruct P as [_ [Inc M]]. split; cbn [p_last p_phase]; [|exact Logic.I]. intros q Q. injection Q as <-. exists n. split; [reflexivity|]. split; [apply Inc|exact M].
  - (* a_takeout *) destruct P as [P [Inc M]]. cbn [p_last] in *. destruct (P p eq_refl) as (z & Ez & Rz & Mz).
    apply (inv_step w i _ _ None [p]); auto.
    + now apply exec_ok.
    + apply (exec_off (Takeout p)).
    + intros name e [<-|[]] _. right. eauto.
    + intros n1 l1 N. apply (Low p n n1 l1 P Inc M N).
    + intros n1 l1 E. discriminate.
    + split; cbn [p_last p_phase]; [|exact Logic.I]. intros q Q. injection Q as <-. exists n. split; [reflexivity|]. split; [apply Inc|exact M].
    + intros j t Nj E. split; [|discriminate]. intros [F|[]]. subst t. exact (Ck j p z Rz E Ez).
  - (* a_copied *) apply inv_still; auto.
  - (* a_unlink *) destruct P as [P [Inc M]]. cbn [p_last] in *. destruct (P p eq_refl) as (z & Ez & Rz & Mz).
    apply (inv_step w i _ _ None [p]); auto.
    + now apply exec_ok.
    + apply (exec_off (Unlink p f)).
    + intros name e [<-|[]] _. right. eauto.
    + intros n1 l1 N. apply (Low p n n1 l1 P Inc M N).
    + intros n1 l1 E. discriminate.
    + split; cbn [p_last p_phase]; auto.
    + intros j t Nj E. split; [|discriminate]. intros [F|[]]. subst t. exact (Ck j p z Rz E Ez).
  - (* a_rmdir *) destruct P as [P [Inc M]]. cbn [p_last] in *. destruct (P p eq_refl) as (z & Ez & Rz & Mz).
    apply (inv_step w i _ _ None [p]); auto.
    + now apply exec_ok.
    + apply (exec_off (Rmdir p)).
    + intros name e [<-|[]] _. right. eauto.
    + intros n1 l1 N. apply (Low p n n1 l1 P Inc M N).
    + intros n1 l1 E. discriminate.
    + split; cbn [p_last p_phase]; [|exact Logic.I]. intros q Q. injection Q as <-. exists n. split; [reflexivity|]. split; [apply Inc|exact M].
    + intros j t Nj E. split; [|discriminate]. intros [F|[]]. subst t. exact (Ck j p z Rz E Ez).
  - (* a_raise *) apply inv_still; auto. split; [apply P|exact Logic.I].
  - (* a_start *) apply inv_still; auto. split; cbn [p_last p_phase]; discriminate.
  - (* a_look *) apply inv_still; auto. destruct P as [P Pb]. cbn [p_last p_phase] in *. split; cbn [p_last p_phase]; [exact P|]. intros z nm E.
    destruct (look_some _ _ _ _ _ E) as [E'|(-> & e & G & De & Nz)]; [exact (Pb z nm E')|].
    destruct (i_names w I name e z G Nz De) as [En R]. split; [exact En|]. split; [exact R|]. rewrite En in G. exact (i_known w I z e R G).
  - (* a_listed *) apply inv_still; auto. destruct P as [P Pb]. cbn [p_last p_phase] in *. split; cbn [p_last p_phase]; [|exact Logic.I]. intros q Q.
    destruct best as [[z nm]|]; cbn [resume_of] in Q; [|discriminate]. destruct (starts_with "latest" nm); [|discriminate]. injection Q as <-. exists z. apply (Pb z nm eq_refl).
Qed.

Theorem shared_inv D0 w : no_checkpoints key D0 -> shared key D0 w -> inv w.
Proof. intros H. induction 1 as [|w i D p x _ IH Ha]; [now apply inv_start|now apply inv_acts]. Qed.

Theorem newest_survives D0 w : no_checkpoints key D0 -> shared key D0 w ->
  (s_log w = [] -> resume_point (s_dir w) = None) /\
  (s_log w <> [] -> exists n l, newest (s_log w) n l) /\
  forall n l, newest (s_log w) n l -> find_latest (s_dir w) = Some (ck n) /\ resume_point (s_dir w) = Some (ck n) /\ complete (s_dir w) (ck n) l.
Proof. intros H0 H. pose proof (inv_resume w (shared_inv D0 w H0 H)) as [H1 H2]. split; [exact H1|]. split; [apply newest_exists|exact H2]. Qed.

Theorem lone_start D0 w names : no_checkpoints key D0 -> shared key D0 w -> Permutation names (akeys (s_dir w)) ->
  resume_of (fold_left (look (s_dir w)) names None) = resume_point (s_dir w).
Proof.
  intros H0 H P. pose proof (shared_inv D0 w H0 H) as I. apply listed_alone; [apply (i_ok w I)| |exact P].
  intros n n' z Hn Hn'. apply numbered_aget in Hn, Hn'; try apply (i_ok w I). destruct Hn as [[l G] Nz], Hn' as [[l' G'] Nz'].
  destruct (i_names w I _ _ z G Nz eq_refl) as [-> _]. now destruct (i_names w I _ _ z G' Nz' eq_refl) as [-> _].
Qed.

(** the last checkpoint of a process is gone *)
Theorem gone_raises D q n D' p x : exists_in D q = false -> acts key (increases key) some_files D (mkP (Some q) (Dropping n)) D' p x ->
  D' = D /\ x = None /\ (p = mkP (Some q) Idle \/ exists names, p = mkP None (Listing None names)).
Proof. intros E H. inversion H; subst; try congruence; eauto. Qed.
End Facts.
