(** CrashFacts.v -- what every prefix of a step leaves in the directory. *)
From Coq Require Import Permutation.
From Verif Require Import Base Ckpt SpecCkpt AFacts CkptFacts.
Local Open Scope Z_scope.

Section Crash.
Context {A : Type}.
Implicit Types D : fs A.

(** ** directories as maps *)
Lemma in_iff D name e : dir_ok D -> (In (name, e) D <-> aget name D = Some e).
Proof. intro H. split; [now apply in_nodup_aget|apply aget_some_in]. Qed.

Lemma exec_ok o D : dir_ok D -> dir_ok (exec o D).
Proof.
  unfold dir_ok. intro H. change (NoDup (akeys D)) in H.
  destruct o; cbn [exec]; try (apply nodup_aset; exact H); try (apply nodup_adel; exact H).
  destruct (aget d D); auto. apply nodup_aset, nodup_adel, H.
Qed.
Lemma exec_all_ok o : forall D, dir_ok D -> dir_ok (exec_all o D).
Proof. induction o as [|x o IH]; intros D H; [exact H|]. apply IH, exec_ok, H. Qed.
Lemma exec_all_app o o' D : exec_all (o ++ o')%list D = exec_all o' (exec_all o D).
Proof. apply fold_left_app. Qed.

(** the entries an operation may change *)
Definition touches (o : op A) : list string :=
  match o with
  | Install d _ | Mkdir d | Put d _ _ | Unlink d _ | Rmdir d | Takeout d => [d]
  | Rename d d' => [d; d']
  end.
Definition off (l : list string) D D' : Prop := forall name, ~ In name l -> aget name D' = aget name D.

Lemma exec_off o D : off (touches o) D (exec o D).
Proof.
  intros name H. destruct o; cbn [touches exec] in *;
  try (rewrite aget_aset_other; [reflexivity|intro; subst; apply H; now left]);
  try (rewrite aget_adel_other; [reflexivity|intro; subst; apply H; now left]).
  destruct (aget d D); [|reflexivity].
  rewrite aget_aset_other; [rewrite aget_adel_other; [reflexivity|]|]; intro; subst; apply H; simpl; auto.
Qed.
Lemma exec_all_off l o : (forall x, In x o -> forall n, In n (touches x) -> In n l) -> forall D, off l D (exec_all o D).
Proof.
  induction o as [|x o IH]; intros H D name Hn; [reflexivity|]. change (exec_all (x :: o) D) with (exec_all o (exec x D)).
  rewrite (IH (fun y Hy => H y (or_intror Hy)) _ name Hn). apply exec_off. intro Hi. apply Hn. eapply H; [now left|exact Hi].
Qed.
Lemma exec_all_at d o : Forall (fun x => touches x = [d]) o -> forall D, off [d] D (exec_all o D).
Proof. intros H D. apply exec_all_off. intros x Hx n Hn. rewrite Forall_forall in H. now rewrite (H x Hx) in Hn. Qed.

(** ** the checkpoint one resumes from *)
Section Key.
Variable key : string.
Notation ck := (ckpt_name key).

Lemma ck_num n : in_range n -> num (ck n) = Some n.
Proof.
  intro H. unfold ckpt_name. rewrite <- (app_string_assoc "latest-" key). now apply format_num.
Qed.
Lemma ck_prefix n : String.prefix "latest" (ck n) = true.
Proof. reflexivity. Qed.
Lemma ck_inj n m : in_range n -> in_range m -> ck n = ck m -> n = m.
Proof. intros Hn Hm E. apply ck_num in Hn, Hm. congruence. Qed.

(** [D] holds the checkpoint [l] for [n], and no other number reaches [n] *)
Definition good D n (l : files A) : Prop :=
  in_range n /\ (exists l', aget (ck n) D = Some (EDir l') /\ Permutation l' l) /\
  (forall name l' z, aget name D = Some (EDir l') -> num name = Some z -> z < n \/ name = ck n).
Definition bare D : Prop :=
  forall name l z, aget name D = Some (EDir l) -> num name = Some z -> String.prefix "latest" name = false.

Definition intact D (cur : option (Z * files A)) : Prop :=
  match cur with Some (n, l) => good D n l | None => bare D end.

Lemma numbered_aget D name z : dir_ok D -> numbered D name z <-> (exists l, aget name D = Some (EDir l)) /\ num name = Some z.
Proof.
  intro H. rewrite numbered_iff. split; intros [(l & Hl) Hz]; split; auto; exists l; now apply in_iff in Hl || apply in_iff.
Qed.

Lemma good_resume D n l : dir_ok D -> good D n l -> find_latest D = Some (ck n) /\ resume_point D = Some (ck n).
Proof.
  intros H (R & (l' & E & P) & M). assert (F : find_latest D = Some (ck n)).
  { apply (find_latest_max _ _ n).
    - apply numbered_aget; auto. split; eauto using ck_num.
    - intros name z Hn. apply numbered_aget in Hn; auto. destruct Hn as [(m & Hm) Hz]. eapply M; eauto. }
  split; auto. unfold resume_point. rewrite F. unfold starts_with. now rewrite ck_prefix.
Qed.
Lemma bare_resume D : dir_ok D -> bare D -> resume_point D = None.
Proof.
  intros H B. unfold resume_point. destruct (find_latest D) as [n|] eqn:E; auto.
  destruct (find_latest_some _ _ E) as (z & Hn & _). apply numbered_aget in Hn; auto. destruct Hn as [(l & Hl) Hz].
  unfold starts_with. now rewrite (B _ _ _ Hl Hz).
Qed.

(** changes to an entry without a number, or to one with a smaller number *)
Lemma intact_tmp D D' t cur : num t = None -> off [t] D D' -> intact D cur -> intact D' cur.
Proof.
  intros Ht Ho. assert (K : forall name l z, num name = Some z -> aget name D' = Some (EDir l) -> aget name D = Some (EDir l)).
  { intros name l z Hz H. rewrite <- Ho; auto. intros [E|[]]. subst. congruence. }
  destruct cur as [[n l]|].
  - intros (R & (l' & E & P) & M). split; auto. split.
    + exists l'. split; auto. rewrite Ho; auto. intros [E'|[]]. subst t. rewrite (ck_num _ R) in Ht. discriminate.
    + intros name m z H1 H2. eapply M; eauto.
  - intros B name l z H1 H2. eapply B; eauto.
Qed.
Lemma good_old D D' p n l m : num p = Some m -> m < n -> off [p] D D' -> good D n l -> good D' n l.
Proof.
  intros Hp Hm Ho (R & (l' & E & P) & M). split; auto. split.
  - exists l'. split; auto. rewrite Ho; auto. intros [E'|[]]. subst p. rewrite (ck_num _ R) in Hp. injection Hp as <-. lia.
  - intros name l0 z H1 H2. destruct (string_dec name p) as [->|N]; [left; rewrite Hp in H2; injection H2 as <-; auto|].
    rewrite Ho in H1 by (intros [E'|[]]; congruence). eapply M; eauto.
Qed.

(** ** copying *)
Lemma copy_file_at d f c o : copy_file (A := A) d f c o -> Forall (fun x => touches x = [d]) o.
Proof. induction 1; repeat constructor; auto. Qed.
Lemma copy_files_at d l o : copy_files (A := A) d l o -> Forall (fun x => touches x = [d]) o.
Proof. induction 1 as [|f c l o r H H' IH]; [constructor|]. apply Forall_app. split; eauto using copy_file_at. Qed.

Lemma dir_files_aset D d l : dir_files (aset d (EDir l) D) d = l.
Proof. unfold dir_files. now rewrite aget_aset_same. Qed.
Lemma put_twice D d l f (c : A) : exec (Put d f c) (aset d (EDir l) D) = aset d (EDir (aset f c l)) D.
Proof. cbn [exec]. now rewrite dir_files_aset, aset_aset. Qed.

Lemma copy_file_run d f c o : copy_file d f c o -> forall D l,
  exec_all o (aset d (EDir l) D) = aset d (EDir (aset f c l)) D.
Proof.
  induction 1 as [|c' r H IH]; intros D l.
  - apply put_twice.
  - change (exec_all (Put d f c' :: r) (aset d (EDir l) D)) with (exec_all r (exec (Put d f c') (aset d (EDir l) D))).
    rewrite put_twice, IH. f_equal. f_equal. apply aset_aset.
Qed.
Lemma copy_files_run d l o : copy_files d l o -> forall D l0, NoDup (akeys (l0 ++ l)%list) ->
  exec_all o (aset d (EDir l0) D) = aset d (EDir (l0 ++ l)%list) D.
Proof.
  induction 1 as [|f c l o r H H' IH]; intros D l0 N.
  - now rewrite app_nil_r.
  - rewrite exec_all_app, (copy_file_run _ _ _ _ H). unfold akeys in N. rewrite map_app in N. cbn [map fst] in N.
    rewrite (akeys_aset_notin f c l0).
    + rewrite IH, <- app_assoc; auto. unfold akeys. rewrite <- app_assoc, map_app. exact N.
    + apply NoDup_remove_2 in N. intro Hi. apply N. apply in_or_app. now left.
Qed.

(** ** the new checkpoint *)
Lemma move_in_prefix cross D target l o pre post cur n : in_range n -> target = ck n ->
  dir_ok D -> NoDup (akeys l) -> aget target D = None ->
  (forall name l' z, aget name D = Some (EDir l') -> num name = Some z -> z < n) ->
  intact D cur -> move_in cross D target l o -> o = (pre ++ post)%list ->
  ((intact (exec_all pre D) cur /\ aget target (exec_all pre D) = None) /\ post <> []) \/
  (post = [] /\ good (exec_all pre D) n l /\
   forall name, name <> target -> num name <> None -> aget name (exec_all pre D) = aget name D).
Proof.
  intros R Et OK N Ht Hlt I M E. destruct M as [Ec|id l' q Ec Hid P C].
  - destruct pre as [|x pre]; [left; cbn [app] in E; subst post; split; [split; [exact I|exact Ht]|discriminate]|]. right.
    injection E as <- E. destruct pre, post; try discriminate. split; auto.
    cbn [exec_all fold_left exec]. split.
    + split; auto. split; [exists l; subst target; now rewrite aget_aset_same|].
      intros name l' z H1 H2. rewrite aget_aset in H1. destruct (String.eqb name target) eqn:Q.
      * apply String.eqb_eq in Q. subst. auto.
      * left. eauto.
    + intros name Hn _. now rewrite aget_aset_other.
  - set (tmp := (target ++ "." ++ id ++ ".tmp")%string) in *.
    assert (Nt : num tmp = None). { unfold tmp. rewrite <- !app_string_assoc. apply num_tmp. }
    assert (Tt : tmp <> target). { intro Q. rewrite Q, Et, (ck_num _ R) in Nt. discriminate. }
    destruct (list_eq_dec (fun a b : unit => left (match a, b with tt, tt => eq_refl end)) (map (fun _ => tt) post) []) as [Q|Q].
    + right. assert (post = []) by (destruct post; [auto|discriminate]). subst post. rewrite app_nil_r in E. subst pre.
      assert (F : exec_all (Mkdir tmp :: q ++ [Rename tmp target]) D = aset target (EDir l') (adel tmp (aset tmp (EDir l') D))).
      { change (exec_all (Mkdir tmp :: q ++ [Rename tmp target])%list D) with
          (exec_all (q ++ [Rename tmp target])%list (aset tmp (EDir []) D)).
        rewrite exec_all_app, (copy_files_run _ _ _ C); [|cbn [app]; unfold akeys in *; eapply Permutation_NoDup; [|exact N];
          apply Permutation_map; exact P].
        cbn [app exec_all fold_left exec]. now rewrite aget_aset_same. }
      split; auto. rewrite F.
      assert (O : forall name, name <> target -> num name <> None ->
                aget name (aset target (EDir l') (adel tmp (aset tmp (EDir l') D))) = aget name D).
      { intros name H1 H2. rewrite aget_aset_other by auto. assert (name <> tmp) by congruence.
        rewrite aget_adel_other by auto. now rewrite aget_aset_other. }
      split; [|exact O].
      split; auto. split; [exists l'; subst target; rewrite aget_aset_same; split; auto; now apply Permutation_sym|].
      intros name m z H1 H2. destruct (string_dec name target) as [->|Hn]; [now right|]. left.
      rewrite O in H1; [eauto|auto|congruence].
    + left. assert (Q' : post <> []) by (intro; subst; now apply Q). split; auto.
      destruct (exists_last Q') as (post' & x & ->). clear Q Q'.
      assert (E' : ((Mkdir tmp :: q) ++ [Rename tmp target] = (pre ++ post') ++ [x])%list) by (rewrite <- app_assoc; exact E).
      apply app_inj_tail in E'. destruct E' as [E' _].
      assert (Fo : Forall (fun x => touches x = [tmp]) (pre ++ post')%list).
      { rewrite <- E'. constructor; auto. now apply (copy_files_at _ l'). }
      apply Forall_app in Fo. destruct Fo as [Fo _]. assert (Of := exec_all_at _ _ Fo D). split.
      * now apply (intact_tmp D _ tmp).
      * rewrite Of; [exact Ht|]. intros [Q|[]]. now apply Tt.
Qed.

Lemma move_out_at cross D p o : move_out (A := A) cross D p o -> Forall (fun x => touches x = [p]) o.
Proof.
  intros [H|names H P]; [repeat constructor|]. apply Forall_app. split; [|repeat constructor].
  rewrite Forall_map. now apply Forall_forall.
Qed.

Lemma move_out_gone cross D p o : dir_ok D -> move_out cross D p o -> aget p (exec_all o D) = None.
Proof.
  intros OK [H|names H P].
  - cbn [exec_all fold_left exec]. now apply aget_adel_same.
  - rewrite exec_all_app. cbn [exec_all fold_left exec]. apply aget_adel_same. now apply (exec_all_ok (map _ names)).
Qed.

(** ** one step *)
Definition last_of (cur : option (Z * files A)) : option string := option_map (fun c => ck (fst c)) cur.

Lemma exists_aget D d : exists_in D d = match aget d D with Some _ => true | None => false end.
Proof. unfold exists_in. apply amem_aget. Qed.

Definition fits_step D n (dumped : res (files A)) : Prop :=
  in_range n /\ (forall name l z, aget name D = Some (EDir l) -> num name = Some z -> z < n) /\ aget (ck n) D = None /\
  (forall l, dumped = Ok l -> NoDup (akeys l)).

Lemma drop_some cross D p w ex : drop_old (A := A) cross D (Some p) w ex ->
  (w = [] /\ ex = Some FileNotFoundError /\ exists_in D p = false) \/ (ex = None /\ exists_in D p = true /\ move_out cross D p w).
Proof. intro H. inversion H; subst; auto. Qed.
Lemma drop_none cross D w ex : drop_old (A := A) cross D None w ex -> w = [] /\ ex = None.
Proof. intro H. inversion H; subst; auto. Qed.

(** every prefix of a step leaves the old or the new checkpoint; the whole step the new
    one, unless dumping raised *)
Lemma step_prefix_none cross D cur n dumped ops o pre post : dir_ok D -> intact D cur -> fits_step D n dumped ->
  step_ops cross key D (last_of cur) n dumped ops o -> ops = (pre ++ post)%list ->
  (intact (exec_all pre D) cur /\ aget (ck n) (exec_all pre D) = None) \/ (exists l, dumped = Ok l /\ intact (exec_all pre D) (Some (n, l))).
Proof.
  intros OK I (R & Hlt & Ht & N) S.
  assert (W : forall w ex, write_new cross D (ck n) dumped w ex -> forall pre post, w = (pre ++ post)%list ->
    ((intact (exec_all pre D) cur /\ aget (ck n) (exec_all pre D) = None) /\ (ex = None -> post <> [])) \/
    (exists l, ex = None /\ dumped = Ok l /\ post = [] /\ good (exec_all pre D) n l /\
     forall name, name <> ck n -> num name <> None -> aget name (exec_all pre D) = aget name D)).
  { intros w ex W pre0 post0 E. destruct W as [X|e X Q|l w X Q M].
    - rewrite exists_aget, Ht in X. discriminate.
    - left. destruct pre0; [|discriminate]. split; [split; [exact I|exact Ht]|discriminate].
    - destruct (move_in_prefix cross D (ck n) l w pre0 post0 cur n) as [[H1 H2]|(H1 & H2 & H3)]; auto.
      right. exists l. auto. }
  assert (Main : forall w w' ex, write_new cross D (ck n) dumped w None -> drop_old cross (exec_all w D) (last_of cur) w' ex ->
    (w ++ w' = pre ++ post)%list ->
    (intact (exec_all pre D) cur /\ aget (ck n) (exec_all pre D) = None) \/ (exists l, dumped = Ok l /\ intact (exec_all pre D) (Some (n, l)))).
  { intros w w' ex Hw Hd E.
    assert (Split : (exists u, w = pre ++ u)%list \/ (exists u, pre = w ++ u /\ w' = u ++ post)%list).
    { clear - E. revert w E. induction pre as [|x pre IH]; intros w E; [left; now exists w|].
      destruct w as [|y w].
      - right. exists (x :: pre). auto.
      - cbn [app] in E. injection E as -> E. destruct (IH w E) as [(u & ->)|(u & -> & ->)]; [left; now exists u|right; now exists u]. }
    destruct Split as [(u & Eu)|(u & -> & Eu)].
    - destruct (W _ _ Hw _ _ Eu) as [[H _]|(l & _ & Hl & _ & H & _)]; [now left|right; eauto].
    - destruct (W _ _ Hw w [] (eq_sym (app_nil_r w))) as [[_ H]|(l & _ & Hl & _ & G & Keep)]; [now destruct (H eq_refl)|].
      right. exists l. split; auto. rewrite exec_all_app.
      destruct cur as [[m lm]|]; cbn [last_of option_map fst] in Hd.
      + destruct I as (Rm & (l' & El & _) & _).
        assert (Lm : m < n) by (eapply Hlt; eauto using ck_num).
        apply drop_some in Hd. destruct Hd as [(E0 & _ & X)|(_ & X & Mo)].
        * rewrite E0 in Eu. symmetry in Eu. apply app_eq_nil in Eu. destruct Eu as [-> _]. exact G.
        * apply (good_old (exec_all w D) _ (ck m) n l m); auto using ck_num. apply exec_all_at.
          apply move_out_at in Mo. rewrite Eu in Mo. now apply Forall_app in Mo.
      + apply drop_none in Hd. destruct Hd as [E0 _]. rewrite E0 in Eu. symmetry in Eu. apply app_eq_nil in Eu. destruct Eu as [-> _]. exact G. }
  inversion S; subst; intro E.
  - destruct (W _ _ H _ _ E) as [[H1 _]|(l & H1 & _)]; [now left|discriminate].
  - eapply Main; eauto.
  - eapply Main; eauto.
Qed.

Lemma step_prefix cross D cur n dumped ops o pre post : dir_ok D -> intact D cur -> fits_step D n dumped ->
  step_ops cross key D (last_of cur) n dumped ops o -> ops = (pre ++ post)%list ->
  intact (exec_all pre D) cur \/ (exists l, dumped = Ok l /\ intact (exec_all pre D) (Some (n, l))).
Proof.
  intros OK I F S Q. destruct (step_prefix_none cross D cur n dumped ops o pre post OK I F S Q) as [[H _]|H]; auto.
Qed.

Lemma step_whole cross D cur n dumped ops o : dir_ok D -> intact D cur -> fits_step D n dumped ->
  step_ops cross key D (last_of cur) n dumped ops o ->
  match o with
  | Done t => exists l, dumped = Ok l /\ t = ck n /\ intact (exec_all ops D) (Some (n, l))
  | Raised e => dumped = Err e /\ exec_all ops D = D
  end.
Proof.
  intros OK I F S. assert (F' := F). destruct F as (R & Hlt & Ht & N).
  assert (Main : forall w w' ex, write_new cross D (ck n) dumped w None -> drop_old cross (exec_all w D) (last_of cur) w' ex ->
    ex = None /\ exists l, dumped = Ok l /\ intact (exec_all (w ++ w')%list D) (Some (n, l))).
  { intros w w' ex Hw Hd. inversion Hw as [X| |l w0 X Q M]; subst w0 || subst w.
    - rewrite exists_aget, Ht in X. discriminate.
    - destruct (move_in_prefix cross D (ck n) l w w [] cur n) as [[_ H]|(_ & G & Keep)]; auto; [now rewrite app_nil_r|now destruct H|].
      assert (EX : ex = None).
      { destruct cur as [[m lm]|]; cbn [last_of option_map fst] in Hd; [|now apply drop_none in Hd].
        apply drop_some in Hd. destruct Hd as [(_ & _ & X')|(E0 & _)]; auto. destruct I as (Rm & (l' & El & _) & _).
        assert (Lm : m < n) by (eapply Hlt; eauto using ck_num).
        rewrite exists_aget, Keep, El in X'; [discriminate| |].
        - intro Q'. apply ck_inj in Q'; auto. lia.
        - rewrite ck_num; auto. discriminate. }
      split; auto. exists l. split; auto. rewrite exec_all_app.
      destruct cur as [[m lm]|]; cbn [last_of option_map fst] in Hd.
      + destruct I as (Rm & (l' & El & _) & _).
        assert (Lm : m < n) by (eapply Hlt; eauto using ck_num).
        apply drop_some in Hd. destruct Hd as [(-> & _)|(_ & _ & Mo)]; [exact G|].
        apply (good_old (exec_all w D) _ (ck m) n l m); auto using ck_num. apply exec_all_at. eapply move_out_at; eauto.
      + apply drop_none in Hd. destruct Hd as [-> _]. exact G. }
  inversion S as [o0 e Hw|o1 o2 e Hw Hd|o1 o2 Hw Hd]; subst.
  - inversion Hw; subst. auto.
  - destruct (Main _ _ _ Hw Hd) as [H _]. discriminate.
  - destruct (Main _ _ _ Hw Hd) as [_ (l & Hl & H)]. exists l. auto.
Qed.

(** ** histories *)
Lemma fits_increasing D ev n dumped : dir_ok D -> increasing key D ev -> key_of ev = Some (n, dumped) -> fits_step D n dumped.
Proof.
  intros OK H E. destruct (H _ _ E) as (R & L & T & N). split; auto. split; [|split; auto].
  - intros name l z H1 H2. apply (L name). apply numbered_aget; eauto.
  - destruct (aget (ck n) D) as [e|] eqn:Q; auto. apply aget_some_in in Q. now apply T in Q.
Qed.

Lemma intact_resume D cur : dir_ok D -> intact D cur -> resume_point D = last_of cur.
Proof.
  intros OK I. destruct cur as [[n l]|]; [now apply good_resume with (l := l)|now apply bare_resume].
Qed.

Lemma history_intact evs D last : history key evs D last ->
  dir_ok D /\ exists cur, expected evs cur /\ intact D cur /\ last = last_of cur.
Proof.
  induction 1 as [D OK B|evs D last ev D' last' H (OK & cur & X & I & ->) Hh Hi].
  - split; auto. exists None. split; [constructor|]. split; auto. intros name l z H1 H2. apply (B name z).
    apply numbered_aget; eauto.
  - destruct Hh as [cross n dumped ops o S|cross n dumped ops o pre post S E|].
    + split; [now apply exec_all_ok|].
      assert (F := fits_increasing _ _ _ _ OK Hi eq_refl). assert (G := step_whole _ _ _ _ _ _ _ OK I F S).
      destruct o as [t|e].
      * destruct G as (l & -> & -> & G). exists (Some (n, l)). split; [econstructor; eauto|auto].
      * destruct G as [-> ->]. exists cur. split; [now constructor|auto].
    + assert (OK' : dir_ok (exec_all pre D)) by now apply exec_all_ok. split; auto.
      assert (F := fits_increasing _ _ _ _ OK Hi eq_refl).
      destruct (step_prefix _ _ _ _ _ _ _ _ _ OK I F S E) as [G|(l & -> & G)].
      * exists cur. split; [now constructor|]. split; auto. now apply intact_resume.
      * exists (Some (n, l)). split; [eapply exp_crash_new; eauto|]. split; auto. now apply (intact_resume _ (Some (n, l))).
    + split; auto. exists cur. split; [now constructor|]. split; auto. now apply intact_resume.
Qed.

Lemma history_finds evs D last : history key evs D last ->
  last = resume_point D /\ exists cur, expected evs cur /\
  match cur with
  | None => resume_point D = None
  | Some (n, l) => resume_point D = Some (ck n) /\ find_latest D = Some (ck n) /\ complete D (ck n) l
  end.
Proof.
  intro H. destruct (history_intact _ _ _ H) as (OK & cur & X & I & ->). split; [symmetry; now apply intact_resume|].
  exists cur. split; auto. destruct cur as [[n l]|]; [|now apply bare_resume].
  destruct (good_resume _ _ _ OK I) as [F F']. split; auto. split; auto. destruct I as (_ & (l' & E & P) & _).
  exists l'. split; auto. now apply aget_some_in.
Qed.
End Key.

(** ** a step on its own *)
Lemma step_new cross key D last n l ops t : dir_ok D -> NoDup (akeys l) -> aget (ckpt_name key n) D = None ->
  last <> Some (ckpt_name key n) -> step_ops cross key D last n (Ok l) ops (Done t) ->
  t = ckpt_name key n /\ complete (exec_all ops D) t l.
Proof.
  intros OK N Ht Hl S. inversion S as [| |o1 o2 Hw Hd]; subst. split; auto.
  assert (K : exists l', aget (ckpt_name key n) (exec_all o1 D) = Some (EDir l') /\ Permutation l' l).
  { inversion Hw as [X| |l0 w X Q M]; subst; [rewrite exists_aget, Ht in X; discriminate|]. injection Q as <-.
    destruct M as [Ec|id l' q Ec Hid P C].
    - exists l. cbn [exec_all fold_left exec]. now rewrite aget_aset_same.
    - exists l'. split; [|now apply Permutation_sym].
      set (tmp := (ckpt_name key n ++ "." ++ id ++ ".tmp")%string) in *.
      change (exec_all (Mkdir tmp :: q ++ [Rename tmp (ckpt_name key n)])%list D) with
          (exec_all (q ++ [Rename tmp (ckpt_name key n)])%list (aset tmp (EDir []) D)).
      rewrite exec_all_app, (copy_files_run _ _ _ C); [|cbn [app]; unfold akeys in *; eapply Permutation_NoDup; [|exact N];
          apply Permutation_map; exact P].
      cbn [app exec_all fold_left exec]. rewrite aget_aset_same. now rewrite aget_aset_same. }
  destruct K as (l' & K & P). exists l'. split; auto. apply aget_some_in. rewrite exec_all_app.
  destruct last as [p|]; [|apply drop_none in Hd; destruct Hd as [-> _]; exact K].
  apply drop_some in Hd. destruct Hd as [(-> & _)|(_ & _ & M)]; [exact K|].
  rewrite (exec_all_at p o2); [exact K|eapply move_out_at; eauto|]. intros [Q|[]]. subst. now apply Hl.
Qed.

Lemma step_same cross key D n dumped ops t : dir_ok D ->
  step_ops cross key D (Some (ckpt_name key n)) n dumped ops (Done t) -> aget (ckpt_name key n) (exec_all ops D) = None.
Proof.
  intros OK S. inversion S as [| |o1 o2 Hw Hd]; subst. rewrite exec_all_app.
  apply drop_some in Hd. destruct Hd as [(_ & H & _)|(_ & _ & M)]; [discriminate|]. eapply move_out_gone; eauto. now apply exec_all_ok.
Qed.

Lemma step_stale cross key D n p dumped ops o : aget p D = None -> p <> ckpt_name key n -> 
  (forall id, p <> (ckpt_name key n ++ "." ++ id ++ ".tmp")%string) ->
  step_ops cross key D (Some p) n dumped ops o -> exists e, o = Raised e /\ aget p (exec_all ops D) = None.
Proof.
  intros Hp Hn Ht S.
  assert (W : forall w ex, write_new cross D (ckpt_name key n) dumped w ex -> aget p (exec_all w D) = None).
  { intros w ex W. destruct W as [X|e X Q|l w X Q M]; auto. rewrite <- Hp. destruct M as [Ec|id l' q Ec Hid P C].
    - apply exec_off. intros [E|[]]. congruence.
    - apply (exec_all_off [(ckpt_name key n ++ "." ++ id ++ ".tmp")%string; ckpt_name key n]).
      + intros x [<-|Hx] m Hm; [simpl in *; tauto|]. apply in_app_or in Hx. destruct Hx as [Hx|[<-|[]]].
        * apply copy_files_at in C. rewrite Forall_forall in C. rewrite (C _ Hx) in Hm. simpl in *; tauto.
        * exact Hm.
      + intros [E|[E|[]]]; [now apply (Ht id)|congruence]. }
  inversion S as [o0 e Hw|o1 o2 e Hw Hd|o1 o2 Hw Hd]; subst.
  - exists e. split; auto. eapply W; eauto.
  - exists e. split; auto. rewrite exec_all_app. assert (Q := W _ _ Hw). apply drop_some in Hd. destruct Hd as [(-> & _)|(H & _)]; [exact Q|discriminate].
  - assert (Q := W _ _ Hw). apply drop_some in Hd. destruct Hd as [(_ & H & _)|(_ & X & _)]; [discriminate|]. rewrite exists_aget, Q in X. discriminate.
Qed.
End Crash.

(** ** statements for PropsCkpt.v *)
Lemma find_number_order {A} (D D' : fs A) name name' z z' : Permutation D D' ->
  find_latest D = Some name -> find_latest D' = Some name' -> numbered D name z -> numbered D' name' z' -> z = z'.
Proof.
  intros P F F' H H'. destruct (find_latest_some _ _ F) as (y & Hy & M), (find_latest_some _ _ F') as (y' & Hy' & M').
  rewrite (numbered_fun _ _ _ _ H Hy), (numbered_fun _ _ _ _ H' Hy').
  assert (y <= y') by (eapply M'; eapply numbered_perm; eauto).
  assert (y' <= y) by (eapply M; eapply numbered_perm; [apply Permutation_sym|]; eauto). lia.
Qed.

Lemma ckpt_numbered {A} (D : fs A) key n l : in_range n -> In (ckpt_name key n, EDir l) D -> numbered D (ckpt_name key n) n.
Proof. intros R H. apply numbered_iff. split; [eauto|]. now apply ck_num. Qed.

Lemma ckpt_misread {A} (D : fs A) key n l : ~ in_range n -> In (ckpt_name key n, EDir l) D ->
  numbered D (ckpt_name key n) (Z.abs n mod 10 ^ 12) /\ ~ numbered D (ckpt_name key n) n.
Proof.
  intros R H. assert (N : numbered D (ckpt_name key n) (Z.abs n mod 10 ^ 12)).
  { apply numbered_iff. split; [eauto|]. unfold ckpt_name. rewrite <- (app_string_assoc "latest-" key). now apply format_num_out. }
  split; auto. intro N'. assert (E := numbered_fun _ _ _ _ N N').
  assert (0 <= Z.abs n mod 10 ^ 12 < 10 ^ 12) by (apply Z.mod_pos_bound; lia). apply R. unfold in_range. lia.
Qed.

Lemma expected_from {A} (evs : list (event A)) c : expected evs c ->
  (forall n l, c = Some (n, l) -> exists ev, In ev evs /\ key_of ev = Some (n, Ok l)) /\
  (forall n l t, In (Step n (Ok l) (Done t)) evs -> c <> None).
Proof.
  induction 1 as [|evs c n l t H [IH1 IH2]|evs c n e H [IH1 IH2]|evs c n d H [IH1 IH2]|evs c n l H [IH1 IH2]|evs c H [IH1 IH2]].
  - split; [discriminate|contradiction].
  - split; [intros n' l' E; injection E as <- <-; eexists; split; [now left|reflexivity]|discriminate].
  - split.
    + intros n' l' E. destruct (IH1 _ _ E) as (ev & H1 & H2). exists ev. split; auto. now right.
    + intros n' l' t [E|E]; [discriminate|eauto].
  - split.
    + intros n' l' E. destruct (IH1 _ _ E) as (ev & H1 & H2). exists ev. split; auto. now right.
    + intros n' l' t [E|E]; [discriminate|eauto].
  - split; [intros n' l' E; injection E as <- <-; eexists; split; [now left|reflexivity]|discriminate].
  - split.
    + intros n' l' E. destruct (IH1 _ _ E) as (ev & H1 & H2). exists ev. split; auto. now right.
    + intros n' l' t [E|E]; [discriminate|eauto].
Qed.

Lemma history_never_none {A} key (evs : list (event A)) D last n l t :
  history key evs D last -> In (Step n (Ok l) (Done t)) evs ->
  exists n' l', resume_point D = Some (ckpt_name key n') /\ complete D (ckpt_name key n') l' /\
    exists ev, In ev evs /\ key_of ev = Some (n', Ok l').
Proof.
  intros H Hi. destruct (history_finds _ _ _ _ H) as (_ & cur & X & R). destruct (expected_from _ _ X) as [E1 E2].
  destruct cur as [[n' l']|]; [|now destruct (E2 _ _ _ Hi)]. exists n', l'. destruct R as (R1 & _ & R2). auto.
Qed.

Lemma history_done {A} key n l t (evs : list (event A)) D last :
  history key (Step n (Ok l) (Done t) :: evs) D last ->
  t = ckpt_name key n /\ last = Some t /\ resume_point D = Some t /\ complete D t l.
Proof.
  intro H. destruct (history_finds _ _ _ _ H) as (L & cur & X & R).
  assert (Et : t = ckpt_name key n).
  { inversion H as [|evs' D0 last0 ev D' last' H1 H2 H3]; subst. inversion H2; subst.
    match goal with S : step_ops _ _ _ _ _ _ _ (Done _) |- _ => inversion S; subst end. reflexivity. }
  inversion X; subst. destruct R as (R1 & _ & R2). rewrite R1. auto.
Qed.

Lemma step_leaves {A} cross key (D : fs A) last n l ops t :
  dir_ok D -> NoDup (map fst l) -> (forall e, ~ In (ckpt_name key n, e) D) -> last <> Some (ckpt_name key n) ->
  step_ops cross key D last n (Ok l) ops (Done t) ->
  t = ckpt_name key n /\ complete (exec_all ops D) t l.
Proof.
  intros OK N Hn Hl S. eapply step_new; eauto. destruct (aget (ckpt_name key n) D) as [e|] eqn:E; auto.
  apply aget_some_in in E. now apply Hn in E.
Qed.

Lemma aget_no_in {A} (D : fs A) name : aget name D = None -> forall e, ~ In (name, e) D.
Proof.
  intros H e Hi. apply aget_none_notin in H. apply H. unfold akeys. apply in_map_iff. now exists (name, e).
Qed.

Lemma happens_ok {A} key (D D' : fs A) last ev last' : happens key D last ev D' last' -> dir_ok D -> dir_ok D'.
Proof. intros Hh OK. destruct Hh; auto using exec_all_ok. Qed.

Lemma repeated_key {A} key (D D1 D2 : fs A) last n d d' t t' last1 last2 :
  dir_ok D -> happens key D last (Step n d (Done t)) D1 last1 -> happens key D1 last1 (Step n d' (Done t')) D2 last2 ->
  last2 = Some (ckpt_name key n) /\ forall e, ~ In (ckpt_name key n, e) D2.
Proof.
  intros OK H1 H2. assert (OK1 := happens_ok _ _ _ _ _ _ H1 OK).
  assert (E : last1 = Some (ckpt_name key n)).
  { inversion H1; subst. match goal with S : step_ops _ _ _ _ _ _ _ (Done _) |- _ => inversion S; subst end. reflexivity. }
  subst last1. inversion H2; subst. split.
  - match goal with S : step_ops _ _ _ _ _ _ _ (Done _) |- _ => inversion S; subst end. reflexivity.
  - apply aget_no_in. eapply step_same; eauto.
Qed.

Lemma stale_raises {A} key (D D' : fs A) m n d o last' :
  dir_ok D -> in_range m -> (forall e, ~ In (ckpt_name key m, e) D) -> ckpt_name key n <> ckpt_name key m ->
  happens key D (Some (ckpt_name key m)) (Step n d o) D' last' ->
  (exists e, o = Raised e) /\ last' = Some (ckpt_name key m) /\ (forall e, ~ In (ckpt_name key m, e) D').
Proof.
  intros OK R Hm Hn H. inversion H as [cross n' d' ops o' S| |]; subst.
  assert (G1 : aget (ckpt_name key m) D = None).
  { destruct (aget (ckpt_name key m) D) as [e|] eqn:E; auto. apply aget_some_in in E. now apply Hm in E. }
  assert (G2 : forall id, ckpt_name key m <> (ckpt_name key n ++ "." ++ id ++ ".tmp")%string).
  { intros id E. assert (X := ck_num key m R). rewrite E, <- !app_string_assoc, num_tmp in X. discriminate. }
  destruct (step_stale _ _ _ _ _ _ _ _ G1 (not_eq_sym Hn) G2 S) as (e & -> & G).
  split; eauto. split; auto. now apply aget_no_in.
Qed.
