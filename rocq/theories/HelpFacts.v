(** HelpFacts.v -- facts about [help] (C50, C56). *)
From Coq Require Import Reals Lra Sorting.Sorted.
From Verif Require Import Base Value Schema Rewrite Sched Types Asdict FromDict Checker SpecNum SpecNames FloatFacts SpecSched FloatOps NamesFloat HelpM SpecHelp Induct.

(** ** The full listing *)
Fixpoint outline (pre : list string) (t : sty) : list (list string * line) :=
  match t with
  | SList i => outline pre i
  | SOption i => outline pre i
  | SStruct _ fs _ =>
      concat (map (fun kf : string * (sty * fmeta) =>
        let p := (pre ++ [fm_name (snd (snd kf))])%list in
        (p, listed (length pre) (snd kf)) :: outline p (fst (snd kf))) fs)
  | _ => []
  end.

Lemma not_section t d : is_struct (unwrap_container t) = false -> print_type true d t = [].
Proof. induction t using sty_ind'; cbn [unwrap_container print_type is_struct]; auto; discriminate. Qed.

Lemma not_section_outline t p : is_struct (unwrap_container t) = false -> outline p t = [].
Proof. induction t using sty_ind'; cbn [unwrap_container outline is_struct]; auto; discriminate. Qed.

Lemma firstn_app_exact {A} (a b : list A) : firstn (length a) (a ++ b) = a.
Proof. rewrite firstn_app, firstn_all, Nat.sub_diag. simpl. apply app_nil_r. Qed.

Lemma read_print t : forall pre above r, firstn (length pre) above = pre ->
  exists above', read_listing above (print_type true (length pre) t ++ r) = (outline pre t ++ read_listing above' r)%list /\
    firstn (length pre) above' = pre.
Proof.
  induction t using sty_ind'; intros pre above r0 F; try (exists above; split; [reflexivity|exact F]).
  - cbn [print_type outline]. auto.
  - rename H into IH. cbn [print_type outline]. revert above F. induction fs as [|[k [ft m]] fs IHfs]; intros above F.
    { exists above; split; [reflexivity|exact F]. }
    inversion IH as [|? ? I1 I2]; subst. specialize (IHfs I2). cbn [snd fst] in I1.
    cbn [map concat fst snd]. rewrite <- !app_assoc.
    set (tl := concat (map _ fs)) in *. set (ol := concat (map (fun kf : string * (sty * fmeta) => ((pre ++ [fm_name (snd (snd kf))])%list, listed (length pre) (snd kf)) :: outline (pre ++ [fm_name (snd (snd kf))])%list (fst (snd kf))) fs)) in *.
    unfold listed. change (section (fst (ft, m))) with (is_struct (unwrap_container ft)). cbn [fst snd].
    destruct (is_struct (unwrap_container ft)) eqn:Sx.
    + cbn [read_listing app]. rewrite F.
      set (p := (pre ++ [fm_name m])%list) in *.
      assert (L : length p = S (length pre)) by (unfold p; rewrite app_length; simpl; lia).
      rewrite <- L. destruct (I1 p p (tl ++ r0)%list) as (ab & E & F').
      { now rewrite firstn_all. }
      rewrite E. assert (F2 : firstn (length pre) ab = pre).
      { assert (Q : firstn (length pre) (firstn (length p) ab) = firstn (length pre) ab) by (rewrite firstn_firstn; f_equal; lia).
        rewrite <- Q, F'. unfold p. apply firstn_app_exact. }
      destruct (IHfs ab F2) as (ab' & E' & F3). exists ab'. split; [|exact F3]. rewrite E'. now rewrite app_assoc.
    + cbn [read_listing app]. rewrite F. rewrite (not_section_outline _ _ Sx).
      destruct (IHfs (pre ++ [fm_name m])%list (firstn_app_exact _ _)) as (ab' & E' & F3). exists ab'. split; [|exact F3].
      cbn [app]. now rewrite E'.
  - cbn [print_type outline]. auto.
Qed.

Lemma outline_in t : forall pre p l, In (p, l) (outline pre t) <->
  exists q f, p = (pre ++ q)%list /\ field_in true t q f /\ l = listed (length p - 1) f.
Proof.
  induction t using sty_ind'; intros pre p' ln; try (cbn [outline]; split; [intros []|intros (q & f & _ & F & _); inversion F]; fail).
  - cbn [outline]. rewrite IHt. split; intros (q & f & A & B & C); exists q, f; repeat split; auto.
    + now constructor.
    + now inversion B.
  - rename H into IH. cbn [outline]. rewrite in_concat. split.
    + intros (x & Ix & Il). apply in_map_iff in Ix. destruct Ix as ([k [ft m]] & <- & Ik). cbn [fst snd] in Il.
      destruct Il as [E|Il].
      * injection E as <- <-. exists [fm_name m], (ft, m). repeat split.
        -- apply (fi_here true _ _ _ k (ft, m)). exact Ik.
        -- rewrite app_length. simpl. f_equal. lia.
      * rewrite Forall_forall in IH. specialize (IH _ Ik). cbn [fst snd] in IH. apply IH in Il. destruct Il as (q & f & -> & Fi & ->).
        exists (fm_name m :: q), f. rewrite <- app_assoc. repeat split. eapply (fi_sub true _ _ _ k (ft, m)); eauto.
    + intros (q & f & -> & Fi & ->). inversion Fi as [n0 fs0 v0 k f0 Ik E1 E2 E3|n0 fs0 v0 k g q0 f0 Ik Fg E1 E2 E3| |]; subst.
      * eexists. split; [apply in_map_iff; exists (k, f); split; [reflexivity|exact Ik]|]. cbn [fst snd]. left. f_equal.
        f_equal. rewrite app_length. simpl. lia.
      * eexists. split; [apply in_map_iff; exists (k, g); split; [reflexivity|exact Ik]|]. cbn [fst snd]. right.
        rewrite Forall_forall in IH. specialize (IH _ Ik). cbn [fst snd] in IH. apply IH.
        exists q0, f. rewrite <- app_assoc. auto.
  - cbn [outline]. rewrite IHt. split; intros (q & f & A & B & C); exists q, f; repeat split; auto.
    + now constructor.
    + now inversion B.
Qed.

Lemma listing s p l : In (p, l) (read_listing [] (help_schema s "")) <->
  exists f, field_in true s p f /\ l = listed (length p - 1) f.
Proof.
  cbn [help_schema]. destruct (read_print s [] [] [] eq_refl) as (ab & E & _).
  rewrite app_nil_r in E. cbn [length] in E. rewrite E. cbn [read_listing]. rewrite app_nil_r, outline_in. simpl.
  split; [intros (q & f & -> & A & B)|intros (f & A & B)]; eauto.
Qed.

(** ** Queries *)
Definition full (h : hit) : list string := (hit_path h ++ [fm_name (hit_meta h)])%list.

Lemma find_in q t : forall path h, In h (find_fields q path t) <->
  exists p f, field_in false t p f /\ full h = (path ++ p)%list /\ snd h = f /\ hit_sim h = name_similarity (fm_name (snd f)) q.
Proof.
  induction t using sty_ind'; intros path h; try (cbn [find_fields]; split; [intros []|intros (p' & f & F & _); inversion F; discriminate]; fail).
  rename H into IH. cbn [find_fields]. rewrite in_concat. split.
  - intros (x & Ix & Il). apply in_map_iff in Ix. destruct Ix as ([k [ft m]] & <- & Ik). cbn [fst snd] in Il. destruct Il as [<-|Il].
    + exists [fm_name m], (ft, m). repeat split. apply (fi_here false _ _ _ k (ft, m)). exact Ik.
    + rewrite Forall_forall in IH. specialize (IH _ Ik). cbn [fst snd] in IH. apply IH in Il. destruct Il as (p & f & Fi & A & B & C).
      exists (fm_name m :: p), f. repeat split; auto.
      * eapply (fi_sub false _ _ _ k (ft, m)); eauto.
      * rewrite A, <- app_assoc. reflexivity.
  - intros (p & f & Fi & A & B & C). inversion Fi as [n0 fs0 v0 k f0 Ik E1 E2 E3|n0 fs0 v0 k g q0 f0 Ik Fg E1 E2 E3| |]; subst; try discriminate.
    + eexists. split; [apply in_map_iff; exists (k, snd h); split; [reflexivity|exact Ik]|]. cbn [fst snd]. left.
      destruct h as [[hp hs] [ht hm]]. unfold full, hit_path, hit_meta in A. cbn [fst snd] in *. unfold hit_sim in C. cbn [fst snd] in C. subst hs.
      apply app_inj_tail in A. destruct A as [-> _]. reflexivity.
    + eexists. split; [apply in_map_iff; exists (k, g); split; [reflexivity|exact Ik]|]. cbn [fst snd]. right.
      rewrite Forall_forall in IH. specialize (IH _ Ik). cbn [fst snd] in IH. apply IH.
      exists q0, (snd h). repeat split; auto. rewrite A, <- app_assoc. reflexivity.
Qed.

(** similarities *)
Definition good (h : hit) : Prop := double (hit_sim h) /\ (0 <= real_of (hit_sim h))%R.

Lemma leb_real x y : double x -> double y -> SFleb x y = true <-> (real_of x <= real_of y)%R.
Proof.
  intros X Y. pose proof (ltb_real y x Y X) as L. pose proof (ltb_real x y X Y) as L'. pose proof (eqb_real x y X Y) as Q.
  assert (SFleb x y = SFltb x y || SFeqb x y).
  { unfold SFleb, SFltb, SFeqb. destruct (SFcompare x y) as [[]|]; reflexivity. }
  rewrite H. rewrite orb_true_iff, L', Q. split; [intros [?|?]; lra|intros ?; destruct (Rle_lt_or_eq_dec _ _ H0); auto].
Qed.

Lemma sim_good q s : short q -> short s -> double (name_similarity s q) /\ (0 <= real_of (name_similarity s q) <= real_of f64_1_1)%R.
Proof.
  intros Q T. destruct f64_1_1_gt as [D1 R1]. destruct (string_dec s q) as [->|N].
  - rewrite sim_equal. split; [exact D1|lra].
  - destruct (sim_range s q T Q N) as [D R]. split; [exact D|lra].
Qed.

Section Query.
  Variable q : string.
  Hypothesis Q : short q.

  Definition fine (h : hit) : Prop := short (fm_name (hit_meta h)) /\ hit_sim h = name_similarity (fm_name (hit_meta h)) q.
  Definition named (h : hit) : bool := String.eqb (fm_name (hit_meta h)) q.

  Lemma fine_double h : fine h -> double (hit_sim h) /\ (0 <= real_of (hit_sim h) <= real_of f64_1_1)%R.
  Proof. intros [A ->]. now apply sim_good. Qed.

  Lemma named_sim h : fine h -> named h = true -> hit_sim h = f64_1_1.
  Proof. intros [_ E] N. apply String.eqb_eq in N. now rewrite E, N, sim_equal. Qed.

  Lemma unnamed_sim h : fine h -> named h = false -> (real_of (hit_sim h) < real_of f64_1_1)%R.
  Proof.
    intros [A E] N. apply String.eqb_neq in N. rewrite E. destruct (sim_range _ q A Q N) as [_ R]. pose proof f64_1_1_gt. lra.
  Qed.

  Definition above (h g : hit) : Prop := (real_of (hit_sim g) <= real_of (hit_sim h))%R.

  Lemma insert_in h l x : In x (insert_hit h l) <-> x = h \/ In x l.
  Proof.
    induction l as [|g l IH]; simpl; [intuition|]. destruct (SFltb (hit_sim h) (hit_sim g)); simpl; [|intuition].
    rewrite IH. intuition.
  Qed.

  Lemma sorted_in l x : In x (sorted_hits l) <-> In x l.
  Proof. induction l as [|h l IH]; simpl; [tauto|]. rewrite insert_in, IH. intuition. Qed.

  Lemma insert_sorted h l : fine h -> (forall g, In g l -> fine g) -> StronglySorted above l ->
    StronglySorted above (insert_hit h l).
  Proof.
    intros F Fl. induction l as [|g l IH]; intros S; simpl; [repeat constructor|].
    apply StronglySorted_inv in S. destruct S as [S1 S2]. rewrite Forall_forall in S2.
    assert (L := ltb_real _ _ (proj1 (fine_double h F)) (proj1 (fine_double g (Fl g (or_introl eq_refl))))).
    destruct (SFltb (hit_sim h) (hit_sim g)) eqn:E.
    - assert (X : (real_of (hit_sim h) < real_of (hit_sim g))%R) by (apply L; reflexivity).
      constructor; [apply IH; [intros; apply Fl; right; auto|exact S1]|].
      apply Forall_forall. intros x Ix. apply insert_in in Ix. destruct Ix as [->|Ix]; [unfold above; lra|auto].
    - assert (X : ~ (real_of (hit_sim h) < real_of (hit_sim g))%R) by (intros Y; apply L in Y; discriminate).
      constructor; [constructor; [exact S1|now apply Forall_forall]|].
      apply Forall_forall. intros x [<-|Ix]; [unfold above; lra|]. specialize (S2 x Ix). unfold above in *. lra.
  Qed.

  Lemma sorted_sorted l : (forall g, In g l -> fine g) -> StronglySorted above (sorted_hits l).
  Proof.
    induction l as [|h l IH]; intros F; simpl; [constructor|]. apply insert_sorted; [apply F; now left| |].
    - intros g Ig. apply F. right. now apply sorted_in.
    - apply IH. intros; apply F; now right.
  Qed.

  (** the exact matches come first, in the order of declaration *)
  Lemma insert_named h a b : fine h -> named h = true -> (forall g, In g (a ++ b)%list -> fine g) ->
    insert_hit h (a ++ b) = h :: (a ++ b)%list.
  Proof.
    intros F N Fl. destruct (a ++ b)%list as [|g l]; [reflexivity|]. cbn [insert_hit].
    destruct (SFltb (hit_sim h) (hit_sim g)) eqn:E; [|reflexivity]. exfalso.
    assert (Fg : fine g) by (apply Fl; now left). destruct (fine_double g Fg) as [Dg Rg]. destruct (fine_double h F) as [Dh _].
    rewrite (ltb_real _ _ Dh Dg), (named_sim h F N) in E. lra.
  Qed.

  Lemma insert_unnamed h a : forall b, fine h -> named h = false -> (forall g, In g a -> fine g /\ named g = true) ->
    insert_hit h (a ++ b) = (a ++ insert_hit h b)%list.
  Proof.
    induction a as [|g a IH]; intros b F N Fl; [reflexivity|]. cbn [app insert_hit].
    destruct (Fl g (or_introl eq_refl)) as [Fg Ng].
    assert (E : SFltb (hit_sim h) (hit_sim g) = true).
    { apply (ltb_real _ _ (proj1 (fine_double h F)) (proj1 (fine_double g Fg))). rewrite (named_sim g Fg Ng). now apply unnamed_sim. }
    rewrite E. f_equal. apply IH; auto. intros; apply Fl; now right.
  Qed.

  Lemma sorted_split l : (forall g, In g l -> fine g) ->
    sorted_hits l = (filter named l ++ sorted_hits (filter (fun h => negb (named h)) l))%list.
  Proof.
    induction l as [|h l IH]; intros F; [reflexivity|]. cbn [filter]. change (sorted_hits (h :: l)) with (insert_hit h (sorted_hits l)).
    assert (Fh : fine h) by (apply F; now left). assert (Fl : forall g, In g l -> fine g) by (intros; apply F; now right).
    rewrite (IH Fl). destruct (named h) eqn:N; cbn [negb].
    - cbn [app]. apply insert_named; auto. intros g Ig. apply in_app_iff in Ig.
      destruct Ig as [Ig|Ig]; [apply filter_In in Ig|apply sorted_in, filter_In in Ig]; apply Fl; tauto.
    - rewrite insert_unnamed; auto. intros g Ig. apply filter_In in Ig. destruct Ig; auto.
  Qed.

  (** what the loop prints *)
  Lemma answers_app a b : answers (a ++ b) = (answers a ++ answers b)%list.
  Proof. induction a as [|[] a IH]; simpl; auto. now rewrite IH. Qed.

  Lemma print_no_answers t : forall r d, answers (print_type r d t) = [].
  Proof.
    induction t using sty_ind'; intros r0 d; cbn [print_type]; auto. rename H into IH.
    induction fs as [|[k [ft m]] fs IHfs]; [reflexivity|]. inversion IH as [|? ? I1 I2]; subst. cbn [map concat fst snd].
    rewrite answers_app, (IHfs I2), app_nil_r. cbn [fst snd] in I1. destruct (is_struct (unwrap_container ft)); [|reflexivity].
    cbn [answers]. destruct r0; [apply I1|reflexivity].
  Qed.

  Lemma show_hit_answers h : answers (show_hit h) = [full h].
  Proof.
    unfold show_hit. destruct (is_struct (unwrap_container (hit_type h))); [|reflexivity].
    destruct (SFleb f64_one (hit_sim h)); [|reflexivity]. cbn [answers]. now rewrite print_no_answers.
  Qed.

  (** the loop prints an initial segment *)
  Lemma show_prefix best l : forall i prev, exists a b, l = (a ++ b)%list /\
    answers (show_hits q best i prev l) = map full a /\
    match b with [] => True | h :: _ => exists i' prev', stop_here q best i' prev' h = true end.
  Proof.
    induction l as [|h l IH]; intros i prev; cbn [show_hits]; [exists [], []; repeat split|].
    destruct (stop_here q best i prev h) eqn:St.
    - exists [], (h :: l). repeat split. eauto.
    - destruct (IH (S i) (hit_sim h)) as (a & b & -> & E & B). exists (h :: a), b. repeat split; auto.
      rewrite answers_app, show_hit_answers, E. reflexivity.
  Qed.

  Lemma stop_below best i prev h : fine h -> stop_here q best i prev h = true -> (real_of (hit_sim h) < 1)%R.
  Proof.
    intros F St. unfold stop_here in St. rewrite !andb_true_iff in St. destruct St as [[_ St] _].
    apply (ltb_real _ _ (proj1 (fine_double h F)) (proj1 double_one)) in St. now rewrite (proj2 double_one) in St.
  Qed.

  Lemma show_first best i h l : fine h -> answers (show_hits q best i f64_neg1 (h :: l)) = full h :: answers (show_hits q best (S i) (hit_sim h) l).
  Proof.
    intros F. cbn [show_hits]. assert (St : stop_here q best i f64_neg1 h = false).
    { unfold stop_here. destruct (fine_double h F) as [D [R _]].
      assert (Dn : double f64_neg1 /\ (real_of f64_neg1 < 0)%R).
      { split; [split; reflexivity|]. unfold f64_neg1. rewrite real_finite. simpl. lra. }
      destruct (SFleb (hit_sim h) f64_neg1) eqn:E; [|reflexivity]. apply (leb_real _ _ D (proj1 Dn)) in E. lra. }
    rewrite St, answers_app, show_hit_answers. reflexivity.
  Qed.
End Query.

Lemma field_in_wrap t p f : field_in false t p f -> field_in true t p f.
Proof. induction 1; try discriminate; econstructor; eauto. Qed.

Lemma field_in_ne w t p f : field_in w t p f -> p <> [].
Proof. induction 1; auto; discriminate. Qed.

Lemma field_in_last w t p f d : field_in w t p f -> last p d = fm_name (snd f).
Proof. induction 1; auto. apply field_in_ne in H0. destruct p; [congruence|exact IHfield_in]. Qed.

Lemma full_last h d : last (full h) d = fm_name (hit_meta h).
Proof. unfold full. apply last_last. Qed.

Lemma hits_fine q s : every_name short s -> forall h, In h (find_fields q [] s) -> fine q h.
Proof.
  intros N h I. apply find_in in I. destruct I as (p & f & Fi & _ & E & Sm). unfold fine, hit_meta. rewrite E.
  split; [|exact Sm]. eapply N. apply field_in_wrap. exact Fi.
Qed.

Lemma hits_full q s p : (exists h, In h (find_fields q [] s) /\ full h = p) <-> exists f, field_in false s p f.
Proof.
  split.
  - intros (h & I & <-). apply find_in in I. destruct I as (p & f & Fi & -> & _). eauto.
  - intros (f & Fi). 
    assert (P : p <> []) by (eapply field_in_ne; eauto).
    exists (removelast p, name_similarity (fm_name (snd f)) q, f).
    assert (E : (removelast p ++ [fm_name (snd f)])%list = p).
    { rewrite <- (field_in_last _ _ _ _ "" Fi). symmetry. now apply app_removelast_last. }
    split; [|exact E]. apply find_in. exists p, f. repeat split; auto.
Qed.

Lemma help_query s q : q <> "" -> help_schema s q =
  show_hits q (match sorted_hits (find_fields q [] s) with [] => f64_zero | h :: _ => hit_sim h end) 0 f64_neg1
    (sorted_hits (find_fields q [] s)).
Proof. destruct q; [congruence|reflexivity]. Qed.

(** one statement from which everything about queries follows *)
Lemma query_segment s q : q <> "" -> short q -> every_name short s ->
  exists a b, sorted_hits (find_fields q [] s) = (a ++ b)%list /\ answers (help_schema s q) = map full a /\
    (forall h, In h b -> real_of (hit_sim h) < 1)%R /\ (find_fields q [] s <> [] -> a <> []).
Proof.
  intros NE Q N. rewrite (help_query s q NE). set (l := sorted_hits (find_fields q [] s)).
  assert (F : forall h, In h l -> fine q h) by (intros h I; apply (proj1 (sorted_in _ _)) in I; exact (hits_fine q s N h I)).
  pose proof (sorted_sorted q Q (find_fields q [] s) (hits_fine q s N)) as Srt. fold l in Srt.
  set (best := match l with [] => f64_zero | h :: _ => hit_sim h end).
  destruct (show_prefix q best l 0 f64_neg1) as (a & b & E & A & B). exists a, b. repeat split; auto.
  - intros h I. destruct b as [|h0 b]; [destruct I|]. destruct B as (i & pv & St).
    assert (F0 : fine q h0) by (apply F; rewrite E, in_app_iff; right; now left).
    apply (stop_below q Q) in St; [|exact F0]. destruct I as [<-|I]; [exact St|].
    assert (above h0 h).
    { rewrite E in Srt. clear -Srt I. induction a as [|x a IH]; cbn [app] in Srt; apply StronglySorted_inv in Srt; destruct Srt as [S1 S2]; [|auto].
      rewrite Forall_forall in S2. auto. }
    unfold above in *. lra.
  - intros NN ->. cbn [app map] in *. destruct l as [|h l'] eqn:L.
    + apply NN. destruct (find_fields q [] s) as [|x r] eqn:X; [reflexivity|]. exfalso.
      assert (I : In x l) by (apply sorted_in; now left). rewrite L in I. destruct I.
    + rewrite (show_first q Q) in A; [discriminate|]. apply F. now left.
Qed.

Lemma query_exact s q : q <> "" -> short q -> every_name short s ->
  exists found others, answers (help_schema s q) = (found ++ others)%list /\
    (forall p, In p found <-> last p "" = q /\ exists f, field_in false s p f) /\
    (forall p, In p others -> last p "" <> q /\ exists f, field_in false s p f).
Proof.
  intros NE Q N. destruct (query_segment s q NE Q N) as (a & b & E & A & B & _).
  rewrite (sorted_split q Q _ (hits_fine q s N)) in E.
  set (fd := filter (named q) (find_fields q [] s)) in *. set (ot := sorted_hits _) in E.
  assert (Fd : forall h, In h fd -> (1 < real_of (hit_sim h))%R).
  { intros h I. apply filter_In in I. destruct I as [I X]. rewrite (named_sim q h (hits_fine q s N h I) X). apply f64_1_1_gt. }
  assert (P : exists c, a = (fd ++ c)%list /\ ot = (c ++ b)%list).
  { clear A. revert a E. induction fd as [|x fd' IH]; intros a E; [exists a; auto|].
    destruct a as [|y a]; cbn [app] in E.
    - assert (In x b) by (rewrite <- E; now left). specialize (B x H). specialize (Fd x (or_introl eq_refl)). lra.
    - injection E as <- E. destruct (IH (fun h I => Fd h (or_intror I)) a E) as (c & -> & ->). exists c; auto. }
  destruct P as (c & -> & Eo). exists (map full fd), (map full c). rewrite A, map_app. split; [reflexivity|]. split.
  - intros p. rewrite in_map_iff. split.
    + intros (h & <- & I). apply filter_In in I. destruct I as [I X]. unfold named in X. apply String.eqb_eq in X.
      rewrite full_last. split; [exact X|]. apply (hits_full q). eauto.
    + intros [L F]. apply (hits_full q) in F. destruct F as (h & I & <-). exists h. split; [reflexivity|].
      apply filter_In. split; [exact I|]. rewrite full_last in L. now apply String.eqb_eq.
  - intros p I. apply in_map_iff in I. destruct I as (h & <- & I).
    assert (I2 : In h ot) by (rewrite Eo, in_app_iff; now left). apply sorted_in, filter_In in I2. destruct I2 as [I2 X].
    rewrite full_last. split; [|apply (hits_full q); eauto]. unfold named in X. apply negb_true_iff in X. now apply String.eqb_neq.
Qed.

Lemma sim_name s q h : every_name short s -> In h (sorted_hits (find_fields q [] s)) -> hit_sim h = name_similarity (last (full h) "") q.
Proof. intros N I. apply (proj1 (sorted_in _ _)) in I. destruct (hits_fine q s N h I) as [_ E]. now rewrite full_last. Qed.

Lemma not_less s q h g : short q -> every_name short s ->
  In h (sorted_hits (find_fields q [] s)) -> In g (sorted_hits (find_fields q [] s)) ->
  above h g -> SFltb (name_similarity (last (full h) "") q) (name_similarity (last (full g) "") q) = false.
Proof.
  intros Q N I J A. rewrite <- (sim_name s q h N I), <- (sim_name s q g N J).
  apply (proj1 (sorted_in _ _)) in I, J. pose proof (fine_double q Q _ (hits_fine q s N h I)) as [D1 _]. pose proof (fine_double q Q _ (hits_fine q s N g J)) as [D2 _].
  destruct (SFltb (hit_sim h) (hit_sim g)) eqn:L; [|reflexivity]. apply (ltb_real _ _ D1 D2) in L. unfold above in A. lra.
Qed.

Lemma sorted_pairs {A} (R : A -> A -> Prop) x y : forall a b c, StronglySorted R (a ++ x :: b ++ y :: c) -> R x y.
Proof.
  induction a as [|z a IH]; intros b c S; cbn [app] in S; apply StronglySorted_inv in S; destruct S as [S1 S2]; [|eauto].
  rewrite Forall_forall in S2. apply S2. rewrite in_app_iff. right. now left.
Qed.

Lemma query_order s q : q <> "" -> short q -> every_name short s -> forall a p b p' c,
  answers (help_schema s q) = (a ++ p :: b ++ p' :: c)%list ->
  SFltb (name_similarity (last p "") q) (name_similarity (last p' "") q) = false.
Proof.
  intros NE Q N a p b p' c E. destruct (query_segment s q NE Q N) as (x & y & Es & A & _).
  rewrite A in E. apply map_eq_app in E. destruct E as (a1 & a2 & -> & Ea & E). apply map_eq_cons in E. destruct E as (h & r & -> & Eh & E).
  apply map_eq_app in E. destruct E as (b1 & b2 & -> & Eb & E). apply map_eq_cons in E. destruct E as (g & c1 & -> & Eg & Ec). subst p p'.
  apply (not_less s); auto; try (rewrite Es, !in_app_iff; left; right; simpl; rewrite ?in_app_iff; simpl; tauto).
  pose proof (sorted_sorted q Q (find_fields q [] s) (hits_fine q s N)) as S. rewrite Es, <- app_assoc in S. cbn [app] in S. rewrite <- app_assoc in S. cbn [app] in S.
  eapply sorted_pairs. exact S.
Qed.

Lemma query_best s q : q <> "" -> short q -> every_name short s -> forall p f p', field_in false s p f ->
  In p' (answers (help_schema s q)) -> ~ In p (answers (help_schema s q)) ->
  SFltb (name_similarity (last p' "") q) (name_similarity (last p "") q) = false.
Proof.
  intros NE Q N p f p' Fi I NI. destruct (query_segment s q NE Q N) as (x & y & Es & A & _). rewrite A in I, NI.
  assert (X : exists h, In h (find_fields q [] s) /\ full h = p) by (apply hits_full; eauto). destruct X as (h & Ih & <-).
  apply sorted_in in Ih. apply in_map_iff in I. destruct I as (g & <- & Ig).
  assert (Iy : In h y).
  { rewrite Es in Ih. apply in_app_iff in Ih. destruct Ih as [Ih|Ih]; [|exact Ih]. exfalso. apply NI. now apply in_map. }
  apply (not_less s); auto; [rewrite Es, in_app_iff; auto|].
  pose proof (sorted_sorted q Q (find_fields q [] s) (hits_fine q s N)) as S. rewrite Es in S. clear -S Ig Iy.
  induction x as [|z x IH]; [destruct Ig|]. cbn [app] in S. apply StronglySorted_inv in S. destruct S as [S1 S2].
  destruct Ig as [->|Ig]; [|auto]. rewrite Forall_forall in S2. apply S2. rewrite in_app_iff. auto.
Qed.

Lemma query_some s q : q <> "" -> short q -> every_name short s -> forall p f, field_in false s p f ->
  answers (help_schema s q) <> [].
Proof.
  intros NE Q N p f Fi. destruct (query_segment s q NE Q N) as (x & y & Es & A & _ & Nx). rewrite A.
  assert (X : exists h, In h (find_fields q [] s) /\ full h = p) by (apply hits_full; eauto). destruct X as (h & Ih & _).
  assert (Y : x <> []) by (apply Nx; intros Z; rewrite Z in Ih; destruct Ih). destruct x; [congruence|discriminate].
Qed.

Lemma query_alike s q : q <> "" -> short q -> every_name short s -> forall p f, field_in false s p f ->
  (let n := fm_name (snd f) in replace_char "_" "" n = replace_char "_" "" q \/ n = initials q \/ q = initials n) ->
  In p (answers (help_schema s q)).
Proof.
  intros NE Q N p f Fi Al. cbn zeta in Al. destruct (query_segment s q NE Q N) as (x & y & Es & A & B & _). rewrite A.
  assert (X : exists h, In h (find_fields q [] s) /\ full h = p) by (apply hits_full; eauto). destruct X as (h & Ih & E).
  assert (Ln : last (full h) "" = fm_name (snd f)) by (rewrite E; eapply field_in_last; eauto). rewrite <- E. apply in_map.
  apply sorted_in in Ih. assert (Sm := sim_name s q h N Ih). rewrite Ln in Sm. rewrite Es in Ih. apply in_app_iff in Ih.
  destruct Ih as [Ih|Ih]; [exact Ih|]. exfalso. specialize (B h Ih). rewrite Sm in B. unfold name_similarity in B.
  destruct f64_1_1_gt as [_ G]. destruct double_one as [_ G1].
  destruct (String.eqb (fm_name (snd f)) q); [lra|].
  destruct (String.eqb (replace_char "_" "" (fm_name (snd f))) (replace_char "_" "" q)) eqn:E1; [lra|].
  destruct (String.eqb (fm_name (snd f)) (initials q)) eqn:E2; cbn [orb] in B; [lra|].
  destruct (String.eqb q (initials (fm_name (snd f)))) eqn:E3; [lra|].
  apply String.eqb_neq in E1, E2, E3. tauto.
Qed.

(** ** Where the answers end *)
Lemma prefix_app p : forall s, String.prefix p s = true <-> exists y, s = p ++ y.
Proof.
  induction p as [|a p IH]; intros s.
  - split; [intros _; now exists s|now destruct s].
  - destruct s as [|b s]; [split; [discriminate|intros (y & E); discriminate]|].
    cbn [String.prefix]. destruct (ascii_dec a b) as [->|Ne].
    + specialize (IH s). split.
      * intros P. apply IH in P. destruct P as (y & ->). now exists y.
      * intros (y & E). injection E as E. apply IH. now exists y.
    + split; [discriminate|]. intros (y & E). injection E. intros _ E1. congruence.
Qed.

Lemma contains_app q s : str_contains q s = true <-> exists x y, s = x ++ q ++ y.
Proof.
  induction s as [|a s IH]; cbn [str_contains]; rewrite orb_true_iff, prefix_app.
  - split.
    + intros [(y & E)|E]; [exists "", y; exact E|discriminate].
    + intros (x & y & E). left. destruct x; [now exists y|discriminate].
  - rewrite IH. split.
    + intros [(y & E)|(x & y & E)]; [exists "", y; exact E|exists (String a x), y; now rewrite E].
    + intros (x & y & E). destruct x as [|b x]; [left; now exists y|]. right. injection E as _ E. eauto.
Qed.

Definition last_sim (prev : pyfloat) (a : list hit) : pyfloat := fold_left (fun _ h => hit_sim h) a prev.

Lemma last_sim_snoc prev a h : last_sim prev (a ++ [h]) = hit_sim h.
Proof. unfold last_sim. now rewrite fold_left_app. Qed.

Lemma show_stops q best l : forall i prev, exists a b, l = (a ++ b)%list /\
  answers (show_hits q best i prev l) = map full a /\
  (forall a1 h a2, a = (a1 ++ h :: a2)%list -> stop_here q best (i + length a1) (last_sim prev a1) h = false) /\
  (forall h b1, b = h :: b1 -> stop_here q best (i + length a) (last_sim prev a) h = true).
Proof.
  induction l as [|h l IH]; intros i prev; cbn [show_hits].
  - exists [], []. repeat split; [|discriminate]. intros a1 h a2 E. now destruct a1.
  - destruct (stop_here q best i prev h) eqn:St.
    + exists [], (h :: l). repeat split; [intros a1 g a2 E; now destruct a1|].
      intros g b1 E. injection E as <- <-. cbn [length last_sim fold_left]. now rewrite Nat.add_0_r.
    + destruct (IH (S i) (hit_sim h)) as (a & b & -> & E & A & B). exists (h :: a), b. repeat split.
      * rewrite answers_app, show_hit_answers, E. reflexivity.
      * intros [|g a1] h0 a2 Ea; cbn [app] in Ea; injection Ea as Eh Ea; subst.
        -- cbn [length last_sim fold_left]. now rewrite Nat.add_0_r.
        -- cbn [length]. rewrite <- Nat.add_succ_comm. exact (A _ _ _ eq_refl).
      * intros g b1 Eb. cbn [length]. rewrite <- Nat.add_succ_comm. exact (B _ _ Eb).
Qed.

Lemma stop_worth q best i prev h : fine q h -> SFleb (hit_sim h) prev = true ->
  stop_here q best i prev h = false <-> worth q best i (fm_name (hit_meta h)).
Proof.
  intros [_ E] P. unfold stop_here, worth. rewrite P, <- contains_app, E. cbn [andb].
  destruct (str_contains q (fm_name (hit_meta h))); cbn [negb andb]; [tauto|].
  destruct (SFltb (name_similarity (fm_name (hit_meta h)) q) f64_one); cbn [andb]; [|tauto].
  rewrite !orb_false_iff, Nat.ltb_ge. intuition discriminate.
Qed.

Lemma query_stops s q : q <> "" -> short q -> every_name short s ->
  exists a b, sorted_hits (find_fields q [] s) = (a ++ b)%list /\ answers (help_schema s q) = map full a /\
    (forall h0 a1 h a2, a = (h0 :: a1 ++ h :: a2)%list -> worth q (hit_sim h0) (S (length a1)) (fm_name (hit_meta h))) /\
    (forall h b1, b = h :: b1 -> exists h0 a1, a = h0 :: a1 /\ ~ worth q (hit_sim h0) (length a) (fm_name (hit_meta h))).
Proof.
  intros NE Q N. rewrite (help_query s q NE). set (l := sorted_hits (find_fields q [] s)).
  assert (F : forall h, In h l -> fine q h) by (intros h I; apply (proj1 (sorted_in _ _)) in I; exact (hits_fine q s N h I)).
  pose proof (sorted_sorted q Q (find_fields q [] s) (hits_fine q s N)) as Srt. fold l in Srt.
  set (best := match l with [] => f64_zero | h :: _ => hit_sim h end).
  destruct (show_stops q best l 0 f64_neg1) as (a & b & E & A & C & B). exists a, b. split; [exact E|]. split; [exact A|].
  assert (Leb : forall h0 a1 h r, l = (h0 :: a1 ++ h :: r)%list -> SFleb (hit_sim h) (last_sim f64_neg1 (h0 :: a1)) = true).
  { intros h0 a1 h r El.
    assert (X : exists x g, h0 :: a1 = (x ++ [g])%list).
    { exists (removelast (h0 :: a1)), (last (h0 :: a1) h0). apply app_removelast_last. discriminate. }
    destruct X as (x & g & X). rewrite X, last_sim_snoc.
    assert (El' : l = (x ++ g :: [] ++ h :: r)%list).
    { rewrite El. change (h0 :: a1 ++ h :: r)%list with ((h0 :: a1) ++ h :: r)%list. rewrite X, <- app_assoc. reflexivity. }
    rewrite El' in Srt. apply sorted_pairs in Srt.
    assert (Fg : fine q g) by (apply F; rewrite El', in_app_iff; right; now left).
    assert (Fh : fine q h) by (apply F; rewrite El', in_app_iff; right; right; now left).
    apply (leb_real _ _ (proj1 (fine_double q Q _ Fh)) (proj1 (fine_double q Q _ Fg))). exact Srt. }
  split.
  - intros h0 a1 h a2 Ea. assert (El : l = (h0 :: a1 ++ h :: a2 ++ b)%list).
    { rewrite E, Ea. cbn [app]. rewrite <- app_assoc. reflexivity. }
    assert (Eb : best = hit_sim h0) by (unfold best; now rewrite El).
    rewrite <- Eb. apply (stop_worth q best (S (length a1)) (last_sim f64_neg1 (h0 :: a1))).
    + apply F. rewrite El. right. apply in_app_iff. right. now left.
    + eapply Leb. exact El.
    + exact (C (h0 :: a1) h a2 Ea).
  - intros h b1 Eb. destruct a as [|h0 a1].
    + exfalso. cbn [app] in E. rewrite Eb in E. rewrite E, (show_first q Q) in A; [discriminate|]. apply F. rewrite E. now left.
    + exists h0, a1. split; [reflexivity|]. assert (El : l = (h0 :: a1 ++ h :: b1)%list) by (rewrite E, Eb; reflexivity).
      assert (Ebest : best = hit_sim h0) by (unfold best; now rewrite El).
      rewrite <- Ebest. rewrite <- (stop_worth q best _ (last_sim f64_neg1 (h0 :: a1))).
      * specialize (B h b1 Eb). cbn [Nat.add] in B. rewrite B. discriminate.
      * apply F. rewrite El. right. apply in_app_iff. right. now left.
      * eapply Leb. exact El.
Qed.

Lemma query_worth s q : q <> "" -> short q -> every_name short s -> forall p0 a p b,
  answers (help_schema s q) = (p0 :: a ++ p :: b)%list ->
  worth q (name_similarity (last p0 "") q) (S (length a)) (last p "").
Proof.
  intros NE Q N p0 a p b E. destruct (query_stops s q NE Q N) as (x & y & Es & A & W & _).
  rewrite A in E. apply map_eq_cons in E. destruct E as (h0 & r & -> & <- & E).
  apply map_eq_app in E. destruct E as (a1 & a2 & -> & <- & E). apply map_eq_cons in E. destruct E as (h & a3 & -> & <- & _).
  rewrite <- (sim_name s q h0 N) by (rewrite Es; now left). rewrite full_last, map_length. exact (W _ _ _ _ eq_refl).
Qed.

Lemma query_ends s q : q <> "" -> short q -> every_name short s -> forall p f,
  field_in false s p f -> ~ In p (answers (help_schema s q)) ->
  exists p0 r p' f', answers (help_schema s q) = p0 :: r /\ field_in false s p' f' /\
    SFltb (name_similarity (last p' "") q) (name_similarity (last p "") q) = false /\
    ~ worth q (name_similarity (last p0 "") q) (length (p0 :: r)) (last p' "").
Proof.
  intros NE Q N p f Fi NI. destruct (query_stops s q NE Q N) as (x & y & Es & A & _ & W). rewrite A in NI |- *.
  assert (X : exists h, In h (find_fields q [] s) /\ full h = p) by (apply hits_full; eauto). destruct X as (h & Ih & <-).
  apply sorted_in in Ih.
  assert (Iy : In h y).
  { rewrite Es in Ih. apply in_app_iff in Ih. destruct Ih as [Ih|Ih]; [|exact Ih]. exfalso. apply NI. now apply in_map. }
  destruct y as [|g y]; [destruct Iy|]. destruct (W g y eq_refl) as (h0 & a1 & -> & NW).
  assert (Ig : In g (sorted_hits (find_fields q [] s))) by (rewrite Es, in_app_iff; right; now left).
  assert (Fg : exists f', field_in false s (full g) f') by (apply (hits_full q); exists g; split; [exact (proj1 (sorted_in _ _) Ig)|reflexivity]).
  destruct Fg as (f' & Fg). exists (full h0), (map full a1), (full g), f'. repeat split; auto.
  - destruct Iy as [->|Iy].
    + apply (not_less s); auto. unfold above. lra.
    + apply (not_less s); auto. pose proof (sorted_sorted q Q (find_fields q [] s) (hits_fine q s N)) as S. rewrite Es in S.
      apply in_split in Iy. destruct Iy as (y1 & y2 & ->). eapply (sorted_pairs above g h (h0 :: a1) y1 y2). exact S.
  - cbn [length] in *. rewrite map_length, <- (sim_name s q h0 N) by (rewrite Es; now left). rewrite full_last. exact NW.
Qed.

(** ** What an answer shows *)
Lemma print_no_paths t p ft df doc : forall r d, ~ In (LPath p ft df doc) (print_type r d t).
Proof.
  intros r d I. pose proof (print_no_answers t r d) as E. 
  assert (X : forall l, In (LPath p ft df doc) l -> In p (answers l)).
  { clear. induction l as [|x l IH]; intros J; [destruct J|]. destruct J as [->|J]; [now left|].
    destruct x; cbn [answers]; [|right]; auto. }
  apply X in I. rewrite E in I. destruct I.
Qed.

Lemma show_in q best x l : forall i prev, In x (show_hits q best i prev l) -> exists h, In h l /\ In x (show_hit h).
Proof.
  induction l as [|h l IH]; intros i prev I; cbn [show_hits] in I; [destruct I|].
  destruct (stop_here q best i prev h); [destruct I|]. apply in_app_iff in I. destruct I as [I|I]; [exists h; split; [now left|exact I]|].
  destruct (IH _ _ I) as (g & J & K). exists g. split; [now right|exact K].
Qed.

Lemma show_line h p t df doc : In (LPath p t df doc) (show_hit h) -> p = full h /\ t = hit_type h /\
  (section t = false -> df = fm_default (hit_meta h) /\ doc = fm_doc (hit_meta h)).
Proof.
  unfold show_hit, section. fold (full h). intros I.
  destruct (unwrap_container (hit_type h)) eqn:U; cbn [is_struct] in I;
    try (destruct I as [I|[]]; injection I as <- <- <- <-; rewrite ?U; auto; fail).
  destruct (SFleb f64_one (hit_sim h)).
  - destruct I as [I|I]; [injection I as <- <- <- <-; rewrite U; repeat split; discriminate|]. now apply print_no_paths in I.
  - destruct I as [I|[]]. injection I as <- <- <- <-. rewrite U. repeat split; discriminate.
Qed.

Lemma query_lines s q p t df doc : q <> "" -> In (LPath p t df doc) (help_schema s q) ->
  exists f, field_in false s p f /\ t = fst f /\ (section t = false -> df = fm_default (snd f) /\ doc = fm_doc (snd f)).
Proof.
  intros NE I. rewrite (help_query s q NE) in I. apply show_in in I. destruct I as (h & Ih & I).
  apply (proj1 (sorted_in _ _)) in Ih. apply find_in in Ih. destruct Ih as (p' & f & Fi & Ef & Em & _).
  apply show_line in I. destruct I as (-> & -> & D). exists f. unfold hit_type, hit_meta in *. rewrite Em in *.
  split; [|auto]. cbn [app] in Ef. unfold full, hit_meta. rewrite Em. unfold full, hit_meta in Ef. rewrite Em in Ef. now rewrite Ef.
Qed.

Lemma print_flat n fs v : print_type false 1 (SStruct n fs v) = map (fun kf => listed 1 (snd kf)) fs.
Proof.
  cbn [print_type]. induction fs as [|[k [t m]] fs IH]; [reflexivity|]. cbn [map concat fst snd]. rewrite IH.
  unfold listed, section. cbn [fst snd]. destruct (unwrap_container t); reflexivity.
Qed.

Lemma show_section q best p t df doc b : last p "" = q -> section t = true -> forall l a i prev,
  (forall h, In h l -> fine q h) -> show_hits q best i prev l = (a ++ LPath p t df doc :: b)%list ->
  exists n fs v c, unwrap_container t = SStruct n fs v /\ b = (map (fun kf => listed 1 (snd kf)) fs ++ c)%list.
Proof.
  intros L U. induction l as [|h l IH]; intros a i prev F E; cbn [show_hits] in E; [now destruct a|].
  destruct (stop_here q best i prev h); [now destruct a|].
  assert (X : (exists a2, show_hit h = (a ++ LPath p t df doc :: a2)%list /\ b = (a2 ++ show_hits q best (S i) (hit_sim h) l)%list) \/
              (exists a2, show_hits q best (S i) (hit_sim h) l = (a2 ++ LPath p t df doc :: b)%list)).
  { clear -E. revert a E. generalize (show_hit h) as m. induction m as [|x m IH]; intros a E; [right; now exists a|].
    destruct a as [|y a]; cbn [app] in E; injection E as E1 E2.
    - left. exists m. cbn [app]. subst. auto.
    - destruct (IH a E2) as [(a2 & -> & ->)|(a2 & E3)]; [left; exists a2; cbn [app]; subst; auto|right; eauto]. }
  destruct X as [(a2 & Es & ->)|(a2 & Es)]; [|eapply IH; [|exact Es]; intros; apply F; now right].
  assert (I : In (LPath p t df doc) (show_hit h)) by (rewrite Es, in_app_iff; right; now left).
  apply show_line in I. destruct I as (-> & -> & _). rewrite full_last in L.
  assert (Sm : hit_sim h = f64_1_1) by (apply (named_sim q); [apply F; now left|now apply String.eqb_eq]).
  unfold show_hit in Es. rewrite Sm in Es. unfold section in U. destruct (unwrap_container (hit_type h)) as [| | | | |n fs v| | | |] eqn:Uw; try discriminate.
  change (SFleb f64_one f64_1_1) with true in Es. cbn [is_struct] in Es. rewrite print_flat in Es.
  exists n, fs, v, (show_hits q best (S i) f64_1_1 l). split; [reflexivity|]. rewrite Sm. f_equal.
  destruct a as [|x a]; cbn [app] in Es; [injection Es as _ _ Es; now rewrite Es|].
  injection Es as _ Es. exfalso. assert (I : In (LPath (full h) (hit_type h) df doc) (map (fun kf => listed 1 (snd kf)) fs)) by (rewrite Es, in_app_iff; right; now left).
  rewrite <- (print_flat n fs v) in I. now apply print_no_paths in I.
Qed.

Lemma query_section s q : q <> "" -> short q -> every_name short s -> forall p t df doc a b,
  help_schema s q = (a ++ LPath p t df doc :: b)%list -> last p "" = q -> section t = true ->
  exists n fs v c, unwrap_container t = SStruct n fs v /\ b = (map (fun kf => listed 1 (snd kf)) fs ++ c)%list.
Proof.
  intros NE Q N p t df doc a b E L U. rewrite (help_query s q NE) in E. eapply show_section; [exact L|exact U| |exact E].
  intros h I. apply (proj1 (sorted_in _ _)) in I. exact (hits_fine q s N h I).
Qed.
