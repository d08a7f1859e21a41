(** SchedFacts.v -- parsing and evaluating schedules. *)
From Coq Require Import Reals Lra.
From Verif Require Import Base Value Sched OverrideFacts SpecSched.

(** ** Parsing *)
Lemma interp_name_spec s i : interp_of_name s = Some i <-> s = interp_name i.
Proof.
  unfold interp_of_name; split.
  - destruct (String.eqb_spec s "lin"); [intros [= <-]; auto|].
    destruct (String.eqb_spec s "cos"); [intros [= <-]; auto|].
    destruct (String.eqb_spec s "step"); [intros [= <-]; auto|discriminate].
  - intros ->; destruct i; reflexivity.
Qed.

Lemma split_at_two part y x : split_on "@" part = [y; x] <-> part = y ++ "@" ++ x /\ plain "@" y /\ plain "@" x.
Proof.
  unfold plain; split.
  - intros H. destruct (split_on_spec "@" part) as [J F]. rewrite H in J, F. simpl in J.
    inversion F as [|? ? F1 F2]. inversion F2 as [|? ? F3 F4].
    auto.
  - intros [-> [Hy Hx]]. change (y ++ "@" ++ x) with (y ++ String "@" x).
    rewrite split_on_app by auto. rewrite split_on_plain by auto. reflexivity.
Qed.

Lemma word_text_plain {A} (fl : string -> option A) w : word_ok fl w -> has_char " " (word_text w) = false.
Proof.
  destruct w as [y x|i]; simpl.
  - intros [H1 [H2 _]]. rewrite has_char_app. simpl. rewrite H1. exact H2.
  - destruct i; reflexivity.
Qed.

Lemma split_words {A} (fl : string -> option A) ws : forall first, plain " " first -> Forall (word_ok fl) ws ->
  split_on " " (words_text first ws) = first :: map word_text ws.
Proof.
  induction ws as [|w r IH]; intros first Hf Hw; simpl.
  - apply split_on_plain; auto.
  - inversion Hw; subst. rewrite split_on_app by auto. f_equal. apply IH; auto.
    eapply word_text_plain; eauto.
Qed.

(** the meaning of a list of words, by recursion *)
Fixpoint meaning {A} (fl : string -> option A) (ws : list word) (cur : interp) (last : option (A * A)) (acc : list (segment A))
  : option (list (segment A)) :=
  match ws with
  | [] => Some acc
  | WPoint y0 x0 :: r =>
      match fl y0, fl x0 with
      | Some y, Some x =>
          meaning fl r cur (Some (x, y)) (match last with Some (lx, ly) => (acc ++ [mkSeg lx x ly y cur])%list | None => acc end)
      | _, _ => None
      end
  | WName i :: r => meaning fl r i last acc
  end.

Lemma parse_meaning {A} (fl : string -> option A) parts : forall cur last acc segs,
  parse_parts fl parts cur last acc = Ok segs ->
  Forall (fun p => has_char " " p = false) parts ->
  exists ws, map word_text ws = parts /\ Forall (word_ok fl) ws /\ meaning fl ws cur last acc = Some segs.
Proof.
  induction parts as [|p r IH]; intros cur last acc segs H F; simpl in H.
  - injection H as <-. exists []. auto.
  - inversion F as [|? ? Fp Fr]; subst.
    destruct (has_char "@" p) eqn:At.
    + destruct (split_on "@" p) as [|y0 [|x0 [|z l]]] eqn:Sp; try discriminate.
      destruct (fl y0) as [y|] eqn:Fy; [|discriminate].
      destruct (fl x0) as [x|] eqn:Fx; [|discriminate].
      apply split_at_two in Sp. destruct Sp as [-> [Py Px]].
      destruct (IH _ _ _ _ H Fr) as [ws [E1 [E2 E3]]].
      rewrite !has_char_app in Fp. apply orb_false_iff in Fp. destruct Fp as [Fp1 Fp2].
      simpl in Fp2.
      exists (WPoint y0 x0 :: ws). split; [simpl; congruence|]. split.
      * constructor; auto. simpl. unfold plain in *. eauto 8.
      * simpl. rewrite Fy, Fx. exact E3.
    + destruct (interp_of_name p) as [i|] eqn:I; [|discriminate].
      apply interp_name_spec in I. subst p.
      destruct (IH _ _ _ _ H Fr) as [ws [E1 [E2 E3]]].
      exists (WName i :: ws). split; [simpl; congruence|]. split; [constructor; simpl; auto|exact E3].
Qed.

Lemma meaning_parse {A} (fl : string -> option A) ws : forall cur last acc,
  Forall (word_ok fl) ws ->
  exists segs, meaning fl ws cur last acc = Some segs /\ parse_parts fl (map word_text ws) cur last acc = Ok segs.
Proof.
  induction ws as [|w r IH]; intros cur last acc F; simpl.
  - eauto.
  - inversion F as [|? ? Fw Fr]; subst. destruct w as [y0 x0|i].
    + simpl in Fw. destruct Fw as [S1 [S2 [P1 [P2 [[y Fy] [x Fx]]]]]].
      cbn [word_text]. rewrite has_char_app. cbn [has_char append].
      rewrite (proj2 (split_at_two _ y0 x0)) by auto.
      change (Ascii.eqb "@" "@") with true. rewrite orb_true_r. rewrite Fy, Fx. apply IH; auto.
    + destruct (IH i last acc Fr) as [segs [M P]]. exists segs. split; [exact M|].
      cbn [word_text]. rewrite (proj2 (interp_name_spec (interp_name i) i) eq_refl).
      destruct i; exact P.
Qed.

(** ** The meaning of words, declaratively *)
Lemma points_app a b : points (a ++ b)%list = (points a + points b)%nat.
Proof. induction a as [|w r IH]; simpl; [auto|]. destruct (is_point w); rewrite IH; auto. Qed.

Lemma latest_app d a b : latest d (a ++ b)%list = latest (latest d a) b.
Proof. revert d; induction a as [|[y x|i] r IH]; intros d; simpl; auto. Qed.

Lemma latest_point d y x r : latest d (WPoint y x :: r) = latest d r.
Proof. reflexivity. Qed.

Definition last_point {A} (fl : string -> option A) (done : list word) (last : option (A * A)) : Prop :=
  match last with
  | None => points done = O
  | Some (lx, ly) => exists pre y0 x0 mid, done = (pre ++ WPoint y0 x0 :: mid)%list /\ points mid = O /\
                     fl x0 = Some lx /\ fl y0 = Some ly
  end.

Definition acc_ok {A} (fl : string -> option A) (done : list word) (acc : list (segment A)) : Prop :=
  forall n sg, nth_error acc n = Some sg <-> nth_segment fl done n sg.

Lemma no_points_split pre y x mid : points (pre ++ WPoint y x :: mid)%list <> O.
Proof. rewrite points_app. simpl. lia. Qed.

(** equal splits at the last point *)
Lemma last_split pre y x mid pre' y' x' mid' :
  (pre ++ WPoint y x :: mid = pre' ++ WPoint y' x' :: mid')%list -> points mid = O -> points mid' = O ->
  pre = pre' /\ y = y' /\ x = x' /\ mid = mid'.
Proof.
  revert pre'. induction pre as [|w r IH]; intros [|w' r'] E M M'; simpl in E.
  - injection E as -> -> ->. auto.
  - injection E as <- E. subst mid. exfalso. revert M. apply no_points_split.
  - injection E as -> E. subst mid'. exfalso. revert M'. apply no_points_split.
  - injection E as -> E. destruct (IH _ E M M') as [-> [-> [-> ->]]]. auto.
Qed.

Lemma nth_segment_name {A} (fl : string -> option A) done i n sg :
  nth_segment fl (done ++ [WName i])%list n sg <-> nth_segment fl done n sg.
Proof.
  split.
  - intros (pre & y0 & x0 & mid & y1 & x1 & post & E & H).
    destruct post as [|w post] using rev_ind; [|clear IHpost].
    + exfalso. replace (pre ++ WPoint y0 x0 :: mid ++ [WPoint y1 x1])%list
        with ((pre ++ WPoint y0 x0 :: mid) ++ [WPoint y1 x1])%list in E by (rewrite <- app_assoc; reflexivity).
      apply app_inj_tail in E. destruct E as [_ E]. discriminate.
    + replace (pre ++ WPoint y0 x0 :: mid ++ WPoint y1 x1 :: post ++ [w])%list
        with ((pre ++ WPoint y0 x0 :: mid ++ WPoint y1 x1 :: post) ++ [w])%list in E.
      2:{ rewrite <- app_assoc. simpl. rewrite <- app_assoc. reflexivity. }
      apply app_inj_tail in E. destruct E as [-> _].
      exists pre, y0, x0, mid, y1, x1, post. auto.
  - intros (pre & y0 & x0 & mid & y1 & x1 & post & -> & H).
    exists pre, y0, x0, mid, y1, x1, (post ++ [WName i])%list. split; [|exact H].
    rewrite <- app_assoc. simpl. rewrite <- app_assoc. reflexivity.
Qed.

Lemma nth_segment_bound {A} (fl : string -> option A) done n sg : nth_segment fl done n sg -> (n + 2 <= points done)%nat.
Proof.
  intros (pre & y0 & x0 & mid & y1 & x1 & post & -> & H & _).
  rewrite points_app. simpl. rewrite points_app. simpl. lia.
Qed.

Lemma nth_segment_point {A} (fl : string -> option A) pre y0 x0 mid y1 x1 lx ly x y n sg :
  points mid = O -> fl x0 = Some lx -> fl y0 = Some ly -> fl x1 = Some x -> fl y1 = Some y ->
  nth_segment fl ((pre ++ WPoint y0 x0 :: mid) ++ [WPoint y1 x1])%list n sg <->
  nth_segment fl (pre ++ WPoint y0 x0 :: mid)%list n sg \/
  (n = points pre /\ sg = mkSeg lx x ly y (latest ILin (pre ++ mid))).
Proof.
  intros PM Fx0 Fy0 Fx1 Fy1. split.
  - intros (pre' & y0' & x0' & mid' & y1' & x1' & post & E & P1 & P2 & F1 & F2 & F3 & F4 & I).
    destruct post as [|w post] using rev_ind; [|clear IHpost].
    + replace (pre' ++ WPoint y0' x0' :: mid' ++ [WPoint y1' x1'])%list
        with ((pre' ++ WPoint y0' x0' :: mid') ++ [WPoint y1' x1'])%list in E by (rewrite <- app_assoc; reflexivity).
      apply app_inj_tail in E. destruct E as [E E2]. injection E2 as <- <-.
      apply last_split in E; auto. destruct E as [<- [<- [<- <-]]].
      right. split; [auto|]. destruct sg as [a b c d i]; simpl in *. congruence.
    + replace (pre' ++ WPoint y0' x0' :: mid' ++ WPoint y1' x1' :: post ++ [w])%list
        with ((pre' ++ WPoint y0' x0' :: mid' ++ WPoint y1' x1' :: post) ++ [w])%list in E.
      2:{ rewrite <- app_assoc. simpl. rewrite <- app_assoc. reflexivity. }
      apply app_inj_tail in E. destruct E as [E _].
      left. exists pre', y0', x0', mid', y1', x1', post. tauto.
  - intros [(pre' & y0' & x0' & mid' & y1' & x1' & post & E & H)|[-> ->]].
    + exists pre', y0', x0', mid', y1', x1', (post ++ [WPoint y1 x1])%list. split; [|exact H].
      rewrite E. rewrite <- app_assoc. simpl. rewrite <- app_assoc. reflexivity.
    + exists pre, y0, x0, mid, y1, x1, []. split; [rewrite <- app_assoc; reflexivity|]. simpl. tauto.
Qed.

Lemma nth_error_snoc {B} (l : list B) b n z :
  nth_error (l ++ [b])%list n = Some z <-> nth_error l n = Some z \/ (n = length l /\ z = b).
Proof.
  revert n; induction l as [|a r IH]; intros [|n]; simpl.
  - split; [intros [= <-]; auto|intros [[=]|[_ ->]]; auto].
  - destruct n; simpl; split; [discriminate|intros [[=]|[[=] _]]|discriminate|intros [[=]|[[=] _]]].
  - split; [auto|intros [H|[[=] _]]; auto].
  - rewrite IH. split; intros [H|[H1 H2]]; auto; right; split; auto; congruence.
Qed.

Definition acc_len {A} (done : list word) (acc : list (segment A)) : Prop := length acc = Nat.pred (points done).

Lemma meaning_spec {A} (fl : string -> option A) ws : forall done cur last acc segs,
  meaning fl ws cur last acc = Some segs ->
  last_point fl done last -> cur = latest ILin done -> acc_ok fl done acc -> acc_len done acc ->
  acc_ok fl (done ++ ws)%list segs /\ acc_len (done ++ ws)%list segs.
Proof.
  induction ws as [|w r IH]; intros done cur last acc segs M L C Ac Al; simpl in M.
  - injection M as <-. rewrite app_nil_r. auto.
  - replace (done ++ w :: r)%list with ((done ++ [w]) ++ r)%list by (rewrite <- app_assoc; reflexivity).
    destruct w as [y1 x1|i].
    + destruct (fl y1) as [y|] eqn:Fy; [|discriminate]. destruct (fl x1) as [x|] eqn:Fx; [|discriminate].
      eapply IH; [exact M| | | |].
      * exists done, y1, x1, []. auto.
      * rewrite latest_app. exact C.
      * destruct last as [[lx ly]|]; simpl in L.
        -- destruct L as (pre & y0 & x0 & mid & -> & PM & F1 & F2).
           intros n sg. rewrite nth_error_snoc.
           rewrite (nth_segment_point fl pre y0 x0 mid y1 x1 lx ly x y) by auto.
           rewrite (Ac n sg). unfold acc_len in Al. rewrite Al, points_app. simpl. rewrite PM.
           rewrite Nat.add_1_r. simpl. rewrite C, !latest_app, latest_point. reflexivity.
        -- intros n sg. rewrite (Ac n sg). split; intros H; exfalso; apply nth_segment_bound in H; [lia|].
           rewrite points_app in H. simpl in H. lia.
      * unfold acc_len in *. rewrite points_app. simpl. destruct last as [[lx ly]|]; simpl in L.
        -- destruct L as (pre & y0 & x0 & mid & -> & PM & F1 & F2).
           rewrite app_length, Al, points_app. simpl. lia.
        -- lia.
    + eapply IH; [exact M| | | |].
      * destruct last as [[lx ly]|]; simpl in L |- *.
        -- destruct L as (pre & y0 & x0 & mid & -> & PM & F1 & F2).
           exists pre, y0, x0, (mid ++ [WName i])%list.
           rewrite <- app_assoc, points_app. simpl. split; [reflexivity|]. split; [lia|auto].
        -- rewrite points_app. simpl. lia.
      * rewrite latest_app. reflexivity.
      * intros n sg. rewrite nth_segment_name. apply Ac.
      * unfold acc_len in *. rewrite points_app. simpl. lia.
Qed.

Lemma meaning_all {A} (fl : string -> option A) ws segs : meaning fl ws ILin None [] = Some segs ->
  acc_ok fl ws segs /\ length segs = Nat.pred (points ws).
Proof.
  intros M. apply (meaning_spec fl ws [] ILin None [] segs M); simpl; auto.
  - intros n sg. split; [destruct n; discriminate|]. intros H. apply nth_segment_bound in H. simpl in H. lia.
  - reflexivity.
Qed.

Lemma nth_error_ext {B} (l l' : list B) : (forall n z, nth_error l n = Some z <-> nth_error l' n = Some z) -> l = l'.
Proof.
  revert l'; induction l as [|a r IH]; intros [|a' r'] H.
  - auto.
  - specialize (H O a'). simpl in H. destruct H as [_ H]. discriminate H; auto.
  - specialize (H O a). simpl in H. destruct H as [H _]. discriminate H; auto.
  - assert (a = a') as ->. { specialize (H O a). simpl in H. destruct H as [H _]. specialize (H eq_refl). congruence. }
    f_equal. apply IH. intros n z. apply (H (Datatypes.S n) z).
Qed.

Lemma join_words parts : forall first, Forall (fun p => has_char " " p = false) parts ->
  forall ws, map word_text ws = parts -> join " " (first :: parts) = words_text first ws.
Proof.
  induction parts as [|p r IH]; intros first F [|w ws] E; try discriminate; [reflexivity|].
  simpl in E. injection E as <- E. inversion F; subst.
  cbn [words_text]. rewrite <- (IH (word_text w) H2 ws eq_refl). reflexivity.
Qed.

Lemma parse_iff {A} (fl : string -> option A) s p : parse_schedule fl s = Ok p <-> schedule_text fl s p.
Proof.
  unfold parse_schedule, schedule_text. destruct (split_on_spec " " s) as [J F]. split.
  - destruct (split_on " " s) as [|first parts] eqn:Sp; [discriminate|].
    inversion F as [|? ? F1 F2]; subst.
    destruct (parse_parts fl parts ILin None []) as [segs|e] eqn:P; [|discriminate]. simpl. intros [= <-].
    destruct (parse_meaning fl _ _ _ _ _ P F2) as [ws [E1 [E2 E3]]].
    exists first, ws. split; [exact F1|]. split; [exact E2|]. split; [apply (join_words parts); auto|].
    split; [reflexivity|]. apply (meaning_all fl ws segs E3).
  - intros (first & ws & Pf & Fw & -> & Ex & Es).
    rewrite (split_words fl) by auto.
    destruct (meaning_parse fl ws ILin None [] Fw) as [segs [M P]]. rewrite P. simpl.
    destruct p as [sg x]. simpl in *. subst x. f_equal. f_equal.
    apply nth_error_ext. intros n z. rewrite (proj1 (meaning_all fl ws segs M) n z). symmetry. apply Es.
Qed.

(** errors of parsing *)
Lemma parse_errors {A} (fl : string -> option A) s e : parse_schedule fl s = Err e -> e = ValueError \/ e = KeyError.
Proof.
  unfold parse_schedule. destruct (split_on " " s) as [|first parts] eqn:Sp.
  - exfalso. apply (split_on_nonempty " " s Sp).
  - enough (forall cur last acc, parse_parts fl parts cur last acc = Err e -> e = ValueError \/ e = KeyError) as H.
    { specialize (H ILin None []). destruct (parse_parts fl parts ILin None []); simpl; [discriminate|]. intros [= <-]. auto. }
    clear Sp. induction parts as [|p r IH]; intros cur last acc; simpl; [discriminate|].
    destruct (has_char "@" p).
    + destruct (split_on "@" p) as [|y0 [|x0 [|z l]]]; try (intros [= <-]; auto).
      destruct (fl y0); [|intros [= <-]; auto]. destruct (fl x0); [|intros [= <-]; auto]. apply IH.
    + destruct (interp_of_name p); [apply IH|intros [= <-]; auto].
Qed.

(** ** Adjacent segments *)
Lemma kth_split pre : forall pre' y x post y' x' post',
  (pre ++ WPoint y x :: post = pre' ++ WPoint y' x' :: post')%list -> points pre = points pre' ->
  pre = pre' /\ y = y' /\ x = x' /\ post = post'.
Proof.
  induction pre as [|w r IH]; intros [|w' r'] y x post y' x' post' E P; simpl in E.
  - injection E as -> -> ->. auto.
  - injection E as <- E. simpl in P. discriminate.
  - injection E as -> E. simpl in P. discriminate.
  - injection E as -> E. simpl in P. destruct (IH r' _ _ _ _ _ _ E) as [-> [-> [-> ->]]]; auto.
    destruct (is_point w'); congruence.
Qed.

Lemma adjacent_segments {A} (fl : string -> option A) ws n s s' :
  nth_segment fl ws n s -> nth_segment fl ws (Datatypes.S n) s' ->
  sg_start s' = sg_end s /\ sg_initial s' = sg_final s.
Proof.
  intros (pre & y0 & x0 & mid & y1 & x1 & post & E & P & M & F1 & F2 & F3 & F4 & _)
         (pre' & y0' & x0' & mid' & y1' & x1' & post' & E' & P' & M' & G1 & G2 & G3 & G4 & _).
  rewrite E in E'.
  replace (pre ++ WPoint y0 x0 :: mid ++ WPoint y1 x1 :: post)%list
    with ((pre ++ WPoint y0 x0 :: mid) ++ WPoint y1 x1 :: post)%list in E' by (rewrite <- app_assoc; reflexivity).
  apply kth_split in E'.
  - destruct E' as [_ [<- [<- _]]]. split; congruence.
  - rewrite points_app. simpl. lia.
Qed.

Lemma connected_nth l : connected l <->
  forall n s s', nth_error l n = Some s -> nth_error l (Datatypes.S n) = Some s' ->
                 sg_start s' = sg_end s /\ sg_initial s' = sg_final s.
Proof.
  induction l as [|a [|b r] IH].
  - split; [intros _ [|n] s s' H; discriminate|simpl; auto].
  - split; [intros _ [|[|n]] s s' H H'; discriminate|simpl; auto].
  - split.
    + intros [H1 [H2 H3]] [|n] s s' E E'.
      * injection E as <-. injection E' as <-. auto.
      * apply (proj1 IH H3 n); auto.
    + intros H. split; [apply (H O a b); auto|]. split; [apply (H O a b); auto|].
      apply IH. intros n s s' E E'. apply (H (Datatypes.S n)); auto.
Qed.

Lemma parse_connected (fl : string -> option R) s p : parse_schedule fl s = Ok p -> connected (pw_segments p).
Proof.
  intros H. apply parse_iff in H. destruct H as (first & ws & _ & _ & _ & _ & Es).
  apply connected_nth. intros n a b E E'. apply Es in E. apply Es in E'.
  eapply adjacent_segments; eauto.
Qed.

(** ** Evaluation over the reals *)
Open Scope R_scope.

Lemma pick_real x l : forall cur, l <> [] ->
  exists pre s post, l = (pre ++ s :: post)%list /\ pick_segment real_ops cur l x = Some s /\
    (forall t, In t pre -> sg_end t <= x) /\ (x < sg_end s \/ post = []).
Proof.
  induction l as [|a r IH]; intros cur N; [congruence|].
  cbn [pick_segment]. unfold real_ops at 1; cbn [n_ltb]. destruct (Rlt_dec x (sg_end a)) as [L|L].
  - exists [], a, r. simpl. intuition.
  - destruct r as [|b r].
    + exists [], a, []. simpl. intuition.
    + destruct (IH (Some a)) as (pre & s & post & E & P & B & Q); [discriminate|].
      exists (a :: pre), s, post. rewrite E in *. split; [reflexivity|]. split; [exact P|]. split; [|exact Q].
      intros t [<-|I]; [lra|auto].
Qed.

Lemma connected_tail a r : connected (a :: r) -> connected r.
Proof. destruct r; simpl; tauto. Qed.

Lemma connected_order l a r : connected l -> increasing l -> l = a :: r ->
  forall t, In t r -> sg_end a <= sg_start t.
Proof.
  revert a r; induction l as [|a0 l IH]; intros a r C I E t T; [discriminate|].
  injection E as <- <-. destruct l as [|b r]; [destruct T|].
  pose proof C as [C1 [C2 C3]].
  assert (I' : increasing (b :: r)) by (intros s S; apply I; right; auto).
  assert (sg_start b < sg_end b) by (apply I'; left; auto).
  destruct T as [<-|T]; [lra|]. specialize (IH b r C3 I' eq_refl t T). lra.
Qed.

Lemma connected_mid pre s post : connected (pre ++ s :: post)%list -> increasing (pre ++ s :: post)%list ->
  forall t, In t post -> sg_end s <= sg_start t.
Proof.
  induction pre as [|a r IH]; intros C I t T.
  - exact (connected_order _ s post C I eq_refl t T).
  - apply IH; auto; [exact (connected_tail a _ C)|intros u U; apply I; right; auto].
Qed.

(** the value computed once a segment is picked *)
Definition eval_at (s : segment R) (x : R) : R :=
  let r := progress s x in
  let r := if Rlt_dec r 0 then 0 else if Rlt_dec 1 r then 1 else r in
  let w := interp_fn real_ops (sg_interp s) r in
  w * sg_initial s + (1 - w) * sg_final s.

Lemma get_value_eval p x s : pick_segment real_ops None (pw_segments p) x = Some s -> sg_start s < sg_end s ->
  get_value real_ops p x = Ok (eval_at s x).
Proof.
  intros P L. unfold get_value. rewrite P.
  change (n_is_zero real_ops (n_sub real_ops (sg_end s) (sg_start s)))
    with (if Req_EM_T (sg_end s - sg_start s) 0 then true else false).
  destruct (Req_EM_T (sg_end s - sg_start s) 0); [lra|].
  unfold eval_at, progress, real_ops; simpl.
  repeat match goal with |- context [if Rlt_dec ?a ?b then true else false] => destruct (Rlt_dec a b) end; reflexivity.
Qed.

Lemma progress_bounds s x : sg_start s < sg_end s ->
  (x <= sg_start s -> progress s x <= 0) /\ (sg_start s <= x -> 0 <= progress s x) /\
  (x <= sg_end s -> progress s x <= 1) /\ (sg_end s <= x -> 1 <= progress s x).
Proof.
  intros L. unfold progress. assert (P : 0 < / (sg_end s - sg_start s)) by (apply Rinv_0_lt_compat; lra).
  assert (Q : (sg_end s - sg_start s) * / (sg_end s - sg_start s) = 1) by (apply Rinv_r; lra).
  unfold Rdiv. repeat split; intros H.
  - assert (0 <= (sg_start s - x) * / (sg_end s - sg_start s)) by (apply Rmult_le_pos; lra). lra.
  - apply Rmult_le_pos; lra.
  - assert (0 <= (sg_end s - x) * / (sg_end s - sg_start s)) by (apply Rmult_le_pos; lra). lra.
  - assert (0 <= (x - sg_end s) * / (sg_end s - sg_start s)) by (apply Rmult_le_pos; lra). lra.
Qed.

Lemma progress_start s : progress s (sg_start s) = 0.
Proof. unfold progress. replace (sg_start s - sg_start s) with 0 by ring. unfold Rdiv. ring. Qed.

Lemma progress_end s : sg_start s < sg_end s -> progress s (sg_end s) = 1.
Proof. intros L. unfold progress. field. lra. Qed.

Lemma eval_left s x : sg_start s < sg_end s -> x <= sg_start s -> eval_at s x = sg_initial s.
Proof.
  intros L H. destruct (progress_bounds s x L) as [B _]. specialize (B H).
  unfold eval_at. destruct (Rlt_dec (progress s x) 0) as [Q|Q].
  - destruct (sg_interp s); simpl; [ring| |ring]. rewrite Rmult_0_l, cos_0. lra.
  - destruct (Rlt_dec 1 (progress s x)); [lra|]. replace (progress s x) with 0 by lra.
    destruct (sg_interp s); simpl; [ring| |ring]. rewrite Rmult_0_l, cos_0. lra.
Qed.

Lemma eval_right s x : sg_start s < sg_end s -> sg_end s <= x ->
  eval_at s x = match sg_interp s with IStep => sg_initial s | _ => sg_final s end.
Proof.
  intros L H. destruct (progress_bounds s x L) as [_ [_ [_ B]]]. specialize (B H).
  unfold eval_at. destruct (Rlt_dec (progress s x) 0) as [Q|Q]; [lra|].
  replace (if Rlt_dec 1 (progress s x) then 1 else progress s x) with 1 by (destruct (Rlt_dec 1 (progress s x)); lra).
  destruct (sg_interp s); simpl; [ring| |ring]. rewrite Rmult_1_l, cos_PI. lra.
Qed.

Lemma eval_inside s x : sg_start s < sg_end s -> sg_start s <= x <= sg_end s -> eval_at s x = shape s x.
Proof.
  intros L H. destruct (progress_bounds s x L) as [_ [B [B' _]]]. specialize (B ltac:(lra)). specialize (B' ltac:(lra)).
  unfold eval_at, shape. destruct (Rlt_dec (progress s x) 0) as [Q|Q]; [lra|].
  destruct (Rlt_dec 1 (progress s x)) as [Q'|Q']; [lra|].
  destruct (sg_interp s); simpl; [ring| |ring]. rewrite (Rmult_comm (progress s x) PI). field.
Qed.

Lemma get_value_total p : pw_segments p <> [] -> connected (pw_segments p) -> increasing (pw_segments p) ->
  forall x, exists v, get_value real_ops p x = Ok v /\
    (forall s r, pw_segments p = s :: r -> x <= sg_start s -> v = sg_initial s) /\
    (forall s, In s (pw_segments p) -> sg_start s <= x < sg_end s -> v = shape s x) /\
    (forall s r, pw_segments p = (r ++ [s])%list -> sg_end s <= x ->
       v = match sg_interp s with IStep => sg_initial s | _ => sg_final s end).
Proof.
  intros N C I x. destruct (pick_real x (pw_segments p) None N) as (pre & s & post & E & P & B & Q).
  assert (L : sg_start s < sg_end s) by (apply I; rewrite E, in_app_iff; right; left; auto).
  exists (eval_at s x). split; [apply get_value_eval; auto|]. split; [|split].
  - intros s0 r E0 H. assert (L0 : sg_start s0 < sg_end s0) by (apply I; rewrite E0; left; auto).
    rewrite E0 in E. destruct pre as [|a pre].
    + injection E as <- _. apply eval_left; auto.
    + injection E as <- _. specialize (B s0 (or_introl eq_refl)). lra.
  - intros s' S H. rewrite E in S. apply in_app_iff in S. destruct S as [S|[<-|S]].
    + specialize (B s' S). lra.
    + apply eval_inside; [auto|lra].
    + rewrite E in C, I. pose proof (connected_mid pre s post C I s' S). destruct Q as [Q| ->]; [lra|destruct S].
  - intros s' r E' H. destruct (exists_last N) as (r0 & s0 & E0).
    assert (s' = s0 /\ r = r0) as [-> ->]. { rewrite E0 in E'. apply app_inj_tail in E'. intuition. }
    destruct post as [|b post] using rev_ind.
    + rewrite E0 in E. apply app_inj_tail in E. destruct E as [_ <-]. apply eval_right; auto.
    + clear IHpost. destruct Q as [Q|Q]; [|destruct post; discriminate].
      rewrite E0 in E. replace (pre ++ s :: post ++ [b])%list with ((pre ++ s :: post) ++ [b])%list in E
        by (rewrite <- app_assoc; reflexivity).
      apply app_inj_tail in E. destruct E as [-> <-].
      rewrite E0 in C, I. rewrite <- app_assoc in C, I. simpl in C, I.
      assert (T : In s0 (post ++ [s0])%list) by (rewrite in_app_iff; right; left; reflexivity).
      pose proof (connected_mid pre s (post ++ [s0])%list C I s0 T).
      assert (sg_start s0 < sg_end s0) by (apply I; rewrite in_app_iff; right; right; rewrite in_app_iff; right; left; auto).
      lra.
Qed.

Lemma follows_partial p : pw_segments p <> [] -> connected (pw_segments p) -> increasing (pw_segments p) ->
  (forall s r, pw_segments p = (r ++ [s])%list -> sg_interp s <> IStep) ->
  follows (get_value real_ops p) (pw_segments p).
Proof.
  intros N C I NS x. destruct (get_value_total p N C I x) as (v & G & H1 & H2 & H3).
  exists v. split; [auto|]. split; [auto|]. split; [auto|].
  intros s r E H. specialize (NS s r E). rewrite (H3 s r E H). destruct (sg_interp s); congruence.
Qed.

(** ** The shape of a segment *)
Lemma convex_between a b t : 0 <= t <= 1 -> between a b (a + (b - a) * t).
Proof.
  intros [H1 H2]. unfold between. destruct (Rle_dec a b) as [L|L].
  - left. assert (0 <= (b - a) * t) by (apply Rmult_le_pos; lra).
    assert (0 <= (b - a) * (1 - t)) by (apply Rmult_le_pos; lra). lra.
  - right. assert (0 <= (a - b) * t) by (apply Rmult_le_pos; lra).
    assert (0 <= (a - b) * (1 - t)) by (apply Rmult_le_pos; lra). lra.
Qed.

Lemma shape_between s x : sg_start s < sg_end s -> sg_start s <= x <= sg_end s -> between (sg_initial s) (sg_final s) (shape s x).
Proof.
  intros L H. destruct (progress_bounds s x L) as [_ [B [B' _]]]. specialize (B ltac:(lra)). specialize (B' ltac:(lra)).
  unfold shape. destruct (sg_interp s).
  - apply convex_between; lra.
  - apply convex_between. destruct (COS_bound (PI * progress s x)). lra.
  - unfold between. destruct (Rle_dec (sg_initial s) (sg_final s)); lra.
Qed.

Lemma shape_start s : shape s (sg_start s) = sg_initial s.
Proof.
  unfold shape. rewrite progress_start. destruct (sg_interp s); [ring| |ring].
  rewrite Rmult_0_r, cos_0. lra.
Qed.

Lemma shape_end s : sg_start s < sg_end s -> sg_interp s <> IStep -> shape s (sg_end s) = sg_final s.
Proof.
  intros L N. unfold shape. rewrite progress_end by auto. destruct (sg_interp s); [ring| |congruence].
  rewrite Rmult_1_r, cos_PI. lra.
Qed.

Lemma progress_monotone s x x' : sg_start s < sg_end s -> x <= x' -> progress s x <= progress s x'.
Proof.
  intros L H. unfold progress, Rdiv. assert (P : 0 < / (sg_end s - sg_start s)) by (apply Rinv_0_lt_compat; lra).
  assert (0 <= (x' - x) * / (sg_end s - sg_start s)) by (apply Rmult_le_pos; lra). lra.
Qed.

Lemma shape_monotone s x x' : sg_start s < sg_end s -> sg_start s <= x -> x <= x' -> x' <= sg_end s ->
  (sg_initial s <= sg_final s -> shape s x <= shape s x') /\
  (sg_final s <= sg_initial s -> shape s x' <= shape s x).
Proof.
  intros L H1 H2 H3. pose proof (progress_monotone s x x' L H2) as M.
  destruct (progress_bounds s x L) as [_ [B _]]. specialize (B H1).
  destruct (progress_bounds s x' L) as [_ [_ [B' _]]]. specialize (B' H3).
  assert (K : forall a b t t', t <= t' -> (a <= b -> a + (b - a) * t <= a + (b - a) * t') /\
                                (b <= a -> a + (b - a) * t' <= a + (b - a) * t)).
  { intros a b t t' T. split; intros Q.
    - assert (0 <= (b - a) * (t' - t)) by (apply Rmult_le_pos; lra). lra.
    - assert (0 <= (a - b) * (t' - t)) by (apply Rmult_le_pos; lra). lra. }
  unfold shape. destruct (sg_interp s).
  - apply K. exact M.
  - apply K. assert (P := PI_RGT_0).
    assert (cos (PI * progress s x') <= cos (PI * progress s x)); [|lra].
    assert (0 <= PI * progress s x) by (apply Rmult_le_pos; lra).
    assert (PI * progress s x <= PI * progress s x') by (apply Rmult_le_compat_l; lra).
    assert (PI * progress s x' <= PI). { rewrite <- (Rmult_1_r PI) at 2. apply Rmult_le_compat_l; lra. }
    destruct (Req_dec (PI * progress s x) (PI * progress s x')) as [->|N]; [lra|].
    left. apply cos_decreasing_1; lra.
  - lra.
Qed.
