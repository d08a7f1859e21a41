(** NamesFacts.v -- [levenshtein] computes the least cost of an edit sequence. *)
From Verif Require Import Base Value AFacts Checker SpecNames.

(** [case_variant] by computation *)
Fixpoint paired (a b : ascii) (c s : string) : bool :=
  match c, s with
  | String x c', String y s' => (Ascii.eqb x a && Ascii.eqb y b) || (Ascii.eqb x b && Ascii.eqb y a) || paired a b c' s'
  | _, _ => false
  end.
Lemma paired_iff a b c : forall s, paired a b c s = true <->
  exists i, (String.get i c = Some a /\ String.get i s = Some b) \/ (String.get i c = Some b /\ String.get i s = Some a).
Proof.
  induction c as [|x c IH]; intros [|y s]; cbn [paired]; try (split; [discriminate|]; intros (i & [[A B]|[A B]]); destruct i; discriminate).
  rewrite !orb_true_iff, !andb_true_iff, !Ascii.eqb_eq, IH. split.
  - intros [[[-> ->]|[-> ->]]|(i & H)]; [exists 0; now left|exists 0; now right|exists (S i); exact H].
  - intros ([|i] & H); [left|right; exists i; exact H]. cbn in H. destruct H as [[A B]|[A B]]; injection A as <-; injection B as <-; auto.
Qed.

Definition all_ascii : list ascii := map ascii_of_nat (seq 0 256).
Lemma in_all_ascii a : In a all_ascii.
Proof.
  unfold all_ascii. rewrite <- (ascii_nat_embedding a). apply in_map. apply in_seq. pose proof (nat_ascii_bounded a). lia.
Qed.

Lemma case_variant_iff a b : case_variant a b <-> a <> b /\ lower a = lower b.
Proof.
  unfold case_variant. rewrite <- (paired_iff a b capitals smalls).
  assert (H : forallb (fun a => forallb (fun b => Bool.eqb (paired a b capitals smalls) (negb (Ascii.eqb a b) && Ascii.eqb (lower a) (lower b))) all_ascii) all_ascii = true)
    by (vm_compute; reflexivity).
  rewrite forallb_forall in H. specialize (H a (in_all_ascii a)). rewrite forallb_forall in H. specialize (H b (in_all_ascii b)).
  apply Bool.eqb_prop in H. rewrite H, andb_true_iff, negb_true_iff, Ascii.eqb_eq, Ascii.eqb_neq. reflexivity.
Qed.

(** ** Alignments of lists of characters *)
Definition qcost (a b : ascii) : nat :=
  if Ascii.eqb a b then 0 else if Ascii.eqb (lower a) (lower b) then 1 else 4.

Inductive al : list ascii -> list ascii -> nat -> Prop :=
| al_nil : al [] [] 0
| al_ins s b t n : al s t n -> al s (b :: t) (n + 4)
| al_del a s t n : al s t n -> al (a :: s) t (n + 4)
| al_sub a s b t n : al s t n -> al (a :: s) (b :: t) (n + qcost a b).

Lemma qcost_refl a : qcost a a = 0.
Proof. unfold qcost. now rewrite Ascii.eqb_refl. Qed.

Lemma qcost_le a b : qcost a b <= 4.
Proof. unfold qcost. destruct (Ascii.eqb a b), (Ascii.eqb (lower a) (lower b)); lia. Qed.

Lemma qcost_sym a b : qcost a b = qcost b a.
Proof. unfold qcost. rewrite (Ascii.eqb_sym a b), (Ascii.eqb_sym (lower a)). reflexivity. Qed.

Lemma qcost_tri a b c : qcost a c <= qcost a b + qcost b c.
Proof.
  unfold qcost.
  destruct (Ascii.eqb_spec a b); destruct (Ascii.eqb_spec b c); destruct (Ascii.eqb_spec a c);
  destruct (Ascii.eqb_spec (lower a) (lower b)); destruct (Ascii.eqb_spec (lower b) (lower c));
  destruct (Ascii.eqb_spec (lower a) (lower c)); try lia; congruence.
Qed.

Lemma qcost_0 a b : qcost a b = 0 -> a = b.
Proof.
  unfold qcost. destruct (Ascii.eqb_spec a b); [auto|].
  destruct (Ascii.eqb (lower a) (lower b)); discriminate.
Qed.

Lemma al_refl s : al s s 0.
Proof.
  induction s as [|a s IH]; [constructor|]. replace 0 with (0 + qcost a a) by (rewrite qcost_refl; lia).
  now constructor.
Qed.

Lemma al_sym s t n : al s t n -> al t s n.
Proof. induction 1; [constructor|now apply al_del|now apply al_ins|]. rewrite qcost_sym. now apply al_sub. Qed.

Lemma al_app s t n s' t' n' : al s t n -> al s' t' n' -> al (s ++ s') (t ++ t') (n + n').
Proof.
  intros H H'. induction H; simpl; [auto| | |].
  - replace (n + 4 + n') with (n + n' + 4) by lia. now constructor.
  - replace (n + 4 + n') with (n + n' + 4) by lia. now constructor.
  - replace (n + qcost a b + n') with (n + n' + qcost a b) by lia. now constructor.
Qed.

Lemma al_rev s t n : al s t n -> al (rev s) (rev t) n.
Proof.
  induction 1; simpl; [constructor| | |].
  - rewrite <- (app_nil_r (rev s)). apply al_app; auto. apply (al_ins [] b [] 0 al_nil).
  - rewrite <- (app_nil_r (rev t)). apply al_app; auto. apply (al_del a [] [] 0 al_nil).
  - apply al_app; auto. apply (al_sub a [] b [] 0 al_nil).
Qed.

Lemma al_split_r s x y n : al s (x ++ y) n ->
  exists s1 s2 n1 n2, s = (s1 ++ s2)%list /\ n = n1 + n2 /\ al s1 x n1 /\ al s2 y n2.
Proof.
  intros H. remember (x ++ y)%list as t eqn:E. revert x y E. induction H as [|s b t n H IH|a s t n H IH|a s b t n H IH]; intros x y E.
  - symmetry in E. apply app_eq_nil in E. destruct E as [-> ->]. exists [], [], 0, 0. repeat split; constructor.
  - destruct x as [|x0 x]; simpl in E.
    + subst y. exists [], s, 0, (n + 4). repeat split; auto; constructor; auto.
    + injection E as -> E. destruct (IH x y E) as (s1 & s2 & n1 & n2 & -> & -> & A & B).
      exists s1, s2, (n1 + 4), n2. repeat split; auto; [lia|constructor; auto].
  - destruct (IH x y E) as (s1 & s2 & n1 & n2 & -> & -> & A & B).
    exists (a :: s1), s2, (n1 + 4), n2. repeat split; auto; [lia|apply al_del; auto].
  - destruct x as [|x0 x]; simpl in E.
    + subst y. exists [], (a :: s), 0, (n + qcost a b). repeat split; auto; constructor; auto.
    + injection E as -> E. destruct (IH x y E) as (s1 & s2 & n1 & n2 & -> & -> & A & B).
      exists (a :: s1), s2, (n1 + qcost a x0), n2. repeat split; auto; [lia|apply al_sub; auto].
Qed.

Lemma al_drop s c y n : al s (c :: y) n -> exists m, m <= n + 4 /\ al s y m.
Proof.
  intros H. remember (c :: y) as t eqn:E. revert c y E. induction H as [|s b t n H IH|a s t n H IH|a s b t n H IH]; intros c y E.
  - discriminate.
  - injection E as -> ->. exists n. split; [lia|auto].
  - destruct (IH c y E) as (m & L & A). exists (m + 4). split; [lia|constructor; auto].
  - injection E as -> ->. exists (n + 4). split; [lia|constructor; auto].
Qed.

Lemma al_change s c c' y n : al s (c :: y) n -> exists m, m <= n + qcost c c' /\ al s (c' :: y) m.
Proof.
  intros H. remember (c :: y) as t eqn:E. revert c y E. induction H as [|s b t n H IH|a s t n H IH|a s b t n H IH]; intros c y E.
  - discriminate.
  - injection E as -> ->. exists (n + 4). split; [lia|constructor; auto].
  - destruct (IH c y E) as (m & L & A). exists (m + 4). split; [lia|apply al_del; auto].
  - injection E as -> ->. exists (n + qcost a c'). split; [pose proof (qcost_tri a c c'); lia|apply al_sub; auto].
Qed.

(** ** Alignments and edit sequences *)
Notation chars := list_ascii_of_string.

Lemma chars_app s t : chars (s ++ t) = (chars s ++ chars t)%list.
Proof. induction s; simpl; congruence. Qed.

Lemma chars_inj s t : chars s = chars t -> s = t.
Proof. intros H. rewrite <- (string_of_list_ascii_of_string s), <- (string_of_list_ascii_of_string t). now f_equal. Qed.

Lemma chars_length s : List.length (chars s) = String.length s.
Proof. induction s; simpl; congruence. Qed.

Lemma edit_al s t u m n : al (chars s) (chars t) m -> edit t u n -> exists k, k <= m + n /\ al (chars s) (chars u) k.
Proof.
  intros A H. destruct H as [x c y|x c y|x a b y C|x a b y]; rewrite ?chars_app in *; simpl in A |- *.
  - apply al_split_r in A. destruct A as (s1 & s2 & n1 & n2 & E & -> & A & B). rewrite E.
    exists (n1 + (n2 + 4)). split; [lia|]. apply al_app; auto. now constructor.
  - apply al_split_r in A. destruct A as (s1 & s2 & n1 & n2 & E & -> & A & B). rewrite E.
    apply al_drop in B. destruct B as (k & L & B). exists (n1 + k). split; [lia|]. now apply al_app.
  - apply al_split_r in A. destruct A as (s1 & s2 & n1 & n2 & E & -> & A & B). rewrite E.
    apply (al_change _ _ b) in B. destruct B as (k & L & B). exists (n1 + k). split; [|now apply al_app].
    apply case_variant_iff in C. destruct C as [C1 C2]. unfold qcost in L. rewrite (proj2 (Ascii.eqb_eq (lower a) (lower b)) C2) in L.
    destruct (Ascii.eqb a b); lia.
  - apply al_split_r in A. destruct A as (s1 & s2 & n1 & n2 & E & -> & A & B). rewrite E.
    apply (al_change _ _ b) in B. destruct B as (k & L & B). exists (n1 + k). split; [|now apply al_app].
    pose proof (qcost_le a b). lia.
Qed.

Lemma edits_al s t n : edits s t n -> exists m, m <= n /\ al (chars s) (chars t) m.
Proof.
  induction 1 as [s|s t u m n H IH E].
  - exists 0. split; [lia|apply al_refl].
  - destruct IH as (k & L & A). destruct (edit_al _ _ _ _ _ A E) as (k' & L' & A'). exists k'. split; [lia|auto].
Qed.

Lemma edits_trans s t u m n : edits s t m -> edits t u n -> edits s u (m + n).
Proof.
  intros H H'. induction H' as [|t u w k n H' IH E].
  - now rewrite Nat.add_0_r.
  - rewrite Nat.add_assoc. econstructor; eauto.
Qed.

Lemma edit_cons a s t n : edit s t n -> edit (String a s) (String a t) n.
Proof.
  intros [x c y|x c y|x c b y C|x c b y].
  - apply (edit_insert (String a x)).
  - apply (edit_delete (String a x)).
  - now apply (edit_case (String a x)).
  - apply (edit_subst (String a x)).
Qed.

Lemma edits_cons a s t n : edits s t n -> edits (String a s) (String a t) n.
Proof. induction 1; [constructor|]. econstructor; eauto. now apply edit_cons. Qed.

Lemma al_edits l l' n : al l l' n -> edits (string_of_list_ascii l) (string_of_list_ascii l') n.
Proof.
  induction 1 as [|s b t n H IH|a s t n H IH|a s b t n H IH]; simpl.
  - constructor.
  - econstructor; [exact IH|]. apply (edit_insert "").
  - replace (n + 4) with (4 + n) by lia. eapply edits_trans; [|exact IH].
    apply (edits_then _ _ _ 0 4 (edits_none _)). apply (edit_delete "").
  - eapply edits_trans; [apply edits_cons; exact IH|].
    unfold qcost. destruct (Ascii.eqb_spec a b) as [->|N]; [constructor|].
    destruct (Ascii.eqb_spec (lower a) (lower b)) as [L|L].
    + apply (edits_then _ _ _ 0 1 (edits_none _)). apply (edit_case ""). apply case_variant_iff. now split.
    + apply (edits_then _ _ _ 0 4 (edits_none _)). apply (edit_subst "").
Qed.

(** ** The distance as a recursive function *)
Fixpoint dist (s : list ascii) : list ascii -> nat :=
  match s with
  | [] => fun t => 4 * length t
  | a :: s' =>
      fix inner (t : list ascii) : nat :=
        match t with
        | [] => 4 * length s
        | b :: t' => Nat.min (Nat.min (dist s' t + 4) (inner t' + 4)) (dist s' t' + qcost a b)
        end
  end.

Lemma dist_nil_l t : dist [] t = 4 * length t.
Proof. reflexivity. Qed.
Lemma dist_nil_r s : dist s [] = 4 * length s.
Proof. destruct s; reflexivity. Qed.
Lemma dist_cons a s b t :
  dist (a :: s) (b :: t) = Nat.min (Nat.min (dist s (b :: t) + 4) (dist (a :: s) t + 4)) (dist s t + qcost a b).
Proof. reflexivity. Qed.
Global Opaque dist.

Lemma al_len_l s n : n = 4 * length s -> al s [] n.
Proof.
  revert n. induction s as [|a s IH]; intros n ->; [constructor|]. cbn [length].
  replace (4 * S (length s)) with (4 * length s + 4) by lia. apply al_del. now apply IH.
Qed.

Lemma dist_al s : forall t, al s t (dist s t).
Proof.
  induction s as [|a s IH]; intros t.
  - rewrite dist_nil_l. apply al_sym, al_len_l. reflexivity.
  - induction t as [|b t IHt].
    + rewrite dist_nil_r. now apply al_len_l.
    + rewrite dist_cons.
      destruct (Nat.min_spec (Nat.min (dist s (b :: t) + 4) (dist (a :: s) t + 4)) (dist s t + qcost a b)) as [[_ ->]|[_ ->]].
      * destruct (Nat.min_spec (dist s (b :: t) + 4) (dist (a :: s) t + 4)) as [[_ ->]|[_ ->]]; [apply al_del|apply al_ins]; auto.
      * apply al_sub; auto.
Qed.

Lemma dist_least s t n : al s t n -> dist s t <= n.
Proof.
  induction 1 as [|s b t n H IH|a s t n H IH|a s b t n H IH].
  - rewrite dist_nil_l. simpl. lia.
  - destruct s as [|a s]; [rewrite !dist_nil_l in *; simpl; lia|]. rewrite dist_cons. lia.
  - destruct t as [|b t]; [rewrite !dist_nil_r in *; simpl; lia|]. rewrite dist_cons. lia.
  - rewrite dist_cons. lia.
Qed.

Lemma dist_rev s t : dist (rev s) (rev t) = dist s t.
Proof.
  apply Nat.le_antisymm.
  - apply dist_least, al_rev, dist_al.
  - rewrite <- (rev_involutive s), <- (rev_involutive t) at 1. apply dist_least, al_rev, dist_al.
Qed.

Lemma dist_sym s t : dist s t = dist t s.
Proof. apply Nat.le_antisymm; apply dist_least, al_sym, dist_al. Qed.

Lemma al_0 s t n : al s t n -> n = 0 -> s = t.
Proof.
  induction 1 as [|s b t n H IH|a s t n H IH|a s b t n H IH]; intros E; [auto|lia|lia|].
  f_equal; [apply qcost_0; lia|apply IH; lia].
Qed.

Lemma dist_0 s t : dist s t = 0 <-> s = t.
Proof.
  split; [intros E; eapply al_0; [apply dist_al|exact E]|intros ->].
  pose proof (dist_least _ _ _ (al_refl t)). lia.
Qed.

Lemma dist_max s t : dist s t <= 4 * Nat.max (length s) (length t).
Proof.
  assert (H : forall s t, length s <= length t -> dist s t <= 4 * length t).
  { intros s'. induction s' as [|a s' IH]; intros t' L; [now rewrite dist_nil_l|].
    destruct t' as [|b t']; simpl in L; [lia|]. rewrite dist_cons. simpl length.
    specialize (IH t' ltac:(lia)). pose proof (qcost_le a b). lia. }
  destruct (Nat.le_ge_cases (length s) (length t)) as [L|L].
  - specialize (H s t L). lia.
  - specialize (H t s L). rewrite dist_sym. lia.
Qed.

Lemma dist_least_cost s t : least_cost s t (dist (chars s) (chars t)).
Proof.
  split.
  - pose proof (al_edits _ _ _ (dist_al (chars s) (chars t))) as H. now rewrite !string_of_list_ascii_of_string in H.
  - intros m H. apply edits_al in H. destruct H as (k & L & A). apply dist_least in A. lia.
Qed.
