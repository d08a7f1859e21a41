(** AFacts.v -- facts about association lists, strings and the error monad. *)
From Verif Require Import Base.

Lemma rbind_ok {A B} (m : res A) (k : A -> res B) b :
  rbind m k = Ok b <-> exists a, m = Ok a /\ k a = Ok b.
Proof.
  destruct m as [a|e]; simpl; split.
  - intros H; exists a; auto.
  - intros [a' [H1 H2]]; injection H1 as <-; exact H2.
  - discriminate.
  - intros [a' [H1 _]]; discriminate.
Qed.

Lemma eqb_sym_str a b : String.eqb a b = String.eqb b a.
Proof. apply String.eqb_sym. Qed.

Lemma eqb_neq_str a b : a <> b -> String.eqb a b = false.
Proof. apply String.eqb_neq. Qed.

Section A.
  Context {A : Type}.
  Implicit Types (d : list (string * A)) (k : string) (v : A).

  Lemma aget_aset_same k v d : aget k (aset k v d) = Some v.
  Proof.
    induction d as [|[k' v'] d IH]; simpl.
    - now rewrite String.eqb_refl.
    - destruct (String.eqb k k') eqn:E; simpl; rewrite E; auto.
  Qed.

  Lemma aget_aset_other k k' v d : k <> k' -> aget k (aset k' v d) = aget k d.
  Proof.
    intros Hn; induction d as [|[j w] d IH]; simpl.
    - now rewrite (eqb_neq_str k k').
    - destruct (String.eqb k' j) eqn:E; simpl.
      + apply String.eqb_eq in E; subst. now rewrite (eqb_neq_str k j).
      + now rewrite IH.
  Qed.

  Lemma aget_aset k k' v d : aget k (aset k' v d) = if String.eqb k k' then Some v else aget k d.
  Proof.
    destruct (String.eqb k k') eqn:E.
    - apply String.eqb_eq in E; subst; apply aget_aset_same.
    - apply String.eqb_neq in E; now apply aget_aset_other.
  Qed.

  Lemma aget_adel_other k k' d : k <> k' -> aget k (adel k' d) = aget k d.
  Proof.
    intros Hn; induction d as [|[j w] d IH]; simpl; auto.
    destruct (String.eqb k' j) eqn:E; simpl.
    - apply String.eqb_eq in E; subst. now rewrite (eqb_neq_str k j).
    - now rewrite IH.
  Qed.

  Lemma aget_notin k d : ~ In k (akeys d) -> aget k d = None.
  Proof.
    induction d as [|[j w] d IH]; simpl; auto. intros H.
    rewrite eqb_neq_str; [apply IH; tauto|]. intros ->; tauto.
  Qed.

  Lemma aget_none_notin k d : aget k d = None -> ~ In k (akeys d).
  Proof.
    induction d as [|[j w] d IH]; simpl; auto.
    destruct (String.eqb k j) eqn:E; [discriminate|].
    apply String.eqb_neq in E. intros H [H'|H']; [congruence|]. now apply IH.
  Qed.

  Lemma aget_some_in k v d : aget k d = Some v -> In (k, v) d.
  Proof.
    induction d as [|[j w] d IH]; simpl; [discriminate|].
    destruct (String.eqb k j) eqn:E.
    - apply String.eqb_eq in E; intros H; injection H as <-; subst; auto.
    - auto.
  Qed.

  Lemma aget_some_inkeys k v d : aget k d = Some v -> In k (akeys d).
  Proof.
    intros H. apply aget_some_in in H. unfold akeys. apply in_map_iff. exists (k, v); auto.
  Qed.

  Lemma in_nodup_aget k v d : NoDup (akeys d) -> In (k, v) d -> aget k d = Some v.
  Proof.
    induction d as [|[j w] d IH]; simpl; [easy|].
    intros Hnd [H|H].
    - injection H as -> ->. now rewrite String.eqb_refl.
    - inversion Hnd as [|? ? H1 H2]; subst. rewrite eqb_neq_str; auto.
      intros ->. apply H1. apply in_map_iff. exists (j, v); auto.
  Qed.

  Lemma inkeys_aget k d : In k (akeys d) -> exists v, aget k d = Some v.
  Proof.
    intros H. destruct (aget k d) as [v|] eqn:E; [eauto|].
    apply aget_none_notin in E; tauto.
  Qed.

  Lemma aget_adel_same k d : NoDup (akeys d) -> aget k (adel k d) = None.
  Proof.
    induction d as [|[j w] d IH]; simpl; auto. intros Hnd.
    inversion Hnd as [|? ? H1 H2]; subst.
    destruct (String.eqb k j) eqn:E; simpl.
    - apply String.eqb_eq in E; subst. now apply aget_notin.
    - rewrite E. auto.
  Qed.

  Lemma akeys_aset_in k v d : In k (akeys d) -> akeys (aset k v d) = akeys d.
  Proof.
    induction d as [|[j w] d IH]; simpl; [easy|]. intros H.
    destruct (String.eqb k j) eqn:E; simpl; auto.
    f_equal. apply IH. destruct H as [->|]; auto. now rewrite String.eqb_refl in E.
  Qed.

  Lemma akeys_aset_notin k v d : ~ In k (akeys d) -> aset k v d = (d ++ [(k, v)])%list.
  Proof.
    induction d as [|[j w] d IH]; simpl; auto. intros H.
    rewrite eqb_neq_str; [|intros ->; tauto]. f_equal. apply IH; tauto.
  Qed.

  Lemma in_akeys_aset j k v d : In j (akeys (aset k v d)) <-> j = k \/ In j (akeys d).
  Proof.
    induction d as [|[i w] d IH]; simpl; [intuition|].
    destruct (String.eqb k i) eqn:E; simpl.
    - apply String.eqb_eq in E; subst. intuition.
    - rewrite IH. intuition.
  Qed.

  Lemma in_aset j w k v d : In (j, w) (aset k v d) -> (j = k /\ w = v) \/ In (j, w) d.
  Proof.
    induction d as [|[i u] d IH]; simpl.
    - intros [H|[]]; injection H as -> ->; auto.
    - destruct (String.eqb k i) eqn:E; simpl.
      + apply String.eqb_eq in E; subst. intros [H|H]; [injection H as -> ->; auto|auto].
      + intros [H|H]; [auto|]. destruct (IH H) as [?|?]; auto.
  Qed.

  Lemma in_adel x k d : In x (adel k d) -> In x d.
  Proof.
    induction d as [|[i u] d IH]; simpl; auto.
    destruct (String.eqb k i); simpl; intuition.
  Qed.

  Lemma in_akeys_adel j k d : In j (akeys (adel k d)) -> In j (akeys d).
  Proof.
    unfold akeys. rewrite !in_map_iff. intros [x [H1 H2]]. exists x; split; auto.
    eapply in_adel; eauto.
  Qed.

  Lemma nodup_aset k v d : NoDup (akeys d) -> NoDup (akeys (aset k v d)).
  Proof.
    induction d as [|[j w] d IH]; simpl; intros H.
    - constructor; auto.
    - inversion H as [|? ? H1 H2]; subst. destruct (String.eqb k j) eqn:E; simpl.
      + constructor; auto.
      + constructor; auto. rewrite in_akeys_aset. intros [->|H']; [|tauto].
        now rewrite String.eqb_refl in E.
  Qed.

  Lemma nodup_adel k d : NoDup (akeys d) -> NoDup (akeys (adel k d)).
  Proof.
    induction d as [|[j w] d IH]; simpl; intros H; auto.
    inversion H as [|? ? H1 H2]; subst. destruct (String.eqb k j) eqn:E; simpl; auto.
    constructor; auto. intros H'. apply H1. eapply in_akeys_adel; eauto.
  Qed.

  Lemma amem_true k d : amem k d = true <-> In k (akeys d).
  Proof.
    unfold amem. destruct (aget k d) eqn:E; split; intros H; auto.
    - eapply aget_some_inkeys; eauto.
    - discriminate.
    - apply aget_none_notin in E; tauto.
  Qed.

  Lemma amem_false k d : amem k d = false <-> ~ In k (akeys d).
  Proof.
    rewrite <- amem_true. destruct (amem k d); intuition congruence.
  Qed.

  Lemma amem_aget k d : amem k d = match aget k d with Some _ => true | None => false end.
  Proof. reflexivity. Qed.

  Lemma aset_aset k v w d : aset k v (aset k w d) = aset k v d.
  Proof.
    induction d as [|[j u] d IH]; simpl.
    - now rewrite String.eqb_refl.
    - destruct (String.eqb k j) eqn:E; simpl; rewrite E; auto. now rewrite IH.
  Qed.

  Lemma adel_notin k d : ~ In k (akeys d) -> adel k d = d.
  Proof.
    induction d as [|[j u] d IH]; simpl; auto. intros H.
    rewrite eqb_neq_str; [|intros ->; tauto]. f_equal; tauto.
  Qed.
End A.

Lemma aget_map {A B} (f : A -> B) k (d : list (string * A)) :
  aget k (map (fun kv => (fst kv, f (snd kv))) d) = option_map f (aget k d).
Proof.
  induction d as [|[j w] d IH]; simpl; auto. destruct (String.eqb k j); auto.
Qed.

Lemma akeys_map {A B} (f : A -> B) (d : list (string * A)) :
  akeys (map (fun kv => (fst kv, f (snd kv))) d) = akeys d.
Proof. unfold akeys. rewrite map_map. reflexivity. Qed.

(** ** append on strings *)
Lemma append_nil_r s : (s ++ "")%string = s.
Proof. induction s; simpl; congruence. Qed.

Lemma append_assoc_str a b c : ((a ++ b) ++ c)%string = (a ++ (b ++ c))%string.
Proof. induction a; simpl; congruence. Qed.

Lemma append_inj_l a b c : (a ++ b)%string = (a ++ c)%string -> b = c.
Proof. induction a; simpl; intros H; auto. injection H; auto. Qed.

Lemma append_empty a b : (a ++ b)%string = "" -> a = "" /\ b = "".
Proof. destruct a; simpl; [auto|discriminate]. Qed.
