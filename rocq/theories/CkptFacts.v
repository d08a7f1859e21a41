(** CkptFacts.v -- facts about names, numbers and [find_latest]. *)
From Coq Require Import Permutation.
From Verif Require Import Base Ckpt SpecCkpt AFacts.
Local Open Scope Z_scope.

(** ** characters *)
Lemma is_space_blank c : is_space c = true <-> blank c.
Proof.
  unfold blank. split.
  - destruct c as [[] [] [] [] [] [] [] []]; vm_compute; intro H; try discriminate; tauto.
  - simpl. intro H. repeat destruct H as [H|H]; try (subst; reflexivity). destruct H.
Qed.

Lemma digit_of_char d : (d < 10)%nat -> digit_of (ascii_of_nat (48 + d)) = Some (Z.of_nat d).
Proof. intro H. do 10 (destruct d as [|d]; [reflexivity|]). lia. Qed.

Lemma digit_of_inv c z : digit_of c = Some z -> exists d, (d < 10)%nat /\ c = ascii_of_nat (48 + d) /\ z = Z.of_nat d.
Proof.
  destruct c as [[] [] [] [] [] [] [] []]; vm_compute; intro H; try discriminate; injection H as <-;
  match goal with
  | |- exists d, _ /\ ?c = _ /\ ?z = _ => exists (Z.to_nat z); vm_compute; split; [lia|split; reflexivity]
  end.
Qed.

Lemma digit_not_space c z : digit_of c = Some z -> is_space c = false.
Proof.
  destruct c as [[] [] [] [] [] [] [] []]; vm_compute; intro H; try discriminate; reflexivity.
Qed.
Lemma digit_not_sign c z : digit_of c = Some z -> Ascii.eqb c "-" = false /\ Ascii.eqb c "+" = false.
Proof.
  destruct c as [[] [] [] [] [] [] [] []]; vm_compute; intro H; try discriminate; split; reflexivity.
Qed.

(** ** numerals *)
Lemma numeral_digits l n : numeral l n -> forall r, int_digits 0 false (l ++ r)%list = int_digits n true r.
Proof.
  induction 1 as [d Hd|l n d H IH Hd|l n d H IH Hd]; intro r.
  - cbn [app int_digits]. rewrite digit_of_char by auto. f_equal.
  - rewrite <- app_assoc, IH. cbn [app int_digits]. now rewrite digit_of_char.
  - rewrite <- app_assoc, IH. cbn [app int_digits]. change (digit_of "_") with (@None Z). cbn [andb Ascii.eqb Bool.eqb].
    now rewrite digit_of_char.
Qed.

Lemma digits_numeral r :
  (forall l n z, numeral l n -> int_digits n true r = Some z -> numeral (l ++ r)%list z) /\
  (forall l n z, numeral l n -> int_digits n false r = Some z -> numeral (l ++ "_"%char :: r)%list z).
Proof.
  induction r as [|c r [IH1 IH2]]; split; intros l n z Hn H.
  - injection H as <-. now rewrite app_nil_r.
  - discriminate.
  - cbn [int_digits] in H. destruct (digit_of c) eqn:Ed.
    + destruct (digit_of_inv _ _ Ed) as (d & Hd & -> & ->).
      replace (l ++ ascii_of_nat (48 + d) :: r)%list with ((l ++ [ascii_of_nat (48 + d)]) ++ r)%list by now rewrite <- app_assoc.
      eapply IH1; [|exact H]. now constructor.
    + destruct (Ascii.eqb c "_") eqn:Ec; [|discriminate]. apply Ascii.eqb_eq in Ec. subst c. eapply IH2; eauto.
  - cbn [int_digits] in H. destruct (digit_of c) eqn:Ed.
    + destruct (digit_of_inv _ _ Ed) as (d & Hd & -> & ->).
      replace (l ++ "_"%char :: ascii_of_nat (48 + d) :: r)%list
        with ((l ++ ["_"%char; ascii_of_nat (48 + d)]) ++ r)%list by now rewrite <- app_assoc.
      eapply IH1; [|exact H]. now constructor.
    + rewrite andb_false_r in H. discriminate.
Qed.

Lemma digits_numeral0 l z : int_digits 0 false l = Some z -> numeral l z.
Proof.
  destruct l as [|c r]; [discriminate|]. cbn [int_digits]. destruct (digit_of c) eqn:Ed.
  - destruct (digit_of_inv _ _ Ed) as (d & Hd & -> & ->). intro H.
    change (ascii_of_nat (48 + d) :: r)%list with ([ascii_of_nat (48 + d)] ++ r)%list.
    eapply digits_numeral; [|exact H]. now constructor.
  - now rewrite andb_false_r.
Qed.

Lemma numeral_iff l z : int_digits 0 false l = Some z <-> numeral l z.
Proof.
  split; [apply digits_numeral0|]. intro H. apply numeral_digits with (r := []) in H. now rewrite app_nil_r in H.
Qed.

Lemma numeral_ends l n : numeral l n ->
  (exists c r z, l = c :: r /\ digit_of c = Some z) /\ (exists c r z, l = (r ++ [c])%list /\ digit_of c = Some z).
Proof.
  induction 1 as [d Hd|l n d H IH Hd|l n d H IH Hd].
  - split; [exists (ascii_of_nat (48 + d)), [], (Z.of_nat d)|exists (ascii_of_nat (48 + d)), [], (Z.of_nat d)];
    (split; [reflexivity|now apply digit_of_char]).
  - destruct IH as [(c & r & z & -> & Hc) _]. split.
    + exists c, (r ++ [ascii_of_nat (48 + d)])%list, z. auto.
    + exists (ascii_of_nat (48 + d)), (c :: r)%list, (Z.of_nat d). split; auto. now apply digit_of_char.
  - destruct IH as [(c & r & z & -> & Hc) _]. split.
    + exists c, (r ++ ["_"%char; ascii_of_nat (48 + d)])%list, z. auto.
    + exists (ascii_of_nat (48 + d)), ((c :: r) ++ ["_"%char])%list, (Z.of_nat d). rewrite <- app_assoc. split; auto.
      now apply digit_of_char.
Qed.

(** ** strip *)
Lemma lstrip_split l : exists b, l = (b ++ lstrip l)%list /\ Forall blank b.
Proof.
  induction l as [|c l (b & E & F)]; [exists []; auto|]. cbn [lstrip]. destruct (is_space c) eqn:Ec.
  - exists (c :: b). split; [now rewrite E at 1|]. constructor; auto. now apply is_space_blank.
  - exists []. auto.
Qed.
Lemma lstrip_blank b l : Forall blank b -> lstrip (b ++ l)%list = lstrip l.
Proof. induction 1 as [|c b Hc H IH]; auto. cbn [app lstrip]. apply is_space_blank in Hc. now rewrite Hc. Qed.
Lemma lstrip_solid c l : is_space c = false -> lstrip (c :: l) = c :: l.
Proof. intro H. cbn [lstrip]. now rewrite H. Qed.

Lemma strip_split l : exists b a, l = (b ++ strip l ++ a)%list /\ Forall blank b /\ Forall blank a.
Proof.
  unfold strip. destruct (lstrip_split l) as (b & E & F). destruct (lstrip_split (rev (lstrip l))) as (a & E' & F').
  exists b, (rev a). split; [|split; auto].
  - rewrite E at 1. f_equal. rewrite <- rev_app_distr, <- E'. now rewrite rev_involutive.
  - now apply Forall_rev.
Qed.
Lemma strip_solid b c m d a : Forall blank b -> Forall blank a -> is_space c = false -> is_space d = false ->
  (c :: m = [d] \/ exists r, m = r ++ [d])%list ->
  strip (b ++ (c :: m) ++ a)%list = c :: m.
Proof.
  intros Hb Ha Hc Hd Hm. unfold strip. rewrite lstrip_blank by auto. cbn [app]. rewrite lstrip_solid by auto.
  change (c :: m ++ a)%list with ((c :: m) ++ a)%list. rewrite rev_app_distr, lstrip_blank by now apply Forall_rev.
  assert (E : exists r, (c :: m = r ++ [d])%list).
  { destruct Hm as [->|(r & ->)]; [exists []; auto|exists (c :: r); auto]. }
  destruct E as (r & ->). rewrite rev_app_distr. cbn [rev app]. rewrite lstrip_solid by auto.
  cbn [rev]. now rewrite rev_involutive.
Qed.

(** ** [int] *)
Lemma cons_tail {T} (c : T) m r d : (c :: m = r ++ [d])%list -> (c :: m = [d] \/ exists r, m = r ++ [d])%list.
Proof. destruct r as [|x r]; simpl; intro E; [now left|]. right. injection E as -> ->. now exists r. Qed.

Lemma py_int_text s z : py_int s = Some z <-> int_text s z.
Proof.
  unfold py_int, int_text. split.
  - destruct (strip_split (list_ascii_of_string s)) as (b & a & E & Hb & Ha).
    destruct (strip (list_ascii_of_string s)) as [|c r]; [discriminate|]. intro H.
    destruct (Ascii.eqb c "-") eqn:E1.
    + apply Ascii.eqb_eq in E1. subst c. destruct (int_digits 0 false r) as [n|] eqn:En; [|discriminate].
      injection H as <-. apply digits_numeral0 in En. exists b, a, r, n. auto 10.
    + destruct (Ascii.eqb c "+") eqn:E2.
      * apply Ascii.eqb_eq in E2. subst c. apply digits_numeral0 in H. exists b, a, r, z. auto 10.
      * apply digits_numeral0 in H. exists b, a, (c :: r), z. auto 10.
  - intros (b & a & l & n & Hb & Ha & Hn & H).
    destruct (numeral_ends _ _ Hn) as [(c & r & y & El & Hc) (c' & r' & y' & El' & Hc')].
    destruct H as [[E ->]|[[E ->]|[E ->]]]; rewrite E.
    + subst l. rewrite (strip_solid b c r c' a); eauto using digit_not_space, cons_tail.
      destruct (digit_not_sign _ _ Hc) as [-> ->]. now apply numeral_iff.
    + change ("+"%char :: l ++ a)%list with (("+"%char :: l) ++ a)%list.
      rewrite (strip_solid b "+" l c' a); eauto using digit_not_space. cbn. now apply numeral_iff.
    + change ("-"%char :: l ++ a)%list with (("-"%char :: l) ++ a)%list.
      rewrite (strip_solid b "-" l c' a); eauto using digit_not_space. cbn. apply numeral_iff in Hn. now rewrite Hn.
Qed.

(** ** the last twelve characters *)
Lemma substring_all s : substring 0 (String.length s) s = s.
Proof. induction s; simpl; congruence. Qed.
Lemma substring_tail f t : substring (String.length f) (String.length t) (f ++ t)%string = t.
Proof. induction f; simpl; auto. apply substring_all. Qed.
Lemma length_app f t : String.length (f ++ t)%string = (String.length f + String.length t)%nat.
Proof. induction f; simpl; auto. Qed.
Lemma substring_split k s : (k <= String.length s)%nat ->
  s = (substring 0 k s ++ substring k (String.length s - k) s)%string /\
  String.length (substring k (String.length s - k) s) = (String.length s - k)%nat.
Proof.
  revert s. induction k as [|k IH]; intros s H.
  - replace (String.length s - 0)%nat with (String.length s) by lia. rewrite substring_all. destruct s; auto.
  - destruct s as [|c s]; simpl in H; [lia|]. destruct (IH s) as [E1 E2]; [lia|]. cbn [substring String.length append Nat.sub].
    split; [now rewrite <- E1|auto].
Qed.

Lemma last12_app f t : String.length t = 12%nat -> last12 (f ++ t)%string = t.
Proof.
  intro H. unfold last12. rewrite length_app. replace (String.length f + String.length t - 12)%nat with (String.length f) by lia.
  rewrite <- H. apply substring_tail.
Qed.

Definition num (name : string) : option Z :=
  if Nat.leb 12 (String.length name) then py_int (last12 name) else None.

Lemma num_iff name z : num name = Some z <->
  exists front text, name = (front ++ text)%string /\ String.length text = 12%nat /\ int_text text z.
Proof.
  unfold num. split.
  - destruct (Nat.leb 12 (String.length name)) eqn:E; [|discriminate]. apply Nat.leb_le in E. intro H.
    destruct (substring_split (String.length name - 12) name) as [E1 E2]; [lia|].
    replace (String.length name - (String.length name - 12))%nat with 12%nat in * by lia.
    do 2 eexists. split; [exact E1|]. split; auto. now apply py_int_text.
  - intros (f & t & -> & Ht & H). rewrite length_app, Ht. replace (Nat.leb 12 (String.length f + 12)) with true.
    + rewrite last12_app by auto. now apply py_int_text.
    + symmetry. apply Nat.leb_le. lia.
Qed.

Section Find.
Context {A : Type}.
Implicit Types D : fs A.

Lemma numbered_iff D name z : numbered D name z <-> (exists l, In (name, EDir l) D) /\ num name = Some z.
Proof. unfold numbered. now rewrite num_iff. Qed.

(** ** [find_latest] *)
Lemma find_loop_eq latest name (e : entry A) r : find_loop latest ((name, e) :: r) =
  match is_dir e, num name with
  | true, Some n => match latest with
                    | None => find_loop (Some (n, name)) r
                    | Some (m, d) => if m <? n then find_loop (Some (n, name)) r else find_loop latest r
                    end
  | _, _ => find_loop latest r
  end.
Proof.
  cbn [find_loop]. unfold num. destruct (is_dir e); cbn [andb]; auto.
  destruct (Nat.leb 12 (String.length name)); auto. destruct latest as [[m d]|], (py_int (last12 name)); auto.
Qed.

Lemma numbered_cons name (e : entry A) r n z : numbered ((name, e) :: r) n z <->
  (n = name /\ is_dir e = true /\ num name = Some z) \/ numbered r n z.
Proof.
  rewrite !numbered_iff. split.
  - intros [(l & [E|H]) Hn]; [injection E as E1 E2; subst; auto|]. right. eauto.
  - intros [(-> & E & Hn)|[(l & H) Hn]].
    + destruct e as [l|]; [|discriminate]. split; auto. exists l. now left.
    + split; auto. exists l. now right.
Qed.

Lemma find_loop_spec D : forall latest,
  match find_loop latest D with
  | Some (z, name) =>
      (latest = Some (z, name) \/ numbered D name z) /\
      (forall n y, numbered D n y -> y <= z) /\ (forall y n, latest = Some (y, n) -> y <= z)
  | None => latest = None /\ forall n y, ~ numbered D n y
  end.
Proof.
  induction D as [|[name e] r IH]; intro latest.
  - cbn [find_loop]. destruct latest as [[z n]|].
    + split; [now left|]. split; [intros n' y [(l & []) _]|]. intros y n' E. injection E as <- <-. lia.
    + split; auto. intros n y [(l & []) _].
  - rewrite find_loop_eq.
    assert (Skip : (is_dir e = false \/ num name = None) -> match find_loop latest r with
      | Some (z, name0) => (latest = Some (z, name0) \/ numbered ((name, e) :: r) name0 z) /\
          (forall n y, numbered ((name, e) :: r) n y -> y <= z) /\ (forall y n, latest = Some (y, n) -> y <= z)
      | None => latest = None /\ forall n y, ~ numbered ((name, e) :: r) n y end).
    { intro Hs. specialize (IH latest). destruct (find_loop latest r) as [[z n0]|].
      - destruct IH as (H1 & H2 & H3). split; [destruct H1; auto; right; apply numbered_cons; auto|]. split; auto.
        intros n y Hn. apply numbered_cons in Hn. destruct Hn as [(_ & E1 & E2)|Hn]; eauto. destruct Hs; congruence.
      - destruct IH as (H1 & H2). split; auto. intros n y Hn. apply numbered_cons in Hn.
        destruct Hn as [(_ & E1 & E2)|Hn]; [destruct Hs; congruence|]. eapply H2; eauto. }
    destruct (is_dir e) eqn:Ee; [|apply Skip; auto]. destruct (num name) as [n|] eqn:En; [|apply Skip; auto]. clear Skip.
    assert (Take : (forall y m, latest = Some (y, m) -> y <= n) -> match find_loop (Some (n, name)) r with
      | Some (z, name0) => (latest = Some (z, name0) \/ numbered ((name, e) :: r) name0 z) /\
          (forall n y, numbered ((name, e) :: r) n y -> y <= z) /\ (forall y n, latest = Some (y, n) -> y <= z)
      | None => latest = None /\ forall n y, ~ numbered ((name, e) :: r) n y end).
    { intro Hl. specialize (IH (Some (n, name))). destruct (find_loop (Some (n, name)) r) as [[z n0]|]; [|now destruct IH].
      destruct IH as (H1 & H2 & H3). specialize (H3 n name eq_refl). split; [|split].
      - right. apply numbered_cons. destruct H1 as [E|H1]; [injection E as <- <-|]; auto.
      - intros m y Hn. apply numbered_cons in Hn. destruct Hn as [(_ & _ & E2)|Hn]; eauto. rewrite En in E2. injection E2 as <-. auto.
      - intros y m E. apply Hl in E. lia. }
    destruct latest as [[m d]|].
    + destruct (m <? n) eqn:Em.
      * apply Take. intros y k E. injection E as <- <-. apply Z.ltb_lt in Em. lia.
      * apply Z.ltb_ge in Em. specialize (IH (Some (m, d))). destruct (find_loop (Some (m, d)) r) as [[z n0]|]; [|now destruct IH].
        destruct IH as (H1 & H2 & H3). specialize (H3 m d eq_refl) as H3'. split; [|split]; auto.
        -- destruct H1; auto. right. apply numbered_cons. auto.
        -- intros k y Hn. apply numbered_cons in Hn. destruct Hn as [(_ & _ & E2)|Hn]; eauto.
           rewrite En in E2. injection E2 as <-. lia.
    + apply Take. discriminate.
Qed.

Lemma find_latest_some D name : find_latest D = Some name ->
  exists z, numbered D name z /\ forall n y, numbered D n y -> y <= z.
Proof.
  unfold find_latest. assert (H := find_loop_spec D None). destruct (find_loop None D) as [[z n]|]; [|discriminate].
  intro E. injection E as <-. destruct H as ([H|H] & H2 & _); [discriminate|]. eauto.
Qed.
Lemma find_latest_none D : find_latest D = None <-> forall name z, ~ numbered D name z.
Proof.
  unfold find_latest. assert (H := find_loop_spec D None). destruct (find_loop None D) as [[z n]|]; cbn; split; intro H'.
  - discriminate.
  - destruct H as ([H|H] & _); [discriminate|]. now apply H' in H.
  - now destruct H.
  - reflexivity.
Qed.
Lemma numbered_fun D name z z' : numbered D name z -> numbered D name z' -> z = z'.
Proof. rewrite !numbered_iff. intros [_ H] [_ H']. congruence. Qed.

Lemma find_latest_max D name z : numbered D name z -> (forall n y, numbered D n y -> y < z \/ n = name) ->
  find_latest D = Some name.
Proof.
  intros Hn Hm. destruct (find_latest D) as [k|] eqn:E.
  - destruct (find_latest_some _ _ E) as (y & Hk & Hy). destruct (Hm _ _ Hk); [|congruence]. specialize (Hy _ _ Hn). lia.
  - rewrite find_latest_none in E. now apply E in Hn.
Qed.

Lemma numbered_perm D D' name z : Permutation D D' -> numbered D name z -> numbered D' name z.
Proof. intros P [(l & H) H']. split; auto. exists l. eapply Permutation_in; eauto. Qed.

Lemma find_latest_order D D' : Permutation D D' ->
  (forall n n' z, numbered D n z -> numbered D n' z -> n = n') -> find_latest D' = find_latest D.
Proof.
  intros P U. destruct (find_latest D) as [n|] eqn:E.
  - destruct (find_latest_some _ _ E) as (z & Hn & Hz). apply (find_latest_max _ _ z); [eapply numbered_perm; eauto|].
    intros k y Hk. apply Permutation_sym in P. apply (numbered_perm _ _ _ _ P) in Hk. specialize (Hz _ _ Hk) as Hle.
    destruct (Z.eq_dec y z) as [->|]; [right; eauto|left; lia].
  - rewrite find_latest_none in *. intros name z H. apply (E name z). apply Permutation_sym in P. eapply numbered_perm; eauto.
Qed.
End Find.

(** ** checkpoint names *)
Lemma list_ascii_app a b : list_ascii_of_string (a ++ b)%string = (list_ascii_of_string a ++ list_ascii_of_string b)%list.
Proof. induction a; simpl; congruence. Qed.
Lemma length_list s : String.length s = List.length (list_ascii_of_string s).
Proof. induction s; simpl; congruence. Qed.

(** the value of a string of digits *)
Inductive plain : list ascii -> Z -> Prop :=
| plain_nil : plain [] 0
| plain_snoc l n d : plain l n -> (d < 10)%nat -> plain (l ++ [ascii_of_nat (48 + d)]) (10 * n + Z.of_nat d).
Lemma plain_numeral l n : plain l n -> l <> [] -> numeral l n.
Proof.
  induction 1 as [|l n d H IH Hd]; [congruence|]. intros _. destruct l as [|c l].
  - inversion H as [E1 E2|l n' d' H1 H2 E]; subst.
    + cbn [app]. replace (10 * 0 + Z.of_nat d) with (Z.of_nat d) by lia. now constructor.
    + now destruct l.
  - constructor; auto. apply IH. discriminate.
Qed.

Lemma plain_range l n : plain l n -> 0 <= n < 10 ^ Z.of_nat (List.length l).
Proof.
  induction 1 as [|l n d H IH Hd]; [simpl; lia|]. rewrite app_length. cbn [List.length].
  rewrite Nat2Z.inj_add, Z.pow_add_r by lia. change (10 ^ Z.of_nat 1) with 10. lia.
Qed.

Lemma digit_char_nat d : (d < 10)%N -> digit_char d = ascii_of_nat (48 + N.to_nat d).
Proof.
  intro H. unfold digit_char, ascii_of_nat. f_equal. lia.
Qed.

Lemma digits_fuel_plain fuel : forall n, (N.size_nat n < fuel)%nat ->
  plain (list_ascii_of_string (digits_fuel fuel n)) (Z.of_N n) /\
  digits_fuel fuel n <> ""%string /\
  ((n < 10)%N \/ 10 ^ (Z.of_nat (String.length (digits_fuel fuel n)) - 1) <= Z.of_N n).
Proof.
  induction fuel as [|fuel IH]; intros n H; [lia|]. cbn [digits_fuel]. destruct (n <? 10)%N eqn:E.
  - apply N.ltb_lt in E. split; [|split; [discriminate|auto]]. cbn [list_ascii_of_string].
    rewrite digit_char_nat by auto. replace (Z.of_N n) with (10 * 0 + Z.of_nat (N.to_nat n)) by lia.
    change [ascii_of_nat (48 + N.to_nat n)] with ([] ++ [ascii_of_nat (48 + N.to_nat n)])%list.
    constructor; [constructor|lia].
  - apply N.ltb_ge in E. assert (Hs : (N.size_nat (n / 10) < fuel)%nat).
    { assert (N.size_nat (n / 10) < N.size_nat n)%nat; [|lia].
      assert (Hz : (N.size (n / 10) < N.size n)%N).
      { assert (0 < n / 10)%N by (apply N.div_str_pos; lia).
        rewrite !N.size_log2 by lia.
        assert (N.log2 (n / 10) < N.log2 n)%N; [|lia].
        apply N.log2_lt_pow2; [auto|].
        assert (Hl : (n < 2 ^ N.succ (N.log2 n))%N) by (apply N.log2_spec; lia).
        rewrite N.pow_succ_r' in Hl. apply N.div_lt_upper_bound; lia. }
      revert Hz. generalize (n / 10)%N. clear. intros m Hz.
      assert (Q : forall p, N.pos (Pos.size p) = N.of_nat (Pos.size_nat p))
        by (induction p; cbn [Pos.size Pos.size_nat]; lia).
      destruct n as [|p], m as [|q]; cbn [N.size N.size_nat] in *; try lia;
      rewrite ?Q in Hz; lia. }
    destruct (IH _ Hs) as (P & Ne & B). split; [|split].
    + rewrite list_ascii_app. cbn [list_ascii_of_string]. assert (M : (n mod 10 < 10)%N) by (apply N.mod_lt; lia).
      rewrite digit_char_nat by auto. replace (Z.of_N n) with (10 * Z.of_N (n / 10) + Z.of_nat (N.to_nat (n mod 10))).
      * constructor; auto. lia.
      * rewrite (N.div_mod n 10) at 3 by lia. lia.
    + destruct (digits_fuel fuel (n / 10)); discriminate.
    + right. rewrite length_app. cbn [String.length].
      replace (Z.of_nat (String.length (digits_fuel fuel (n / 10)) + 1) - 1) with
        (Z.of_nat (String.length (digits_fuel fuel (n / 10)))) by lia.
      set (k := Z.of_nat (String.length (digits_fuel fuel (n / 10)))) in *.
      assert (Hk : 1 <= k). { unfold k. destruct (digits_fuel fuel (n / 10)); [congruence|simpl; lia]. }
      assert (Hd : Z.of_N (n / 10) * 10 <= Z.of_N n).
      { assert (10 * (n / 10) <= n)%N by (apply N.mul_div_le; lia). lia. }
      destruct B as [B|B].
      * assert (L : k = 1).
        { unfold k. destruct fuel; [lia|]. cbn [digits_fuel]. apply N.ltb_lt in B. rewrite B. reflexivity. }
        rewrite L. change (10 ^ 1) with 10. lia.
      * replace k with (1 + (k - 1)) by lia. rewrite Z.pow_add_r by lia. change (10 ^ 1) with 10. nia.
Qed.

Lemma show_plain n : plain (list_ascii_of_string (show_N n)) (Z.of_N n) /\ show_N n <> ""%string /\
  ((n < 10)%N \/ 10 ^ (Z.of_nat (String.length (show_N n)) - 1) <= Z.of_N n).
Proof. apply digits_fuel_plain. lia. Qed.

Lemma show_small n : (n < 10)%N -> String.length (show_N n) = 1%nat.
Proof.
  intro H. unfold show_N. cbn [digits_fuel]. apply N.ltb_lt in H. now rewrite H.
Qed.

(** [n] has at most [k] digits exactly if [n < 10^k] *)
Lemma show_length n k : (0 < k)%nat -> ((String.length (show_N n) <= k)%nat <-> Z.of_N n < 10 ^ Z.of_nat k).
Proof.
  intro Hk. destruct (show_plain n) as (P & _ & B). apply plain_range in P. rewrite <- length_list in P. split; intro H.
  - eapply Z.lt_le_trans; [apply P|]. apply Z.pow_le_mono_r; lia.
  - destruct B as [B|B]; [rewrite show_small by auto; lia|].
    assert (~ (k <= String.length (show_N n) - 1)%nat \/ (String.length (show_N n) = 0)%nat); [|lia].
    left. intro C. assert (10 ^ Z.of_nat k <= 10 ^ (Z.of_nat (String.length (show_N n)) - 1)); [|lia].
    apply Z.pow_le_mono_r; lia.
Qed.

Lemma zeros_list n : list_ascii_of_string (zeros n) = repeat "0"%char n.
Proof. induction n; simpl; congruence. Qed.
Lemma zeros_length n : String.length (zeros n) = n.
Proof. induction n; simpl; congruence. Qed.

Lemma plain_zeros k l n : plain l n -> plain (repeat "0"%char k ++ l)%list n.
Proof.
  induction 1 as [|l n d H IH Hd].
  - rewrite app_nil_r. induction k as [|k IH]; [constructor|]. cbn [repeat]. rewrite repeat_cons.
    apply (plain_snoc _ 0 0 IH). lia.
  - rewrite app_assoc. now constructor.
Qed.

Lemma plain_app l r n : plain (l ++ r)%list n ->
  exists a b, plain l a /\ plain r b /\ n = a * 10 ^ Z.of_nat (List.length r) + b.
Proof.
  revert n. induction r as [|c r IH] using rev_ind; intros n H.
  - rewrite app_nil_r in H. exists n, 0. split; auto. split; [constructor|]. simpl. lia.
  - rewrite app_assoc in H. inversion H as [E|l1 m d H1 H2 E]; [now destruct (l ++ r)%list|].
    apply app_inj_tail in E. destruct E as [-> <-]. destruct (IH _ H1) as (a & b & Ha & Hb & ->).
    exists a, (10 * b + Z.of_nat d). split; auto. split; [now constructor|].
    rewrite app_length. cbn [List.length]. rewrite Nat2Z.inj_add, Z.pow_add_r by lia. change (10 ^ Z.of_nat 1) with 10. ring.
Qed.

Lemma str_of_list s l : list_ascii_of_string s = l -> s = string_of_list_ascii l.
Proof. intros <-. now rewrite string_of_list_ascii_of_string. Qed.

Lemma plain_int s n : plain (list_ascii_of_string s) n -> s <> ""%string -> int_text s n.
Proof.
  intros H Hs. exists [], [], (list_ascii_of_string s), n. repeat split; auto.
  - apply plain_numeral; auto. destruct s; [congruence|discriminate].
  - left. cbn [app]. now rewrite app_nil_r.
Qed.

Lemma num_text f t z : String.length t = 12%nat -> int_text t z -> num (f ++ t)%string = Some z.
Proof. intros H H'. apply num_iff. eauto. Qed.

Lemma app_string_assoc a b c : ((a ++ b) ++ c = a ++ (b ++ c))%string.
Proof. induction a; simpl; congruence. Qed.

Lemma format_num pre n : in_range n -> num (pre ++ format012 n)%string = Some n.
Proof.
  intros [L U]. unfold format012. set (s := show_N (Z.abs_N n)). assert (P := show_plain (Z.abs_N n)). fold s in P.
  destruct P as (P & Ne & _). destruct (n <? 0) eqn:E.
  - apply Z.ltb_lt in E. assert (H : (String.length s <= 11)%nat).
    { apply show_length; [lia|]. rewrite N2Z.inj_abs_N. change (Z.of_nat 11) with 11. lia. }
    apply num_text.
    + cbn [append String.length]. rewrite length_app, zeros_length. lia.
    + rewrite N2Z.inj_abs_N, Z.abs_neq in P by lia.
      exists [], [], (list_ascii_of_string (zeros (11 - String.length s) ++ s)), (- n). repeat split; auto.
      * apply plain_numeral; [rewrite list_ascii_app, zeros_list; now apply plain_zeros|].
        rewrite list_ascii_app. destruct s; [congruence|]. destruct (list_ascii_of_string (zeros _)); discriminate.
      * right. right. split; [|lia]. cbn [app append list_ascii_of_string]. now rewrite app_nil_r.
  - apply Z.ltb_ge in E. assert (H : (String.length s <= 12)%nat).
    { apply show_length; [lia|]. rewrite N2Z.inj_abs_N. change (Z.of_nat 12) with 12. lia. }
    apply num_text.
    + rewrite length_app, zeros_length. lia.
    + rewrite N2Z.inj_abs_N, Z.abs_eq in P by lia. apply plain_int.
      * rewrite list_ascii_app, zeros_list. now apply plain_zeros.
      * destruct (zeros (12 - String.length s)); [auto|discriminate].
Qed.

(** beyond the range only the last twelve digits are read *)
Lemma format_num_out pre n : ~ in_range n -> num (pre ++ format012 n)%string = Some (Z.abs n mod 10 ^ 12).
Proof.
  intro R. unfold format012. set (s := show_N (Z.abs_N n)). assert (P := show_plain (Z.abs_N n)). fold s in P.
  destruct P as (P & Ne & _). rewrite N2Z.inj_abs_N in P.
  assert (Hl : (12 <= String.length s)%nat /\ exists p, (pre ++ (if (n <? 0)%Z then "-" ++ zeros (11 - String.length s) ++ s
    else zeros (12 - String.length s) ++ s) = p ++ s)%string).
  { destruct (n <? 0) eqn:E.
    - apply Z.ltb_lt in E. assert (~ (String.length s <= 11)%nat).
      { intro H. apply show_length in H; [|lia]. rewrite N2Z.inj_abs_N in H. change (Z.of_nat 11) with 11 in H.
        apply R. unfold in_range. lia. }
      split; [lia|]. exists (pre ++ "-")%string. replace (11 - String.length s)%nat with 0%nat by lia. cbn [zeros].
      now rewrite app_string_assoc.
    - apply Z.ltb_ge in E. assert (~ (String.length s <= 12)%nat).
      { intro H. apply show_length in H; [|lia]. rewrite N2Z.inj_abs_N in H. change (Z.of_nat 12) with 12 in H.
        apply R. unfold in_range. lia. }
      split; [lia|]. exists pre. replace (12 - String.length s)%nat with 0%nat by lia. reflexivity. }
  destruct Hl as (Hl & p & ->).
  destruct (substring_split (String.length s - 12) s) as [E1 E2]; [lia|].
  replace (String.length s - (String.length s - 12))%nat with 12%nat in * by lia.
  set (t := substring (String.length s - 12) 12 s) in *. rewrite E1, <- app_string_assoc.
  apply num_text; auto. rewrite E1, list_ascii_app in P. apply plain_app in P. destruct P as (a & b & _ & Hb & Hn).
  rewrite <- length_list, E2 in Hn. change (Z.of_nat 12) with 12 in Hn. replace (Z.abs n mod 10 ^ 12) with b.
  - apply plain_int; auto. destruct t; [discriminate|discriminate].
  - assert (Hr := plain_range _ _ Hb). rewrite <- length_list, E2 in Hr. change (Z.of_nat 12) with 12 in Hr.
    rewrite Hn. rewrite Z.add_comm, Z.mod_add by lia. now rewrite Z.mod_small.
Qed.

(** names of temporary copies are never numbers *)
Lemma in_list_last12 p : In "."%char (list_ascii_of_string (last12 (p ++ ".tmp")%string)) \/
  (String.length (p ++ ".tmp")%string < 12)%nat.
Proof.
  destruct (Nat.lt_ge_cases (String.length (p ++ ".tmp")) 12) as [H|H]; [now right|]. left.
  rewrite length_app in H. cbn [String.length] in H.
  destruct (substring_split (String.length p - 8) p) as [E1 E2]; [lia|].
  replace (String.length p - (String.length p - 8))%nat with 8%nat in * by lia.
  set (t := substring (String.length p - 8) 8 p) in *. rewrite E1, app_string_assoc. rewrite last12_app.
  - rewrite list_ascii_app. apply in_or_app. right. simpl. auto.
  - rewrite length_app. cbn [String.length]. lia.
Qed.

Lemma numeral_chars l n : numeral l n -> Forall (fun c => c <> "."%char) l.
Proof.
  assert (D : forall d, (d < 10)%nat -> ascii_of_nat (48 + d) <> "."%char).
  { intros d Hd E. apply (f_equal digit_of) in E. rewrite digit_of_char in E by auto. discriminate. }
  induction 1 as [d Hd|l n d H IH Hd|l n d H IH Hd].
  - repeat constructor. auto.
  - apply Forall_app. split; auto.
  - apply Forall_app. split; auto. constructor; [discriminate|]. auto.
Qed.

Lemma blank_chars l : Forall blank l -> Forall (fun c => c <> "."%char) l.
Proof. intro H. eapply Forall_impl; [|exact H]. intros c Hc E. subst c. apply is_space_blank in Hc. discriminate. Qed.

Lemma int_text_chars s z : int_text s z -> ~ In "."%char (list_ascii_of_string s).
Proof.
  intros (b & a & l & n & Hb & Ha & Hn & H) Hi.
  assert (F : Forall (fun c => c <> "."%char) (list_ascii_of_string s)).
  { apply numeral_chars in Hn. apply blank_chars in Hb, Ha.
    destruct H as [[-> _]|[[-> _]|[-> _]]]; repeat (apply Forall_app; split); auto;
      constructor; [discriminate| |discriminate|]; apply Forall_app; split; auto. }
  rewrite Forall_forall in F. now apply F in Hi.
Qed.

Lemma num_tmp p : num (p ++ ".tmp")%string = None.
Proof.
  unfold num. destruct (in_list_last12 p) as [H|H].
  - destruct (Nat.leb _ _); auto. destruct (py_int _) as [z|] eqn:E; auto. apply py_int_text, int_text_chars in E. contradiction.
  - apply Nat.leb_gt in H. now rewrite H.
Qed.
