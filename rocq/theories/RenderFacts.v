(** RenderFacts.v -- reading back what check-schema prints (C67, C68). *)
From Verif Require Import Base Value Schema Rewrite Sched Types Asdict FromDict Checker SpecTypes SpecFix AFacts Induct CheckFacts CkptFacts OverrideFacts Render SpecRender.
Local Open Scope string_scope.
Local Open Scope nat_scope.

Ltac ascii_cases a := destruct a as [[] [] [] [] [] [] [] []].

(** ** Tokens *)

Definition stops (p : ascii -> bool) (s : string) : bool :=
  match s with "" => true | String a _ => negb (p a) end.

Lemma span_app p x s : every p x = true -> stops p s = true -> span p (x ++ s) = (x, s).
Proof.
  induction x as [|a x IH]; intros H Hs.
  - destruct s as [|b s]; [reflexivity|]. cbn in *. apply negb_true_iff in Hs. now rewrite Hs.
  - cbn in H. apply andb_true_iff in H as [H1 H2]. cbn. now rewrite H1, IH.
Qed.

Lemma every_app p x y : every p (x ++ y) = every p x && every p y.
Proof. induction x as [|a x IH]; cbn; auto. now rewrite IH, andb_assoc. Qed.

Lemma number_app x y acc : number acc (x ++ y) = number (number acc x) y.
Proof. revert acc. induction x as [|a x IH]; intros acc; cbn [number String.append]; auto. Qed.

Lemma digit_ok d : (d < 10)%nat -> digit (ascii_of_nat (48 + d)) = true /\ nat_of_ascii (ascii_of_nat (48 + d)) = (48 + d)%nat.
Proof. intros H. do 10 (destruct d as [|d]; [split; reflexivity|]). lia. Qed.

Lemma plain_digits l n : plain l n -> every digit (string_of_list_ascii l) = true /\ number 0 (string_of_list_ascii l) = n.
Proof.
  assert (A : forall a b, string_of_list_ascii (a ++ b) = string_of_list_ascii a ++ string_of_list_ascii b)
    by (induction a; intros; cbn; congruence).
  induction 1 as [|l n d H [I1 I2] Hd]; [split; reflexivity|]. rewrite A, every_app, number_app, I1, I2.
  destruct (digit_ok d Hd) as [D1 D2]. cbn [string_of_list_ascii every number]. rewrite D1, D2. split; [reflexivity|lia].
Qed.

Lemma show_N_ok n : every digit (show_N n) = true /\ number 0 (show_N n) = Z.of_N n /\ show_N n <> "".
Proof.
  destruct (show_plain n) as (P & N & _). apply plain_digits in P. rewrite string_of_list_ascii_of_string in P. tauto.
Qed.

Lemma every_imp (p q : ascii -> bool) s : (forall a, p a = true -> q a = true) -> every p s = true -> every q s = true.
Proof.
  intros H. induction s as [|a s IH]; cbn; auto. rewrite !andb_true_iff. intros [H1 H2]. auto.
Qed.

Lemma digit_numeric a : digit a = true -> numeric a = true.
Proof. ascii_cases a; cbn; congruence. Qed.

Definition starts_number (s : string) : bool :=
  match s with String a _ => digit a || Ascii.eqb a "-" | "" => false end.

Lemma show_Z_ok E z : every numeric (show_Z z) = true /\ starts_number (show_Z z) = true /\ read_number E (show_Z z) = Some (VInt z).
Proof.
  destruct (show_N_ok (Z.abs_N z)) as (D & N & Ne). unfold show_Z. destruct (Z.ltb_spec z 0) as [Hz|Hz].
  - cbn [String.append]. split; [|split].
    + cbn. apply (every_imp digit); auto using digit_numeric.
    + reflexivity.
    + unfold read_number, unsigned. cbn [every]. change (digit "-") with false. rewrite andb_false_r.
      cbn [negative]. change (Ascii.eqb "-" "-") with true. cbn iota. rewrite D.
      destruct (String.eqb_spec (show_N (Z.abs_N z)) ""); [easy|]. cbn [negb andb]. rewrite N. repeat f_equal. lia.
  - split; [|split].
    + apply (every_imp digit); auto using digit_numeric.
    + destruct (show_N (Z.abs_N z)); [easy|]. cbn in *. apply andb_true_iff in D as [-> _]. reflexivity.
    + unfold read_number, unsigned. rewrite D. destruct (String.eqb_spec (show_N (Z.abs_N z)) ""); [easy|].
      cbn [negb andb]. rewrite N. repeat f_equal. lia.
Qed.

Lemma every_has_char p c s : every p s = true -> has_char c s = true -> p c = true.
Proof.
  induction s as [|a s IH]; cbn; [discriminate|]. rewrite andb_true_iff, orb_true_iff. intros [H1 H2] [H|H]; auto.
  apply Ascii.eqb_eq in H. now subst.
Qed.

Lemma not_unsigned t : has_char "." t || has_char "e" t || has_char "E" t = true -> unsigned t = false.
Proof.
  intros H. unfold unsigned. destruct (every digit t) eqn:D; [|apply andb_false_r]. exfalso.
  rewrite !orb_true_iff in H. destruct H as [[H|H]|H]; apply (every_has_char _ _ _ D) in H; discriminate.
Qed.

Lemma float_ok E f s : float_literal s = true -> e_float E s = Some f ->
  every numeric s = true /\ starts_number s = true /\ read_number E s = Some (VFloat f).
Proof.
  intros H F. pose proof H as H0. unfold float_literal in H.
  destruct (negative s) as [t|] eqn:En.
  - destruct s as [|a s]; [discriminate|]. cbn [negative] in En. destruct (Ascii.eqb_spec a "-") as [->|]; [|discriminate].
    injection En as ->. destruct t as [|b t]; [discriminate|]. rewrite !andb_true_iff in H. destruct H as [[H1 H2] H3].
    split; [exact H2|]. split; [reflexivity|]. unfold read_number. cbn [negative]. change (Ascii.eqb "-" "-") with true.
    cbn iota. rewrite (not_unsigned _ H3), H0, F. reflexivity.
  - destruct s as [|b t]; [discriminate|]. rewrite !andb_true_iff in H. destruct H as [[H1 H2] H3].
    split; [exact H2|]. split; [unfold starts_number; now rewrite H1|]. unfold read_number. rewrite (not_unsigned _ H3), En, H0, F. reflexivity.
Qed.

(** ** Strings *)

Lemma read_escape q a t : q = squote \/ q = dquote ->
  read_quoted q (escape q a ++ t) = match read_quoted q t with Some (x, y) => Some (String a x, y) | None => None end.
Proof. intros [->| ->]; ascii_cases a; reflexivity. Qed.

Lemma read_escapes q s rest : q = squote \/ q = dquote -> read_quoted q (escapes q s ++ String q rest) = Some (s, rest).
Proof.
  intros Q. induction s as [|a s IH]; cbn [escapes String.append].
  - cbn. now rewrite Ascii.eqb_refl.
  - now rewrite append_assoc_str, read_escape, IH.
Qed.

(** ** What may follow an expression, and how one may start *)

Definition stop (s : string) : bool := match s with "" => false | String a _ => char_in ",)]}:" a end.
Definition start (s : string) : bool := match s with "" => false | String a _ => negb (char_in ",)]}: " a || blank a) end.

Lemma stop_cases s : stop s = true -> exists a r, s = String a r /\ (a = "," \/ a = ")" \/ a = "]" \/ a = "}" \/ a = ":")%char.
Proof.
  destruct s as [|a r]; [discriminate|]. intros H. exists a, r. split; auto. unfold stop, char_in in H.
  ascii_cases a; cbn in H; try discriminate; auto 6.
Qed.

Lemma stop_letter s : stop s = true -> stops letter s = true.
Proof. intros H. apply stop_cases in H as (a & r & -> & [->|[->|[->|[->| ->]]]]); reflexivity. Qed.
Lemma stop_numeric s : stop s = true -> stops numeric s = true.
Proof. intros H. apply stop_cases in H as (a & r & -> & [->|[->|[->|[->| ->]]]]); reflexivity. Qed.

Lemma skip_start s t : start s = true -> skip (s ++ t) = (s ++ t)%string.
Proof.
  destruct s as [|a s]; [discriminate|]. cbn. destruct (blank a); [rewrite orb_true_r; discriminate|reflexivity].
Qed.

Lemma letter_start s t : s <> "" -> every letter s = true -> start (s ++ t) = true.
Proof.
  destruct s as [|a s]; [easy|]. intros _ H. cbn in H. apply andb_true_iff in H as [H _].
  unfold start. cbn [String.append]. ascii_cases a; cbn in *; congruence.
Qed.

Lemma numeric_start s : starts_number s = true -> start s = true.
Proof. destruct s as [|a s]; [discriminate|]. unfold starts_number, start. ascii_cases a; cbn; congruence. Qed.

(** ** Displays *)

Section Items.
  Context {A : Type} (rd : string -> option (A * string)) (close : ascii).

  Definition item (tx : string * A) : Prop :=
    start (fst tx) = true /\ forall r, (exists r', r = String "," r' \/ r = String close r') -> rd (fst tx ++ r) = Some (snd tx, r).

  Hypothesis C : char_in ")]}" close = true.

  Lemma close_cases : close = ")"%char \/ close = "]"%char \/ close = "}"%char.
  Proof. revert C. unfold char_in. ascii_cases close; cbn; intros; try discriminate; auto. Qed.

  Lemma read_end k s rest : skip s = String close rest -> read_list rd close (S k) s = Some ([], false, rest).
  Proof. intros H. cbn [read_list]. rewrite H, Ascii.eqb_refl. reflexivity. Qed.

  Lemma start_not_close t r : start t = true -> exists a u, (t ++ r)%string = String a u /\ Ascii.eqb a close = false.
  Proof.
    destruct t as [|a t]; [discriminate|]. intros H. exists a, (t ++ r)%string. split; [reflexivity|].
    apply Ascii.eqb_neq. intros ->. destruct close_cases as [->|[->| ->]]; discriminate.
  Qed.

  Lemma read_last k s t x rest : item (t, x) -> skip s = (t ++ String close rest)%string ->
    read_list rd close (S k) s = Some ([x], false, rest).
  Proof.
    intros [I1 I2] H. cbn [fst snd] in *. cbn [read_list]. destruct (start_not_close t (String close rest) I1) as (a & u & E & Ha).
    rewrite H, E, Ha, <- E. rewrite I2 by eauto. destruct close_cases as [->|[->| ->]]; cbn; reflexivity.
  Qed.

  Lemma read_more k s t x rest l b rest' : item (t, x) -> skip s = (t ++ String "," rest)%string ->
    read_list rd close k rest = Some (l, b, rest') -> read_list rd close (S k) s = Some (x :: l, true, rest').
  Proof.
    intros [I1 I2] H R. cbn [fst snd] in *. cbn [read_list]. destruct (start_not_close t (String "," rest) I1) as (a & u & E & Ha).
    rewrite H, E, Ha, <- E. rewrite I2 by eauto. fold (@read_list A rd close). destruct close_cases as [Ec|[Ec|Ec]]; rewrite Ec in *; cbn; rewrite R; reflexivity.
  Qed.

  Lemma skip_items l rest : Forall item l -> skip (join ", " (map fst l) ++ String close rest) = (join ", " (map fst l) ++ String close rest)%string.
  Proof.
    intros F. destruct l as [|tx l].
    - cbn. destruct close_cases as [->|[->| ->]]; reflexivity.
    - inversion F as [|? ? [S0 _] _]; subst. destruct (fst tx) as [|a u] eqn:E; [discriminate|].
      assert (J : exists w, join ", " (map fst (tx :: l)) = String a w).
      { cbn [map]. rewrite E. destruct l as [|ty l]; [exists u; reflexivity|]. eexists. cbn [map join]. reflexivity. }
      destruct J as [w ->]. apply (skip_start (String a w) (String close rest)). exact S0.
  Qed.

  Lemma read_items l : forall k s rest, Forall item l -> (List.length l < k)%nat ->
    skip s = (join ", " (map fst l) ++ String close rest)%string ->
    read_list rd close k s = Some (map snd l, Nat.ltb 1 (List.length l), rest).
  Proof.
    induction l as [|[t x] l IH]; intros k s rest F K H; (destruct k as [|k]; [cbn in K; lia|]).
    - apply read_end. exact H.
    - inversion F as [|? ? I F']; subst. destruct l as [|[t2 x2] l].
      + apply (read_last k s t); auto.
      + cbn [map snd List.length]. change (Nat.ltb 1 (S (S (List.length l)))) with true.
        apply (read_more k s t x (" " ++ join ", " (map fst ((t2, x2) :: l)) ++ String close rest) _
                 (Nat.ltb 1 (List.length ((t2, x2) :: l)))); auto.
        * rewrite H. cbn [map fst join]. rewrite append_assoc_str. reflexivity.
        * apply (IH k _ rest F'); [cbn in *; lia|]. cbn [String.append skip blank]. change (blank " ") with true. cbn iota.
          now apply skip_items.
  Qed.
End Items.

(** ** Lengths *)

Lemma join_cons2 s x y l : join s (x :: y :: l) = (x ++ s ++ join s (y :: l))%string.
Proof. reflexivity. Qed.

Lemma in_join_len s x l : In x l -> String.length x <= String.length (join s l).
Proof.
  induction l as [|y l IH]; [easy|]. intros [->|H].
  - destruct l as [|z l]; [reflexivity|]. rewrite join_cons2, !length_app. lia.
  - destruct l as [|z l]; [easy|]. rewrite join_cons2, !length_app. specialize (IH H). lia.
Qed.

Lemma join_count s l : Forall (fun x => start x = true) l -> List.length l <= String.length (join s l).
Proof.
  induction 1 as [|x l H F IH]; [cbn; lia|]. destruct x as [|a x]; [discriminate|].
  destruct l as [|y l]; [cbn; lia|]. rewrite join_cons2, !length_app. cbn [List.length String.length] in *. lia.
Qed.

Lemma read_display {A} (rd : string -> option (A * string)) close items rest : char_in ")]}" close = true -> Forall (item rd close) items ->
  let s := (join ", " (map fst items) ++ String close rest)%string in
  read_list rd close (S (String.length s)) s = Some (map snd items, Nat.ltb 1 (List.length items), rest).
Proof.
  intros C F s. apply read_items; auto.
  - assert (J : Forall (fun x => start x = true) (map fst items)).
    { apply Forall_map. eapply Forall_impl; [|exact F]. intros ? [? _]. auto. }
    apply (join_count ", ") in J. rewrite map_length in J. unfold s. rewrite length_app. cbn [String.length]. lia.
  - now apply (skip_items rd).
Qed.

(** ** Values *)

Lemma char_letter (w : string) r : stop r = true -> every letter w = true -> span letter (w ++ r) = (w, r).
Proof. intros. apply span_app; auto using stop_letter. Qed.

Lemma start_number_first s t : starts_number s = true -> exists a u, (s ++ t)%string = String a u /\
  blank a = false /\ Ascii.eqb a "[" = false /\ Ascii.eqb a "(" = false /\ Ascii.eqb a "{" = false /\
  (Ascii.eqb a "'" || Ascii.eqb a """") = false /\ (digit a || Ascii.eqb a "-") = true.
Proof.
  destruct s as [|a s]; [discriminate|]. intros H. exists a, (s ++ t)%string. split; [reflexivity|]. unfold starts_number in H.
  ascii_cases a; cbn in *; try discriminate; repeat split.
Qed.

Lemma read_num E n s v r : every numeric s = true -> starts_number s = true -> read_number E s = Some v -> stop r = true ->
  read_val E (S n) (s ++ r) = Some (v, r).
Proof.
  intros H1 H2 H3 H4. pose proof (start_number_first s r H2) as (a & u & Eu & B & C1 & C2 & C3 & C4 & C5).
  cbn [read_val]. rewrite (skip_start s r (numeric_start s H2)), Eu. cbv iota beta. rewrite C1, C2, C3, C4, C5, <- Eu.
  rewrite span_app by auto using stop_numeric. now rewrite H3.
Qed.

Lemma fold_aset {A} (l : list (string * A)) : NoDup (akeys l) -> fold_left (fun d kv => aset (fst kv) (snd kv) d) l [] = l.
Proof.
  intros N. assert (G : forall acc, NoDup (akeys (acc ++ l)%list) -> fold_left (fun d kv => aset (fst kv) (snd kv) d) l acc = (acc ++ l)%list).
  { clear N. induction l as [|[k v] l IH]; intros acc N; [now rewrite app_nil_r|]. cbn [fold_left fst snd].
    assert (E : aset k v acc = (acc ++ [(k, v)])%list).
    { assert (K : ~ In k (akeys acc)).
      { unfold akeys in *. rewrite map_app in N. cbn [map fst] in N. apply NoDup_remove_2 in N. intros I. apply N, in_or_app. auto. }
      clear -K. induction acc as [|[k' v'] acc IH]; [reflexivity|]. cbn in *. destruct (String.eqb_spec k k'); [subst; tauto|].
      rewrite IH by tauto. reflexivity. }
    rewrite E, IH.
    - now rewrite <- app_assoc.
    - now rewrite <- app_assoc. }
  apply G. exact N.
Qed.

Section Values.
  Variables (E : env) (rf : pyfloat -> string) (addr : string).
  Let txt := py_repr rf addr.

  Lemma repr_start s : start (repr_str s) = true.
  Proof. unfold repr_str. cbn zeta. match goal with |- context [if ?b then _ else _] => destruct b end; reflexivity. Qed.

  Lemma txt_start v : literal E rf v -> start (txt v) = true.
  Proof.
    destruct v; cbn [literal]; try (intros []; fail); intros H; unfold txt; cbn [py_repr]; try reflexivity.
    - destruct b; reflexivity.
    - apply numeric_start. apply (show_Z_ok E).
    - apply numeric_start. destruct H as [H1 H2]. apply (float_ok E f); auto.
    - apply repr_start.
    - unfold tuple_text. destruct (map _ l) as [|? [|? ?]]; reflexivity.
  Qed.

  Lemma read_str n s r : read_val E (S n) (repr_str s ++ r) = Some (VStr s, r).
  Proof.
    unfold repr_str. cbn zeta. set (q := if has_char squote s && negb (has_char dquote s) then dquote else squote).
    assert (Q : q = squote \/ q = dquote) by (subst q; destruct (has_char squote s && negb (has_char dquote s)); auto).
    cbn [String.append]. rewrite append_assoc_str. cbn [String.append].
    cbn [read_val]. pose proof (read_escapes q s r Q) as R. destruct Q as [Q|Q]; rewrite Q in *; cbn [skip];
    [change (blank squote) with false|change (blank dquote) with false]; cbn; rewrite R; reflexivity.
  Qed.

  Definition elems (l : list pyval) : list (string * pyval) := map (fun v => (txt v, v)) l.
  Lemma elems_fst l : map fst (elems l) = map txt l.
  Proof. unfold elems. rewrite map_map. reflexivity. Qed.
  Lemma elems_snd l : map snd (elems l) = l.
  Proof. unfold elems. rewrite map_map. apply map_id. Qed.

  Lemma elems_item n close l :
    (forall v, In v l -> literal E rf v -> forall n r, String.length (txt v) < n -> stop r = true -> read_val E n (txt v ++ r) = Some (v, r)) ->
    (forall v, In v l -> literal E rf v) -> (forall v, In v l -> String.length (txt v) < n) -> char_in ")]}" close = true ->
    Forall (item (read_val E n) close) (elems l).
  Proof.
    intros R L S C. apply Forall_forall. intros [t x] Hx. apply in_map_iff in Hx as (y & Ey & Hy). injection Ey as <- <-.
    split; cbn [fst snd]; [now apply txt_start, L|]. intros r (r1 & [->| ->]); apply R; auto.
    unfold stop, char_in in *. revert C. ascii_cases close; cbn; congruence.
  Qed.

  Lemma skip_bracket a s : blank a = false -> skip (String a s) = String a s.
  Proof. intros H. cbn. now rewrite H. Qed.

  Lemma read_blank n s : read_val E n (String " " s) = read_val E n s.
  Proof. destruct n; reflexivity. Qed.

  Lemma read_val_ok v : literal E rf v -> forall n r, String.length (txt v) < n -> stop r = true ->
    read_val E n (txt v ++ r) = Some (v, r).
  Proof.
    induction v as [|b|z|f|s|l IH|l IH|d IH|c0 d0 IH|c0 d0 IH|c0 m0 x0 IH|c0 x0 IH] using pyval_ind'; intros H n r Hn Hr;
    (destruct n as [|n]; [lia|]); try (destruct H; fail).
    - unfold txt; cbn [py_repr]. change (skip ("None" ++ r)) with ("None" ++ r)%string. cbn [read_val].
      change (skip ("None" ++ r)) with (String "N" ("one" ++ r)). pose proof (char_letter "None" r Hr eq_refl) as W.
      cbn - [span] in *. rewrite W. reflexivity.
    - destruct b; unfold txt; cbn [py_repr read_val].
      + change (skip ("True" ++ r)) with (String "T" ("rue" ++ r)). pose proof (char_letter "True" r Hr eq_refl) as W.
        cbn - [span] in *. rewrite W. reflexivity.
      + change (skip ("False" ++ r)) with (String "F" ("alse" ++ r)). pose proof (char_letter "False" r Hr eq_refl) as W.
        cbn - [span] in *. rewrite W. reflexivity.
    - destruct (show_Z_ok E z) as (A & B & D). now apply read_num.
    - destruct H as [H1 H2]. destruct (float_ok E f _ H1 H2) as (A & B & D). now apply read_num.
    - apply read_str.
    - cbn [literal] in H. rewrite all_in in H. rewrite Forall_forall in IH.
      unfold txt in Hn. cbn [py_repr] in Hn. rewrite !length_app in Hn. cbn [String.length] in Hn.
      assert (Hl : forall x, In x l -> String.length (txt x) < n).
      { intros x Hx. pose proof (in_join_len ", " (txt x) (map txt l) (in_map txt l x Hx)) as J. unfold txt in *. lia. }
      pose proof (elems_item n "]" l IH H Hl eq_refl) as I.
      unfold txt. cbn [py_repr]. rewrite !append_assoc_str. change ("[" ++ ?x)%string with (String "[" x). cbn [read_val].
      rewrite skip_bracket by reflexivity. cbv iota beta. change (Ascii.eqb "[" "[") with true. cbv iota.
      change ("]" ++ r)%string with (String "]" r). rewrite <- elems_fst. rewrite (read_display _ "]" _ r eq_refl I).
      now rewrite elems_snd.
    - cbn [literal] in H. rewrite all_in in H. rewrite Forall_forall in IH.
      assert (Hl : forall x, In x l -> String.length (txt x) < n).
      { intros x Hx. unfold txt in Hn. cbn [py_repr] in Hn. unfold tuple_text in Hn.
        pose proof (in_join_len ", " (txt x) (map txt l) (in_map txt l x Hx)) as J. fold txt in Hn.
        destruct (map txt l) as [|a [|b m]]; rewrite !length_app in Hn; cbn [String.length] in Hn; try change (join ", " [a]) with a in J; lia. }
      pose proof (elems_item n ")" l IH H Hl eq_refl) as I.
      unfold txt. cbn [py_repr]. fold txt. unfold tuple_text. destruct l as [|x [|y l]].
      + reflexivity.
      + cbn [map]. change ("(" ++ ?x)%string with (String "(" x). cbn [String.append read_val].
        rewrite skip_bracket by reflexivity. cbv iota beta. change (Ascii.eqb "(" "[") with false. change (Ascii.eqb "(" "(") with true. cbv iota.
        rewrite append_assoc_str. change (",)" ++ r)%string with (String "," (String ")" r)).
        inversion I as [|? ? I1 _]; subst. rewrite length_app. cbn [String.length]. rewrite <- plus_n_Sm.
        rewrite (read_more (read_val E n) ")" eq_refl _ _ (txt x) x (String ")" r) [] false r); auto.
        * apply skip_start, I1.
      + remember (x :: y :: l) as m eqn:Em.
        replace (match map txt m with [x0] => "(" ++ x0 ++ ",)" | _ => "(" ++ join ", " (map txt m) ++ ")" end)%string
          with ("(" ++ join ", " (map txt m) ++ ")")%string by (subst; reflexivity).
        rewrite !append_assoc_str. change ("(" ++ ?x)%string with (String "(" x). cbn [read_val].
        rewrite skip_bracket by reflexivity. cbv iota beta. change (Ascii.eqb "(" "[") with false. change (Ascii.eqb "(" "(") with true. cbv iota.
        change (")" ++ r)%string with (String ")" r). rewrite <- elems_fst. rewrite (read_display _ ")" _ r eq_refl I).
        rewrite elems_snd. subst m. reflexivity.
    - cbn [literal] in H. destruct H as [N H]. rewrite all_in in H. rewrite Forall_forall in IH.
      set (f := fun kv : string * pyval => (repr_str (fst kv) ++ ": " ++ txt (snd kv))%string).
      unfold txt in Hn. cbn [py_repr] in Hn. fold txt in Hn. fold f in Hn. rewrite !length_app in Hn. cbn [String.length] in Hn.
      unfold txt. cbn [py_repr]. fold txt. fold f. rewrite !append_assoc_str. change ("{" ++ ?x)%string with (String "{" x). cbn [read_val].
      rewrite skip_bracket by reflexivity. cbv iota beta. change (Ascii.eqb "{" "[") with false. change (Ascii.eqb "{" "(") with false.
      change (Ascii.eqb "{" "{") with true. cbv iota. change ("}" ++ r)%string with (String "}" r).
      set (items := map (fun kv => (f kv, kv)) d).
      assert (M : map f d = map fst items) by (unfold items; rewrite map_map; reflexivity).
      assert (M2 : map snd items = d) by (unfold items; rewrite map_map; apply map_id).
      rewrite M. match goal with |- context [read_list ?g] => set (rd := g) end.
      assert (I : Forall (item rd "}") items).
      { apply Forall_forall. intros [t kv] Hx. unfold items in Hx. apply in_map_iff in Hx as (kv' & Ekv & Hkv). injection Ekv as <- <-.
        pose proof (in_join_len ", " (f kv') (map f d) (in_map f d kv' Hkv)) as J.
        unfold f in J at 1. rewrite !length_app in J. cbn [String.length] in J.
        split; cbn [fst snd].
        - unfold f. pose proof (repr_start (fst kv')). destruct (repr_str (fst kv')); [discriminate|]. auto.
        - intros r0 Hr0. unfold rd, f. rewrite append_assoc_str. destruct n as [|n]; [lia|]. rewrite read_str.
          destruct kv' as [k v]. cbn [fst snd] in *. change ((": " ++ txt v) ++ r0)%string with (String ":" (String " " (txt v ++ r0))).
          unfold expect. rewrite skip_bracket by reflexivity. change (Ascii.eqb ":" ":") with true. cbv iota.
          rewrite read_blank. pose proof (IH (k, v) Hkv (H (k, v) Hkv) (S n) r0) as R. cbn [snd] in R. rewrite R; [reflexivity|lia|].
          destruct Hr0 as (r1 & [->| ->]); reflexivity. }
      rewrite (read_display rd "}" items r eq_refl I). now rewrite M2, fold_aset.
  Qed.

  (** ** Arguments *)

  Lemma read_arg_val v r : literal E rf v -> stop r = true -> read_arg E (txt v ++ r) = Some (AVal v, r).
  Proof.
    intros L S. unfold read_arg. rewrite read_val_ok; auto. rewrite length_app. lia.
  Qed.

  Lemma read_arg_path p r : stop r = true -> read_arg E (path_text p ++ r) = Some (AVal (VTuple (map VStr p)), r).
  Proof.
    intros S. replace (path_text p) with (txt (VTuple (map VStr p))).
    - apply read_arg_val; auto. cbn [literal]. apply all_in. intros x Hx. apply in_map_iff in Hx as (? & <- & _). exact I.
    - unfold txt, path_text. cbn [py_repr]. now rewrite map_map.
  Qed.

  Lemma path_back p : as_path (AVal (VTuple (map VStr p))) = Some p.
  Proof.
    unfold as_path. induction p as [|x p IH]; [reflexivity|]. cbn [map as_strings fold_right]. fold (as_strings (map VStr p)). now rewrite IH.
  Qed.

  Lemma read_arg_set l r : all (literal E rf) l -> stop r = true -> read_arg E (set_text (map txt l) ++ r) = Some (ASet l, r).
  Proof.
    intros L Hs0. rewrite all_in in L. destruct l as [|x l].
    - cbn [map set_text]. unfold read_arg. cbn [String.append read_val String.length]. reflexivity.
    - set (m := x :: l) in *. assert (Et : set_text (map txt m) = ("{" ++ join ", " (map txt m) ++ "}")%string) by reflexivity.
      rewrite Et, !append_assoc_str. change ("{" ++ ?x)%string with (String "{" x). change ("}" ++ r)%string with (String "}" r).
      set (s := (join ", " (map txt m) ++ String "}" r)%string).
      assert (Len : forall y, In y m -> String.length (txt y) < String.length s).
      { intros y Hy. unfold s. rewrite length_app. cbn [String.length].
        pose proof (in_join_len ", " (txt y) (map txt m) (in_map txt m y Hy)). lia. }
      assert (IT : forall n, String.length s <= n -> Forall (item (read_val E n) "}") (elems m)).
      { intros n Hn. apply elems_item; auto; [intros; now apply read_val_ok|]. intros v Hv. specialize (Len v Hv). lia. }
      unfold read_arg.
      assert (No : read_val E (S (String.length (String "{" s))) (String "{" s) = None).
      { change (String.length (String "{" s)) with (S (String.length s)). specialize (IT (S (String.length s)) ltac:(lia)).
        assert (Nn : forall y, In y m -> String.length (txt y) < S (String.length s)) by (intros y Hy; specialize (Len y Hy); lia).
        generalize dependent (S (String.length s)). intros n IT Nn.
        cbn [read_val]. rewrite skip_bracket by reflexivity. cbv iota beta.
        change (Ascii.eqb "{" "[") with false. change (Ascii.eqb "{" "(") with false. change (Ascii.eqb "{" "{") with true. cbv iota.
        match goal with |- context [read_list ?g] => set (rd := g) end.
        pose proof (skip_items (read_val E n) "}" eq_refl (elems m) r IT) as SK.
        rewrite elems_fst in SK. fold s in SK.
        assert (Hf : exists r0, (exists r1, r0 = String "," r1 \/ r0 = String "}" r1) /\ s = (txt x ++ r0)%string).
        { unfold s, m. destruct l as [|y l]; [exists (String "}" r); split; [eauto|reflexivity]|].
          eexists. split; [|cbn [map]; rewrite join_cons2, !append_assoc_str; reflexivity]. cbn. eauto. }
        destruct Hf as (r0 & (r1 & Hr0) & Hs). assert (N : rd s = None).
        { unfold rd. rewrite Hs. rewrite read_val_ok.
          - destruct x; auto. destruct Hr0 as [->| ->]; reflexivity.
          - apply L. left. reflexivity.
          - apply Nn. left. reflexivity.
          - destruct Hr0 as [->| ->]; reflexivity. }
        cbn [read_list]. rewrite SK.
        destruct (start_not_close "}" eq_refl (txt x) r0) as (a & u & Ea & Ha); [apply txt_start, L; left; reflexivity|].
        rewrite Hs at 1. rewrite Ea, Ha, N. reflexivity. }
      rewrite No. rewrite skip_bracket by reflexivity. change (Ascii.eqb "{" "{") with true. cbv iota.
      pose proof (read_display (read_val E (S (String.length s))) "}" (elems m) r eq_refl) as D. rewrite elems_fst, elems_snd in D.
      fold s in D. cbv zeta in D. rewrite D; auto.
  Qed.

  (** ** Calls *)

  Definition keyword (k : string) (t : string) : string := (k ++ "=" ++ t)%string.

  Lemma keyword_item k t a : k <> "" -> every letter k = true ->
    (forall r, stop r = true -> read_arg E (t ++ r) = Some (a, r)) -> item (read_keyword E) ")" (keyword k t, (k, a)).
  Proof.
    intros N L R. split; cbn [fst snd]; unfold keyword; [now apply letter_start|].
    intros r Hr. unfold read_keyword. rewrite append_assoc_str.
    assert (S : skip (k ++ ("=" ++ t) ++ r) = (k ++ ("=" ++ t) ++ r)%string).
    { apply skip_start. pose proof (letter_start k "" N L) as S. now rewrite append_nil_r in S. }
    rewrite S, span_app by auto. destruct (String.eqb_spec k ""); [easy|].
    change (("=" ++ t) ++ r)%string with (String "=" (t ++ r)). unfold expect. rewrite skip_bracket by reflexivity.
    change (Ascii.eqb "=" "=") with true. cbv iota. rewrite R; [reflexivity|]. destruct Hr as (r1 & [->| ->]); reflexivity.
  Qed.

  Definition call (name : string) (args : list (string * (string * arg))) : string :=
    (name ++ "(" ++ join ", " (map fst args) ++ ")")%string.

  Lemma read_call name args x r : name <> "" -> every letter name = true -> Forall (item (read_keyword E) ")") args ->
    construct_rule name (map snd args) = Some x -> read_rule E (call name args ++ r) = Some (x, r).
  Proof.
    intros N L I C. unfold read_rule, call. rewrite !append_assoc_str.
    match goal with |- context [skip ?s] => assert (S : skip s = s) end.
    { apply skip_start. pose proof (letter_start name "" N L) as S. now rewrite append_nil_r in S. }
    rewrite S, span_app by auto. change ("(" ++ ?x)%string with (String "(" x). unfold expect. rewrite skip_bracket by reflexivity.
    change (Ascii.eqb "(" "(") with true. cbv iota. change (")" ++ r)%string with (String ")" r).
    rewrite (read_display (read_keyword E) ")" args r eq_refl I), C. reflexivity.
  Qed.

  Lemma kw_path k p : k <> "" -> every letter k = true -> item (read_keyword E) ")" (keyword k (path_text p), (k, AVal (VTuple (map VStr p)))).
  Proof. intros. apply keyword_item; auto. intros. now apply read_arg_path. Qed.
  Lemma kw_val k v : literal E rf v -> k <> "" -> every letter k = true -> item (read_keyword E) ")" (keyword k (txt v), (k, AVal v)).
  Proof. intros. apply keyword_item; auto. intros. now apply read_arg_val. Qed.
  Lemma kw_set k l : all (literal E rf) l -> k <> "" -> every letter k = true ->
    item (read_keyword E) ")" (keyword k (set_text (map txt l)), (k, ASet l)).
  Proof. intros. apply keyword_item; auto. intros. now apply read_arg_set. Qed.

  Ltac a_call name args :=
    match goal with |- read_rule E (?t ++ ?r) = _ =>
      replace t with (call name args) by (unfold call, keyword; cbn [map fst join]; rewrite ?append_assoc_str; reflexivity) end;
    apply read_call; [discriminate|reflexivity| |].

  Lemma read_rule_ok x r : pasteable E rf x -> read_rule E (rule_text rf addr x ++ r) = Some (x, r).
  Proof.
    destruct x as [o n|p|p f c|p o n|p d|p vs|p vs]; cbn [pasteable]; intros P; try destruct P as []; cbn [rule_text]; fold txt.
    - a_call "RenameField" [(keyword "old_field" (path_text o), ("old_field", AVal (VTuple (map VStr o))));
                            (keyword "new_field" (path_text n), ("new_field", AVal (VTuple (map VStr n))))].
      + repeat apply Forall_cons; try apply Forall_nil; apply kw_path; easy.
      + cbn - [as_path]. now rewrite !path_back.
    - a_call "DeleteField" [(keyword "field" (path_text p), ("field", AVal (VTuple (map VStr p))))].
      + repeat apply Forall_cons; try apply Forall_nil; apply kw_path; easy.
      + cbn - [as_path]. now rewrite !path_back.
    - a_call "ChangeDefault" [(keyword "field" (path_text p), ("field", AVal (VTuple (map VStr p))));
                              (keyword "old_default" (txt o), ("old_default", AVal o));
                              (keyword "new_default" (txt n), ("new_default", AVal n))].
      + repeat apply Forall_cons; try apply Forall_nil; try apply kw_path; try apply kw_val; easy.
      + cbn - [as_path]. now rewrite !path_back.
    - a_call "AddDefault" [(keyword "field" (path_text p), ("field", AVal (VTuple (map VStr p))));
                           (keyword "default" (txt d), ("default", AVal d))].
      + repeat apply Forall_cons; try apply Forall_nil; try apply kw_path; try apply kw_val; easy.
      + cbn - [as_path]. now rewrite !path_back.
    - a_call "CheckValue" [(keyword "field" (path_text p), ("field", AVal (VTuple (map VStr p))));
                           (keyword "allowed_values" (set_text (map txt vs)), ("allowed_values", ASet vs))].
      + repeat apply Forall_cons; try apply Forall_nil; try apply kw_path; try apply kw_set; easy.
      + cbn - [as_path]. now rewrite !path_back.
    - a_call "RejectValues" [(keyword "field" (path_text p), ("field", AVal (VTuple (map VStr p))));
                             (keyword "disallowed_values" (set_text (map txt vs)), ("disallowed_values", ASet vs))].
      + repeat apply Forall_cons; try apply Forall_nil; try apply kw_path; try apply kw_set; easy.
      + cbn - [as_path]. now rewrite !path_back.
  Qed.

  Lemma rule_start x : start (rule_text rf addr x) = true.
  Proof. destruct x; reflexivity. Qed.

  (** ** Entries *)

  Definition rules_text (rules : list rule) : string :=
    fold_right (fun r rest => line ("        " ++ rule_text rf addr r ++ ",") ++ rest)%string (line "    ],") rules.

  Lemma skip_spaces s : skip ("        " ++ s) = skip s.
  Proof. reflexivity. Qed.

  Lemma read_rules rules : Forall (pasteable E rf) rules -> forall k s, List.length rules < k -> skip s = skip (rules_text rules) ->
    exists b, read_list (read_rule E) "]" k s = Some (rules, b, String "," (String newline "")).
  Proof.
    induction 1 as [|x rules P F IH]; intros k s K H; (destruct k as [|k]; [cbn in K; lia|]).
    - exists false. apply read_end. rewrite H. reflexivity.
    - destruct (IH k (String newline (rules_text rules))) as (b & R); [cbn in K; lia|reflexivity|]. exists true.
      apply (read_more (read_rule E) "]" eq_refl k s (rule_text rf addr x) x (String newline (rules_text rules)) rules b); auto.
      + split; cbn [fst snd]; [apply rule_start|]. intros. now apply read_rule_ok.
      + rewrite H. cbn [rules_text fold_right]. fold (rules_text rules). unfold line. rewrite !append_assoc_str, skip_spaces.
        rewrite skip_start by apply rule_start. reflexivity.
  Qed.

  Lemma rules_count rules : List.length rules <= String.length (rules_text rules).
  Proof.
    induction rules as [|x rules IH]; [cbn; lia|]. cbn [rules_text fold_right]. fold (rules_text rules). unfold line.
    rewrite !length_app. cbn [String.length List.length]. lia.
  Qed.

  Theorem entry_back version rules : Forall (pasteable E rf) rules ->
    read_entry E (entry_text rf addr version rules) = Some (match version with Some z => VInt z | None => VNone end, rules).
  Proof.
    intros P. unfold entry_text. fold (rules_text rules). set (v := match version with Some z => VInt z | None => VNone end).
    replace (match version with Some z => show_Z z | None => "None" end) with (txt v) by (subst v; destruct version; reflexivity).
    unfold line. rewrite !append_assoc_str. cbn [String.append].
    set (rest := String newline (rules_text rules)).
    assert (L : literal E rf v) by (subst v; destruct version; exact I).
    unfold read_entry. change (String.append ?a ?b) with (a ++ b)%string.
    assert (V : read_val E (S (String.length ("    " ++ txt v ++ String ":" (String " " (String "[" rest)))))
                  ("    " ++ txt v ++ String ":" (String " " (String "[" rest))) = Some (v, String ":" (String " " (String "[" rest)))).
    { cbn [String.append]. rewrite !read_blank. apply read_val_ok; auto. cbn [String.length]. rewrite length_app. lia. }
    cbn [String.append] in V. rewrite V. unfold expect at 1. rewrite skip_bracket by reflexivity. change (Ascii.eqb ":" ":") with true. cbv iota.
    unfold expect at 1. change (skip (String " " (String "[" rest))) with (String "[" rest). change (Ascii.eqb "[" "[") with true. cbv iota.
    destruct (read_rules rules P (S (String.length rest)) rest) as (b & R).
    - subst rest. cbn [String.length]. pose proof (rules_count rules). lia.
    - reflexivity.
    - change (Ascii.eqb "[" "[") with true. cbv iota. rewrite R. reflexivity.
  Qed.

  (** ** Entries that cannot be read *)

  Lemma read_fails rules s' : Forall (pasteable E rf) rules -> forall k s,
    skip s = skip (fold_right (fun r rest => line ("        " ++ rule_text rf addr r ++ ",") ++ rest) s' rules)%string ->
    (exists a u, skip s' = String a u /\ Ascii.eqb a "]" = false) -> read_rule E (skip s') = None ->
    read_list (read_rule E) "]" k s = None.
  Proof.
    intros F k s H N. revert k s H. induction F as [|x rules P F IH]; intros k s H R; (destruct k as [|k]; [reflexivity|]).
    - destruct N as (a & u & N1 & N2). cbn [read_list fold_right] in *. rewrite H, N1, N2, <- N1, R. reflexivity.
    - cbn [fold_right] in H. set (t := fold_right _ s' rules) in *. unfold line in H. rewrite !append_assoc_str, skip_spaces in H.
      rewrite skip_start in H by apply rule_start. cbn [read_list]. rewrite H.
      destruct (start_not_close "]" eq_refl (rule_text rf addr x) ("," ++ String newline "" ++ t) (rule_start x)) as (a & u & Ea & Ha).
      rewrite Ea, Ha, <- Ea, read_rule_ok by auto. cbn [String.append]. rewrite skip_bracket by reflexivity.
      change (Ascii.eqb "," "]") with false. change (Ascii.eqb "," ",") with true. cbv iota.
      fold (@read_list rule (read_rule E) "]"). rewrite IH; [reflexivity| |exact R]. reflexivity.
  Qed.

  Lemma read_function p f c r : read_rule E (rule_text rf addr (MapFieldValue p f c) ++ r) = None.
  Proof.
    cbn [rule_text]. rewrite !append_assoc_str.
    set (t := (match c with Some s => repr_str s | None => "None" end ++ ")" ++ r)%string).
    set (w := (addr ++ ">, rendered=" ++ t)%string).
    unfold read_rule. cbn [String.append]. rewrite skip_bracket by reflexivity.
    set (s := (path_text p ++ String "," (String " " ("map_fn=<function " ++ w)))%string).
    change (span letter _) with (span letter ("MapFieldValue" ++ String "(" ("field=" ++ s))).
    rewrite span_app by reflexivity. unfold expect. rewrite skip_bracket by reflexivity. change (Ascii.eqb "(" "(") with true. cbv iota.
    match goal with |- match ?x with _ => _ end = None => assert (G : x = None); [|now rewrite G] end.
    assert (IT : item (read_keyword E) ")" (keyword "field" (path_text p), ("field", AVal (VTuple (map VStr p)))))
      by (apply kw_path; easy).
    destruct IT as [_ IT]. cbn [fst snd] in IT. specialize (IT (String "," (String " " ("map_fn=<function " ++ w)))).
    unfold keyword in IT. rewrite !append_assoc_str in IT. fold s in IT.
    cbn [read_list]. change (skip ("field=" ++ s)) with ("field" ++ "=" ++ s)%string. cbn [String.append] in *.
    change (Ascii.eqb "f" ")") with false. cbv iota. rewrite IT by eauto. rewrite skip_bracket by reflexivity.
    change (Ascii.eqb "," ")") with false. change (Ascii.eqb "," ",") with true. cbv iota.
    reflexivity.
  Qed.

  Theorem entry_function version rules p f c rules' : Forall (pasteable E rf) rules ->
    read_entry E (entry_text rf addr version (rules ++ MapFieldValue p f c :: rules')) = None.
  Proof.
    intros P. unfold entry_text. set (v := match version with Some z => VInt z | None => VNone end).
    replace (match version with Some z => show_Z z | None => "None" end) with (txt v) by (subst v; destruct version; reflexivity).
    unfold line at 1. rewrite !append_assoc_str. cbn [String.append].
    match goal with |- context [String newline ?x] => set (body := x) end.
    set (rest := String newline body).
    assert (L : literal E rf v) by (subst v; destruct version; exact I).
    unfold read_entry.
    assert (V : read_val E (S (String.length ("    " ++ txt v ++ String ":" (String " " (String "[" rest)))))
                  ("    " ++ txt v ++ String ":" (String " " (String "[" rest))) = Some (v, String ":" (String " " (String "[" rest)))).
    { cbn [String.append]. rewrite !read_blank. apply read_val_ok; auto. cbn [String.length]. rewrite length_app. lia. }
    cbn [String.append] in V. change (String.append ?a ?b) with (a ++ b)%string. rewrite V.
    unfold expect at 1. rewrite skip_bracket by reflexivity. change (Ascii.eqb ":" ":") with true. cbv iota.
    unfold expect at 1. change (skip (String " " (String "[" rest))) with (String "[" rest). change (Ascii.eqb "[" "[") with true. cbv iota.
    set (s' := (line ("        " ++ rule_text rf addr (MapFieldValue p f c) ++ ",") ++
                fold_right (fun r rest => line ("        " ++ rule_text rf addr r ++ ",") ++ rest) (line "    ],") rules')%string).
    assert (Hs : exists u, skip s' = (rule_text rf addr (MapFieldValue p f c) ++ u)%string).
    { unfold s', line. rewrite !append_assoc_str, skip_spaces. rewrite skip_start by apply rule_start. eauto. }
    destruct Hs as [u Hs].
    change (Ascii.eqb "[" "[") with true. cbv iota. rewrite (read_fails rules s' P (S (String.length rest)) rest); [reflexivity| | |].
    - subst rest body. rewrite fold_right_app. reflexivity.
    - rewrite Hs. eexists _, _. split; [reflexivity|]. reflexivity.
    - rewrite Hs. apply read_function.
  Qed.
End Values.

(** ** Diagnostics *)

Lemma substring_all s : String.substring 0 (String.length s) s = s.
Proof. induction s as [|a s IH]; [reflexivity|]. cbn. now rewrite IH. Qed.

Lemma after_none p : has_char ":" p = false -> after_colon p = None.
Proof.
  induction p as [|a p IH]; intros H; [reflexivity|]. cbn [has_char] in H. apply orb_false_iff in H as [H1 H2].
  cbn [after_colon]. rewrite IH by auto. cbn [String.prefix]. destruct (ascii_dec ":" a) as [<-|]; [discriminate|reflexivity].
Qed.

Lemma after_here p : has_char ":" p = false -> after_colon (": " ++ p) = Some p.
Proof.
  intros H. cbn [String.append after_colon]. rewrite after_none by auto.
  change (String.prefix ": " (String " " p)) with false. change (String.prefix ": " (String ":" (String " " p))) with (String.prefix "" p).
  cbv iota. replace (String.prefix "" p) with true by (now destruct p). cbn [String.length]. rewrite Nat.sub_succ, Nat.sub_0_r.
  cbn [String.substring]. now rewrite substring_all.
Qed.

Lemma after_app x s t : after_colon s = Some t -> after_colon (x ++ s) = Some t.
Proof. intros H. induction x as [|a x IH]; [exact H|]. cbn [String.append after_colon]. now rewrite IH. Qed.

Lemma letter_has c p : letter c = false -> every letter p = true -> has_char c p = false.
Proof.
  intros H. destruct (has_char c p) eqn:Hc; auto. intros L. pose proof (every_has_char _ _ _ L Hc). congruence.
Qed.

Lemma join_letters c p : letter c = false -> Ascii.eqb c "." = false -> forallb (every letter) p = true -> has_char c (join "." p) = false.
Proof.
  intros H Hd L. destruct (has_char c (join "." p)) eqn:Hc; auto. apply join_has_char in Hc as [Hc|(k & Hk & Hc)]; [congruence|].
  rewrite forallb_forall in L. pose proof (letter_has c k H (L k Hk)). congruence.
Qed.

Lemma path_back_dots p : p <> [] -> forallb (every letter) p = true -> split_on "." (join "." p) = p.
Proof.
  intros N L. apply split_on_join; auto. rewrite forallb_forall in *. intros k Hk. unfold SpecOverride.segment.
  rewrite !letter_has; auto.
Qed.

Theorem line_back rf addr s c : where_ c <> [] -> forallb (every letter) (where_ c) = true ->
  read_line (diagnostic_line rf addr (s, c)) = Some (severity_text s, where_ c).
Proof.
  intros N L. unfold read_line, diagnostic_line, field_name.
  rewrite (after_app (severity_text s) _ (join "." (where_ c))).
  - rewrite path_back_dots by auto. destruct s; reflexivity.
  - apply (after_app " "), after_app, after_here. apply join_letters; auto.
Qed.

(** the lines of the report *)
Lemma line_split l s : has_char newline l = false -> split_on newline (line l ++ s) = l :: split_on newline s.
Proof. intros H. unfold line. rewrite append_assoc_str. cbn [String.append]. now apply split_on_app. Qed.

Lemma lines_split ls s : forallb (fun l => negb (has_char newline l)) ls = true ->
  split_on newline (fold_right (fun l rest => line l ++ rest)%string "" ls ++ s) = (ls ++ split_on newline s)%list.
Proof.
  induction ls as [|l ls IH]; intros H; [reflexivity|]. cbn [forallb] in H. apply andb_true_iff in H as [H1 H2]. apply negb_true_iff in H1.
  cbn [fold_right]. rewrite append_assoc_str, line_split by auto. now rewrite IH.
Qed.

(** ** check-schema *)

Lemma check_report file clz rep : check_schema file clz = Ok rep -> exists k, rep = print_report k.
Proof.
  unfold check_schema. destruct (load_schema file) as [s|e]; [|discriminate]. cbn [rbind].
  destruct (schema_checker s clz true) as [k|e]; [|discriminate]. intros [= <-]. eauto.
Qed.

Definition bump_text (rep : report) : string :=
  match rp_bump rep with Some v => line ("- bump version to " ++ show_Z v) | None => "" end.

Lemma report_rules rf addr file clz rep v rules : check_schema file clz = Ok rep -> rp_rules rep = Some (v, rules) ->
  exists before, report_text rf addr rep = (before ++ line "- add upgrade rules:" ++ entry_text rf addr v rules ++ bump_text rep)%string.
Proof.
  intros C R. apply check_report in C as [k ->]. unfold report_text. rewrite R.
  assert (Cm : rp_compatible (print_report k) = false) by (unfold print_report in *; cbn in *; destruct (checker_severity k); easy).
  rewrite Cm. fold (bump_text (print_report k)).
  set (a := fold_right _ _ _). set (b := if rp_version_warning _ then _ else _).
  exists (a ++ b ++ line "Schema incompatible" ++ line "" ++ line "Proposed mitigations")%string.
  now rewrite !append_assoc_str.
Qed.

Lemma sev_max cs m : match fold_left (fun m c => if sev_gt (change_severity c) m then change_severity c else m) cs m with INFO => true | _ => false end =
  match m with INFO => true | _ => false end && forallb (fun c => match change_severity c with INFO => true | _ => false end) cs.
Proof.
  revert m. induction cs as [|c cs IH]; intros m; cbn [fold_left forallb]; [now rewrite andb_true_r|].
  rewrite IH. destruct m, (change_severity c); reflexivity.
Qed.

Lemma report_lines rf addr file clz rep : check_schema file clz = Ok rep ->
  (forall s c, In (s, c) (rp_lines rep) -> has_char newline (diagnostic rf addr c) = false /\ forallb (every letter) (where_ c) = true /\ where_ c <> []) ->
  exists rest, split_on newline (report_text rf addr rep) =
    (map (diagnostic_line rf addr) (rp_lines rep) ++
     (if rp_version_warning rep then ["warn  schema changed but version identical"] else []) ++
     (if all_info (rp_lines rep) then "Schema compatible" else "Schema incompatible") :: rest)%list.
Proof.
  intros C H. apply check_report in C as [k ->]. unfold report_text. rewrite lines_split.
  - assert (A : rp_compatible (print_report k) = all_info (rp_lines (print_report k))).
    { unfold print_report, all_info, checker_severity. cbn [rp_compatible rp_lines]. rewrite sev_max. cbn [andb].
      induction (ck_changes k); cbn [forallb map fst]; congruence. }
    rewrite <- A. destruct (rp_version_warning _); [rewrite line_split by reflexivity|cbn [String.append]];
    (destruct (rp_compatible _); [eexists; cbn [app]; repeat f_equal; unfold line; apply (split_on_app newline "Schema compatible" ""); reflexivity|
       eexists; cbn [app]; repeat f_equal; apply line_split; reflexivity]).
  - apply forallb_forall. intros l Hl. apply in_map_iff in Hl as ((s & c) & <- & Hc). apply H in Hc as (H1 & H2 & H3).
    unfold diagnostic_line. rewrite !has_char_app, H1. unfold field_name. rewrite join_letters by auto. destruct s; reflexivity.
Qed.

Lemma where_is c : where_ c = SpecFix.change_field c.
Proof. destruct c; reflexivity. Qed.
