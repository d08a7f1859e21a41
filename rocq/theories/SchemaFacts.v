(** SchemaFacts.v -- [is_subtype]: the fuel is enough. *)
From Verif Require Import Base Value Schema Induct AFacts.

Lemma size_pos t : (1 <= sty_size t)%nat.
Proof. destruct t; cbn; lia. Qed.

Lemma in_sum (l : list nat) x : In x l -> (x <= list_sum l)%nat.
Proof.
  induction l as [|y l IH]; [intros []|]. change (list_sum (y :: l)) with (y + list_sum l)%nat.
  intros [->|H]; [lia|]. apply IH in H. lia.
Qed.

Lemma forall_zip_ext {A B} (f g : A -> B -> bool) l : forall m,
  (forall x y, In x l -> In y m -> f x y = g x y) -> forall_zip f l m = forall_zip g l m.
Proof.
  induction l as [|x l IH]; intros [|y m] H; try reflexivity. cbn [forall_zip].
  rewrite (H x y) by (now left). f_equal. apply IH. intros u v U V. apply H; now right.
Qed.

Lemma forallb_ext_in {A} (f g : A -> bool) l : (forall x, In x l -> f x = g x) -> forallb f l = forallb g l.
Proof.
  induction l as [|x l IH]; intros H; [reflexivity|]. cbn [forallb]. rewrite (H x) by now left. f_equal.
  apply IH. intros y Y. apply H. now right.
Qed.

Lemma is_sub_fuel n : forall m a b, (sty_size a + sty_size b <= n)%nat -> (sty_size a + sty_size b <= m)%nat ->
  is_sub n a b = is_sub m a b.
Proof.
  induction n as [|n IH]; intros m a b N M.
  { pose proof (size_pos a). lia. }
  destruct m as [|m].
  { pose proof (size_pos a). lia. }
  assert (O : match b with SOption o => is_sub n a o | _ => false end = match b with SOption o => is_sub m a o | _ => false end).
  { destruct b; try reflexivity. cbn [sty_size] in N, M. apply IH; lia. }
  cbn [is_sub]. rewrite O. clear O.
  destruct a as [p|i|l|k v|l|nm fs ver|i|nm vs|l| ]; cbn [sty_size] in N, M; try reflexivity.
  - destruct b; try reflexivity. cbn [sty_size] in N, M. rewrite (IH m) by lia. reflexivity.
  - destruct b; try reflexivity. cbn [sty_size] in N, M. rewrite (forall_zip_ext (is_sub n) (is_sub m)); [reflexivity|].
    intros x y X Y. apply (in_map sty_size), in_sum in X, Y. apply IH; lia.
  - destruct b; try reflexivity. cbn [sty_size] in N, M. rewrite (IH m) by lia. reflexivity.
  - destruct b; try reflexivity. rewrite (forallb_ext_in (fun t => is_sub n t (SUnion types)) (fun t => is_sub m t (SUnion types))); [reflexivity|].
    intros x X. apply (in_map sty_size), in_sum in X. apply IH; lia.
  - destruct b as [p'|i'|l'|k' v'|l'|nm' gs ver'|i'|nm' vs'|l'| ]; try reflexivity. cbn [sty_size] in N, M. f_equal.
    apply forallb_ext_in. intros x X. destruct (aget (fst x) gs) as [tm|] eqn:G; [|reflexivity]. apply aget_some_in in G.
    apply (in_map (fun kv : string * (sty * fmeta) => sty_size (fst (snd kv)))), in_sum in X.
    apply (in_map (fun kv : string * (sty * fmeta) => sty_size (fst (snd kv)))), in_sum in G. cbn [snd fst] in G. apply IH; lia.
  - destruct b; try reflexivity. cbn [sty_size] in N, M. apply IH; lia.
Qed.

(** The methods of types.py as they are written, without fuel *)
Lemma is_subtype_unfold a b : is_subtype a b =
  let opt := match b with SOption o => is_subtype a o | _ => false end in
  match a with
  | SPrim p =>
      match b with SPrim q => String.eqb q p | _ => false end || opt ||
      (String.eqb p "int" && match b with SPrim q => String.eqb q "float" | _ => false end)
  | SList i =>
      sty_eqb a b || match b with SList j => is_subtype i j | _ => false end || opt
  | STuple l =>
      sty_eqb a b ||
      match b with
      | STuple m => forall_zip is_subtype l m && Nat.eqb (length l) (length m)
      | _ => false
      end || opt
  | SDict k v =>
      sty_eqb a b ||
      match b with SDict k' v' => sty_eqb k k' && is_subtype v v' | _ => false end || opt
  | SUnion l =>
      sty_eqb a b ||
      match b with SUnion _ => forallb (fun t => is_subtype t b) l | _ => false end || opt
  | SEnum nm vs =>
      match b with
      | SEnum nm' vs' =>
          String.eqb nm' nm &&
          forallb (fun kv => match aget (fst kv) vs' with
                             | Some w => py_eq w (snd kv)
                             | None => false
                             end) vs
      | _ => false
      end || opt
  | SLit vs =>
      match b with SLit ws => forallb (fun v => py_elem v ws) vs | _ => false end ||
      match b with SPrim q => String.eqb q "str" && forallb is_str_val vs | _ => false end ||
      match b with SPrim q => String.eqb q "int" && forallb is_int_val vs | _ => false end ||
      opt
  | SStruct _ fs _ =>
      match b with
      | SStruct _ gs _ =>
          forallb (fun kv => match aget (fst kv) gs with
                             | Some tm => is_subtype (fst tm) (fst (snd kv))
                             | None => false
                             end) fs
      | _ => false
      end || opt
  | SOption t =>
      match b with SOption o => is_subtype o t | _ => false end
  | SNothing => true
  end.
Proof.
  unfold is_subtype. set (n := (sty_size a + sty_size b)%nat).
  assert (N : n = (sty_size a + sty_size b)%nat) by reflexivity. clearbody n.
  destruct n as [|n]; [pose proof (size_pos a); lia|].
  assert (O : match b with SOption o => is_sub n a o | _ => false end = match b with SOption o => is_sub (sty_size a + sty_size o) a o | _ => false end).
  { destruct b; try reflexivity. cbn [sty_size] in N. apply is_sub_fuel; lia. }
  cbn [is_sub]. rewrite O. cbv zeta. clear O.
  destruct a as [p|i|l|k v|l|nm fs ver|i|nm vs|l| ]; cbn [sty_size] in N; try reflexivity.
  - destruct b; try reflexivity. cbn [sty_size] in N. rewrite (is_sub_fuel n (sty_size i + sty_size b)) by lia. reflexivity.
  - destruct b; try reflexivity. cbn [sty_size] in N. rewrite (forall_zip_ext (is_sub n) (fun a b => is_sub (sty_size a + sty_size b) a b)); [reflexivity|].
    intros x y X Y. apply (in_map sty_size), in_sum in X, Y. apply is_sub_fuel; lia.
  - destruct b; try reflexivity. cbn [sty_size] in N. rewrite (is_sub_fuel n (sty_size v + sty_size b2)) by lia. reflexivity.
  - destruct b; try reflexivity. rewrite (forallb_ext_in (fun t => is_sub n t (SUnion types)) (fun t => is_sub (sty_size t + sty_size (SUnion types)) t (SUnion types))); [reflexivity|].
    intros x X. apply (in_map sty_size), in_sum in X. apply is_sub_fuel; lia.
  - destruct b as [p'|i'|l'|k' v'|l'|nm' gs ver'|i'|nm' vs'|l'| ]; try reflexivity. cbn [sty_size] in N. f_equal.
    apply forallb_ext_in. intros x X. destruct (aget (fst x) gs) as [tm|] eqn:G; [|reflexivity]. apply aget_some_in in G.
    apply (in_map (fun kv : string * (sty * fmeta) => sty_size (fst (snd kv)))), in_sum in X.
    apply (in_map (fun kv : string * (sty * fmeta) => sty_size (fst (snd kv)))), in_sum in G. cbn [snd fst] in G. apply is_sub_fuel; lia.
  - destruct b; try reflexivity. cbn [sty_size] in N. apply is_sub_fuel; lia.
Qed.
