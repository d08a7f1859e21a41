(** DocsFacts.v -- facts about descriptions (Docs.v) and about schemas up to descriptions. *)
From Verif Require Import Base Value Schema AFacts Rewrite Sched Types Asdict FromDict Checker Docs
  SpecTree SpecTypes SpecRenames SpecCheck Induct RewriteFacts SchemaFacts RenameFacts FindFacts CheckFacts SpecDocs.

(** ** Which description a field gets *)
Definition lasto {A} (l : list A) : option A := last (map Some l) None.

Lemma lasto_app {A} (l m : list A) : lasto (l ++ m) = match lasto m with Some x => Some x | None => lasto l end.
Proof.
  unfold lasto. rewrite map_app. induction m as [|x m IH] using rev_ind; [now rewrite app_nil_r|].
  rewrite map_app. cbn [map]. rewrite app_assoc, !last_last. reflexivity.
Qed.

Lemma param_docs_get ps n : aget n (param_docs ps) =
  lasto (flat_map (fun p : string * option string => match snd p with
                          | Some x => if String.eqb (fst p) n then [x] else []
                          | None => [] end) ps).
Proof.
  unfold param_docs. assert (G : forall d,
    aget n (fold_left (fun d p => match snd p with Some x => aset (fst p) x d | None => d end) ps d) =
    match lasto (flat_map (fun p : string * option string => match snd p with
                          | Some x => if String.eqb (fst p) n then [x] else []
                          | None => [] end) ps) with Some x => Some x | None => aget n d end).
  { induction ps as [|[k [x|]] ps IH]; intros d; [reflexivity| |]; cbn [fold_left flat_map fst snd]; rewrite IH; [|reflexivity].
    rewrite lasto_app. destruct (lasto _); [reflexivity|]. rewrite aget_aset, eqb_sym_str. destruct (String.eqb k n); reflexivity. }
  rewrite G. destruct (lasto _); reflexivity.
Qed.

Lemma update_get {A} (e : list (string * A)) n : NoDup (akeys e) -> forall d,
  aget n (dict_update d e) = match aget n e with Some x => Some x | None => aget n d end.
Proof.
  unfold dict_update. induction e as [|[k x] e IH]; intros N d; [reflexivity|]. inv N. cbn [fold_left fst snd].
  rewrite IH by assumption. cbn [aget]. rewrite aget_aset. destruct (String.eqb n k) eqn:E; [|reflexivity].
  apply String.eqb_eq in E. subst. rewrite aget_notin by assumption. reflexivity.
Qed.

Lemma update_nodup {A} (e : list (string * A)) : forall d, NoDup (akeys d) -> NoDup (akeys (dict_update d e)).
Proof.
  unfold dict_update. induction e as [|[k x] e IH]; intros d N; [exact N|]. cbn [fold_left]. apply IH. now apply nodup_aset.
Qed.

Lemma param_docs_nodup ps : NoDup (akeys (param_docs ps)).
Proof.
  unfold param_docs. assert (G : forall d, NoDup (akeys d) ->
    NoDup (akeys (fold_left (fun d (p : string * option string) => match snd p with Some x => aset (fst p) x d | None => d end) ps d))).
  { induction ps as [|[k [x|]] ps IH]; intros d N; [exact N| |]; cbn [fold_left fst snd]; apply IH; [now apply nodup_aset|exact N]. }
  apply G. constructor.
Qed.

Fixpoint docclass_ind' (P : docclass -> Prop)
  (H : forall ps bases, Forall P bases -> P (DC ps bases)) (c : docclass) : P c :=
  match c with
  | DC ps bases => H ps bases ((fix go l : Forall P l := match l with [] => Forall_nil P | b :: r => Forall_cons b (docclass_ind' P H b) (go r) end) bases)
  end.

Lemma field_docs_ok c : NoDup (akeys (field_docs c)) /\ forall n, aget n (field_docs c) = lasto (given c n).
Proof.
  induction c as [ps bases IH] using docclass_ind'. cbn [field_docs given].
  assert (G : forall d, NoDup (akeys d) ->
    NoDup (akeys (fold_left (fun d b => dict_update d (field_docs b)) bases d)) /\
    forall n, aget n (fold_left (fun d b => dict_update d (field_docs b)) bases d) =
      match lasto (flat_map (fun b => given b n) bases) with Some x => Some x | None => aget n d end).
  { induction bases as [|b bases IHb]; intros d N; [split; [exact N|reflexivity]|]. inv IH. cbn [fold_left flat_map].
    destruct (IHb H2 (dict_update d (field_docs b)) (update_nodup _ _ N)) as [A B]. split; [exact A|]. intros n.
    rewrite B, lasto_app. destruct (lasto (flat_map _ bases)); [reflexivity|].
    destruct H1 as [Nb Gb]. rewrite (update_get _ _ Nb), Gb. reflexivity. }
  destruct (G (param_docs ps) (param_docs_nodup ps)) as [A B]. split; [exact A|]. intros n. rewrite B, lasto_app.
  destruct (lasto (flat_map _ bases)); [reflexivity|]. apply param_docs_get.
Qed.

(** ** Materialized schemas *)
Lemma rmap_nth {A B} (f : A -> res B) l : forall ss i s, rmap f l = Ok ss -> nth_error ss i = Some s ->
  exists x, nth_error l i = Some x /\ f x = Ok s.
Proof.
  induction l as [|x l IH]; intros ss i s R N; cbn [rmap] in R; [injection R as <-; destruct i; discriminate|].
  apply rbind_ok in R. destruct R as (y & Ey & R). apply rbind_ok in R. destruct R as (ys & Eys & R). injection R as <-.
  destruct i as [|i]; cbn in N; [injection N as <-; exists x; now split|]. cbn. eauto.
Qed.

Lemma materialize_inside D t s k gs : inside t s k gs -> materialize_docs D t = Ok s ->
  forall n f, In (n, f) gs -> fm_doc (snd f) = lasto (given (D k) n).
Proof.
  induction 1 as [c fs n gs v|i s k gs I IH|i s k gs I IH|a b s u k gs I IH|a b s u k gs I IH|l ss i t s k gs L Ss I IH|l ss i t s k gs L Ss I IH
    |c fs n hs v i x t d s m k gs L Hs I IH]; intros M; cbn [materialize_docs] in M.
  - apply rbind_ok in M. destruct M as (fields & E & M). injection M as _ -> _. intros j f J.
    apply In_nth_error in J. destruct J as [i J]. destruct (rmap_nth _ _ _ _ _ E J) as ([n' [t' d]] & _ & F).
    apply rbind_ok in F. destruct F as (s' & _ & F). injection F as <- <-. cbn [snd fm_doc]. apply field_docs_ok.
  - apply rbind_ok in M. destruct M as (s' & E & M). injection M as ->. auto.
  - apply rbind_ok in M. destruct M as (s' & E & M). injection M as ->. auto.
  - apply rbind_ok in M. destruct M as (s' & E & M). apply rbind_ok in M. destruct M as (u' & E' & M). injection M as -> ->. auto.
  - apply rbind_ok in M. destruct M as (s' & E & M). apply rbind_ok in M. destruct M as (u' & E' & M). injection M as -> ->. auto.
  - apply rbind_ok in M. destruct M as (ss' & E & M). injection M as ->. destruct (rmap_nth _ _ _ _ _ E Ss) as (t' & T & F).
    rewrite L in T. injection T as <-. auto.
  - apply rbind_ok in M. destruct M as (ss' & E & M). injection M as ->. destruct (rmap_nth _ _ _ _ _ E Ss) as (t' & T & F).
    rewrite L in T. injection T as <-. auto.
  - apply rbind_ok in M. destruct M as (fields & E & M). injection M as _ -> _.
    destruct (rmap_nth _ _ _ _ _ E Hs) as ([n' [t' d']] & T & F). rewrite L in T. injection T as <- <- <-.
    apply rbind_ok in F. destruct F as (s' & E' & F). injection F as -> _. auto.
Qed.

Definition bare_field (kv : string * sfield) : string * sfield :=
  (fst kv, (bare (fst (snd kv)), mkF (fm_name (snd (snd kv))) (fm_default (snd (snd kv))) (fm_has_default (snd (snd kv))) None)).

Lemma rmap_bare {A} (f g : A -> res sty) l : Forall (fun x => g x = let* s := f x in Ok (bare s)) l ->
  rmap g l = let* ss := rmap f l in Ok (map bare ss).
Proof.
  induction 1 as [|x l E _ IH]; [reflexivity|]. cbn [rmap]. rewrite E, IH. destruct (f x); [|reflexivity]. cbn [rbind].
  destruct (rmap f l); reflexivity.
Qed.

(** descriptions are all that the docstrings add *)
Lemma materialize_bare D t : materialize_type t = let* s := materialize_docs D t in Ok (bare s).
Proof.
  induction t as [| | | | |i IH|l IH|a b IHa IHb|i IH|l IH|c fs IH|n ms|l|n] using ty_ind'; try reflexivity; cbn [materialize_type materialize_docs].
  - rewrite IH. destruct (materialize_docs D i); reflexivity.
  - rewrite (rmap_bare _ _ _ IH). destruct (rmap _ l); reflexivity.
  - rewrite IHa, IHb. destruct (materialize_docs D a); [|reflexivity]. destruct (materialize_docs D b); reflexivity.
  - rewrite IH. destruct (materialize_docs D i); reflexivity.
  - rewrite (rmap_bare _ _ _ IH). destruct (rmap _ l); reflexivity.
  - set (docs := field_docs (D (TData c fs))). clearbody docs.
    match goal with |- rbind (rmap ?f fs) _ = rbind (rbind (rmap ?g fs) _) _ =>
      assert (R : rmap f fs = let* hs := rmap g fs in Ok (map bare_field hs)) end.
    { induction fs as [|[n [t' d]] fs IHf]; [reflexivity|]. inv IH. cbn [fst snd] in H1. cbn [rmap].
      rewrite H1. destruct (materialize_docs D t') as [s|]; [|reflexivity]. cbn [rbind].
      rewrite (IHf H2). cbn [rbind].
      match goal with |- context [rmap ?g fs] => destruct (rmap g fs) end; reflexivity. }
    rewrite R. match goal with |- context [rmap ?g fs] => destruct (rmap g fs) end; reflexivity.
Qed.

(** ** Equality of values is symmetric *)
Lemma num_eq_sym a b : num_eq a b = num_eq b a.
Proof.
  unfold num_eq. destruct (as_int a) eqn:A, (as_int b) eqn:B.
  - apply Z.eqb_sym.
  - destruct a; try discriminate; reflexivity.
  - destruct b; try discriminate; reflexivity.
  - destruct a; try discriminate; destruct b; try discriminate; try reflexivity.
    unfold SFeqb. destruct f as [s|s| |s m e], f0 as [s'|s'| |s' m' e']; try reflexivity; cbn [SFcompare]; try (destruct s; reflexivity); try (destruct s'; reflexivity);
      destruct s, s'; try reflexivity.
    + rewrite (Z.compare_antisym e e'). destruct (Z.compare e e'); try reflexivity. change (Pos.compare_cont Eq m' m) with (Pos.compare_cont (CompOpp Eq) m' m); rewrite <- Pos.compare_cont_antisym; destruct (Pos.compare_cont Eq m m'); reflexivity.
    + rewrite (Z.compare_antisym e e'). destruct (Z.compare e e'); try reflexivity. change (Pos.compare_cont Eq m' m) with (Pos.compare_cont (CompOpp Eq) m' m); rewrite <- Pos.compare_cont_antisym; destruct (Pos.compare_cont Eq m m'); reflexivity.
Qed.

Lemma list_eqb_flip {A B} (f : A -> B -> bool) (g : B -> A -> bool) l : forall m,
  (forall x y, In x l -> In y m -> f x y = true -> g y x = true) -> list_eqb f l m = true -> list_eqb g m l = true.
Proof.
  induction l as [|x l IH]; intros [|y m] H E; cbn in *; try discriminate; try reflexivity.
  apply andb_true_iff in E. destruct E as [E1 E2]. rewrite (H x y) by auto. apply IH; auto.
Qed.

(** equal dicts have the same keys *)
Lemma dict_flip {A B} (d : list (string * A)) (e : list (string * B)) :
  NoDup (map fst d) -> NoDup (map fst e) -> length d = length e ->
  (forall k x, In (k, x) d -> exists y, aget k e = Some y) ->
  forall k y, In (k, y) e -> exists x, aget k d = Some x /\ In (k, x) d.
Proof.
  intros Nd Ne L H k y I.
  assert (J : incl (map fst e) (map fst d)).
  { apply NoDup_length_incl; [exact Nd|rewrite !map_length; lia|]. intros j J. apply in_map_iff in J. destruct J as ([j' x] & <- & J).
    destruct (H _ _ J) as [w W]. apply aget_some_in in W. apply (in_map fst _ _ W). }
  assert (K : In k (akeys d)) by (apply J; apply (in_map fst _ _ I)).
  destruct (inkeys_aget k d K) as [x X]. exists x. split; [exact X|now apply aget_some_in].
Qed.

Lemma wf_items v l : tuple_items v = Some l -> wf v = true -> forallb wf l = true.
Proof.
  destruct v; try discriminate; cbn [tuple_items wf]; intros E; injection E as <-; intros W; [exact W|].
  apply andb_true_iff in W. destruct W as [_ W]. rewrite forallb_forall in *. intros x I. apply in_map_iff in I. destruct I as (kv & <- & I). now apply W.
Qed.

Lemma py_eq_items a b l m : tuple_items a = Some l -> tuple_items b = Some m -> py_eq a b = list_eqb py_eq l m.
Proof.
  destruct a; try discriminate; cbn [tuple_items]; intros E Eb; injection E as <-; cbn [py_eq]; rewrite Eb; [reflexivity|].
  clear Eb. revert m. induction d as [|kv d IH]; intros [|y m]; try reflexivity. cbn. now rewrite IH.
Qed.

Lemma py_eq_not_items a b l : tuple_items a = Some l -> tuple_items b = None -> py_eq a b = false.
Proof. destruct a; try discriminate; cbn [py_eq]; intros _ ->; reflexivity. Qed.

Lemma py_eq_sym a : forall b, wf a = true -> wf b = true -> py_eq a b = true -> py_eq b a = true.
Proof.
  assert (T : forall a l, tuple_items a = Some l -> Forall (fun x => forall b, wf x = true -> wf b = true -> py_eq x b = true -> py_eq b x = true) l ->
    forall b, wf a = true -> wf b = true -> py_eq a b = true -> py_eq b a = true).
  { intros a0 l Ea F b Wa Wb Q. destruct (tuple_items b) as [m|] eqn:Eb; [|rewrite (py_eq_not_items _ _ _ Ea Eb) in Q; discriminate].
    rewrite (py_eq_items _ _ _ _ Ea Eb) in Q. rewrite (py_eq_items _ _ _ _ Eb Ea).
    apply (wf_items _ _ Ea) in Wa. apply (wf_items _ _ Eb) in Wb. rewrite forallb_forall in Wa, Wb. rewrite Forall_forall in F.
    apply (list_eqb_flip py_eq); [|exact Q]. intros x y X Y. apply F; auto. }
  induction a as [|x|z|f|s|l IH|l IH|d IH|n d IH|n d IH|c m x IH|c x IH] using pyval_ind'; intros b Wa Wb Q.
  - destruct b; try discriminate; reflexivity.
  - cbn [py_eq] in Q. rewrite num_eq_sym in Q. destruct b; try discriminate; exact Q.
  - cbn [py_eq] in Q. rewrite num_eq_sym in Q. destruct b; try discriminate; exact Q.
  - cbn [py_eq] in Q. rewrite num_eq_sym in Q. destruct b; try discriminate; exact Q.
  - destruct b; try discriminate. cbn [py_eq] in *. now rewrite eqb_sym_str.
  - destruct b; try discriminate. cbn [py_eq wf] in *. rewrite forallb_forall in Wa, Wb. rewrite Forall_forall in IH.
    apply (list_eqb_flip py_eq); [|exact Q]. intros x y X Y. apply IH; auto.
  - apply (T (VTuple l) l eq_refl); assumption.
  - destruct b as [| | | | | | |e| | | |]; try discriminate. cbn [py_eq wf] in *. apply andb_true_iff in Q, Wa, Wb. destruct Q as [L Q], Wa as [Na Wa], Wb as [Nb Wb].
    apply Nat.eqb_eq in L. apply nodupb_NoDup in Na, Nb. rewrite forallb_forall in Q, Wa, Wb. rewrite Forall_forall in IH.
    rewrite L, Nat.eqb_refl. cbn [andb]. apply forallb_forall. intros [k y] I. cbn [fst snd].
    destruct (dict_flip d e Na Nb L) with (k := k) (y := y) as (x & X & Ix); [|exact I|].
    { intros k' x' I'. specialize (Q _ I'). cbn [fst snd] in Q. destruct (aget k' e); [eauto|discriminate]. }
    rewrite X. specialize (Q _ Ix). cbn [fst snd] in Q. rewrite (in_nodup_aget k y e Nb I) in Q.
    apply (IH (k, x) Ix); [apply (Wa _ Ix)|apply (Wb _ I)|exact Q].
  - apply (T (VNt n d) (map snd d) eq_refl); try assumption. apply Forall_map. exact IH.
  - destruct b; try discriminate. cbn [py_eq wf] in *. apply andb_true_iff in Q, Wa, Wb. destruct Q as [L Q], Wa as [Na Wa], Wb as [Nb Wb].
    rewrite eqb_sym_str, L. cbn [andb]. rewrite forallb_forall in Wa, Wb. rewrite Forall_forall in IH.
    refine (list_eqb_flip _ _ _ _ _ Q). intros [k x] [k' y] X Y E. cbn [fst snd] in *. apply andb_true_iff in E. destruct E as [E1 E2].
    rewrite eqb_sym_str, E1. cbn [andb]. apply (IH _ X); [apply (Wa _ X)|apply (Wb _ Y)|exact E2].
  - destruct b; try discriminate. cbn [py_eq] in *. apply andb_true_iff in Q. destruct Q as [A B]. rewrite eqb_sym_str, A. cbn [andb]. now rewrite eqb_sym_str.
  - destruct b; try discriminate. cbn [py_eq wf] in *. apply andb_true_iff in Q. destruct Q as [A B]. rewrite eqb_sym_str, A. cbn [andb]. now apply IH.
Qed.

(** ** Types up to descriptions *)
Lemma bare_struct n fs ver : bare (SStruct n fs ver) = SStruct n (map bare_field fs) ver.
Proof. reflexivity. Qed.

Lemma aget_bare k fs : aget k (map bare_field fs) =
  match aget k fs with
  | Some f => Some (bare (fst f), mkF (fm_name (snd f)) (fm_default (snd f)) (fm_has_default (snd f)) None)
  | None => None
  end.
Proof.
  induction fs as [|[k' f] fs IH]; [reflexivity|]. cbn [map bare_field fst snd aget]. destruct (String.eqb k k'); [reflexivity|exact IH].
Qed.

Lemma bare_keys fs : map fst (map bare_field fs) = map fst fs.
Proof. rewrite map_map. reflexivity. Qed.

Lemma amem_bare k fs : amem k (map bare_field fs) = amem k fs.
Proof. rewrite !amem_aget, aget_bare. destruct (aget k fs); reflexivity. Qed.

Lemma bare_size t : sty_size (bare t) = sty_size t.
Proof.
  assert (G : forall l, Forall (fun t => sty_size (bare t) = sty_size t) l -> list_sum (map sty_size (map bare l)) = list_sum (map sty_size l)).
  { induction 1 as [|x l E _ IH]; [reflexivity|]. cbn [map list_sum fold_right] in *. unfold list_sum in *. cbn [fold_right]. now rewrite E, IH. }
  induction t as [p|i IH|l IH|k v IHk IHv|l IH|n fs ver IH|i IH|n ms|l| ] using sty_ind'; cbn [bare sty_size]; auto.
  f_equal. induction IH as [|[k [t m]] fs E _ IH]; [reflexivity|]. cbn [map list_sum fold_right fst snd] in *. unfold list_sum in *. cbn [fold_right]. now rewrite E, IH.
Qed.

Lemma regular_distinct t : regular t -> distinct_names t.
Proof.
  induction t as [p|i IH|l IH|k v IHk IHv|l IH|n fs ver IH|i IH|n ms|l| ] using sty_ind'; cbn [regular]; intros R; auto.
  - cbn [distinct_names]. induction l as [|x l IHl]; [exact I|]. inv IH. destruct R. split; [auto|now apply IHl].
  - destruct R. split; auto.
  - cbn [distinct_names]. induction l as [|x l IHl]; [exact I|]. inv IH. destruct R. split; [auto|now apply IHl].
  - apply distinct_struct. destruct R as [N R]. split; [exact N|]. clear N. induction fs as [|f fs IHf]; [constructor|]. inv IH. destruct R. constructor; auto.
  - exact (proj1 R).
Qed.

Lemma all_at {A} (P : A -> Prop) (fs : list (string * A)) k x : all (fun kv => P (snd kv)) fs -> aget k fs = Some x -> P x.
Proof. intros H G. apply aget_some_in in G. apply (proj1 (all_in _ fs) H _ G). Qed.

(** equal types are subtypes of each other *)
Lemma eq_sub a : forall b, regular a -> regular b -> in_schema_file a \/ in_schema_file b ->
  sty_eqb (bare a) (bare b) = true -> is_subtype a b = true /\ is_subtype b a = true.
Proof.
  induction a as [p|i IH|l IH|k v IHk IHv|l IH|n fs ver IH|i IH|n ms|l| ] using sty_ind'; intros b Ra Rb F Q.
  - destruct b; try discriminate. cbn [bare sty_eqb] in Q. rewrite !is_subtype_unfold. cbv zeta. rewrite Q, (eqb_sym_str _ p), Q. split; reflexivity.
  - destruct b as [|j| | | | | | | |]; try discriminate. cbn [bare sty_eqb regular in_schema_file] in *. destruct (IH j Ra Rb F Q) as [A B].
    rewrite (is_subtype_unfold (SList i)), (is_subtype_unfold (SList j)). cbv zeta. rewrite A, B, !orb_true_r. split; reflexivity.
  - destruct b; try discriminate. destruct F as [[]|[]].
  - destruct b; try discriminate. destruct F as [[]|[]].
  - destruct b; try discriminate. destruct F as [[]|[]].
  - destruct b as [| | | | |n' gs ver'| | | |]; try discriminate. rewrite !bare_struct in Q. cbn [sty_eqb] in Q.
    apply andb_true_iff in Q. destruct Q as [Q _]. apply andb_true_iff in Q. destruct Q as [_ Q]. apply andb_true_iff in Q. destruct Q as [L Q].
    apply Nat.eqb_eq in L. rewrite !map_length in L. cbn [regular] in Ra, Rb. destruct Ra as [Na Ra], Rb as [Nb Rb].
    rewrite forallb_forall in Q.
    assert (H : forall k f, In (k, f) fs -> exists g, aget k gs = Some g /\ is_subtype (fst f) (fst g) = true /\ is_subtype (fst g) (fst f) = true).
    { intros k f I. specialize (Q (bare_field (k, f)) (in_map bare_field _ _ I)). cbn [bare_field fst snd] in Q. rewrite aget_bare in Q.
      unfold sfield in *. destruct (aget k gs) as [g|] eqn:G; [|discriminate]. exists g. split; [reflexivity|]. cbn [fst] in Q. apply andb_true_iff in Q. destruct Q as [Q _].
      rewrite Forall_forall in IH. apply (IH _ I); [apply (proj1 (all_in _ fs) Ra _ I)|apply (all_at (fun f : sfield => regular (fst f)) gs k g Rb G)| |exact Q].
      destruct F as [F|F]; [left; apply (proj1 (all_in _ fs) F _ I)|right; apply (all_at (fun f : sfield => in_schema_file (fst f)) gs k g F G)]. }
    split; rewrite is_subtype_unfold; cbv zeta; apply orb_true_iff; left; apply forallb_forall; intros [k f] I; cbn [fst snd].
    + destruct (H k f I) as (g & -> & _ & B). exact B.
    + destruct (dict_flip fs gs Na Nb L) with (k := k) (y := f) as (x & X & Ix); [|exact I|].
      { intros k' x' I'. destruct (H _ _ I') as (g & G & _). eauto. }
      rewrite X. destruct (H k x Ix) as (g & G & A & _). rewrite (in_nodup_aget k f gs Nb I) in G. injection G as <-. exact A.
  - destruct b as [| | | | | |j| | |]; try discriminate. cbn [bare sty_eqb regular in_schema_file] in *. destruct (IH j Ra Rb F Q) as [A B].
    rewrite (is_subtype_unfold (SOption i)), (is_subtype_unfold (SOption j)). cbv zeta. split; assumption.
  - destruct b as [| | | | | | |n' ms'| |]; try discriminate. cbn [bare sty_eqb regular] in *. unfold dict_eqb in Q. apply andb_true_iff in Q. destruct Q as [E Q].
    apply andb_true_iff in Q. destruct Q as [L Q]. apply Nat.eqb_eq in L. rewrite forallb_forall in Q. destruct Ra as [Na Ra], Rb as [Nb Rb].
    rewrite !is_subtype_unfold. cbv zeta. rewrite E, (eqb_sym_str n' n), E. cbn [andb].
    assert (H : forall k x, In (k, x) ms -> exists y, aget k ms' = Some y /\ py_eq x y = true /\ py_eq y x = true).
    { intros k x I. specialize (Q _ I). cbn [fst snd] in Q. destruct (aget k ms') as [y|] eqn:G; [|discriminate]. exists y. split; [reflexivity|]. split; [exact Q|].
      apply py_eq_sym; [apply (proj1 (all_in _ ms) Ra _ I)|apply (all_at (fun v => wf v = true) ms' k y Rb G)|exact Q]. }
    split; rewrite orb_false_r; apply forallb_forall; intros [k x] I; cbn [fst snd].
    + destruct (H k x I) as (y & -> & _ & B). exact B.
    + destruct (dict_flip ms ms' Na Nb L) with (k := k) (y := x) as (y & Y & Iy); [|exact I|].
      { intros k' x' I'. destruct (H _ _ I') as (g & G & _). eauto. }
      rewrite Y. destruct (H k y Iy) as (g & G & A & _). rewrite (in_nodup_aget k x ms' Nb I) in G. injection G as <-. exact A.
  - destruct b; try discriminate. cbn [bare sty_eqb] in Q. unfold set_eqb in Q. apply andb_true_iff in Q. destruct Q as [A B].
    rewrite !is_subtype_unfold. cbv zeta. rewrite A, B. split; reflexivity.
  - destruct b; try discriminate. destruct F as [[]|[]].
Qed.

Lemma eqb_bare a : forall b, sty_eqb a b = true -> sty_eqb (bare a) (bare b) = true.
Proof.
  assert (G : forall l, Forall (fun a => forall b, sty_eqb a b = true -> sty_eqb (bare a) (bare b) = true) l ->
    forall m, list_eqb sty_eqb l m = true -> list_eqb sty_eqb (map bare l) (map bare m) = true).
  { induction 1 as [|x l E _ IH]; intros [|y m] Q; cbn in *; try discriminate; auto. apply andb_true_iff in Q. destruct Q as [Q1 Q2].
    rewrite (E _ Q1). now apply IH. }
  induction a as [p|i IH|l IH|k v IHk IHv|l IH|n fs ver IH|i IH|n ms|l| ] using sty_ind'; intros b Q; destruct b as [q|j|m|k' v'|m|n' gs ver'|j|n' ms'|m|];
    try discriminate; try exact Q; cbn [bare sty_eqb] in *; auto.
  - apply andb_true_iff in Q. destruct Q as [A B]. rewrite IHk, IHv; auto.
  - apply andb_true_iff in Q. destruct Q as [Q V]. apply andb_true_iff in Q. destruct Q as [N Q]. apply andb_true_iff in Q. destruct Q as [L Q].
    rewrite N, V, !map_length. unfold sfield in *. rewrite L. cbn [andb]. rewrite andb_true_r. rewrite forallb_forall in Q. apply forallb_forall. intros kv I.
    apply in_map_iff in I. destruct I as ([k f] & <- & I). cbn [fst snd]. change (fun kv : string * sfield => _) with bare_field. rewrite aget_bare.
    specialize (Q _ I). cbn [fst snd] in Q. unfold sfield in *. destruct (aget k gs) as [g|]; [|discriminate]. cbn [fst snd]. apply andb_true_iff in Q. destruct Q as [Q1 Q2].
    rewrite Forall_forall in IH. pose proof (IH _ I _ Q1) as Q3. cbn [fst snd] in Q3. rewrite Q3. cbn [andb]. unfold fmeta_eqb in *. cbn [fm_name fm_default fm_has_default fm_doc].
    apply andb_true_iff in Q2. destruct Q2 as [Q2 _]. rewrite Q2. reflexivity.
Qed.

Lemma bool_iff (x y : bool) : (x = true -> y = true) -> (y = true -> x = true) -> x = y.
Proof. destruct x, y; intros A B; try reflexivity; [now rewrite A|now rewrite B]. Qed.

Lemma forallb_map {A B} (f : A -> B) (p : B -> bool) l : forallb p (map f l) = forallb (fun x => p (f x)) l.
Proof. induction l as [|x l IH]; [reflexivity|]. cbn. now rewrite IH. Qed.

Lemma field_size k (f : sfield) fs : In (k, f) fs ->
  (sty_size (fst f) <= list_sum (map (fun kv : string * sfield => sty_size (fst (snd kv))) fs))%nat.
Proof. intros I. apply in_sum. apply (in_map (fun kv : string * sfield => sty_size (fst (snd kv))) _ _ I). Qed.

Lemma sub_bare N : forall a b, (sty_size a + sty_size b <= N)%nat -> regular a -> regular b -> in_schema_file a \/ in_schema_file b ->
  is_subtype (bare a) (bare b) = is_subtype a b.
Proof.
  induction N as [|N IH]; intros a b S Ra Rb F; [pose proof (size_pos a); lia|].
  rewrite (is_subtype_unfold (bare a)), (is_subtype_unfold a). cbv zeta.
  assert (O : match bare b with SOption o => is_subtype (bare a) o | _ => false end = match b with SOption o => is_subtype a o | _ => false end \/
              exists c, b = SOption c /\ ~ in_schema_file a /\ ~ in_schema_file c).
  { destruct b as [q|j|m|k' v'|m|n' gs ver'|c|n' ms'|m|]; cbn [bare]; auto. left. apply IH; [cbn [sty_size] in S; lia|exact Ra|exact Rb|exact F]. }
  destruct O as [O|(c & -> & Fa & Fc)]; [|cbn [in_schema_file] in F; tauto].
  destruct a as [p|i|l|k v|l|n fs ver|i|n ms|l|]; cbn [bare] in *.
  - rewrite O. destruct b; reflexivity.
  - rewrite O. destruct b as [q|j|m|k' v'|m|n' gs ver'|c|n' ms'|m|]; try reflexivity. cbn [bare sty_eqb]. rewrite orb_false_r.
    rewrite (IH i j); [|cbn [sty_size] in S; lia|exact Ra|exact Rb|exact F].
    destruct (is_subtype i j) eqn:E; [now rewrite !orb_true_r|]. rewrite !orb_false_r. apply bool_iff; intros Q; [|now apply eqb_bare].
    destruct (eq_sub i j Ra Rb F Q) as [A _]. rewrite A in E. discriminate.
  - rewrite O. destruct b; try reflexivity. destruct F as [[]|[]].
  - rewrite O. destruct b; try reflexivity. destruct F as [[]|[]].
  - rewrite O. destruct b; try reflexivity. destruct F as [[]|[]].
  - rewrite O. destruct b as [q|j|m|k' v'|m|n' gs ver'|c|n' ms'|m|]; try reflexivity. cbn [bare]. f_equal.
    rewrite forallb_map. apply forallb_ext_in. intros [k f] I. cbn [fst snd]. change (fun kv : string * sfield => _) with bare_field. rewrite aget_bare.
    unfold sfield in *. destruct (aget k gs) as [g|] eqn:G; [|reflexivity]. cbn [fst]. cbn [regular in_schema_file sty_size] in *. destruct Ra as [_ Ra], Rb as [_ Rb].
    apply IH.
    + pose proof (field_size k f fs I). pose proof (field_size k g gs (aget_some_in _ _ _ G)). unfold sfield in *. lia.
    + apply (all_at (fun f : sfield => regular (fst f)) gs k g Rb G).
    + apply (proj1 (all_in _ fs) Ra _ I).
    + destruct F as [F|F]; [right; apply (proj1 (all_in _ fs) F _ I)|left; apply (all_at (fun f : sfield => in_schema_file (fst f)) gs k g F G)].
  - destruct b as [q|j|m|k' v'|m|n' gs ver'|c|n' ms'|m|]; try reflexivity. cbn [bare]. apply IH; [cbn [sty_size] in S; lia|exact Rb|exact Ra|]. cbn [in_schema_file] in F. tauto.
  - rewrite O. destruct b; reflexivity.
  - rewrite O. destruct b; reflexivity.
  - reflexivity.
Qed.

(** ** Comparing schemas up to descriptions *)
Lemma bare_is_struct t : is_struct (bare t) = is_struct t.
Proof. destruct t; reflexivity. Qed.

Lemma all_new_bare t : forall path, all_new (bare t) path = map bare_change (all_new t path).
Proof.
  induction t as [p|i IH|l IH|k v IHk IHv|l IH|n fs ver IH|i IH|n ms|l| ] using sty_ind'; intros path; try reflexivity.
  rewrite bare_struct, !all_new_struct. induction fs as [|[k [ft m]] fs IHf]; [reflexivity|]. inv IH. cbn [map flat_map fst snd bare_field] in *.
  rewrite map_app, bare_is_struct, IHf by assumption. f_equal. destruct (is_struct ft); [apply H1|reflexivity].
Qed.

Lemma all_gone_bare t : forall path, all_gone (bare t) path = map bare_change (all_gone t path).
Proof.
  induction t as [p|i IH|l IH|k v IHk IHv|l IH|n fs ver IH|i IH|n ms|l| ] using sty_ind'; intros path; try reflexivity.
  rewrite bare_struct, !all_gone_struct. induction fs as [|[k [ft m]] fs IHf]; [reflexivity|]. inv IH. cbn [map flat_map fst snd bare_field] in *.
  rewrite map_app, bare_is_struct, IHf by assumption. f_equal. destruct (is_struct ft); [apply H1|reflexivity].
Qed.

Lemma bare_id cs : (forall c, In c cs -> bare_change c = c) -> map bare_change cs = cs.
Proof. induction cs as [|c cs IH]; intros H; [reflexivity|]. cbn [map]. rewrite (H c) by now left. f_equal. apply IH. intros d D. apply H. now right. Qed.

Lemma removed_bare path gs fs : removed_fields path (map bare_field gs) (map bare_field fs) = map bare_change (removed_fields path gs fs).
Proof.
  unfold removed_fields. induction fs as [|[k [ft m]] fs IH]; [reflexivity|]. cbn [map flat_map fst snd bare_field].
  rewrite map_app, amem_bare, bare_is_struct. f_equal; [|exact IH].
  destruct (amem k gs); [reflexivity|]. destruct (is_struct ft); [apply all_gone_bare|reflexivity].
Qed.

Lemma find_bare new : forall old path, find_changes (bare old) (bare new) path =
  let* cs := find_changes old new path in Ok (map bare_change cs).
Proof.
  induction new as [q|j IH|m IH|k v IHk IHv|m IH|n gs ver IH|j IH|n ms|m| ] using sty_ind'; intros old path;
    destruct old as [p|i|l|k' v'|l|n' fs ver'|i|n' ms'|l|]; try reflexivity.
  - cbn [bare find_changes]. destruct (String.eqb p q); reflexivity.
  - cbn [bare find_changes]. apply IH.
  - rewrite !bare_struct, !find_struct, removed_bare.
    assert (G : sections (map bare_field fs) (map bare_field gs) path = let* cs := sections fs gs path in Ok (map bare_change cs)).
    { induction gs as [|[k [ft m]] gs IHg]; [reflexivity|]. inv IH. specialize (IHg H2). cbn [map bare_field fst snd sections] in *. rewrite IHg. clear IHg.
      assert (E : field_section (map bare_field fs) path k (bare ft) (mkF (fm_name m) (fm_default m) (fm_has_default m) None) =
                  let* cs := field_section fs path k ft m in Ok (map bare_change cs)).
      { unfold field_section. rewrite aget_bare, !bare_is_struct. unfold sfield in *. destruct (aget k fs) as [[ot om]|]; cbn [fst snd].
        - rewrite !bare_is_struct. destruct (is_struct ft && negb (is_struct ot)); [cbn [rbind map]; now rewrite all_new_bare|].
          destruct (is_struct ot && negb (is_struct ft)); [cbn [rbind map]; now rewrite all_gone_bare|].
          rewrite H1. destruct (find_changes ot ft _); [|reflexivity]. cbn [rbind]. rewrite map_app. f_equal. f_equal. symmetry. apply bare_id.
          intros c. unfold default_changes. cbn [fm_has_default fm_default].
          repeat match goal with |- context [if ?b then _ else _] => destruct b end; intros C; try destruct C as [<-|[]]; try destruct C; reflexivity.
        - cbn [rbind]. destruct (is_struct ft); [now rewrite all_new_bare|reflexivity]. }
      rewrite E. destruct (field_section fs path k ft m); [|reflexivity]. cbn [rbind]. destruct (sections fs gs path); [|reflexivity]. cbn [rbind]. now rewrite map_app. }
    rewrite G. destruct (sections fs gs path); [|reflexivity]. cbn [rbind]. now rewrite map_app.
  - cbn [bare find_changes]. apply IH.
  - cbn [bare find_changes rbind]. f_equal. symmetry. apply bare_id. intros c C. unfold new_variants, gone_variants in C. apply in_app_iff in C. destruct C as [C|C]; apply in_flat_map in C;
      destruct C as (kv & _ & C).
    + destruct (aget (fst kv) ms'); [destruct (py_eq p (snd kv)); [destruct C|]|]; destruct C as [<-|[]]; reflexivity.
    + destruct (amem (fst kv) ms); [destruct C|]; destruct C as [<-|[]]; reflexivity.
  - cbn [bare find_changes rbind]. f_equal. symmetry. apply bare_id. intros c C. unfold literal_changes in C. apply in_app_iff in C.
    destruct C as [C|C]; [destruct (set_minus m l)|destruct (set_minus l m)]; try (destruct C; fail); destruct C as [<-|[]]; reflexivity.
Qed.

(** where the types in changes come from *)
Definition good (c : change) : Prop :=
  match c with
  | FieldAdded _ t _ _ => regular t
  | FieldRemoved _ t _ _ => in_schema_file t /\ regular t
  | TypeChanged _ o n => in_schema_file o /\ regular o /\ regular n
  | _ => True
  end.

Lemma all_new_good t : forall path, regular t -> Forall good (all_new t path).
Proof.
  induction t as [p|i IH|l IH|k v IHk IHv|l IH|n fs ver IH|i IH|n ms|l| ] using sty_ind'; intros path R; try constructor.
  rewrite all_new_struct. destruct R as [_ R]. induction fs as [|[k [ft m]] fs IHf]; [constructor|]. inv IH. destruct R as [R1 R2]. cbn [flat_map fst snd] in *.
  apply Forall_app. split; [|now apply IHf]. destruct (is_struct ft); [now apply H1|]. repeat constructor. exact R1.
Qed.

Lemma all_gone_good t : forall path, in_schema_file t -> regular t -> Forall good (all_gone t path).
Proof.
  induction t as [p|i IH|l IH|k v IHk IHv|l IH|n fs ver IH|i IH|n ms|l| ] using sty_ind'; intros path F R; try constructor.
  rewrite all_gone_struct. destruct R as [_ R]. cbn [in_schema_file] in F. induction fs as [|[k [ft m]] fs IHf]; [constructor|]. inv IH. destruct R as [R1 R2], F as [F1 F2]. cbn [flat_map fst snd] in *.
  apply Forall_app. split; [|now apply IHf]. destruct (is_struct ft); [now apply H1|]. repeat constructor; assumption.
Qed.

Lemma default_good path n om m : Forall good (default_changes path n om m).
Proof. unfold default_changes. repeat match goal with |- context [if ?b then _ else _] => destruct b end; repeat constructor. Qed.

Lemma removed_good path gs fs : all (fun kv : string * sfield => in_schema_file (fst (snd kv))) fs ->
  all (fun kv : string * sfield => regular (fst (snd kv))) fs -> Forall good (removed_fields path gs fs).
Proof.
  unfold removed_fields. induction fs as [|[k [ft m]] fs IHf]; intros F R; [constructor|]. destruct R as [R1 R2], F as [F1 F2]. cbn [flat_map fst snd] in *.
  apply Forall_app. split; [|now apply IHf]. destruct (amem k gs); [constructor|]. destruct (is_struct ft); [now apply all_gone_good|]. repeat constructor; assumption.
Qed.

Lemma find_good new : forall old path cs, find_changes old new path = Ok cs -> in_schema_file old -> regular old -> regular new -> Forall good cs.
Proof.
  induction new as [q|j IH|m IH|k v IHk IHv|m IH|n gs ver IH|j IH|n ms|m| ] using sty_ind'; intros old path cs H F R Rn.
  1-10: destruct old as [p|i|l|k' v'|l|n' fs ver'|i|n' ms'|l|]; try (cbn [find_changes] in H; injection H as <-; constructor; [exact (conj F (conj R Rn))|constructor]).
  - cbn [find_changes] in H. injection H as <-. destruct (String.eqb p q); [constructor|]. constructor; [exact (conj F (conj R Rn))|constructor].
  - cbn [find_changes] in H. now apply (IH _ _ _ H).
  - destruct F.
  - destruct F.
  - destruct F.
  - rewrite find_struct in H. apply rbind_ok in H. destruct H as (ss & E & H). injection H as <-. destruct R as [_ R], Rn as [_ Rn]. cbn [in_schema_file] in F.
    apply Forall_app. split; [|now apply removed_good].
    revert ss E. induction gs as [|[k [ft m]] gs IHg]; intros ss E; [injection E as <-; constructor|].
    apply sections_cons in E. destruct E as (here & rest & E1 & E2 & ->). inv IH. destruct Rn as [Rf Rn]. cbn [fst snd] in *. apply Forall_app. split; [|now apply IHg].
    unfold field_section in E1. unfold sfield in *. destruct (aget k fs) as [[ot om]|] eqn:G.
    + pose proof (all_at (fun f : sfield => regular (fst f)) fs k _ R G) as Ro. pose proof (all_at (fun f : sfield => in_schema_file (fst f)) fs k _ F G) as Fo. cbn [fst] in Ro, Fo.
      destruct (is_struct ft && negb (is_struct ot)); [injection E1 as <-; constructor; [exact (conj Fo Ro)|now apply all_new_good]|].
      destruct (is_struct ot && negb (is_struct ft)); [injection E1 as <-; constructor; [exact Rf|now apply all_gone_good]|].
      apply rbind_ok in E1. destruct E1 as (inner & E1 & E3). injection E3 as <-. apply Forall_app. split; [now apply (H1 _ _ _ E1)|apply default_good].
    + injection E1 as <-. destruct (is_struct ft); [now apply all_new_good|]. repeat constructor. exact Rf.
  - cbn [find_changes] in H. now apply (IH _ _ _ H).
  - cbn [find_changes] in H. injection H as <-. apply Forall_forall. intros c C. unfold new_variants, gone_variants in C. apply in_app_iff in C. destruct C as [C|C]; apply in_flat_map in C;
      destruct C as (kv & _ & C).
    + destruct (aget (fst kv) ms'); [destruct (py_eq p (snd kv)); [destruct C|]|]; destruct C as [<-|[]]; exact I.
    + destruct (amem (fst kv) ms); [destruct C|]; destruct C as [<-|[]]; exact I.
  - cbn [find_changes] in H. injection H as <-. apply Forall_forall. intros c C. unfold literal_changes in C. apply in_app_iff in C.
    destruct C as [C|C]; [destruct (set_minus m l)|destruct (set_minus l m)]; try (destruct C; fail); destruct C as [<-|[]]; exact I.
  - destruct F.
Qed.

(** ** Renames up to descriptions *)
Definition bare_obj (o : obj) : obj := (fst o, bare_change (snd o)).

Lemma remove_bare x l : (forall y, In y l -> obj_eqb (bare_obj y) (bare_obj x) = obj_eqb y x) ->
  remove_obj (bare_obj x) (map bare_obj l) = let* r := remove_obj x l in Ok (map bare_obj r).
Proof.
  induction l as [|y l IH]; intros H; [reflexivity|]. cbn [map remove_obj]. rewrite (H y) by now left. destruct (obj_eqb y x); [reflexivity|].
  rewrite IH by (intros z Z; apply H; now right). destruct (remove_obj x l); reflexivity.
Qed.

Lemma remove_incl x l r : remove_obj x l = Ok r -> incl r l.
Proof.
  revert r. induction l as [|y l IH]; intros r H; cbn [remove_obj] in H; [discriminate|]. destruct (obj_eqb y x).
  - injection H as <-. apply incl_tl, incl_refl.
  - apply rbind_ok in H. destruct H as (r' & E & H). injection H as <-. apply incl_cons; [now left|]. apply incl_tl, (IH _ E).
Qed.

Section Bare.
  Variable is_added is_removed : change -> bool.
  Variable sim : change -> change -> option pyfloat.
  Variable mk : change -> change -> change.
  Hypothesis mk_bare : forall a r, bare_change (mk a r) = mk (bare_change a) (bare_change r).
  Hypothesis class_added : forall c, is_added (bare_change c) = is_added c.
  Hypothesis class_removed : forall c, is_removed (bare_change c) = is_removed c.
  Hypothesis eqb_class : forall c d, change_eqb c d = true -> is_added c = is_added d /\ is_removed c = is_removed d.
  Hypothesis mk_class : forall a r, is_added a = true -> is_removed r = true ->
    is_added (mk a r) = false /\ is_removed (mk a r) = false.

  Definition bare_best (b : best_state) : best_state :=
    (fst b, match snd b with Some (r, a) => Some (bare_obj r, bare_obj a) | None => None end).

  Lemma best_added_bare r ads : forall b, (forall a, In a ads -> sim (bare_change (snd a)) (bare_change (snd r)) = sim (snd a) (snd r)) ->
    best_added sim (bare_obj r) (map bare_obj ads) (bare_best b) = bare_best (best_added sim r ads b).
  Proof.
    induction ads as [|a ads IH]; intros b H; [reflexivity|]. cbn [map best_added]. rewrite <- IH by (intros z Z; apply H; now right). f_equal.
    cbn [bare_obj snd]. rewrite (H a) by now left. destruct (sim (snd a) (snd r)); [|reflexivity]. cbn [bare_best fst]. destruct (SFltb (fst b) p); reflexivity.
  Qed.

  Lemma best_pair_bare rs ads : forall b, (forall r a, In r rs -> In a ads -> sim (bare_change (snd a)) (bare_change (snd r)) = sim (snd a) (snd r)) ->
    best_pair sim (map bare_obj rs) (map bare_obj ads) (bare_best b) = bare_best (best_pair sim rs ads b).
  Proof.
    induction rs as [|r rs IH]; intros b H; [reflexivity|]. cbn [map best_pair]. rewrite best_added_bare by (intros a A; apply H; [now left|exact A]).
    apply IH. intros r' a R A. apply H; [now right|exact A].
  Qed.

  Lemma loop_bare fuel : forall rs ads cs next,
    (forall r a, In r rs -> In a ads -> sim (bare_change (snd a)) (bare_change (snd r)) = sim (snd a) (snd r)) ->
    (forall o : obj, In o rs -> is_removed (snd o) = true) -> (forall o : obj, In o ads -> is_added (snd o) = true) ->
    (forall y x, In y (cs ++ rs ++ ads) -> In x (rs ++ ads) -> obj_eqb (bare_obj y) (bare_obj x) = obj_eqb y x) ->
    (forall x : obj, In x (rs ++ ads) -> fst x < next) ->
    rename_loop sim mk fuel (map bare_obj rs) (map bare_obj ads) (map bare_obj cs) next =
    let* out := rename_loop sim mk fuel rs ads cs next in Ok (map bare_obj out).
  Proof.
    induction fuel as [|fuel IH]; intros rs ads cs next Hs Hr Ha Q Lt; [reflexivity|]. cbn [rename_loop].
    change (f64_0_1, None) with (bare_best (f64_0_1, None)) at 1. rewrite best_pair_bare by exact Hs.
    cbn [bare_best snd]. destruct (snd (best_pair sim rs ads (f64_0_1, None))) as [[r a]|] eqn:B; [|reflexivity].
    destruct (best_some sim rs ads r a B) as (R & A & _).
    assert (Ir : In r (rs ++ ads)) by (apply in_app_iff; now left). assert (Ia : In a (rs ++ ads)) by (apply in_app_iff; now right).
    rewrite (remove_bare r cs) by (intros y Y; apply Q; [apply in_app_iff; now left|exact Ir]).
    destruct (remove_obj r cs) as [c1|] eqn:E1; [|reflexivity]. cbn [rbind].
    rewrite (remove_bare a c1) by (intros y Y; apply Q; [apply in_app_iff; left; now apply (remove_incl _ _ _ E1)|exact Ia]).
    destruct (remove_obj a c1) as [c2|] eqn:E2; [|reflexivity]. cbn [rbind].
    rewrite (remove_bare r rs) by (intros y Y; apply Q; [rewrite !in_app_iff; auto|exact Ir]).
    destruct (remove_obj r rs) as [rs'|] eqn:E3; [|reflexivity]. cbn [rbind].
    rewrite (remove_bare a ads) by (intros y Y; apply Q; [rewrite !in_app_iff; auto|exact Ia]).
    destruct (remove_obj a ads) as [ads'|] eqn:E4; [|reflexivity]. cbn [rbind].
    pose proof (remove_incl _ _ _ E1) as I1. pose proof (remove_incl _ _ _ E2) as I2. pose proof (remove_incl _ _ _ E3) as I3. pose proof (remove_incl _ _ _ E4) as I4.
    set (new := (next, mk (snd a) (snd r)) : obj).
    replace (map bare_obj c2 ++ [(next, mk (snd (bare_obj a)) (snd (bare_obj r)))])%list with (map bare_obj (c2 ++ [new])).
    2:{ rewrite map_app. f_equal. cbn [map]. unfold bare_obj, new. cbn [fst snd]. now rewrite mk_bare. }
    apply IH.
    - intros r' a' R' A'. apply Hs; auto.
    - intros o O. apply Hr. auto.
    - intros o O. apply Ha. auto.
    - intros y x Y X. assert (X' : In x (rs ++ ads)) by (apply in_app_iff in X; apply in_app_iff; destruct X; auto).
      rewrite !in_app_iff in Y. destruct Y as [[Y|[<-|[]]]|[Y|Y]].
      + apply Q; [apply in_app_iff; left; auto|exact X'].
      + unfold obj_eqb, new. cbn [bare_obj fst snd]. f_equal.
        destruct (mk_class (snd a) (snd r) (Ha a A) (Hr r R)) as [M1 M2].
        assert (K : is_added (snd x) || is_removed (snd x) = true).
        { apply in_app_iff in X'. destruct X' as [X'|X']; [rewrite (Hr x X'); apply orb_true_r|rewrite (Ha x X'); reflexivity]. }
        apply bool_iff; intros E.
        * apply eqb_class in E. rewrite class_added, class_removed, class_added, class_removed in E. destruct E as [U V]. rewrite <- U, <- V, M1, M2 in K. discriminate.
        * apply eqb_class in E. destruct E as [U V]. rewrite <- U, <- V, M1, M2 in K. discriminate.
      + apply Q; [rewrite !in_app_iff; auto|exact X'].
      + apply Q; [rewrite !in_app_iff; auto|exact X'].
    - intros x X. assert (X' : In x (rs ++ ads)) by (apply in_app_iff in X; apply in_app_iff; destruct X; auto). specialize (Lt x X'). lia.
  Qed.

  Lemma objects_bare cs : objects (map bare_change cs) = map bare_obj (objects cs).
  Proof.
    unfold objects. rewrite map_length. generalize 0. induction cs as [|c cs IH]; intros n; [reflexivity|]. cbn [length seq map combine]. now rewrite IH.
  Qed.

  Lemma filter_bare (p : change -> bool) os : (forall c, p (bare_change c) = p c) ->
    filter (fun o : obj => p (snd o)) (map bare_obj os) = map bare_obj (filter (fun o : obj => p (snd o)) os).
  Proof.
    intros H. induction os as [|o os IH]; [reflexivity|]. cbn [map filter]. cbn [bare_obj snd]. rewrite H. destruct (p (snd o)); [cbn [map]; now rewrite IH|exact IH].
  Qed.

  Lemma renames_bare cs :
    NoDup (map change_key (filter (fun c => is_added c || is_removed c) cs)) ->
    (forall r a, In r cs -> In a cs -> is_removed r = true -> is_added a = true -> sim (bare_change a) (bare_change r) = sim a r) ->
    find_renames is_added is_removed sim mk (map bare_change cs) =
    let* out := find_renames is_added is_removed sim mk cs in Ok (map bare_change out).
  Proof.
    intros K Hs. unfold find_renames. rewrite objects_bare, (filter_bare is_removed _ class_removed), (filter_bare is_added _ class_added), !map_length.
    set (os := objects cs). set (rs := filter (fun o => is_removed (snd o)) os). set (ads := filter (fun o => is_added (snd o)) os).
    assert (Sn : map snd os = cs) by apply objects_snd.
    assert (Nos : NoDup (map fst os)) by (unfold os; rewrite objects_ids; apply seq_NoDup).
    assert (In_cs : forall o : obj, In o os -> In (snd o) cs) by (intros o O; rewrite <- Sn; now apply in_map).
    assert (U : forall y x : obj, In y os -> In x os -> is_added (snd x) || is_removed (snd x) = true -> change_key (snd y) = change_key (snd x) ->
      is_added (snd y) || is_removed (snd y) = true -> fst y = fst x).
    { revert K. rewrite <- Sn. clear. induction os as [|z l IH]; intros N y x Y X Cx E Cy; [destruct Y|]. cbn [map filter] in N.
      assert (P : forall w : obj, In w l -> is_added (snd w) || is_removed (snd w) = true ->
          In (change_key (snd w)) (map change_key (filter (fun c => is_added c || is_removed c) (map snd l)))).
      { intros w W Cw. apply in_map. apply filter_In. split; [now apply in_map|exact Cw]. }
      destruct X as [->|X], Y as [->|Y]; [reflexivity| | |].
      - rewrite Cx in N. cbn [map] in N. inv N. exfalso. apply H1. rewrite <- E. auto.
      - rewrite Cy in N. cbn [map] in N. inv N. exfalso. apply H1. rewrite E. auto.
      - apply IH; auto. destruct (is_added (snd z) || is_removed (snd z)); [now inv N|exact N]. }
    transitivity (let* out := (let* out := rename_loop sim mk (S (length rs)) rs ads os (length cs) in Ok (map bare_obj out)) in Ok (map snd out)).
    2:{ change (filter (fun o : obj => is_removed (snd o)) os) with rs. change (filter (fun o : obj => is_added (snd o)) os) with ads.
        destruct (rename_loop sim mk (S (length rs)) rs ads os (length cs)); [|reflexivity]. cbn [rbind]. f_equal. rewrite !map_map. reflexivity. }
    f_equal. apply loop_bare.
    - intros r a R A. apply filter_In in R, A. apply Hs; try apply In_cs; tauto.
    - intros o O. apply filter_In in O. tauto.
    - intros o O. apply filter_In in O. tauto.
    - intros y x Y X.
      assert (Cx : In x os /\ is_added (snd x) || is_removed (snd x) = true).
      { apply in_app_iff in X. destruct X as [X|X]; apply filter_In in X; destruct X as [X C]; rewrite C; split; auto using orb_true_r. }
      assert (Yo : In y os). { rewrite !in_app_iff in Y. destruct Y as [Y|[Y|Y]]; [exact Y| |]; apply filter_In in Y; tauto. }
      unfold obj_eqb. cbn [bare_obj fst snd]. destruct (Nat.eqb (fst y) (fst x)) eqn:E; [reflexivity|]. cbn [orb].
      apply Nat.eqb_neq in E. apply bool_iff; intros Q; exfalso; apply E; destruct Cx as [Xo Cx]; apply U; auto.
      + apply change_eqb_key in Q. destruct (snd y), (snd x); exact Q.
      + apply eqb_class in Q. rewrite !class_added, !class_removed in Q. destruct Q as [-> ->]. exact Cx.
      + now apply change_eqb_key.
      + apply eqb_class in Q. destruct Q as [-> ->]. exact Cx.
    - intros x X. assert (Xo : In x os). { apply in_app_iff in X. destruct X as [X|X]; apply filter_In in X; tauto. }
      apply (in_map fst) in Xo. unfold os in Xo. rewrite objects_ids in Xo. apply in_seq in Xo. lia.
  Qed.
End Bare.

Lemma field_renames_bare cs : NoDup (map change_key (filter (fun c => is_FieldAdded c || is_FieldRemoved c) cs)) -> Forall good cs ->
  find_field_renames (map bare_change cs) = let* out := find_field_renames cs in Ok (map bare_change out).
Proof.
  intros K G. unfold find_field_renames. apply renames_bare; [| | | | |exact K|].
  - intros a r. destruct a, r; reflexivity.
  - intros c. destruct c; reflexivity.
  - intros c. destruct c; reflexivity.
  - intros c d. destruct c, d; try discriminate; auto.
  - intros a r. destruct a, r; try discriminate; auto.
  - intros r a R A Cr Ca. rewrite Forall_forall in G. apply G in R, A. destruct r; try discriminate. destruct a; try discriminate.
    cbn [bare_change field_similarity good] in *. rewrite (sub_bare _ _ _ (Nat.le_refl _)); [reflexivity|tauto|exact A|tauto].
Qed.

Lemma enum_renames_bare cs : NoDup (map change_key (filter (fun c => is_VariantAdded c || is_VariantRemoved c) cs)) ->
  find_enum_variant_renames (map bare_change cs) = let* out := find_enum_variant_renames cs in Ok (map bare_change out).
Proof.
  intros K. unfold find_enum_variant_renames. apply renames_bare; [| | | | |exact K|].
  - intros a r. destruct a, r; try reflexivity. cbn [bare_change enum_renamed]. destruct (negb _); reflexivity.
  - intros c. destruct c; reflexivity.
  - intros c. destruct c; reflexivity.
  - intros c d. destruct c, d; try discriminate; auto.
  - intros a r. destruct a, r; try discriminate. intros _ _. cbn [enum_renamed]. destruct (negb _); auto.
  - intros r a _ _ Cr Ca. destruct r; try discriminate. destruct a; try discriminate. reflexivity.
Qed.

Lemma renames_in is_added is_removed sim mk cs out : find_renames is_added is_removed sim mk cs = Ok out ->
  forall c, In c out -> In c cs \/ exists a r, In a cs /\ c = mk a r.
Proof.
  unfold find_renames. intros H. apply rbind_ok in H. destruct H as (os & E & H). injection H as <-.
  assert (G : forall fuel rs ads l n os, rename_loop sim mk fuel rs ads l n = Ok os ->
    forall o, In o os -> In o l \/ exists a r, In a ads /\ snd o = mk (snd a) r).
  { induction fuel as [|fuel IH]; intros rs ads l n os' H o O; [discriminate|]. cbn [rename_loop] in H.
    destruct (snd (best_pair sim rs ads (f64_0_1, None))) as [[r a]|] eqn:B; [|injection H as <-; now left].
    destruct (best_some sim rs ads r a B) as (_ & A & _).
    apply rbind_ok in H. destruct H as (c1 & E1 & H). apply rbind_ok in H. destruct H as (c2 & E2 & H).
    apply rbind_ok in H. destruct H as (c3 & E3 & H). apply rbind_ok in H. destruct H as (c4 & E4 & H).
    destruct (IH _ _ _ _ _ H o O) as [I|(a' & r' & A' & I)].
    - apply in_app_iff in I. destruct I as [I|[<-|[]]]; [left|right; exists a, (snd r); now split].
      exact (remove_incl _ _ _ E1 _ (remove_incl _ _ _ E2 _ I)).
    - right. exists a', r'. split; [exact (remove_incl _ _ _ E4 _ A')|exact I]. }
  assert (In_cs : forall o : obj, In o (objects cs) -> In (snd o) cs) by (intros o O; rewrite <- (objects_snd cs); now apply in_map).
  intros c C. apply in_map_iff in C. destruct C as (o & <- & O). destruct (G _ _ _ _ _ _ E o O) as [I|(a & r & A & I)]; [left; auto|right].
  exists (snd a), r. split; [|exact I]. apply filter_In in A. apply In_cs. tauto.
Qed.

Lemma compare_bare old new : in_schema_file old -> regular old -> regular new ->
  match compare_schemas old new with
  | Ok k => Forall good (ck_changes k) /\ exists fixes, ck_fixes k = flat_map (fun c => match proposed_fix c with Some r => [r] | None => [] end) (ck_changes k) /\
      fixes = flat_map (fun c => match proposed_fix c with Some r => [r] | None => [] end) (map bare_change (ck_changes k)) /\
      compare_schemas (bare old) (bare new) = Ok (mkChk (bare old) (bare new) (map bare_change (ck_changes k)) fixes)
  | Err e => compare_schemas (bare old) (bare new) = Err e
  end.
Proof.
  intros F Ro Rn. unfold compare_schemas. rewrite find_bare. destruct (find_changes old new []) as [cs|] eqn:E; [|reflexivity]. cbn [rbind].
  pose proof (find_good _ _ _ _ E F Ro Rn) as G.
  destruct (find_keyed new old [] cs (regular_distinct _ Rn) (regular_distinct _ Ro) E) as [N _].
  destruct (field_renames_ok cs) as (c2 & E2 & _ & Fl); [now apply nodup_filter_keys|].
  rewrite field_renames_bare; [|now apply nodup_filter_keys|exact G]. rewrite E2. cbn [rbind].
  destruct (enum_renames_ok c2) as (c3 & E3 & _); [rewrite Fl; now apply nodup_filter_keys|].
  rewrite enum_renames_bare by (rewrite Fl; now apply nodup_filter_keys). rewrite E3. cbn [rbind ck_changes ck_fixes]. split.
  - rewrite Forall_forall in *. intros c C. assert (G2 : forall c, In c c2 -> good c).
    { intros d D. destruct (renames_in _ _ _ _ _ _ E2 d D) as [J|(a & r & A & ->)]; [auto|]. apply G in A. destruct a; try exact A. destruct r; try exact A. exact I. }
    destruct (renames_in _ _ _ _ _ _ E3 c C) as [J|(a & r & A & ->)]; [auto|]. apply G2 in A. destruct a; try exact A. destruct r; try exact A.
    cbn [enum_renamed]. destruct (negb _); exact I.
  - eexists. split; [reflexivity|]. split; reflexivity.
Qed.

Lemma severity_info c : good c -> (change_severity (bare_change c) = INFO <-> change_severity c = INFO).
Proof.
  assert (D : forall c, default_severity c <> INFO) by (intros d; unfold default_severity; destruct (proposed_fix d); discriminate).
  destruct c; intros G; try reflexivity.
  - cbn [bare_change change_severity]. destruct has_default; [tauto|]. split; intros H; apply D in H; destruct H.
  - cbn [bare_change change_severity good] in *. rewrite (sub_bare _ _ _ (Nat.le_refl _)) by tauto.
    destruct (is_subtype old new); [tauto|]. split; intros H; apply D in H; destruct H.
Qed.

Lemma classless_bare t : classless t -> bare t = t.
Proof.
  assert (G : forall l, Forall (fun t => classless t -> bare t = t) l -> all classless l -> map bare l = l).
  { induction 1 as [|x l E _ IH]; intros A; [reflexivity|]. destruct A. cbn [map]. rewrite E, IH; auto. }
  induction t as [p|i IH|l IH|k v IHk IHv|l IH|n fs ver IH|i IH|n ms|l| ] using sty_ind'; cbn [classless bare]; intros C; try reflexivity; try (f_equal; auto; fail).
  - destruct C. f_equal; auto.
  - destruct C.
Qed.

Lemma classless_eqb o : forall i, classless o -> sty_eqb (bare i) o = sty_eqb i o.
Proof.
  assert (G : forall l, Forall (fun o => forall i, classless o -> sty_eqb (bare i) o = sty_eqb i o) l -> all classless l ->
    forall m, list_eqb sty_eqb (map bare m) l = list_eqb sty_eqb m l).
  { induction 1 as [|x l E _ IH]; intros A [|y m]; try reflexivity. destruct A. cbn. rewrite E by assumption. f_equal. now apply IH. }
  induction o as [p|o IH|l IH|k v IHk IHv|l IH|n fs ver IH|o IH|n ms|l| ] using sty_ind'; intros i C;
    destruct i as [p'|i|l'|k' v'|l'|n' fs' ver'|i|n' ms'|l'|]; try reflexivity; cbn [bare sty_eqb classless] in *; auto.
  - destruct C. rewrite IHk, IHv; auto.
  - destruct C.
Qed.

Lemma fix_bare c : (forall p o n, c = TypeChanged p o n -> classless o) -> proposed_fix (bare_change c) = proposed_fix c.
Proof.
  destruct c; intros H; try reflexivity.
  - cbn [bare_change proposed_fix]. destruct has_default; [reflexivity|]. destruct type; reflexivity.
  - cbn [bare_change proposed_fix]. specialize (H _ _ _ eq_refl). rewrite (classless_bare _ H).
    replace (wraps_in_list (bare new) old) with (wraps_in_list new old).
    2:{ destruct new; try reflexivity. cbn [bare wraps_in_list]. symmetry. now apply classless_eqb. }
    destruct (wraps_in_list new old); [reflexivity|]. destruct new; reflexivity.
Qed.

Lemma severity_bare c : good c -> (forall p o n, c = TypeChanged p o n -> classless o) -> change_severity (bare_change c) = change_severity c.
Proof.
  intros G H. pose proof (fix_bare c H) as F.
  assert (D : default_severity (bare_change c) = default_severity c) by (unfold default_severity; now rewrite F).
  destruct c; try reflexivity; cbn [bare_change change_severity good] in *.
  - destruct has_default; [reflexivity|exact D].
  - rewrite (sub_bare _ _ _ (Nat.le_refl _)) by tauto. destruct (is_subtype old new); [reflexivity|exact D].
Qed.

Lemma regular_bare t : regular t <-> regular (bare t).
Proof.
  assert (G : forall l, Forall (fun t => regular t <-> regular (bare t)) l -> (all regular l <-> all regular (map bare l))).
  { induction 1 as [|x l E _ IH]; [reflexivity|]. cbn [map all]. change (regular x /\ all regular l <-> regular (bare x) /\ all regular (map bare l)). tauto. }
  induction t as [p|i IH|l IH|k v IHk IHv|l IH|n fs ver IH|i IH|n ms|l| ] using sty_ind'; cbn [bare regular]; try tauto; try (now apply G).
  change (regular (SStruct n fs ver) <-> regular (SStruct n (map bare_field fs) ver)). cbn [regular]. rewrite bare_keys.
  assert (A : all (fun kv : string * sfield => regular (fst (snd kv))) fs <-> all (fun kv : string * sfield => regular (fst (snd kv))) (map bare_field fs)).
  { induction IH as [|f fs E _ IH]; [reflexivity|]. cbn [map]. 
    change (regular (fst (snd f)) /\ all (fun kv : string * sfield => regular (fst (snd kv))) fs <-> regular (bare (fst (snd f))) /\ all (fun kv : string * sfield => regular (fst (snd kv))) (map bare_field fs)). tauto. }
  tauto.
Qed.

Lemma file_bare t : in_schema_file t <-> in_schema_file (bare t).
Proof.
  induction t as [p|i IH|l IH|k v IHk IHv|l IH|n fs ver IH|i IH|n ms|l| ] using sty_ind'; cbn [bare in_schema_file]; try tauto.
  induction IH as [|f fs E _ IH]; [reflexivity|]. cbn [map].
  change (in_schema_file (fst (snd f)) /\ all (fun kv : string * sfield => in_schema_file (fst (snd kv))) fs <-> in_schema_file (bare (fst (snd f))) /\ all (fun kv : string * sfield => in_schema_file (fst (snd kv))) (map bare_field fs)). tauto.
Qed.

Lemma severity_all k : checker_severity k = INFO <-> forall c, In c (ck_changes k) -> change_severity c = INFO.
Proof.
  pose proof (severity_worst k) as W. split.
  - intros E. rewrite E in W. intros c C. apply (proj1 (worst_info _) W). now apply in_map.
  - intros H. assert (X : worst (map change_severity (ck_changes k)) INFO).
    { apply worst_info. intros x I. apply in_map_iff in I. destruct I as (c & <- & C). now apply H. }
    pose proof (worst_fold _ INFO _ X) as A. rewrite (worst_fold _ INFO _ W) in A. destruct (checker_severity k); [reflexivity|discriminate|discriminate].
Qed.

Lemma flat_map_ext_in {A B} (f g : A -> list B) l : (forall x, In x l -> f x = g x) -> flat_map f l = flat_map g l.
Proof. induction l as [|x l IH]; intros H; [reflexivity|]. cbn [flat_map]. rewrite (H x) by now left. f_equal. apply IH. intros y Y. apply H. now right. Qed.

Lemma flat_map_map {A B C} (f : A -> B) (g : B -> list C) l : flat_map g (map f l) = flat_map (fun x => g (f x)) l.
Proof. induction l as [|x l IH]; [reflexivity|]. cbn [map flat_map]. now rewrite IH. Qed.

(** descriptions do not matter for the changes found and for compatibility *)
Lemma docs_changes old old' new new' : bare old = bare old' -> bare new = bare new' ->
  in_schema_file old -> regular old -> regular new ->
  match compare_schemas old new, compare_schemas old' new' with
  | Ok k, Ok k' => map bare_change (ck_changes k) = map bare_change (ck_changes k') /\
      (checker_severity k = INFO <-> checker_severity k' = INFO)
  | Err e, Err e' => e = e'
  | _, _ => False
  end.
Proof.
  intros Eo En F Ro Rn. pose proof (compare_bare old new F Ro Rn) as A.
  assert (F' : in_schema_file old') by (apply (proj2 (file_bare old')); rewrite <- Eo; now apply (proj1 (file_bare old))).
  assert (Ro' : regular old') by (apply (proj2 (regular_bare old')); rewrite <- Eo; now apply (proj1 (regular_bare old))).
  assert (Rn' : regular new') by (apply (proj2 (regular_bare new')); rewrite <- En; now apply (proj1 (regular_bare new))).
  pose proof (compare_bare old' new' F' Ro' Rn') as B. rewrite <- Eo, <- En in B.
  assert (S : forall k k', Forall good (ck_changes k) -> Forall good (ck_changes k') -> map bare_change (ck_changes k) = map bare_change (ck_changes k') ->
    checker_severity k = INFO -> checker_severity k' = INFO).
  { intros k k' G G' E I. rewrite Forall_forall in G, G'. apply severity_all. intros c C. apply (severity_info c (G' c C)).
    assert (J : In (bare_change c) (map bare_change (ck_changes k))) by (rewrite E; now apply in_map).
    apply in_map_iff in J. destruct J as (d & <- & J). apply (severity_info d (G d J)). now apply (proj1 (severity_all k) I). }
  destruct (compare_schemas old new) as [k|e], (compare_schemas old' new') as [k'|e'].
  - destruct A as (G & fixes & _ & _ & A), B as (G' & fixes' & _ & _ & B). rewrite A in B. injection B as E _. split; [exact E|]. split; now apply S.
  - destruct A as (_ & fixes & _ & _ & A). congruence.
  - destruct B as (_ & fixes & _ & _ & B). congruence.
  - congruence.
Qed.

(** nor for fixes and severities, if types that contain classes are not changed *)
Lemma docs_fixes old old' new new' k k' : bare old = bare old' -> bare new = bare new' ->
  in_schema_file old -> regular old -> regular new ->
  compare_schemas old new = Ok k -> compare_schemas old' new' = Ok k' ->
  (forall p o n, In (TypeChanged p o n) (ck_changes k) -> classless o) ->
  ck_fixes k = ck_fixes k' /\ map change_severity (ck_changes k) = map change_severity (ck_changes k') /\ checker_severity k = checker_severity k'.
Proof.
  intros Eo En F Ro Rn K K' H. pose proof (compare_bare old new F Ro Rn) as A. rewrite K in A. destruct A as (G & fixes & Fk & Ff & A).
  assert (F' : in_schema_file old') by (apply (proj2 (file_bare old')); rewrite <- Eo; now apply (proj1 (file_bare old))).
  assert (Ro' : regular old') by (apply (proj2 (regular_bare old')); rewrite <- Eo; now apply (proj1 (regular_bare old))).
  assert (Rn' : regular new') by (apply (proj2 (regular_bare new')); rewrite <- En; now apply (proj1 (regular_bare new))).
  pose proof (compare_bare old' new' F' Ro' Rn') as B. rewrite K' in B. destruct B as (G' & fixes' & Fk' & Ff' & B). rewrite <- Eo, <- En, A in B. injection B as E _.
  assert (H' : forall p o n, In (TypeChanged p o n) (ck_changes k') -> classless o).
  { intros p o n I. apply (in_map bare_change) in I. rewrite <- E in I. apply in_map_iff in I. destruct I as (c & Q & I). destruct c; try discriminate.
    injection Q as -> Q _. specialize (H _ _ _ I). rewrite (classless_bare _ H) in Q. subst old0. clear -H.
    assert (X : forall o, classless (bare o) -> classless o).
    { clear. assert (Y : forall l, Forall (fun o => classless (bare o) -> classless o) l -> all classless (map bare l) -> all classless l).
      { induction 1 as [|x l E _ IH]; intros A; [exact I|]. destruct A. split; auto. }
      induction o as [p|o IH|l IH|k v IHk IHv|l IH|n fs ver IH|o IH|n ms|l| ] using sty_ind'; cbn [bare classless]; auto. intros []. split; auto. }
    now apply X. }
  assert (Sv : forall k, Forall good (ck_changes k) -> (forall p o n, In (TypeChanged p o n) (ck_changes k) -> classless o) ->
    map change_severity (ck_changes k) = map change_severity (map bare_change (ck_changes k))).
  { intros k0 G0 H0. rewrite map_map. apply map_ext_in. intros c C. symmetry. rewrite Forall_forall in G0. apply severity_bare; [auto|]. intros p o n ->. eauto. }
  assert (Fx : forall k, (forall p o n, In (TypeChanged p o n) (ck_changes k) -> classless o) ->
    flat_map (fun c => match proposed_fix c with Some r => [r] | None => [] end) (ck_changes k) =
    flat_map (fun c => match proposed_fix c with Some r => [r] | None => [] end) (map bare_change (ck_changes k))).
  { intros k0 H0. rewrite flat_map_map. apply flat_map_ext_in. intros c C. rewrite fix_bare; [reflexivity|]. intros p o n ->. eauto. }
  assert (S : map change_severity (ck_changes k) = map change_severity (ck_changes k')) by (rewrite (Sv k G H), (Sv k' G' H'), E; reflexivity).
  split; [|split; [exact S|]].
  - rewrite Fk, Fk', (Fx k H), (Fx k' H'), E. reflexivity.
  - pose proof (severity_worst k) as W. pose proof (severity_worst k') as W'. rewrite S in W.
    pose proof (worst_fold _ INFO _ W) as X. rewrite (worst_fold _ INFO _ W') in X. destruct (checker_severity k), (checker_severity k'); try reflexivity; discriminate.
Qed.

(** a schema file does not say descriptions *)
Lemma reread_bare t : in_file (bare t) = in_file t /\ (in_file t = true -> reread (bare t) = reread t).
Proof.
  induction t as [p|i IH|l IH|k v IHk IHv|l IH|n fs ver IH|i IH|n ms|l| ] using sty_ind'; cbn [bare reread in_file]; try (split; [reflexivity|]; intros; try discriminate; reflexivity).
  - destruct IH as [A B]. split; [exact A|]. intros H. now rewrite B.
  - rewrite Forall_forall in IH. split.
    + etransitivity; [apply forallb_map|]. apply forallb_ext_in. intros f I. destruct (IH f I) as [E _]. exact E.
    + intros H. rewrite forallb_forall in H. f_equal. etransitivity; [apply map_map|]. apply map_ext_in. intros f I. destruct (IH f I) as [_ E]. cbn [fst snd fm_default fm_has_default].
      specialize (E (H f I)). unfold sfield in *. rewrite E. reflexivity.
  - destruct IH as [A B]. split; [exact A|]. intros H. now rewrite B.
Qed.

Lemma file_without_docs t u : bare t = bare u -> schema_from_namedtuple (schema_ron t) = schema_from_namedtuple (schema_ron u).
Proof.
  intros E. rewrite !from_ron. destruct (reread_bare t) as [A B], (reread_bare u) as [C D].
  assert (X : in_file t = in_file u) by (rewrite <- A, <- C, E; reflexivity). rewrite <- X in *. destruct (in_file t); [|reflexivity].
  rewrite <- B, <- D, E; reflexivity.
Qed.

Lemma same_class_bare D D' t s s' : materialize_docs D t = Ok s -> materialize_docs D' t = Ok s' -> bare s = bare s'.
Proof.
  intros A B. pose proof (materialize_bare D t) as X. pose proof (materialize_bare D' t) as Y. rewrite A in X. rewrite B in Y. cbn [rbind] in *. congruence.
Qed.

Lemma given_nil_last {A} (l : list A) : lasto l = None <-> l = [].
Proof.
  induction l as [|x l _] using rev_ind; [split; reflexivity|]. unfold lasto. rewrite map_app. cbn [map]. rewrite last_last. split; [discriminate|]. intros E. now apply app_eq_nil in E.
Qed.
Lemma lasto_in {A} (l : list A) x : lasto l = Some x -> In x l.
Proof.
  induction l as [|y l _] using rev_ind; [discriminate|]. unfold lasto. rewrite map_app. cbn [map]. rewrite last_last. intros E. injection E as ->. apply in_app_iff. right. now left.
Qed.
Lemma lasto_split {A} (l : list A) x : lasto l = Some x <-> exists r, l = (r ++ [x])%list.
Proof.
  split.
  - induction l as [|y l _] using rev_ind; [discriminate|]. unfold lasto. rewrite map_app. cbn [map]. rewrite last_last. intros E. injection E as ->. eauto.
  - intros (r & ->). unfold lasto. rewrite map_app. cbn [map]. apply last_last.
Qed.

Lemma described D t s k gs n f : materialize_docs D t = Ok s -> inside t s k gs -> In (n, f) gs ->
  (given (D k) n = [] /\ fm_doc (snd f) = None) \/
  exists before x, given (D k) n = (before ++ [x])%list /\ fm_doc (snd f) = Some x.
Proof.
  intros M I J. pose proof (materialize_inside D t s k gs I M n f J) as E. destruct (fm_doc (snd f)) as [x|].
  - right. symmetry in E. apply lasto_split in E. destruct E as (r & E). eauto.
  - left. symmetry in E. apply given_nil_last in E. auto.
Qed.
