(** ResolveFacts.v -- the proposed rules settle the report (C69). *)
From Coq Require Import Permutation.
From Verif Require Import Base Value Schema Rewrite Types FromDict Checker Induct AFacts SpecTree SpecRenames SpecCheck SpecResolve SchemaFacts RenameFacts FindFacts
  CheckFacts UpgradeFacts CompatFacts FixFacts MirrorFacts DocsFacts.

Definition info (c : change) : Prop := change_severity c = INFO.

(** ** Types *)
Lemma wrap_not_sub' o : forall i, plain_type o -> sty_eqb i o = true -> is_subtype o (SList i) = false.
Proof.
  induction o as [p|o IH|l IH|k v IHk IHv|l IH|nm fs ver IH|o IH|nm ms|l| ] using sty_ind'; intros i Fl Q; try (destruct Fl; fail);
    rewrite is_subtype_unfold; cbv zeta; cbn [sty_eqb]; try reflexivity.
  - now rewrite andb_false_r.
  - destruct i as [ |i| | | | | | | | ]; try discriminate Q. cbn [sty_eqb] in Q. rewrite (IH i Fl Q).
    destruct (sty_eqb o (SList i)) eqn:R; [|reflexivity]. exfalso. apply eqb_ldepth in R, Q. cbn [ldepth] in R. lia.
Qed.

Lemma sub_no_fix' p o n : plain_type o -> is_subtype o n = true -> match o, n with SLit _, SLit _ => False | _, _ => True end -> proposed_fix (TypeChanged p o n) = None.
Proof.
  intros Fl Q H. cbn [proposed_fix]. destruct (wraps_in_list n o) eqn:W.
  - exfalso. destruct n; try discriminate W. cbn in W. rewrite (wrap_not_sub' o _ Fl W) in Q. discriminate.
  - destruct n; try reflexivity. exfalso. rewrite is_subtype_unfold in Q. cbv zeta in Q. destruct o; try (destruct Fl; fail); try (destruct H; fail); cbn [sty_eqb] in Q; rewrite ?andb_false_r in Q; discriminate.
Qed.

Lemma set_minus_none a b : forallb (fun v => py_elem v b) a = true -> set_minus a b = [].
Proof.
  intros H. unfold set_minus. apply filter_none. intros x I. rewrite forallb_forall in H. now rewrite (H x I).
Qed.

Lemma enum_same ws vs path n : NoDup (map fst ws) -> NoDup (map fst vs) -> dict_eqb py_eq ws vs = true ->
  new_variants path n ws vs = [] /\ gone_variants path n ws vs = [].
Proof.
  intros Nw Nv Q. unfold dict_eqb in Q. apply andb_true_iff in Q. destruct Q as [L Q]. apply Nat.eqb_eq in L. rewrite forallb_forall in Q.
  assert (In1 : incl (map fst ws) (map fst vs)).
  { intros k I. apply in_map_iff in I. destruct I as ([k' x] & <- & I). specialize (Q _ I). cbn [fst snd] in *. destruct (aget k' vs) eqn:E; [|discriminate].
    eapply aget_some_inkeys; eauto. }
  assert (In2 : incl (map fst vs) (map fst ws)).
  { apply NoDup_length_incl; auto. rewrite !map_length. lia. }
  split; unfold new_variants, gone_variants.
  - apply flat_map_nil. intros [k y] I. cbn [fst snd]. assert (J : In k (map fst ws)) by (apply In2; apply in_map_iff; now exists (k, y)).
    apply in_map_iff in J. destruct J as ([k' x] & <- & J). cbn [fst] in *. rewrite (in_nodup_aget _ _ _ Nw J). specialize (Q _ J). cbn [fst snd] in Q.
    rewrite (in_nodup_aget _ _ _ Nv I) in Q. now rewrite Q.
  - apply flat_map_nil. intros [k y] I. cbn [fst snd]. replace (amem k vs) with true; [reflexivity|]. symmetry. apply amem_true. apply In1. apply in_map_iff. now exists (k, y).
Qed.

Lemma firm_eqb t : forall u path, firm t -> distinct_names t -> distinct_names u -> sty_eqb t u = true -> find_changes t u path = Ok [].
Proof.
  induction t as [p|o IH|l IH|k v IHk IHv|l IH|nm fs ver IH|o IH|nm ms|l| ] using sty_ind'; intros u path Fi Dt Du Q; try (destruct Fi; fail);
    destruct u; try discriminate Q; cbn [sty_eqb] in Q; cbn [find_changes].
  - now rewrite Q.
  - now apply IH.
  - apply andb_true_iff in Q. destruct Q as [_ Q]. destruct (enum_same ms variants path name) as [-> ->]; auto.
  - unfold set_eqb in Q. apply andb_true_iff in Q. destruct Q as [Q1 Q2]. unfold literal_changes. now rewrite !set_minus_none.
Qed.

Lemma firm_info t : forall u path, firm t -> plain_type t -> plain_type u -> distinct_names t -> distinct_names u -> is_subtype t u = true ->
  exists cs, find_changes t u path = Ok cs /\ forall c, In c cs -> info c.
Proof.
  induction t as [p|o IH|l IH|k v IHk IHv|l IH|nm fs ver IH|o IH|nm ms|l| ] using sty_ind'; intros u path Fi Pt Pu Dt Du Q; try (destruct Fi; fail);
    (assert (TC : forall cs, cs = [TypeChanged path _ u] -> forall c, In c cs -> info c)
      by (intros cs -> c [<-|[]]; unfold info; cbn [change_severity]; rewrite Q; reflexivity)).
  - destruct u as [q| | | | | | | | | ]; cbn [find_changes]; try (eexists; split; [reflexivity|now apply TC]). destruct (String.eqb p q); eexists; (split; [reflexivity|]); [intros c []|now apply TC].
  - destruct u as [ |j| | | | | | | | ]; cbn [find_changes]; try (eexists; split; [reflexivity|now apply TC]).
    rewrite is_subtype_unfold in Q. cbv zeta in Q. cbn [sty_eqb] in Q. rewrite orb_false_r in Q. apply orb_true_iff in Q. destruct Q as [Q|Q].
    + exists []. split; [now apply firm_eqb|intros c []].
    + now apply IH.
  - destruct u as [ | | | | | | |n' vs| | ]; cbn [find_changes]; try (eexists; split; [reflexivity|now apply TC]). clear TC.
    rewrite is_subtype_unfold in Q. cbv zeta in Q. rewrite orb_false_r in Q. apply andb_true_iff in Q. destruct Q as [_ Q]. rewrite forallb_forall in Q.
    eexists. split; [reflexivity|]. intros c I. apply in_app_or in I. destruct I as [I|I]; apply in_flat_map in I; destruct I as ([v x] & J & I); cbn [fst snd] in I.
    + destruct (aget v ms) as [w|] eqn:G; [|destruct I as [<-|[]]; reflexivity]. exfalso.
      apply aget_some_in in G. specialize (Q _ G). cbn [fst snd] in Q. rewrite (in_nodup_aget _ _ _ Du J) in Q.
      rewrite (py_eq_sym x w) in I; [destruct I| |  |exact Q]; [apply (Pu _ _ J)|apply (Pt _ _ G)].
    + exfalso. specialize (Q _ J). cbn [fst snd] in Q. unfold amem in I. destruct (aget v vs); [destruct I|discriminate].
  - destruct u as [ | | | | | | | |vs| ]; cbn [find_changes]; try (eexists; split; [reflexivity|now apply TC]). clear TC.
    rewrite is_subtype_unfold in Q. cbv zeta in Q. rewrite !orb_false_r in Q. eexists. split; [reflexivity|]. intros c I. unfold literal_changes in I.
    rewrite (set_minus_none l vs) in I by exact Q. rewrite app_nil_r in I. destruct (set_minus vs l); [destruct I|]. destruct I as [<-|[]]. reflexivity.
Qed.

Lemma pair_info t u path : firm_pair t u -> plain_type t -> plain_type u -> distinct_names t -> distinct_names u -> is_subtype t u = true ->
  exists cs, find_changes t u path = Ok cs /\ forall c, In c cs -> info c.
Proof.
  intros Fp Pt Pu Dt Du Q. destruct t; try (apply firm_info; auto; fail). destruct Fp as (Fi & j & -> & Q'). cbn [find_changes]. apply firm_info; auto.
Qed.

(** the changes between types without sub-configs *)
Lemma leaf_changes' r : forall s path cs c, plain_type r -> find_changes s r path = Ok cs -> In c cs ->
  leaf_change path c /\ forall p o n, c = TypeChanged p o n -> cs = [TypeChanged path s r] \/ (sty_size o < sty_size s)%nat.
Proof.
  induction r as [p|r IH|l IH|k v IHk IHv|l IH|nm fs ver IH|r IH|nm ms|l| ] using sty_ind'; intros s path cs c D F I; try (destruct D; fail);
    assert (TC : forall s0 r0, cs = [TypeChanged path s0 r0] -> match s0, r0 with SLit _, SLit _ => False | _, _ => True end ->
       leaf_change path c /\ forall p o n, c = TypeChanged p o n -> cs = [TypeChanged path s0 r0] \/ (sty_size o < sty_size s0)%nat)
      by (intros s0 r0 -> G; destruct I as [<-|[]]; split; [split; auto|now left]);
    destruct s as [p'|si|sl|sk sv|sl|sn sf ver|si|sn svs|sl| ]; cbn [find_changes] in F; try discriminate F;
    try (injection F as <-; apply TC; [reflexivity|exact Logic.I]).
  - match type of F with context [String.eqb ?a ?b] => destruct (String.eqb a b) end; injection F as <-; [destruct I|apply TC; [reflexivity|exact Logic.I]].
  - clear TC. destruct (IH si path cs c D F I) as [A B]. split; [exact A|]. intros p o n Q. right. cbn [sty_size]. destruct (B p o n Q) as [->|L]; [|lia].
    destruct I as [<-|[]]. injection Q as -> -> ->. lia.
  - clear TC. destruct (IH si path cs c D F I) as [A B]. split; [exact A|]. intros p o n Q. right. cbn [sty_size]. destruct (B p o n Q) as [->|L]; [|lia].
    destruct I as [<-|[]]. injection Q as -> -> ->. lia.
  - injection F as <-. apply in_app_or in I. destruct I as [I|I]; apply in_flat_map in I; destruct I as ([k v] & J & I); cbn [fst snd] in I.
    + destruct (aget k svs); [destruct (py_eq _ _); [destruct I|]|]; destruct I as [<-|[]]; (split; [reflexivity|discriminate]).
    + destruct (amem k ms); [destruct I|]. destruct I as [<-|[]]. split; [reflexivity|discriminate].
  - injection F as <-. unfold literal_changes in I. apply in_app_or in I.
    destruct I as [I|I]; [destruct (set_minus l sl)|destruct (set_minus sl l)]; try destruct I as [<-|[]]; try destruct I; (split; [reflexivity|discriminate]).
Qed.

Lemma inner_plain r : forall s path cs p o n, plain_type r -> plain_type s -> find_changes s r path = Ok cs -> In (TypeChanged p o n) cs -> plain_type o.
Proof.
  induction r as [p|r IH|l IH|k v IHk IHv|l IH|nm fs ver IH|r IH|nm ms|l| ] using sty_ind'; intros s path cs p0 o n Dr D F I; try (destruct Dr; fail);
    destruct s as [p'|si|sl|sk sv|sl|sn sf ver|si|sn svs|sl| ]; try (destruct D; fail); cbn [find_changes] in F; try discriminate F;
    try (injection F as <-; destruct I as [I|[]]; injection I as _ <- _; exact D).
  - destruct (String.eqb p' p); injection F as <-; [destruct I|]. destruct I as [I|[]]. injection I as _ <- _. exact Logic.I.
  - apply (IH si path cs p0 o n); auto.
  - apply (IH si path cs p0 o n); auto.
  - injection F as <-. apply in_app_or in I. destruct I as [I|I]; apply in_flat_map in I; destruct I as ([k v] & J & I); cbn [fst snd] in I.
    + destruct (aget k svs); [destruct (py_eq _ _); [destruct I|]|]; destruct I as [I|[]]; discriminate.
    + destruct (amem k ms); [destruct I|]. destruct I as [I|[]]. discriminate.
  - injection F as <-. unfold literal_changes in I. apply in_app_or in I.
    destruct I as [I|I]; [destruct (set_minus l sl)|destruct (set_minus sl l)]; try (destruct I as [I|[]]; discriminate); destruct I.
Qed.

Lemma plain_struct t : plain_type t -> is_struct t = false.
Proof. destruct t; intros D; try reflexivity. destruct D. Qed.

(** ** Nothing removed, nothing renamed *)
Lemma renames_none is_added is_removed sim mk cs : (forall c, In c cs -> is_removed c = false) -> find_renames is_added is_removed sim mk cs = Ok cs.
Proof.
  intros H. unfold find_renames. cbv zeta. assert (E : filter (fun o : obj => is_removed (snd o)) (objects cs) = []).
  { apply filter_none. intros o I. apply H. apply (in_map snd) in I. now rewrite objects_snd in I. }
  unfold obj in *. rewrite E. cbn [length rename_loop best_pair snd rbind]. f_equal. apply objects_snd.
Qed.

Lemma info_compare old new cs : find_changes old new [] = Ok cs -> (forall c, In c cs -> info c) ->
  compare_schemas old new = Ok (mkChk old new cs (flat_map fixes cs)).
Proof.
  intros F H. unfold compare_schemas. rewrite F. cbn [rbind]. unfold find_field_renames, find_enum_variant_renames.
  rewrite renames_none by (intros c I; specialize (H c I); destruct c; try reflexivity; discriminate H). cbn [rbind].
  rewrite renames_none by (intros c I; specialize (H c I); destruct c; try reflexivity; discriminate H). reflexivity.
Qed.

(** ** Rules on the fields of one struct *)
Definition sstore : Type := list string -> option sfield.
Definition path_dec := list_eq_dec string_dec.
Definition sput (k : list string) (v : option sfield) (s : sstore) : sstore := fun j => if path_dec j k then v else s j.
Lemma sput_same k v s : sput k v s k = v.
Proof. unfold sput. now destruct (path_dec k k). Qed.
Lemma sput_other k v s j : j <> k -> sput k v s j = s j.
Proof. intros H. unfold sput. now destruct (path_dec j k). Qed.

Definition map_values (x y : pyval) (vs : list (string * pyval)) : list (string * pyval) :=
  map (fun kv => (fst kv, if py_eq (snd kv) x then y else snd kv)) vs.
Definition map_type (x y : pyval) (t : sty) : sty := match t with SEnum n vs => SEnum n (map_values x y vs) | _ => t end.

Definition sact (c : change) (s : sstore) : sstore :=
  match c with
  | FieldAdded p _ _ _ => match proposed_fix c with Some _ => sput p (Some (SNothing, mkF (last p "") VNone false None)) s | None => s end
  | FieldRemoved p _ _ _ => sput p None s
  | FieldRenamed p q => sput q (s p) (sput p None s)
  | DefaultValueChanged p _ y => sput p (option_map (fun f => with_default f y (fm_has_default (snd f))) (s p)) s
  | TypeChanged p _ (SLit l) => match proposed_fix c with Some _ => sput p (option_map (fun f => with_type f (SLit l)) (s p)) s | None => s end
  | EnumVariantValueChanged p _ _ x y => sput p (option_map (fun f => with_type f (map_type x y (fst f))) (s p)) s
  | _ => s
  end.

(** the rule can be applied, and does what [sact] says *)
Definition ready (c : change) (s : sstore) : Prop :=
  match c with
  | FieldAdded p _ _ _ => s p = None
  | FieldRemoved p _ _ _ => s p <> None
  | FieldRenamed p q => p <> q /\ s p <> None
  | DefaultValueChanged p o _ => exists f, s p = Some f /\ py_eq (fm_default (snd f)) o = true
  | TypeChanged p o n => proposed_fix c = None \/ exists l, n = SLit l /\ s p <> None
  | EnumVariantValueChanged p _ _ _ _ => s p <> None
  | DefaultValueRemoved _ _ | LiteralValuesRemoved _ _ => False
  | _ => True
  end.

Lemma map_variants_ok x y vs : map_variants (fun v => Ok (if py_eq v x then y else v)) vs = Ok (map_values x y vs).
Proof. induction vs as [|[k v] vs IH]; [reflexivity|]. cbn [map_variants rbind]. rewrite IH. reflexivity. Qed.

Lemma sact_ext c s s' : (forall i, s i = s' i) -> forall k, sact c s k = sact c s' k.
Proof.
  intros H k. assert (P : forall a v v' k, v = v' -> sput a v s k = sput a v' s' k) by (intros a v v' j ->; unfold sput; destruct (path_dec j a); auto).
  destruct c as [p t d h|p t d h|p q|p o n|p o|p o n|p e v x y|p e v x|p e v x|p e v w|p l|p l]; cbn [sact]; auto.
  - destruct (proposed_fix _); auto.
  - unfold sput. rewrite (H p). destruct (path_dec k q); auto. destruct (path_dec k p); auto.
  - apply P. now rewrite H.
  - destruct n; auto. destruct (proposed_fix _); auto. apply P. now rewrite H.
  - apply P. now rewrite H.
Qed.

Definition ckeys (c : change) : list (list string) := match c with FieldRenamed p q => [p; q] | _ => [kpath c] end.

Lemma sact_other c s k : ~ In k (ckeys c) -> sact c s k = s k.
Proof.
  intros H. destruct c as [p t d h|p t d h|p q|p o n|p o|p o n|p e v x y|p e v x|p e v x|p e v w|p l|p l]; cbn [sact]; auto;
    cbn in H; try (assert (k <> p) by (intros ->; apply H; now left)).
  - destruct (proposed_fix _); auto. now apply sput_other.
  - now apply sput_other.
  - rewrite !sput_other; auto.
  - now apply sput_other.
  - destruct n; auto. destruct (proposed_fix _); auto. now apply sput_other.
  - now apply sput_other.
Qed.

Definition sfin (cs : list change) (s : sstore) : sstore := fold_left (fun s c => sact c s) cs s.
Lemma sfin_app a b s : sfin (a ++ b) s = sfin b (sfin a s).
Proof. apply fold_left_app. Qed.
Lemma sfin_other cs k : forall s, (forall c, In c cs -> ~ In k (ckeys c)) -> sfin cs s k = s k.
Proof.
  induction cs as [|c cs IH]; intros s H; [reflexivity|]. cbn [sfin fold_left]. fold (sfin cs (sact c s)). rewrite IH.
  - apply sact_other. apply H. now left.
  - intros c' I. apply H. now right.
Qed.

Lemma forall2_impl {A B} (P Q : A -> B -> Prop) l m : (forall x y, P x y -> Q x y) -> Forall2 P l m -> Forall2 Q l m.
Proof. intros H. induction 1; constructor; auto. Qed.

(** [default_changes] at a path *)
Definition dch (p : list string) (old new : fmeta) : list change :=
  if negb (Bool.eqb (fm_has_default old) (fm_has_default new)) then
    if negb (fm_has_default new) then [DefaultValueRemoved p (fm_default old)] else []
  else if fm_has_default old && negb (py_eq (fm_default old) (fm_default new)) then [DefaultValueChanged p (fm_default old) (fm_default new)]
  else [].
Lemma dch_at path n old new : default_changes path n old new = dch (path ++ [n]) old new.
Proof. reflexivity. Qed.
Lemma dch_none p q old new : dch p old new = [] -> dch q old new = [].
Proof. unfold dch. destruct (negb _); [destruct (negb _)|destruct (_ && _)]; auto; discriminate. Qed.
Lemma dch_in p old new c : In c (dch p old new) -> kpath c = p /\ match c with DefaultValueChanged _ _ _ | DefaultValueRemoved _ _ => True | _ => False end.
Proof.
  unfold dch. intros I. repeat match type of I with In _ (if ?b then _ else _) => destruct b end; try destruct I as [<-|[]]; try destruct I; split; auto.
Qed.

Definition both (fs gs : list (string * (sty * fmeta))) (path p : list string) (f g : sty * fmeta) (inner : list change) : Prop :=
  field_at fs p = Some f /\ field_at gs p = Some g /\ find_changes (fst f) (fst g) (path ++ p) = Ok inner.

Definition source (fs gs : list (string * (sty * fmeta))) (path : list string) (c : change) : Prop :=
  match c with
  | FieldAdded p t d h => exists q g, p = (path ++ q)%list /\ field_at gs q = Some g /\ field_at fs q = None /\ t = fst g /\ d = fm_default (snd g) /\ h = fm_has_default (snd g)
  | FieldRemoved p t d h => exists q f, p = (path ++ q)%list /\ field_at fs q = Some f /\ field_at gs q = None /\ t = fst f /\ d = fm_default (snd f) /\ h = fm_has_default (snd f)
  | FieldRenamed _ _ | EnumVariantRenamed _ _ _ _ => False
  | _ => exists q f g inner, kpath c = (path ++ q)%list /\ both fs gs path q f g inner /\ In c (inner ++ dch (path ++ q) (snd f) (snd g))
  end.

Ltac scong := unfold sfield in *; congruence.

Section Settle.
  Variable fs gs : list (string * (sty * fmeta)).
  Hypothesis plain_f : forall n f, field_at fs n = Some f -> plain_type (fst f).
  Hypothesis plain_g : forall n g, field_at gs n = Some g -> plain_type (fst g).
  Hypothesis Df : forall n f, field_at fs n = Some f -> distinct_names (fst f).
  Hypothesis Dg : forall n g, field_at gs n = Some g -> distinct_names (fst g).
  Variable cs c2 c3 : list change.
  Definition both0 (n : list string) (f g : sty * fmeta) (inner : list change) : Prop :=
    field_at fs n = Some f /\ field_at gs n = Some g /\ find_changes (fst f) (fst g) n = Ok inner.
  Definition source0 (c : change) : Prop :=
    match c with
    | FieldAdded p t d h => exists n g, p = n /\ field_at gs n = Some g /\ field_at fs n = None /\ t = fst g /\ d = fm_default (snd g) /\ h = fm_has_default (snd g)
    | FieldRemoved p t d h => exists n f, p = n /\ field_at fs n = Some f /\ field_at gs n = None /\ t = fst f /\ d = fm_default (snd f) /\ h = fm_has_default (snd f)
    | FieldRenamed _ _ | EnumVariantRenamed _ _ _ _ => False
    | _ => exists n f g inner, kpath c = n /\ both0 n f g inner /\ In c (inner ++ dch n (snd f) (snd g))
    end.
  Hypothesis raw : forall c, In c cs -> source0 c.
  Hypothesis both_in : forall n f g, field_at fs n = Some f -> field_at gs n = Some g ->
    exists inner, both0 n f g inner /\ incl (inner ++ dch n (snd f) (snd g)) cs.
  Hypothesis fresh_in : forall n g, field_at fs n = None -> field_at gs n = Some g -> In (FieldAdded n (fst g) (fm_default (snd g)) (fm_has_default (snd g))) cs.
  Hypothesis gone_in : forall n f, field_at fs n = Some f -> field_at gs n = None -> In (FieldRemoved n (fst f) (fm_default (snd f)) (fm_has_default (snd f))) cs.
  Hypothesis Nk : NoDup (map change_key cs).
  Hypothesis M2 : matching is_FieldAdded is_FieldRemoved field_similarity field_renamed cs c2.
  Hypothesis M3 : matching is_VariantAdded is_VariantRemoved enum_similarity enum_renamed c2 c3.
  Hypothesis Sev : forall c, In c c3 -> change_severity c <> ERROR.
  Hypothesis St : forall c, In c c3 -> settled fs gs c.

  (** no variant of an enum was lost *)
  Lemma no_lost p e v x : ~ In (EnumVariantRemoved p e v x) cs.
  Proof.
    intros I. pose proof (raw _ I) as (n & f & g & inner & P & (Ef & Eg & Fi) & J). cbn in P. subst p.
    assert (G : ~ exists e' y, settled fs gs (EnumVariantValueChanged n e' v x y)).
    { intros (e' & y & e0 & ws & m & e1 & vs & m' & If & Ig & V & _). rewrite If in Ef. injection Ef as <-. rewrite Ig in Eg. injection Eg as <-.
      cbn [fst snd find_changes] in *. injection Fi as <-. apply in_app_or in J. destruct J as [J|J].
      - apply in_app_or in J. destruct J as [J|J]; apply in_flat_map in J; destruct J as ([w z] & K & J); cbn [fst snd] in J.
        + destruct (aget w ws); [destruct (py_eq _ _)|]; try destruct J as [J|[]]; try (destruct J; fail); discriminate.
        + destruct (amem w vs) eqn:A; [destruct J|]. destruct J as [J|[]]. injection J as _ <- _. apply amem_false in A. now apply A.
      - unfold dch in J. repeat match type of J with In _ (if ?b then _ else _) => destruct b end; try (destruct J as [J|[]]); try (destruct J; fail); discriminate. }
    destruct (report_fate cs c2 c3 _ _ M2 M3 _ I) as [K|[(rr & aa & (_ & _ & Q1 & Q2 & _) & K & D)|(rr & aa & R & K & D)]].
    - apply (St _ K).
    - destruct D as [<-|<-]; discriminate.
    - destruct R as (R1 & R2 & Q1 & Q2 & _). destruct D as [<-|<-]; [|discriminate Q2]. destruct aa as [| | | | | | | |p' e' v' x'| | | ]; try discriminate Q2.
      cbn [enum_renamed] in K. destruct (py_eq x x'); cbn [negb] in K; [apply (St _ K)|]. apply G. exists e', x'. apply (St _ K).
  Qed.

  Lemma reported c : In c c3 -> In c cs \/ exists a b f g, c = FieldRenamed a b /\ field_at fs a = Some f /\ field_at gs a = None /\ field_at gs b = Some g /\ field_at fs b = None /\
    is_subtype (fst f) (fst g) = true /\ fm_has_default (snd f) = fm_has_default (snd g) /\ py_eq (fm_default (snd f)) (fm_default (snd g)) = true.
  Proof.
    intros I. destruct (report_origin cs c2 c3 _ _ M2 M3 c I) as [J|[(rr & aa & R & A & Q1 & Q2 & Sm & ->)|(rr & aa & R & A & Q1 & Q2 & ->)]]; [now left| |].
    - right. destruct rr as [|pr tr dr hr| | | | | | | | | | ]; try discriminate Q1. destruct aa as [pa ta da ha| | | | | | | | | | | ]; try discriminate Q2.
      pose proof (raw _ R) as (a & f & -> & Ef & Eg & -> & -> & ->). pose proof (raw _ A) as (b & g & -> & Eg' & Ef' & -> & -> & ->).
      exists a, b, f, g. cbn [field_renamed]. split; [reflexivity|]. repeat (split; [assumption|]). destruct Sm as (x & Sm & _). cbn [field_similarity] in Sm.
      destruct (is_subtype (fst f) (fst g)); [|discriminate]. destruct (Bool.eqb (fm_has_default (snd f)) _) eqn:B; [|discriminate]. apply Bool.eqb_prop in B.
      destruct (py_eq (fm_default (snd f)) _); [auto|discriminate].
    - exfalso. destruct rr as [| | | | | | |p e v x| | | | ]; try discriminate Q1. now apply no_lost in R.
  Qed.

  Lemma kept_reported c : In c cs -> is_FieldAdded c = false -> is_FieldRemoved c = false -> In c c3.
  Proof.
    intros I A R. destruct (report_fate cs c2 c3 _ _ M2 M3 _ I) as [K|[(rr & aa & (_ & _ & Q1 & Q2 & _) & K & D)|(rr & aa & (R1 & _ & Q1 & Q2 & _) & K & D)]]; [exact K| |].
    - destruct D as [<-|<-]; scong.
    - exfalso. destruct rr as [| | | | | | |p e v x| | | | ]; try discriminate Q1. now apply no_lost in R1.
  Qed.

  Lemma defaults_in n f g inner c : both0 n f g inner -> In c (inner ++ dch n (snd f) (snd g)) -> is_FieldAdded c = false /\ is_FieldRemoved c = false.
  Proof.
    intros (Ef & Eg & Fi) I. apply in_app_or in I. destruct I as [I|I].
    - destruct (leaf_changes' _ _ _ _ c (plain_g _ _ Eg) Fi I) as [L _]. destruct c; try (destruct L; fail); auto.
    - unfold dch in I. repeat match type of I with In _ (if ?b then _ else _) => destruct b end; try (destruct I as [<-|[]]); try (destruct I; fail); auto.
  Qed.

  Definition one_side (k : list string) : Prop := (field_at fs k = None /\ field_at gs k <> None) \/ (field_at fs k <> None /\ field_at gs k = None).

  (** which fields a change is about *)
  Lemma places c : In c c3 ->
    (ftouch c = ckeys c /\ forall k, In k (ckeys c) -> one_side k) \/
    (ftouch c = [] /\ exists n f g inner, ckeys c = [n] /\ both0 n f g inner /\ In c (inner ++ dch n (snd f) (snd g)) /\ In c cs).
  Proof.
    intros I. destruct (reported c I) as [J|(a & b & f & g & -> & Ef & Eg & Eg' & Ef' & _)].
    - pose proof (raw c J) as R.
      destruct c; try (destruct R; fail);
        try (right; destruct R as (n & f & g & inner & P & B & K); split; [reflexivity|]; exists n, f, g, inner; split; [rewrite <- P; reflexivity|]; auto; fail).
      + destruct R as (n & g & -> & Eg & Ef & _). left. split; [reflexivity|]. intros k Ik; cbn in Ik; destruct Ik as [<-|[]]. left. split; [exact Ef|scong].
      + destruct R as (n & f & -> & Ef & Eg & _). left. split; [reflexivity|]. intros k Ik; cbn in Ik; destruct Ik as [<-|[]]. right. split; [scong|exact Eg].
    - left. split; [reflexivity|]. intros k [<-|[<-|[]]]; [right|left]; (split; scong).
  Qed.

  Lemma touches_once : NoDup (flat_map ftouch c3).
  Proof.
    eapply Permutation_NoDup; [apply (ftouch_c3 cs c2 c3 _ _ M2 M3)|]. apply (nodup_flat change_key).
    - exact Nk.
    - intros x X. apply raw in X. destruct x; try (destruct X; fail); cbn [ftouch]; repeat constructor; intros [].
    - intros x y z X Y Zx Zy. pose proof (raw x X) as Ox. pose proof (raw y Y) as Oy.
      destruct x; try (destruct Zx; fail); try (destruct Ox; fail); destruct y; try (destruct Zy; fail); try (destruct Oy; fail);
        destruct Zx as [<-|[]]; destruct Zy as [->|[]]; auto; exfalso;
        destruct Ox as (n & f & <- & G & N & _); destruct Oy as (n' & f' & <- & G' & N' & _); scong.
  Qed.

  Lemma others_free c l1 l2 k : c3 = (l1 ++ c :: l2)%list -> In k (ftouch c) -> forall c', In c' (l1 ++ l2)%list -> ~ In k (ckeys c').
  Proof.
    intros Ec Ik c' J T. pose proof touches_once as N. rewrite Ec in N. rewrite flat_map_app in N. cbn [flat_map] in N.
    assert (Ic : In c c3) by (rewrite Ec; apply in_or_app; right; now left).
    assert (Ic' : In c' c3) by (rewrite Ec; apply in_app_or in J; apply in_or_app; destruct J; [now left|right; now right]).
    assert (O : one_side k).
    { destruct (places c Ic) as [[E O]|[E _]]; rewrite E in Ik; [auto|destruct Ik]. }
    destruct (places c' Ic') as [[E _]|(_ & n & f & g & inner & E & (Ef & Eg & _) & _)].
    - assert (D : In k (ftouch c')) by (rewrite E; exact T).
      assert (Dd : In k (flat_map ftouch l1) \/ In k (flat_map ftouch l2)).
      { apply in_app_or in J. destruct J as [J|J]; [left|right]; apply in_flat_map; eauto. }
      destruct Dd as [Dd|Dd].
      + apply in_split in Dd. destruct Dd as (x & y & Dd). rewrite Dd in N. rewrite <- app_assoc in N. apply NoDup_remove_2 in N. apply N.
        apply in_or_app. right. apply in_or_app. right. apply in_or_app. now left.
      + rewrite app_assoc in N. apply in_split in Ik. destruct Ik as (x & y & Ik). rewrite Ik in N.
        replace ((flat_map ftouch l1 ++ x ++ k :: y) ++ flat_map ftouch l2)%list with ((flat_map ftouch l1 ++ x) ++ k :: (y ++ flat_map ftouch l2))%list in N by (rewrite <- !app_assoc; reflexivity).
        apply NoDup_remove_2 in N. apply N. apply in_or_app. right. apply in_or_app. now right.
    - rewrite E in T. destruct T as [->|[]]. destruct O as [[O _]|[_ O]]; scong.
  Qed.

  (** a field of both schemas after some of the rules *)
  Definition value_now (l : list change) (n : list string) (w : string) (z z' : pyval) : Prop :=
    (z' = z /\ forall e x y, ~ In (EnumVariantValueChanged n e w x y) l) \/ exists e x y, In (EnumVariantValueChanged n e w x y) l /\ z' = y.
  Definition enum_now (l : list change) (n : list string) (ws ws' : list (string * pyval)) : Prop :=
    Forall2 (fun kv kv' => fst kv' = fst kv /\ value_now l n (fst kv) (snd kv) (snd kv')) ws ws'.
  Definition type_now (l : list change) (n : list string) (t t' : sty) : Prop :=
    (t' = t /\ (forall e w x y, ~ In (EnumVariantValueChanged n e w x y) l) /\ forall o v, In (TypeChanged n o (SLit v)) l -> is_subtype o (SLit v) = true) \/
    (exists o v, In (TypeChanged n o (SLit v)) l /\ is_subtype o (SLit v) = false /\ t' = SLit v) \/
    (exists e ws ws', t = SEnum e ws /\ t' = SEnum e ws' /\ enum_now l n ws ws' /\ exists e' w x y, In (EnumVariantValueChanged n e' w x y) l).
  Definition default_now (l : list change) (n : list string) (m m' : fmeta) : Prop :=
    fm_has_default m' = fm_has_default m /\
    ((fm_default m' = fm_default m /\ forall o y, ~ In (DefaultValueChanged n o y) l) \/ exists o y, In (DefaultValueChanged n o y) l /\ fm_default m' = y).
  Definition now (l : list change) (n : list string) (f : sty * fmeta) (s : sstore) : Prop :=
    exists t' m', s n = Some (t', m') /\ type_now l n (fst f) t' /\ default_now l n (snd f) m'.
  Lemma in_snoc {A} (x y : A) l : In x (l ++ [y])%list -> In x l \/ x = y.
  Proof. intros I. apply in_app_or in I. destruct I as [I|[->|[]]]; auto. Qed.

  Lemma value_mono l c n w z z' : value_now l n w z z' -> (forall e x y, c <> EnumVariantValueChanged n e w x y) -> value_now (l ++ [c]) n w z z'.
  Proof.
    intros [[-> H]|(e & x & y & I & ->)] D.
    - left. split; [reflexivity|]. intros e x y J. apply in_snoc in J. destruct J as [J|J]; [now apply H in J|now apply (D e x y)].
    - right. exists e, x, y. split; [apply in_or_app; now left|reflexivity].
  Qed.

  Lemma type_mono l c n t t' : type_now l n t t' -> (forall e w x y, c <> EnumVariantValueChanged n e w x y) ->
    (forall o v, c = TypeChanged n o (SLit v) -> is_subtype o (SLit v) = true) -> type_now (l ++ [c]) n t t'.
  Proof.
    intros [(-> & A & B)|[(o & v & I & Q & ->)|(e & ws & ws' & -> & -> & H & e' & w & x & y & I)]] D1 D2.
    - left. split; [reflexivity|]. split.
      + intros e w x y J. apply in_snoc in J. destruct J as [J|J]; [now apply A in J|now apply (D1 e w x y)].
      + intros o v J. apply in_snoc in J. destruct J as [J|J]; [now apply B|now apply D2].
    - right. left. exists o, v. split; [apply in_or_app; now left|auto].
    - right. right. exists e, ws, ws'. split; [reflexivity|]. split; [reflexivity|].
      split; [|exists e', w, x, y; apply in_or_app; now left]. eapply forall2_impl; [|exact H]. intros kv kv' [E V]. split; [exact E|].
      apply value_mono; auto.
  Qed.

  Lemma default_mono l c n m m' : default_now l n m m' -> (forall o y, c <> DefaultValueChanged n o y) -> default_now (l ++ [c]) n m m'.
  Proof.
    intros [H [[Q A]|(o & y & I & Q)]] D; (split; [exact H|]).
    - left. split; [exact Q|]. intros o y J. apply in_snoc in J. destruct J as [J|J]; [now apply A in J|now apply (D o y)].
    - right. exists o, y. split; [apply in_or_app; now left|exact Q].
  Qed.

  (** where the changes with a rule come from *)
  Lemma value_source n e v x y : In (EnumVariantValueChanged n e v x y) c3 ->
    exists e0 ws m vs m', field_at fs n = Some (SEnum e0 ws, m) /\ field_at gs n = Some (SEnum e vs, m') /\ aget v ws = Some x /\ aget v vs = Some y /\
      py_eq x x = true /\ py_eq y y = true /\ (forall w z, In (w, z) ws -> py_eq y z = false /\ (w <> v -> py_eq z x = false)) /\ NoDup (map fst ws) /\ NoDup (map fst vs).
  Proof.
    intros I. pose proof (St _ I) as (e0 & ws & m & e1 & vs & m' & Ef & Eg & V & Ex & Ey & H).
    pose proof (Df _ _ Ef) as Dw. pose proof (Dg _ _ Eg) as Dv. cbn in Dw, Dv.
    destruct (reported _ I) as [J|(? & ? & ? & ? & Q & _)]; [|discriminate].
    pose proof (raw _ J) as (n' & f & g & inner & P & (Ef' & Eg' & Fi) & K). cbn in P. subst n'. rewrite Ef in Ef'. injection Ef' as <-. rewrite Eg in Eg'. injection Eg' as <-.
    cbn [fst snd find_changes] in *. injection Fi as <-. apply in_app_or in K. destruct K as [K|K].
    - apply in_app_or in K. destruct K as [K|K]; apply in_flat_map in K; destruct K as ([w z] & Iw & K); cbn [fst snd] in K.
      + destruct (aget w ws) as [z0|] eqn:G.
        * destruct (py_eq z0 z); [destruct K|]. destruct K as [K|[]]. injection K as <- <- <- <-. exists e0, ws, m, vs, m'. pose proof (in_nodup_aget _ _ _ Dv Iw). auto 12.
        * destruct K as [K|[]]. discriminate K.
      + destruct (amem w vs); [destruct K|]. destruct K as [K|[]]. discriminate K.
    - unfold dch in K. repeat match type of K with In _ (if ?b then _ else _) => destruct b end; try (destruct K as [K|[]]); try (destruct K; fail); discriminate.
  Qed.

  Lemma type_source n o r : In (TypeChanged n o r) c3 -> is_subtype o r = false ->
    exists v m m', r = SLit v /\ field_at fs n = Some (o, m) /\ field_at gs n = Some (SLit v, m').
  Proof.
    intros I Q. destruct (St _ I) as [S1|(v & m & -> & Ef)]; [scong|].
    destruct (reported _ I) as [J|(? & ? & ? & ? & Q' & _)]; [|discriminate].
    pose proof (raw _ J) as (n' & f & [gt gm] & inner & P & (Ef' & Eg' & Fi) & K). cbn in P. subst n'. rewrite Ef in Ef'. injection Ef' as <-. cbn [fst snd] in *.
    apply in_app_or in K. destruct K as [K|K].
    - destruct (leaf_changes' gt o n inner _ (plain_g _ _ Eg') Fi K) as [_ L]. destruct (L _ _ _ eq_refl) as [->|L']; [|lia].
      destruct K as [K|[]]. injection K as ->. exists v, m, gm. auto.
    - unfold dch in K. repeat match type of K with In _ (if ?b then _ else _) => destruct b end; try (destruct K as [K|[]]); try (destruct K; fail); discriminate.
  Qed.

  Lemma type_fixless n o r : In (TypeChanged n o r) c3 -> is_subtype o r = true -> proposed_fix (TypeChanged n o r) = None.
  Proof.
    intros I Q. destruct (reported _ I) as [J|(? & ? & ? & ? & Q' & _)]; [|discriminate]. pose proof (raw _ J) as (n0 & f & g & inner & P & (Ef & Eg & Fi) & K).
    apply in_app_or in K. destruct K as [K|K].
    - apply sub_no_fix'; [|exact Q|].
      + eapply inner_plain; [apply (plain_g _ _ Eg)|apply (plain_f _ _ Ef)|exact Fi|exact K].
      + now destruct (leaf_changes' _ _ _ _ _ (plain_g _ _ Eg) Fi K) as [[_ L] _].
    - unfold dch in K. repeat match type of K with In _ (if ?b then _ else _) => destruct b end; try (destruct K as [K|[]]); try (destruct K; fail); discriminate.
  Qed.

  Lemma default_source n o y : In (DefaultValueChanged n o y) c3 ->
    exists f g, field_at fs n = Some f /\ field_at gs n = Some g /\ o = fm_default (snd f) /\ y = fm_default (snd g) /\ py_eq o o = true /\ py_eq y y = true.
  Proof.
    intros I. destruct (St _ I) as (_ & Ho & Hy). destruct (reported _ I) as [J|(? & ? & ? & ? & Q' & _)]; [|discriminate].
    pose proof (raw _ J) as (n' & f & g & inner & P & (Ef & Eg & Fi) & K). cbn in P. subst n'. exists f, g. split; [exact Ef|]. split; [exact Eg|].
    apply in_app_or in K. destruct K as [K|K].
    - destruct (leaf_changes' _ _ n inner _ (plain_g _ _ Eg) Fi K) as [[] _].
    - unfold dch in K. repeat match type of K with In _ (if ?b then _ else _) => destruct b end; try (destruct K as [K|[]]); try (destruct K; fail); try discriminate.
      injection K as <- <-. auto.
  Qed.

  (** a default is changed at most once *)
  Lemma default_once l1 l2 n o y o' y' : c3 = (l1 ++ DefaultValueChanged n o y :: l2)%list -> ~ In (DefaultValueChanged n o' y') l1.
  Proof.
    intros Ec I. pose (P := fun c => match c with DefaultValueChanged _ _ _ => true | _ => false end).
    assert (Pm : Permutation (filter P cs) (filter P c3)).
    { transitivity (filter P c2).
      - destruct M2 as (ps & rest & E2 & Pe & _ & H & _). rewrite E2, (filter_perm P _ _ Pe), !filter_app. apply Permutation_app_head.
        rewrite !(filter_none P); [constructor| | |]; intros x X; apply in_map_iff in X; destruct X as ([rr aa] & <- & X); destruct (H _ _ X) as (R & A & _);
          cbn [fst snd] in *; destruct rr; try discriminate R; destruct aa; try discriminate A; reflexivity.
      - destruct M3 as (ps & rest & E3 & Pe & _ & H & _). rewrite E3, (filter_perm P _ _ Pe), !filter_app. apply Permutation_app_head.
        rewrite !(filter_none P); [constructor| | |]; intros x X; apply in_map_iff in X; destruct X as ([rr aa] & <- & X); destruct (H _ _ X) as (R & A & _);
          cbn [fst snd] in *; destruct rr; try discriminate R; destruct aa; try discriminate A; cbn; try destruct (py_eq _ _); reflexivity. }
    apply (Permutation_map change_key) in Pm. pose proof (nodup_filter_keys cs P Nk) as N. apply (Permutation_NoDup Pm) in N.
    rewrite Ec, filter_app in N. cbn [filter P] in N. rewrite map_app in N. cbn [map change_key] in N. apply NoDup_remove_2 in N. apply N. apply in_or_app. left.
    apply in_map_iff. exists (DefaultValueChanged n o' y'). split; [reflexivity|]. apply filter_In. auto.
  Qed.

  Lemma enum_step l n e v x y ws ws' : py_eq x x = true -> aget v ws = Some x -> NoDup (map fst ws) ->
    (forall w z, In (w, z) ws -> py_eq y z = false /\ (w <> v -> py_eq z x = false)) ->
    (forall e' w x' y', In (EnumVariantValueChanged n e' w x' y') l -> (w = v -> y' = y) /\ py_eq y' x = false) ->
    enum_now l n ws ws' -> enum_now (l ++ [EnumVariantValueChanged n e v x y]) n ws (map_values x y ws').
  Proof.
    intros Ex Gv Nw H Hl En. set (c := EnumVariantValueChanged n e v x y). unfold map_values.
    assert (G : forall ws0 ws0', enum_now l n ws0 ws0' -> incl ws0 ws -> enum_now (l ++ [c]) n ws0 (map (fun kv => (fst kv, if py_eq (snd kv) x then y else snd kv)) ws0')).
    { clear En ws'. intros ws0 ws0' En. induction En as [|[k z] [k' z'] r r' [E V] En IH]; intros Inc; [constructor|]. cbn [map fst snd] in *. subst k'.
      constructor; [|apply IH; intros kv I; apply Inc; now right]. cbn [fst snd]. split; [reflexivity|].
      assert (Iw : In (k, z) ws) by (apply Inc; now left).
      destruct (string_dec k v) as [->|Nv].
      - right. exists e, x, y. split; [apply in_or_app; right; now left|]. rewrite (in_nodup_aget _ _ _ Nw Iw) in Gv. injection Gv as ->.
        destruct V as [[-> _]|(e' & x' & y' & J & ->)]; [now rewrite Ex|]. destruct (Hl _ _ _ _ J) as [Q _]. rewrite (Q eq_refl). now destruct (py_eq y x).
      - assert (V' : value_now (l ++ [c]) n k z z') by (apply value_mono; [exact V|]; intros e' x' y' Q; injection Q as _ Q _ _; scong).
        replace (if py_eq z' x then y else z') with z'; [exact V'|].
        destruct V as [[-> _]|(e' & x' & y' & J & ->)].
        + destruct (H _ _ Iw) as [_ Q]. now rewrite (Q Nv).
        + destruct (Hl _ _ _ _ J) as [_ Q]. now rewrite Q. }
    apply G; [exact En|apply incl_refl].
  Qed.

  Lemma enum_start l n ws : (forall e w x y, ~ In (EnumVariantValueChanged n e w x y) l) -> enum_now l n ws ws.
  Proof. intros H. induction ws as [|kv ws IH]; constructor; [|exact IH]. split; [reflexivity|]. left. split; [reflexivity|]. intros. apply H. Qed.

  Lemma now_step l1 c l2 n f g s : c3 = (l1 ++ c :: l2)%list -> field_at fs n = Some f -> field_at gs n = Some g -> now l1 n f s -> now (l1 ++ [c]) n f (sact c s).
  Proof.
    intros Ec Ef Eg (t' & m' & Es & Ty & De). assert (Ic : In c c3) by (rewrite Ec; apply in_or_app; right; now left).
    assert (Il : forall c', In c' l1 -> In c' c3) by (intros c' I; rewrite Ec; apply in_or_app; now left).
    assert (Same : (forall e w x y, c <> EnumVariantValueChanged n e w x y) -> (forall o v, c = TypeChanged n o (SLit v) -> is_subtype o (SLit v) = true) ->
      (forall o y, c <> DefaultValueChanged n o y) -> sact c s n = s n -> now (l1 ++ [c]) n f (sact c s)).
    { intros A B C D. exists t', m'. rewrite D. split; [exact Es|]. split; [now apply type_mono|now apply default_mono]. }
    destruct (in_dec path_dec n (ckeys c)) as [I|I].
    2:{ apply Same; try (intros; intros ->; apply I; now left); [|now apply sact_other]. intros o v ->. exfalso. apply I. now left. }
    destruct (places c Ic) as [[_ O]|(E0 & n' & f' & g' & inner & E & _)].
    { exfalso. destruct (O n I) as [[Q _]|[_ Q]]; scong. }
    rewrite E in I. destruct I as [<-|[]].
    destruct c as [p t d h|p t d h|p q|p o y|p o|p o r|p e v x y|p e v x|p e v x|p e v w|p l|p l]; try discriminate E0; cbn in E; try (injection E as E; subst p);
      try (apply Same; [discriminate|discriminate|discriminate|reflexivity]); try (destruct (St _ Ic); fail).
    - (* ChangeDefault *)
      exists t'. eexists. cbn [sact]. rewrite sput_same, Es. cbn [option_map with_default fst snd]. split; [reflexivity|].
      split; [apply type_mono; [exact Ty|discriminate|discriminate]|]. split; [apply De|]. right. exists o, y. split; [apply in_or_app; right; now left|reflexivity].
    - (* CheckValue *)
      destruct (is_subtype o r) eqn:Q.
      + apply Same; try discriminate; [intros o' v Z; now injection Z as <- ->|]. cbn [sact]. destruct r; auto. now rewrite type_fixless.
      + destruct (type_source _ _ _ Ic Q) as (v & m0 & m1 & -> & _). cbn [sact proposed_fix wraps_in_list]. exists (SLit v), m'.
        rewrite sput_same, Es. split; [reflexivity|]. split; [|now apply default_mono]. right. left. exists o, v. split; [apply in_or_app; right; now left|auto].
    - (* MapFieldValue *)
      destruct (value_source _ _ _ _ _ Ic) as (e0 & ws & m0 & vs & m1 & Ef1 & Eg1 & Gx & Gy & Ex & Ey & H & Nw & Nv). rewrite Ef in Ef1. injection Ef1 as ->.
      rewrite Eg in Eg1. injection Eg1 as ->. cbn [fst snd] in *.
      assert (T3 : exists ws', t' = SEnum e0 ws' /\ enum_now l1 n' ws ws').
      { destruct Ty as [(-> & A & _)|[(o & lv & I & Q & _)|(e1 & w1 & ws' & Q & -> & En & _)]].
        - exists ws. split; [reflexivity|now apply enum_start].
        - exfalso. destruct (type_source _ _ _ (Il _ I) Q) as (v' & ma & mb & _ & _ & Eg2). scong.
        - injection Q as <- <-. eauto. }
      destruct T3 as (ws' & -> & En). exists (SEnum e0 (map_values x y ws')), m'. cbn [sact]. rewrite sput_same, Es. split; [reflexivity|]. split; [|now apply default_mono].
      right. right. exists e0, ws, (map_values x y ws'). split; [reflexivity|]. split; [reflexivity|].
      split; [|exists e, v, x, y; apply in_or_app; right; now left]. apply enum_step; auto.
      intros e' w x' y' J. destruct (value_source _ _ _ _ _ (Il _ J)) as (e1 & ws1 & ma & vs1 & mb & Ef1 & Eg1 & Gx' & Gy' & _ & _ & H' & _).
      rewrite Ef in Ef1. injection Ef1 as _ <- _. rewrite Eg in Eg1. injection Eg1 as _ <- _. split; [intros ->; scong|]. apply (H' v). now apply aget_some_in.
  Qed.
  Let s0 : sstore := field_at fs.

  Lemma now_prefix n f g : field_at fs n = Some f -> field_at gs n = Some g -> forall l l', c3 = (l ++ l')%list -> now l n f (sfin l s0).
  Proof.
    intros Ef Eg. induction l as [|c l IH] using rev_ind; intros l' Ec.
    - destruct f as [t m]. exists t, m. split; [exact Ef|]. split; [left|]; repeat split; auto; intros o v [].
    - rewrite sfin_app. cbn [sfin fold_left]. rewrite <- app_assoc in Ec. apply (now_step l c l' n f g); auto. apply (IH (c :: l')). exact Ec.
  Qed.

  Lemma ready_at c l1 l2 : c3 = (l1 ++ c :: l2)%list -> ready c (sfin l1 s0).
  Proof.
    intros Ec. assert (Ic : In c c3) by (rewrite Ec; apply in_or_app; right; now left).
    assert (Old : forall k, In k (ftouch c) -> sfin l1 s0 k = field_at fs k).
    { intros k Ik. rewrite sfin_other; [reflexivity|]. intros c' J. apply (others_free c l1 l2 k Ec Ik). apply in_or_app. now left. }
    destruct (reported c Ic) as [J|(a & b & f & g & -> & Ef & Eg & Eg' & Ef' & _)].
    2:{ split; [intros ->; scong|]. rewrite Old by now left. scong. }
    pose proof (raw c J) as R.
    destruct c as [p t d h|p t d h|p q|p o y|p o|p o r|p e v x y|p e v x|p e v x|p e v w|p l|p l]; cbn [ready]; try exact Logic.I; try (destruct R; fail); try (destruct (St _ Ic); fail).
    - destruct R as (n & g & -> & _ & Ef & _). rewrite Old by now left. exact Ef.
    - destruct R as (n & f & -> & Ef & _). rewrite Old by now left. scong.
    - destruct R as (n & f & g & inner & P & _). cbn in P. subst p. destruct (default_source _ _ _ Ic) as (f1 & g1 & Ef & Eg & -> & -> & Ho & _).
      destruct (now_prefix n f1 g1 Ef Eg l1 _ Ec) as (t' & m' & Es & _ & _ & [[Q _]|(o & y & I & _)]); [|exfalso; eapply default_once; eauto].
      exists (t', m'). split; [exact Es|]. cbn [snd]. now rewrite Q.
    - destruct R as (n & f & g & inner & P & (Ef & Eg & _) & _). cbn in P. subst p. destruct (is_subtype o r) eqn:Q; [left; now apply type_fixless|]. right.
      destruct (type_source _ _ _ Ic Q) as (v & m & m' & -> & _). destruct (now_prefix n f g Ef Eg l1 _ Ec) as (t' & m1 & Es & _). exists v. rewrite Es. split; [reflexivity|discriminate].
    - destruct R as (n & f & g & inner & P & (Ef & Eg & _) & _). cbn in P. subst p. destruct (now_prefix n f g Ef Eg l1 _ Ec) as (t' & m1 & Es & _).
      rewrite Es. discriminate.
  Qed.

  Lemma ready_ext c s s' : (forall k, s k = s' k) -> ready c s -> ready c s'.
  Proof.
    intros H. destruct c; cbn [ready]; auto; rewrite ?H; auto.
  Qed.

  (** ** The fields afterwards *)
  Lemma split_c3 c : In c c3 -> exists l1 l2, c3 = (l1 ++ c :: l2)%list /\ sfin c3 s0 = sfin l2 (sact c (sfin l1 s0)).
  Proof.
    intros I. apply in_split in I. destruct I as (l1 & l2 & Ec). exists l1, l2. split; [exact Ec|]. rewrite Ec at 1. rewrite sfin_app. reflexivity.
  Qed.

  Lemma final_gone n f : field_at fs n = Some f -> field_at gs n = None -> sfin c3 s0 n = None.
  Proof.
    intros Ef Eg. pose proof (gone_in n f Ef Eg) as I.
    destruct (report_fate cs c2 c3 _ _ M2 M3 _ I) as [J|[(rr & aa & (R1 & R2 & Q1 & Q2 & _) & J & D)|(rr & aa & (_ & _ & Q1 & Q2 & _) & J & D)]].
    - destruct (split_c3 _ J) as (l1 & l2 & Ec & ->). rewrite sfin_other; [cbn [sact]; apply sput_same|].
      intros c' J'. apply (others_free _ l1 l2 n Ec); [now left|]. apply in_or_app. now right.
    - destruct D as [<-|<-]; [|discriminate Q2]. destruct aa as [q ta da ha| | | | | | | | | | | ]; try discriminate Q2. cbn [field_renamed] in J.
      pose proof (raw _ R2) as (b & g & -> & Eg' & Ef' & _). destruct (split_c3 _ J) as (l1 & l2 & Ec & ->).
      rewrite sfin_other; [cbn [sact]; rewrite sput_other by scong; apply sput_same|].
      intros c' J'. apply (others_free _ l1 l2 n Ec); [now left|]. apply in_or_app. now right.
    - destruct D as [<-|<-]; discriminate.
  Qed.

  Lemma final_none n : field_at fs n = None -> field_at gs n = None -> sfin c3 s0 n = None.
  Proof.
    intros Ef Eg. rewrite sfin_other; [exact Ef|]. intros c I K. destruct (places c I) as [[_ O]|(_ & n' & f & g & inner & E & (Ef' & _) & _)].
    - destruct (O n K) as [[_ Q]|[Q _]]; scong.
    - rewrite E in K. destruct K as [<-|[]]. scong.
  Qed.

  Lemma final_fresh n g : field_at fs n = None -> field_at gs n = Some g ->
    (sfin c3 s0 n = None /\ fm_has_default (snd g) = true) \/
    (exists m, sfin c3 s0 n = Some (SNothing, m) /\ fm_has_default m = false /\ fm_has_default (snd g) = false) \/
    (exists a f, sfin c3 s0 n = Some f /\ In (FieldRenamed a n) c3 /\ field_at fs a = Some f /\ is_subtype (fst f) (fst g) = true /\
       fm_has_default (snd f) = fm_has_default (snd g) /\ py_eq (fm_default (snd f)) (fm_default (snd g)) = true).
  Proof.
    intros Ef Eg. pose proof (fresh_in n g Ef Eg) as I.
    destruct (report_fate cs c2 c3 _ _ M2 M3 _ I) as [J|[(rr & aa & (R1 & R2 & Q1 & Q2 & _) & J & D)|(rr & aa & (_ & _ & Q1 & Q2 & _) & J & D)]].
    - destruct (split_c3 _ J) as (l1 & l2 & Ec & E).
      assert (Fr : forall c', In c' (l1 ++ l2)%list -> ~ In n (ckeys c')) by (apply (others_free _ l1 l2 n Ec); now left).
      assert (E' : sfin c3 s0 n = sact (FieldAdded n (fst g) (fm_default (snd g)) (fm_has_default (snd g))) (sfin l1 s0) n)
        by (rewrite E; apply sfin_other; intros c' J'; apply Fr; apply in_or_app; now right). rewrite E'. clear E E'.
      pose proof (Sev _ J) as Sv. cbn [change_severity] in Sv. unfold default_severity in Sv. cbn [sact].
      destruct (fm_has_default (snd g)) eqn:Hd.
      + left. split; [|reflexivity]. cbn [proposed_fix]. rewrite sfin_other; [exact Ef|]. intros c' J'. apply Fr. apply in_or_app. now left.
      + right. left. destruct (proposed_fix _); [|now destruct Sv]. rewrite sput_same. eexists. split; [reflexivity|]. auto.
    - right. right. destruct D as [<-|<-]; [discriminate Q1|]. destruct rr as [|p tr dr hr| | | | | | | | | | ]; try discriminate Q1. cbn [field_renamed] in J.
      destruct (reported _ J) as [K|(a & b & f & g' & Q & Ef1 & _ & Eg1 & _ & Rest)]; [now apply raw in K|]. injection Q as -> <-. rewrite Eg in Eg1. injection Eg1 as <-.
      exists a, f. destruct (split_c3 _ J) as (l1 & l2 & Ec & ->). split; [|auto].
      assert (Fr : forall k, k = a \/ k = n -> forall c', In c' (l1 ++ l2)%list -> ~ In k (ckeys c')).
      { intros k [->| ->]; apply (others_free _ l1 l2 _ Ec); cbn; auto. }
      rewrite sfin_other by (intros c' J'; apply Fr; [now right|]; apply in_or_app; now right). cbn [sact]. rewrite sput_same, sfin_other; [exact Ef1|].
      intros c' J'. apply Fr; [now left|]. apply in_or_app. now left.
    - destruct D as [<-|<-]; discriminate.
  Qed.

  Lemma final_both n f g : field_at fs n = Some f -> field_at gs n = Some g ->
    exists t m inner, sfin c3 s0 n = Some (t, m) /\ is_struct t = false /\ find_changes t (fst g) n = Ok inner /\
      (forall c, In c inner -> info c) /\ dch n m (snd g) = [].
  Proof.
    intros Ef Eg. destruct (now_prefix n f g Ef Eg c3 [] (eq_sym (app_nil_r _))) as (t & m & Es & Ty & Hd & Dd).
    destruct (both_in n f g Ef Eg) as (inner & B & Inc). pose proof B as (_ & _ & Fi).
    assert (Rep : forall c, In c (inner ++ dch n (snd f) (snd g))%list -> In c c3).
    { intros c I. destruct (defaults_in _ _ _ _ _ B I) as [A1 A2]. apply kept_reported; auto. }
    assert (De : dch n m (snd g) = []).
    { assert (Rd : forall c, In c (dch n (snd f) (snd g)) -> In c c3) by (intros c I; apply Rep, in_or_app; now right).
      unfold dch in *. rewrite Hd. destruct (Bool.eqb (fm_has_default (snd f)) (fm_has_default (snd g))) eqn:Q; cbn [negb] in *.
      - destruct (fm_has_default (snd f)); [|reflexivity]. cbn [andb] in *. destruct Dd as [[-> No]|(o & y & I & ->)].
        + destruct (py_eq (fm_default (snd f)) (fm_default (snd g))); [reflexivity|]. exfalso. eapply No. apply Rd. now left.
        + destruct (default_source _ _ _ I) as (f1 & g1 & _ & Eg1 & _ & -> & _ & Hy). rewrite Eg in Eg1. injection Eg1 as <-. now rewrite Hy.
      - destruct (fm_has_default (snd g)) eqn:Hg; [reflexivity|]. cbn [negb] in *. exfalso. apply (St _ (Rd _ (or_introl eq_refl))). }
    destruct Ty as [(-> & NoV & Sub)|[(o & v & I & Q & ->)|(e & ws & ws' & Et & -> & En & e1 & w1 & x1 & y1 & I1)]].
    - exists (fst f), m, inner. split; [exact Es|]. split; [apply plain_struct, (plain_f _ _ Ef)|]. split; [exact Fi|]. split; [|exact De].
      intros c I. assert (Ic : In c c3) by (apply Rep, in_or_app; now left). destruct (leaf_changes' _ _ _ _ c (plain_g _ _ Eg) Fi I) as [L _].
      destruct c as [p t' d h|p t' d h|p q|p o y|p o|p o r|p e v x y|p e v x|p e v x|p e v w|p l|p l]; try (destruct L; fail); try (destruct (St _ Ic); fail); try reflexivity.
      + destruct L as [-> _]. unfold info. cbn [change_severity]. destruct (is_subtype o r) eqn:Q; [reflexivity|].
        destruct (type_source _ _ _ Ic Q) as (v & m1 & m2 & -> & _). rewrite (Sub _ _ Ic) in Q. discriminate.
      + cbn in L. subst p. now apply NoV in Ic.
    - destruct (type_source _ _ _ I Q) as (v' & m1 & m2 & Qv & _ & Eg1). injection Qv as <-. rewrite Eg in Eg1. injection Eg1 as ->.
      exists (SLit v), m, []. split; [exact Es|]. split; [reflexivity|]. split; [|split; [intros c []|exact De]]. cbn [fst find_changes]. unfold literal_changes.
      rewrite set_minus_none; [reflexivity|]. apply forallb_forall. intros x Ix. unfold py_elem. apply existsb_exists. exists x. split; [exact Ix|]. apply (plain_g _ _ Eg _ Ix).
    - destruct f as [ft fm], g as [gt gm]. cbn [fst snd] in *. subst ft.
      assert (Dw : NoDup (map fst ws)) by apply (Df _ _ Ef).
      assert (Kw : map fst ws' = map fst ws).
      { clear -En. induction En as [|x y l l' [E _] _ IH]; [reflexivity|]. cbn [map]. now rewrite E, IH. }
      assert (Vw : forall w z', In (w, z') ws' -> exists z, In (w, z) ws /\ value_now c3 n w z z').
      { clear -En. induction En as [|[k x] [k' y] l l' [E V] _ IH]; intros w z' I; [destruct I|]. cbn [fst snd] in *. subst k'. destruct I as [I|I].
        - injection I as <- <-. exists x. split; [now left|exact V].
        - destruct (IH w z' I) as (z & J & V'). exists z. split; [now right|exact V']. }
      destruct (value_source _ _ _ _ _ I1) as (e0 & ws0 & m0 & vs & m1 & Ef1 & Eg1 & _ & _ & _ & _ & _ & _ & Dv). rewrite Eg in Eg1. injection Eg1 as -> <-. clear ws0 e0 Ef1 m0.
      cbn [find_changes] in Fi. injection Fi as <-.
      eexists (SEnum e ws'), m, _. split; [exact Es|]. split; [reflexivity|]. split; [reflexivity|]. split; [|exact De].
      intros c I. apply in_app_or in I. destruct I as [I|I]; apply in_flat_map in I; destruct I as ([w z] & I & J); cbn [fst snd] in J.
      + destruct (aget w ws') as [z'|] eqn:Gw; [|destruct J as [<-|[]]; reflexivity]. destruct (py_eq z' z) eqn:Q; [destruct J|]. exfalso.
        destruct (Vw _ _ (aget_some_in _ _ _ Gw)) as (z1 & K & [[-> No]|(e2 & x & y & L & ->)]).
        * apply (No e1 z1 z). apply Rep. apply in_or_app. left. apply in_or_app. left. apply in_flat_map. exists (w, z). split; [exact I|]. cbn [fst snd].
          rewrite (in_nodup_aget _ _ _ Dw K), Q. now left.
        * destruct (value_source _ _ _ _ _ L) as (e3 & ws3 & ma & vs3 & mb & _ & Eg3 & _ & Gy & _ & Ey & _). rewrite Eg in Eg3. injection Eg3 as _ <- _.
          rewrite (in_nodup_aget _ _ _ Dv I) in Gy. scong.
      + destruct (amem w vs) eqn:Q; [destruct J|]. exfalso. destruct (Vw _ _ I) as (z1 & K & _). eapply (St (EnumVariantRemoved n e1 w z1)). apply Rep.
        apply in_or_app. left. apply in_or_app. right. apply in_flat_map. exists (w, z1). split; [exact K|]. cbn [fst snd]. rewrite Q. now left.
  Qed.

  Lemma final_field n g : field_at gs n = Some g ->
    (sfin c3 s0 n = None /\ fm_has_default (snd g) = true) \/
    exists t m inner, sfin c3 s0 n = Some (t, m) /\ is_struct t = false /\ find_changes t (fst g) n = Ok inner /\ (forall c, In c inner -> info c) /\ dch n m (snd g) = [].
  Proof.
    intros Eg. destruct (field_at fs n) as [f|] eqn:Ef; [right; now apply final_both with f|]. pose proof (plain_g _ _ Eg) as Pl. pose proof (Dg _ _ Eg) as Dn. destruct g as [ft m].
    destruct (final_fresh n (ft, m) Ef Eg) as [H|[(m' & E & Hd & Hd')|(a & f & E & I & Ea & Q & Hd & Hp)]]; cbn [fst snd] in *; [now left| |].
    - right. exists SNothing, m', [TypeChanged n SNothing ft]. split; [exact E|]. split; [reflexivity|]. split; [destruct ft; try reflexivity; destruct Pl|]. split.
      + intros c [<-|[]]. unfold info. cbn [change_severity]. destruct ft; reflexivity.
      + unfold dch. rewrite Hd, Hd'. reflexivity.
    - right. destruct f as [t m']. cbn [fst snd] in *. destruct (pair_info t ft n) as (inner & Fi & Hi); auto.
      + pose proof (St _ I) as Z. apply (Z (t, m') (ft, m)); auto.
      + apply (plain_f _ _ Ea).
      + apply (Df _ _ Ea).
      + exists t, m', inner. split; [exact E|]. split; [apply plain_struct, (plain_f _ _ Ea)|]. split; [exact Fi|]. split; [exact Hi|].
        unfold dch. rewrite Hd, eqb_reflx. cbn [negb]. rewrite Hp. cbn [negb]. now rewrite andb_false_r.
  Qed.

  Lemma final_out n : field_at gs n = None -> sfin c3 s0 n = None.
  Proof. intros Eg. destruct (field_at fs n) as [f|] eqn:Ef; [now apply final_gone with f|now apply final_none]. Qed.
End Settle.

Lemma info_severity k : (forall c, In c (ck_changes k) -> info c) -> checker_severity k = INFO.
Proof.
  intros H. unfold checker_severity. induction (ck_changes k) as [|c l IH]; [reflexivity|]. cbn [fold_left]. rewrite (H c) by now left. cbn [sev_gt].
  apply IH. intros c' I. apply H. now right.
Qed.
