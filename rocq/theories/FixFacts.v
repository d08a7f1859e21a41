(** FixFacts.v -- the proposed rules repair files of one-level configs (C29). *)
From Coq Require Import Permutation.
From Verif Require Import Base Value Schema Rewrite Sched Types Asdict FromDict Checker Induct AFacts SpecTypes SpecLoad SpecSubtype
  SpecRenames SpecCheck SpecCompat SpecFix RoundTrip SchemaFacts RenameFacts FindFacts CheckFacts SubtypeFacts UpgradeFacts CompatFacts FromDictFacts LoadProps.

(** ** Rules on the fields of one dict *)
Definition store : Type := string -> option pyval.
Definition put (k : string) (v : option pyval) (s : store) : store := fun j => if String.eqb j k then v else s j.

Definition simple_rule (r : rule) : Prop :=
  match r with
  | RenameField [a] [b] => a <> b
  | DeleteField [_] => True
  | MapFieldValue [_] f _ => forall x, exists y, f x = Ok y
  | ChangeDefault [_] _ _ | AddDefault [_] _ => True
  | _ => False
  end.

Definition act (r : rule) (s : store) : store :=
  match r with
  | RenameField [a] [b] => match s a with Some v => put b (Some v) (put a None s) | None => s end
  | DeleteField [a] => put a None s
  | MapFieldValue [n] f _ => match s n with Some x => put n (match f x with Ok y => Some y | Err _ => None end) s | None => s end
  | ChangeDefault [n] o _ => put n (match s n with Some v => Some (if is_weak v then o else v) | None => Some o end) s
  | AddDefault [n] o => put n (match s n with Some v => Some v | None => Some o end) s
  | _ => s
  end.

Definition touched (r : rule) : list string :=
  match r with
  | RenameField a b => a ++ b
  | DeleteField p | MapFieldValue p _ _ | ChangeDefault p _ _ | AddDefault p _ | CheckValue p _ | RejectValues p _ => p
  end%list.

Lemma put_same k v s : put k v s k = v.
Proof. unfold put. now rewrite String.eqb_refl. Qed.
Lemma put_other k v s j : j <> k -> put k v s j = s j.
Proof. intros H. unfold put. now rewrite (eqb_neq_str j k). Qed.

Lemma aget_aset_put k (v : pyval) m j : aget j (aset k v m) = put k (Some v) (fun i => aget i m) j.
Proof. unfold put. apply aget_aset. Qed.
Lemma aget_adel_put k (m : list (string * pyval)) j : NoDup (akeys m) -> aget j (adel k m) = put k None (fun i => aget i m) j.
Proof.
  intros N. unfold put. destruct (String.eqb_spec j k) as [->|H]; [now apply aget_adel_same|now apply aget_adel_other].
Qed.

Lemma put_ext k v s s' j : (forall i, s i = s' i) -> put k v s j = put k v s' j.
Proof. intros H. unfold put. destruct (String.eqb j k); auto. Qed.

Lemma rule_act r m : simple_rule r -> NoDup (akeys m) ->
  exists m', apply_rule r (VDict m) = Ok (VDict m') /\ NoDup (akeys m') /\ forall k, aget k m' = act r (fun j => aget j m) k.
Proof.
  intros R N. destruct r as [p q|p|p f txt|p o o'|p o|p l|p l]; try (destruct R; fail);
    destruct p as [|a [|a' p]]; try (destruct R; fail); try (destruct q as [|b [|b' q]]; try (destruct R; fail));
    cbn [apply_rule remove_path act]; destruct (aget a m) as [v|] eqn:Ea; cbn [rbind fst snd insert_path py_setitem].
  - exists (aset b v (adel a m)). split; [reflexivity|]. split; [apply nodup_aset; now apply nodup_adel|].
    intros k. rewrite aget_aset_put. apply put_ext. intros i. now apply aget_adel_put.
  - eauto.
  - exists (adel a m). split; [reflexivity|]. split; [now apply nodup_adel|]. intros k. now apply aget_adel_put.
  - exists m. split; [reflexivity|]. split; [auto|]. intros k. unfold put. destruct (String.eqb_spec k a) as [->|]; auto.
  - destruct (R v) as [y Y]. rewrite Y. cbn [rbind]. exists (aset a y (adel a m)). split; [reflexivity|].
    split; [apply nodup_aset; now apply nodup_adel|]. intros k. rewrite aget_aset_put. unfold put.
    destruct (String.eqb_spec k a) as [->|]; auto. now apply aget_adel_other.
  - eauto.
  - exists (aset a (if is_weak v then o else v) (adel a m)). split; [destruct (is_weak v); reflexivity|].
    split; [apply nodup_aset; now apply nodup_adel|]. intros k. rewrite aget_aset_put. unfold put.
    destruct (String.eqb_spec k a) as [->|]; auto. now apply aget_adel_other.
  - exists (aset a o m). split; [reflexivity|]. split; [now apply nodup_aset|]. intros k. apply aget_aset_put.
  - exists (aset a v (adel a m)). split; [reflexivity|]. split; [apply nodup_aset; now apply nodup_adel|].
    intros k. rewrite aget_aset_put. unfold put. destruct (String.eqb_spec k a) as [->|]; auto. now apply aget_adel_other.
  - exists (aset a o m). split; [reflexivity|]. split; [now apply nodup_aset|]. intros k. apply aget_aset_put.
Qed.

Lemma act_ext r s s' : (forall i, s i = s' i) -> forall k, act r s k = act r s' k.
Proof.
  intros H k. destruct r as [p q|p|p f txt|p o o'|p o|p l|p l]; cbn [act]; auto;
    destruct p as [|a [|a' p]]; auto; try (destruct q as [|b [|b' q]]; auto); try rewrite !H.
  - destruct (s' a); auto. apply put_ext. intros i. now apply put_ext.
  - now apply put_ext.
  - destruct (s' a); auto. now apply put_ext.
  - now apply put_ext.
  - now apply put_ext.
Qed.

Definition fin (rs : list rule) (s : store) : store := fold_left (fun s r => act r s) rs s.

Lemma fin_ext rs : forall s s', (forall i, s i = s' i) -> forall k, fin rs s k = fin rs s' k.
Proof.
  induction rs as [|r rs IH]; intros s s' H k; [apply H|]. cbn [fin fold_left]. apply IH. now apply act_ext.
Qed.

Lemma rules_act rs : forall m, Forall simple_rule rs -> NoDup (akeys m) ->
  exists m', apply_rules rs (VDict m) = Ok (VDict m') /\ NoDup (akeys m') /\ forall k, aget k m' = fin rs (fun j => aget j m) k.
Proof.
  induction rs as [|r rs IH]; intros m F N; [exists m; auto|]. apply Forall_cons_iff in F. destruct F as [Fr F].
  destruct (rule_act r m Fr N) as (m1 & E1 & N1 & G1). destruct (IH m1 F N1) as (m2 & E2 & N2 & G2).
  exists m2. split; [cbn [apply_rules]; now rewrite E1|]. split; [exact N2|]. intros k. rewrite G2. cbn [fin fold_left]. now apply fin_ext.
Qed.

Lemma act_untouched r s k : ~ In k (touched r) -> act r s k = s k.
Proof.
  intros H. destruct r as [p q|p|p f txt|p o o'|p o|p l|p l]; cbn [act touched] in *; auto;
    destruct p as [|a [|a' p]]; auto; try (destruct q as [|b [|b' q]]; auto); cbn [app] in H;
    try (assert (k <> a) by (intros ->; apply H; now left)).
  - assert (k <> b) by (intros ->; apply H; right; now left). destruct (s a); auto. rewrite !put_other; auto.
  - now apply put_other.
  - destruct (s a); auto. now apply put_other.
  - now apply put_other.
  - now apply put_other.
Qed.

Lemma fin_untouched rs k : forall s, (forall r, In r rs -> ~ In k (touched r)) -> fin rs s k = s k.
Proof.
  induction rs as [|r rs IH]; intros s H; [reflexivity|]. cbn [fin fold_left]. fold (fin rs (act r s)). rewrite IH.
  - apply act_untouched. apply H. now left.
  - intros r' R. apply H. now right.
Qed.

Lemma fin_app rs rs' s : fin (rs ++ rs') s = fin rs' (fin rs s).
Proof. apply fold_left_app. Qed.

(** a field that only default rules and value maps speak about *)
Section Kept.
  Variable n : string.
  Variable good : pyval -> Prop.
  Hypothesis good_weak : forall v, good v -> is_weak v = false.

  Definition swap (f : pyval -> res pyval) (o y : pyval) : Prop := forall x, f x = Ok (if py_eq x o then y else x).

  Definition keeps (r : rule) : Prop :=
    In n (touched r) ->
    match r with
    | ChangeDefault p o _ | AddDefault p o => p = [n] /\ good o
    | MapFieldValue p f _ => p = [n] /\ exists o y, swap f o y /\ good y
    | _ => False
    end.
  Definition hits (w : pyval) (r : rule) : Prop :=
    match r with MapFieldValue p f _ => p = [n] /\ exists o y, swap f o y /\ good y /\ py_eq w o = true | _ => False end.
  Definition gives_default (r : rule) : Prop :=
    match r with ChangeDefault p _ _ | AddDefault p _ => p = [n] | _ => False end.

  Lemma act_kept r s : keeps r ->
    act r s n = s n \/
    (exists p f t o y, r = MapFieldValue p f t /\ p = [n] /\ swap f o y /\ good y /\ act r s n = match s n with Some x => Some (if py_eq x o then y else x) | None => None end) \/
    (gives_default r /\ exists o, good o /\ act r s n = match s n with Some v => Some (if is_weak v then o else v) | None => Some o end) \/
    (gives_default r /\ exists o, good o /\ act r s n = match s n with Some v => Some v | None => Some o end).
  Proof.
    intros K. destruct (in_dec string_dec n (touched r)) as [I|I]; [|left; now apply act_untouched]. specialize (K I).
    destruct r as [p q|p|p f txt|p o o'|p o|p l|p l]; try (destruct K; fail).
    - destruct K as (-> & o & y & S & G). right. left. exists [n], f, txt, o, y. repeat split; auto. cbn [act].
      destruct (s n) as [x|] eqn:E; [|exact E]. rewrite put_same. now rewrite S.
    - destruct K as [-> G]. right. right. left. split; [reflexivity|]. exists o. split; [exact G|]. apply put_same.
    - destruct K as [-> G]. right. right. right. split; [reflexivity|]. exists o. split; [exact G|]. apply put_same.
  Qed.

  Lemma fin_good rs : forall s w, (forall r, In r rs -> keeps r) -> s n = Some w -> good w ->
    exists w', fin rs s n = Some w' /\ good w'.
  Proof.
    induction rs as [|r rs IH]; intros s w K E G; [exists w; auto|]. cbn [fin fold_left]. fold (fin rs (act r s)).
    assert (A : exists w', act r s n = Some w' /\ good w').
    { destruct (act_kept r s (K r (or_introl eq_refl))) as [->|[(p & f & t & o & y & _ & _ & S & Gy & ->)|[(_ & o & Go & ->)|(_ & o & Go & ->)]]]; rewrite E; [eauto| |rewrite (good_weak w G); eauto|eauto].
      destruct (py_eq w o); eauto. }
    destruct A as (w' & E' & G'). apply (IH (act r s) w'); auto. intros r' R. apply K. now right.
  Qed.

  Lemma fin_hit rs : forall s w, (forall r, In r rs -> keeps r) -> s n = Some w -> is_weak w = false ->
    (exists r, In r rs /\ hits w r) -> exists w', fin rs s n = Some w' /\ good w'.
  Proof.
    induction rs as [|r rs IH]; intros s w K E W (r0 & I & H); [destruct I|]. cbn [fin fold_left]. fold (fin rs (act r s)).
    assert (Kr : forall r', In r' rs -> keeps r') by (intros r' R; apply K; now right).
    destruct I as [<-|I].
    - destruct r as [| |p f txt| | | | ]; try (destruct H; fail). destruct H as (-> & o & y & S & G & Q).
      apply (fin_good rs _ y); auto. cbn [act]. rewrite E, put_same, S, Q. reflexivity.
    - destruct (act_kept r s (K r (or_introl eq_refl))) as [A|[(p & f & t & o & y & _ & _ & S & Gy & A)|[(_ & o & Go & A)|(_ & o & Go & A)]]]; rewrite E in A.
      + apply (IH _ w); eauto.
      + destruct (py_eq w o).
        * apply (fin_good rs _ y); auto.
        * apply (IH _ w); eauto.
      + rewrite W in A. apply (IH _ w); eauto.
      + apply (IH _ w); eauto.
  Qed.

  Lemma fin_none rs : forall s, (forall r, In r rs -> keeps r) -> s n = None ->
    (fin rs s n = None /\ forall r, In r rs -> ~ gives_default r) \/ exists w', fin rs s n = Some w' /\ good w'.
  Proof.
    induction rs as [|r rs IH]; intros s K E; [left; split; [exact E|intros r []]|]. cbn [fin fold_left]. fold (fin rs (act r s)).
    assert (Kr : forall r', In r' rs -> keeps r') by (intros r' R; apply K; now right).
    destruct (act_kept r s (K r (or_introl eq_refl))) as [A|[(p & f & t & o & y & -> & -> & S & Gy & A)|[(_ & o & Go & A)|(_ & o & Go & A)]]]; rewrite E in A.
    - assert (D : ~ gives_default r).
      { intros D. destruct r; try (destruct D; fail); cbn [gives_default] in D; subst field; cbn [act] in A; rewrite put_same, E in A; discriminate. }
      destruct (IH _ Kr A) as [[F G]|F]; [left|now right]. split; [exact F|]. intros r' [<-|R]; [exact D|now apply G].
    - destruct (IH _ Kr A) as [[F G]|F]; [left|now right]. split; [exact F|]. intros r' [<-|R]; [intros []|now apply G].
    - right. now apply (fin_good rs _ o).
    - right. now apply (fin_good rs _ o).
  Qed.
End Kept.

(** ** Changes of a one-level config *)
Definition leaf_change (path : list string) (c : change) : Prop :=
  match c with
  | TypeChanged p o n => p = path /\ match o, n with SLit _, SLit _ => False | _, _ => True end
  | EnumVariantValueChanged p _ _ _ _ | EnumVariantRemoved p _ _ _ | EnumVariantAdded p _ _ _
  | LiteralValuesAdded p _ | LiteralValuesRemoved p _ => p = path
  | _ => False
  end.

Lemma leaf_changes u : forall r s path cs c, dataless u -> materialize_type u = Ok r -> find_changes s r path = Ok cs -> In c cs ->
  leaf_change path c /\
  forall p o n, c = TypeChanged p o n -> cs = [TypeChanged path s r] \/ (sty_size o < sty_size s)%nat.
Proof.
  induction u as [| | | | |j IH|us IH|ku vu IHk IHv|j IH|us IH|c' gs IH|n' ms'|l'|n'] using ty_ind'; intros r s path cs c D Mr F I;
    assert (TC : cs = [TypeChanged path s r] -> match s, r with SLit _, SLit _ => False | _, _ => True end ->
       leaf_change path c /\ forall p o n, c = TypeChanged p o n -> cs = [TypeChanged path s r] \/ (sty_size o < sty_size s)%nat)
      by (intros -> G; destruct I as [<-|[]]; split; [split; auto|now left]);
    cbn [materialize_type] in Mr; try discriminate Mr;
    repeat match type of Mr with rbind _ _ = Ok _ => apply rbind_ok in Mr; destruct Mr as (? & ? & Mr) end; injection Mr as <-;
    try (destruct D; fail);
    destruct s as [p|si|sl|sk sv|sl|sn sf ver|si|sn svs|sl| ]; cbn [find_changes] in F; try discriminate F;
    try (injection F as <-; apply TC; [reflexivity|exact Logic.I]).
  1-4: match type of F with context [String.eqb ?a ?b] => destruct (String.eqb a b) end; injection F as <-; [destruct I|apply TC; [reflexivity|exact Logic.I]].
  - clear TC. destruct (IH x si path cs c D H F I) as [A B]. split; [exact A|]. intros p o n Q. right. cbn [sty_size]. destruct (B p o n Q) as [->|L]; [|lia].
    destruct I as [<-|[]]. injection Q as -> -> ->. lia.
  - clear TC. destruct (IH x si path cs c D H F I) as [A B]. split; [exact A|]. intros p o n Q. right. cbn [sty_size]. destruct (B p o n Q) as [->|L]; [|lia].
    destruct I as [<-|[]]. injection Q as -> -> ->. lia.
  - injection F as <-. apply in_app_or in I. destruct I as [I|I]; apply in_flat_map in I; destruct I as ([k v] & J & I); cbn [fst snd] in I.
    + destruct (aget k svs); [destruct (py_eq _ _); [destruct I|]|]; destruct I as [<-|[]]; (split; [reflexivity|discriminate]).
    + destruct (amem k ms'); [destruct I|]. destruct I as [<-|[]]. split; [reflexivity|discriminate].
  - injection F as <-. unfold literal_changes in I. apply in_app_or in I.
    destruct I as [I|I]; [destruct (set_minus l' sl)|destruct (set_minus sl l')]; try destruct I as [<-|[]]; try destruct I; (split; [reflexivity|discriminate]).
Qed.

Lemma sections_out fs gs path cs c : sections fs gs path = Ok cs -> In c cs ->
  exists n ft m here, In (n, (ft, m)) gs /\ field_section fs path n ft m = Ok here /\ In c here.
Proof.
  revert cs. induction gs as [|[k [ft m]] gs IH]; intros c1 Hs I; [injection Hs as <-; destruct I|].
  apply sections_cons in Hs. destruct Hs as (here & rest & H1 & H2 & ->). apply in_app_or in I. destruct I as [I|I].
  - exists k, ft, m, here. split; [now left|auto].
  - destruct (IH rest H2 I) as (n & f & m' & h & A & B). exists n, f, m', h. split; [now right|exact B].
Qed.

Lemma dataless_data t : dataless t -> is_dataclass_ty t = false.
Proof. destruct t; intros D; try reflexivity. destruct D. Qed.

Notation meta n d := (mkF n (schema_default (default_value d)) (has_default d) None).

Section Report.
  Variable fs gs : list (string * (ty * dflt)).
  Variable sf sg : list (string * (sty * fmeta)).
  Hypothesis Mf : mat_fields fs = Ok sf.
  Hypothesis Mg : mat_fields gs = Ok sg.
  Hypothesis Nf : NoDup (field_names fs).
  Hypothesis Ng : NoDup (field_names gs).
  Hypothesis Df : one_level fs.
  Hypothesis Dg : one_level gs.
  Variable cs : list change.
  Variable nm nm' : string.
  Variable ver ver' : option Z.
  Hypothesis F : find_changes (SStruct nm sf ver) (SStruct nm' sg ver') [] = Ok cs.

  (** a field of both classes *)
  Definition kept (n : string) (t : ty) (od : dflt) (u : ty) (fd : dflt) (inner : list change) : Prop :=
    aget n fs = Some (t, od) /\ aget n gs = Some (u, fd) /\
    exists s r, materialize_type t = Ok s /\ materialize_type u = Ok r /\ find_changes s r [n] = Ok inner.

  Definition flat_origin (c : change) : Prop :=
    match c with
    | FieldAdded p t d h => exists n u fd, p = [n] /\ aget n gs = Some (u, fd) /\ materialize_type u = Ok t /\
        d = schema_default (default_value fd) /\ h = has_default fd /\ aget n fs = None
    | FieldRemoved p t d h => exists n u fd, p = [n] /\ aget n fs = Some (u, fd) /\ materialize_type u = Ok t /\
        d = schema_default (default_value fd) /\ h = has_default fd /\ aget n gs = None
    | FieldRenamed _ _ | EnumVariantRenamed _ _ _ _ => False
    | _ => exists n t od u fd inner, kpath c = [n] /\ kept n t od u fd inner /\
        In c (inner ++ default_changes [] n (meta n od) (meta n fd))
    end.

  Lemma in_gs n ft m : In (n, (ft, m)) sg -> exists u fd, aget n gs = Some (u, fd) /\ materialize_type u = Ok ft /\ m = meta n fd.
  Proof.
    intros I. destruct (rmap_fields_names _ _ Mg) as [_ Q]. destruct (Q _ I) as (u & fd & J & M & E). cbn [fst snd] in *.
    exists u, fd. split; [now apply in_nodup_aget|auto].
  Qed.

  Lemma in_fs n ft m : In (n, (ft, m)) sf -> exists u fd, aget n fs = Some (u, fd) /\ materialize_type u = Ok ft /\ m = meta n fd.
  Proof.
    intros I. destruct (rmap_fields_names _ _ Mf) as [_ Q]. destruct (Q _ I) as (u & fd & J & M & E). cbn [fst snd] in *.
    exists u, fd. split; [now apply in_nodup_aget|auto].
  Qed.

  Lemma no_struct_g n u fd r : aget n gs = Some (u, fd) -> materialize_type u = Ok r -> is_struct r = false.
  Proof.
    intros G M. rewrite (mat_struct _ _ M). apply dataless_data. unfold one_level in Dg. rewrite all_in in Dg.
    apply aget_some_in in G. apply (Dg _ G).
  Qed.
  Lemma no_struct_f n u fd r : aget n fs = Some (u, fd) -> materialize_type u = Ok r -> is_struct r = false.
  Proof.
    intros G M. rewrite (mat_struct _ _ M). apply dataless_data. unfold one_level in Df. rewrite all_in in Df.
    apply aget_some_in in G. apply (Df _ G).
  Qed.

  Lemma origin c : In c cs -> flat_origin c.
  Proof.
    intros I. pose proof F as F'. rewrite find_struct in F'. apply rbind_ok in F'. destruct F' as (c1 & Hs & Q). injection Q as <-.
    apply in_app_or in I. destruct I as [I|I].
    - destruct (sections_out _ _ _ _ _ Hs I) as (n & ft & m & here & Ig & Fh & Ih). destruct (in_gs _ _ _ Ig) as (u & fd & Gu & Mu & ->).
      unfold field_section, sfield in Fh. pose proof (mat_aget fs sf n Mf) as G. pose proof (no_struct_g _ _ _ _ Gu Mu) as Sg. destruct (aget n fs) as [[t od]|] eqn:Ef.
      + destruct G as (st & Ms & G). rewrite G in Fh. pose proof (no_struct_f _ _ _ _ Ef Ms) as Sf. rewrite Sg, Sf in Fh. cbn [andb negb app] in Fh.
        apply rbind_ok in Fh. destruct Fh as (inner & Fi & Q). injection Q as <-.
        assert (K : kept n t od u fd inner) by (split; [exact Ef|split; [exact Gu|exists st, ft; auto]]).
        assert (P : kpath c = [n] /\ match c with FieldAdded _ _ _ _ | FieldRemoved _ _ _ _ | FieldRenamed _ _ | EnumVariantRenamed _ _ _ _ => False | _ => True end).
        { apply in_app_or in Ih. destruct Ih as [Ih|Ih].
          - unfold one_level in Dg. rewrite all_in in Dg. destruct (leaf_changes u ft st [n] inner c (Dg _ (aget_some_in _ _ _ Gu)) Mu Fi Ih) as [L _].
            destruct c; try (destruct L; fail); cbn [leaf_change] in L; try subst; try destruct L as [L _]; try subst; split; auto; reflexivity.
          - unfold default_changes in Ih. repeat match type of Ih with In _ (if ?b then _ else _) => destruct b end; try destruct Ih as [<-|[]]; try destruct Ih; split; auto; reflexivity. }
        destruct P as [P1 P2]. destruct c; try (destruct P2; fail); cbn [flat_origin]; exists n, t, od, u, fd, inner; auto.
      + rewrite G, Sg in Fh. injection Fh as <-. destruct Ih as [<-|[]]. cbn [field_added flat_origin app fst snd fm_default fm_has_default]. exists n, u, fd. auto 8.
    - unfold removed_fields in I. apply in_flat_map in I. destruct I as ([n [ft m]] & J & I). cbn [fst snd] in I. unfold sfield in *.
      destruct (in_fs _ _ _ J) as (u & fd & Gu & Mu & ->). rewrite (no_struct_f _ _ _ _ Gu Mu) in I.
      destruct (@amem (sty * fmeta) n sg) eqn:Am; [destruct I|]. destruct I as [<-|[]]. cbn [field_removed flat_origin app fst snd fm_default fm_has_default]. exists n, u, fd.
      repeat split; auto. pose proof (mat_aget gs sg n Mg) as G. destruct (aget n gs) as [[u' fd']|]; [|reflexivity].
      destruct G as (s & _ & G). unfold amem in Am. rewrite G in Am. discriminate.
  Qed.

  Lemma kept_in n t od u fd : aget n fs = Some (t, od) -> aget n gs = Some (u, fd) ->
    exists inner, kept n t od u fd inner /\ incl (inner ++ default_changes [] n (meta n od) (meta n fd)) cs.
  Proof.
    intros Ef Eg. pose proof F as F'. rewrite find_struct in F'. apply rbind_ok in F'. destruct F' as (c1 & Hs & Q). injection Q as <-.
    pose proof (mat_aget fs sf n Mf) as A. rewrite Ef in A. destruct A as (s & Ms & A).
    pose proof (mat_aget gs sg n Mg) as B. rewrite Eg in B. destruct B as (r & Mr & B).
    destruct (sections_in _ _ _ _ Hs _ _ _ (aget_some_in _ _ _ B)) as (here & Fh & Inc).
    unfold field_section, sfield in Fh. rewrite A in Fh. rewrite (no_struct_g _ _ _ _ Eg Mr), (no_struct_f _ _ _ _ Ef Ms) in Fh. cbn [andb negb app] in Fh.
    apply rbind_ok in Fh. destruct Fh as (inner & Fi & Q). injection Q as <-. exists inner. split.
    - split; [exact Ef|]. split; [exact Eg|]. exists s, r. auto.
    - intros c I. apply in_or_app. left. now apply Inc.
  Qed.

  Lemma added_in n u fd : aget n fs = None -> aget n gs = Some (u, fd) ->
    exists r, materialize_type u = Ok r /\ In (FieldAdded [n] r (schema_default (default_value fd)) (has_default fd)) cs.
  Proof.
    intros Ef Eg. pose proof F as F'. rewrite find_struct in F'. apply rbind_ok in F'. destruct F' as (c1 & Hs & Q). injection Q as <-.
    pose proof (mat_aget fs sf n Mf) as A. rewrite Ef in A.
    pose proof (mat_aget gs sg n Mg) as B. rewrite Eg in B. destruct B as (r & Mr & B).
    destruct (sections_in _ _ _ _ Hs _ _ _ (aget_some_in _ _ _ B)) as (here & Fh & Inc).
    unfold field_section, sfield in Fh. rewrite A in Fh. rewrite (no_struct_g _ _ _ _ Eg Mr) in Fh. injection Fh as <-.
    exists r. split; [exact Mr|]. apply in_or_app. left. apply Inc. now left.
  Qed.

  Lemma removed_in n t od : aget n fs = Some (t, od) -> aget n gs = None ->
    exists s, materialize_type t = Ok s /\ In (FieldRemoved [n] s (schema_default (default_value od)) (has_default od)) cs.
  Proof.
    intros Ef Eg. pose proof F as F'. rewrite find_struct in F'. apply rbind_ok in F'. destruct F' as (c1 & Hs & Q). injection Q as <-.
    pose proof (mat_aget fs sf n Mf) as A. rewrite Ef in A. destruct A as (s & Ms & A).
    pose proof (mat_aget gs sg n Mg) as B. rewrite Eg in B.
    exists s. split; [exact Ms|]. apply in_or_app. right. unfold removed_fields. apply in_flat_map. exists (n, (s, meta n od)).
    split; [now apply aget_some_in|]. cbn [fst snd]. unfold amem, sfield in *. rewrite B, (no_struct_f _ _ _ _ Ef Ms). now left.
  Qed.
End Report.

(** ** From the changes found to the changes reported *)
Section Fate.
  Variable cs c2 c3 : list change.
  Variable fsim esim : change -> change -> option pyfloat.
  Hypothesis M2 : matching is_FieldAdded is_FieldRemoved fsim field_renamed cs c2.
  Hypothesis M3 : matching is_VariantAdded is_VariantRemoved esim enum_renamed c2 c3.
  Hypothesis No : forall c, In c cs -> match c with FieldRenamed _ _ | EnumVariantRenamed _ _ _ _ => False | _ => True end.

  Definition renamed_field (rr aa c : change) : Prop :=
    In rr cs /\ In aa cs /\ is_FieldRemoved rr = true /\ is_FieldAdded aa = true /\ similar fsim rr aa /\ c = field_renamed aa rr.
  Definition renamed_variant (rr aa c : change) : Prop :=
    In rr cs /\ In aa cs /\ is_VariantRemoved rr = true /\ is_VariantAdded aa = true /\ c = enum_renamed aa rr.

  Lemma field_renamed_form rr aa : is_FieldRemoved rr = true -> is_FieldAdded aa = true -> exists p q, field_renamed aa rr = FieldRenamed p q.
  Proof. destruct rr; try discriminate. destruct aa; try discriminate. intros _ _. cbn. eauto. Qed.

  Lemma in_c2 c : In c c2 -> In c cs \/ exists rr aa, renamed_field rr aa c.
  Proof.
    destruct M2 as (ps & rest & Ec & P & _ & H & _). intros I. rewrite Ec in I. apply in_app_or in I. destruct I as [I|I].
    - left. eapply Permutation_in; [apply Permutation_sym, P|]. apply in_or_app. now left.
    - right. apply in_map_iff in I. destruct I as ([rr aa] & <- & I). exists rr, aa. destruct (H _ _ I) as (A & B & C).
      cbn [fst snd]. split; [|split; [|auto]]; eapply Permutation_in; try (apply Permutation_sym, P); apply in_or_app; right; apply in_or_app.
      + left. apply in_map_iff. now exists (rr, aa).
      + right. apply in_map_iff. now exists (rr, aa).
  Qed.

  Lemma variant_c2 c : In c c2 -> (is_VariantAdded c = true \/ is_VariantRemoved c = true) -> In c cs.
  Proof.
    intros I V. destruct (in_c2 c I) as [J|(rr & aa & _ & _ & R & A & _ & ->)]; [exact J|].
    destruct (field_renamed_form rr aa R A) as (p & q & Q). rewrite Q in V. destruct V; discriminate.
  Qed.

  Lemma report_origin c : In c c3 -> In c cs \/ (exists rr aa, renamed_field rr aa c) \/ exists rr aa, renamed_variant rr aa c.
  Proof.
    destruct M3 as (ps & rest & Ec & P & _ & H & _). intros I. rewrite Ec in I. apply in_app_or in I. destruct I as [I|I].
    - destruct (in_c2 c) as [J|J]; [eapply Permutation_in; [apply Permutation_sym, P|]; apply in_or_app; now left| |]; auto.
    - right. right. apply in_map_iff in I. destruct I as ([rr aa] & <- & I). exists rr, aa. destruct (H _ _ I) as (A & B & _).
      cbn [fst snd]. split; [|split; [|auto]]; (apply variant_c2; [|auto]); eapply Permutation_in; try (apply Permutation_sym, P); apply in_or_app; right; apply in_or_app.
      + left. apply in_map_iff. now exists (rr, aa).
      + right. apply in_map_iff. now exists (rr, aa).
  Qed.

  Lemma c2_c3 c : In c c2 ->
    In c c3 \/ exists rr aa, In rr c2 /\ In aa c2 /\ is_VariantRemoved rr = true /\ is_VariantAdded aa = true /\ In (enum_renamed aa rr) c3 /\ (c = rr \/ c = aa).
  Proof.
    destruct M3 as (ps & rest & Ec & P & _ & H & _). intros I. 
    assert (Back : forall rr aa, In (rr, aa) ps -> In rr c2 /\ In aa c2).
    { intros rr aa J. split; (eapply Permutation_in; [apply Permutation_sym, P|]); apply in_or_app; right; apply in_or_app; [left|right]; apply in_map_iff; now exists (rr, aa). }
    eapply Permutation_in in I; [|exact P]. apply in_app_or in I.
    destruct I as [I|I]; [left; rewrite Ec; apply in_or_app; now left|]. right. apply in_app_or in I.
    destruct I as [I|I]; apply in_map_iff in I; destruct I as ([rr aa] & <- & I); destruct (H _ _ I) as (A & B & _); destruct (Back _ _ I);
      exists rr, aa; cbn [fst snd]; (split; [auto|]); (split; [auto|]); (split; [auto|]); (split; [auto|]); (split; [|auto]); rewrite Ec; apply in_or_app; right;
      apply in_map_iff; exists (rr, aa); auto.
  Qed.

  Lemma report_fate c : In c cs ->
    In c c3 \/
    (exists rr aa, renamed_field rr aa (field_renamed aa rr) /\ In (field_renamed aa rr) c3 /\ (c = rr \/ c = aa)) \/
    (exists rr aa, renamed_variant rr aa (enum_renamed aa rr) /\ In (enum_renamed aa rr) c3 /\ (c = rr \/ c = aa)).
  Proof.
    intros I. assert (Q : In c c2 \/ exists rr aa, renamed_field rr aa (field_renamed aa rr) /\ In (field_renamed aa rr) c2 /\ (c = rr \/ c = aa)).
    { destruct M2 as (ps & rest & Ec & P & _ & H & _).
      assert (Back : forall rr aa, In (rr, aa) ps -> In rr cs /\ In aa cs).
      { intros rr aa J. split; (eapply Permutation_in; [apply Permutation_sym, P|]); apply in_or_app; right; apply in_or_app; [left|right]; apply in_map_iff; now exists (rr, aa). }
      eapply Permutation_in in I; [|exact P]. apply in_app_or in I.
      destruct I as [I|I]; [left; rewrite Ec; apply in_or_app; now left|]. right. apply in_app_or in I.
      destruct I as [I|I]; apply in_map_iff in I; destruct I as ([rr aa] & <- & I); destruct (H _ _ I) as (A & B & C); destruct (Back _ _ I);
        exists rr, aa; cbn [fst snd]; (split; [repeat split; auto|]); (split; [|auto]); rewrite Ec; apply in_or_app; right; apply in_map_iff; exists (rr, aa); auto. }
    destruct Q as [Q|(rr & aa & R & J & D)].
    - destruct (c2_c3 c Q) as [J|(rr & aa & A & B & C & D & J & K)]; [auto|]. right. right. exists rr, aa. split; [|auto].
      repeat split; auto; apply variant_c2; auto.
    - right. left. exists rr, aa. split; [exact R|]. split; [|exact D]. destruct (c2_c3 _ J) as [K|(r' & a' & _ & _ & V & W & _ & K)]; [exact K|].
      destruct R as (_ & _ & R & A & _). destruct (field_renamed_form rr aa R A) as (p & q & Q). rewrite Q in K. destruct K as [<-|<-]; discriminate.
  Qed.

  (** no field is added, removed or renamed twice *)
  Definition ftouch (c : change) : list (list string) :=
    match c with
    | FieldAdded p _ _ _ | FieldRemoved p _ _ _ => [p]
    | FieldRenamed p q => [p; q]
    | _ => []
    end.

  Lemma ftouch_c2 : Permutation (flat_map ftouch cs) (flat_map ftouch c2).
  Proof.
    destruct M2 as (ps & rest & Ec & P & _ & H & _). rewrite Ec, (Permutation_flat_map ftouch P), !flat_map_app. apply Permutation_app_head.
    clear P Ec. induction ps as [|[rr aa] ps IH]; [constructor|]. destruct (H rr aa (or_introl eq_refl)) as (R & A & _).
    destruct rr as [|pr ? ? ?| | | | | | | | | | ]; try discriminate R. destruct aa as [pa ? ? ?| | | | | | | | | | | ]; try discriminate A.
    cbn [map flat_map field_renamed ftouch fst snd app]. constructor. apply Permutation_sym, Permutation_cons_app. apply Permutation_sym, IH.
    intros r a I. apply H. now right.
  Qed.

  Lemma ftouch_c3 : Permutation (flat_map ftouch cs) (flat_map ftouch c3).
  Proof.
    rewrite ftouch_c2. destruct M3 as (ps & rest & Ec & P & _ & H & _). rewrite Ec, (Permutation_flat_map ftouch P), !flat_map_app. apply Permutation_app_head.
    clear P Ec. assert (E : flat_map ftouch (map fst ps) = [] /\ flat_map ftouch (map snd ps) = [] /\ flat_map ftouch (map (fun p => enum_renamed (snd p) (fst p)) ps) = []).
    { induction ps as [|[rr aa] ps IH]; [auto|]. destruct (H rr aa (or_introl eq_refl)) as (R & A & _).
      destruct IH as (I1 & I2 & I3); [intros r a I; apply H; now right|]. cbn [map flat_map fst snd]. rewrite I1, I2, I3.
      destruct rr; try discriminate R. destruct aa; try discriminate A. cbn. destruct (py_eq _ _); auto. }
    destruct E as (-> & -> & ->). constructor.
  Qed.

  (** a change of type is reported as often as found *)
  Definition is_TypeChanged (c : change) : bool := match c with TypeChanged _ _ _ => true | _ => false end.

  Lemma filter_perm {A} (f : A -> bool) (l m : list A) : Permutation l m -> Permutation (filter f l) (filter f m).
  Proof.
    induction 1; cbn [filter]; auto; repeat match goal with |- context [if f ?x then _ else _] => destruct (f x) end; auto; try constructor; auto.
    - transitivity (filter f l'); auto.
  Qed.

  Lemma filter_none {A} (f : A -> bool) (l : list A) : (forall x, In x l -> f x = false) -> filter f l = [].
  Proof.
    induction l as [|x l IH]; intros H; [reflexivity|]. cbn [filter]. rewrite (H x (or_introl eq_refl)). apply IH. intros y Y. apply H. now right.
  Qed.

  Lemma types_c3 : Permutation (filter is_TypeChanged cs) (filter is_TypeChanged c3).
  Proof.
    transitivity (filter is_TypeChanged c2).
    - destruct M2 as (ps & rest & Ec & P & _ & H & _). rewrite Ec, (filter_perm is_TypeChanged _ _ P), !filter_app. apply Permutation_app_head.
      rewrite !(filter_none is_TypeChanged); [constructor| | |]; intros x X; apply in_map_iff in X; destruct X as ([rr aa] & <- & X); destruct (H _ _ X) as (R & A & _);
        cbn [fst snd] in *; destruct rr; try discriminate R; destruct aa; try discriminate A; reflexivity.
    - destruct M3 as (ps & rest & Ec & P & _ & H & _). rewrite Ec, (filter_perm is_TypeChanged _ _ P), !filter_app. apply Permutation_app_head.
      rewrite !(filter_none is_TypeChanged); [constructor| | |]; intros x X; apply in_map_iff in X; destruct X as ([rr aa] & <- & X); destruct (H _ _ X) as (R & A & _);
        cbn [fst snd] in *; destruct rr; try discriminate R; destruct aa; try discriminate A; cbn; try destruct (py_eq _ _); reflexivity.
  Qed.
End Fate.

Lemma nodup_flat {A K L} (f : A -> K) (g : A -> list L) l : NoDup (map f l) -> (forall x, In x l -> NoDup (g x)) ->
  (forall x y z, In x l -> In y l -> In z (g x) -> In z (g y) -> f x = f y) -> NoDup (flat_map g l).
Proof.
  induction l as [|a l IH]; intros N D H; [constructor|]. cbn [map] in N. inversion N as [|? ? N1 N2]; subst. cbn [flat_map]. apply nodup_app.
  - apply D. now left.
  - apply IH; [exact N2|intros x X; apply D; now right|]. intros x y z X Y. apply H; now right.
  - intros z Z J. apply in_flat_map in J. destruct J as (y & Y & J). apply N1. rewrite (H a y z); auto; [|now left|now right]. now apply in_map.
Qed.

(** ** Which rules are proposed *)
Definition fixes (c : change) : list rule := match proposed_fix c with Some r => [r] | None => [] end.

Fixpoint ldepth (s : sty) : nat := match s with SList i => S (ldepth i) | _ => 0 end.
Lemma eqb_ldepth a : forall b, sty_eqb a b = true -> ldepth a = ldepth b.
Proof.
  induction a as [p|i IH|l IH|k v IHk IHv|l IH|nm fs ver IH|i IH|nm ms|l| ] using sty_ind'; intros [ ] H; try discriminate H; try reflexivity.
  cbn [ldepth]. f_equal. now apply IH.
Qed.

Lemma wrap_not_sub o : forall i, sflat o -> sty_eqb i o = true -> is_subtype o (SList i) = false.
Proof.
  induction o as [p|o IH|l IH|k v IHk IHv|l IH|nm fs ver IH|o IH|nm ms|l| ] using sty_ind'; intros i Fl Q; try (destruct Fl; fail);
    rewrite is_subtype_unfold; cbv zeta; cbn [sty_eqb]; try reflexivity.
  - now rewrite andb_false_r.
  - destruct i as [ |i| | | | | | | | ]; try discriminate Q. cbn [sty_eqb] in Q. rewrite (IH i Fl Q).
    destruct (sty_eqb o (SList i)) eqn:R; [|reflexivity]. exfalso. apply eqb_ldepth in R, Q. cbn [ldepth] in R. lia.
Qed.

Lemma sub_no_fix p o n : sflat o -> is_subtype o n = true -> match o, n with SLit _, SLit _ => False | _, _ => True end -> proposed_fix (TypeChanged p o n) = None.
Proof.
  intros Fl Q H. cbn [proposed_fix]. destruct (wraps_in_list n o) eqn:W.
  - exfalso. destruct n; try discriminate W. cbn in W. rewrite (wrap_not_sub o _ Fl W) in Q. discriminate.
  - destruct n; try reflexivity. exfalso. rewrite is_subtype_unfold in Q. cbv zeta in Q. destruct o; try (destruct Fl; fail); try (destruct H; fail); cbn [sty_eqb] in Q; rewrite ?andb_false_r in Q; discriminate.
Qed.

Lemma fix_touched c r : proposed_fix c = Some r -> touched r = match c with FieldRenamed p q => (p ++ q)%list | _ => kpath c end.
Proof.
  destruct c as [p t d h| | | | |p o n| | | | | | ]; cbn [proposed_fix]; intros H; try discriminate H; try (injection H as <-; reflexivity).
  - destruct h; [discriminate H|]. destruct t; try discriminate H; injection H as <-; reflexivity.
  - destruct (wraps_in_list n o); [injection H as <-; reflexivity|]. destruct n; try discriminate H. injection H as <-. reflexivity.
Qed.

Lemma exact_sym' a x : exact a -> py_eq a x = true -> py_eq x a = true.
Proof.
  destruct a; intros A; try (destruct A; fail); destruct x; cbn [py_eq]; try discriminate; auto; unfold num_eq; cbn [as_int];
    rewrite ?Z.eqb_eq, ?String.eqb_eq; auto.
Qed.

(** equality of schemas is symmetric on types of flat annotations *)
Lemma dict_eqb_sym (a b : list (string * pyval)) : NoDup (map fst a) -> NoDup (map fst b) ->
  all (fun m => exact (snd m)) a -> all (fun m => exact (snd m)) b -> dict_eqb py_eq a b = true -> dict_eqb py_eq b a = true.
Proof.
  intros Na Nb Xa Xb H. unfold dict_eqb in *. apply andb_true_iff in H. destruct H as [Hl H]. apply Nat.eqb_eq in Hl. rewrite forallb_forall in H.
  rewrite all_in in Xa, Xb. rewrite Hl, Nat.eqb_refl. cbn [andb]. apply forallb_forall. intros [k w] I. cbn [fst snd].
  assert (Inc : incl (map fst b) (map fst a)).
  { apply NoDup_length_incl; [exact Na|rewrite !map_length; lia|]. intros k' J. apply in_map_iff in J. destruct J as ([k2 v2] & <- & J). specialize (H _ J).
    cbn [fst snd] in *. destruct (aget k2 b) eqn:Q; [|discriminate H]. apply aget_some_in in Q. apply in_map_iff. now exists (k2, p). }
  assert (J : In k (map fst a)) by (apply Inc, in_map_iff; now exists (k, w)). apply in_map_iff in J. destruct J as ([k2 v] & Q & J). cbn [fst] in Q. subst k2.
  rewrite (in_nodup_aget k v a Na J). specialize (H _ J). cbn [fst snd] in H. rewrite (in_nodup_aget k w b Nb I) in H.
  apply exact_sym; auto; [apply (Xa _ J)|apply (Xb _ I)].
Qed.

Lemma eqb_sym_flat t : forall u s r, flat t -> exact_values t -> exact_values u -> names_differ t -> names_differ u ->
  materialize_type t = Ok s -> materialize_type u = Ok r -> sty_eqb r s = true -> sty_eqb s r = true.
Proof.
  induction t as [| | | | |i IH|l IH|kt vt IHk IHv|i IH|l IH|c fs IH|n ms|l|n] using ty_ind'; intros u s r Fl X Xu N Nu Ms Mr Q; try (destruct Fl; fail);
    destruct u as [| | | | |u|l0|u1 u2|u|l0|c0 l0|n0 l0|l0|n0]; cbn [materialize_type] in Ms, Mr; try discriminate Ms; try discriminate Mr;
    repeat match goal with H : rbind _ _ = Ok _ |- _ => let s := fresh "s" in let M := fresh "M" in apply rbind_ok in H; destruct H as (s & M & H) end;
    injection Ms as <-; injection Mr as <-; try discriminate Q; try exact Q; cbn [sty_eqb] in Q |- *.
  - apply (IH u); auto.
  - match goal with A : rmap _ l = Ok ?x, B : rmap _ l0 = Ok ?y |- _ => apply rmap_forall2 in A; apply rmap_forall2 in B; rename A into HA; rename B into HB end.
    cbn [exact_values names_differ flat] in *. revert l0 s0 HB X Xu N Nu Fl Q IH. induction HA as [|a y l ys Ha HA IHA]; intros l0 s0 HB X Xu N Nu Fl Q IH.
    + destruct s0; [reflexivity|discriminate Q].
    + destruct HB as [|b z l0 zs Hb HB]; [discriminate Q|]. cbn [list_eqb] in Q |- *. apply andb_true_iff in Q. destruct Q as [Q1 Q2].
      apply Forall_cons_iff in IH. destruct IH as [Hh IH]. destruct X, Xu, N, Nu, Fl.
      apply andb_true_iff. split; [apply (Hh b); auto|apply (IHA l0); auto].
  - apply andb_true_iff in Q. destruct Q as [Q1 Q2]. destruct X, Xu, N, Nu, Fl. apply andb_true_iff. split; [apply (IHk u1); auto|apply (IHv u2); auto].
  - apply andb_true_iff in Q. destruct Q as [Q1 Q2]. apply andb_true_iff. split; [apply String.eqb_eq in Q1; subst; apply String.eqb_refl|].
    apply dict_eqb_sym; auto.
  - unfold set_eqb in *. apply andb_true_iff in Q. destruct Q as [Q1 Q2]. now rewrite Q1, Q2.
Qed.

Lemma field_similar p t d h p' t' d' h' x : field_similarity (FieldAdded p t d h) (FieldRemoved p' t' d' h') = Some x -> is_subtype t' t = true /\ h' = h.
Proof.
  cbn [field_similarity]. intros Q. destruct (is_subtype t' t); [|discriminate Q]. split; [reflexivity|].
  cbn [andb] in Q. destruct (Bool.eqb h' h) eqn:Hd; [|discriminate Q]. now apply Bool.eqb_prop in Hd.
Qed.

Section Main.
  Variable E : env.
  Variable fs gs : list (string * (ty * dflt)).
  Hypothesis Nf : NoDup (field_names fs).
  Hypothesis Ng : NoDup (field_names gs).
  Hypothesis Df : one_level fs.
  Hypothesis Dg : one_level gs.
  Variable cs c2 c3 : list change.
  Variable fsim esim : change -> change -> option pyfloat.
  Hypothesis Orig : forall c, In c cs -> flat_origin fs gs c.
  Hypothesis KeptIn : forall n t od u fd, aget n fs = Some (t, od) -> aget n gs = Some (u, fd) ->
    exists inner, kept fs gs n t od u fd inner /\ incl (inner ++ default_changes [] n (meta n od) (meta n fd)) cs.
  Hypothesis AddedIn : forall n u fd, aget n fs = None -> aget n gs = Some (u, fd) ->
    exists r, materialize_type u = Ok r /\ In (FieldAdded [n] r (schema_default (default_value fd)) (has_default fd)) cs.
  Hypothesis RemovedIn : forall n t od, aget n fs = Some (t, od) -> aget n gs = None ->
    exists s, materialize_type t = Ok s /\ In (FieldRemoved [n] s (schema_default (default_value od)) (has_default od)) cs.
  Hypothesis Nk : NoDup (map change_key cs).
  Hypothesis M2 : matching is_FieldAdded is_FieldRemoved fsim field_renamed cs c2.
  Hypothesis M3 : matching is_VariantAdded is_VariantRemoved esim enum_renamed c2 c3.
  Hypothesis Fsim : forall p t d h p' t' d' h' x, fsim (FieldAdded p t d h) (FieldRemoved p' t' d' h') = Some x -> is_subtype t' t = true /\ h' = h.
  Hypothesis Rep : forall c, In c c3 -> repairable E fs gs c3 c.
  Hypothesis Sev : forall c, In c c3 -> change_severity c <> ERROR.

  Lemma orig c : In c cs -> flat_origin fs gs c.
  Proof. apply Orig. Qed.
  Lemma dataless_g n u fd : aget n gs = Some (u, fd) -> dataless u.
  Proof. intros G. pose proof Dg as D. unfold one_level in D. rewrite all_in in D. apply aget_some_in in G. apply (D _ G). Qed.
  Lemma dataless_f n u fd : aget n fs = Some (u, fd) -> dataless u.
  Proof. intros G. pose proof Df as D. unfold one_level in D. rewrite all_in in D. apply aget_some_in in G. apply (D _ G). Qed.

  Definition in_both (n : string) : Prop := exists t od u fd, aget n fs = Some (t, od) /\ aget n gs = Some (u, fd).
  Definition gone (n : string) : Prop := (exists t od, aget n fs = Some (t, od)) /\ aget n gs = None.
  Definition fresh_field (n : string) : Prop := aget n fs = None /\ exists u fd, aget n gs = Some (u, fd).

  Inductive shape : change -> Prop :=
  | sh_added n t d h : fresh_field n -> shape (FieldAdded [n] t d h)
  | sh_removed n t d h : gone n -> shape (FieldRemoved [n] t d h)
  | sh_renamed a b : gone a -> fresh_field b -> shape (FieldRenamed [a] [b])
  | sh_kept n c : in_both n -> kpath c = [n] -> ftouch c = [] -> shape c
  | sh_variant p e v w : shape (EnumVariantRenamed p e v w).

  Lemma shape_cs c : In c cs -> shape c.
  Proof.
    intros I. pose proof (orig c I) as O. destruct c; cbn [flat_origin] in O; try (destruct O; fail);
      try (destruct O as (n & t & od & u & fd & inner & P & (Ef & Eg & _) & _); apply (sh_kept n); [exists t, od, u, fd; auto|exact P|reflexivity]).
    - destruct O as (n & u & fd & -> & G & _ & _ & _ & N). apply sh_added. split; eauto.
    - destruct O as (n & u & fd & -> & G & _ & _ & _ & N). apply sh_removed. split; eauto.
  Qed.

  Lemma shape_c3 c : In c c3 -> shape c.
  Proof.
    intros I. destruct (report_origin cs c2 c3 fsim esim M2 M3 c I) as [J|[(rr & aa & R & A & Q1 & Q2 & _ & ->)|(rr & aa & R & A & Q1 & Q2 & ->)]].
    - now apply shape_cs.
    - apply shape_cs in R, A. destruct rr; try discriminate Q1. destruct aa; try discriminate Q2. inversion R; subst; [|discriminate]. inversion A; subst; [|discriminate].
      now apply sh_renamed.
    - apply shape_cs in R. destruct rr as [| | | | | | |p e v x| | | | ]; try discriminate Q1. destruct aa as [| | | | | | | |p' e' v' x'| | | ]; try discriminate Q2. cbn [enum_renamed].
      destruct (py_eq x x'); cbn [negb]; [apply sh_variant|]. inversion R; subst. apply (sh_kept n); auto.
  Qed.

  Lemma fix_simple r : In r (flat_map fixes c3) -> simple_rule r.
  Proof.
    intros I. apply in_flat_map in I. destruct I as (c & Ic & I). unfold fixes in I. destruct (proposed_fix c) as [r0|] eqn:P; [|destruct I].
    destruct I as [<-|[]]. pose proof (shape_c3 c Ic) as S. pose proof (Rep c Ic) as Rc.
    destruct S as [n t d h H|n t d h H|a b H H'|n c H Hk Ht|p e v w].
    - cbn [proposed_fix] in P. destruct h; [discriminate P|]. destruct t; try discriminate P; injection P as <-; exact Logic.I.
    - injection P as <-. exact Logic.I.
    - injection P as <-. cbn [simple_rule]. intros ->. destruct H as [(t & od & H) _], H' as [H' _]. congruence.
    - destruct c as [| | |p o n'|p o|p o n'|p e v o n'|p e v o|p e v o| | |p vs]; try discriminate Ht; cbn in Hk; try subst p; cbn [proposed_fix] in P; try discriminate P;
        try (injection P as <-; exact Logic.I).
      + destruct (wraps_in_list n' o) eqn:W.
        * injection P as <-. cbn [simple_rule]. intros x. eauto.
        * exfalso. destruct n' as [| | | | | | | |values| ]; try discriminate P. destruct Rc as [Fl [Q|(i & f & t & d & Q & _)]]; [|discriminate Q].
          assert (B : In (TypeChanged [n] o (SLit values)) cs).
          { destruct (report_origin cs c2 c3 fsim esim M2 M3 _ Ic) as [J|[(rr & aa & _ & _ & Q1 & Q2 & _ & Q')|(rr & aa & _ & _ & Q1 & Q2 & Q')]]; [exact J| |].
            - destruct (field_renamed_form rr aa Q1 Q2) as (? & ? & Q3). rewrite Q3 in Q'. discriminate.
            - destruct rr; try discriminate Q1. destruct aa; try discriminate Q2. cbn in Q'. destruct (py_eq _ _); discriminate. }
          pose proof (orig _ B) as (n0 & t & od & u & fd & inner & P0 & (Ef & Eg & s & r & Ms & Mr & Fi) & In').
          apply in_app_or in In'. destruct In' as [In'|In'].
          -- destruct (leaf_changes u r s [n0] inner _ (dataless_g _ _ _ Eg) Mr Fi In') as [[_ L] _].
             pose proof (sub_no_fix [n] o (SLit values) Fl Q L) as Z. cbn [proposed_fix] in Z. rewrite W in Z. discriminate.
          -- unfold default_changes in In'. repeat match type of In' with In _ (if ?b then _ else _) => destruct b end; try (destruct In'; fail); destruct In' as [In'|[]]; discriminate.
      + injection P as <-. cbn [simple_rule]. intros x. eauto.
      + destruct Rc.
    - discriminate P.
  Qed.

  Lemma nodup_ftouch : NoDup (flat_map ftouch c3).
  Proof.
    eapply Permutation_NoDup; [apply (ftouch_c3 cs c2 c3 fsim esim M2 M3)|]. apply (nodup_flat change_key).
    - exact Nk.
    - intros x X. apply shape_cs in X. destruct X; cbn [ftouch]; try (repeat constructor; intros []; fail).
      + constructor; [|repeat constructor; intros []]. intros [Q|[]]. injection Q as <-. destruct H as [(t & od & H) _], H0 as [H0 _]. congruence.
      + rewrite H1. constructor.
    - intros x y z X Y Zx Zy. pose proof (orig x X) as Ox. pose proof (orig y Y) as Oy.
      destruct x; try (destruct Zx; fail); try (destruct Ox; fail); destruct y; try (destruct Zy; fail); try (destruct Oy; fail);
        destruct Zx as [<-|[]]; destruct Zy as [->|[]]; auto; exfalso;
        destruct Ox as (n & u & fd & -> & G & _ & _ & _ & N); destruct Oy as (n' & u' & fd' & Q & G' & _ & _ & _ & N'); injection Q as <-; congruence.
  Qed.

  (** rules from other changes leave the fields of an added, removed or renamed field alone *)
  Lemma others_untouched c l1 l2 k : c3 = (l1 ++ c :: l2)%list -> In [k] (ftouch c) ->
    forall r, In r (flat_map fixes l1) \/ In r (flat_map fixes l2) -> ~ In k (touched r).
  Proof.
    intros Ec Ik r I T. pose proof nodup_ftouch as N. rewrite Ec in N. rewrite flat_map_app in N. cbn [flat_map] in N.
    assert (J : exists c', In c' (l1 ++ l2) /\ proposed_fix c' = Some r).
    { destruct I as [I|I]; apply in_flat_map in I; destruct I as (c' & J & I); exists c'; unfold fixes in I;
        (destruct (proposed_fix c'); [destruct I as [<-|[]]|destruct I]); (split; [apply in_or_app; auto|reflexivity]). }
    destruct J as (c' & J & P). pose proof (fix_touched _ _ P) as Q. rewrite Q in T.
    assert (Sc : shape c) by (apply shape_c3; rewrite Ec; apply in_or_app; right; now left).
    assert (Sc' : shape c').
    { apply shape_c3. rewrite Ec. apply in_app_or in J. apply in_or_app. destruct J; [now left|right; now right]. }
    assert (Nb : ~ in_both k).
    { intros (t & od & u & fd & A & B). inversion Sc as [n ? ? ? H|n ? ? ? H|a b H H'|n ? H ? Ht|]; subst; cbn [ftouch In] in Ik.
      - destruct Ik as [Ik|[]]. injection Ik as <-. destruct H as [H _]. congruence.
      - destruct Ik as [Ik|[]]. injection Ik as <-. destruct H as [_ H]. congruence.
      - destruct Ik as [Ik|[Ik|[]]]; injection Ik as <-; [destruct H as [_ H]|destruct H' as [H' _]]; congruence.
      - rewrite Ht in Ik. destruct Ik.
      - destruct Ik. }
    assert (Dj : ~ In [k] (ftouch c')).
    { intros D. assert (Dd : In [k] (flat_map ftouch l1) \/ In [k] (flat_map ftouch l2)).
      { apply in_app_or in J. destruct J as [J|J]; [left|right]; apply in_flat_map; eauto. }
      destruct Dd as [Dd|Dd].
      - apply in_split in Dd. destruct Dd as (x & y & Dd). rewrite Dd in N. rewrite <- app_assoc in N. apply NoDup_remove_2 in N. apply N.
        apply in_or_app. right. apply in_or_app. right. apply in_or_app. now left.
      - rewrite app_assoc in N. apply in_split in Ik. destruct Ik as (x & y & Ik). rewrite Ik in N.
        replace ((flat_map ftouch l1 ++ x ++ [k] :: y) ++ flat_map ftouch l2)%list with ((flat_map ftouch l1 ++ x) ++ [k] :: (y ++ flat_map ftouch l2))%list in N by (rewrite <- !app_assoc; reflexivity).
        apply NoDup_remove_2 in N. apply N. apply in_or_app. right. apply in_or_app. now right. }
    inversion Sc' as [n ? ? ? H|n ? ? ? H|a b H H'|n ? H Hk Ht|]; subst; cbn in T, Dj; try tauto.
    - destruct T as [<-|[]]. tauto.
    - destruct T as [<-|[]]. tauto.
    - destruct T as [<-|[<-|[]]]; tauto.
    - destruct c'; try discriminate Ht; try (rewrite Hk in T; destruct T as [<-|[]]; tauto).
    - discriminate P.
  Qed.

  Lemma shape_renamed p q : shape (FieldRenamed p q) -> exists a b, p = [a] /\ q = [b] /\ gone a /\ fresh_field b.
  Proof. intros Sh. inversion Sh as [| |a b Hg Hf Ea|x ? ? ? Ht|]; subst; [|discriminate Ht]. eauto 6. Qed.

  Lemma split_fix c : In c c3 -> forall s, exists l1 l2, c3 = (l1 ++ c :: l2)%list /\
    fin (flat_map fixes c3) s = fin (flat_map fixes l2) (fin (fixes c) (fin (flat_map fixes l1) s)).
  Proof.
    intros I s. apply in_split in I. destruct I as (l1 & l2 & Ec). exists l1, l2. split; [exact Ec|].
    rewrite Ec, flat_map_app. cbn [flat_map]. now rewrite !fin_app.
  Qed.

  Lemma fin_gone n s : gone n -> fin (flat_map fixes c3) s n = None.
  Proof.
    intros ((t & od & Ef) & Eg). destruct (RemovedIn n t od Ef Eg) as (st & _ & I).
    destruct (report_fate cs c2 c3 fsim esim M2 M3 _ I) as [J|[(rr & aa & R & J & D)|(rr & aa & R & J & D)]].
    - destruct (split_fix _ J s) as (l1 & l2 & Ec & ->).
      rewrite fin_untouched by (intros r Ir; apply (others_untouched _ l1 l2 n Ec); [now left|auto]).
      cbn [fixes proposed_fix fin fold_left act]. apply put_same.
    - destruct R as (R1 & R2 & Q1 & Q2 & _). destruct D as [<-|<-]; [|discriminate Q2]. destruct aa as [q ta da ha| | | | | | | | | | | ]; try discriminate Q2.
      cbn [field_renamed] in J. destruct (split_fix _ J s) as (l1 & l2 & Ec & ->).
      destruct (shape_renamed _ _ (shape_c3 _ J)) as (a & b & Ea & -> & Hg & Hf). injection Ea as <-.
      rewrite fin_untouched by (intros r Ir; apply (others_untouched _ l1 l2 n Ec); [now left|auto]).
      generalize (fin (flat_map fixes l1) s). intros s1. cbn [fixes proposed_fix fin fold_left act]. destruct (s1 n) eqn:Q; [|exact Q].
      rewrite put_other; [apply put_same|]. intros ->. destruct Hf as [Hf _]. congruence.
    - destruct R as (_ & _ & Q1 & Q2 & _). destruct D as [<-|<-]; discriminate.
  Qed.

  Lemma fin_fresh n u fd s : aget n fs = None -> aget n gs = Some (u, fd) -> s n = None ->
    (exists a t od st r, In (FieldRenamed [a] [n]) c3 /\ aget a fs = Some (t, od) /\ materialize_type t = Ok st /\ materialize_type u = Ok r /\
       is_subtype st r = true /\ has_default od = has_default fd /\ fin (flat_map fixes c3) s n = s a) \/
    (has_default fd = true /\ fin (flat_map fixes c3) s n = None) \/
    (exists w, fin (flat_map fixes c3) s n = Some w /\ writable E u w).
  Proof.
    intros Ef Eg Sn. destruct (AddedIn n u fd Ef Eg) as (r & Mr & I).
    destruct (report_fate cs c2 c3 fsim esim M2 M3 _ I) as [J|[(rr & aa & R & J & D)|(rr & aa & R & J & D)]].
    - right. destruct (split_fix _ J s) as (l1 & l2 & Ec & ->).
      rewrite fin_untouched by (intros r0 Ir; apply (others_untouched _ l1 l2 n Ec); [now left|auto]).
      assert (U1 : fin (flat_map fixes l1) s n = None).
      { rewrite fin_untouched; [exact Sn|]. intros r0 Ir. apply (others_untouched _ l1 l2 n Ec); [now left|auto]. }
      revert U1. generalize (fin (flat_map fixes l1) s). intros s1 U1.
      pose proof (Sev _ J) as Sv. cbn [change_severity] in Sv. unfold default_severity in Sv. unfold fixes. cbn [proposed_fix] in Sv |- *.
      destruct (has_default fd) eqn:Hd; [left; split; [reflexivity|exact U1]|]. right.
      destruct r as [ |i| | | | |i| | | ]; try (now destruct Sv); cbn [fin fold_left act]; rewrite put_same, U1.
      + exists (VList []). split; [reflexivity|]. split; [reflexivity|]. intros al ff. destruct u; cbn [materialize_type] in Mr; try discriminate Mr;
          repeat match type of Mr with rbind _ _ = Ok _ => apply rbind_ok in Mr; destruct Mr as (? & ? & Mr) end; try discriminate Mr.
        exists (VList []). cbn [denotes]. exists [], []. auto.
      + exists VNone. split; [reflexivity|]. split; [reflexivity|]. intros al ff. destruct u; cbn [materialize_type] in Mr; try discriminate Mr;
          repeat match type of Mr with rbind _ _ = Ok _ => apply rbind_ok in Mr; destruct Mr as (? & ? & Mr) end; try discriminate Mr.
        exists VNone. left. auto.
    - left. destruct R as (R1 & R2 & Q1 & Q2 & Q3 & _). destruct D as [<-|<-]; [discriminate Q1|]. destruct rr as [|p tr dr hr| | | | | | | | | | ]; try discriminate Q1.
      cbn [field_renamed] in J. destruct (split_fix _ J s) as (l1 & l2 & Ec & Ef').
      pose proof (orig _ R1) as (a & t & od & -> & Ea & Mt & -> & -> & Na).
      exists a, t, od, tr, r. split; [exact J|]. split; [exact Ea|]. split; [exact Mt|]. split; [exact Mr|].
      destruct Q3 as (x & Q3 & _). apply Fsim in Q3. destruct Q3 as [Sub Hd]. split; [exact Sub|]. split; [exact Hd|].
      rewrite Ef'.
      rewrite fin_untouched by (intros r0 Ir; apply (others_untouched _ l1 l2 n Ec); [right; now left|auto]).
      assert (U1 : fin (flat_map fixes l1) s n = None).
      { rewrite fin_untouched; [exact Sn|]. intros r0 Ir. apply (others_untouched _ l1 l2 n Ec); [right; now left|auto]. }
      assert (U2 : fin (flat_map fixes l1) s a = s a).
      { apply fin_untouched. intros r0 Ir. apply (others_untouched _ l1 l2 a Ec); [now left|auto]. }
      revert U1 U2. generalize (fin (flat_map fixes l1) s). intros s1 U1 U2. cbn [fixes proposed_fix fin fold_left act]. rewrite U2. destruct (s a) eqn:Sa; [apply put_same|exact U1].
    - destruct R as (_ & _ & Q1 & Q2 & _). destruct D as [<-|<-]; discriminate.
  Qed.

  Lemma stays c : In c cs -> is_FieldAdded c = false -> is_FieldRemoved c = false -> is_VariantAdded c = false -> is_VariantRemoved c = false -> In c c3.
  Proof.
    intros I A B C D. destruct (report_fate cs c2 c3 fsim esim M2 M3 _ I) as [J|[(rr & aa & R & _ & K)|(rr & aa & R & _ & K)]]; [exact J| |].
    - destruct R as (_ & _ & Q1 & Q2 & _). destruct K as [->| ->]; congruence.
    - destruct R as (_ & _ & Q1 & Q2 & _). destruct K as [->| ->]; congruence.
  Qed.

  Lemma type_from p o n : In (TypeChanged p o n) c3 -> In (TypeChanged p o n) cs.
  Proof.
    intros Ic. destruct (report_origin cs c2 c3 fsim esim M2 M3 _ Ic) as [J|[(rr & aa & _ & _ & Q1 & Q2 & _ & Q')|(rr & aa & _ & _ & Q1 & Q2 & Q')]]; [exact J| |].
    - destruct (field_renamed_form rr aa Q1 Q2) as (? & ? & Q3). rewrite Q3 in Q'. discriminate.
    - destruct rr; try discriminate Q1. destruct aa; try discriminate Q2. cbn in Q'. destruct (py_eq _ _); discriminate.
  Qed.

  Lemma types_once : NoDup (filter is_TypeChanged c3).
  Proof.
    eapply Permutation_NoDup; [apply (types_c3 cs c2 c3 fsim esim M2 M3)|]. apply NoDup_filter. eapply NoDup_map_inv. exact Nk.
  Qed.

  Lemma kept_same n t od u fd inner inner' : kept fs gs n t od u fd inner -> kept fs gs n t od u fd inner' -> inner = inner'.
  Proof.
    intros (_ & _ & s & r & Ms & Mr & Fi) (_ & _ & s' & r' & Ms' & Mr' & Fi'). congruence.
  Qed.

  (** a change found at a field of both classes comes from its section *)
  Lemma at_field c n t od u fd inner : In c cs -> kpath c = [n] -> kept fs gs n t od u fd inner ->
    In c (inner ++ default_changes [] n (meta n od) (meta n fd)).
  Proof.
    intros I P K. pose proof (orig c I) as O. assert (B : in_both n) by (destruct K as (Ef & Eg & _); exists t, od, u, fd; auto).
    destruct c; cbn [flat_origin] in O; try (destruct O; fail);
      try (destruct O as (n' & t' & od' & u' & fd' & inner' & P' & K' & J); rewrite P in P'; injection P' as <-;
           assert (Q : (t, od) = (t', od') /\ (u, fd) = (u', fd')) by (destruct K as (E1 & E2 & _), K' as (E1' & E2' & _); split; congruence);
           destruct Q as [Q1 Q2]; injection Q1 as <- <-; injection Q2 as <- <-; rewrite (kept_same _ _ _ _ _ _ _ K K'); exact J).
    - exfalso. destruct O as (n' & u' & fd' & -> & _ & _ & _ & _ & N). cbn in P. injection P as ->. destruct K as (Ef & _). congruence.
    - exfalso. destruct O as (n' & u' & fd' & -> & _ & _ & _ & _ & N). cbn in P. injection P as ->. destruct K as (_ & Eg & _). congruence.
  Qed.

  Lemma in_default c n (a b : fmeta) : In c (default_changes [] n a b) ->
    c = DefaultValueRemoved [n] (fm_default a) \/ c = DefaultValueChanged [n] (fm_default a) (fm_default b).
  Proof.
    unfold default_changes. intros I. repeat match type of I with In _ (if ?b then _ else _) => destruct b end; try (destruct I; fail); destruct I as [<-|[]]; auto.
  Qed.

  Lemma default_in_c3 n t od u fd inner c : kept fs gs n t od u fd inner -> In c (default_changes [] n (meta n od) (meta n fd)) -> In c c3.
  Proof.
    intros (Ef & Eg & _) I. destruct (KeptIn n t od u fd Ef Eg) as (inner' & _ & Inc).
    assert (J : In c cs) by (apply Inc; apply in_or_app; now right).
    apply in_default in I. destruct I as [->| ->]; now apply stays.
  Qed.

  Lemma kept_rule n r : in_both n -> In r (flat_map fixes c3) -> In n (touched r) ->
    exists c, In c c3 /\ proposed_fix c = Some r /\ kpath c = [n] /\ ftouch c = [].
  Proof.
    intros (t & od & u & fd & Ef & Eg) I T. apply in_flat_map in I. destruct I as (c & Ic & I). unfold fixes in I.
    destruct (proposed_fix c) as [r0|] eqn:P; [|destruct I]. destruct I as [<-|[]]. exists c. split; [exact Ic|]. split; [exact P|].
    rewrite (fix_touched _ _ P) in T. pose proof (shape_c3 c Ic) as Sh.
    destruct Sh as [a ty0 d h H|a ty0 d h H|a b H H'|a c H Hk Ht|]; cbn in T.
    - exfalso. destruct T as [->|[]]. destruct H as [H _]. congruence.
    - exfalso. destruct T as [->|[]]. destruct H as [_ H]. congruence.
    - exfalso. destruct T as [->|[->|[]]]; [destruct H as [_ H]|destruct H' as [H' _]]; congruence.
    - destruct c; try discriminate Ht; rewrite Hk in T; destruct T as [->|[]]; auto.
    - discriminate P.
  Qed.

  Lemma has_old_default n t od u fd inner v : kept fs gs n t od u fd inner ->
    default_field t od (VDict []) v -> ~ (exists o, In (DefaultValueRemoved [n] o) c3) -> has_default fd = true.
  Proof.
    intros K D N. assert (Ho : has_default od = true).
    { destruct od; auto. destruct D as [D _]. pose proof K as (Ef & _). pose proof (dataless_f _ _ _ Ef) as Dl.
      pose proof (default_constructible _ _ D) as Q. destruct t; try discriminate Q. destruct Dl. }
    destruct (has_default fd) eqn:Hf; [reflexivity|]. exfalso. apply N. exists (schema_default (default_value od)).
    apply (default_in_c3 n t od u fd inner _ K). unfold default_changes. cbn [fm_has_default fm_default]. rewrite Ho, Hf. now left.
  Qed.

  (** *** a field that is wrapped in a list *)
  Lemma fin_wrap n t od u fd inner o x : kept fs gs n t od u fd inner -> In (TypeChanged [n] o x) c3 -> proposed_fix (TypeChanged [n] o x) <> None ->
    ~ default_changed n c3 /\ exists i, x = SList i /\ sflat o /\ sty_eqb i o = true /\ materialize_type t = Ok o /\ materialize_type u = Ok x /\
    forall s, fin (flat_map fixes c3) s n = option_map (fun y => VList [y]) (s n).
  Proof.
    intros K Ic P. pose proof (type_from _ _ _ Ic) as Is. pose proof (at_field _ _ _ _ _ _ _ Is eq_refl K) as J.
    apply in_app_or in J. destruct J as [J|J]; [|apply in_default in J; destruct J; discriminate].
    pose proof K as (Ef & Eg & st & r & Ms & Mr & Fi).
    destruct (leaf_changes u r st [n] inner _ (dataless_g _ _ _ Eg) Mr Fi J) as [[_ L] L2].
    destruct (Rep _ Ic) as [Fl [Sub|(i & f & t' & d' & -> & Q & Ef' & Mo & Nd)]]; [exfalso; apply P, sub_no_fix; auto|].
    injection Q as <-. rewrite Ef in Ef'. injection Ef' as <- <-. rewrite Ms in Mo. injection Mo as ->.
    destruct (L2 _ _ _ eq_refl) as [Ei|Lt]; [|lia]. rewrite Ei in J. destruct J as [J|[]]. injection J as ->. subst inner.
    split; [exact Nd|]. exists i. split; [reflexivity|]. split; [exact Fl|].
    assert (W : sty_eqb i o = true).
    { cbn [proposed_fix wraps_in_list] in P. destruct (sty_eqb i o); [reflexivity|]. now destruct P. }
    split; [exact W|]. split; [exact Ms|]. split; [exact Mr|]. intros s.
    destruct (split_fix _ Ic s) as (l1 & l2 & Ec & ->).
    assert (Un : forall r0, In r0 (flat_map fixes l1) \/ In r0 (flat_map fixes l2) -> ~ In n (touched r0)).
    { intros r0 Ir T.
      assert (Jc : exists c', In c' (l1 ++ l2) /\ proposed_fix c' = Some r0).
      { destruct Ir as [I|I]; apply in_flat_map in I; destruct I as (c' & J & I); exists c'; unfold fixes in I;
          (destruct (proposed_fix c'); [destruct I as [<-|[]]|destruct I]); (split; [apply in_or_app; auto|reflexivity]). }
      destruct Jc as (c' & Jc & Pc).
      assert (Ic' : In c' c3) by (rewrite Ec; apply in_app_or in Jc; apply in_or_app; destruct Jc; [now left|right; now right]).
      assert (Kc : kpath c' = [n] /\ ftouch c' = []).
      { rewrite (fix_touched _ _ Pc) in T. pose proof (shape_c3 c' Ic') as Sh.
        destruct Sh as [a ty0 d h H|a ty0 d h H|a b H H'|a c H Hk Ht|]; cbn in T.
        - exfalso. destruct T as [->|[]]. destruct H as [H _]. congruence.
        - exfalso. destruct T as [->|[]]. destruct H as [_ H]. congruence.
        - exfalso. destruct T as [->|[->|[]]]; [destruct H as [_ H]|destruct H' as [H' _]]; congruence.
        - destruct c; try discriminate Ht; rewrite Hk in T; destruct T as [->|[]]; auto.
        - discriminate Pc. }
      destruct Kc as [Kc Tc].
      assert (Sect : forall c0, In c0 cs -> kpath c0 = [n] -> c0 = TypeChanged [n] o (SList i) \/ In c0 (default_changes [] n (meta n od) (meta n fd))).
      { intros c0 I0 K0. pose proof (at_field _ _ _ _ _ _ _ I0 K0 K) as A. apply in_app_or in A. destruct A as [[A|[]]|A]; auto. }
      destruct (report_origin cs c2 c3 fsim esim M2 M3 _ Ic') as [Jo|[(rr & aa & _ & _ & Q1 & Q2 & _ & Q')|(rr & aa & R1 & R2 & Q1 & Q2 & Q')]].
      - destruct (Sect _ Jo Kc) as [->|A].
        + pose proof types_once as N. rewrite Ec in N. rewrite filter_app in N. cbn [filter is_TypeChanged] in N. apply NoDup_remove_2 in N. apply N.
          apply in_app_or in Jc. apply in_or_app. destruct Jc as [Jc|Jc]; [left|right]; apply filter_In; auto.
        + apply in_default in A. apply Nd. destruct A as [->| ->]; eexists; eauto.
      - destruct (field_renamed_form rr aa Q1 Q2) as (? & ? & Q3). rewrite Q3 in Q'. subst c'. discriminate Tc.
      - destruct rr as [| | | | | | |p e v y| | | | ]; try discriminate Q1. destruct aa as [| | | | | | | |p' e' v' y'| | | ]; try discriminate Q2. cbn [enum_renamed] in Q'.
        destruct (py_eq y y'); subst c'; [discriminate Pc|]. cbn in Kc. subst p.
        destruct (Sect _ R1 eq_refl) as [A|A]; [discriminate A|]. apply in_default in A. destruct A; discriminate. }
    rewrite fin_untouched by (intros r0 Ir; apply Un; auto).
    assert (U1 : fin (flat_map fixes l1) s n = s n) by (apply fin_untouched; intros r0 Ir; apply Un; auto).
    revert U1. generalize (fin (flat_map fixes l1) s). intros s1 U1. unfold fixes. cbn [proposed_fix wraps_in_list]. rewrite W.
    cbn [fin fold_left act]. rewrite U1. destruct (s n) as [y|] eqn:Sn; [apply put_same|]. exact U1.
  Qed.

  (** *** a field that is not wrapped *)
  Variable c c' : cinfo.
  Hypothesis Lost : forall n e v y p' e' v' y' u fd ms, In (EnumVariantRemoved [n] e v y) cs -> In (EnumVariantAdded p' e' v' y') cs -> py_eq y y' = true ->
    aget n gs = Some (u, fd) -> enum_at u [] = Some ms -> exists m, In m ms /\ py_eq y (snd m) = true.
  Hypothesis Nmf : names_differ (TData c fs).
  Hypothesis Nmg : names_differ (TData c' gs).
  Hypothesis Xf : exact_values (TData c fs).
  Hypothesis Xg : exact_values (TData c' gs).
  Hypothesis Lg : literals_load E (TData c' gs).
  Hypothesis Log : loadable (TData c' gs).
  Hypothesis Vf : all (fun f => unversioned (fst (snd f))) fs.
  Hypothesis Vg : all (fun f => unversioned (fst (snd f))) gs.
  Variable allow ff : bool.
  Notation acc := (accepts E false allow ff false).

  Lemma all_aget {A} (P : string * A -> Prop) l n x : all P l -> aget n l = Some x -> P (n, x).
  Proof. intros H G. rewrite all_in in H. apply H. now apply aget_some_in. Qed.

  Lemma dataless_no_empty t : dataless t -> no_empty t.
  Proof.
    induction t as [| | | | |i IH|l IH|kt vt IHk IHv|i IH|l IH|c0 f0 IH|n ms|l|n] using ty_ind'; cbn [dataless no_empty]; auto; try tauto.
    - intros D. rewrite all_in in D |- *. rewrite Forall_forall in IH. auto.
    - intros D. rewrite all_in in D |- *. rewrite Forall_forall in IH. auto.
  Qed.

  Lemma dataless_plain t : dataless t -> plain_fields t.
  Proof.
    induction t as [| | | | |i IH|l IH|kt vt IHk IHv|i IH|l IH|c0 f0 IH|n ms|l|n] using ty_ind'; cbn [dataless plain_fields]; auto; try tauto.
    - intros D. rewrite all_in in D |- *. rewrite Forall_forall in IH. auto.
    - intros D. rewrite all_in in D |- *. rewrite Forall_forall in IH. auto.
  Qed.

  (** a removed variant: its value is in the new enum, or the report says what became of it *)
  Lemma variant_lost n e v y : In (EnumVariantRemoved [n] e v y) cs ->
    (forall u fd ms, aget n gs = Some (u, fd) -> enum_at u [] = Some ms -> exists m, In m ms /\ py_eq y (snd m) = true) \/
    exists e' z, In (EnumVariantValueChanged [n] e' v y z) c3.
  Proof.
    intros I. destruct (report_fate cs c2 c3 fsim esim M2 M3 _ I) as [J|[(rr & aa & R & J & K)|(rr & aa & R & J & K)]].
    - exfalso. apply (Sev _ J). reflexivity.
    - exfalso. destruct R as (_ & _ & Q1 & Q2 & _). destruct K as [<-|<-]; discriminate.
    - destruct R as (R1 & R2 & Q1 & Q2 & _). destruct K as [<-|<-]; [|discriminate Q2]. destruct aa as [| | | | | | | |p' e' v' y'| | | ]; try discriminate Q2.
      cbn [enum_renamed] in J. destruct (py_eq y y') eqn:Q; cbn [negb] in J; [left|right; eauto].
      intros u fd ms Eg Em. eapply Lost; eauto.
  Qed.

  Lemma mild_inner n t od u fd inner : kept fs gs n t od u fd inner -> (forall e v o y, ~ In (EnumVariantValueChanged [n] e v o y) c3) ->
    (forall o x, In (TypeChanged [n] o x) c3 -> proposed_fix (TypeChanged [n] o x) = None) -> forall ch, In ch inner -> mild ch.
  Proof.
    intros K NoE NoW ch I. pose proof K as (Ef & Eg & st & r & Ms & Mr & Fi).
    destruct (KeptIn n t od u fd Ef Eg) as (inner' & K' & Inc).
    rewrite <- (kept_same _ _ _ _ _ _ _ K K') in Inc. assert (Ics : In ch cs) by (apply Inc, in_or_app; now left).
    destruct (leaf_changes u r st [n] inner ch (dataless_g _ _ _ Eg) Mr Fi I) as [L _].
    destruct ch as [| | | | |p o x|p e v o y|p e v o|p e v o| |p vs|p vs]; try (destruct L; fail); try exact Logic.I.
    - destruct L as [-> _]. assert (J : In (TypeChanged [n] o x) c3) by now apply stays. destruct (Rep _ J) as [Fl [Sub|(i & f & t0 & d0 & -> & _)]]; [split; auto|].
      split; [|exact Fl]. pose proof (Sev _ J) as Sv. cbn [change_severity] in Sv. destruct (is_subtype o (SList i)); [reflexivity|]. exfalso. apply Sv.
      unfold default_severity. now rewrite (NoW _ _ J).
    - cbn in L. subst p. apply (NoE e v o y). now apply stays.
    - destruct (Rep _ (stays _ Ics eq_refl eq_refl eq_refl eq_refl)).
  Qed.

  Lemma enum_write n u fd ms' m y : aget n gs = Some (u, fd) -> enum_of u = Some ms' -> In m ms' -> py_eq (snd m) y = true -> acc u y.
  Proof.
    intros Eg Eu Im Q. destruct u as [| | | | | | | |u'| | |e ms| | ]; try discriminate Eu.
    - destruct u' as [| | | | | | | | | | |e ms| | ]; try discriminate Eu. injection Eu as ->.
      destruct (proj2 (enum_accepts E false allow ff false e ms' y)) as [v V]; [eauto|]. destruct y; try (exists v; right; split; [discriminate|exact V]).
      exists VNone. left. auto.
    - injection Eu as ->. apply enum_accepts. eauto.
  Qed.

  Lemma exact_weak a y : exact a -> py_eq a y = true -> is_weak y = false.
  Proof. destruct y; auto. destruct a; intros X; try (destruct X; fail); cbn; try discriminate; unfold num_eq; cbn; discriminate. Qed.

  Lemma enum_of_at u ms : enum_of u = Some ms -> enum_at u [] = Some ms.
  Proof. destruct u as [| | | | | | | |u'| | |e ms'| | ]; try discriminate; auto. destruct u'; try discriminate; auto. Qed.

  Lemma enum_exact cc ff0 n u fd ms : exact_values (TData cc ff0) -> aget n ff0 = Some (u, fd) -> enum_of u = Some ms -> forall m, In m ms -> exact (snd m).
  Proof.
    intros X G Eu m I. cbn [exact_values] in X. pose proof (all_aget _ _ _ _ X G) as Xu. cbn [fst snd] in Xu.
    destruct u as [| | | | | | | |u'| | |e ms'| | ]; try discriminate Eu.
    - destruct u'; try discriminate Eu. injection Eu as ->. cbn [exact_values] in Xu. rewrite all_in in Xu. auto.
    - injection Eu as ->. cbn [exact_values] in Xu. rewrite all_in in Xu. auto.
  Qed.

  (** an enum value of the old class: still accepted, or mapped to a new one *)
  Lemma enum_cases n e ms e' ms' w u fd :
    NoDup (map fst ms) -> (forall m, In m ms -> exact (snd m)) -> (forall m, In m ms' -> exact (snd m)) ->
    aget n gs = Some (u, fd) -> enum_of u = Some ms' ->
    incl (new_variants [n] e' ms ms' ++ gone_variants [n] e' ms ms') cs ->
    accepts E false allow ff false (TEnum e ms) w ->
    (exists m, In m ms' /\ py_eq (snd m) w = true) \/
    exists e2 v o y, In (EnumVariantValueChanged [n] e2 v o y) c3 /\ py_eq w o = true.
  Proof.
    intros N X X' Eg Eu Inc A. rewrite enum_accepts in A. destruct A as ([k v] & I & Q). cbn [snd] in Q.
    assert (Q' : py_eq w v = true) by (apply exact_sym'; [apply (X _ I)|exact Q]).
    destruct (amem k ms') eqn:Ek.
    - apply amem_true in Ek. apply in_map_iff in Ek. destruct Ek as ([k' x] & Qk & Ex). cbn [fst] in Qk. subst k'.
      destruct (py_eq v x) eqn:Qv.
      + left. exists (k, x). split; [exact Ex|]. cbn [snd]. apply (exact_trans v x w); auto; [apply (X _ I)|apply (X' _ Ex)].
      + right. exists e', k, v, x. split; [|exact Q']. apply stays; auto. apply Inc. apply in_or_app. left. unfold new_variants. apply in_flat_map.
        exists (k, x). split; [exact Ex|]. cbn [fst snd]. rewrite (in_nodup_aget _ _ _ N I), Qv. now left.
    - assert (J : In (EnumVariantRemoved [n] e' k v) cs).
      { apply Inc, in_or_app. right. unfold gone_variants. apply in_flat_map. exists (k, v). split; [exact I|]. cbn [fst snd]. rewrite Ek. now left. }
      destruct (variant_lost _ _ _ _ J) as [H|(e2 & z & H)].
      + left. destruct (H u fd ms' Eg (enum_of_at _ _ Eu)) as (m & Im & Qm). exists m. split; [exact Im|]. apply (exact_trans v (snd m) w); auto. apply (X _ I).
      + right. exists e2, k, v, z. auto.
  Qed.

  Lemma value_kept n t od u fd inner w : kept fs gs n t od u fd inner ->
    (forall o x, In (TypeChanged [n] o x) c3 -> proposed_fix (TypeChanged [n] o x) = None) ->
    floatable w -> unmarked w -> acc t w ->
    acc u w \/ exists e v o y, In (EnumVariantValueChanged [n] e v o y) c3 /\ py_eq w o = true.
  Proof.
    intros K NoW Fw Uw A. pose proof K as (Ef & Eg & st & r & Ms & Mr & Fi).
    destruct (KeptIn n t od u fd Ef Eg) as (inner' & K' & Inc).
    rewrite <- (kept_same _ _ _ _ _ _ _ K K') in Inc. clear inner' K'.
    pose proof (all_aget _ _ _ _ (proj2 Nmf) Ef) as Nt. pose proof (all_aget _ _ _ _ Xf Ef) as Xt. pose proof (all_aget _ _ _ _ Xg Eg) as Xu.
    pose proof (all_aget _ _ _ _ Lg Eg) as Lu. pose proof (all_aget _ _ _ _ Vf Ef) as Vt. pose proof (all_aget _ _ _ _ Vg Eg) as Vu.
    assert (Lou : loadable u).
    { pose proof Log as (_ & _ & _ & Lo). apply (all_aget _ _ _ _ Lo Eg). }
    cbn [fst snd] in *.
    destruct (existsb (fun ch => match ch with EnumVariantValueChanged p _ _ _ _ => path_eqb p [n] | _ => false end) c3) eqn:Ex.
    - apply existsb_exists in Ex. destruct Ex as (ch & Ich & Q). destruct ch as [| | | | | |p e v o y| | | | | ]; try discriminate Q.
      assert (p = [n]) as ->.
      { destruct p as [|a [|b p]]; cbn in Q; try discriminate Q; rewrite ?andb_false_r in Q; try discriminate Q. rewrite andb_true_r in Q. apply String.eqb_eq in Q. now subst. }
      destruct (Rep _ Ich) as (f & t' & d & ms & u' & d' & ms' & Qf & Ef' & Et & Eg' & Eu & m & Im & Qm). injection Qf as <-.
      rewrite Ef in Ef'. injection Ef' as <- <-. rewrite Eg in Eg'. injection Eg' as <- <-.
      pose proof (enum_exact _ _ _ _ _ _ Xf Ef Et) as X1. pose proof (enum_exact _ _ _ _ _ _ Xg Eg Eu) as X2.
      assert (TC : inner = [TypeChanged [n] st r] -> acc u w).
      { intros ->. assert (J : In (TypeChanged [n] st r) c3) by (apply stays; auto; apply Inc; now left).
        destruct (Rep _ J) as [Fl [Sub|(i & f & t0 & d0 & Q1 & _)]].
        - apply (changed_mono E false allow ff t u st r w Ms Mr); auto.
        - exfalso. subst r. pose proof (Sev _ J) as Sv. cbn [change_severity] in Sv. destruct u as [| | | | | | | |u'| | |e0 ms0| | ]; try discriminate Eu; cbn [materialize_type] in Mr;
            repeat match type of Mr with rbind _ _ = Ok _ => apply rbind_ok in Mr; destruct Mr as (? & ? & Mr) end; discriminate Mr. }
      destruct t as [| | | | | | | |t'| | |e1 ms1| | ]; try discriminate Et; destruct u as [| | | | | | | |u'| | |e2 ms2| | ]; try discriminate Eu.
      + destruct t' as [| | | | | | | | | | |e1 ms1| | ]; try discriminate Et. destruct u' as [| | | | | | | | | | |e2 ms2| | ]; try discriminate Eu. injection Et as ->. injection Eu as ->.
        injection Ms as <-. injection Mr as <-. cbn [find_changes] in Fi. injection Fi as <-.
        destruct A as (val & [[-> _]|[Nw D]]); [left; exists VNone; left; auto|].
        destruct (enum_cases n e1 ms e2 ms' w (TOpt (TEnum e2 ms')) fd) as [H|H]; auto.
        * intros ch I. apply Inc, in_or_app. now left.
        * now exists val.
        * left. apply (proj2 (enum_accepts E false allow ff false e2 ms' w)) in H. destruct H as [v0 V0]. exists v0. right. auto.
      + left. apply TC. destruct t' as [| | | | | | | | | | |e1 ms1| | ]; try discriminate Et. injection Ms as <-. injection Mr as <-. cbn [find_changes] in Fi. now injection Fi as <-.
      + left. apply TC. destruct u' as [| | | | | | | | | | |e2 ms2| | ]; try discriminate Eu. injection Ms as <-. injection Mr as <-. cbn [find_changes] in Fi. now injection Fi as <-.
      + injection Et as ->. injection Eu as ->. injection Ms as <-. injection Mr as <-. cbn [find_changes] in Fi. injection Fi as <-.
        destruct (enum_cases n e1 ms e2 ms' w (TEnum e2 ms') fd) as [H|H]; auto.
        * intros ch I. apply Inc, in_or_app. now left.
        * left. now apply enum_accepts.
    - left. assert (NoE : forall e v o y, ~ In (EnumVariantValueChanged [n] e v o y) c3).
      { intros e v o y I. assert (Q : existsb (fun ch => match ch with EnumVariantValueChanged p _ _ _ _ => path_eqb p [n] | _ => false end) c3 = true).
        { apply existsb_exists. eexists. split; [exact I|]. cbn. now rewrite String.eqb_refl. }
        congruence. }
      pose proof (mild_inner n t od u fd inner K NoE NoW) as Hm.
      apply (compat_mono E false allow ff u t st r [n] inner w Ms Mr Fi Hm); auto.
      + intros q e v y ms I Q.
        destruct (leaf_changes u r st [n] inner _ (dataless_g _ _ _ Eg) Mr Fi I) as [L _]. cbn in L. injection L as ->.
        assert (Ics : In (EnumVariantRemoved [n] e v y) cs) by (apply Inc, in_or_app; now left).
        destruct (variant_lost _ _ _ _ Ics) as [H|(e2 & z & H)]; [eapply H; eauto|]. destruct (NoE _ _ _ _ H).
      + apply dataless_plain. eapply dataless_g; eauto.
      + apply dataless_no_empty. eapply dataless_f; eauto.
      + now apply unmarked_ok.
  Qed.

  Lemma fin_field n t od u fd (s0 : store) v :
    aget n fs = Some (t, od) -> aget n gs = Some (u, fd) ->
    (forall w, s0 n = Some w -> floatable w /\ unmarked w) ->
    match s0 n with None => default_field t od (VDict []) v | Some w => if is_weak w then default_field t od w v else denotes E false allow ff false t w v end ->
    exists v', match fin (flat_map fixes c3) s0 n with None => default_field u fd (VDict []) v' | Some w => if is_weak w then default_field u fd w v' else denotes E false allow ff false u w v' end.
  Proof.
    intros Ef Eg Ok0 D. destruct (KeptIn n t od u fd Ef Eg) as (inner & K & Inc).
    assert (HD : has_default fd = true -> exists v', default_field u fd (VDict []) v').
    { intros H. destruct fd; [discriminate H| |]; eexists; reflexivity. }
    destruct (existsb (fun ch => match ch with TypeChanged p _ _ => path_eqb p [n] && match proposed_fix ch with Some _ => true | None => false end | _ => false end) c3) eqn:Ex.
    - apply existsb_exists in Ex. destruct Ex as (ch & Ich & Q). destruct ch as [| | | | |p o x| | | | | | ]; try discriminate Q.
      apply andb_true_iff in Q. destruct Q as [Q Qp].
      assert (p = [n]) as ->.
      { destruct p as [|a [|b p]]; cbn in Q; try discriminate Q; rewrite ?andb_false_r in Q; try discriminate Q. rewrite andb_true_r in Q. apply String.eqb_eq in Q. now subst. }
      destruct (fin_wrap n t od u fd inner o x K Ich) as (Nd & i & -> & Fl & Wq & Mt & Mu & ->).
      { intros Z. rewrite Z in Qp. discriminate. }
      destruct (s0 n) as [w|] eqn:E0; cbn [option_map is_weak].
      + destruct (Ok0 w eq_refl) as [Fw Uw]. rewrite (unmarked_weak w Uw) in D.
        destruct u; cbn [materialize_type] in Mu; try discriminate Mu;
          repeat match type of Mu with rbind _ _ = Ok _ => apply rbind_ok in Mu; destruct Mu as (? & ? & Mu) end; try discriminate Mu. injection Mu as ->.
        pose proof (all_aget _ _ _ _ (proj2 Nmf) Ef) as Nt. pose proof (all_aget _ _ _ _ (proj2 Nmg) Eg) as Nu.
        pose proof (all_aget _ _ _ _ Xf Ef) as Xt. pose proof (all_aget _ _ _ _ Xg Eg) as Xu. pose proof (all_aget _ _ _ _ Lg Eg) as Lu. cbn [fst snd] in *.
        pose proof (sflat_flat t o Mt Fl) as Ft.
        destruct (eq_mono E false allow ff t u o i false w Ft Xt Xu Lu Mt H) as [v' V'].
        { apply (eqb_sym_flat t u o i); auto. }
        { exact Fw. }
        { now exists v. }
        exists (VList [v']). cbn [denotes]. exists [w], [v']. repeat split; auto.
      + apply HD. apply (has_old_default n t od u fd inner v K D). intros (o' & I). apply Nd. exists o'. now left.
    - assert (NoW : forall o x, In (TypeChanged [n] o x) c3 -> proposed_fix (TypeChanged [n] o x) = None).
      { intros o x I. destruct (proposed_fix (TypeChanged [n] o x)) as [rr|] eqn:P; [|reflexivity]. exfalso.
        assert (Q : existsb (fun ch => match ch with TypeChanged p _ _ => path_eqb p [n] && match proposed_fix ch with Some _ => true | None => false end | _ => false end) c3 = true).
        { apply existsb_exists. eexists. split; [exact I|]. rewrite P. cbn. now rewrite String.eqb_refl. }
        congruence. }
      set (good := fun x => is_weak x = false /\ acc u x).
      assert (Gw : forall x, good x -> is_weak x = false) by (intros x [G _]; exact G).
      assert (Kp : forall r, In r (flat_map fixes c3) -> keeps n good r).
      { intros r Ir T. destruct (kept_rule n r) as (ch & Ich & P & Kc & Tc); [exists t, od, u, fd; auto|exact Ir|exact T|].
        pose proof (Rep _ Ich) as Rc. destruct ch as [| | |p o x|p o|p o x|p e v0 o y| | | | |p vs]; try discriminate Tc; cbn in Kc; try subst p; try discriminate P.
        - injection P as <-. split; [reflexivity|]. destruct (Rc n u fd eq_refl Eg) as [A B]. split; [exact A|apply B].
        - injection P as <-. split; [reflexivity|]. destruct (Rc n u fd eq_refl Eg) as [A B]. split; [exact A|apply B].
        - rewrite (NoW _ _ Ich) in P. discriminate.
        - injection P as <-. split; [reflexivity|]. exists o, y. split; [intros x; reflexivity|].
          destruct Rc as (f & t' & d & ms & u' & d' & ms' & Qf & Ef' & Et & Eg' & Eu & m & Im & Qm). injection Qf as <-. rewrite Eg in Eg'. injection Eg' as <- <-.
          split; [|eapply enum_write; eauto]. apply (exact_weak (snd m)); auto. apply (enum_exact _ _ _ _ _ _ Xg Eg Eu _ Im).
        - destruct Rc. }
      assert (Fin : forall w', good w' -> exists v', if is_weak w' then default_field u fd w' v' else denotes E false allow ff false u w' v').
      { intros w' [G [v' V']]. rewrite G. eauto. }
      destruct (s0 n) as [w|] eqn:E0.
      + destruct (Ok0 w eq_refl) as [Fw Uw]. rewrite (unmarked_weak w Uw) in D.
        assert (G : exists w', fin (flat_map fixes c3) s0 n = Some w' /\ good w').
        { destruct (value_kept n t od u fd inner w K NoW Fw Uw) as [A|(e & v0 & o & y & I & Q)]; [now exists v| |].
          - apply (fin_good n good Gw _ _ w); auto. split; [now apply unmarked_weak|exact A].
          - apply (fin_hit n good Gw _ _ w); auto; [now apply unmarked_weak|].
            exists (MapFieldValue [n] (fun x => Ok (if py_eq x o then y else x)) None). split.
            + apply in_flat_map. eexists. split; [exact I|]. now left.
            + split; [reflexivity|]. exists o, y. split; [intros x; reflexivity|]. split; [|exact Q].
              destruct (Rep _ I) as (f & t' & d & ms & u' & d' & ms' & Qf & Ef' & Et & Eg' & Eu & m & Im & Qm). injection Qf as <-. rewrite Eg in Eg'. injection Eg' as <- <-.
              split; [|eapply enum_write; eauto]. apply (exact_weak (snd m)); auto. apply (enum_exact _ _ _ _ _ _ Xg Eg Eu _ Im). }
        destruct G as (w' & -> & G). now apply Fin.
      + destruct (fin_none n good Gw (flat_map fixes c3) s0 Kp E0) as [[-> N]|(w' & -> & G)]; [|now apply Fin].
        apply HD. apply (has_old_default n t od u fd inner v K D). intros (o' & I). apply (N (AddDefault [n] o')); [|reflexivity].
        apply in_flat_map. eexists. split; [exact I|]. now left.
  Qed.

  (** *** exact values *)
  Lemma kpath_field ch : kpath ch = change_field ch.
  Proof. destruct ch; reflexivity. Qed.

  Lemma widens_fix n ch : in_both n -> change_field ch = [n] -> In ch c3 -> widens ch -> proposed_fix ch = None.
  Proof.
    intros (t & od & u & fd & Ef & Eg) Q I W. destruct ch as [| | | | |p o x| | | | | | ]; try (destruct W; fail); try reflexivity. cbn [widens] in W. cbn [change_field] in Q. subst p.
    destruct (KeptIn n t od u fd Ef Eg) as (inner & K & _).
    pose proof (at_field _ _ _ _ _ _ _ (type_from _ _ _ I) eq_refl K) as J.
    apply in_app_or in J. destruct J as [J|J]; [|apply in_default in J; destruct J; discriminate].
    pose proof K as (_ & _ & st & r & Ms & Mr & Fi). destruct (leaf_changes u r st [n] inner _ (dataless_g _ _ _ Eg) Mr Fi J) as [[_ L] L2].
    destruct (Rep _ I) as [Fl _]. apply sub_no_fix; auto.
  Qed.

  Lemma quiet_rule n r : in_both n -> (forall ch, In ch c3 -> change_field ch = [n] -> about_default ch \/ widens ch) ->
    In r (flat_map fixes c3) -> In n (touched r) -> exists x, (exists y, r = ChangeDefault [n] x y /\ In (DefaultValueChanged [n] x y) c3) \/ (r = AddDefault [n] x /\ In (DefaultValueRemoved [n] x) c3).
  Proof.
    intros B Q I T. destruct (kept_rule n r B I T) as (ch & Ic & P & Kc & Tc). rewrite kpath_field in Kc.
    destruct (Q ch Ic Kc) as [D|W]; [|rewrite (widens_fix n ch B Kc Ic W) in P; discriminate P].
    destruct ch; try (destruct D; fail); cbn [change_field] in Kc; subst; injection P as <-; eauto 6.
  Qed.

  Lemma fin_quiet n rs : forall s w,
    (forall r, In r rs -> In n (touched r) -> exists x, (exists y, r = ChangeDefault [n] x y) \/ r = AddDefault [n] x) ->
    s n = Some w -> is_weak w = false -> fin rs s n = Some w.
  Proof.
    induction rs as [|r rs IH]; intros s w H Sn W; [exact Sn|]. cbn [fin fold_left]. fold (fin rs (act r s)). apply IH; auto.
    - intros r' I. apply H. now right.
    - destruct (in_dec string_dec n (touched r)) as [T|T]; [|now rewrite act_untouched].
      destruct (H r (or_introl eq_refl) T) as (x & [(y & ->)| ->]); cbn [act]; rewrite put_same, Sn; [now rewrite W|reflexivity].
  Qed.

  Lemma fin_default n x rs : forall s, is_weak x = false ->
    (forall r, In r rs -> In n (touched r) -> (exists y, r = ChangeDefault [n] x y) \/ r = AddDefault [n] x) ->
    (exists r, In r rs /\ In n (touched r)) -> s n = None -> fin rs s n = Some x.
  Proof.
    induction rs as [|r rs IH]; intros s W H (r0 & I & T) Sn; [destruct I|]. cbn [fin fold_left]. fold (fin rs (act r s)).
    assert (H' : forall r, In r rs -> In n (touched r) -> (exists y, r = ChangeDefault [n] x y) \/ r = AddDefault [n] x) by (intros; apply H; auto; now right).
    destruct (in_dec string_dec n (touched r)) as [Tr|Tr].
    - apply fin_quiet; auto.
      + intros r' I' T'. exists x. destruct (H' r' I' T') as [Q|Q]; eauto.
      + destruct (H r (or_introl eq_refl) Tr) as [(y & ->)| ->]; cbn [act]; now rewrite put_same, Sn.
    - destruct I as [->|I]; [now destruct Tr|]. apply IH; eauto. now rewrite act_untouched.
  Qed.

  Definition quiet_or (n : string) (sw : rule) (r : rule) : Prop :=
    In n (touched r) -> r = sw \/ exists x, (exists z, r = ChangeDefault [n] x z) \/ r = AddDefault [n] x.
  Definition swapping (n : string) (o y : pyval) : rule := MapFieldValue [n] (fun x => Ok (if py_eq x o then y else x)) None.

  Lemma fin_stay n o y rs : forall s w, (forall r, In r rs -> quiet_or n (swapping n o y) r) ->
    s n = Some w -> is_weak w = false -> py_eq w o = false -> fin rs s n = Some w.
  Proof.
    induction rs as [|r rs IH]; intros s w H Sn W Q; [exact Sn|]. cbn [fin fold_left]. fold (fin rs (act r s)). apply IH; auto.
    - intros r' I. apply H. now right.
    - destruct (in_dec string_dec n (touched r)) as [T|T]; [|now rewrite act_untouched].
      destruct (H r (or_introl eq_refl) T) as [->|(x & [(z & ->)| ->])]; cbn [act swapping]; rewrite Sn, put_same; [now rewrite Q|now rewrite W|reflexivity].
  Qed.

  Lemma fin_swap n o y rs : forall s w, (forall r, In r rs -> quiet_or n (swapping n o y) r) -> In (swapping n o y) rs ->
    s n = Some w -> is_weak w = false -> is_weak y = false -> py_eq y o = false -> fin rs s n = Some (if py_eq w o then y else w).
  Proof.
    intros s w H I Sn W Wy Q. destruct (py_eq w o) eqn:Qw; [|now apply (fin_stay n o y)]. revert s Sn H I.
    induction rs as [|r rs IH]; intros s Sn H I; [destruct I|]. cbn [fin fold_left]. fold (fin rs (act r s)).
    assert (H' : forall r, In r rs -> quiet_or n (swapping n o y) r) by (intros; apply H; now right).
    destruct (in_dec string_dec n (touched r)) as [T|T].
    - destruct (H r (or_introl eq_refl) T) as [->|(x & [(z & ->)| ->])].
      + apply (fin_stay n o y); auto. cbn [act swapping]. now rewrite Sn, put_same, Qw.
      + apply IH; auto; [cbn [act]; now rewrite Sn, put_same, W|destruct I as [I|I]; [discriminate I|exact I]].
      + apply IH; auto; [cbn [act]; now rewrite Sn, put_same|destruct I as [I|I]; [discriminate I|exact I]].
    - destruct I as [->|I]; [destruct T; now left|]. apply IH; auto. now rewrite act_untouched.
  Qed.

  Lemma same_old_default n x x' : In (DefaultValueRemoved [n] x) c3 \/ (exists y, In (DefaultValueChanged [n] x y) c3) ->
    In (DefaultValueRemoved [n] x') c3 \/ (exists y, In (DefaultValueChanged [n] x' y) c3) -> in_both n -> x = x'.
  Proof.
    intros A A' (t & od & u & fd & Ef & Eg). destruct (KeptIn n t od u fd Ef Eg) as (inner & K & _).
    assert (H : forall x0, In (DefaultValueRemoved [n] x0) c3 \/ (exists y, In (DefaultValueChanged [n] x0 y) c3) -> x0 = fm_default (meta n od)).
    { intros x0 [I|(y & I)]; (destruct (report_origin cs c2 c3 fsim esim M2 M3 _ I) as [J|[(rr & aa & _ & _ & Q1 & Q2 & _ & Q')|(rr & aa & _ & _ & Q1 & Q2 & Q')]];
        [|destruct (field_renamed_form rr aa Q1 Q2) as (? & ? & Q3); rewrite Q3 in Q'; discriminate
         |destruct rr; try discriminate Q1; destruct aa; try discriminate Q2; cbn in Q'; destruct (py_eq _ _); discriminate]);
        pose proof (at_field _ _ _ _ _ _ _ J eq_refl K) as Ja; apply in_app_or in Ja; destruct Ja as [Ja|Ja].
      - pose proof K as (_ & _ & st & r & Ms & Mr & Fi). destruct (leaf_changes u r st [n] inner _ (dataless_g _ _ _ Eg) Mr Fi Ja) as [L _]. destruct L.
      - apply in_default in Ja. destruct Ja as [Ja|Ja]; congruence.
      - pose proof K as (_ & _ & st & r & Ms & Mr & Fi). destruct (leaf_changes u r st [n] inner _ (dataless_g _ _ _ Eg) Mr Fi Ja) as [L _]. destruct L.
      - apply in_default in Ja. destruct Ja as [Ja|Ja]; congruence. }
    rewrite (H x A), (H x' A'). reflexivity.
  Qed.

  Lemma fin_renamed a n s : In (FieldRenamed [a] [n]) c3 -> s n = None -> fin (flat_map fixes c3) s n = s a.
  Proof.
    intros J Sn. destruct (split_fix _ J s) as (l1 & l2 & Ec & ->).
    rewrite fin_untouched by (intros r0 Ir; apply (others_untouched _ l1 l2 n Ec); [right; now left|auto]).
    assert (U1 : fin (flat_map fixes l1) s n = None).
    { rewrite fin_untouched; [exact Sn|]. intros r0 Ir. apply (others_untouched _ l1 l2 n Ec); [right; now left|auto]. }
    assert (U2 : fin (flat_map fixes l1) s a = s a).
    { apply fin_untouched. intros r0 Ir. apply (others_untouched _ l1 l2 a Ec); [now left|auto]. }
    revert U1 U2. generalize (fin (flat_map fixes l1) s). intros s1 U1 U2. cbn [fixes proposed_fix fin fold_left act]. rewrite U2. destruct (s a) eqn:Sa; [apply put_same|exact U1].
  Qed.

  Lemma fin_becomes m0 n u fd w :
    (forall k v, aget k m0 = Some v -> is_weak v = false /\ (k = "!__name__" \/ exists p, aget k fs = Some p)) ->
    n <> "!__name__" -> aget n gs = Some (u, fd) -> becomes c3 m0 n w ->
    fin (flat_map fixes c3) (fun j => aget j m0) n = Some w /\ is_weak w = false.
  Proof.
    intros Ok0 Nn Eg B.
    assert (Bo : forall v, aget n m0 = Some v -> in_both n).
    { intros v G. destruct (Ok0 n v G) as (_ & [Q|[[t od] Q]]); [congruence|]. now exists t, od, u, fd. }
    assert (Sh : forall ch, In ch c3 -> change_field ch = [n] -> ftouch ch = [] -> is_VariantAdded ch = false -> shape ch) by (intros; now apply shape_c3).
    destruct B as [w G Q|w o i G I Sb|w e v x y G I Qyx Q|x G I Q|a w I G].
    - destruct (Ok0 n w G) as [W _]. split; [|exact W]. apply fin_quiet; auto. intros r Ir T. destruct (quiet_rule n r (Bo w G) Q Ir T) as (x & [(y & A & _)|[A _]]); eauto.
    - destruct (Bo w G) as (t & od & u' & fd' & Ef & Eg').
      destruct (KeptIn n t od u' fd' Ef Eg') as (inner & K & _).
      destruct (fin_wrap n t od u' fd' inner o (SList i) K I) as (_ & _ & _ & _ & _ & _ & _ & F).
      { intros P. apply (Sev _ I). cbn [change_severity]. rewrite Sb. unfold default_severity. now rewrite P. }
      now rewrite F, G.
    - destruct (Ok0 n w G) as [W _].
      assert (Wy : is_weak y = false).
      { destruct (Rep _ I) as (f & t' & d & ms & u' & d' & ms' & Qf & Ef' & Et & Eg' & Eu & m & Im & Qm). apply (exact_weak (snd m)); auto.
        apply (enum_exact _ _ _ _ _ _ Xg Eg' Eu _ Im). }
      split; [|now destruct (py_eq w x)]. apply (fin_swap n x y); auto.
      + intros r Ir T. destruct (kept_rule n r (Bo w G) Ir T) as (ch & Ic & P & Kc & Tc). rewrite kpath_field in Kc.
        destruct (Q ch Ic Kc) as [->|[D|D]]; [injection P as <-; now left| |rewrite (widens_fix n ch (Bo w G) Kc Ic D) in P; discriminate P].
        right. destruct ch; try (destruct D; fail); cbn [change_field] in Kc; subst; injection P as <-; eauto 6.
      + apply in_flat_map. eexists. split; [exact I|]. now left.
    - assert (B : in_both n).
      { destruct I as [I|(y & I)]; pose proof (shape_c3 _ I) as Sc; inversion Sc as [| | |n' ? Bn Kp Ft|]; subst; cbn in Kp; injection Kp as <-; exact Bn. }
      assert (W : is_weak x = false) by (destruct I as [I|(y & I)]; apply (Rep _ I n u fd eq_refl Eg)).
      split; [|exact W]. apply fin_default; auto.
      + intros r Ir T. destruct (quiet_rule n r B Q Ir T) as (x' & [(y & -> & I')|[-> I']]).
        * left. exists y. f_equal. apply (same_old_default n); eauto.
        * right. f_equal. apply (same_old_default n); eauto.
      + destruct I as [I|(y & I)]; eexists; (split; [apply in_flat_map; eexists; split; [exact I|now left]|now left]).
    - destruct (shape_renamed _ _ (shape_c3 _ I)) as (a' & b' & Qa & Qb & Ga & [Fb _]). injection Qb as <-.
      rewrite (fin_renamed a n); [split; [exact G|apply (Ok0 _ _ G)]|exact I|]. destruct (aget n m0) as [v|] eqn:E0; [|reflexivity].
      destruct (Ok0 n v E0) as (_ & [Q|[p Q]]); congruence.
  Qed.

  Lemma fix_keys r k : In r (flat_map fixes c3) -> In k (touched r) -> aget k fs <> None \/ aget k gs <> None.
  Proof.
    intros I T. apply in_flat_map in I. destruct I as (ch & Ic & I). unfold fixes in I.
    destruct (proposed_fix ch) as [r0|] eqn:P; [|destruct I]. destruct I as [<-|[]]. rewrite (fix_touched _ _ P) in T.
    destruct (shape_c3 ch Ic) as [a ty0 d h H|a ty0 d h H|a b H H'|a ch H Hk Ht|].
    - cbn in T. destruct T as [->|[]]. destruct H as (_ & u & fd & H). right. congruence.
    - cbn in T. destruct T as [->|[]]. destruct H as ((u & fd & H) & _). left. congruence.
    - cbn in T. destruct T as [->|[->|[]]]; [destruct H as ((u & fd & H) & _)|destruct H' as (_ & u & fd & H')]; [left|right]; congruence.
    - assert (T' : In k [a]) by (rewrite <- Hk; destruct ch; try discriminate Ht; exact T). destruct T' as [->|[]].
      destruct H as (t & od & u & fd & H & _). left. congruence.
    - discriminate P.
  Qed.

  Lemma fin_other k s : aget k fs = None -> aget k gs = None -> fin (flat_map fixes c3) s k = s k.
  Proof. intros Nf0 Ng0. apply fin_untouched. intros r I T. destruct (fix_keys r k I T); congruence. Qed.

  (** what the file with the rules applied says about every field of the new class *)
  Lemma fixed_items m0 m' o :
    (forall k w, In (k, w) m0 -> floatable w /\ unmarked w) -> NoDup (akeys m0) -> NoDup (akeys m') ->
    (forall k, aget k m' = fin (flat_map fixes c3) (fun j => aget j m0) k) ->
    known fs m0 -> all2 false (given E false allow ff m0) fs o ->
    known gs m' /\ exists o', all2 false (given E false allow ff m') gs o'.
  Proof.
    intros Ok0 N0 N' Em Kn A.
    assert (Only : forall k w, aget k m0 = Some w -> k = "!__name__" \/ exists p, aget k fs = Some p).
    { intros k w G. apply aget_some_in in G. destruct (Kn k w G) as [H|[H|[H|H]]]; [now left| | |discriminate H].
      - rewrite (unmarked_weak w) in H; [discriminate H|]. apply (Ok0 _ _ G).
      - right. apply in_map_iff in H. destruct H as ([k' p] & Q & H). cbn [fst] in Q. subst k'. exists p. apply in_nodup_aget; auto. }
    split.
    - intros k w I. pose proof (in_nodup_aget k w m' N' I) as G. rewrite Em in G.
      destruct (aget k gs) as [p|] eqn:Eg; [right; right; left; apply aget_some_in in Eg; apply in_map_iff; now exists (k, p)|].
      destruct (aget k fs) as [[t od]|] eqn:Ef.
      + rewrite fin_gone in G; [discriminate G|]. split; eauto.
      + rewrite fin_other in G by assumption. destruct (Only k w G) as [H|[p H]]; [now left|congruence].
    - apply all2_build. intros [n [u fd]] I. pose proof (in_nodup_aget n (u, fd) gs Ng I) as Eg.
      assert (B : exists v', match aget n m' with None => default_field u fd (VDict []) v' | Some w => if is_weak w then default_field u fd w v' else denotes E false allow ff false u w v' end).
      { destruct (aget n fs) as [[t od]|] eqn:Ef.
        - destruct (all2_in _ _ _ _ A (aget_some_in _ _ _ Ef)) as ([k v] & _ & _ & D). cbn [snd] in D.
          rewrite Em. apply (fin_field n t od u fd (fun j => aget j m0) v Ef Eg); auto. intros w G. apply (Ok0 n), aget_some_in, G.
        - assert (S0 : aget n m0 = None).
          { destruct (aget n m0) as [w|] eqn:G; [|reflexivity]. exfalso. destruct (Only n w G) as [H|[p H]]; [|congruence]. subst n. destruct Log as (_ & Nn & _). apply Nn.
            apply in_map_iff. now exists ("!__name__", (u, fd)). }
          destruct (fin_fresh n u fd (fun j => aget j m0) Ef Eg S0) as [(a & t & od & st & r & Ir & Ea & Mt & Mu & Sub & Hd & F)|[[Hd F]|(w & F & Wr & Wa)]].
          + rewrite Em, F. destruct (all2_in _ _ _ _ A (aget_some_in _ _ _ Ea)) as ([k v] & _ & _ & D). cbn [snd] in D.
            pose proof (all_aget _ _ _ _ Xf Ea) as Xt. pose proof (all_aget _ _ _ _ Xg Eg) as Xu. pose proof (all_aget _ _ _ _ Lg Eg) as Lu. cbn [fst snd] in *.
            destruct (aget a m0) as [w|] eqn:Ga.
            * destruct (Ok0 a w (aget_some_in _ _ _ Ga)) as [Fw Uw]. rewrite (unmarked_weak w Uw) in *.
              apply (changed_mono E false allow ff t u st r w Mt Mu); auto; [|now exists v].
              split; [exact Sub|]. apply (Rep _ Ir a t od st); auto.
            * assert (Hf : has_default fd = true).
              { rewrite <- Hd. destruct od; [|reflexivity|reflexivity]. cbn in D. destruct D as [D _]. pose proof (dataless_f _ _ _ Ea) as Dt. destruct t; try (destruct D; fail); destruct Dt. }
              destruct fd; [discriminate Hf| |]; eexists; reflexivity.
          + rewrite Em, F. destruct fd; [discriminate Hd| |]; eexists; reflexivity.
          + rewrite Em, F, Wr. apply Wa. }
      destruct B as [v' B]. exists (n, v'). split; [reflexivity|exact B].
  Qed.
End Main.

Lemma find_renamed nm nm' nm2 nm3 ver ver' ver2 ver3 sf sg path :
  find_changes (SStruct nm sf ver) (SStruct nm' sg ver') path = find_changes (SStruct nm2 sf ver2) (SStruct nm3 sg ver3) path.
Proof. now rewrite !find_struct. Qed.

Lemma deser_fixed cls allow c fs v rules d m' : c_versioned c = Some (v + 1, rules)%Z -> (forall i rs, In (i, rs) rules -> (i < v + 1)%Z) ->
  aget "version" d = Some (VInt v) -> apply_rules (rules_at rules v) (VDict (adel "version" d)) = Ok (VDict m') ->
  deser_versioned cls allow (TData c fs) (VDict d) = Ok (VDict m').
Proof.
  intros Vc Hb Gv Ap. cbn [deser_versioned]. rewrite Vc, Gv. unfold apply_upgrades.
  assert (Q : forallb (fun kv : Z * list rule => (fst kv <? v + 1)%Z) rules = true).
  { apply forallb_forall. intros [i rs] J. apply Z.ltb_lt. eapply Hb; eauto. }
  rewrite Q. cbn [as_int]. rewrite zrange_step by lia. rewrite zrange_self. cbn [upgrade_steps]. now rewrite Ap.
Qed.

Lemma worst_error l s : worst l s -> In ERROR l -> s = ERROR.
Proof.
  induction 1 as [|x l s W IH H|x l s W IH H]; intros I; [destruct I| |]; destruct I as [->|I]; auto.
  - rewrite (IH I) in H. destruct x; cbn in H; auto; lia.
  - destruct s; cbn in H; auto; lia.
Qed.

Lemma fixes_accept E allow ff c fs c' gs c2 s r k v rules rules' d :
  ordinary E c fs -> ordinary E c2 gs -> one_level fs -> one_level gs ->
  lost_values_gone (TData c fs) (TData c' gs) ->
  materialize_type (TData c fs) = Ok s -> materialize_type (TData c' gs) = Ok r ->
  compare_schemas s r = Ok k -> checker_severity k <> ERROR ->
  (forall ch, In ch (ck_changes k) -> repairable E fs gs (ck_changes k) ch) ->
  c_versioned c = Some (v, rules) -> c_versioned c2 = Some (v + 1, rules')%Z ->
  (forall i rs, In (i, rs) rules' -> (i < v + 1)%Z) -> rules_at rules' v = ck_fixes k ->
  filev (VDict d) = true -> floatable (VDict (adel "version" d)) -> unmarked (VDict d) -> aget "version" d = Some (VInt v) ->
  accepts E false allow ff false (TData c fs) (VDict d) -> accepts E false allow ff false (TData c2 gs) (VDict d).
Proof.
  intros O1 O2 D1 D2 Lost Ms Mr C Sv Rep Vc Vc2 Hb Ra Hd Fd Ud Gv A.
  destruct O1 as (Lo1 & Nm1 & X1 & Ll1 & V1 & _). destruct O2 as (Lo2 & Nm2 & X2 & Ll2 & V2 & _).
  assert (F : exists cs, find_changes s r [] = Ok cs).
  { pose proof C as C'. unfold compare_schemas in C'. apply rbind_ok in C'. destruct C' as (cs & F & _). eauto. }
  destruct F as [cs F].
  assert (Dn : distinct_names s) by exact (materialize_distinct _ _ Ms Nm1).
  assert (Dn' : distinct_names r) by exact (materialize_distinct _ _ Mr Nm2).
  destruct (compare_ok s r cs Dn Dn' F) as (c1 & c3 & C' & M2 & M3). rewrite C in C'. injection C' as ->. cbn [ck_changes ck_fixes] in *.
  destruct (find_keyed r s [] cs Dn' Dn F) as [Nk _].
  destruct (mat_data _ _ _ Ms) as (sf & ver & Mf & Qs). destruct (mat_data _ _ _ Mr) as (sg & ver' & Mg & Qr).
  assert (Mr2 : exists ver2, materialize_type (TData c2 gs) = Ok (SStruct (c_name c2) sg ver2)).
  { cbn [materialize_type]. eexists. rewrite Mg. reflexivity. }
  destruct Mr2 as [ver2 Mr2].
  assert (Fc : find_changes (SStruct (c_name c) sf ver) (SStruct (c_name c2) sg ver2) [] = Ok cs).
  { rewrite <- F, Qs, Qr. apply find_renamed. }
  rewrite Qs in Ms.
  assert (Lost2 : lost_values_gone (TData c fs) (TData c2 gs)) by exact Lost.
  assert (Sev : forall ch, In ch c3 -> change_severity ch <> ERROR).
  { intros ch I Q. apply Sv. pose proof (severity_worst (mkChk s r c3 (flat_map fixes c3))) as W. apply (worst_error _ _ W). cbn [ck_changes]. apply in_map_iff. eauto. }
  destruct A as (val & y & items & o & Ey & Ei & -> & Kn & A).
  pose proof (deser_current_inv _ _ _ _ _ _ _ _ Vc Gv Ey) as ->. cbn [items_of] in Ei. injection Ei as <-.
  set (m0 := adel "version" d) in *.
  assert (N0 : NoDup (akeys m0)).
  { apply nodup_adel. cbn [filev] in Hd. apply andb_true_iff in Hd. destruct Hd as [Hd _]. now apply RewriteFacts.nodupb_NoDup. }
  assert (Ok0 : forall k0 w, In (k0, w) m0 -> floatable w /\ unmarked w).
  { intros k0 w I. split; [eapply (floatable_items (VDict m0)); eauto; reflexivity|]. apply in_adel in I. eapply (unmarked_items (VDict d)); eauto; reflexivity. }
  cbn [loadable] in Lo1. destruct Lo1 as (Nf & _). pose proof Lo2 as (Ng & _).
  assert (Sm : Forall simple_rule (flat_map fixes c3)).
  { apply Forall_forall. intros r0 I. eapply (fix_simple E fs gs D2 cs c1 c3 _ _ (origin fs gs sf sg Mf Mg Nf Ng D1 D2 cs _ _ _ _ Fc)); eauto. }
  pose proof (origin fs gs sf sg Mf Mg Nf Ng D1 D2 cs _ _ _ _ Fc) as Orig.
  pose proof (kept_in fs gs sf sg Mf Mg D1 D2 cs _ _ _ _ Fc) as KeptIn.
  pose proof (added_in fs gs sf sg Mf Mg D2 cs _ _ _ _ Fc) as AddedIn.
  pose proof (removed_in fs gs sf sg Mf Mg D1 cs _ _ _ _ Fc) as RemovedIn.
  assert (Lost3 : forall n e v y p' e' v' y' u fd ms, In (EnumVariantRemoved [n] e v y) cs -> In (EnumVariantAdded p' e' v' y') cs -> py_eq y y' = true ->
    aget n gs = Some (u, fd) -> enum_at u [] = Some ms -> exists m, In m ms /\ py_eq y (snd m) = true).
  { intros n e v0 y p' e' v' y' u fd ms R1 R2 Q Eg Em.
    pose proof (variants_at _ _ _ _ [] cs _ Nm1 Nm2 Ms Mr2 Fc R1) as (q0 & ms0 & Eq0 & E0 & J0). cbn [app] in Eq0. subst q0.
    pose proof (variants_at _ _ _ _ [] cs _ Nm1 Nm2 Ms Mr2 Fc R2) as (q1 & ms1 & Eq1 & E1 & J1). cbn [app] in Eq1. subst q1.
    destruct (Lost2 _ _ _ E0 J0) as [(ms' & m' & Em' & Im & Qm)|No].
    - rewrite (enum_at_field c2 gs n u fd [] Ng (aget_some_in _ _ _ Eg)), Em in Em'. injection Em' as <-. eauto.
    - specialize (No _ _ _ E1 J1). cbn [snd] in No. congruence. }
  destruct (rules_act _ m0 Sm N0) as (m' & Ap & N' & G').
  destruct (fixed_items E fs gs Nf Ng D1 D2 cs c1 c3 _ _ Orig KeptIn AddedIn RemovedIn Nk M2 M3 field_similar Rep Sev c c2 Lost3 Nm1 Nm2 X1 X2 Ll2 Lo2 V1 V2 allow ff m0 m' o) as [Kn' [o' A']]; auto.
  exists (VObj (c_name c2) o'). cbn [denotes]. exists (VDict m'), m', o'. split; [|split; [reflexivity|split; [reflexivity|split; [exact Kn'|exact A']]]].
  apply (deser_fixed _ _ c2 gs v rules' d m'); auto. rewrite Ra. exact Ap.
Qed.

Lemma fixes_load E c fs c' gs c2 s r k v rules rules' d dir allow L :
  order_ok E -> ordinary E c fs -> ordinary E c2 gs -> one_level fs -> one_level gs ->
  lost_values_gone (TData c fs) (TData c' gs) ->
  materialize_type (TData c fs) = Ok s -> materialize_type (TData c' gs) = Ok r ->
  compare_schemas s r = Ok k -> checker_severity k <> ERROR ->
  (forall ch, In ch (ck_changes k) -> repairable E fs gs (ck_changes k) ch) ->
  c_versioned c = Some (v, rules) -> c_versioned c2 = Some (v + 1, rules')%Z ->
  (forall i rs, In (i, rs) rules' -> (i < v + 1)%Z) -> rules_at rules' v = ck_fixes k ->
  filev (VDict d) = true -> floatable (VDict (adel "version" d)) -> unmarked (VDict d) -> aget "version" d = Some (VInt v) ->
  typed_load E (TData c fs) (VDict d) dir None allow false = Ok L -> l_sched L = [] ->
  exists L', typed_load E (TData c2 gs) (VDict d) dir None allow false = Ok L' /\ l_sched L' = [].
Proof.
  intros HE O1 O2 D1 D2 Lost Ms Mr C Sv Rep Vc Vc2 Hb Ra Hd Fd Ud Gv H Hn.
  destruct (load_means E _ _ dir allow false L HE (proj1 O1) Hd H) as [_ D]. specialize (D Hn).
  destruct (fixes_accept E allow (is_some dir) c fs c' gs c2 s r k v rules rules' d) as [v' V]; auto; [now exists (l_value L)|].
  destruct (load_exists E _ _ dir allow false v' HE (proj1 O2) Hd V) as (L' & Q & _ & Q'). eauto.
Qed.

(** *** values *)
Lemma fixes_items E allow c fs c' gs c2 s r k v rules rules' d :
  ordinary E c fs -> ordinary E c2 gs -> one_level fs -> one_level gs ->
  materialize_type (TData c fs) = Ok s -> materialize_type (TData c' gs) = Ok r ->
  compare_schemas s r = Ok k -> checker_severity k <> ERROR ->
  (forall ch, In ch (ck_changes k) -> repairable E fs gs (ck_changes k) ch) ->
  c_versioned c = Some (v, rules) -> c_versioned c2 = Some (v + 1, rules')%Z ->
  (forall i rs, In (i, rs) rules' -> (i < v + 1)%Z) -> rules_at rules' v = ck_fixes k ->
  filev (VDict d) = true -> unmarked (VDict d) -> aget "version" d = Some (VInt v) -> known fs (adel "version" d) ->
  exists m', deser_versioned (e_class E) allow (TData c2 gs) (VDict d) = Ok (VDict m') /\
    (forall n u fd w, aget n gs = Some (u, fd) -> becomes (ck_changes k) (adel "version" d) n w -> aget n m' = Some w /\ is_weak w = false) /\
    (forall n, (exists t od, aget n fs = Some (t, od)) -> (exists u fd, aget n gs = Some (u, fd)) -> (forall ch, In ch (ck_changes k) -> change_field ch <> [n]) ->
       aget n m' = aget n (adel "version" d)).
Proof.
  intros O1 O2 D1 D2 Ms Mr C Sv Rep Vc Vc2 Hb Ra Hd Ud Gv Kn.
  destruct O1 as (Lo1 & Nm1 & X1 & Ll1 & V1 & _). destruct O2 as (Lo2 & Nm2 & X2 & Ll2 & V2 & _).
  assert (F : exists cs, find_changes s r [] = Ok cs).
  { pose proof C as C'. unfold compare_schemas in C'. apply rbind_ok in C'. destruct C' as (cs & F & _). eauto. }
  destruct F as [cs F].
  assert (Dn : distinct_names s) by exact (materialize_distinct _ _ Ms Nm1).
  assert (Dn' : distinct_names r) by exact (materialize_distinct _ _ Mr Nm2).
  destruct (compare_ok s r cs Dn Dn' F) as (c1 & c3 & C' & M2 & M3). rewrite C in C'. injection C' as ->. cbn [ck_changes ck_fixes] in *.
  destruct (find_keyed r s [] cs Dn' Dn F) as [Nk _].
  destruct (mat_data _ _ _ Ms) as (sf & ver & Mf & Qs). destruct (mat_data _ _ _ Mr) as (sg & ver' & Mg & Qr).
  assert (Fc : find_changes (SStruct (c_name c) sf ver) (SStruct (c_name c') sg ver') [] = Ok cs).
  { rewrite <- F, Qs, Qr. reflexivity. }
  assert (Sev : forall ch, In ch c3 -> change_severity ch <> ERROR).
  { intros ch I Q. apply Sv. pose proof (severity_worst (mkChk s r c3 (flat_map fixes c3))) as W. apply (worst_error _ _ W). cbn [ck_changes]. apply in_map_iff. eauto. }
  set (m0 := adel "version" d) in *.
  assert (N0 : NoDup (akeys m0)).
  { apply nodup_adel. cbn [filev] in Hd. apply andb_true_iff in Hd. destruct Hd as [Hd _]. now apply RewriteFacts.nodupb_NoDup. }
  pose proof (conj Lo1 Logic.I) as [(Nf & _) _]. pose proof (conj Lo2 Logic.I) as [(Ng & Nn & _) _].
  assert (Ok0 : forall k v0, aget k m0 = Some v0 -> is_weak v0 = false /\ (k = "!__name__" \/ exists p, aget k fs = Some p)).
  { intros k0 w G. apply aget_some_in in G. assert (W : is_weak w = false).
    { apply unmarked_weak. pose proof G as G'. apply in_adel in G'. eapply (unmarked_items (VDict d)); eauto; reflexivity. }
    split; [exact W|]. destruct (Kn k0 w G) as [H|[H|[H|H]]]; [now left|congruence| |discriminate H].
    right. apply in_map_iff in H. destruct H as ([k' p] & Q & H). cbn [fst] in Q. subst k'. exists p. apply in_nodup_aget; auto. }
  assert (Sm : Forall simple_rule (flat_map fixes c3)).
  { apply Forall_forall. intros r0 I. eapply (fix_simple E fs gs D2 cs c1 c3 _ _ (origin fs gs sf sg Mf Mg Nf Ng D1 D2 cs _ _ _ _ Fc)); eauto. }
  destruct (rules_act _ m0 Sm N0) as (m' & Ap & N' & G').
  pose proof (origin fs gs sf sg Mf Mg Nf Ng D1 D2 cs _ _ _ _ Fc) as Orig.
  pose proof (kept_in fs gs sf sg Mf Mg D1 D2 cs _ _ _ _ Fc) as KeptIn.
  pose proof (added_in fs gs sf sg Mf Mg D2 cs _ _ _ _ Fc) as AddedIn.
  pose proof (removed_in fs gs sf sg Mf Mg D1 cs _ _ _ _ Fc) as RemovedIn.
  exists m'. split; [|split].
  - apply (deser_fixed _ _ c2 gs v rules' d m'); auto. rewrite Ra. exact Ap.
  - intros n u fd w Eg B. rewrite G'. apply (fin_becomes E fs gs D2 cs c1 c3 _ _ Orig KeptIn Nk M2 M3 Rep Sev c2 X2 m0 n u fd w); auto.
    intros ->. apply Nn. apply aget_some_in in Eg. apply in_map_iff. now exists ("!__name__", (u, fd)).
  - intros n (t & od & Ef) (u & fd & Eg) No. rewrite G'. apply fin_untouched. intros r0 Ir T.
    destruct (kept_rule fs gs cs c1 c3 _ _ Orig M2 M3 n r0) as (ch & Ic & _ & Kc & _); auto; [now exists t, od, u, fd|].
    apply (No ch Ic). now rewrite <- kpath_field.
Qed.

Lemma fixes_values E c fs c' gs c2 s r k v rules rules' d dir allow L L' :
  order_ok E -> ordinary E c fs -> ordinary E c2 gs -> one_level fs -> one_level gs ->
  materialize_type (TData c fs) = Ok s -> materialize_type (TData c' gs) = Ok r ->
  compare_schemas s r = Ok k -> checker_severity k <> ERROR ->
  (forall ch, In ch (ck_changes k) -> repairable E fs gs (ck_changes k) ch) ->
  c_versioned c = Some (v, rules) -> c_versioned c2 = Some (v + 1, rules')%Z ->
  (forall i rs, In (i, rs) rules' -> (i < v + 1)%Z) -> rules_at rules' v = ck_fixes k ->
  filev (VDict d) = true -> unmarked (VDict d) -> aget "version" d = Some (VInt v) ->
  typed_load E (TData c fs) (VDict d) dir None allow false = Ok L -> l_sched L = [] ->
  typed_load E (TData c2 gs) (VDict d) dir None allow false = Ok L' -> l_sched L' = [] ->
  exists o o', l_value L = VObj (c_name c) o /\ l_value L' = VObj (c_name c2) o' /\
    (forall n u fd w, aget n gs = Some (u, fd) -> becomes (ck_changes k) (adel "version" d) n w ->
       exists v', aget n o' = Some v' /\ denotes E false allow (is_some dir) false u w v') /\
    (forall n t od fd, aget n fs = Some (t, od) -> aget n gs = Some (t, fd) ->
       (forall ch, In ch (ck_changes k) -> change_field ch = [n] -> about_default ch) ->
       aget n (adel "version" d) <> None -> aget n o' = aget n o) /\
    (forall n t od, aget n fs = Some (t, od) -> aget n gs = Some (t, od) ->
       (forall ch, In ch (ck_changes k) -> change_field ch <> [n]) -> aget n o' = aget n o) /\
    (forall a b t od fd, aget a fs = Some (t, od) -> aget b gs = Some (t, fd) -> In (FieldRenamed [a] [b]) (ck_changes k) ->
       aget a (adel "version" d) <> None -> aget b o' = aget a o).
Proof.
  intros HE O1 O2 D1 D2 Ms Mr C Sv Rep Vc Vc2 Hb Ra Hd Ud Gv H Hn H' Hn'.
  destruct (load_means E _ _ dir allow false L HE (proj1 O1) Hd H) as [_ D]. specialize (D Hn).
  destruct (load_means E _ _ dir allow false L' HE (proj1 O2) Hd H') as [_ D']. specialize (D' Hn').
  destruct D as (y & items & o & Ey & Ei & Qo & Kn & A). pose proof (deser_current_inv _ _ _ _ _ _ _ _ Vc Gv Ey) as ->. cbn [items_of] in Ei. injection Ei as <-.
  destruct (fixes_items E allow c fs c' gs c2 s r k v rules rules' d) as (m' & Dm & Bc & Un); auto.
  destruct D' as (y & items & o' & Ey' & Ei & Qo' & Kn' & A'). rewrite Dm in Ey'. injection Ey' as <-. injection Ei as <-.
  exists o, o'. split; [exact Qo|]. split; [exact Qo'|].
  destruct O1 as ((Nf & _) & _). destruct O2 as ((Ng & _) & _).
  assert (Rd : forall (fs0 : list (string * (ty * dflt))) o0 (P : ty -> dflt -> string -> pyval -> Prop), NoDup (field_names fs0) ->
     all2 false (fun (f : string * (ty * dflt)) kv => let '(n, (ft, fd)) := f in fst kv = n /\ P ft fd n (snd kv)) fs0 o0 ->
     forall n t od, aget n fs0 = Some (t, od) -> exists v0, aget n o0 = Some v0 /\ P t od n v0).
  { intros fs0 o0 P. revert o0. induction fs0 as [|[n0 [t0 d0]] fs0 IH]; intros [|[n1 v1] o0] Nd Al n t od G; cbn [all2] in Al; try discriminate Al; try discriminate G.
    destruct Al as [[Q1 P1] Al]. cbn [fst snd] in *. subst n1. inversion Nd as [|? ? N1 N2]; subst. cbn [aget] in G |- *.
    destruct (String.eqb_spec n n0) as [->|Hne]; [injection G as <- <-; eauto|]. now apply IH. }
  pose proof (Rd fs o (fun ft fd n v0 => match aget n (adel "version" d) with None => default_field ft fd (VDict []) v0 | Some w => if is_weak w then default_field ft fd w v0 else denotes E false allow (is_some dir) false ft w v0 end) Nf A) as Ro.
  pose proof (Rd gs o' (fun ft fd n v0 => match aget n m' with None => default_field ft fd (VDict []) v0 | Some w => if is_weak w then default_field ft fd w v0 else denotes E false allow (is_some dir) false ft w v0 end) Ng A') as Ro'.
  clear Rd. cbv beta in Ro, Ro'.
  assert (B1 : forall n u fd w, aget n gs = Some (u, fd) -> becomes (ck_changes k) (adel "version" d) n w ->
       exists v', aget n o' = Some v' /\ denotes E false allow (is_some dir) false u w v').
  { intros n u fd w Eg B. destruct (Bc n u fd w Eg B) as [G W]. destruct (Ro' n u fd Eg) as (v' & Gv' & Dv). rewrite G, W in Dv. eauto. }
  assert (Wk : forall n w, aget n (adel "version" d) = Some w -> is_weak w = false).
  { intros n w G. apply aget_some_in, in_adel in G. apply unmarked_weak. eapply (unmarked_items (VDict d)); eauto; reflexivity. }
  split; [exact B1|]. split; [|split].
  - intros n t od fd Ef Eg Q G. destruct (aget n (adel "version" d)) as [w|] eqn:Gw; [|now destruct G].
    destruct (B1 n t fd w Eg) as (v' & Gv' & Dv'); [apply bc_same; auto|]. destruct (Ro n t od Ef) as (v0 & Gv0 & Dv). rewrite Gw, (Wk _ _ Gw) in Dv.
    rewrite Gv', Gv0. f_equal. eapply OverrideLoad.denotes_fun; eauto.
  - intros n t od Ef Eg Q. destruct (Ro n t od Ef) as (v0 & Gv0 & Dv). destruct (Ro' n t od Eg) as (v' & Gv' & Dv'). rewrite Gv', Gv0. f_equal.
    rewrite (Un n) in Dv'; eauto. destruct (aget n (adel "version" d)) as [w|] eqn:Gw.
    + rewrite (Wk _ _ Gw) in Dv, Dv'. eapply OverrideLoad.denotes_fun; eauto.
    + destruct od; cbn [default_field] in Dv, Dv'; try congruence. destruct Dv as [Dv _]. unfold one_level in D1. rewrite all_in in D1. pose proof (D1 _ (aget_some_in _ _ _ Ef)) as Dt. cbn [fst snd] in Dt.
      destruct t; try (destruct Dv; fail). destruct Dt.
  - intros a b t od fd Ef Eg I G. destruct (aget a (adel "version" d)) as [w|] eqn:Gw; [|now destruct G].
    destruct (B1 b t fd w Eg) as (v' & Gv' & Dv'); [eapply bc_renamed; eauto|]. destruct (Ro a t od Ef) as (v0 & Gv0 & Dv). rewrite Gw, (Wk _ _ Gw) in Dv.
    rewrite Gv', Gv0. f_equal. eapply OverrideLoad.denotes_fun; eauto.
Qed.

Lemma worst_is_error l s : worst l s -> s = ERROR -> In ERROR l.
Proof. induction 1; intros Q; subst; [discriminate|now left|right; auto]. Qed.

(** dump-schema with the old class, check-schema with the new one, rules pasted *)
Lemma fixes_check_schema E c fs c' gs c2 v v' rules0 rules file rep w fixes rules' d dir allow L :
  order_ok E -> ordinary E c fs -> ordinary E c2 gs -> one_level fs -> one_level gs ->
  lost_values_gone (TData c fs) (TData c' gs) ->
  c_versioned c = Some (v, rules0) -> c_versioned c' = Some (v', rules) -> (v' = v \/ v' = v + 1 /\ rules_at rules v = [])%Z ->
  file_type (TData c fs) -> values_in simple (TData c fs) ->
  dump_schema (TData c fs) = Ok file -> check_schema file (TData c' gs) = Ok rep ->
  (forall w ch, In (w, ch) (rp_lines rep) -> w <> ERROR /\ repairable E fs gs (map snd (rp_lines rep)) ch) ->
  rp_rules rep = Some (Some w, fixes) -> rules_at rules' w = fixes ->
  c_versioned c2 = Some (match rp_bump rep with Some b => b | None => v' end, rules') ->
  (forall i rs, In (i, rs) rules' -> (i <= w)%Z) ->
  filev (VDict d) = true -> floatable (VDict (adel "version" d)) -> unmarked (VDict d) -> aget "version" d = Some (VInt v) ->
  typed_load E (TData c fs) (VDict d) dir None allow false = Ok L -> l_sched L = [] ->
  exists L', typed_load E (TData c2 gs) (VDict d) dir None allow false = Ok L' /\ l_sched L' = [].
Proof.
  intros HE O1 O2 D1 D2 Lost Vc Vc' Vv Ft Vs Du Ck Rep Rr Ra Vc2 Hb Hd Fd Ud Gv H Hn.
  destruct (compat_checked c fs c' gs v v' rules0 rules file rep Vc Vc') as (s & r & k & Ms & Mr & C & Q & Sv & Sv'); auto.
  { destruct Vv as [->|[-> Vv]]; intros i Hi; [lia|]. replace i with v by lia. exact Vv. }
  assert (Rl : rp_lines rep = map (fun ch => (change_severity ch, ch)) (ck_changes k)) by now rewrite <- Q.
  assert (Rc : map snd (rp_lines rep) = ck_changes k) by (rewrite Rl, map_map; cbn; apply map_id).
  assert (Li : forall ch, In ch (ck_changes k) -> In (change_severity ch, ch) (rp_lines rep)).
  { intros ch I. rewrite Rl. apply in_map_iff. eauto. }
  assert (Ck2 : ck_old k = s /\ ck_new k = r).
  { unfold compare_schemas in C. apply rbind_ok in C as (c1 & _ & C). apply rbind_ok in C as (c3 & _ & C). apply rbind_ok in C as (c4 & _ & C).
    injection C as <-. auto. }
  destruct Ck2 as [Eo En].
  assert (P : w = v /\ fixes = ck_fixes k /\ match rp_bump rep with Some b => b | None => v' end = (v + 1)%Z).
  { rewrite <- Q in Rr |- *. unfold print_report in Rr |- *. cbn [rp_rules rp_bump] in Rr |- *. rewrite Eo, En, Sv, Sv' in *.
    destruct (checker_severity k); [discriminate Rr| |]; (destruct (ck_fixes k); [discriminate Rr|]); injection Rr as <- <-; (split; [reflexivity|]); (split; [reflexivity|]);
    unfold version_eqb; cbn [opt_eqb sev_gt andb]; destruct (Z.eqb_spec v v') as [<-|Nv]; cbn; try reflexivity; destruct Vv as [->|[-> _]]; congruence. }
  destruct P as (-> & -> & Pv). rewrite Pv in Vc2.
  apply (fixes_load E c fs c' gs c2 s r k v rules0 rules' d dir allow L); auto.
  - intros Se. pose proof (worst_is_error _ _ (severity_worst k) Se) as I. apply in_map_iff in I. destruct I as (ch & Q1 & I). now apply (Rep _ _ (Li ch I)).
  - intros ch I. rewrite <- Rc. apply (Rep _ _ (Li ch I)).
  - intros i rs I. specialize (Hb i rs I). lia.
Qed.
