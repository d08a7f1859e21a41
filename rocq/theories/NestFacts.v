(** NestFacts.v -- configs with sub-configs as flat configs whose keys stand for paths (C29). *)
From Coq Require Import Permutation.
From Verif Require Import Base Value Schema Rewrite Sched Types Asdict FromDict Checker Induct AFacts SpecTypes SpecLoad SpecSubtype
  SpecRenames SpecCheck SpecCompat SpecFix SpecNest RoundTrip SchemaFacts RenameFacts FindFacts CheckFacts SubtypeFacts UpgradeFacts CompatFacts FromDictFacts LoadProps FixFacts.

(** ** Paths as keys *)
Fixpoint esc (s : string) : string := match s with EmptyString => EmptyString | String a r => String "." (String a (esc r)) end.
Fixpoint enc (p : list string) : string := match p with [] => "" | s :: r => String "/" (esc s ++ enc r) end.

Fixpoint dec_go (s : string) : string * list string :=
  match s with
  | EmptyString => ("", [])
  | String a r =>
      if Ascii.eqb a "/" then let '(n, p) := dec_go r in ("", n :: p)
      else match r with
           | EmptyString => ("", [])
           | String b r' => let '(n, p) := dec_go r' in (String b n, p)
           end
  end.
Definition dec (s : string) : list string := snd (dec_go s).

Lemma dec_esc s : forall t, dec_go (esc s ++ t) = (s ++ fst (dec_go t), snd (dec_go t)).
Proof.
  induction s as [|a s IH]; intros t; cbn [esc append]; [now destruct (dec_go t)|].
  cbn [dec_go]. replace (Ascii.eqb "." "/") with false by reflexivity. rewrite IH. reflexivity.
Qed.

Lemma dec_enc_go p : dec_go (enc p) = ("", p).
Proof.
  induction p as [|s p IH]; [reflexivity|]. cbn [enc dec_go]. replace (Ascii.eqb "/" "/") with true by reflexivity.
  rewrite dec_esc, IH. cbn [fst snd]. f_equal. f_equal. clear. induction s as [|a s IH]; [reflexivity|]. cbn [append]. now rewrite IH.
Qed.

Lemma dec_enc p : dec (enc p) = p.
Proof. unfold dec. now rewrite dec_enc_go. Qed.

Lemma enc_inj p q : enc p = enc q -> p = q.
Proof. intros H. rewrite <- (dec_enc p), <- (dec_enc q). now rewrite H. Qed.

Lemma enc_name p : enc p <> "!__name__".
Proof. destruct p; cbn [enc]; discriminate. Qed.

(** ** The fields at the leaves *)
Fixpoint leaves (path : list string) (t : ty) (d : dflt) {struct t} : list (string * (ty * dflt)) :=
  match t with
  | TData _ fs => flat_map (fun f : string * (ty * dflt) => let '(n, (ft, fd)) := f in leaves (path ++ [n]) ft fd) fs
  | _ => [(enc path, (t, d))]
  end.
Definition flatf (path : list string) (fs : list (string * (ty * dflt))) : list (string * (ty * dflt)) :=
  flat_map (fun f : string * (ty * dflt) => let '(n, (ft, fd)) := f in leaves (path ++ [n]) ft fd) fs.

Lemma leaf_cons fs k r : leaf fs (k :: r) =
  match aget k fs with
  | Some (t, d) => match t with TData _ gs => leaf gs r | _ => match r with [] => Some (t, d) | _ => None end end
  | None => None
  end.
Proof. cbn [leaf]. destruct (aget k fs) as [[[ ] d]|]; reflexivity. Qed.

Lemma leaf_data fs p t d : leaf fs p = Some (t, d) -> is_dataclass_ty t = false.
Proof.
  revert fs. induction p as [|k r IH]; intros fs H; [discriminate H|]. rewrite leaf_cons in H. destruct (aget k fs) as [[t' d']|]; [|discriminate H].
  destruct t'; try (eapply IH; eauto; fail); (destruct r; [|discriminate H]); injection H as <- <-; reflexivity.
Qed.

Lemma leaves_data t d path : is_dataclass_ty t = false -> leaves path t d = [(enc path, (t, d))].
Proof. destruct t; intros H; try reflexivity. discriminate H. Qed.

Lemma leaves_in t : forall d path k x, names_differ t -> In (k, x) (leaves path t d) ->
  exists q, k = enc (path ++ q) /\ match t with TData _ fs => leaf fs q = Some x | _ => q = [] /\ x = (t, d) end.
Proof.
  induction t as [| | | | |j IH|us IH|ku vu IHk IHv|j IH|us IH|c fs IH|n' ms'|l'|n'] using ty_ind'; intros d path k x Nd I;
    try (destruct I as [I|[]]; injection I as <- <-; exists []; rewrite app_nil_r; auto; fail).
  cbn [leaves] in I. apply in_flat_map in I. destruct I as ([n [ft fd]] & J & I). cbn [names_differ] in Nd. destruct Nd as [N1 N2]. rewrite all_in in N2.
  pose proof (N2 _ J) as Nf. cbn [fst snd] in Nf. rewrite Forall_forall in IH.
  destruct (IH _ J fd (path ++ [n])%list k x Nf I) as (q & -> & Q). cbn [fst snd] in Q.
  exists (n :: q). split; [rewrite <- app_assoc; reflexivity|]. rewrite leaf_cons. rewrite (in_nodup_aget n (ft, fd) fs N1 J).
  destruct ft; first [exact Q|destruct Q as [-> ->]; reflexivity].
Qed.

Lemma leaves_out t : forall d path q x, names_differ t -> match t with TData _ fs => leaf fs q = Some x | _ => q = [] /\ x = (t, d) end ->
  In (enc (path ++ q), x) (leaves path t d).
Proof.
  induction t as [| | | | |j IH|us IH|ku vu IHk IHv|j IH|us IH|c fs IH|n' ms'|l'|n'] using ty_ind'; intros d path q x Nd Q;
    try (destruct Q as [-> ->]; rewrite app_nil_r; now left).
  destruct q as [|n q]; [discriminate Q|]. rewrite leaf_cons in Q. destruct (aget n fs) as [[ft fd]|] eqn:G; [|discriminate Q].
  apply aget_some_in in G. cbn [leaves]. apply in_flat_map. exists (n, (ft, fd)). split; [exact G|].
  destruct Nd as [N1 N2]. rewrite all_in in N2. pose proof (N2 _ G) as Nf. cbn [fst snd] in Nf. rewrite Forall_forall in IH.
  replace (path ++ n :: q)%list with ((path ++ [n]) ++ q)%list by now rewrite <- app_assoc.
  apply (IH _ G fd); auto. cbn [fst snd]. destruct ft; try exact Q; (destruct q; [|discriminate Q]); injection Q as <-; auto.
Qed.

Lemma flatf_in fs path k x : names_differ (TData (mkC "" None) fs) -> In (k, x) (flatf path fs) -> exists q, k = enc (path ++ q) /\ leaf fs q = Some x.
Proof. intros Nd I. exact (leaves_in (TData (mkC "" None) fs) DMissing path k x Nd I). Qed.
Lemma flatf_out fs path q x : names_differ (TData (mkC "" None) fs) -> leaf fs q = Some x -> In (enc (path ++ q), x) (flatf path fs).
Proof. intros Nd Q. exact (leaves_out (TData (mkC "" None) fs) DMissing path q x Nd Q). Qed.

Lemma leaves_nodup t : forall d path, names_differ t -> NoDup (map fst (leaves path t d)).
Proof.
  induction t as [| | | | |j IH|us IH|ku vu IHk IHv|j IH|us IH|c fs IH|n' ms'|l'|n'] using ty_ind'; intros d path Nd;
    try (cbn; constructor; [intros []|constructor]).
  cbn [leaves]. destruct Nd as [N1 N2]. rewrite all_in in N2. rewrite Forall_forall in IH.
  assert (Q : map fst (flat_map (fun f : string * (ty * dflt) => let '(n, (ft, fd)) := f in leaves (path ++ [n]) ft fd) fs) =
    flat_map (fun f : string * (ty * dflt) => let '(n, (ft, fd)) := f in map fst (leaves (path ++ [n]) ft fd)) fs).
  { clear. induction fs as [|[n [ft fd]] fs IH]; [reflexivity|]. cbn [flat_map]. now rewrite map_app, IH. }
  rewrite Q. apply (nodup_flat fst); [exact N1| |].
  - intros [n [ft fd]] J. apply (IH _ J). exact (N2 _ J).
  - intros [n [ft fd]] [n2 [ft2 fd2]] z J J2 Z Z2. cbn [fst].
    apply in_map_iff in Z. destruct Z as ([z1 x1] & <- & Z). apply in_map_iff in Z2. destruct Z2 as ([z2 x2] & Q2 & Z2). cbn [fst] in Q2. subst z2.
    destruct (leaves_in _ _ _ _ _ (N2 _ J) Z) as (q & -> & _). destruct (leaves_in _ _ _ _ _ (N2 _ J2) Z2) as (q2 & Q2 & _).
    apply enc_inj in Q2. rewrite <- !app_assoc in Q2. apply app_inv_head in Q2. injection Q2 as -> _. reflexivity.
Qed.
Lemma flatf_nodup fs path : names_differ (TData (mkC "" None) fs) -> NoDup (field_names (flatf path fs)).
Proof. intros Nd. exact (leaves_nodup (TData (mkC "" None) fs) DMissing path Nd). Qed.

Lemma flatf_get fs q : names_differ (TData (mkC "" None) fs) -> aget (enc q) (flatf [] fs) = leaf fs q.
Proof.
  intros Nd. destruct (leaf fs q) as [x|] eqn:L.
  - apply in_nodup_aget; [now apply flatf_nodup|]. exact (flatf_out fs [] q x Nd L).
  - destruct (aget (enc q) (flatf [] fs)) as [x|] eqn:G; [|reflexivity]. apply aget_some_in in G. destruct (flatf_in _ _ _ _ Nd G) as (q' & Q & L').
    cbn [app] in Q. apply enc_inj in Q. congruence.
Qed.
Lemma flatf_some fs k x : names_differ (TData (mkC "" None) fs) -> aget k (flatf [] fs) = Some x -> exists q, k = enc q /\ leaf fs q = Some x.
Proof. intros Nd G. apply aget_some_in in G. exact (flatf_in fs [] k x Nd G). Qed.

(** ** Where the changes come from *)
Definition dchanges (p : list string) (od fd : dflt) : list change :=
  if negb (Bool.eqb (has_default od) (has_default fd)) then
    if negb (has_default fd) then [DefaultValueRemoved p (schema_default (default_value od))] else []
  else if has_default od && negb (py_eq (schema_default (default_value od)) (schema_default (default_value fd))) then
    [DefaultValueChanged p (schema_default (default_value od)) (schema_default (default_value fd))]
  else [].
Lemma dchanges_meta path n od fd : default_changes path n (meta n od) (meta n fd) = dchanges (path ++ [n]) od fd.
Proof. reflexivity. Qed.
Lemma dchanges_in p od fd c : In c (dchanges p od fd) -> kpath c = p /\ about_default c.
Proof.
  unfold dchanges. intros I. repeat match type of I with In _ (if ?b then _ else _) => destruct b end; try destruct I as [<-|[]]; try destruct I; split; auto; exact Logic.I.
Qed.

Definition kept_at (fs gs : list (string * (ty * dflt))) (path q : list string) (t : ty) (od : dflt) (u : ty) (fd : dflt) (inner : list change) : Prop :=
  leaf fs q = Some (t, od) /\ leaf gs q = Some (u, fd) /\
  exists s r, materialize_type t = Ok s /\ materialize_type u = Ok r /\ find_changes s r (path ++ q) = Ok inner.

Definition origin_at (fs gs : list (string * (ty * dflt))) (path : list string) (c : change) : Prop :=
  match c with
  | FieldAdded p t d h => exists q u fd, p = (path ++ q)%list /\ leaf gs q = Some (u, fd) /\ materialize_type u = Ok t /\
      d = schema_default (default_value fd) /\ h = has_default fd /\ leaf fs q = None
  | FieldRemoved p t d h => exists q u fd, p = (path ++ q)%list /\ leaf fs q = Some (u, fd) /\ materialize_type u = Ok t /\
      d = schema_default (default_value fd) /\ h = has_default fd /\ leaf gs q = None
  | FieldRenamed _ _ | EnumVariantRenamed _ _ _ _ => False
  | _ => exists q t od u fd inner, kpath c = (path ++ q)%list /\ kept_at fs gs path q t od u fd inner /\ In c (inner ++ dchanges (path ++ q) od fd)
  end.

Lemma section_cons fs k r : section fs (k :: r) = match aget k fs with Some (t, _) => match t with TData _ gs => section gs r | _ => None end | None => None end.
Proof. cbn [section]. destruct (aget k fs) as [[[ ] d]|]; reflexivity. Qed.

Lemma same_sections_in fs gs n c fs' d c' gs' d' : same_sections fs gs -> aget n fs = Some (TData c fs', d) -> aget n gs = Some (TData c' gs', d') -> same_sections fs' gs'.
Proof. intros Q A B p. pose proof (Q (n :: p)) as H. unfold is_section in *. rewrite !section_cons, A, B in H. exact H. Qed.

Lemma same_one fs gs n : same_sections fs gs ->
  match aget n fs with Some (t, _) => is_dataclass_ty t | None => false end = match aget n gs with Some (t, _) => is_dataclass_ty t | None => false end.
Proof.
  intros Q. pose proof (Q [n]) as H. unfold is_section in H. rewrite !section_cons in H.
  destruct (aget n fs) as [[[ ] d]|], (aget n gs) as [[[ ] d']|]; cbn [section is_dataclass_ty] in *; congruence.
Qed.

Lemma is_data t : is_dataclass_ty t = true -> exists c fs, t = TData c fs.
Proof. destruct t; try discriminate. eauto. Qed.

Lemma leaf_one fs n t d : aget n fs = Some (t, d) -> is_dataclass_ty t = false -> leaf fs [n] = Some (t, d).
Proof. intros G D. rewrite leaf_cons, G. destruct t; try reflexivity. discriminate D. Qed.

Lemma leaf_none fs n : aget n fs = None -> leaf fs [n] = None.
Proof. intros G. now rewrite leaf_cons, G. Qed.

Lemma origin_lift fs gs fs' gs' c1 c2 d1 d2 n path c : aget n fs = Some (TData c1 fs', d1) -> aget n gs = Some (TData c2 gs', d2) ->
  origin_at fs' gs' (path ++ [n]) c -> origin_at fs gs path c.
Proof.
  intros A B O.
  assert (Lf : forall q, leaf fs (n :: q) = leaf fs' q) by (intros q; now rewrite leaf_cons, A).
  assert (Lg : forall q, leaf gs (n :: q) = leaf gs' q) by (intros q; now rewrite leaf_cons, B).
  assert (Ap : forall q, ((path ++ [n]) ++ q)%list = (path ++ n :: q)%list) by (intros q; now rewrite <- app_assoc).
  destruct c; cbn [origin_at] in O |- *; try exact O;
    try (destruct O as (q & t & od & u & fd & inner & P & (K1 & K2 & s & r & K3 & K4 & K5) & I); rewrite Ap in P, K5, I; exists (n :: q), t, od, u, fd, inner;
      split; [exact P|]; split; [|exact I]; split; [now rewrite Lf|]; split; [now rewrite Lg|]; exists s, r; auto; fail);
    destruct O as (q & u & fd & P & K1 & K2 & K3 & K4 & K5); rewrite Ap in P; exists (n :: q), u, fd; rewrite Lf, Lg; auto 10.
Qed.

Lemma nest_origin t : match t with TData c' gs => forall fs path sf sg nm nm' ver ver' cs c, names_differ (TData c' fs) -> names_differ t -> all_sectioned fs -> sectioned t ->
    same_sections fs gs -> mat_fields fs = Ok sf -> mat_fields gs = Ok sg -> find_changes (SStruct nm sf ver) (SStruct nm' sg ver') path = Ok cs -> In c cs ->
    origin_at fs gs path c \/ exists q, is_section gs q = true /\ kpath c = (path ++ q)%list /\ about_default c
  | _ => True end.
Proof.
  induction t as [| | | | |j IH|us IH|ku vu IHk IHv|j IH|us IH|c' gs IH|n' ms'|l'|n'] using ty_ind'; try exact Logic.I.
  intros fs path sf sg nm nm' ver ver' cs c Nf Ng Sf Sg Ss Mf Mg F I. rewrite Forall_forall in IH.
  destruct Nf as [Nf Nf']. destruct Ng as [Ng Ng']. rewrite all_in in Nf', Ng'. cbn [sectioned] in Sg. unfold all_sectioned in Sf. rewrite all_in in Sf, Sg.
  rewrite find_struct in F. apply rbind_ok in F. destruct F as (c1 & Hs & Q). injection Q as <-.
  assert (Lg : forall n u fd, aget n gs = Some (u, fd) -> is_dataclass_ty u = false -> dataless u).
  { intros n u fd G D. apply aget_some_in in G. pose proof (Sg _ G) as X. cbn [fst snd] in X. destruct u; try exact X. discriminate D. }
  apply in_app_or in I. destruct I as [I|I].
  - destruct (sections_out _ _ _ _ _ Hs I) as (n & ft & m & here & Ig & Fh & Ih).
    destruct (in_gs gs sg Mg Ng _ _ _ Ig) as (u & fd & Gu & Mu & ->).
    unfold field_section, sfield in Fh. pose proof (mat_aget fs sf n Mf) as G. pose proof (mat_struct _ _ Mu) as Su. pose proof (same_one fs gs n Ss) as So. rewrite Gu in So.
    destruct (aget n fs) as [[t od]|] eqn:Ef.
    + destruct G as (st & Ms & G). rewrite G in Fh. pose proof (mat_struct _ _ Ms) as St. rewrite Su, St, So in Fh. rewrite andb_negb_r in Fh.
      apply rbind_ok in Fh. destruct Fh as (inner & Fi & Q). injection Q as <-. rewrite dchanges_meta in Ih.
      destruct (is_dataclass_ty u) eqn:Du.
      * destruct (is_data _ Du) as (cu & us & ->). destruct (is_data _ So) as (ct & ts & ->).
        destruct (mat_data _ _ _ Mu) as (sg' & ver2 & Mg' & ->). destruct (mat_data _ _ _ Ms) as (sf' & ver3 & Mf' & ->).
        apply in_app_or in Ih. destruct Ih as [Ih|Ih].
        -- pose proof (IH _ (aget_some_in _ _ _ Gu)) as IH'. cbn [fst snd] in IH'.
           destruct (IH' ts (path ++ [n])%list sf' sg' (c_name ct) (c_name cu) ver3 ver2 inner c) as [O|(q & Q1 & Q2 & Q3)]; auto.
           ++ exact (Nf' _ (aget_some_in _ _ _ Ef)).
           ++ exact (Ng' _ (aget_some_in _ _ _ Gu)).
           ++ exact (Sf _ (aget_some_in _ _ _ Ef)).
           ++ exact (Sg _ (aget_some_in _ _ _ Gu)).
           ++ eapply same_sections_in; eauto.
           ++ left. eapply origin_lift; eauto.
           ++ right. exists (n :: q). split; [unfold is_section in *; now rewrite section_cons, Gu|]. rewrite <- app_assoc in Q2. auto.
        -- right. exists [n]. destruct (dchanges_in _ _ _ _ Ih) as [Q1 Q2]. split; [unfold is_section; rewrite section_cons, Gu; reflexivity|auto].
      * left. assert (Kp : kept_at fs gs path [n] t od u fd inner).
        { split; [now apply leaf_one|]. split; [now apply leaf_one|]. exists st, ft. auto. }
        assert (P : kpath c = (path ++ [n])%list /\ match c with FieldAdded _ _ _ _ | FieldRemoved _ _ _ _ | FieldRenamed _ _ | EnumVariantRenamed _ _ _ _ => False | _ => True end).
        { pose proof Ih as Ih'. apply in_app_or in Ih'. destruct Ih' as [Ih'|Ih'].
          - destruct (leaf_changes u ft st (path ++ [n])%list inner c (Lg _ _ _ Gu Du) Mu Fi Ih') as [L _].
            destruct c; try (destruct L; fail); cbn [leaf_change] in L; try destruct L as [L _]; subst; split; auto; reflexivity.
          - destruct (dchanges_in _ _ _ _ Ih') as [Q1 Q2]. split; [exact Q1|]. destruct c; auto. }
        destruct P as [P1 P2]. destruct c; try (destruct P2; fail); cbn [origin_at]; exists [n], t, od, u, fd, inner; auto.
    + rewrite G, Su, <- So in Fh. injection Fh as <-. left. destruct Ih as [<-|[]]. cbn [field_added origin_at fst snd fm_default fm_has_default]. exists [n], u, fd.
      split; [reflexivity|]. split; [now apply leaf_one|]. split; [exact Mu|]. split; [reflexivity|]. split; [reflexivity|]. now apply leaf_none.
  - left. unfold removed_fields in I. apply in_flat_map in I. destruct I as ([n [ft m]] & J & I). cbn [fst snd] in I. unfold sfield in *.
    destruct (in_fs fs sf Mf Nf _ _ _ J) as (u & fd & Gu & Mu & ->). pose proof (same_one fs gs n Ss) as So. rewrite Gu in So.
    destruct (@amem (sty * fmeta) n sg) eqn:Am; [destruct I|]. pose proof (mat_aget gs sg n Mg) as G. destruct (aget n gs) as [[u' fd']|] eqn:Gg.
    { destruct G as (s & _ & G). unfold amem in Am. rewrite G in Am. discriminate. }
    rewrite (mat_struct _ _ Mu), So in I. destruct I as [<-|[]]. cbn [field_removed origin_at fst snd fm_default fm_has_default]. exists [n], u, fd.
    split; [reflexivity|]. split; [now apply leaf_one|]. split; [exact Mu|]. split; [reflexivity|]. split; [reflexivity|]. now apply leaf_none.
Qed.

Section Nested.
  Variable fs gs : list (string * (ty * dflt)).
  Variable sf sg : list (string * (sty * fmeta)).
  Hypothesis Mf : mat_fields fs = Ok sf.
  Hypothesis Mg : mat_fields gs = Ok sg.
  Hypothesis Ss : same_sections fs gs.
  Variable path : list string.
  Variable cs : list change.
  Variable nm nm' : string.
  Variable ver ver' : option Z.
  Hypothesis F : find_changes (SStruct nm sf ver) (SStruct nm' sg ver') path = Ok cs.

  (** the changes of one sub-config *)
  Lemma nest_in n ct ts td cu us ud : aget n fs = Some (TData ct ts, td) -> aget n gs = Some (TData cu us, ud) ->
    exists sf' sg' v v' inner, mat_fields ts = Ok sf' /\ mat_fields us = Ok sg' /\ find_changes (SStruct (c_name ct) sf' v) (SStruct (c_name cu) sg' v') (path ++ [n]) = Ok inner /\ incl inner cs.
  Proof.
    intros Ef Eg. pose proof F as F'. rewrite find_struct in F'. apply rbind_ok in F'. destruct F' as (c1 & Hs & Q). injection Q as <-.
    pose proof (mat_aget fs sf n Mf) as A. rewrite Ef in A. destruct A as (s & Ms & A).
    pose proof (mat_aget gs sg n Mg) as B. rewrite Eg in B. destruct B as (r & Mr & B).
    destruct (sections_in _ _ _ _ Hs _ _ _ (aget_some_in _ _ _ B)) as (here & Fh & Inc).
    unfold field_section, sfield in Fh. rewrite A in Fh.
    destruct (mat_data _ _ _ Ms) as (sf' & v & Mf' & ->). destruct (mat_data _ _ _ Mr) as (sg' & v' & Mg' & ->). cbn [is_struct andb negb] in Fh.
    apply rbind_ok in Fh. destruct Fh as (inner & Fi & Q). injection Q as <-. exists sf', sg', v, v', inner. repeat (split; [assumption|]).
    intros c I. apply in_or_app. left. apply Inc, in_or_app. now left.
  Qed.

  Lemma nest_kept_one n t od u fd : aget n fs = Some (t, od) -> aget n gs = Some (u, fd) -> is_dataclass_ty t = false -> is_dataclass_ty u = false ->
    exists inner, kept_at fs gs path [n] t od u fd inner /\ incl (inner ++ dchanges (path ++ [n]) od fd) cs.
  Proof.
    intros Ef Eg Dt Du. pose proof F as F'. rewrite find_struct in F'. apply rbind_ok in F'. destruct F' as (c1 & Hs & Q). injection Q as <-.
    pose proof (mat_aget fs sf n Mf) as A. rewrite Ef in A. destruct A as (s & Ms & A).
    pose proof (mat_aget gs sg n Mg) as B. rewrite Eg in B. destruct B as (r & Mr & B).
    destruct (sections_in _ _ _ _ Hs _ _ _ (aget_some_in _ _ _ B)) as (here & Fh & Inc).
    unfold field_section, sfield in Fh. rewrite A in Fh. rewrite (mat_struct _ _ Ms), (mat_struct _ _ Mr), Dt, Du in Fh. cbn [andb negb] in Fh.
    apply rbind_ok in Fh. destruct Fh as (inner & Fi & Q). injection Q as <-. exists inner. split.
    - split; [now apply leaf_one|]. split; [now apply leaf_one|]. exists s, r. auto.
    - intros c I. apply in_or_app. left. now apply Inc.
  Qed.

  Lemma nest_added_one n u fd : aget n fs = None -> aget n gs = Some (u, fd) -> is_dataclass_ty u = false ->
    exists r, materialize_type u = Ok r /\ In (FieldAdded (path ++ [n]) r (schema_default (default_value fd)) (has_default fd)) cs.
  Proof.
    intros Ef Eg Du. pose proof F as F'. rewrite find_struct in F'. apply rbind_ok in F'. destruct F' as (c1 & Hs & Q). injection Q as <-.
    pose proof (mat_aget fs sf n Mf) as A. rewrite Ef in A.
    pose proof (mat_aget gs sg n Mg) as B. rewrite Eg in B. destruct B as (r & Mr & B).
    destruct (sections_in _ _ _ _ Hs _ _ _ (aget_some_in _ _ _ B)) as (here & Fh & Inc).
    unfold field_section, sfield in Fh. rewrite A, (mat_struct _ _ Mr), Du in Fh. injection Fh as <-.
    exists r. split; [exact Mr|]. apply in_or_app. left. apply Inc. now left.
  Qed.

  Lemma nest_removed_one n t od : aget n fs = Some (t, od) -> aget n gs = None -> is_dataclass_ty t = false ->
    exists s, materialize_type t = Ok s /\ In (FieldRemoved (path ++ [n]) s (schema_default (default_value od)) (has_default od)) cs.
  Proof.
    intros Ef Eg Dt. pose proof F as F'. rewrite find_struct in F'. apply rbind_ok in F'. destruct F' as (c1 & Hs & Q). injection Q as <-.
    pose proof (mat_aget fs sf n Mf) as A. rewrite Ef in A. destruct A as (s & Ms & A).
    pose proof (mat_aget gs sg n Mg) as B. rewrite Eg in B.
    exists s. split; [exact Ms|]. apply in_or_app. right. unfold removed_fields. apply in_flat_map. exists (n, (s, meta n od)).
    split; [now apply aget_some_in|]. cbn [fst snd]. unfold amem, sfield in *. rewrite B, (mat_struct _ _ Ms), Dt. now left.
  Qed.
End Nested.

Lemma leaf_case fs n q x : leaf fs (n :: q) = Some x ->
  (exists c ts d, aget n fs = Some (TData c ts, d) /\ leaf ts q = Some x) \/ (q = [] /\ aget n fs = Some x /\ is_dataclass_ty (fst x) = false).
Proof.
  rewrite leaf_cons. destruct (aget n fs) as [[t d]|] eqn:G; [|discriminate]. destruct t; try (intros H; left; do 3 eexists; split; [reflexivity|exact H]);
    (destruct q; [|discriminate]); intros H; injection H as <-; right; auto.
Qed.

Lemma nest_kept q : forall fs gs sf sg path cs nm nm' ver ver' t od u fd, mat_fields fs = Ok sf -> mat_fields gs = Ok sg -> same_sections fs gs ->
  find_changes (SStruct nm sf ver) (SStruct nm' sg ver') path = Ok cs -> leaf fs q = Some (t, od) -> leaf gs q = Some (u, fd) ->
  exists inner, kept_at fs gs path q t od u fd inner /\ incl (inner ++ dchanges (path ++ q) od fd) cs.
Proof.
  induction q as [|n q IH]; intros fs gs sf sg path cs nm nm' ver ver' t od u fd Mf Mg Ss F Lf Lg; [discriminate Lf|].
  pose proof (same_one fs gs n Ss) as So.
  destruct (leaf_case _ _ _ _ Lf) as [(c & ts & d & Ef & Lf')|(-> & Ef & Df)]; destruct (leaf_case _ _ _ _ Lg) as [(c' & us & d' & Eg & Lg')|(Q & Eg & Dg)];
    rewrite Ef, Eg in So; cbn [is_dataclass_ty fst] in *; try congruence.
  - destruct (nest_in fs gs sf sg Mf Mg path cs nm nm' ver ver' F n _ _ _ _ _ _ Ef Eg) as (sf' & sg' & v & v' & inner & Mf' & Mg' & F' & Inc).
    destruct (IH ts us sf' sg' (path ++ [n])%list inner (c_name c) (c_name c') v v' t od u fd) as (inner' & (_ & _ & s & r & K1 & K2 & K3) & K); auto; [eapply same_sections_in; eauto|].
    rewrite <- app_assoc in K3, K. exists inner'. split; [|intros x X; apply Inc, K, X]. split; [exact Lf|]. split; [exact Lg|]. exists s, r. auto.
  - apply (nest_kept_one fs gs sf sg Mf Mg path cs nm nm' ver ver' F n); auto.
Qed.

Lemma nest_added q : forall fs gs sf sg path cs nm nm' ver ver' u fd, mat_fields fs = Ok sf -> mat_fields gs = Ok sg -> same_sections fs gs ->
  find_changes (SStruct nm sf ver) (SStruct nm' sg ver') path = Ok cs -> leaf fs q = None -> leaf gs q = Some (u, fd) ->
  exists r, materialize_type u = Ok r /\ In (FieldAdded (path ++ q) r (schema_default (default_value fd)) (has_default fd)) cs.
Proof.
  induction q as [|n q IH]; intros fs gs sf sg path cs nm nm' ver ver' u fd Mf Mg Ss F Lf Lg; [discriminate Lg|].
  pose proof (same_one fs gs n Ss) as So.
  destruct (leaf_case _ _ _ _ Lg) as [(c' & us & d' & Eg & Lg')|(-> & Eg & Dg)]; rewrite Eg in So; cbn [is_dataclass_ty fst] in *.
  - destruct (aget n fs) as [[t0 d0]|] eqn:Ef; [|discriminate So]. destruct (is_data _ So) as (c & ts & ->). rewrite leaf_cons, Ef in Lf.
    destruct (nest_in fs gs sf sg Mf Mg path cs nm nm' ver ver' F n _ _ _ _ _ _ Ef Eg) as (sf' & sg' & v & v' & inner & Mf' & Mg' & F' & Inc).
    destruct (IH ts us sf' sg' (path ++ [n])%list inner (c_name c) (c_name c') v v' u fd) as (r & K1 & K2); auto; [eapply same_sections_in; eauto|].
    rewrite <- app_assoc in K2. exists r. split; [exact K1|]. apply Inc, K2.
  - apply (nest_added_one fs gs sf sg Mf Mg path cs nm nm' ver ver' F n u fd); auto. destruct (aget n fs) as [[t0 d0]|] eqn:Ef; [|reflexivity]. rewrite Dg in So. rewrite (leaf_one _ _ _ _ Ef So) in Lf. discriminate.
Qed.

Lemma nest_removed q : forall fs gs sf sg path cs nm nm' ver ver' t od, mat_fields fs = Ok sf -> mat_fields gs = Ok sg -> same_sections fs gs ->
  find_changes (SStruct nm sf ver) (SStruct nm' sg ver') path = Ok cs -> leaf fs q = Some (t, od) -> leaf gs q = None ->
  exists s, materialize_type t = Ok s /\ In (FieldRemoved (path ++ q) s (schema_default (default_value od)) (has_default od)) cs.
Proof.
  induction q as [|n q IH]; intros fs gs sf sg path cs nm nm' ver ver' t od Mf Mg Ss F Lf Lg; [discriminate Lf|].
  pose proof (same_one fs gs n Ss) as So.
  destruct (leaf_case _ _ _ _ Lf) as [(c' & us & d' & Ef & Lf')|(-> & Ef & Df)]; rewrite Ef in So; cbn [is_dataclass_ty fst] in *.
  - destruct (aget n gs) as [[t0 d0]|] eqn:Eg; [|discriminate So]. symmetry in So. destruct (is_data _ So) as (c & ts & ->). rewrite leaf_cons, Eg in Lg.
    destruct (nest_in fs gs sf sg Mf Mg path cs nm nm' ver ver' F n _ _ _ _ _ _ Ef Eg) as (sf' & sg' & v & v' & inner & Mf' & Mg' & F' & Inc).
    destruct (IH us ts sf' sg' (path ++ [n])%list inner (c_name c') (c_name c) v v' t od) as (r & K1 & K2); auto; [eapply same_sections_in; eauto|].
    rewrite <- app_assoc in K2. exists r. split; [exact K1|]. apply Inc, K2.
  - apply (nest_removed_one fs gs sf sg Mf Mg path cs nm nm' ver ver' F n t od); auto. destruct (aget n gs) as [[t0 d0]|] eqn:Eg; [|reflexivity]. rewrite Df in So. rewrite (leaf_one _ _ _ _ Eg (eq_sym So)) in Lg. discriminate.
Qed.

(** ** Changes and rules with keys for paths *)
Definition repath (f : list string -> list string) (c : change) : change :=
  match c with
  | FieldAdded p t d h => FieldAdded (f p) t d h
  | FieldRemoved p t d h => FieldRemoved (f p) t d h
  | FieldRenamed p q => FieldRenamed (f p) (f q)
  | DefaultValueChanged p o n => DefaultValueChanged (f p) o n
  | DefaultValueRemoved p o => DefaultValueRemoved (f p) o
  | TypeChanged p o n => TypeChanged (f p) o n
  | EnumVariantValueChanged p e v o n => EnumVariantValueChanged (f p) e v o n
  | EnumVariantRemoved p e v x => EnumVariantRemoved (f p) e v x
  | EnumVariantAdded p e v x => EnumVariantAdded (f p) e v x
  | EnumVariantRenamed p e v w => EnumVariantRenamed (f p) e v w
  | LiteralValuesAdded p l => LiteralValuesAdded (f p) l
  | LiteralValuesRemoved p l => LiteralValuesRemoved (f p) l
  end.
Definition to_key (p : list string) : list string := [enc p].
Definition of_key (p : list string) : list string := match p with [k] => dec k | _ => p end.
Notation flatc := (repath to_key).
Notation unflatc := (repath of_key).

Lemma unflat c : unflatc (flatc c) = c.
Proof. destruct c; cbn [repath of_key to_key]; now rewrite ?dec_enc. Qed.
Lemma flatc_inj a b : flatc a = flatc b -> a = b.
Proof. intros H. rewrite <- (unflat a), <- (unflat b). now rewrite H. Qed.
Lemma flatc_kpath c : kpath (flatc c) = [enc (kpath c)].
Proof. destruct c; reflexivity. Qed.
Lemma flatc_severity c : change_severity (flatc c) = change_severity c.
Proof.
  destruct c; try reflexivity; cbn [repath change_severity]; unfold default_severity; cbn [proposed_fix]; try reflexivity.
  - destruct has_default; [reflexivity|]. destruct type; reflexivity.
  - destruct (is_subtype old new); [reflexivity|]. destruct (wraps_in_list new old); [reflexivity|]. destruct new; reflexivity.
Qed.

Definition repath_rule (f : list string -> list string) (r : rule) : rule :=
  match r with
  | RenameField p q => RenameField (f p) (f q)
  | DeleteField p => DeleteField (f p)
  | MapFieldValue p g t => MapFieldValue (f p) g t
  | ChangeDefault p o n => ChangeDefault (f p) o n
  | AddDefault p o => AddDefault (f p) o
  | CheckValue p l => CheckValue (f p) l
  | RejectValues p l => RejectValues (f p) l
  end.
Notation flatr := (repath_rule to_key).

Lemma flatc_fixes c : fixes (flatc c) = map flatr (fixes c).
Proof.
  unfold fixes. destruct c; try reflexivity; cbn [repath proposed_fix].
  - destruct has_default; [reflexivity|]. destruct type; reflexivity.
  - destruct (wraps_in_list new old); [reflexivity|]. destruct new; reflexivity.
Qed.
Lemma flatc_all_fixes cs : flat_map fixes (map flatc cs) = map flatr (flat_map fixes cs).
Proof. induction cs as [|c cs IH]; [reflexivity|]. cbn [map flat_map]. now rewrite map_app, flatc_fixes, IH. Qed.

Lemma flatc_keys cs : NoDup (map change_key cs) -> NoDup (map change_key (map flatc cs)).
Proof.
  intros N. rewrite map_map.
  replace (map (fun x => change_key (flatc x)) cs) with (map (fun k : nat * list string * string => (fst (fst k), [enc (snd (fst k))], snd k)) (map change_key cs)).
  - apply FinFun.Injective_map_NoDup; [|exact N]. intros [[a p] n] [[a' p'] n'] Q. cbn [fst snd] in Q. injection Q as -> Q ->. apply enc_inj in Q. now subst.
  - rewrite map_map. apply map_ext. intros c. destruct c; reflexivity.
Qed.

(** *** matchings *)
Section MatchMap.
  Variable is_added is_removed : change -> bool.
  Variable sim : change -> change -> option pyfloat.
  Variable ren : change -> change -> change.
  Hypothesis Ha : forall c, is_added (flatc c) = is_added c.
  Hypothesis Hr : forall c, is_removed (flatc c) = is_removed c.
  Hypothesis Hn : forall a r, is_added a = true -> is_removed r = true -> ren (flatc a) (flatc r) = flatc (ren a r).
  Definition sim_flat (a r : change) : option pyfloat := sim (unflatc a) (unflatc r).

  Lemma similar_flat r a : similar sim_flat (flatc r) (flatc a) <-> similar sim r a.
  Proof. unfold similar, sim_flat. now rewrite !unflat. Qed.
  Lemma more_flat r a r' a' : more_similar sim_flat (flatc r) (flatc a) (flatc r') (flatc a') <-> more_similar sim r a r' a'.
  Proof. unfold more_similar, sim_flat. now rewrite !unflat. Qed.

  Lemma subseq_map l m : subseq l m -> subseq (map flatc l) (map flatc m).
  Proof. induction 1; cbn [map]; now constructor. Qed.

  Lemma matching_flat l l' : matching is_added is_removed sim ren l l' -> matching is_added is_removed sim_flat ren (map flatc l) (map flatc l').
  Proof.
    intros (pairs & rest & Q & P & Sb & H1 & H2 & H3).
    exists (map (fun p => (flatc (fst p), flatc (snd p))) pairs), (map flatc rest). split; [|split; [|split; [|split; [|split]]]].
    - rewrite Q, map_app, !map_map. cbn [fst snd]. f_equal. apply map_ext_in. intros [r a] I. cbn [fst snd]. destruct (H1 _ _ I) as (A & B & _). symmetry. now apply Hn.
    - rewrite !map_map. cbn [fst snd].
      replace (map flatc rest ++ map (fun x => flatc (fst x)) pairs ++ map (fun x => flatc (snd x)) pairs)%list with (map flatc (rest ++ map fst pairs ++ map snd pairs)).
      + now apply Permutation_map.
      + now rewrite !map_app, !map_map.
    - now apply subseq_map.
    - intros r a I. apply in_map_iff in I. destruct I as ([r0 a0] & I0 & I). injection I0 as <- <-. cbn [fst snd]. destruct (H1 _ _ I) as (A & B & C).
      rewrite Ha, Hr, similar_flat. auto.
    - intros r a I J A B. apply in_map_iff in I, J. destruct I as (r0 & <- & I), J as (a0 & <- & J). rewrite Ha in B. rewrite Hr in A. rewrite similar_flat. now apply H2.
    - intros pre r a post E r' a' I J A B.
      apply map_eq_app in E. destruct E as (pre0 & post0 & Ep & _ & E). apply map_eq_cons in E. destruct E as ([r0 a0] & post1 & E0 & E1 & E2).
      injection E1 as <- <-. subst post post0. cbn [fst snd] in *.
      assert (Ir : exists r1, r' = flatc r1 /\ In r1 (rest ++ map fst ((r0, a0) :: post1))).
      { apply in_app_or in I. destruct I as [I|I].
        - apply in_map_iff in I. destruct I as (r1 & <- & I). exists r1. split; [reflexivity|]. apply in_or_app. now left.
        - cbn [map fst] in I. destruct I as [<-|I]; [exists r0; split; [reflexivity|]; apply in_or_app; right; now left|].
          rewrite map_map in I. cbn [fst] in I. apply in_map_iff in I. destruct I as (x & <- & I). exists (fst x). split; [reflexivity|]. apply in_or_app. right. right. now apply in_map. }
      assert (Ia : exists a1, a' = flatc a1 /\ In a1 (rest ++ map snd ((r0, a0) :: post1))).
      { apply in_app_or in J. destruct J as [J|J].
        - apply in_map_iff in J. destruct J as (r1 & <- & J). exists r1. split; [reflexivity|]. apply in_or_app. now left.
        - cbn [map snd] in J. destruct J as [<-|J]; [exists a0; split; [reflexivity|]; apply in_or_app; right; now left|].
          rewrite map_map in J. cbn [snd] in J. apply in_map_iff in J. destruct J as (x & <- & J). exists (snd x). split; [reflexivity|]. apply in_or_app. right. right. now apply in_map. }
      destruct Ir as (r1 & -> & Ir), Ia as (a1 & -> & Ia). rewrite Hr in A. rewrite Ha in B. rewrite more_flat. exact (H3 pre0 r0 a0 post1 Ep r1 a1 Ir Ia A B).
  Qed.
End MatchMap.

Lemma fields_flat l l' : matching is_FieldAdded is_FieldRemoved field_similarity field_renamed l l' ->
  matching is_FieldAdded is_FieldRemoved (sim_flat field_similarity) field_renamed (map flatc l) (map flatc l').
Proof.
  apply matching_flat; [now intros []|now intros []|]. intros a r A R. destruct a; try discriminate A. destruct r; try discriminate R. reflexivity.
Qed.
Lemma variants_flat l l' : matching is_VariantAdded is_VariantRemoved enum_similarity enum_renamed l l' ->
  matching is_VariantAdded is_VariantRemoved (sim_flat enum_similarity) enum_renamed (map flatc l) (map flatc l').
Proof.
  apply matching_flat; [now intros []|now intros []|]. intros a r A R. destruct a; try discriminate A. destruct r; try discriminate R. cbn [enum_renamed repath].
  destruct (negb _); reflexivity.
Qed.
Lemma field_similar_flat p t d h p' t' d' h' x : sim_flat field_similarity (FieldAdded p t d h) (FieldRemoved p' t' d' h') = Some x -> is_subtype t' t = true /\ h' = h.
Proof. unfold sim_flat. cbn [repath]. apply field_similar. Qed.

(** *** comparing fields without sub-configs does not depend on the path *)
Lemma map_flat_map {A B C} (g : B -> C) (f : A -> list B) l : map g (flat_map f l) = flat_map (fun x => map g (f x)) l.
Proof. induction l as [|a l IH]; [reflexivity|]. cbn [flat_map]. now rewrite map_app, IH. Qed.

Lemma find_flat u : forall r s p inner, dataless u -> materialize_type u = Ok r -> find_changes s r p = Ok inner -> find_changes s r [enc p] = Ok (map flatc inner).
Proof.
  induction u as [| | | | |j IH|us IH|ku vu IHk IHv|j IH|us IH|c' gs IH|n' ms'|l'|n'] using ty_ind'; intros r s path inner D Mr F;
    cbn [materialize_type] in Mr; try discriminate Mr;
    repeat match type of Mr with rbind _ _ = Ok _ => apply rbind_ok in Mr; destruct Mr as (? & ? & Mr) end; injection Mr as <-;
    try (destruct D; fail);
    destruct s as [p|si|sl|sk sv|sl|sn sf ver|si|sn svs|sl| ]; cbn [find_changes] in F |- *; try discriminate F;
    try (injection F as <-; reflexivity).
  1-4: match type of F with context [String.eqb ?a ?b] => destruct (String.eqb a b) end; injection F as <-; reflexivity.
  - eapply IH; eauto.
  - eapply IH; eauto.
  - injection F as <-. f_equal. rewrite map_app. unfold new_variants, gone_variants. rewrite !map_flat_map. f_equal; apply flat_map_ext; intros [k v]; cbn [fst snd].
    + destruct (aget k svs); [destruct (py_eq _ _)|]; reflexivity.
    + destruct (amem k ms'); reflexivity.
  - injection F as <-. f_equal. unfold literal_changes. rewrite map_app. destruct (set_minus l' sl), (set_minus sl l'); reflexivity.
Qed.

Lemma dchanges_flat p od fd : map flatc (dchanges p od fd) = dchanges [enc p] od fd.
Proof. unfold dchanges. destruct (negb _); [destruct (negb _); reflexivity|]. destruct (_ && _); reflexivity. Qed.

(** ** The flat report *)
Section FlatReport.
  Variable fs gs : list (string * (ty * dflt)).
  Variable cf cg : cinfo.
  Hypothesis Nf : names_differ (TData cf fs).
  Hypothesis Ng : names_differ (TData cg gs).
  Hypothesis Df : all_sectioned fs.
  Hypothesis Dg : all_sectioned gs.
  Hypothesis Ss : same_sections fs gs.
  Variable sf sg : list (string * (sty * fmeta)).
  Hypothesis Mf : mat_fields fs = Ok sf.
  Hypothesis Mg : mat_fields gs = Ok sg.
  Variable cs : list change.
  Variable nm nm' : string.
  Variable ver ver' : option Z.
  Hypothesis F : find_changes (SStruct nm sf ver) (SStruct nm' sg ver') [] = Ok cs.
  Hypothesis NoSec : forall c, In c cs -> about_default c -> is_section gs (kpath c) = false.

  Notation ff := (flatf [] fs).
  Notation gg := (flatf [] gs).

  Lemma leaf_dataless hs q t d : all_sectioned hs -> leaf hs q = Some (t, d) -> dataless t.
  Proof.
    revert hs. induction q as [|n q IH]; intros hs H L; [discriminate L|]. unfold all_sectioned in H. rewrite all_in in H.
    destruct (leaf_case _ _ _ _ L) as [(c & ts & d' & G & L')|(_ & G & Dt)]; apply aget_some_in in G; specialize (H _ G); cbn [fst snd] in *.
    - now apply (IH ts).
    - destruct t; try exact H. discriminate Dt.
  Qed.

  Lemma flat_level hs : names_differ (TData cf hs) -> all_sectioned hs -> one_level (flatf [] hs).
  Proof.
    intros N H. unfold one_level. rewrite all_in. intros [k [t d]] I. cbn [fst snd]. destruct (flatf_in _ _ _ _ N I) as (q & _ & L). eapply leaf_dataless; eauto.
  Qed.

  Lemma get_f q : aget (enc q) ff = leaf fs q.
  Proof. now apply flatf_get. Qed.
  Lemma get_g q : aget (enc q) gg = leaf gs q.
  Proof. now apply flatf_get. Qed.

  Lemma kept_flat q t od u fd inner : kept_at fs gs [] q t od u fd inner -> kept ff gg (enc q) t od u fd (map flatc inner).
  Proof.
    intros (K1 & K2 & s & r & K3 & K4 & K5). split; [now rewrite get_f|]. split; [now rewrite get_g|]. exists s, r. split; [exact K3|]. split; [exact K4|].
    apply (find_flat u r s q inner); auto. eapply leaf_dataless; eauto.
  Qed.

  Lemma flat_orig c : In c (map flatc cs) -> flat_origin ff gg c.
  Proof.
    intros I. apply in_map_iff in I. destruct I as (c0 & <- & I).
    destruct (nest_origin (TData cg gs) fs [] sf sg nm nm' ver ver' cs c0 Nf Ng Df Dg Ss Mf Mg F I) as [O|(q & Q1 & Q2 & Q3)].
    2:{ specialize (NoSec _ I Q3). rewrite Q2 in NoSec. cbn [app] in NoSec. congruence. }
    assert (Kp : forall q t od u fd inner, kpath c0 = ([] ++ q)%list -> kept_at fs gs [] q t od u fd inner -> In c0 (inner ++ dchanges ([] ++ q) od fd) ->
      kpath (flatc c0) = [enc q] /\ kept ff gg (enc q) t od u fd (map flatc inner) /\ In (flatc c0) (map flatc inner ++ default_changes [] (enc q) (meta (enc q) od) (meta (enc q) fd))).
    { intros q t od u fd inner P K J. split; [rewrite flatc_kpath, P; reflexivity|]. split; [now apply kept_flat|]. rewrite dchanges_meta. cbn [app] in *. rewrite <- dchanges_flat, <- map_app. now apply in_map. }
    destruct c0; cbn [origin_at] in O; try (destruct O; fail);
      try (destruct O as (q & t & od & u & fd & inner & P & K & J); destruct (Kp _ _ _ _ _ _ P K J) as (P1 & K1 & J1); cbn [repath flat_origin] in *; exists (enc q), t, od, u, fd, (map flatc inner); auto; fail);
      destruct O as (q & u & fd & P & L & M & Q1 & Q2 & L'); cbn [repath flat_origin]; exists (enc q), u, fd; rewrite get_f, get_g; subst; auto 8.
  Qed.

  Lemma flat_kept n t od u fd : aget n ff = Some (t, od) -> aget n gg = Some (u, fd) ->
    exists inner, kept ff gg n t od u fd inner /\ incl (inner ++ default_changes [] n (meta n od) (meta n fd)) (map flatc cs).
  Proof.
    intros A B. destruct (flatf_some fs n _ Nf A) as (q & -> & L). rewrite get_g in B.
    destruct (nest_kept q fs gs sf sg [] cs nm nm' ver ver' t od u fd Mf Mg Ss F L B) as (inner & K & Inc).
    exists (map flatc inner). split; [now apply kept_flat|]. rewrite dchanges_meta. cbn [app] in *. rewrite <- dchanges_flat, <- map_app. now apply incl_map.
  Qed.

  Lemma flat_added n u fd : aget n ff = None -> aget n gg = Some (u, fd) ->
    exists r, materialize_type u = Ok r /\ In (FieldAdded [n] r (schema_default (default_value fd)) (has_default fd)) (map flatc cs).
  Proof.
    intros A B. destruct (flatf_some gs n _ Ng B) as (q & -> & L). rewrite get_f in A.
    destruct (nest_added q fs gs sf sg [] cs nm nm' ver ver' u fd Mf Mg Ss F A L) as (r & M & I). exists r. split; [exact M|]. apply (in_map flatc) in I. exact I.
  Qed.

  Lemma flat_removed n t od : aget n ff = Some (t, od) -> aget n gg = None ->
    exists s, materialize_type t = Ok s /\ In (FieldRemoved [n] s (schema_default (default_value od)) (has_default od)) (map flatc cs).
  Proof.
    intros A B. destruct (flatf_some fs n _ Nf A) as (q & -> & L). rewrite get_g in B.
    destruct (nest_removed q fs gs sf sg [] cs nm nm' ver ver' t od Mf Mg Ss F L B) as (r & M & I). exists r. split; [exact M|]. apply (in_map flatc) in I. exact I.
  Qed.

  Lemma default_changed_flat q c3 : default_changed (enc q) (map flatc c3) -> default_changed_at q c3.
  Proof.
    intros (o & [I|(n & I)]); apply in_map_iff in I; destruct I as (c & Q & I); destruct c; try discriminate Q; cbn [repath to_key] in Q; injection Q; intros; subst;
      match goal with H : enc _ = enc _ |- _ => apply enc_inj in H; subst end; eexists; [left|right; eexists]; eassumption.
  Qed.

  Lemma flat_repairable E c3 c : repairable_at E fs gs c3 c -> repairable E ff gg (map flatc c3) (flatc c).
  Proof.
    intros R. destruct c; cbn [repath repairable repairable_at] in *; try exact Logic.I; try exact R.
    - intros f t d s Q G M. injection Q as <-. rewrite get_f in G. eauto.
    - intros f u d Q G. injection Q as <-. rewrite get_g in G. destruct R as (u' & d' & L & W). rewrite L in G. injection G as -> ->. exact W.
    - intros f u d Q G. injection Q as <-. rewrite get_g in G. destruct R as (u' & d' & L & W). rewrite L in G. injection G as -> ->. exact W.
    - destruct R as [R1 [R2|(i & t & d & -> & L & M & N)]]; (split; [exact R1|]); [now left|right]. exists i, (enc field), t, d. rewrite get_f.
      repeat split; auto. intros Dc. now apply N, default_changed_flat.
    - destruct R as (t & d & ms & u & d' & ms' & L & Q & L' & Q' & m & I & P). exists (enc field), t, d, ms, u, d', ms'. rewrite get_f, get_g. repeat split; auto. eauto.
  Qed.

  Lemma leaf_all (P : ty -> Prop) : (forall c hs, P (TData c hs) -> all (fun f : string * (ty * dflt) => P (fst (snd f))) hs) ->
    forall hs q t d, all (fun f : string * (ty * dflt) => P (fst (snd f))) hs -> leaf hs q = Some (t, d) -> P t.
  Proof.
    intros St hs q. revert hs. induction q as [|n q IH]; intros hs t d H L; [discriminate L|]. rewrite all_in in H.
    destruct (leaf_case _ _ _ _ L) as [(c & ts & d' & G & L')|(_ & G & Dt)]; apply aget_some_in in G; specialize (H _ G); cbn [fst snd] in *; [|exact H].
    apply (IH ts t d); auto. eapply St; eauto.
  Qed.
  Lemma flat_all (P : ty -> Prop) hs : (forall c hs, P (TData c hs) -> all (fun f : string * (ty * dflt) => P (fst (snd f))) hs) ->
    names_differ (TData cf hs) -> all (fun f : string * (ty * dflt) => P (fst (snd f))) hs -> all (fun f : string * (ty * dflt) => P (fst (snd f))) (flatf [] hs).
  Proof.
    intros St N H. rewrite all_in. intros [k [t d]] I. cbn [fst snd]. destruct (flatf_in _ _ _ _ N I) as (q & _ & L). eapply leaf_all; eauto.
  Qed.
End FlatReport.

Lemma flat_names c cf hs : names_differ (TData c hs) -> names_differ (TData cf (flatf [] hs)).
Proof.
  intros N. split; [exact (flatf_nodup hs [] N)|]. apply (flat_all c names_differ); auto; [|apply N]. intros c0 hs0 H. apply H.
Qed.
Lemma flat_exact c cf hs : names_differ (TData c hs) -> exact_values (TData c hs) -> exact_values (TData cf (flatf [] hs)).
Proof. intros N X. apply (flat_all c exact_values); auto. Qed.
Lemma flat_literals E c cf hs : names_differ (TData c hs) -> literals_load E (TData c hs) -> literals_load E (TData cf (flatf [] hs)).
Proof. intros N X. apply (flat_all c (literals_load E)); auto. Qed.
Lemma flat_unversioned c hs : names_differ (TData c hs) -> all (fun f : string * (ty * dflt) => unversioned (fst (snd f))) hs ->
  all (fun f : string * (ty * dflt) => unversioned (fst (snd f))) (flatf [] hs).
Proof. intros N X. apply (flat_all c unversioned); auto. intros c0 hs0 H. apply H. Qed.
Lemma flat_loadable c hs : names_differ (TData c hs) -> loadable (TData c hs) -> loadable (TData c (flatf [] hs)).
Proof.
  intros N (A & B & C & D). split; [exact (flatf_nodup hs [] N)|]. split; [|split; [exact C|]].
  - intros I. apply in_map_iff in I. destruct I as ([k x] & Q & I). cbn [fst] in Q. subst k. destruct (flatf_in _ _ _ _ N I) as (q & Q & _). symmetry in Q. now apply enc_name in Q.
  - assert (H : all (fun f : string * (ty * dflt) => loadable (fst (snd f))) (flatf [] hs)).
    { apply (flat_all c loadable); auto.
      - intros c0 hs0 H. destruct H as (_ & _ & _ & H). rewrite all_in in H |- *. intros [n [t d]] I. exact (H _ I).
      - rewrite all_in in D |- *. intros [n [t d]] I. exact (D _ I). }
    rewrite all_in in H |- *. intros [n [t d]] I. exact (H _ I).
Qed.
