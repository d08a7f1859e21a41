(** ResolveRules.v -- the proposed rules applied to schemas with sub-configs (C69). *)
From Coq Require Import Permutation.
From Verif Require Import Base Value Schema Rewrite Types FromDict Checker Induct AFacts SpecTree SpecRenames SpecCheck SpecResolve SchemaFacts RenameFacts FindFacts
  CheckFacts UpgradeFacts CompatFacts FixFacts MirrorFacts DocsFacts ResolveFacts.

(** ** Fields and sections *)
Lemma field_at_cons fs k r : field_at fs (k :: r) =
  match aget k fs with
  | Some (t, m) => match t with SStruct _ gs _ => field_at gs r | _ => match r with [] => Some (t, m) | _ => None end end
  | None => None
  end.
Proof. cbn [field_at]. destruct (aget k fs) as [[[ ] m]|]; reflexivity. Qed.
Lemma section_at_cons fs k r : section_at fs (k :: r) =
  match aget k fs with
  | Some (t, m) => match t with SStruct _ gs _ => match r with [] => Some m | _ => section_at gs r end | _ => None end
  | None => None
  end.
Proof. cbn [section_at]. destruct (aget k fs) as [[[ ] m]|]; reflexivity. Qed.

Lemma struct_case t : (exists n fs ver, t = SStruct n fs ver) \/ is_struct t = false.
Proof. destruct t; try (now right). left. eauto. Qed.

Lemma field_case fs n q x : field_at fs (n :: q) = Some x ->
  (exists c ts v m, aget n fs = Some (SStruct c ts v, m) /\ field_at ts q = Some x) \/ (q = [] /\ aget n fs = Some x /\ is_struct (fst x) = false).
Proof.
  rewrite field_at_cons. destruct (aget n fs) as [[t m]|] eqn:G; [|discriminate]. destruct t; try (intros H; left; do 4 eexists; split; [reflexivity|exact H]);
    (destruct q; [|discriminate]); intros H; injection H as <-; right; auto.
Qed.
Lemma section_case fs n q x : section_at fs (n :: q) = Some x ->
  exists c ts v m, aget n fs = Some (SStruct c ts v, m) /\ (q = [] /\ m = x \/ section_at ts q = Some x).
Proof.
  rewrite section_at_cons. destruct (aget n fs) as [[t m]|] eqn:G; [|discriminate]. destruct t; try discriminate. intros H. exists name, fields, version, m. split; [reflexivity|].
  destruct q; [left; injection H as <-; auto|now right].
Qed.

Lemma field_struct p : forall fs f, field_at fs p = Some f -> is_struct (fst f) = false.
Proof.
  induction p as [|k r IH]; intros fs f H; [discriminate|]. destruct (field_case _ _ _ _ H) as [(c & ts & v & m & _ & H')|(_ & _ & H')]; [now apply (IH ts)|exact H'].
Qed.
Lemma field_section_at p : forall fs f, field_at fs p = Some f -> section_at fs p = None.
Proof.
  induction p as [|k r IH]; intros fs f H; [discriminate|]. rewrite section_at_cons. destruct (field_case _ _ _ _ H) as [(c & ts & v & m & G & H')|(-> & G & H')]; rewrite G.
  - destruct r; [discriminate|]. now apply (IH ts f).
  - destruct f as [t m]. destruct t; try reflexivity. discriminate.
Qed.
Lemma field_one fs n t m : aget n fs = Some (t, m) -> is_struct t = false -> field_at fs [n] = Some (t, m).
Proof. intros G D. rewrite field_at_cons. unfold sfield in *. rewrite G. destruct t; try reflexivity. discriminate. Qed.
Lemma field_none fs n : aget n fs = None -> field_at fs [n] = None.
Proof. intros G. rewrite field_at_cons. unfold sfield in *. now rewrite G. Qed.

Lemma places_in fs gs n c fs' v m c' gs' v' m' : same_places fs gs -> aget n fs = Some (SStruct c fs' v, m) -> aget n gs = Some (SStruct c' gs' v', m') -> same_places fs' gs'.
Proof. intros Q A B [|k p]; [split; reflexivity|]. pose proof (Q (n :: k :: p)) as H. rewrite !section_at_cons in H. unfold sfield in *. rewrite A, B in H. exact H. Qed.
Lemma places_one fs gs n : same_places fs gs ->
  match aget n fs with Some (t, _) => is_struct t | None => false end = match aget n gs with Some (t, _) => is_struct t | None => false end.
Proof.
  intros Q. pose proof (Q [n]) as H. rewrite !section_at_cons in H.
  destruct (aget n fs) as [[[ ] m]|], (aget n gs) as [[[ ] m']|]; cbn [is_struct]; try reflexivity; destruct H as [H1 H2];
    try (specialize (H1 eq_refl); discriminate); specialize (H2 eq_refl); discriminate.
Qed.

(** field names differ in each section *)
Fixpoint ndeep (t : sty) : Prop :=
  match t with
  | SStruct _ fs _ => NoDup (akeys fs) /\ (fix go (l : list (string * sfield)) : Prop := match l with [] => True | (_, (ft, _)) :: r => ndeep ft /\ go r end) fs
  | _ => True
  end.
Lemma ndeep_struct n fs ver : ndeep (SStruct n fs ver) <-> NoDup (akeys fs) /\ forall k t m, aget k fs = Some (t, m) -> ndeep t.
Proof.
  cbn [ndeep]. split; intros [N H]; (split; [exact N|]).
  - intros k t m G. apply aget_some_in in G. clear N. induction fs as [|[k' [t' m']] fs IH]; [destruct G|]. destruct H as [H1 H2]. destruct G as [G|G]; [injection G as _ <- _; exact H1|auto].
  - assert (H' : forall k t m, In (k, (t, m)) fs -> ndeep t) by (intros k t m I; eapply H, in_nodup_aget; eauto). clear N H.
    induction fs as [|[k' [t' m']] fs IH]; [exact Logic.I|]. split; [eapply H'; now left|]. apply IH. intros k t m I. eapply H'. right. exact I.
Qed.
Lemma ndeep_other t : is_struct t = false -> ndeep t.
Proof. destruct t; try (intros; exact Logic.I). discriminate. Qed.
Lemma distinct_ndeep t : distinct_names t -> ndeep t.
Proof.
  induction t as [p|o IH|l IH|k v IHk IHv|l IH|nm fs ver IH|o IH|nm ms|l| ] using sty_ind'; intros D; try exact Logic.I.
  apply distinct_struct in D. destruct D as [N D]. rewrite Forall_forall in D, IH. apply ndeep_struct. split; [exact N|]. intros k t m G. apply aget_some_in in G. apply (IH _ G), (D _ G).
Qed.

Lemma plain_all nm fs ver : plain_section (SStruct nm fs ver) <-> plain_fields fs.
Proof.
  cbn [plain_section]. unfold plain_fields. induction fs as [|[k [t m]] fs IH]; [split; [intros _ n f []|auto]|]. split.
  - intros [H1 H2] n f [I|I]; [injection I as _ <-; exact H1|]. now apply (proj1 IH H2 n).
  - intros H. split; [apply (H k (t, m)); now left|]. apply IH. intros n f I. apply (H n). now right.
Qed.
Lemma plain_at p : forall fs f, plain_fields fs -> field_at fs p = Some f -> plain_type (fst f).
Proof.
  induction p as [|k r IH]; intros fs f H L; [discriminate|]. destruct (field_case _ _ _ _ L) as [(c & ts & v & m & G & L')|(_ & G & D)]; apply aget_some_in in G; specialize (H _ _ G); cbn [fst] in H.
  - apply (IH ts); [now apply (plain_all c ts v)|exact L'].
  - destruct f as [t m]. cbn [fst] in *. destruct t; try exact H. discriminate.
Qed.
Lemma distinct_at p : forall nm fs ver f, distinct_names (SStruct nm fs ver) -> field_at fs p = Some f -> distinct_names (fst f).
Proof.
  induction p as [|k r IH]; intros nm fs ver f H L; [discriminate|]. apply distinct_struct in H. destruct H as [_ H]. rewrite Forall_forall in H.
  destruct (field_case _ _ _ _ L) as [(c & ts & v & m & G & L')|(_ & G & D)]; apply aget_some_in in G; specialize (H _ G); cbn [fst snd] in H; [now apply (IH c ts v)|exact H].
Qed.

(** the sections on the way to a path exist *)
Fixpoint homed (fs : list (string * sfield)) (p : list string) : Prop :=
  match p with
  | [] => False
  | k :: r => match r with [] => True | _ => match aget k fs with Some (SStruct _ gs _, _) => homed gs r | _ => False end end
  end.
Lemma field_homed p : forall fs f, field_at fs p = Some f -> homed fs p.
Proof.
  induction p as [|k r IH]; intros fs f H; [discriminate|]. cbn [homed]. destruct r as [|k' r]; [exact Logic.I|].
  destruct (field_case _ _ _ _ H) as [(c & ts & v & m & G & H')|(Q & _)]; [|discriminate]. unfold sfield in *. rewrite G. now apply (IH ts f).
Qed.
Lemma homed_same p : forall fs gs, same_places fs gs -> homed gs p -> homed fs p.
Proof.
  induction p as [|k r IH]; intros fs gs Q H; [exact H|]. cbn [homed] in *. destruct r as [|k' r]; [exact Logic.I|]. pose proof (places_one fs gs k Q) as S1. unfold sfield in *.
  destruct (aget k gs) as [[[ ] m']|] eqn:B; try (destruct H; fail). cbn [is_struct] in S1. destruct (aget k fs) as [[[ ] m]|] eqn:A; try discriminate S1.
  eapply IH; [|exact H]. eapply places_in; eauto.
Qed.

(** ** The operations on schemas *)
Definition same_secs (fs' fs : list (string * sfield)) : Prop := forall q, section_at fs' q = section_at fs q.
Lemma secs_places fs' fs : same_secs fs' fs -> same_places fs' fs.
Proof. intros H p. now rewrite H. Qed.

Lemma sput_cons k r v s q : sput (k :: r) v s (k :: q) = sput r v (fun j => s (k :: j)) q.
Proof. unfold sput. destruct (path_dec (k :: q) (k :: r)) as [E|E], (path_dec q r) as [E'|E']; auto; congruence. Qed.
Lemma sput_away k r v s j q : j <> k -> sput (k :: r) v s (j :: q) = s (j :: q).
Proof. intros H. apply sput_other. congruence. Qed.

Lemma lift_section fs k nm gs ver m gs' nm0 ver0 : aget k fs = Some (SStruct nm gs ver, m) -> ndeep (SStruct nm0 fs ver0) -> ndeep (SStruct nm gs' ver) -> same_secs gs' gs -> forall v r,
  (forall q, field_at gs' q = sput r v (field_at gs) q) ->
  ndeep (SStruct nm0 (aset k (SStruct nm gs' ver, m) fs) ver0) /\ same_secs (aset k (SStruct nm gs' ver, m) fs) fs /\
  forall q, field_at (aset k (SStruct nm gs' ver, m) fs) q = sput (k :: r) v (field_at fs) q.
Proof.
  intros G N N' Sc v r Fa. unfold sfield in *. apply ndeep_struct in N. destruct N as [N Nd]. split; [|split].
  - apply ndeep_struct. split; [now apply nodup_aset|]. intros j t m' Gj. rewrite aget_aset in Gj. destruct (String.eqb_spec j k) as [->|Hj]; [injection Gj as <- _; exact N'|now apply (Nd j t m')].
  - intros [|j q]; [reflexivity|]. rewrite !section_at_cons, aget_aset. destruct (String.eqb_spec j k) as [->|Hj]; [|reflexivity]. unfold sfield in *. rewrite G. destruct q; [reflexivity|apply Sc].
  - intros [|j q]; [now rewrite sput_other by discriminate|]. destruct (String.eqb_spec j k) as [->|Hj].
    + rewrite sput_cons, field_at_cons, aget_aset_same, Fa. unfold sput. destruct (path_dec q r); [reflexivity|]. rewrite field_at_cons; unfold sfield in *; now rewrite G.
    + rewrite sput_away by exact Hj. now rewrite !field_at_cons, aget_aset_other.
Qed.

Lemma remove_at p : forall nm fs ver f, ndeep (SStruct nm fs ver) -> field_at fs p = Some f ->
  exists fs', remove_schema (SStruct nm fs ver) p = Ok (SStruct nm fs' ver, Some f) /\ ndeep (SStruct nm fs' ver) /\ same_secs fs' fs /\
    forall q, field_at fs' q = sput p None (field_at fs) q.
Proof.
  induction p as [|k r IH]; intros nm fs ver f N H; [discriminate|]. pose proof (proj1 (ndeep_struct _ _ _) N) as [Nk Nd].
  destruct (field_case _ _ _ _ H) as [(c & ts & v & m & G & H')|(-> & G & D)].
  - destruct r as [|k' r]; [discriminate|]. assert (Nt : ndeep (SStruct c ts v)) by (apply (Nd k _ m G)).
    destruct (IH c ts v f Nt H') as (ts' & E & N1 & Sc & Fa). unfold sfield in *.
    exists (aset k (SStruct c ts' v, m) fs). split.
    + change (remove_schema (SStruct nm fs ver) (k :: k' :: r)) with
        (match aget k fs with None => Ok (SStruct nm fs ver, None) | Some (t, m) => let* ur := remove_schema (unwrap_container t) (k' :: r) in Ok (SStruct nm (aset k (rewrap_container t (fst ur), m) fs) ver, snd ur) end).
      rewrite G. cbn [unwrap_container]. rewrite E. reflexivity.
    + destruct (lift_section fs k c ts v m ts') with (v := @None sfield) (r := k' :: r) (nm0 := nm) (ver0 := ver) as (A & B & C); auto.
  - destruct f as [t m]. exists (adel k fs). cbn [remove_schema]. unfold sfield in *. rewrite G. split; [reflexivity|]. split; [|split].
    + apply ndeep_struct. split; [now apply nodup_adel|]. intros j t' m' Gj. destruct (String.eqb_spec j k) as [->|Hj]; [rewrite aget_adel_same in Gj by exact Nk; discriminate|].
      rewrite aget_adel_other in Gj by exact Hj. now apply (Nd j t' m').
    + intros [|j q]; [reflexivity|]. rewrite !section_at_cons. destruct (String.eqb_spec j k) as [->|Hj]; [|now rewrite aget_adel_other].
      unfold sfield in *. rewrite aget_adel_same, G by exact Nk. cbn [fst] in D. destruct t; try reflexivity. discriminate.
    + intros [|j q]; [now rewrite sput_other by discriminate|]. destruct (String.eqb_spec j k) as [->|Hj].
      * rewrite field_at_cons, aget_adel_same by exact Nk. rewrite sput_cons. unfold sput. destruct (path_dec q []) as [->|Hq]; [reflexivity|].
        rewrite field_at_cons; unfold sfield in *; rewrite G. cbn [fst] in D. destruct q; [congruence|]. destruct t; try reflexivity. discriminate.
      * rewrite sput_away by exact Hj. now rewrite !field_at_cons, aget_adel_other.
Qed.

Lemma remove_cons nm fs ver k k' r : remove_schema (SStruct nm fs ver) (k :: k' :: r) =
  match aget k fs with
  | None => Ok (SStruct nm fs ver, None)
  | Some (t, m) => let* ur := remove_schema (unwrap_container t) (k' :: r) in Ok (SStruct nm (aset k (rewrap_container t (fst ur), m) fs) ver, snd ur)
  end.
Proof. reflexivity. Qed.
Lemma insert_cons nm fs ver k k' r f t m : aget k fs = Some (t, m) -> insert_schema (SStruct nm fs ver) (k :: k' :: r) f =
  let* u := insert_schema (unwrap_container t) (k' :: r) f in Ok (SStruct nm (aset k (rewrap_container t u, m) fs) ver).
Proof.
  intros G. change (insert_schema (SStruct nm fs ver) (k :: k' :: r) f) with
    (let fs1 := if amem k fs then fs else aset k (SStruct "" [] (Some 0%Z), mkF k VNone false None) fs in
     match aget k fs1 with None => Ok (SStruct nm fs ver) | Some (t, m) => let* u := insert_schema (unwrap_container t) (k' :: r) f in Ok (SStruct nm (aset k (rewrap_container t u, m) fs1) ver) end).
  unfold amem, sfield in *. rewrite G. cbv zeta. now rewrite G.
Qed.

(** nothing is there *)
Lemma remove_absent p : forall nm fs ver, ndeep (SStruct nm fs ver) -> homed fs p -> field_at fs p = None -> section_at fs p = None ->
  exists fs', remove_schema (SStruct nm fs ver) p = Ok (SStruct nm fs' ver, None) /\ ndeep (SStruct nm fs' ver) /\ same_secs fs' fs /\
    forall q, field_at fs' q = field_at fs q.
Proof.
  induction p as [|k r IH]; intros nm fs ver N Hm H1 H2; [destruct Hm|]. pose proof (proj1 (ndeep_struct _ _ _) N) as [Nk Nd]. destruct r as [|k' r].
  - exists fs. cbn [remove_schema]. rewrite field_at_cons in H1. rewrite section_at_cons in H2. unfold sfield in *. destruct (aget k fs) as [[[ ] m]|]; try discriminate H1; try discriminate H2. repeat split; auto. apply N.
  - cbn [homed] in Hm. rewrite field_at_cons in H1. rewrite section_at_cons in H2. unfold sfield in *. destruct (aget k fs) as [[[ |?|?|? ?|?|c ts v|?|? ?|?| ] m]|] eqn:G; try (destruct Hm; fail).
    destruct (IH c ts v) as (ts' & E & N1 & Sc & Fa); auto; [apply (Nd k _ m G)|]. rewrite remove_cons. unfold sfield in *. rewrite G. cbn [unwrap_container]. rewrite E.
    exists (aset k (SStruct c ts' v, m) fs). split; [reflexivity|].
    destruct (lift_section fs k c ts v m ts' nm ver G N N1 Sc (field_at ts (k' :: r)) (k' :: r)) as (A & B & C).
    { intros q. rewrite Fa. unfold sput. destruct (path_dec q (k' :: r)) as [->|]; reflexivity. }
    split; [exact A|]. split; [exact B|]. intros q. rewrite C. unfold sput. destruct (path_dec q (k :: k' :: r)) as [->|]; [|reflexivity]. rewrite (field_at_cons fs k). unfold sfield in *. now rewrite G.
Qed.

Lemma insert_at p : forall nm fs ver f, ndeep (SStruct nm fs ver) -> homed fs p -> section_at fs p = None -> is_struct (fst f) = false ->
  exists fs', insert_schema (SStruct nm fs ver) p f = Ok (SStruct nm fs' ver) /\ ndeep (SStruct nm fs' ver) /\ same_secs fs' fs /\
    forall q, field_at fs' q = sput p (Some f) (field_at fs) q.
Proof.
  induction p as [|k r IH]; intros nm fs ver f N Hm H2 D; [destruct Hm|]. pose proof (proj1 (ndeep_struct _ _ _) N) as [Nk Nd]. destruct r as [|k' r].
  - exists (aset k f fs). split; [reflexivity|]. destruct f as [t m]. cbn [fst] in D. rewrite section_at_cons in H2. unfold sfield in *. split; [|split].
    + apply ndeep_struct. split; [now apply nodup_aset|]. intros j t' m' Gj. rewrite aget_aset in Gj. destruct (String.eqb_spec j k) as [->|Hj]; [injection Gj as <- _; now apply ndeep_other|now apply (Nd j t' m')].
    + intros [|j q]; [reflexivity|]. rewrite !section_at_cons. unfold sfield in *. rewrite aget_aset. destruct (String.eqb_spec j k) as [->|Hj]; [|reflexivity].
      destruct (aget k fs) as [[[ ] m']|]; try discriminate H2; destruct t; try reflexivity; discriminate.
    + intros [|j q]; [now rewrite sput_other by discriminate|]. destruct (String.eqb_spec j k) as [->|Hj].
      * rewrite sput_cons, field_at_cons. unfold sfield in *. rewrite aget_aset_same. unfold sput. destruct (path_dec q []) as [->|Hq].
        -- destruct t; try reflexivity. discriminate.
        -- destruct q; [congruence|]. rewrite field_at_cons. unfold sfield in *. destruct (aget k fs) as [[[ ] m']|]; try discriminate H2; destruct t; try reflexivity; discriminate.
      * rewrite sput_away by exact Hj. rewrite !field_at_cons. unfold sfield in *. now rewrite aget_aset_other.
  - cbn [homed] in Hm. rewrite section_at_cons in H2. unfold sfield in *. destruct (aget k fs) as [[[ |?|?|? ?|?|c ts v|?|? ?|?| ] m]|] eqn:G; try (destruct Hm; fail).
    destruct (IH c ts v f) as (ts' & E & N1 & Sc & Fa); auto; [apply (Nd k _ m G)|]. rewrite (insert_cons _ _ _ _ _ _ _ _ _ G). cbn [unwrap_container]. rewrite E.
    exists (aset k (SStruct c ts' v, m) fs). split; [reflexivity|]. now apply (lift_section fs k c ts v m ts' nm ver G N N1 Sc (Some f) (k' :: r)).
Qed.

Lemma put_back p nm fs ver f f' : ndeep (SStruct nm fs ver) -> field_at fs p = Some f -> is_struct (fst f') = false ->
  exists fs1 fs', remove_schema (SStruct nm fs ver) p = Ok (SStruct nm fs1 ver, Some f) /\ insert_schema (SStruct nm fs1 ver) p f' = Ok (SStruct nm fs' ver) /\
    ndeep (SStruct nm fs' ver) /\ same_secs fs' fs /\ forall q, field_at fs' q = sput p (Some f') (field_at fs) q.
Proof.
  intros N G D. destruct (remove_at p nm fs ver f N G) as (fs1 & E1 & N1 & S1 & F1).
  destruct (insert_at p nm fs1 ver f' N1) as (fs' & E2 & N2 & S2 & F2); auto.
  - apply (homed_same p fs1 fs); [now apply secs_places|]. eapply field_homed; eauto.
  - rewrite S1. eapply field_section_at; eauto.
  - exists fs1, fs'. repeat (split; [assumption|]). split; [intros q; now rewrite S2, S1|]. intros q. rewrite F2. unfold sput. destruct (path_dec q p) as [->|H]; [reflexivity|]. rewrite F1. now apply sput_other.
Qed.

Definition targets (c : change) : list (list string) := match c with FieldAdded p _ _ _ => [p] | FieldRenamed _ q => [q] | _ => [] end.

Lemma change_step c nm ver fs : ndeep (SStruct nm fs ver) -> ready c (field_at fs) -> (forall p, In p (targets c) -> homed fs p /\ section_at fs p = None) ->
  exists fs', apply_rules_schema (fixes c) (SStruct nm fs ver) = Ok (SStruct nm fs' ver) /\ ndeep (SStruct nm fs' ver) /\ same_secs fs' fs /\
    forall k, field_at fs' k = sact c (field_at fs) k.
Proof.
  unfold ready, fixes. intros N R T.
  assert (Idle : forall s : sstore, s = field_at fs -> exists fs', apply_rules_schema [] (SStruct nm fs ver) = Ok (SStruct nm fs' ver) /\ ndeep (SStruct nm fs' ver) /\ same_secs fs' fs /\ forall k, field_at fs' k = s k).
  { intros s ->. exists fs. repeat split; auto; apply N. }
  destruct c as [p t d h|p t d h|p q|p o n|p o|p o n|p e v x y|p e v x|p e v x|p e v w|p l|p l]; try (destruct R; fail); cbn [sact].
  - destruct (proposed_fix (FieldAdded p t d h)) as [r|] eqn:P; [|now apply Idle].
    assert (Q : exists x, r = AddDefault p x) by (cbn [proposed_fix] in P; destruct h; [discriminate|]; destruct t; try discriminate P; injection P as <-; eauto).
    destruct Q as [x ->]. destruct (T p (or_introl eq_refl)) as [Hm Sc]. destruct (remove_absent p nm fs ver N Hm R Sc) as (fs1 & E1 & N1 & S1 & F1).
    destruct (insert_at p nm fs1 ver (SNothing, mkF (last p "") VNone false None) N1) as (fs2 & E2 & N2 & S2 & F2); auto.
    { apply (homed_same p fs1 fs); [now apply secs_places|exact Hm]. }
    { now rewrite S1. }
    cbn [apply_rules_schema apply_rule_schema]. rewrite E1. cbn [rbind fst snd]. rewrite E2. exists fs2. split; [reflexivity|]. split; [exact N2|].
    split; [intros j; now rewrite S2, S1|]. intros j. rewrite F2. unfold sput. destruct (path_dec j p); auto.
  - destruct (field_at fs p) as [f|] eqn:G; [|now destruct R]. destruct (remove_at p nm fs ver f N G) as (fs1 & E1 & N1 & S1 & F1).
    cbn [proposed_fix apply_rules_schema apply_rule_schema]. rewrite E1. cbn [rbind fst snd]. exists fs1. auto.
  - destruct R as [Npq R]. destruct (field_at fs p) as [f|] eqn:G; [|now destruct R]. destruct (remove_at p nm fs ver f N G) as (fs1 & E1 & N1 & S1 & F1).
    destruct (T q (or_introl eq_refl)) as [Hm Sc]. destruct (insert_at q nm fs1 ver f N1) as (fs2 & E2 & N2 & S2 & F2).
    { apply (homed_same q fs1 fs); [now apply secs_places|exact Hm]. }
    { now rewrite S1. }
    { eapply field_struct; eauto. }
    cbn [proposed_fix apply_rules_schema apply_rule_schema]. rewrite E1. cbn [rbind fst snd]. rewrite E2. exists fs2. split; [reflexivity|]. split; [exact N2|].
    split; [intros j; now rewrite S2, S1|]. intros j. rewrite F2. unfold sput at 1 2. destruct (path_dec j q); auto.
  - destruct R as (f & G & Q). destruct (put_back p nm fs ver f (with_default f n (fm_has_default (snd f))) N G) as (fs1 & fs2 & E1 & E2 & H).
    { apply (field_struct p fs f G). }
    cbn [proposed_fix apply_rules_schema apply_rule_schema]. rewrite E1. cbn [rbind fst snd]. rewrite Q, E2. rewrite G. exists fs2. split; [reflexivity|exact H].
  - destruct R as [R|(l & -> & R)].
    + rewrite R. destruct n; now apply Idle.
    + destruct (proposed_fix (TypeChanged p o (SLit l))) as [r|] eqn:P; [|now apply Idle]. cbn [proposed_fix wraps_in_list] in P. injection P as <-.
      destruct (field_at fs p) as [f|] eqn:G; [|now destruct R]. destruct (put_back p nm fs ver f (with_type f (SLit l)) N G eq_refl) as (fs1 & fs2 & E1 & E2 & H).
      cbn [apply_rules_schema apply_rule_schema]. rewrite E1. cbn [rbind fst snd]. rewrite E2. exists fs2. split; [reflexivity|exact H].
  - destruct (field_at fs p) as [[t m]|] eqn:G; [|now destruct R]. pose proof (field_struct p fs _ G) as D. cbn [fst] in D.
    assert (D' : is_struct (map_type x y t) = false) by (destruct t; auto).
    destruct (put_back p nm fs ver (t, m) (with_type (t, m) (map_type x y t)) N G D') as (fs1 & fs2 & E1 & E2 & H).
    cbn [proposed_fix apply_rules_schema apply_rule_schema]. rewrite E1. cbn [rbind fst snd]. exists fs2. split; [|exact H].
    destruct t; cbn [map_type] in E2; unfold with_type in *; cbn [snd] in *; try (rewrite map_variants_ok; cbn [rbind]); now rewrite E2.
  - now apply Idle.
  - now apply Idle.
  - now apply Idle.
  - now apply Idle.
Qed.

(** ** What is found between schemas with the same sub-configs *)
Definition on_default (c : change) : Prop := match c with DefaultValueChanged _ _ _ | DefaultValueRemoved _ _ => True | _ => False end.

Lemma source_lift fs gs fs' gs' n1 v1 m1 n2 v2 m2 n path c : aget n fs = Some (SStruct n1 fs' v1, m1) -> aget n gs = Some (SStruct n2 gs' v2, m2) ->
  source fs' gs' (path ++ [n]) c -> source fs gs path c.
Proof.
  intros A B O.
  assert (Lf : forall q, field_at fs (n :: q) = field_at fs' q) by (intros q; rewrite field_at_cons; unfold sfield in *; now rewrite A).
  assert (Lg : forall q, field_at gs (n :: q) = field_at gs' q) by (intros q; rewrite field_at_cons; unfold sfield in *; now rewrite B).
  assert (Ap : forall q, ((path ++ [n]) ++ q)%list = (path ++ n :: q)%list) by (intros q; now rewrite <- app_assoc).
  destruct c; cbn [source] in O |- *; try exact O;
    try (destruct O as (q & f & g & inner & P & (K1 & K2 & K3) & I); rewrite Ap in P, K3, I; exists (n :: q), f, g, inner;
      split; [exact P|]; split; [|exact I]; split; [now rewrite Lf|]; split; [now rewrite Lg|exact K3]);
    destruct O as (q & u & P & K1 & K2 & K3); rewrite Ap in P; exists (n :: q), u; rewrite Lf, Lg; auto.
Qed.

Lemma found_source t : match t with SStruct nm' gs ver' => forall fs nm ver path cs c, ndeep (SStruct nm fs ver) -> ndeep t -> plain_fields gs -> same_places fs gs ->
    find_changes (SStruct nm fs ver) (SStruct nm' gs ver') path = Ok cs -> In c cs ->
    source fs gs path c \/ exists q, section_at gs q <> None /\ kpath c = (path ++ q)%list /\ on_default c
  | _ => True end.
Proof.
  induction t as [p|o IH|l IH|k v IHk IHv|l IH|nm' gs ver' IH|o IH|nm' ms|l| ] using sty_ind'; try exact Logic.I.
  intros fs nm ver path cs c Nf Ng Pg Sp F I. rewrite Forall_forall in IH. apply ndeep_struct in Nf, Ng. destruct Nf as [Nf Nf'], Ng as [Ng Ng'].
  rewrite find_struct in F. apply rbind_ok in F. destruct F as (c1 & Hs & Q). injection Q as <-. apply in_app_or in I. destruct I as [I|I].
  - destruct (sections_out _ _ _ _ _ Hs I) as (n & ft & m & here & Ig & Fh & Ih). pose proof (in_nodup_aget _ _ _ Ng Ig) as Gg.
    pose proof (places_one fs gs n Sp) as So. unfold field_section, sfield in *. rewrite Gg in So. destruct (aget n fs) as [[ot om]|] eqn:Ef.
    + rewrite So, andb_negb_r in Fh. apply rbind_ok in Fh. destruct Fh as (inner & Fi & Q). injection Q as <-. rewrite dch_at in Ih.
      destruct (struct_case ft) as [(n2 & gs' & v2 & ->)|Dt].
      * destruct (struct_case ot) as [(n1 & fs' & v1 & ->)|Do]; [|rewrite Do in So; discriminate]. apply in_app_or in Ih. destruct Ih as [Ih|Ih].
        -- pose proof (IH _ Ig) as IH'. cbn [fst snd] in IH'. destruct (IH' fs' n1 v1 (path ++ [n])%list inner c) as [O|(q & Q1 & Q2 & Q3)]; auto.
           ++ apply (Nf' n _ om Ef).
           ++ apply (Ng' n _ m Gg).
           ++ apply (plain_all n2 gs' v2). apply (Pg n _ Ig).
           ++ eapply places_in; eauto.
           ++ left. eapply source_lift; eauto.
           ++ right. exists (n :: q). rewrite <- app_assoc in Q2. split; [|auto]. rewrite section_at_cons. unfold sfield in *. rewrite Gg. destruct q; [now destruct Q1|exact Q1].
        -- right. exists [n]. destruct (dch_in _ _ _ _ Ih) as [Q1 Q2]. split; [rewrite section_at_cons; unfold sfield in *; rewrite Gg; discriminate|auto].
      * left. rewrite Dt in So. assert (Kp : both fs gs path [n] (ot, om) (ft, m) inner) by (split; [now apply field_one|]; split; [now apply field_one|exact Fi]).
        assert (Pl : plain_type ft) by (pose proof (Pg _ _ Ig) as X; cbn [fst] in X; destruct ft; try exact X; discriminate).
        assert (P : kpath c = (path ++ [n])%list /\ match c with FieldAdded _ _ _ _ | FieldRemoved _ _ _ _ | FieldRenamed _ _ | EnumVariantRenamed _ _ _ _ => False | _ => True end).
        { pose proof Ih as Ih'. apply in_app_or in Ih'. destruct Ih' as [Ih'|Ih'].
          - destruct (leaf_changes' _ _ _ _ c Pl Fi Ih') as [L _].
            destruct c; try (destruct L; fail); cbn [leaf_change] in L; match type of L with _ /\ _ => destruct L as [L _] | _ => idtac end; subst; split; auto; reflexivity.
          - destruct (dch_in _ _ _ _ Ih') as [Q1 Q2]. split; [exact Q1|]. destruct c; auto. }
        destruct P as [P1 P2]. destruct c; try (destruct P2; fail); cbn [source]; exists [n], (ot, om), (ft, m), inner; auto.
    + rewrite <- So in Fh. injection Fh as <-. left. destruct Ih as [<-|[]]. cbn [field_added source fst snd]. exists [n], (ft, m).
      split; [reflexivity|]. split; [now apply field_one|]. split; [now apply field_none|auto].
  - left. unfold removed_fields in I. apply in_flat_map in I. destruct I as ([n [ft m]] & J & I). cbn [fst snd] in I. unfold sfield in *.
    pose proof (in_nodup_aget _ _ _ Nf J) as Ef. pose proof (places_one fs gs n Sp) as So. unfold amem, sfield in *. rewrite Ef in So.
    destruct (aget n gs) as [[gt gm]|] eqn:Gg; [destruct I|]. rewrite So in I. destruct I as [<-|[]]. cbn [field_removed source fst snd]. exists [n], (ft, m).
    split; [reflexivity|]. split; [now apply field_one|]. split; [now apply field_none|auto].
Qed.

Section Found.
  Variable fs gs : list (string * (sty * fmeta)).
  Hypothesis Sp : same_places fs gs.
  Variable path : list string.
  Variable cs : list change.
  Variable nm nm' : string.
  Variable ver ver' : option Z.
  Hypothesis F : find_changes (SStruct nm fs ver) (SStruct nm' gs ver') path = Ok cs.

  Lemma found_pair n ot om ft m : aget n fs = Some (ot, om) -> aget n gs = Some (ft, m) ->
    exists inner, find_changes ot ft (path ++ [n]) = Ok inner /\ incl (inner ++ dch (path ++ [n]) om m) cs.
  Proof.
    intros Ef Eg. pose proof (places_one fs gs n Sp) as So. destruct (find_struct_ok _ _ _ _ _ _ _ _ F) as (c1 & Hs & I1 & _).
    destruct (CompatFacts.sections_in _ _ _ _ Hs _ _ _ (aget_some_in _ _ _ Eg)) as (here & Fh & Inc). unfold field_section, sfield in *. rewrite Ef, Eg in *. rewrite So, andb_negb_r in Fh.
    apply rbind_ok in Fh. destruct Fh as (inner & Fi & Q). injection Q as <-. exists inner. split; [exact Fi|]. rewrite <- dch_at. intros c I. now apply I1, Inc.
  Qed.
  Lemma found_new n ft m : aget n fs = None -> aget n gs = Some (ft, m) -> is_struct ft = false ->
    In (FieldAdded (path ++ [n]) ft (fm_default m) (fm_has_default m)) cs.
  Proof.
    intros Ef Eg D. destruct (find_struct_ok _ _ _ _ _ _ _ _ F) as (c1 & Hs & I1 & _).
    destruct (CompatFacts.sections_in _ _ _ _ Hs _ _ _ (aget_some_in _ _ _ Eg)) as (here & Fh & Inc). unfold field_section, sfield in *. rewrite Ef, D in Fh. injection Fh as <-.
    apply I1, Inc. now left.
  Qed.
  Lemma found_gone n ft m : aget n fs = Some (ft, m) -> aget n gs = None -> is_struct ft = false ->
    In (FieldRemoved (path ++ [n]) ft (fm_default m) (fm_has_default m)) cs.
  Proof.
    intros Ef Eg D. destruct (find_struct_ok _ _ _ _ _ _ _ _ F) as (c1 & _ & _ & I2). apply I2. unfold removed_fields. apply in_flat_map.
    exists (n, (ft, m)). split; [now apply aget_some_in|]. cbn [fst snd]. unfold amem, sfield in *. rewrite Eg, D. now left.
  Qed.
End Found.

Lemma found_both q : forall fs gs path cs nm nm' ver ver' f g, same_places fs gs ->
  find_changes (SStruct nm fs ver) (SStruct nm' gs ver') path = Ok cs -> field_at fs q = Some f -> field_at gs q = Some g ->
  exists inner, both fs gs path q f g inner /\ incl (inner ++ dch (path ++ q) (snd f) (snd g)) cs.
Proof.
  induction q as [|n q IH]; intros fs gs path cs nm nm' ver ver' f g Sp F Lf Lg; [discriminate Lf|]. pose proof (places_one fs gs n Sp) as So.
  destruct (field_case _ _ _ _ Lf) as [(c & ts & v & m & Ef & Lf')|(-> & Ef & Df)]; destruct (field_case _ _ _ _ Lg) as [(c' & us & v' & m' & Eg & Lg')|(Q & Eg & Dg)].
  - destruct (found_pair fs gs Sp path cs nm nm' ver ver' F n _ _ _ _ Ef Eg) as (i0 & F0 & Inc).
    destruct (IH ts us (path ++ [n])%list i0 c c' v v' f g) as (inner & (_ & _ & K) & K'); auto; [eapply places_in; eauto|].
    rewrite <- app_assoc in K, K'. exists inner. split; [split; [exact Lf|]; split; [exact Lg|exact K]|]. intros x X. apply Inc, in_or_app. left. now apply K'.
  - unfold sfield in *. rewrite Ef, Eg in So. destruct g as [gt gm]. cbn [is_struct fst] in *. congruence.
  - unfold sfield in *. rewrite Ef, Eg in So. destruct f as [gt gm]. cbn [is_struct fst] in *. congruence.
  - destruct f as [ot om], g as [ft m]. destruct (found_pair fs gs Sp path cs nm nm' ver ver' F n _ _ _ _ Ef Eg) as (i0 & F0 & Inc). exists i0.
    split; [|exact Inc]. split; [exact Lf|]. split; [exact Lg|exact F0].
Qed.

Lemma found_fresh q : forall fs gs path cs nm nm' ver ver' g, same_places fs gs ->
  find_changes (SStruct nm fs ver) (SStruct nm' gs ver') path = Ok cs -> field_at fs q = None -> field_at gs q = Some g ->
  In (FieldAdded (path ++ q) (fst g) (fm_default (snd g)) (fm_has_default (snd g))) cs.
Proof.
  induction q as [|n q IH]; intros fs gs path cs nm nm' ver ver' g Sp F Lf Lg; [discriminate Lg|]. pose proof (places_one fs gs n Sp) as So.
  destruct (field_case _ _ _ _ Lg) as [(c' & us & v' & m' & Eg & Lg')|(-> & Eg & Dg)].
  - rewrite field_at_cons in Lf. unfold sfield in *. rewrite Eg in So. cbn [is_struct] in So. destruct (aget n fs) as [[[ ] m]|] eqn:Ef; try discriminate So.
    destruct (found_pair fs gs Sp path cs nm nm' ver ver' F n _ _ _ _ Ef Eg) as (i0 & F0 & Inc).
    apply Inc, in_or_app. left. replace (path ++ n :: q)%list with ((path ++ [n]) ++ q)%list by now rewrite <- app_assoc. eapply IH; [|exact F0|exact Lf|exact Lg']. eapply places_in; eauto.
  - destruct g as [ft m]. unfold sfield in *. rewrite Eg in So. cbn [fst] in Dg. destruct (aget n fs) as [[ot om]|] eqn:Ef.
    + rewrite (field_one fs n ot om Ef) in Lf by congruence. discriminate.
    + now apply (found_new fs gs path cs nm nm' ver ver' F n ft m).
Qed.

Lemma found_lost q : forall fs gs path cs nm nm' ver ver' f, same_places fs gs ->
  find_changes (SStruct nm fs ver) (SStruct nm' gs ver') path = Ok cs -> field_at fs q = Some f -> field_at gs q = None ->
  In (FieldRemoved (path ++ q) (fst f) (fm_default (snd f)) (fm_has_default (snd f))) cs.
Proof.
  induction q as [|n q IH]; intros fs gs path cs nm nm' ver ver' f Sp F Lf Lg; [discriminate Lf|]. pose proof (places_one fs gs n Sp) as So.
  destruct (field_case _ _ _ _ Lf) as [(c' & us & v' & m' & Ef & Lf')|(-> & Ef & Df)].
  - rewrite field_at_cons in Lg. unfold sfield in *. rewrite Ef in So. cbn [is_struct] in So. destruct (aget n gs) as [[[ ] m]|] eqn:Eg; try discriminate So.
    destruct (found_pair fs gs Sp path cs nm nm' ver ver' F n _ _ _ _ Ef Eg) as (i0 & F0 & Inc).
    apply Inc, in_or_app. left. replace (path ++ n :: q)%list with ((path ++ [n]) ++ q)%list by now rewrite <- app_assoc. eapply IH; [|exact F0|exact Lf'|exact Lg]. eapply places_in; eauto.
  - destruct f as [ft m]. unfold sfield in *. rewrite Ef in So. cbn [fst] in Df. destruct (aget n gs) as [[ot om]|] eqn:Eg.
    + rewrite (field_one gs n ot om Eg) in Lg by congruence. discriminate.
    + now apply (found_gone fs gs path cs nm nm' ver ver' F n ft m).
Qed.

Lemma found_section q : forall fs gs path cs nm nm' ver ver' m m', same_places fs gs ->
  find_changes (SStruct nm fs ver) (SStruct nm' gs ver') path = Ok cs -> section_at fs q = Some m -> section_at gs q = Some m' ->
  incl (dch (path ++ q) m m') cs.
Proof.
  induction q as [|n q IH]; intros fs gs path cs nm nm' ver ver' m m' Sp F Lf Lg; [discriminate Lf|].
  destruct (section_case _ _ _ _ Lf) as (c & ts & v & x & Ef & Lf'), (section_case _ _ _ _ Lg) as (c' & us & v' & x' & Eg & Lg').
  destruct (found_pair fs gs Sp path cs nm nm' ver ver' F n _ _ _ _ Ef Eg) as (i0 & F0 & Inc).
  destruct Lf' as [[-> ->]|Lf'], Lg' as [[Q ->]|Lg']; try discriminate Lg'; try (subst q; discriminate Lf').
  - intros y I. apply Inc, in_or_app. now right.
  - intros y I. apply Inc, in_or_app. left. replace (path ++ n :: q)%list with ((path ++ [n]) ++ q)%list in I by now rewrite <- app_assoc.
    revert y I. eapply IH; [|exact F0|exact Lf'|exact Lg']. eapply places_in; eauto.
Qed.

(** ** Comparing once more *)
Lemma info_again t : match t with SStruct nm' gs ver' => forall fs nm ver path, ndeep (SStruct nm fs ver) -> ndeep t -> same_places fs gs ->
    (forall p g, field_at gs p = Some g -> (field_at fs p = None /\ fm_has_default (snd g) = true) \/
      exists t m inner, field_at fs p = Some (t, m) /\ find_changes t (fst g) (path ++ p) = Ok inner /\ (forall c, In c inner -> info c) /\ dch (path ++ p) m (snd g) = []) ->
    (forall p, field_at gs p = None -> field_at fs p = None) ->
    (forall p m m', section_at fs p = Some m -> section_at gs p = Some m' -> dch (path ++ p) m m' = []) ->
    exists cs, find_changes (SStruct nm fs ver) (SStruct nm' gs ver') path = Ok cs /\ forall c, In c cs -> info c
  | _ => True end.
Proof.
  induction t as [p|o IH|l IH|k v IHk IHv|l IH|nm' gs ver' IH|o IH|nm' ms|l| ] using sty_ind'; try exact Logic.I.
  intros fs nm ver path Nf Ng Sp Hf Ho Hs. rewrite Forall_forall in IH. apply ndeep_struct in Nf, Ng. destruct Nf as [Nf Nf'], Ng as [Ng Ng'].
  assert (H : forall n ft m, In (n, (ft, m)) gs -> exists here, field_section fs path n ft m = Ok here /\ forall c, In c here -> info c).
  { intros n ft m I. pose proof (in_nodup_aget _ _ _ Ng I) as Gg. pose proof (places_one fs gs n Sp) as So. unfold field_section, sfield in *. rewrite Gg in So.
    destruct (struct_case ft) as [(n2 & gs' & v2 & ->)|Dt].
    - cbn [is_struct] in So. destruct (aget n fs) as [[ot om]|] eqn:Ef; [|discriminate So]. destruct (struct_case ot) as [(n1 & fs' & v1 & ->)|Do]; [|rewrite Do in So; discriminate].
      cbn [is_struct andb negb]. pose proof (IH _ I) as IH'. cbn [fst snd] in IH'.
      assert (Lf : forall q, field_at fs (n :: q) = field_at fs' q) by (intros q; rewrite field_at_cons; unfold sfield in *; now rewrite Ef).
      assert (Lg : forall q, field_at gs (n :: q) = field_at gs' q) by (intros q; rewrite field_at_cons; unfold sfield in *; now rewrite Gg).
      assert (Ap : forall q, ((path ++ [n]) ++ q)%list = (path ++ n :: q)%list) by (intros q; now rewrite <- app_assoc).
      destruct (IH' fs' n1 v1 (path ++ [n])%list) as (inner & Fi & Hi).
      + apply (Nf' n _ om Ef).
      + apply (Ng' n _ m Gg).
      + eapply places_in; eauto.
      + intros p g G. rewrite <- Lg in G. rewrite Ap, <- Lf. now apply Hf.
      + intros p G. rewrite <- Lg in G. rewrite <- Lf. now apply Ho.
      + intros p a b A B. rewrite Ap. apply Hs; rewrite section_at_cons; unfold sfield in *; rewrite ?Ef, ?Gg; (destruct p; [discriminate|assumption]).
      + rewrite Fi, dch_at. cbn [rbind]. rewrite (Hs [n] om m); [rewrite app_nil_r; eauto| |]; rewrite section_at_cons; unfold sfield in *; now rewrite ?Ef, ?Gg.
    - rewrite Dt in So. destruct (Hf [n] (ft, m) (field_one _ _ _ _ Gg Dt)) as [[E Hd]|(t & m0 & inner & E & Fi & Hi & De)]; cbn [fst snd] in *.
      + destruct (aget n fs) as [[ot om]|] eqn:Ef; [rewrite (field_one _ _ _ _ Ef So) in E; discriminate|]. rewrite Dt. eexists. split; [reflexivity|].
        intros c [<-|[]]. unfold info, field_added. cbn [change_severity snd]. unfold default_severity. now rewrite Hd.
      + destruct (aget n fs) as [[ot om]|] eqn:Ef; [|rewrite (field_none _ _ Ef) in E; discriminate]. rewrite (field_one _ _ _ _ Ef So) in E. injection E as -> ->.
        rewrite Dt, So. cbn [andb negb]. rewrite Fi, dch_at, De. cbn [rbind]. rewrite app_nil_r. eauto. }
  assert (H' : exists c1, sections fs gs path = Ok c1 /\ forall c, In c c1 -> info c).
  { clear - H. induction gs as [|[n [ft m]] gs IH]; [exists []; split; [reflexivity|intros c []]|].
    destruct IH as (c1 & E1 & H1); [intros n' ft' m' I; apply H; now right|]. destruct (H n ft m (or_introl eq_refl)) as (here & Eh & Hh).
    exists (here ++ c1)%list. cbn [sections]. rewrite Eh. cbn [rbind]. rewrite E1. cbn [rbind]. split; [reflexivity|]. intros c I. apply in_app_or in I. destruct I; auto. }
  destruct H' as (c1 & E1 & H1). exists c1. split; [|exact H1]. rewrite find_struct, E1. cbn [rbind].
  replace (removed_fields path gs fs) with (@nil change); [now rewrite app_nil_r|]. symmetry. unfold removed_fields. apply flat_map_nil. intros [n [ft m]] I. cbn [fst snd].
  pose proof (in_nodup_aget _ _ _ Nf I) as Ef. pose proof (places_one fs gs n Sp) as So. unfold amem, sfield in *. rewrite Ef in So. destruct (aget n gs) as [[gt gm]|] eqn:Eg; [reflexivity|].
  exfalso. pose proof (Ho [n] (field_none _ _ Eg)) as X. rewrite (field_one _ _ _ _ Ef So) in X. discriminate.
Qed.

Lemma rules_settle nm fs ver nm' gs ver' nm2 ver2 k :
  distinct_names (SStruct nm fs ver) -> distinct_names (SStruct nm' gs ver') -> plain_fields fs -> plain_fields gs -> same_places fs gs ->
  compare_schemas (SStruct nm fs ver) (SStruct nm' gs ver') = Ok k ->
  (forall ch, In ch (ck_changes k) -> change_severity ch <> ERROR /\ settled fs gs ch) ->
  exists fs1 k1, apply_rules_schema (ck_fixes k) (SStruct nm fs ver) = Ok (SStruct nm fs1 ver) /\
    compare_schemas (SStruct nm fs1 ver) (SStruct nm2 gs ver2) = Ok k1 /\ checker_severity k1 = INFO /\
    ck_old k1 = SStruct nm fs1 ver /\ ck_new k1 = SStruct nm2 gs ver2.
Proof.
  intros D1 D2 P1 P2 Sp C H. pose proof C as C0. unfold compare_schemas in C0. apply rbind_ok in C0 as (cs & F & _).
  destruct (compare_ok _ _ cs D1 D2 F) as (c2 & c3 & C' & M2 & M3). rewrite C in C'. injection C' as ->. cbn [ck_changes ck_fixes] in *.
  destruct (find_keyed _ _ [] cs D2 D1 F) as [Nk _]. pose proof (distinct_ndeep _ D1) as N1. pose proof (distinct_ndeep _ D2) as N2.
  assert (Sev : forall c, In c c3 -> change_severity c <> ERROR) by (intros c I; apply (H c I)). assert (St : forall c, In c c3 -> settled fs gs c) by (intros c I; apply (H c I)).
  assert (Quiet : forall c q, In c cs -> on_default c -> kpath c = q -> section_at gs q <> None -> False).
  { intros c q I Od Kq Sq. assert (J : In c c3).
    { destruct (report_fate cs c2 c3 _ _ M2 M3 _ I) as [K|[(rr & aa & (_ & _ & Q1 & Q2 & _) & K & [<-|<-])|(rr & aa & (_ & _ & Q1 & Q2 & _) & K & [<-|<-])]]; [exact K| | | |];
        destruct c; try (destruct Od; fail); discriminate. }
    apply St in J. destruct c; try (destruct Od; fail); cbn [settled kpath] in *; [|exact J]. destruct J as [J _]. subst. destruct (field_at gs _) eqn:G; [|now apply J].
    apply Sq. eapply field_section_at; eauto. }
  assert (raw : forall c, In c cs -> source fs gs [] c).
  { intros c I. destruct (found_source (SStruct nm' gs ver') fs nm ver [] cs c N1 N2 P2 Sp F I) as [O|(q & Q1 & Q2 & Q3)]; [exact O|]. exfalso. now apply (Quiet c q). }
  pose proof (fun n f => plain_at n fs f P1) as pf. pose proof (fun n f => plain_at n gs f P2) as pg.
  pose proof (fun n f => distinct_at n nm fs ver f D1) as Df. pose proof (fun n f => distinct_at n nm' gs ver' f D2) as Dg.
  pose proof (fun n f g => found_both n fs gs [] cs nm nm' ver ver' f g Sp F) as Bi.
  pose proof (fun n g => found_fresh n fs gs [] cs nm nm' ver ver' g Sp F) as Fi. pose proof (fun n f => found_lost n fs gs [] cs nm nm' ver ver' f Sp F) as Gi.
  assert (Run : forall l l', c3 = (l ++ l')%list -> exists fs1, apply_rules_schema (flat_map fixes l) (SStruct nm fs ver) = Ok (SStruct nm fs1 ver) /\
    ndeep (SStruct nm fs1 ver) /\ same_secs fs1 fs /\ forall q, field_at fs1 q = sfin l (field_at fs) q).
  { induction l as [|c l IH] using rev_ind; intros l' Ec; [exists fs; repeat split; auto; apply N1|].
    rewrite <- app_assoc in Ec. destruct (IH (c :: l') Ec) as (fs1 & A1 & M1 & S1 & G1).
    assert (Ic : In c c3) by (rewrite Ec; apply in_or_app; right; now left).
    destruct (change_step c nm ver fs1 M1) as (fs2 & A2 & M4 & S2 & G2).
    { apply (ready_ext c (sfin l (field_at fs))); [intros q; now rewrite G1|]. eapply ready_at; eauto. }
    { intros p Ip. assert (X : exists g, field_at gs p = Some g).
      { destruct (reported fs gs cs c2 c3 raw M2 M3 St c Ic) as [J|(a & b & f & g & -> & _ & _ & Eg & _)].
        - pose proof (raw c J) as R. destruct c; try (destruct Ip; fail); cbn [targets] in Ip; [|destruct R]. destruct Ip as [->|[]]. destruct R as (q & g & -> & Eg & _). eauto.
        - destruct Ip as [<-|[]]. eauto. }
      destruct X as (g & Eg). split.
      - apply (homed_same p fs1 gs); [intros q; rewrite S1; apply Sp|]. eapply field_homed; eauto.
      - rewrite S1. apply Sp. eapply field_section_at; eauto. }
    exists fs2. split; [|split; [exact M4|split]].
    - rewrite flat_map_app. cbn [flat_map]. rewrite app_nil_r, apply_rules_schema_app, A1. exact A2.
    - intros q. now rewrite S2, S1.
    - intros q. rewrite G2, sfin_app. cbn [sfin fold_left]. apply sact_ext. exact G1. }
  destruct (Run c3 [] (eq_sym (app_nil_r _))) as (fs1 & A & M1 & S1 & G1).
  destruct (info_again (SStruct nm' gs ver') fs1 nm ver [] M1 N2) as (cs1 & F1 & I1).
  { intros q. rewrite S1. apply Sp. }
  { intros p g Eg. rewrite G1. cbn [app]. destruct (final_field fs gs pf pg Df Dg cs c2 c3 raw Bi Fi Nk M2 M3 Sev St p g Eg) as [X|(t & m & inner & X1 & X2 & X3 & X4 & X5)]; [now left|right].
    exists t, m, inner. auto. }
  { intros p Eg. rewrite G1. eapply final_out; eauto. }
  { intros p m m' A1 A2. rewrite S1 in A1. pose proof (found_section p fs gs [] cs nm nm' ver ver' m m' Sp F A1 A2) as Inc. destruct (dch ([] ++ p) m m') as [|c l] eqn:E; [reflexivity|exfalso].
    destruct (dch_in ([] ++ p) m m' c) as [K1 K2]; [rewrite E; now left|]. apply (Quiet c p); auto; [apply Inc; now left|congruence]. }
  assert (F2 : find_changes (SStruct nm fs1 ver) (SStruct nm2 gs ver2) [] = Ok cs1) by (rewrite find_struct in *; exact F1).
  exists fs1, (mkChk (SStruct nm fs1 ver) (SStruct nm2 gs ver2) cs1 (flat_map fixes cs1)). split; [exact A|]. split; [now apply info_compare|]. split; [|auto]. now apply info_severity.
Qed.

Lemma settle_check_schema file c' c2 gs nm sf v v' sg rules rep w fixes rules' :
  load_schema file = Ok (SStruct nm sf (Some v)) -> materialize_type (TData c' gs) = Ok (SStruct (c_name c') sg (Some v')) ->
  distinct_names (SStruct nm sf (Some v)) -> distinct_names (SStruct (c_name c') sg (Some v')) -> plain_fields sf -> plain_fields sg -> same_places sf sg ->
  c_versioned c' = Some (v', rules) -> (v' = v \/ v' = v + 1 /\ rules_at rules v = [])%Z ->
  check_schema file (TData c' gs) = Ok rep ->
  (forall w ch, In (w, ch) (rp_lines rep) -> w <> ERROR /\ settled sf sg ch) ->
  rp_rules rep = Some (Some w, fixes) -> rules_at rules' w = fixes ->
  c_versioned c2 = Some (match rp_bump rep with Some b => b | None => v' end, rules') ->
  exists rep' file', check_schema file (TData c2 gs) = Ok rep' /\ rp_compatible rep' = true /\ rp_rules rep' = None /\ rp_bump rep' = None /\
    rp_version_warning rep' = false /\ dump_schema (TData c2 gs) = Ok file' /\ upgrade_schema file (TData c2 gs) = Ok (Rewritten file').
Proof.
  intros Ld Mr D1 D2 P1 P2 Sp Vc' Vv Ck Rep Rr Ra Vc2.
  unfold check_schema in Ck. rewrite Ld in Ck. cbn [rbind] in Ck. apply rbind_ok in Ck. destruct Ck as (k & K & Q). injection Q as <-.
  unfold schema_checker in K. rewrite Mr in K. cbn [rbind is_struct negb] in K. rewrite Vc' in K. apply rbind_ok in K. destruct K as (s' & U & C).
  assert (U' : s' = SStruct nm sf (Some v)).
  { unfold apply_schema_upgrades in U. cbn [schema_version] in U. rewrite schema_steps_none in U; [now injection U as <-|].
    intros i I. unfold zrange in I. apply in_map_iff in I as (n & <- & I). apply in_seq in I. destruct Vv as [->|[-> Vv]]; [lia|]. replace (v + Z.of_nat n)%Z with v by lia. exact Vv. }
  subst s'. assert (Ck2 : ck_old k = SStruct nm sf (Some v) /\ ck_new k = SStruct (c_name c') sg (Some v')).
  { unfold compare_schemas in C. apply rbind_ok in C as (x1 & _ & C). apply rbind_ok in C as (x2 & _ & C). apply rbind_ok in C as (x3 & _ & C). injection C as <-. auto. }
  destruct Ck2 as [Eo En].
  assert (P : w = v /\ fixes = ck_fixes k /\ match rp_bump (print_report k) with Some b => b | None => v' end = (v + 1)%Z).
  { unfold print_report in Rr |- *. cbn [rp_rules rp_bump] in Rr |- *. rewrite Eo, En in *. cbn [schema_version] in *.
    destruct (checker_severity k); [discriminate Rr| |]; (destruct (ck_fixes k); [discriminate Rr|]); injection Rr as <- <-; (split; [reflexivity|]); (split; [reflexivity|]);
    unfold version_eqb; cbn [opt_eqb sev_gt andb]; destruct (Z.eqb_spec v v') as [<-|Nv]; cbn; try reflexivity; destruct Vv as [->|[-> _]]; congruence. }
  destruct P as (-> & -> & Pv). rewrite Pv in Vc2.
  destruct (rules_settle nm sf (Some v) (c_name c') sg (Some v') (c_name c2) (Some (v + 1)%Z) k D1 D2 P1 P2 Sp C) as (fs1 & k1 & A & C1 & Sv & Eo1 & En1).
  { intros ch I. apply (Rep (change_severity ch)). cbn [print_report rp_lines]. apply in_map_iff. eauto. }
  assert (Mr2 : materialize_type (TData c2 gs) = Ok (SStruct (c_name c2) sg (Some (v + 1)%Z))).
  { cbn [materialize_type] in Mr |- *. apply rbind_ok in Mr. destruct Mr as (fields & Mr & Q). rewrite Mr. cbn [rbind]. rewrite Vc2. rewrite Vc' in Q. now injection Q as ->. }
  assert (K2 : schema_checker (SStruct nm sf (Some v)) (TData c2 gs) true = Ok k1).
  { unfold schema_checker. rewrite Mr2. cbn [rbind is_struct negb]. rewrite Vc2. unfold apply_schema_upgrades. cbn [schema_version].
    rewrite zrange_step by lia. rewrite zrange_self. cbn [schema_upgrade_steps]. rewrite Ra, A. cbn [rbind]. exact C1. }
  exists (print_report k1), (schema_ron (SStruct (c_name c2) sg (Some (v + 1)%Z))). unfold check_schema, upgrade_schema, dump_schema. rewrite Ld, Mr2. cbn [rbind]. rewrite K2. cbn [rbind].
  rewrite Sv. unfold print_report. cbn [rp_compatible rp_rules rp_bump rp_version_warning sev_ge sev_gt andb]. rewrite Sv. repeat split; reflexivity.
Qed.
