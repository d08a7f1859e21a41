(** HistoryFacts.v -- files survive a series of releases (C71). *)
From Verif Require Import Base Value Schema Rewrite Sched Types Asdict FromDict Checker Induct AFacts SpecTypes SpecLoad SpecSubtype
  SpecRenames SpecCheck SpecCompat SpecFix SpecHistory RoundTrip SchemaFacts RenameFacts FindFacts CheckFacts SubtypeFacts UpgradeFacts CompatFacts
  FromDictFacts LoadSound LoadFacts LoadProps FixFacts.

(** ** Rules of a release *)
Lemma zget_filter w v rules : (v < w)%Z -> zget v (filter (fun kv : Z * list rule => Z.ltb (fst kv) w) rules) = zget v rules.
Proof.
  intros H. induction rules as [|[i rs] rules IH]; [reflexivity|]. cbn [filter fst zget]. destruct (Z.eqb_spec v i) as [<-|Hne].
  - destruct (Z.ltb_spec v w); [|lia]. cbn [zget]. now rewrite Z.eqb_refl.
  - destruct (Z.ltb i w); [|exact IH]. cbn [zget]. destruct (Z.eqb_spec v i); [congruence|exact IH].
Qed.

Lemma rules_at_filter w v rules : (v < w)%Z -> rules_at (filter (fun kv : Z * list rule => Z.ltb (fst kv) w) rules) v = rules_at rules v.
Proof. intros H. unfold rules_at. now rewrite zget_filter. Qed.

Lemma filter_below w rules : forall i rs, In (i, rs) (filter (fun kv : Z * list rule => Z.ltb (fst kv) w) rules) -> (i < w)%Z.
Proof. intros i rs H. apply filter_In in H. destruct H as [_ H]. cbn [fst] in H. now apply Z.ltb_lt. Qed.

Lemma filter_checks w rules : forallb (fun kv : Z * list rule => (fst kv <? w)%Z) (filter (fun kv => Z.ltb (fst kv) w) rules) = true.
Proof. apply forallb_forall. intros kv H. now apply filter_In in H. Qed.

(** ** Upgrading by one release first changes nothing *)
Lemma deser_release cls allow n rules w ks v d : aget "version" d = Some (VInt v) ->
  deser_versioned cls allow (TData (release n rules w) ks) (VDict d) =
  upgrade_steps (filter (fun kv => Z.ltb (fst kv) w) rules) (zrange v w) (VDict (adel "version" d)).
Proof.
  intros G. cbn [deser_versioned release c_versioned]. rewrite G. unfold apply_upgrades. now rewrite filter_checks.
Qed.

Definition bumped (v : Z) (m : list (string * pyval)) : list (string * pyval) := ("version", VInt v) :: m.

Lemma deser_bumped cls allow n rules w ks v d m' : (v < w)%Z -> aget "version" d = Some (VInt v) ->
  apply_rules (rules_at rules v) (VDict (adel "version" d)) = Ok (VDict m') ->
  deser_versioned cls allow (TData (release n rules w) ks) (VDict d) =
  deser_versioned cls allow (TData (release n rules w) ks) (VDict (bumped (v + 1) m')).
Proof.
  intros H G A. rewrite (deser_release _ _ _ _ _ _ v) by exact G. rewrite (deser_release _ _ _ _ _ _ (v + 1)) by reflexivity.
  rewrite zrange_step by exact H. cbn [upgrade_steps]. rewrite rules_at_filter by exact H. rewrite A. reflexivity.
Qed.

Lemma load_deser E c fs x x' dir allow : filev x = true -> filev x' = true -> loadable (TData c fs) ->
  deser_versioned (e_class E) allow (TData c fs) x = deser_versioned (e_class E) allow (TData c fs) x' ->
  typed_load E (TData c fs) x dir None allow false = typed_load E (TData c fs) x' dir None allow false.
Proof.
  intros Hx Hx' Hl H. unfold typed_load. rewrite !(load_data_eq E None allow dir) by (auto; exact I). now rewrite H.
Qed.

(** ** The rules write plain values *)
Definition rule_plain (r : rule) : Prop :=
  match r with
  | MapFieldValue _ f _ => forall x y, plain_value x -> f x = Ok y -> plain_value y
  | ChangeDefault _ o _ | AddDefault _ o => plain_value o
  | _ => True
  end.

Lemma act_plain r s : rule_plain r -> (forall k w, s k = Some w -> plain_value w) -> forall k w, act r s k = Some w -> plain_value w.
Proof.
  intros R H k w. destruct r as [p q|p|p f txt|p o o'|p o|p l|p l]; cbn [act rule_plain] in *; try apply H;
    destruct p as [|a [|a' p]]; try apply H; try (destruct q as [|b [|b' q]]; try apply H).
  - destruct (s a) as [v|] eqn:Ea; [|apply H]. unfold put. destruct (String.eqb k b); [intros Q; injection Q as <-; now apply (H a)|].
    destruct (String.eqb k a); [discriminate|apply H].
  - unfold put. destruct (String.eqb k a); [discriminate|apply H].
  - destruct (s a) as [v|] eqn:Ea; [|apply H]. unfold put. destruct (String.eqb k a); [|apply H].
    destruct (f v) as [y|] eqn:Ef; intros Q; [injection Q as <-|discriminate]. apply (R v); auto. now apply (H a).
  - unfold put. destruct (String.eqb k a); [|apply H]. destruct (s a) as [v|] eqn:Ea; intros Q; injection Q as <-; [|exact R].
    destruct (is_weak v); [exact R|now apply (H a)].
  - unfold put. destruct (String.eqb k a); [|apply H]. destruct (s a) as [v|] eqn:Ea; intros Q; injection Q as <-; [now apply (H a)|exact R].
Qed.

Lemma fin_plain rs : Forall rule_plain rs -> forall s, (forall k w, s k = Some w -> plain_value w) -> forall k w, fin rs s k = Some w -> plain_value w.
Proof.
  induction 1 as [|r rs R F IH]; intros s H; [exact H|]. intros k w. cbn [fin fold_left]. apply IH. now apply act_plain.
Qed.

Lemma fix_plain c r : tame c -> proposed_fix c = Some r -> rule_plain r.
Proof.
  destruct c as [p t d h|p t d h|p q|p o n|p o|p o n|p e v o n|p e v o|p e v o|p e v o|p l|p l]; cbn [tame proposed_fix]; intros T P; try discriminate P;
    try (injection P as <-; first [exact I|exact T]).
  - destruct h; [discriminate P|]. destruct t; try discriminate P; injection P as <-; cbn; repeat split.
  - destruct (wraps_in_list n o); [|destruct n; try discriminate P]; injection P as <-; cbn [rule_plain]; [|exact I].
    intros x y [F U] Q. injection Q as <-. split; cbn; auto.
  - injection P as <-. cbn [rule_plain]. intros x y H Q. destruct (py_eq x o); injection Q as <-; auto.
Qed.

Lemma fixes_simple E c fs c' gs c2 s r k :
  ordinary E c fs -> ordinary E c2 gs -> one_level fs -> one_level gs ->
  materialize_type (TData c fs) = Ok s -> materialize_type (TData c' gs) = Ok r ->
  compare_schemas s r = Ok k -> checker_severity k <> ERROR ->
  (forall ch, In ch (ck_changes k) -> repairable E fs gs (ck_changes k) ch) ->
  Forall simple_rule (ck_fixes k) /\ ck_fixes k = flat_map fixes (ck_changes k).
Proof.
  intros O1 O2 D1 D2 Ms Mr C Sv Rep.
  destruct O1 as (Lo1 & Nm1 & X1 & Ll1 & V1 & _). destruct O2 as (Lo2 & Nm2 & X2 & Ll2 & V2 & _).
  assert (F : exists cs, find_changes s r [] = Ok cs).
  { pose proof C as C'. unfold compare_schemas in C'. apply rbind_ok in C'. destruct C' as (cs & F & _). eauto. }
  destruct F as [cs F].
  assert (Dn : distinct_names s) by exact (materialize_distinct _ _ Ms Nm1).
  assert (Dn' : distinct_names r) by exact (materialize_distinct _ _ Mr Nm2).
  destruct (compare_ok s r cs Dn Dn' F) as (c1 & c3 & C' & M2 & M3). rewrite C in C'. injection C' as ->. cbn [ck_changes ck_fixes] in *.
  destruct (find_keyed r s [] cs Dn' Dn F) as [Nk _].
  destruct (mat_data _ _ _ Ms) as (sf & ver & Mf & Qs). destruct (mat_data _ _ _ Mr) as (sg & ver' & Mg & Qr).
  assert (Fc : find_changes (SStruct (c_name c) sf ver) (SStruct (c_name c') sg ver') [] = Ok cs).
  { rewrite <- F, Qs, Qr. reflexivity. }
  pose proof (conj Lo1 Logic.I) as [(Nf & _) _]. pose proof (conj Lo2 Logic.I) as [(Ng & Nn & _) _].
  assert (Sev : forall ch, In ch c3 -> change_severity ch <> ERROR).
  { intros ch I Q. apply Sv. pose proof (severity_worst (mkChk s r c3 (flat_map fixes c3))) as W. apply (worst_error _ _ W). cbn [ck_changes]. apply in_map_iff. eauto. }
  split; [|reflexivity].
  apply Forall_forall. intros r0 I. eapply (fix_simple E fs gs D2 cs c1 c3 _ _ (origin fs gs sf sg Mf Mg Nf Ng D1 D2 cs _ _ _ _ Fc)); eauto.
Qed.

(** ** One release *)
Lemma read_becomes cs a m b x : read_as cs a (aget a m) b (Some x) -> becomes cs m b x.
Proof.
  intros R. remember (aget a m) as o eqn:Q. remember (Some x) as y eqn:Qy.
  destruct R; try discriminate Qy; injection Qy as <-.
  - now apply bc_same.
  - eapply bc_wrapped; eauto.
  - eapply bc_mapped; eauto.
  - apply bc_default; auto.
  - eapply bc_renamed; eauto.
Qed.

Lemma severity_ok k : (forall c, In c (ck_changes k) -> change_severity c <> ERROR) -> checker_severity k <> ERROR.
Proof.
  intros H Q. pose proof (severity_worst k) as W. apply (worst_is_error _ _ W) in Q. apply in_map_iff in Q. destruct Q as (c & Q & I). now apply (H c I).
Qed.

Lemma all_of {A} (P : A -> Prop) l : (forall x, In x l -> P x) -> all P l.
Proof. intros H. now apply all_in. Qed.

Lemma next_file E n rules v fs gs cs d dir allow L :
  order_ok E -> next_release E n rules v fs gs cs ->
  filev (VDict d) = true -> floatable (VDict (adel "version" d)) -> unmarked (VDict d) -> aget "version" d = Some (VInt v) ->
  typed_load E (TData (release n rules v) fs) (VDict d) dir None allow false = Ok L -> l_sched L = [] ->
  exists m' L', apply_rules (rules_at rules v) (VDict (adel "version" d)) = Ok (VDict m') /\
    filev (VDict (bumped (v + 1) m')) = true /\ floatable (VDict m') /\ unmarked (VDict (bumped (v + 1) m')) /\
    typed_load E (TData (release n rules (v + 1)) gs) (VDict (bumped (v + 1) m')) dir None allow false = Ok L' /\ l_sched L' = [] /\
    forall a b y, In a (field_names fs) -> In b (field_names gs) -> read_as cs a (aget a (adel "version" d)) b y -> aget b m' = y.
Proof.
  intros HE (O1 & D1 & O2 & D2 & Nv & Lost & s & r & k & Ms & Mr & C & <- & Ra & Ch) Hd Fd Ud Gv H Hn.
  assert (Sv : checker_severity k <> ERROR) by (apply severity_ok; intros c I; apply (Ch c I)).
  assert (Rep : forall ch, In ch (ck_changes k) -> repairable E fs gs (ck_changes k) ch) by (intros c I; apply (Ch c I)).
  assert (Ra' : rules_at (filter (fun kv => Z.ltb (fst kv) (v + 1)) rules) v = ck_fixes k) by (rewrite rules_at_filter by lia; exact Ra).
  pose proof (filter_below (v + 1) rules) as Hb.
  destruct (fixes_load E (release n rules v) fs (release n rules (v + 1)) gs (release n rules (v + 1)) s r k v _ _ d dir allow L HE O1 O2 D1 D2 Lost Ms Mr C Sv Rep eq_refl eq_refl Hb Ra' Hd Fd Ud Gv H Hn) as (L' & H' & Hn').
  destruct (load_means E _ _ dir allow false L HE (proj1 O1) Hd H) as [_ D]. specialize (D Hn).
  destruct D as (y & items & o & Ey & Ei & _ & Kn & _). pose proof (deser_current_inv _ _ _ _ _ _ _ _ (eq_refl : c_versioned (release n rules v) = _) Gv Ey) as ->. injection Ei as <-.
  destruct (fixes_items E allow (release n rules v) fs (release n rules (v + 1)) gs (release n rules (v + 1)) s r k v _ _ d O1 O2 D1 D2 Ms Mr C Sv Rep eq_refl eq_refl Hb Ra' Hd Ud Gv Kn) as (m' & Dm & Bc & Un).
  destruct (fixes_simple E _ fs _ gs _ s r k O1 O2 D1 D2 Ms Mr C Sv Rep) as [Sm Qf].
  set (m0 := adel "version" d) in *.
  assert (N0 : NoDup (akeys m0)).
  { apply nodup_adel. cbn [filev] in Hd. apply andb_true_iff in Hd. destruct Hd as [Hd _]. now apply RewriteFacts.nodupb_NoDup. }
  destruct (rules_act _ m0 Sm N0) as (m2 & Ap & N' & G').
  assert (Qm : m2 = m').
  { rewrite (deser_release _ _ _ _ _ _ v) in Dm by exact Gv. rewrite zrange_step, zrange_self in Dm by lia. cbn [upgrade_steps] in Dm. rewrite Ra' in Dm. fold m0 in Dm. rewrite Ap in Dm. cbn [rbind] in Dm. congruence. }
  subst m2.
  assert (Pl : forall k0 w, In (k0, w) m' -> plain_value w).
  { intros k0 w I. apply in_nodup_aget in I; [|exact N']. rewrite G' in I. revert k0 w I. apply fin_plain.
    - rewrite Qf. apply Forall_forall. intros r0 I. apply in_flat_map in I. destruct I as (c & Ic & I). unfold fixes in I.
      destruct (proposed_fix c) as [r1|] eqn:P; [|destruct I]. destruct I as [<-|[]]. apply (fix_plain c); auto. apply (Ch c Ic).
    - intros k0 w I. apply aget_some_in in I. split; [eapply (floatable_items (VDict m0)); eauto; reflexivity|].
      apply in_adel in I. eapply (unmarked_items (VDict d)); eauto; reflexivity. }
  destruct (load_means E _ _ dir allow false L' HE (proj1 O2) Hd H') as [_ D']. specialize (D' Hn').
  destruct D' as (y & items & o' & Ey' & Ei & _ & Kn' & _). rewrite Dm in Ey'. injection Ey' as <-. injection Ei as <-.
  assert (Ky : forall k0, In k0 (akeys m') -> k0 = "!__name__" \/ In k0 (field_names gs)).
  { intros k0 I. apply in_map_iff in I. destruct I as ([k1 w] & Q & I). cbn [fst] in Q. subst k1.
    destruct (Kn' k0 w I) as [Q|[Q|[Q|Q]]]; auto; [|discriminate Q]. rewrite unmarked_weak in Q; [discriminate Q|]. apply (Pl _ _ I). }
  assert (Fv : filev (VDict m') = true) by (eapply filev_versioned; [exact (proj1 O2)|exact Hd|exact Dm]).
  assert (Fb : filev (VDict (bumped (v + 1) m')) = true).
  { cbn [filev] in Fv |- *. apply andb_true_iff in Fv. destruct Fv as [F1 F2]. apply andb_true_iff. split; [|exact F2].
    apply RewriteFacts.nodupb_NoDup. cbn [bumped map fst]. constructor; [|exact N']. intros Q. destruct (Ky _ Q) as [Q'|Q']; [discriminate Q'|now apply Nv]. }
  exists m', L'. split; [rewrite Ra; exact Ap|]. split; [exact Fb|]. split; [|split; [|split; [|split; [exact Hn'|]]]].
  - cbn [floatable]. apply all_of. intros [k0 w] I. apply (Pl _ _ I).
  - cbn [unmarked]. split.
    + apply not_true_is_false. intros Q. rewrite amem_aget in Q. destruct (aget WEAK_REF (bumped (v + 1) m')) as [w|] eqn:Q1; [clear Q|discriminate Q]. apply aget_some_in in Q1. destruct Q1 as [Q|I]; [discriminate Q|].
      assert (I' : In WEAK_REF (akeys m')) by (apply in_map_iff; now exists (WEAK_REF, w)).
      destruct (Ky _ I') as [Q|Q]; [discriminate Q|]. destruct O2 as (_ & _ & _ & _ & _ & Pf). now apply Pf.
    + apply all_of. intros [k0 w] [Q|I]; [injection Q as <- <-; exact Logic.I|apply (Pl _ _ I)].
  - rewrite <- H'. symmetry. apply load_deser; auto; [exact (proj1 O2)|]. apply (deser_bumped _ _ _ _ _ _ v); auto; [lia|]. rewrite Ra. exact Ap.
  - intros a b y Ia Ib Rd. destruct y as [x|].
    + apply in_map_iff in Ib. destruct Ib as ([b' [u fd]] & Q & Ib). cbn [fst] in Q. subst b'.
      destruct O2 as ((Ng & _) & _). apply (Bc b u fd x); [now apply in_nodup_aget|]. now apply read_becomes in Rd.
    + inversion Rd as [| | | | |No Q1 Q2 Q3]; subst b. rewrite Un; auto.
      * apply in_map_iff in Ia. destruct Ia as ([a' [u fd]] & Q & Ia). cbn [fst] in Q. subst a'.
        destruct O1 as ((Nf & _) & _). exists u, fd. now apply in_nodup_aget.
      * apply in_map_iff in Ib. destruct Ib as ([a' [u fd]] & Q & Ib). cbn [fst] in Q. subst a'.
        destruct O2 as ((Ng & _) & _). exists u, fd. now apply in_nodup_aget.
Qed.

(** ** All releases *)
Lemma history_later E n rules v fs hs w ks : history E n rules v fs hs w ks -> (v <= w)%Z.
Proof. induction 1; lia. Qed.

Lemma history_ordinary E n rules v fs hs w ks : history E n rules v fs hs w ks -> ordinary E (release n rules v) fs -> ordinary E (release n rules w) ks.
Proof. induction 1 as [v fs|v fs gs cs hs w ks Hn H IH]; intros O; [exact O|]. apply IH. apply Hn. Qed.

Lemma history_load E n rules v fs hs w ks d dir allow L :
  order_ok E -> history E n rules v fs hs w ks -> ordinary E (release n rules v) fs ->
  filev (VDict d) = true -> floatable (VDict (adel "version" d)) -> unmarked (VDict d) -> aget "version" d = Some (VInt v) ->
  typed_load E (TData (release n rules v) fs) (VDict d) dir None allow false = Ok L -> l_sched L = [] ->
  exists L' m, typed_load E (TData (release n rules w) ks) (VDict d) dir None allow false = Ok L' /\ l_sched L' = [] /\
    deser_versioned (e_class E) allow (TData (release n rules w) ks) (VDict d) = Ok (VDict m) /\
    (forall k x, aget k m = Some x -> is_weak x = false) /\
    forall a b y, carried fs hs a (aget a (adel "version" d)) b y -> aget b m = y.
Proof.
  intros HE Hh. revert d L. induction Hh as [v fs|v fs gs cs hs w ks Hx Hh IH]; intros d L O Hd Fd Ud Gv H Hn.
  - exists L, (adel "version" d). split; [exact H|]. split; [exact Hn|]. split; [|split].
    + rewrite (deser_release _ _ _ _ _ _ v) by exact Gv. now rewrite zrange_self.
    + intros k x G. apply aget_some_in, in_adel in G. apply unmarked_weak. eapply (unmarked_items (VDict d)); eauto; reflexivity.
    + intros a b y Ca. inversion Ca; subst; reflexivity.
  - destruct (next_file E n rules v fs gs cs d dir allow L HE Hx Hd Fd Ud Gv H Hn) as (m' & L1 & Ap & Fb & Fm & Ub & H1 & Hn1 & Rd).
    pose proof (history_later _ _ _ _ _ _ _ _ Hh) as Hl.
    destruct (IH (bumped (v + 1) m') L1) as (L' & m & H' & Hn' & Dm & Wk & Ca); auto; [apply Hx|].
    assert (Q : deser_versioned (e_class E) allow (TData (release n rules w) ks) (VDict d) =
                deser_versioned (e_class E) allow (TData (release n rules w) ks) (VDict (bumped (v + 1) m'))).
    { apply (deser_bumped _ _ _ _ _ _ v); auto. lia. }
    exists L', m. split; [|split; [exact Hn'|split; [now rewrite Q|split; [exact Wk|]]]].
    + rewrite <- H'. apply load_deser; auto. refine (proj1 (history_ordinary _ _ _ _ _ _ _ _ Hh _)). apply Hx.
    + intros a b y C1. inversion C1 as [|fs0 gs0 cs0 hs0 a0 o0 a' o' b0 y0 Ia Ra Ib C2]; subst.
      apply Ca with (a := a'). cbn [adel bumped]. rewrite String.eqb_refl. now rewrite (Rd _ _ _ Ia Ib Ra).
Qed.

Lemma history_values E n rules v fs hs w ks d dir allow L :
  order_ok E -> history E n rules v fs hs w ks -> ordinary E (release n rules v) fs ->
  filev (VDict d) = true -> floatable (VDict (adel "version" d)) -> unmarked (VDict d) -> aget "version" d = Some (VInt v) ->
  typed_load E (TData (release n rules v) fs) (VDict d) dir None allow false = Ok L -> l_sched L = [] ->
  exists L' o', typed_load E (TData (release n rules w) ks) (VDict d) dir None allow false = Ok L' /\ l_sched L' = [] /\ l_value L' = VObj n o' /\
    forall a b y u fd, carried fs hs a (aget a (adel "version" d)) b y -> aget b ks = Some (u, fd) ->
      exists z, aget b o' = Some z /\
        match y with Some x => denotes E false allow (is_some dir) false u x z | None => default_field u fd (VDict []) z end.
Proof.
  intros HE Hh O Hd Fd Ud Gv H Hn. destruct (history_load E n rules v fs hs w ks d dir allow L HE Hh O Hd Fd Ud Gv H Hn) as (L' & m & H' & Hn' & Dm & Wk & Ca).
  pose proof (history_ordinary _ _ _ _ _ _ _ _ Hh O) as Ok'.
  destruct (load_means E _ _ dir allow false L' HE (proj1 Ok') Hd H') as [_ D']. specialize (D' Hn').
  destruct D' as (y & items & o' & Ey' & Ei & Qo & Kn' & A). rewrite Dm in Ey'. injection Ey' as <-. injection Ei as <-.
  exists L', o'. split; [exact H'|]. split; [exact Hn'|]. split; [exact Qo|].
  intros a b y u fd C1 Eb. destruct Ok' as ((Ng & _) & _).
  assert (R : exists z, aget b o' = Some z /\ match aget b m with None => default_field u fd (VDict []) z | Some x => if is_weak x then default_field u fd x z else denotes E false allow (is_some dir) false u x z end).
  { clear - A Eb Ng. unfold fields in *. revert o' A. induction ks as [|[n0 [t0 d0]] ks IH]; intros [|[n1 v1] o0] Al; cbn [all2] in Al; try discriminate Al; try discriminate Eb.
    destruct Al as [[Q1 P1] Al]. cbn [fst snd] in *. subst n1. inversion Ng as [|? ? N1 N2]; subst. cbn [aget] in Eb |- *.
    destruct (String.eqb_spec b n0) as [->|Hne]; [injection Eb as -> ->; eauto|]. now apply IH. }
  destruct R as (z & Gz & P). exists z. split; [exact Gz|]. rewrite (Ca _ _ _ C1) in P. destruct y as [x|]; [|exact P].
  rewrite (Wk b x) in P; [exact P|]. now apply (Ca a).
Qed.

(** A field whose text is carried along unchanged and whose type is the same in the first
    and in the last release has the same value with both. *)
Lemma history_kept E n rules v fs hs w ks d dir allow L a b x t od fd :
  order_ok E -> history E n rules v fs hs w ks -> ordinary E (release n rules v) fs ->
  filev (VDict d) = true -> floatable (VDict (adel "version" d)) -> unmarked (VDict d) -> aget "version" d = Some (VInt v) ->
  typed_load E (TData (release n rules v) fs) (VDict d) dir None allow false = Ok L -> l_sched L = [] ->
  aget a (adel "version" d) = Some x -> carried fs hs a (Some x) b (Some x) -> aget a fs = Some (t, od) -> aget b ks = Some (t, fd) ->
  exists L' o o' z, typed_load E (TData (release n rules w) ks) (VDict d) dir None allow false = Ok L' /\
    l_value L = VObj n o /\ l_value L' = VObj n o' /\ aget a o = Some z /\ aget b o' = Some z.
Proof.
  intros HE Hh O Hd Fd Ud Gv H Hn Ga Ca Ef Ek.
  destruct (history_values E n rules v fs hs w ks d dir allow L HE Hh O Hd Fd Ud Gv H Hn) as (L' & o' & H' & Hn' & Qo' & V).
  destruct (history_values E n rules v fs [] v fs d dir allow L HE (h_now E n rules v fs) O Hd Fd Ud Gv H Hn) as (L0 & o & H0 & Hn0 & Qo & V0).
  rewrite H in H0. injection H0 as <-. rewrite <- Ga in Ca at 1. destruct (V a b (Some x) t fd Ca Ek) as (z' & Gz' & P').
  destruct (V0 a a (Some x) t od) as (z & Gz & P); [rewrite <- Ga; apply ca_end|exact Ef|].
  exists L', o, o', z. repeat (split; [assumption|]). rewrite Gz'. f_equal. eapply OverrideLoad.denotes_fun; eauto.
Qed.
