(** NestHistory.v -- files of configs with sub-configs survive a series of releases (C71). *)
From Verif Require Import Base Value Schema Rewrite Sched Types Asdict FromDict Checker Induct AFacts SpecTypes SpecLoad SpecSubtype
  SpecRenames SpecCheck SpecCompat SpecFix SpecNest SpecHistory RoundTrip SchemaFacts RenameFacts FindFacts CheckFacts SubtypeFacts UpgradeFacts CompatFacts FromDictFacts LoadSound LoadFacts LoadProps FixFacts
  HistoryFacts NestFacts NestRules NestLoad NestFix NestValues.

(** ** A file whose fields are plain is plain *)
Lemma plain_tree d : forall Sec, closed Sec -> Inv Sec d -> (forall p w, slot Sec p -> value_at d p = Some w -> plain_value w) -> plain_value d.
Proof.
  induction d as [| | | | | | |m IH| | | |] using pyval_ind'; intros Sec C I H0; destruct (inv_root _ _ C I) as (m0 & Q & N & W); try discriminate Q.
  injection Q as <-.
  assert (A : forall k w, In (k, w) m -> plain_value w).
  { intros k w J. pose proof (in_nodup_aget _ _ _ N J) as G. destruct (Sec [k]) eqn:Sk.
    - destruct (inv_sub _ _ _ I Sk) as (w' & G' & Iw). rewrite G in G'. injection G' as <-. rewrite Forall_forall in IH. apply (IH _ J (under Sec k)); [now apply closed_under|exact Iw|].
      intros p x Sp V. apply (H0 (k :: p)); [destruct p; [destruct Sp|now apply slot_cons]|]. cbn [value_at]. now rewrite G.
    - apply (H0 [k] w); [exact Sk|]. cbn [value_at]. now rewrite G. }
  split.
  - cbn [floatable]. apply all_of. intros [k w] J. apply (A _ _ J).
  - cbn [unmarked]. split; [exact W|]. apply all_of. intros [k w] J. apply (A _ _ J).
Qed.

Lemma flatr_plain r : rule_plain r -> rule_plain (flatr r).
Proof. now destruct r. Qed.

Lemma unmarked_adel d k : k <> WEAK_REF -> unmarked (VDict d) -> unmarked (VDict (adel k d)).
Proof.
  intros Hk [U1 U2]. split; [rewrite amem_aget in *; rewrite aget_adel_other; [exact U1|congruence]|].
  rewrite all_in in U2 |- *. intros [k0 w] I. apply in_adel in I. exact (U2 _ I).
Qed.

Lemma read_becomes_at cs p d q x : read_as_at cs p (value_at d p) q (Some x) -> becomes_at cs d q x.
Proof.
  intros R. remember (value_at d p) as o eqn:Q. remember (Some x) as y eqn:Qy.
  destruct R; try discriminate Qy; injection Qy as <-.
  - now apply ba_same.
  - eapply ba_wrapped; eauto.
  - eapply ba_mapped; eauto.
  - apply ba_default; auto.
  - eapply ba_renamed; eauto.
Qed.

(** ** One release *)
Lemma next_file_at E n rules v fs gs cs d dir allow L :
  order_ok E -> next_release_at E n rules v fs gs cs ->
  filev (VDict d) = true -> floatable (VDict (adel "version" d)) -> unmarked (VDict d) -> aget "version" d = Some (VInt v) -> sections_given fs (VDict d) ->
  typed_load E (TData (release n rules v) fs) (VDict d) dir None allow false = Ok L -> l_sched L = [] ->
  exists m' L', apply_rules (rules_at rules v) (VDict (adel "version" d)) = Ok (VDict m') /\
    filev (VDict (bumped (v + 1) m')) = true /\ floatable (VDict m') /\ unmarked (VDict (bumped (v + 1) m')) /\ sections_given gs (VDict (bumped (v + 1) m')) /\
    typed_load E (TData (release n rules (v + 1)) gs) (VDict (bumped (v + 1) m')) dir None allow false = Ok L' /\ l_sched L' = [] /\
    forall p q y, leaf fs p <> None -> leaf gs q <> None -> read_as_at cs p (value_at (VDict (adel "version" d)) p) q y -> value_at (VDict m') q = y.
Proof.
  intros HE (O1 & D1 & O2 & D2 & Ss & Nv & Lost & s & r & k & Ms & Mr & C & <- & Ra & Ch) Hd Fd Ud Gv Sg H Hn.
  assert (Sv : checker_severity k <> ERROR) by (apply severity_ok; intros c I; apply (Ch c I)).
  assert (Rep : forall ch, In ch (ck_changes k) -> repairable_at E fs gs (ck_changes k) ch) by (intros c I; apply (Ch c I)).
  assert (Ra' : rules_at (filter (fun kv => Z.ltb (fst kv) (v + 1)) rules) v = ck_fixes k) by (rewrite rules_at_filter by lia; exact Ra).
  pose proof (filter_below (v + 1) rules) as Hb.
  destruct (nested_load E (release n rules v) fs (release n rules (v + 1)) gs (release n rules (v + 1)) s r k v _ _ d dir allow L HE O1 O2 D1 D2 Ss Lost Ms Mr C Sv Rep eq_refl eq_refl Hb Ra' Hd Fd Ud Gv Sg H Hn) as (L' & H' & Hn').
  destruct (load_means E _ _ dir allow false L HE (proj1 O1) Hd H) as [_ D]. specialize (D Hn).
  destruct D as (y & items & o & Ey & Ei & _ & Kn & A). pose proof (deser_current_inv _ _ _ _ _ _ _ _ (eq_refl : c_versioned (release n rules v) = _) Gv Ey) as ->. injection Ei as <-.
  destruct (nested_items E allow (is_some dir) (release n rules v) fs (release n rules (v + 1)) gs (release n rules (v + 1)) s r k v _ _ d o O1 O2 D1 D2 Ss Ms Mr C Sv Rep eq_refl eq_refl Hb Ra' Hd Ud Gv Sg Kn A)
    as (m' & Dm & (Ap & Qf & Val) & If & Ig & Bc & Un).
  pose proof (unmarked_adel d "version" ltac:(discriminate) Ud) as Um.
  set (m0 := adel "version" d) in *.
  assert (Pl : plain_value (VDict m')).
  { apply (plain_tree _ (is_section gs)); [apply section_closed|exact Ig|]. intros p w Sp V. rewrite (Val p Sp) in V. revert V. apply fin_plain.
    - apply Forall_forall. intros r0 I. apply in_map_iff in I. destruct I as (r1 & <- & I). apply flatr_plain. rewrite Qf in I. apply in_flat_map in I. destruct I as (c & Ic & I). unfold fixes in I.
      destruct (proposed_fix c) as [r2|] eqn:P; [|destruct I]. destruct I as [<-|[]]. apply (fix_plain c); auto. apply (Ch c Ic).
    - intros j x V. unfold look in V. split; [exact (floatable_at _ _ _ Fd V)|exact (unmarked_at _ _ _ Um V)]. }
  destruct Pl as [Fm Umm].
  destruct (load_means E _ _ dir allow false L' HE (proj1 O2) Hd H') as [_ D']. specialize (D' Hn').
  destruct D' as (y & items & o' & Ey' & Ei & _ & Kn' & _). rewrite Dm in Ey'. injection Ey' as <-. injection Ei as <-.
  destruct (inv_root _ _ (section_closed gs) Ig) as (m2 & Q2 & N' & W'). injection Q2 as <-.
  assert (Ky : forall k0, In k0 (akeys m') -> k0 = "!__name__" \/ In k0 (field_names gs)).
  { intros k0 I. apply in_map_iff in I. destruct I as ([k1 w] & Q & I). cbn [fst] in Q. subst k1.
    destruct (Kn' k0 w I) as [Q|[Q|[Q|Q]]]; auto; [|discriminate Q]. rewrite unmarked_weak in Q; [discriminate Q|]. exact (unmarked_items (VDict m') m' eq_refl Umm k0 w I). }
  assert (Fv : filev (VDict m') = true) by (eapply filev_versioned; [exact (proj1 O2)|exact Hd|exact Dm]).
  assert (Fb : filev (VDict (bumped (v + 1) m')) = true).
  { cbn [filev] in Fv |- *. apply andb_true_iff in Fv. destruct Fv as [F1 F2]. apply andb_true_iff. split; [|exact F2].
    apply RewriteFacts.nodupb_NoDup. cbn [bumped map fst]. constructor; [|exact N']. intros Q. destruct (Ky _ Q) as [Q'|Q']; [discriminate Q'|now apply Nv]. }
  exists m', L'. split; [rewrite Ra; exact Ap|]. split; [exact Fb|]. split; [exact Fm|]. split; [|split; [|split; [|split; [exact Hn'|]]]].
  - destruct Umm as [U1 U2]. split; [rewrite amem_aget in *; exact U1|]. cbn [all]. split; [exact Logic.I|exact U2].
  - intros p Hp. destruct p as [|k0 p]; [eexists; reflexivity|]. destruct (Ig _ Hp) as (mp & V & _). exists mp. cbn [value_at bumped aget] in V |- *.
    destruct (String.eqb_spec k0 "version") as [->|Hne]; [|exact V]. exfalso. apply Nv. unfold is_section in Hp. rewrite section_cons in Hp.
    destruct (aget "version" gs) as [x|] eqn:G; [|discriminate Hp]. apply aget_some_in in G. apply in_map_iff. now exists ("version", x).
  - rewrite <- H'. symmetry. apply load_deser; auto; [exact (proj1 O2)|]. apply (deser_bumped _ _ _ _ _ _ v); auto; [lia|]. rewrite Ra. exact Ap.
  - intros p q y Lp Lq Rd. destruct y as [x|].
    + apply read_becomes_at in Rd. destruct (leaf gs q) as [[u fd]|] eqn:G; [|now destruct Lq]. apply (Bc q u fd x G Rd).
    + inversion Rd as [| | | | |No Q1 Q2 Q3]; subst q. rewrite Un; auto.
Qed.

(** ** All releases *)
Lemma history_at_later E n rules v fs hs w ks : history_at E n rules v fs hs w ks -> (v <= w)%Z.
Proof. induction 1; lia. Qed.

Lemma history_at_ordinary E n rules v fs hs w ks : history_at E n rules v fs hs w ks -> ordinary E (release n rules v) fs -> ordinary E (release n rules w) ks.
Proof. induction 1 as [v fs|v fs gs cs hs w ks Hn H IH]; intros O; [exact O|]. apply IH. apply Hn. Qed.

Lemma history_at_load E n rules v fs hs w ks d dir allow L :
  order_ok E -> history_at E n rules v fs hs w ks -> ordinary E (release n rules v) fs ->
  filev (VDict d) = true -> floatable (VDict (adel "version" d)) -> unmarked (VDict d) -> aget "version" d = Some (VInt v) -> sections_given fs (VDict d) ->
  typed_load E (TData (release n rules v) fs) (VDict d) dir None allow false = Ok L -> l_sched L = [] ->
  exists L' m, typed_load E (TData (release n rules w) ks) (VDict d) dir None allow false = Ok L' /\ l_sched L' = [] /\
    deser_versioned (e_class E) allow (TData (release n rules w) ks) (VDict d) = Ok (VDict m) /\ Inv (is_section ks) (VDict m) /\ unmarked (VDict m) /\
    forall p q y, carried_at fs hs p (value_at (VDict (adel "version" d)) p) q y -> value_at (VDict m) q = y.
Proof.
  intros HE Hh. revert d L. induction Hh as [v fs|v fs gs cs hs w ks Hx Hh IH]; intros d L O Hd Fd Ud Gv Sg H Hn.
  - exists L, (adel "version" d). split; [exact H|]. split; [exact Hn|]. split; [|split; [|split]].
    + rewrite (deser_release _ _ _ _ _ _ v) by exact Gv. now rewrite zrange_self.
    + now apply (adel_inv fs d v).
    + now apply unmarked_adel.
    + intros p q y Ca. inversion Ca; subst; reflexivity.
  - destruct (next_file_at E n rules v fs gs cs d dir allow L HE Hx Hd Fd Ud Gv Sg H Hn) as (m' & L1 & Ap & Fb & Fm & Ub & Sb & H1 & Hn1 & Rd).
    pose proof (history_at_later _ _ _ _ _ _ _ _ Hh) as Hl.
    destruct (IH (bumped (v + 1) m') L1) as (L' & m & H' & Hn' & Dm & Im & Um & Ca); auto; [apply Hx|].
    assert (Q : deser_versioned (e_class E) allow (TData (release n rules w) ks) (VDict d) =
                deser_versioned (e_class E) allow (TData (release n rules w) ks) (VDict (bumped (v + 1) m'))).
    { apply (deser_bumped _ _ _ _ _ _ v); auto. lia. }
    exists L', m. split; [|split; [exact Hn'|split; [now rewrite Q|split; [exact Im|split; [exact Um|]]]]].
    + rewrite <- H'. apply load_deser; auto. refine (proj1 (history_at_ordinary _ _ _ _ _ _ _ _ Hh _)). apply Hx.
    + intros p q y C1. inversion C1 as [|fs0 gs0 cs0 hs0 p0 o0 p' o' q0 y0 Lp Rp Lq C2]; subst.
      apply Ca with (p := p'). cbn [adel bumped]. rewrite String.eqb_refl. now rewrite (Rd _ _ _ Lp Lq Rp).
Qed.

Lemma history_at_values E n rules v fs hs w ks d dir allow L :
  order_ok E -> history_at E n rules v fs hs w ks -> ordinary E (release n rules v) fs ->
  filev (VDict d) = true -> floatable (VDict (adel "version" d)) -> unmarked (VDict d) -> aget "version" d = Some (VInt v) -> sections_given fs (VDict d) ->
  typed_load E (TData (release n rules v) fs) (VDict d) dir None allow false = Ok L -> l_sched L = [] ->
  exists L', typed_load E (TData (release n rules w) ks) (VDict d) dir None allow false = Ok L' /\ l_sched L' = [] /\
    forall p q y u fd, carried_at fs hs p (value_at (VDict (adel "version" d)) p) q y -> leaf ks q = Some (u, fd) ->
      exists z, attr_at (l_value L') q = Some z /\
        match y with Some x => denotes E false allow (is_some dir) false u x z | None => default_field u fd (VDict []) z end.
Proof.
  intros HE Hh O Hd Fd Ud Gv Sg H Hn. destruct (history_at_load E n rules v fs hs w ks d dir allow L HE Hh O Hd Fd Ud Gv Sg H Hn) as (L' & m & H' & Hn' & Dm & Im & Um & Ca).
  pose proof (history_at_ordinary _ _ _ _ _ _ _ _ Hh O) as Ok'.
  destruct (load_means E _ _ dir allow false L' HE (proj1 Ok') Hd H') as [_ D']. specialize (D' Hn').
  destruct D' as (y & items & o' & Ey' & Ei & Qo & Kn' & A). rewrite Dm in Ey'. injection Ey' as <-. injection Ei as <-.
  exists L'. split; [exact H'|]. split; [exact Hn'|].
  intros p q y u fd C1 Lq. destruct Ok' as (_ & Nm & _ & _ & V2 & _).
  destruct (split_value E allow (is_some dir) q (release n rules w) n ks m o' u fd Nm Im V2 A Lq) as (z & Gz & P).
  exists z. rewrite Qo. split; [exact Gz|]. unfold read_at in P. rewrite (Ca _ _ _ C1) in P. destruct y as [x|]; [|exact P].
  rewrite (unmarked_weak x) in P; [exact P|]. exact (unmarked_at q _ _ Um (Ca _ _ _ C1)).
Qed.

Lemma history_at_kept E n rules v fs hs w ks d dir allow L p q x t od fd :
  order_ok E -> history_at E n rules v fs hs w ks -> ordinary E (release n rules v) fs ->
  filev (VDict d) = true -> floatable (VDict (adel "version" d)) -> unmarked (VDict d) -> aget "version" d = Some (VInt v) -> sections_given fs (VDict d) ->
  typed_load E (TData (release n rules v) fs) (VDict d) dir None allow false = Ok L -> l_sched L = [] ->
  value_at (VDict (adel "version" d)) p = Some x -> carried_at fs hs p (Some x) q (Some x) -> leaf fs p = Some (t, od) -> leaf ks q = Some (t, fd) ->
  exists L' z, typed_load E (TData (release n rules w) ks) (VDict d) dir None allow false = Ok L' /\
    attr_at (l_value L) p = Some z /\ attr_at (l_value L') q = Some z.
Proof.
  intros HE Hh O Hd Fd Ud Gv Sg H Hn Ga Ca Ef Ek.
  destruct (history_at_values E n rules v fs hs w ks d dir allow L HE Hh O Hd Fd Ud Gv Sg H Hn) as (L' & H' & Hn' & V).
  destruct (history_at_values E n rules v fs [] v fs d dir allow L HE (ha_now E n rules v fs) O Hd Fd Ud Gv Sg H Hn) as (L0 & H0 & Hn0 & V0).
  rewrite H in H0. injection H0 as <-. rewrite <- Ga in Ca at 1. destruct (V p q (Some x) t fd Ca Ek) as (z' & Gz' & P').
  destruct (V0 p p (Some x) t od) as (z & Gz & P); [rewrite <- Ga; apply caa_end|exact Ef|].
  exists L', z. repeat (split; [assumption|]). rewrite Gz'. f_equal. eapply OverrideLoad.denotes_fun; eauto.
Qed.
