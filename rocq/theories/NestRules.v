(** NestRules.v -- rewrite rules on the sections of a nested file (C29). *)
From Verif Require Import Base Value Schema Rewrite Sched Types Asdict FromDict Checker Induct AFacts SpecTypes SpecLoad SpecSubtype
  SpecRenames SpecCheck SpecCompat SpecFix SpecNest RoundTrip SchemaFacts RenameFacts FindFacts CheckFacts SubtypeFacts UpgradeFacts CompatFacts FromDictFacts LoadProps FixFacts NestFacts.

Definition closed (Sec : list string -> bool) : Prop := Sec [] = true /\ forall p q, Sec (p ++ q)%list = true -> Sec p = true.
Definition under (Sec : list string -> bool) (k : string) : list string -> bool := fun p => Sec (k :: p).

Lemma closed_under Sec k : closed Sec -> Sec [k] = true -> closed (under Sec k).
Proof. intros [C1 C2] H. split; [exact H|]. intros p q Q. apply (C2 (k :: p) q). exact Q. Qed.

(** the sections are dicts *)
Definition Inv (Sec : list string -> bool) (d : pyval) : Prop :=
  forall p, Sec p = true -> exists m, value_at d p = Some (VDict m) /\ NoDup (akeys m) /\ amem WEAK_REF m = false.

(** a place in a section that is not a section *)
Fixpoint slot (Sec : list string -> bool) (p : list string) : Prop :=
  match p with
  | [] => False
  | k :: r => match r with [] => Sec [k] = false | _ => Sec [k] = true /\ slot (under Sec k) r end
  end.

Lemma slot_cons Sec k j r : slot Sec (k :: j :: r) <-> Sec [k] = true /\ slot (under Sec k) (j :: r).
Proof. reflexivity. Qed.

Lemma inv_root Sec d : closed Sec -> Inv Sec d -> exists m, d = VDict m /\ NoDup (akeys m) /\ amem WEAK_REF m = false.
Proof. intros [C _] H. destruct (H [] C) as (m & Q & N & W). injection Q as ->. eauto. Qed.

Lemma inv_sub Sec m k : Inv Sec (VDict m) -> Sec [k] = true -> exists v, aget k m = Some v /\ Inv (under Sec k) v.
Proof.
  intros H Hk. destruct (H [k] Hk) as (mk & Q & _). cbn [value_at] in Q. destruct (aget k m) as [v|] eqn:G; [|discriminate Q]. exists v. split; [reflexivity|].
  intros p Hp. destruct (H (k :: p) Hp) as (m' & Q' & N). cbn [value_at] in Q'. rewrite G in Q'. eauto.
Qed.

Lemma inv_build Sec m : closed Sec -> NoDup (akeys m) -> amem WEAK_REF m = false -> (forall k, Sec [k] = true -> exists v, aget k m = Some v /\ Inv (under Sec k) v) -> Inv Sec (VDict m).
Proof.
  intros [C1 C2] N W H p Hp. destruct p as [|k p]; [exists m; auto|].
  destruct (H k (C2 [k] p Hp)) as (v & G & I). destruct (I p Hp) as (m' & Q & N'). cbn [value_at]. rewrite G. eauto.
Qed.

Lemma amem_aset_other {A} k (v : A) m j : j <> k -> amem j (aset k v m) = amem j m.
Proof. intros H. rewrite !amem_aget, aget_aset_other; auto. Qed.

Lemma remove_slot p : forall Sec d, closed Sec -> Inv Sec d -> slot Sec p ->
  exists d', remove_path d p = Ok (d', value_at d p) /\ Inv Sec d' /\
    value_at d' p = None /\ forall p', slot Sec p' -> p' <> p -> value_at d' p' = value_at d p'.
Proof.
  induction p as [|k p IH]; intros Sec d C I Sl; [destruct Sl|].
  destruct (inv_root _ _ C I) as (m & -> & N & W). destruct p as [|k2 p].
  - cbn [slot] in Sl. cbn [remove_path value_at].
    destruct (aget k m) as [v|] eqn:G.
    + exists (VDict (adel k m)). split; [reflexivity|]. split; [|split].
      * apply inv_build; auto; [now apply nodup_adel| |].
        -- rewrite amem_aget in *. destruct (String.eqb_spec WEAK_REF k) as [<-|Hk]; [now rewrite aget_adel_same|now rewrite aget_adel_other].
        -- intros j Hj. destruct (inv_sub _ _ _ I Hj) as (w & Gw & Iw). exists w. split; [|exact Iw]. rewrite aget_adel_other; auto. intros ->. congruence.
      * cbn [value_at]. now rewrite aget_adel_same.
      * intros p' Sp Hp. destruct p' as [|j p']; [destruct Sp|]. cbn [value_at].
        destruct (String.eqb_spec j k) as [->|Hj]; [|now rewrite aget_adel_other]. exfalso. destruct p' as [|j2 p']; [now apply Hp|]. apply slot_cons in Sp. destruct Sp. congruence.
    + exists (VDict m). split; [reflexivity|]. split; [exact I|]. split; [cbn [value_at]; now rewrite G|auto].
  - apply slot_cons in Sl. destruct Sl as [Hk Sl]. destruct (inv_sub _ _ _ I Hk) as (v & G & Iv).
    destruct (IH (under Sec k) v (closed_under _ _ C Hk) Iv Sl) as (v' & E & Iv' & E1 & E2).
    exists (VDict (aset k v' m)). split; [|split; [|split]].
    + change (remove_path (VDict m) (k :: k2 :: p)) with
        (let* present := py_in k (VDict m) in if negb present then Ok (VDict m, None) else let* c := py_getitem (VDict m) k in if is_none c then Ok (VDict m, None) else
         let* cr := remove_path c (k2 :: p) in let* d' := py_setitem (VDict m) k (fst cr) in Ok (d', snd cr)).
      cbn [py_in rbind]. rewrite amem_aget, G. cbn [negb py_getitem]. rewrite G. cbn [rbind].
      destruct (inv_root _ _ (closed_under _ _ C Hk) Iv) as (mv & Qv & _). rewrite Qv at 1. cbn [is_none]. rewrite E. cbn [rbind fst snd py_setitem].
      f_equal. f_equal. cbn [value_at]. now rewrite G.
    + apply inv_build; auto; [now apply nodup_aset| |].
      * destruct (String.eqb_spec WEAK_REF k) as [Q|Q]; [|rewrite amem_aset_other; auto]. exfalso. rewrite Q, amem_aget, G in W. discriminate W.
      * intros j Hj. destruct (String.eqb_spec j k) as [->|Hne]; [exists v'; split; [apply aget_aset_same|exact Iv']|].
        destruct (inv_sub _ _ _ I Hj) as (w & Gw & Iw). exists w. split; [|exact Iw]. now rewrite aget_aset_other.
    + cbn [value_at]. now rewrite aget_aset_same.
    + intros p' Sp Hp. destruct p' as [|j p']; [destruct Sp|]. cbn [value_at]. destruct (String.eqb_spec j k) as [->|Hj]; [|now rewrite aget_aset_other].
      rewrite aget_aset_same, G. destruct p' as [|j2 p']; [cbn [slot] in Sp; congruence|]. apply slot_cons in Sp. apply E2; [apply Sp|]. intros Q. apply Hp. now rewrite Q.
Qed.

Lemma insert_slot p x cn : forall Sec d, closed Sec -> Inv Sec d -> slot Sec p -> ~ In WEAK_REF p ->
  exists d', insert_path d p x cn = Ok d' /\ Inv Sec d' /\
    value_at d' p = Some x /\ forall p', slot Sec p' -> p' <> p -> value_at d' p' = value_at d p'.
Proof.
  induction p as [|k p IH]; intros Sec d C I Sl Nw; [destruct Sl|].
  destruct (inv_root _ _ C I) as (m & -> & N & W).
  assert (Wk : WEAK_REF <> k) by (intros Q; apply Nw; now left). destruct p as [|k2 p].
  - cbn [slot] in Sl. cbn [insert_path py_setitem]. exists (VDict (aset k x m)). split; [reflexivity|]. split; [|split].
    + apply inv_build; auto; [now apply nodup_aset|rewrite amem_aset_other; auto|].
      intros j Hj. destruct (inv_sub _ _ _ I Hj) as (w & Gw & Iw). exists w. split; [|exact Iw]. rewrite aget_aset_other; auto. intros ->. congruence.
    + cbn [value_at]. now rewrite aget_aset_same.
    + intros p' Sp Hp. destruct p' as [|j p']; [destruct Sp|]. cbn [value_at].
      destruct (String.eqb_spec j k) as [->|Hj]; [|now rewrite aget_aset_other]. exfalso. destruct p' as [|j2 p']; [now apply Hp|]. apply slot_cons in Sp. destruct Sp. congruence.
  - apply slot_cons in Sl. destruct Sl as [Hk Sl]. destruct (inv_sub _ _ _ I Hk) as (v & G & Iv).
    destruct (IH (under Sec k) v (closed_under _ _ C Hk) Iv Sl) as (v' & E & Iv' & E1 & E2); [intros Q; apply Nw; now right|].
    destruct (inv_root _ _ (closed_under _ _ C Hk) Iv) as (mv & Qv & _ & Wv). subst v.
    exists (VDict (aset k v' m)). split; [|split; [|split]].
    + change (insert_path (VDict m) (k :: k2 :: p) x cn) with
        (let d1 := if amem k m then VDict m else VDict (aset k (if cn then VDict [] else VDict [(WEAK_REF, VBool true)]) m) in
         let* c := py_getitem d1 k in
         match c with VDict m1 => let c1 := if cn && amem WEAK_REF m1 then VDict (adel WEAK_REF m1) else c in let* c' := insert_path c1 (k2 :: p) x cn in py_setitem d1 k c' | _ => Ok d1 end).
      cbv zeta. rewrite amem_aget, G. cbn [py_getitem]. rewrite G. cbn [rbind]. rewrite Wv, andb_false_r, E. reflexivity.
    + apply inv_build; auto; [now apply nodup_aset|rewrite amem_aset_other; auto|].
      intros j Hj. destruct (String.eqb_spec j k) as [->|Hne]; [exists v'; split; [apply aget_aset_same|exact Iv']|].
      destruct (inv_sub _ _ _ I Hj) as (w & Gw & Iw). exists w. split; [|exact Iw]. now rewrite aget_aset_other.
    + cbn [value_at]. now rewrite aget_aset_same.
    + intros p' Sp Hp. destruct p' as [|j p']; [destruct Sp|]. cbn [value_at]. destruct (String.eqb_spec j k) as [->|Hj]; [|now rewrite aget_aset_other].
      rewrite aget_aset_same, G. destruct p' as [|j2 p']; [cbn [slot] in Sp; congruence|]. apply slot_cons in Sp. apply E2; [apply Sp|]. intros Q. apply Hp. now rewrite Q.
Qed.

(** ** One rule *)
Definition rule_paths (r : rule) : list (list string) :=
  match r with
  | RenameField a b => [a; b]
  | DeleteField p | MapFieldValue p _ _ | ChangeDefault p _ _ | AddDefault p _ | CheckValue p _ | RejectValues p _ => [p]
  end.

Definition look (d : pyval) : store := fun j => value_at d (dec j).

Lemma put_enc p v s p' : put (enc p) v s (enc p') = if list_eq_dec string_dec p' p then v else s (enc p').
Proof.
  unfold put. destruct (list_eq_dec string_dec p' p) as [->|H]; [now rewrite String.eqb_refl|]. destruct (String.eqb_spec (enc p') (enc p)) as [Q|Q]; [|reflexivity].
  now apply enc_inj in Q.
Qed.
Lemma look_enc d p : look d (enc p) = value_at d p.
Proof. unfold look. now rewrite dec_enc. Qed.

Lemma nest_rule Sec d r : closed Sec -> Inv Sec d -> simple_rule (flatr r) -> (forall p, In p (rule_paths r) -> slot Sec p /\ ~ In WEAK_REF p) ->
  exists d', apply_rule r d = Ok d' /\ Inv Sec d' /\ forall p, slot Sec p -> value_at d' p = act (flatr r) (look d) (enc p).
Proof.
  intros C I Sm Sl.
  assert (Rem : forall p, In p (rule_paths r) -> exists d1, remove_path d p = Ok (d1, value_at d p) /\ Inv Sec d1 /\
      forall p', slot Sec p' -> value_at d1 p' = put (enc p) None (look d) (enc p')).
  { intros p Ip. destruct (Sl p Ip) as [S1 _]. destruct (remove_slot p Sec d C I S1) as (d1 & E & I1 & A & B). exists d1. split; [exact E|]. split; [exact I1|].
    intros p' Sp'. rewrite put_enc. destruct (list_eq_dec string_dec p' p) as [->|H]; [exact A|]. rewrite look_enc. now apply B. }
  assert (Ins : forall p x cn d1, In p (rule_paths r) -> Inv Sec d1 -> exists d', insert_path d1 p x cn = Ok d' /\ Inv Sec d' /\
      forall p', slot Sec p' -> value_at d' p' = put (enc p) (Some x) (look d1) (enc p')).
  { intros p x cn d1 Ip I1. destruct (Sl p Ip) as [S1 S2]. destruct (insert_slot p x cn Sec d1 C I1 S1 S2) as (d' & E & I' & A & B). exists d'. split; [exact E|]. split; [exact I'|].
    intros p' Sp'. rewrite put_enc. destruct (list_eq_dec string_dec p' p) as [->|H]; [exact A|]. rewrite look_enc. now apply B. }
  destruct r as [a b|a|a f txt|a o o'|a o|a l|a l]; try (destruct Sm; fail); cbn [repath_rule to_key simple_rule] in Sm; cbn [apply_rule repath_rule to_key act rule_paths] in *;
    destruct (Rem a (or_introl eq_refl)) as (d1 & -> & I1 & V1); cbn [rbind fst snd]; rewrite ?look_enc.
  - destruct (value_at d a) as [v|] eqn:Ga.
    + destruct (Ins b v true d1 (or_intror (or_introl eq_refl)) I1) as (d' & E & I' & V'). exists d'. split; [exact E|]. split; [exact I'|].
      intros p Sp. rewrite (V' p Sp), !put_enc, look_enc. destruct (list_eq_dec string_dec p b); [reflexivity|]. now rewrite V1, put_enc.
    + exists d1. split; [reflexivity|]. split; [exact I1|]. intros p Sp. rewrite (V1 p Sp), put_enc. destruct (list_eq_dec string_dec p a) as [->|]; [|reflexivity]. now rewrite look_enc.
  - exists d1. auto.
  - destruct (value_at d a) as [v|] eqn:Ga.
    + destruct (Sm v) as [y Y]. rewrite Y. cbn [rbind]. destruct (Ins a y true d1 (or_introl eq_refl) I1) as (d' & E & I' & V'). exists d'. split; [exact E|]. split; [exact I'|].
      intros p Sp. rewrite (V' p Sp), !put_enc. destruct (list_eq_dec string_dec p a) as [->|H]; [reflexivity|]. rewrite look_enc, V1, put_enc by assumption.
      destruct (list_eq_dec string_dec p a); [contradiction|reflexivity].
    + exists d1. split; [reflexivity|]. split; [exact I1|]. intros p Sp. rewrite (V1 p Sp), put_enc. destruct (list_eq_dec string_dec p a) as [->|]; [|reflexivity]. now rewrite look_enc.
  - destruct (value_at d a) as [v|] eqn:Ga.
    + destruct (is_weak v); match goal with |- context [insert_path d1 a ?x ?cn] => destruct (Ins a x cn d1 (or_introl eq_refl) I1) as (d' & E & I' & V') end;
        exists d'; (split; [exact E|]); (split; [exact I'|]); intros p Sp; rewrite (V' p Sp), !put_enc; (destruct (list_eq_dec string_dec p a) as [->|H]; [reflexivity|]);
        rewrite look_enc, V1, put_enc by assumption; (destruct (list_eq_dec string_dec p a); [contradiction|reflexivity]).
    + destruct (Ins a o false d1 (or_introl eq_refl) I1) as (d' & E & I' & V'). exists d'. split; [exact E|]. split; [exact I'|]. intros p Sp. rewrite (V' p Sp), !put_enc.
      destruct (list_eq_dec string_dec p a) as [->|H]; [reflexivity|]. rewrite look_enc, V1, put_enc by assumption. destruct (list_eq_dec string_dec p a); [contradiction|reflexivity].
  - match goal with |- context [insert_path d1 a ?x ?cn] => destruct (Ins a x cn d1 (or_introl eq_refl) I1) as (d' & E & I' & V') end.
    exists d'. split; [exact E|]. split; [exact I'|]. intros p Sp. rewrite (V' p Sp), !put_enc. destruct (list_eq_dec string_dec p a) as [->|H]; [destruct (value_at d a); reflexivity|].
    rewrite look_enc, V1, put_enc by assumption. destruct (list_eq_dec string_dec p a); [contradiction|reflexivity].
Qed.

(** ** All rules *)
Lemma act_on (P : string -> Prop) r s s' : (forall k, In k (touched r) -> P k) -> (forall k, P k -> s k = s' k) -> forall k, P k -> act r s k = act r s' k.
Proof.
  intros T H k Pk.
  assert (Q : forall j v v', v = v' -> (forall i, P i -> s i = s' i) -> put j v s k = put j v' s' k).
  { intros j v v' -> H'. unfold put. destruct (String.eqb k j); auto. }
  destruct r as [p q|p|p f txt|p o o'|p o|p l|p l]; cbn [act touched] in *; auto;
    destruct p as [|a [|a' p]]; auto; try (destruct q as [|b [|b' q]]; auto); cbn [app] in T; pose proof (T a (or_introl eq_refl)) as Pa; rewrite ?(H a Pa).
  - destruct (s' a); auto. unfold put. destruct (String.eqb k b); auto. destruct (String.eqb k a); auto.
  - destruct (s' a); auto.
  - now apply Q.
  - now apply Q.
Qed.

Lemma fin_on (P : string -> Prop) rs : forall s s', (forall r k, In r rs -> In k (touched r) -> P k) -> (forall k, P k -> s k = s' k) -> forall k, P k -> fin rs s k = fin rs s' k.
Proof.
  induction rs as [|r rs IH]; intros s s' T H k Pk; [now apply H|]. cbn [fin fold_left]. apply IH; auto.
  - intros r' j R. apply T. now right.
  - apply act_on; auto. intros j. apply T. now left.
Qed.

Lemma flatr_touched r : touched (flatr r) = map enc (rule_paths r).
Proof. destruct r; reflexivity. Qed.

Lemma nest_rules Sec rs : forall d, closed Sec -> Inv Sec d -> Forall simple_rule (map flatr rs) -> (forall r p, In r rs -> In p (rule_paths r) -> slot Sec p /\ ~ In WEAK_REF p) ->
  exists d', apply_rules rs d = Ok d' /\ Inv Sec d' /\ forall p, slot Sec p -> value_at d' p = fin (map flatr rs) (look d) (enc p).
Proof.
  induction rs as [|r rs IH]; intros d C I Sm Sl.
  - exists d. split; [reflexivity|]. split; [exact I|]. intros p _. cbn. now rewrite look_enc.
  - cbn [map] in Sm. apply Forall_cons_iff in Sm. destruct Sm as [S1 Sm].
    destruct (nest_rule Sec d r C I S1) as (d1 & E1 & I1 & V1); [intros p; apply Sl; now left|].
    destruct (IH d1 C I1 Sm) as (d' & E & I' & V'); [intros r' p R; apply Sl; now right|].
    exists d'. split; [cbn [apply_rules]; now rewrite E1|]. split; [exact I'|]. intros p Sp. rewrite (V' p Sp). cbn [map fin fold_left]. fold (fin (map flatr rs) (act (flatr r) (look d))).
    apply (fin_on (fun k => exists p, slot Sec p /\ k = enc p)); [| |eauto].
    + intros r' k R T. apply in_map_iff in R. destruct R as (r0 & <- & R). rewrite flatr_touched in T. apply in_map_iff in T. destruct T as (p0 & <- & T).
      exists p0. split; [|reflexivity]. eapply Sl; [right; exact R|exact T].
    + intros k (p0 & S0 & ->). rewrite look_enc. now apply V1.
Qed.
