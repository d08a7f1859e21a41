(** SetOrder.v -- a successful load does not depend on the iteration order of
    Python sets (C05). *)
From Coq Require Import Permutation.
From Verif Require Import Base AFacts Value Schema Rewrite Sched Types Asdict FromDict
  Induct SpecTree SpecTypes RewriteFacts FromDictFacts RoundTrip ElideFacts ElideLoad
  DefaultFacts SpecLoad LoadFacts LoadSound.

(** whatever [m] returns, [m'] returns *)
Definition ref {A} (m m' : res A) : Prop := forall r, m = Ok r -> m' = Ok r.

Lemma ref_refl {A} (m : res A) : ref m m.
Proof. intros r H; exact H. Qed.

Lemma ref_bind {A B} (m m' : res A) (k k' : A -> res B) :
  ref m m' -> (forall a, m = Ok a -> ref (k a) (k' a)) -> ref (rbind m k) (rbind m' k').
Proof.
  intros H1 H2 r Hr. apply rbind_ok in Hr as [a [Ha Hr]]. apply rbind_ok. exists a. split; [apply H1; auto|].
  apply (H2 a Ha r Hr).
Qed.

Lemma ref_smapi {A B} (f g : nat -> A -> dstate -> res (B * dstate)) l : forall i s,
  (forall i x s, In x l -> ref (f i x s) (g i x s)) -> ref (smapi f i l s) (smapi g i l s).
Proof.
  induction l as [|x l IH]; intros i s H; [apply ref_refl|]. rewrite !smapi_cons.
  apply ref_bind; [apply H; left; auto|]. intros y _. apply ref_bind; [|intros; apply ref_refl].
  apply IH. intros; apply H; right; auto.
Qed.

Lemma ref_tuple f g path ts : forall i l s,
  (forall t x p s, In t ts -> ref (f t x p s) (g t x p s)) -> ref (tuple_loop f path ts i l s) (tuple_loop g path ts i l s).
Proof.
  induction ts as [|t ts IH]; intros i [|x l] s H; try apply ref_refl. cbn [tuple_loop].
  apply ref_bind; [apply H; left; auto|]. intros y _. apply ref_bind; [|intros; apply ref_refl].
  apply IH. intros; apply H; right; auto.
Qed.

Lemma ref_fields f g cname path ig items : forall kw weak s,
  (forall k, match f k, g k with
             | None, None => True
             | Some a, Some b => forall x p s, ref (a x p s) (b x p s)
             | _, _ => False end) ->
  ref (fields_loop f cname path ig items kw weak s) (fields_loop g cname path ig items kw weak s).
Proof.
  induction items as [|[k x] items IH]; intros kw weak s H; cbn [fields_loop]; [apply ref_refl|].
  destruct (String.eqb k "!__name__"); [auto|]. destruct (is_weak x); [auto|].
  assert (Hk := H k). destruct (f k), (g k); try easy.
  - apply ref_bind; auto.
  - destruct ig; auto. apply ref_refl.
Qed.

Lemma fields_weak f cname path ig items : forall kw weak s kw' weak' s',
  (forall n w, aget n weak = Some w -> is_weak w = true) ->
  fields_loop f cname path ig items kw weak s = Ok (kw', weak', s') ->
  forall n w, aget n weak' = Some w -> is_weak w = true.
Proof.
  induction items as [|[k x] items IH]; intros kw weak s kw' weak' s' Hw H; cbn [fields_loop] in H; [injection H as <- <- <-; auto|].
  destruct (String.eqb k "!__name__"); [eauto|]. destruct (is_weak x) eqn:Ex.
  - eapply IH; [|exact H]. intros n w. rewrite aget_aset. destruct (String.eqb n k); [congruence|apply Hw].
  - destruct (f k); [apply rbind_ok in H as [[y s1] [_ H]]; eauto|]. destruct ig; [eauto|discriminate].
Qed.

Lemma tcd_order fs path weak kw rem rem' km : NoDup (map fst fs) ->
  (forall n w, aget n weak = Some w -> is_weak w = true) -> NoDup rem -> incl rem (map fst fs) -> Permutation rem rem' ->
  try_create_defaults fs rem path weak kw [] = Ok km -> snd km = [] ->
  exists km', try_create_defaults fs rem' path weak kw [] = Ok km' /\ snd km' = [] /\
    forall n ft fd, In (n, (ft, fd)) fs -> aget n (fst km') = aget n (fst km).
Proof.
  intros Hnd Hw Hr Hi Hp H Hk. destruct km as [kw1 ms]. cbn [fst snd] in *. subst ms.
  destruct (tcd_inv fs path weak Hnd Hw rem kw [] kw1 [] Hr Hi H) as (T1 & T2 & T3).
  destruct (T1 eq_refl) as [_ T1']. assert (Hr' : NoDup rem') by (eapply Permutation_NoDup; eauto).
  assert (Hin : forall n, In n rem' <-> In n rem) by (intros n; split; apply Permutation_in; auto using Permutation_sym).
  assert (Hi' : incl rem' (map fst fs)) by (intros n Hn; apply Hi, Hin; auto).
  destruct (tcd_run fs path weak Hnd Hw rem' kw [] Hi') as [kw2 H2].
  { intros n ft fd Hn Hf. apply Hin in Hn. split; [eapply T1'; eauto|]. intros Hb. specialize (T3 n ft fd Hn Hf).
    rewrite Hb in T3. destruct T3 as (o & T3 & _). eauto. }
  exists (kw2, []). split; auto. split; auto. cbn [fst].
  destruct (tcd_inv fs path weak Hnd Hw rem' kw [] kw2 [] Hr' Hi' H2) as (_ & U2 & U3).
  intros n ft fd Hf. destruct (in_dec string_dec n rem) as [Hn|Hn].
  - specialize (T3 n ft fd Hn Hf). apply Hin in Hn. specialize (U3 n ft fd Hn Hf). destruct (bare ft fd).
    + destruct T3 as (o & A1 & A2), U3 as (o' & B1 & B2). congruence.
    + congruence.
  - rewrite T2 by auto. apply U2. rewrite Hin. exact Hn.
Qed.

Lemma construct_ext fs kw kw' : (forall n ft fd, In (n, (ft, fd)) fs -> aget n kw' = aget n kw) -> construct fs kw' = construct fs kw.
Proof.
  induction fs as [|[n [ft fd]] fs IH]; intros H; auto. cbn [construct]. rewrite (H n ft fd) by (left; auto).
  rewrite IH; auto. intros m mt md Hm. apply (H m mt md). right; auto.
Qed.

Lemma override_loop_order E o fields ovs : forall prev errs v,
  override_loop (with_order E o) fields ovs prev errs v = override_loop E fields ovs prev errs v.
Proof.
  induction ovs as [|s ovs IH]; intros prev errs v; auto. cbn [override_loop].
  destruct (split_first "=" s) as [[k text]|]; auto. cbv zeta.
  destruct (find_field fields (split_on "." k)) as [[t fm]|]; auto.
  change (override_value (with_order E o) t text prev) with (override_value E t text prev).
  destruct (override_value E t text prev); cbn [rbind]; auto.
  destruct (set_override v (split_on "." k) a); cbn [rbind]; auto.
Qed.

Lemma deser_one_order E o ds t v path s : deser_one (with_order E o) ds t v path s = deser_one E ds t v path s.
Proof.
  destruct ds; try reflexivity. cbn [deser_one]. destruct (st_ov_applied s); auto. unfold deser_overrides.
  destruct (materialize_type t) as [m|]; cbn [rbind]; auto. destruct m; auto. rewrite override_loop_order. reflexivity.
Qed.

Lemma deser_all_order E o dss t path : forall v last ret s,
  deser_all (with_order E o) dss t v last ret path s = deser_all E dss t v last ret path s.
Proof.
  induction dss as [|d dss IH]; intros v last ret s; auto. cbn [deser_all]. rewrite deser_one_order.
  destruct (deser_one E d t v path s); cbn [rbind]; auto.
Qed.

Lemma type_args_order E o l : typing_args_ok (with_order E o) l = typing_args_ok E l.
Proof. induction l as [|a l IH]; auto. cbn [typing_args_ok]. change (e_type_arg (with_order E o) a) with (e_type_arg E a). now rewrite IH. Qed.

Section Order.
  Variable E : env.
  Variable o : list string -> list string.
  Variable dss : list deser.
  Hypothesis Hord : order_ok E.
  Hypothesis Ho : forall l, Permutation (o l) l.

  Lemma from_dict_order t : loadable t -> forall x path ig s,
    ref (from_dict E dss t x path ig s) (from_dict (with_order E o) dss t x path ig s).
  Proof.
    induction t as [| | | | |i IH|l IH|kt vt IHk IHv|i IH|l IH|c fs IH|n ms|l|n] using ty_ind'; intros Hl x path ig s;
    rewrite (from_dict_eq E _ _ x), (from_dict_eq (with_order E o) _ _ x);
    try (destruct (is_none x); [apply ref_refl|apply IH; auto; fail]);
    (unfold from_main;
     rewrite deser_all_order;
     apply ref_bind; [apply ref_refl|]; intros [[[v last] ret] s1] _; destruct ret; [apply ref_refl|];
     match goal with |- context [isinstance v ?t] => destruct (isinstance v t); [apply ref_refl|];
       change (coerce_scalar (with_order E o) t v) with (coerce_scalar E t v);
       destruct (coerce_scalar E t v); [apply ref_refl|] end); cbn [from_struct]; try rewrite type_args_order; try apply ref_refl.
    - destruct v; try apply ref_refl. apply ref_bind; [|intros; apply ref_refl]. apply ref_smapi. auto.
    - destruct (tuple_items v); try apply ref_refl. apply ref_bind; [|intros; apply ref_refl]. apply ref_tuple.
      simpl in Hl. apply all_Forall in Hl. rewrite Forall_forall in *. auto.
    - destruct v; try apply ref_refl. rewrite !(smap_as_smapi _ _ 0). apply ref_bind; [|intros; apply ref_refl].
      apply ref_smapi. intros j [k y] s2 _. apply ref_bind; [apply IHv; auto|intros; apply ref_refl].
    - cbv zeta. destruct v; try apply ref_refl. destruct (aget "!__name__" d); [|apply ref_refl].
      simpl in Hl. apply all_Forall in Hl. rewrite Forall_forall in *.
      assert (U : forall ts, incl ts l ->
         match union_scan (fun a => from_dict E dss a (VDict d) path ig s1) p ts, union_scan (fun a => from_dict (with_order E o) dss a (VDict d) path ig s1) p ts with
         | Some r, Some r' => ref r r' | None, None => True | _, _ => False end).
      { induction ts as [|a ts IHt]; intros Hi; simpl; auto. destruct (py_eq p (VStr (ty_name a))).
        - apply IH; auto; [|apply Hl]; apply Hi; left; auto.
        - apply IHt. intros b Hb; apply Hi; right; auto. }
      specialize (U l (incl_refl l)).
      destruct (union_scan _ p l), (union_scan _ p l); easy.
    - destruct Hl as (Hnd & _ & _ & Hl). apply all_Forall in Hl. rewrite Forall_forall in *.
      change (dataclass_input (with_order E o) v) with (dataclass_input E v).
      apply ref_bind; [apply ref_refl|]. intros items _. apply ref_bind.
      + apply ref_fields. intros k. rewrite !field_with_aget. destruct (aget k fs) as [[ft fd]|] eqn:Ek; simpl; auto.
        apply aget_some_in in Ek. intros y p s2. apply (IH _ Ek). apply (Hl _ Ek).
      + intros [[kw weak] s2] Hf. cbv zeta. intros r Hr.
        assert (Hw : forall n w, aget n weak = Some w -> is_weak w = true) by (eapply fields_weak; [|exact Hf]; easy).
        apply rbind_ok in Hr as [km [H1 Hr]]. set (F := filter (fun n => negb (amem n kw)) (map fst fs)) in *.
        assert (HF : NoDup F /\ incl F (map fst fs)).
        { split; [now apply NoDup_filter|]. intros n Hn. now apply filter_In in Hn. }
        destruct HF as [HF1 HF2].
        assert (Hsnd : snd km = []) by (destruct (snd km); [reflexivity|discriminate]).
        destruct (tcd_order fs path weak kw (e_order E F) (o F) km) as (km' & K1 & K2 & K3); auto.
        * eapply Permutation_NoDup; [apply Permutation_sym, Hord|auto].
        * intros n Hn. apply HF2. eapply Permutation_in; [apply Hord|exact Hn].
        * eapply Permutation_trans; [apply Hord|apply Permutation_sym, Ho].
        * change (e_order (with_order E o) F) with (o F). rewrite K1. cbn [rbind]. rewrite K2.
          rewrite Hsnd in Hr. rewrite (construct_ext fs (fst km) (fst km')); auto.
  Qed.
End Order.

Lemma load_set_order E o t x dir ovs allow ig L :
  order_ok E -> (forall l, Permutation (o l) l) -> loadable t ->
  typed_load E t x dir ovs allow ig = Ok L -> typed_load (with_order E o) t x dir ovs allow ig = Ok L.
Proof.
  intros H1 H2 Hl H. unfold typed_load in *. apply rbind_ok in H as [r [Hr H]].
  rewrite (from_dict_order E o _ H1 H2 t Hl _ _ _ _ r Hr). exact H.
Qed.
