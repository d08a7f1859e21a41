(** AccessFacts.v -- programs that use the properties of a StateManager. *)
From Verif Require Import Base AFacts Value Schema Rewrite Sched Types Asdict FromDict Manager Ckpt Lazy Session Access
  SpecTree SpecTypes SpecState RewriteFacts FromDictFacts SchedTree.

(** ** [schedules_io] and [apply_schedules] *)
Lemma entry_io_node E st k l c : entry_io E st k (SNode l) c =
  match py_getattr c k with
  | Err e => (c, Some e)
  | Ok sub => (match py_setattr c k (fst (schedules_io E st l sub)) with Ok c' => c' | Err _ => c end, snd (schedules_io E st l sub))
  end.
Proof.
  cbn [entry_io]. destruct (py_getattr c k) as [sub|e]; auto. cbv zeta.
  match goal with |- context [?f l sub] => assert (G : forall l c, f l c = schedules_io E st l c) end.
  { clear. induction l as [|[k t] l IH]; intros c; [reflexivity|]. cbn [schedules_io]. destruct (entry_io E st k t c) as [c' [e|]]; auto. apply IH. }
  now rewrite G.
Qed.

Definition agree (r : res pyval) (ce : pyval * option exc) : Prop :=
  match r with Ok c => ce = (c, None) | Err e => snd ce = Some e end.

Lemma entry_agree E st t : forall k c, agree (apply_entry E st k t c) (entry_io E st k t c).
Proof.
  induction t as [s|l IH] using stree_ind'; intros k c.
  - cbn [apply_entry entry_io]. destruct (schedule_update E s c st); reflexivity.
  - rewrite apply_entry_node, entry_io_node. destruct (py_getattr c k) as [sub|e] eqn:G; [|reflexivity]. cbn [rbind].
    assert (A : agree (apply_schedules E st l sub) (schedules_io E st l sub)).
    { clear G. revert sub. induction IH as [|[k1 t1] l H1 HF IHl]; intros sub; [reflexivity|]. cbn [apply_schedules schedules_io].
      specialize (H1 k1 sub). cbn [snd] in H1. destruct (apply_entry E st k1 t1 sub) as [c1|e1]; cbn [agree] in H1.
      - rewrite H1. cbn [rbind snd fst]. apply IHl.
      - cbn [rbind agree]. rewrite H1. exact H1. }
    destruct (apply_schedules E st l sub) as [sub'|e']; cbn [agree rbind] in *.
    + rewrite A. cbn [fst snd]. destruct c; try discriminate. reflexivity.
    + exact A.
Qed.

Lemma schedules_agree E st l : forall c, agree (apply_schedules E st l c) (schedules_io E st l c).
Proof.
  induction l as [|[k t] l IH]; intros c; [reflexivity|]. cbn [apply_schedules schedules_io].
  pose proof (entry_agree E st t k c) as H. destruct (apply_entry E st k t c) as [c1|e1]; cbn [agree] in H.
  - rewrite H. cbn [rbind snd fst]. apply IH.
  - cbn [rbind agree]. rewrite H. exact H.
Qed.

Lemma schedules_ok E st l c c' : apply_schedules E st l c = Ok c' -> schedules_io E st l c = (c', None).
Proof. intros H. pose proof (schedules_agree E st l c) as A. now rewrite H in A. Qed.
Lemma schedules_err E st l c e : apply_schedules E st l c = Err e -> snd (schedules_io E st l c) = Some e.
Proof. intros H. pose proof (schedules_agree E st l c) as A. now rewrite H in A. Qed.

(** ** applying the schedules again *)
Definition entry_attr (E : env) (st : pyval) (t : stree) (x : option pyval) : option pyval * option exc :=
  match t with
  | SLeaf s => match schedule_value E s st with Ok v => (Some v, None) | Err e => (x, Some e) end
  | SNode l =>
      match x with
      | None => (None, Some AttributeError)
      | Some sub => (Some (fst (schedules_io E st l sub)), snd (schedules_io E st l sub))
      end
  end.
Definition put (k : string) (x : option pyval) (d : list (string * pyval)) := match x with Some v => aset k v d | None => d end.

Lemma put_same k d : put k (aget k d) d = d.
Proof. unfold put. destruct (aget k d) eqn:G; auto. now apply aset_same. Qed.

Lemma entry_obj E st k t n d : named k t ->
  entry_io E st k t (VObj n d) = (VObj n (put k (fst (entry_attr E st t (aget k d))) d), snd (entry_attr E st t (aget k d))).
Proof.
  destruct t as [s|l]; intros Hn.
  - cbn in Hn. subst k. cbn [entry_io entry_attr]. unfold schedule_update. destruct (schedule_value E s st); cbn [rbind py_setattr fst snd]; auto.
    now rewrite put_same.
  - rewrite entry_io_node. cbn [py_getattr entry_attr]. destruct (aget k d) as [sub|]; reflexivity.
Qed.

Lemma attr_none E st t x : fst (entry_attr E st t x) = None -> x = None.
Proof. destruct t as [s|l]; cbn [entry_attr]; [destruct (schedule_value E s st); cbn; auto; discriminate|destruct x; auto; discriminate]. Qed.

Lemma get_put E st t k d : aget k (put k (fst (entry_attr E st t (aget k d))) d) = fst (entry_attr E st t (aget k d)).
Proof.
  destruct (fst (entry_attr E st t (aget k d))) as [v|] eqn:G; cbn [put]; [apply aget_aset_same|]. now apply attr_none in G.
Qed.

Lemma put_put k y d : (y = None -> aget k d = None) -> put k y (put k y d) = put k y d.
Proof. destruct y as [v|]; cbn [put]; auto. intros _. apply aset_same. apply aget_aset_same. Qed.

Lemma loop_obj E st l : NoDup (akeys l) -> all (fun kt : string * stree => let '(k', t') := kt in named k' t') l -> forall n d,
  exists d', fst (schedules_io E st l (VObj n d)) = VObj n d' /\ forall j, ~ In j (akeys l) -> aget j d' = aget j d.
Proof.
  induction l as [|[k t] l IH]; intros Hnd Hall n d; cbn [schedules_io].
  - exists d. auto.
  - inversion Hnd; subst. destruct Hall as [Hk Hall]. rewrite entry_obj by auto. cbn [fst snd].
    assert (O : forall j, j <> k -> aget j (put k (fst (entry_attr E st t (aget k d))) d) = aget j d).
    { intros j Hj. destruct (fst (entry_attr E st t (aget k d))); cbn [put]; auto. now apply aget_aset_other. }
    destruct (snd (entry_attr E st t (aget k d))).
    + cbn [fst]. eexists. split; [reflexivity|]. intros j Hj. apply O. intros ->. apply Hj. now left.
    + destruct (IH H2 Hall n (put k (fst (entry_attr E st t (aget k d))) d)) as (d' & -> & F). exists d'. split; auto.
      intros j Hj. rewrite F by (intros I; apply Hj; now right). apply O. intros ->. apply Hj. now left.
Qed.

Lemma entry_stuck E st k t c : (forall n d, c <> VObj n d) -> fst (entry_io E st k t c) = c /\ snd (entry_io E st k t c) <> None.
Proof.
  intros N. destruct t as [s|l].
  - cbn [entry_io]. unfold schedule_update. destruct (schedule_value E s st) as [v|e]; cbn [rbind]; [|split; [auto|discriminate]].
    destruct c; cbn [py_setattr]; try (split; [auto|discriminate]). now elim (N _ _ eq_refl).
  - rewrite entry_io_node. destruct c; cbn [py_getattr]; try (split; [auto|discriminate]). now elim (N _ _ eq_refl).
Qed.

Lemma loop_again E st l :
  Forall (fun kt => forall x, entry_attr E st (snd kt) (fst (entry_attr E st (snd kt) x)) = entry_attr E st (snd kt) x) l ->
  NoDup (akeys l) -> all (fun kt : string * stree => let '(k', t') := kt in named k' t') l ->
  forall c, schedules_io E st l (fst (schedules_io E st l c)) = schedules_io E st l c.
Proof.
  intros HF Hnd Hall. induction l as [|[k t] l IH]; intros c; [reflexivity|].
  inversion HF as [|? ? Hh Ht]; subst. inversion Hnd as [|? ? Hk Hnd']; subst. destruct Hall as [Hn Hall]. specialize (IH Ht Hnd' Hall). cbn [snd] in Hh.
  assert (D : (exists n d, c = VObj n d) \/ forall n d, c <> VObj n d).
  { destruct c; try (right; discriminate). left; eauto. }
  destruct D as [(n & d & ->)|N].
  - cbn [schedules_io]. rewrite entry_obj by auto. cbn [fst snd].
    destruct (entry_attr E st t (aget k d)) as [y e] eqn:A. pose proof (get_put E st t k d) as G. pose proof (Hh (aget k d)) as Q.
    rewrite A in G, Q. cbn [fst snd] in *. destruct e as [e|].
    + cbn [fst]. rewrite entry_obj by auto. rewrite G, Q. cbn [fst snd]. rewrite put_put; auto.
      intros ->. now rewrite <- G.
    + destruct (loop_obj E st l Hnd' Hall n (put k y d)) as (d' & F1 & F2). specialize (F2 k Hk). rewrite F1.
      rewrite entry_obj by auto. rewrite F2, G, Q. cbn [fst snd].
      assert (P : put k y d' = d') by (rewrite <- G, <- F2; apply put_same). rewrite P, <- F1. apply IH.
  - cbn [schedules_io]. destruct (entry_stuck E st k t c N) as [S1 S2]. destruct (entry_io E st k t c) as [c' [e|]] eqn:X; cbn [fst snd] in *; [|easy].
    subst c'. rewrite X. reflexivity.
Qed.

Lemma entry_again E st t : forall k, named k t -> forall x, entry_attr E st t (fst (entry_attr E st t x)) = entry_attr E st t x.
Proof.
  induction t as [s|l IH] using stree_ind'; intros k Hn x; cbn [entry_attr].
  - destruct (schedule_value E s st); reflexivity.
  - destruct x as [sub|]; [|reflexivity]. cbn [fst]. destruct Hn as [Hnd Hall].
    rewrite loop_again; auto. clear Hnd. induction IH as [|[k1 t1] l H1 HF IHl]; constructor.
    + destruct Hall as [A _]. cbn [snd] in *. now apply (H1 k1).
    + apply IHl. apply Hall.
Qed.

Lemma schedules_again E st l c : named "" (SNode l) ->
  schedules_io E st l (fst (schedules_io E st l c)) = schedules_io E st l c.
Proof.
  intros [Hnd Hall]. apply loop_again; auto. clear Hnd. induction l as [|[k t] l IH]; constructor.
  - destruct Hall as [A _]. now apply (entry_again E st t k).
  - apply IH. apply Hall.
Qed.

(** ** programs *)
Definition both (m : mgr) : Prop := g_config m <> None /\ g_state m <> None.
Definition sound (m : mgr) : Prop := g_state m <> None -> g_config m <> None.

Lemma get_config_some E S D last m c : g_config m = Some c -> get_config E S D last m = (Ok c, m).
Proof. unfold get_config. now intros ->. Qed.
Lemma get_state_some E S D last m o : g_state m = Some o -> get_state E S D last m = (Ok o, m).
Proof. unfold get_state. now intros ->. Qed.

Lemma get_config_sound E S D last m r m' : sound m -> get_config E S D last m = (r, m') ->
  sound m' /\ g_state m' = g_state m /\ match r with Ok c => g_config m' = Some c | Err _ => m' = m end.
Proof.
  unfold get_config. destruct (g_config m) eqn:G; intros Hs H.
  - injection H as <- <-. auto.
  - destruct (manager_config E S D last); injection H as <- <-; cbn; auto. split; auto. intros _. discriminate.
Qed.

Lemma get_state_sound E S D last m r m' : sound m -> get_state E S D last m = (r, m') ->
  sound m' /\ match r with Ok o => g_state m' = Some o /\ g_config m' <> None | Err _ => True end.
Proof.
  unfold get_state. destruct (g_state m) as [o|] eqn:G; intros Hs H.
  - injection H as <- <-. split; auto. split; auto. apply Hs. rewrite G. discriminate.
  - destruct (get_config E S D last m) as [[[cfg sched]|e] m1] eqn:C.
    + destruct (get_config_sound _ _ _ _ _ _ _ Hs C) as (H1 & _ & _). destruct (manager_state E S D last cfg).
      * injection H as <- <-. split; [intros _; discriminate|]. destruct (snd _); auto. cbn. split; [auto|discriminate].
      * injection H as <- <-. auto.
    + injection H as <- <-. split; auto. apply (get_config_sound _ _ _ _ _ _ _ Hs C).
Qed.

Lemma perform_sound E S D last op m : sound m -> sound (snd (perform E S D last op m)).
Proof.
  intros Hs. destruct op as [| |n v|]; unfold perform.
  - destruct (get_config E S D last m) as [[c|e] m'] eqn:C; apply (get_config_sound _ _ _ _ _ _ _ Hs C).
  - destruct (get_state E S D last m) as [[o|e] m'] eqn:C; apply (get_state_sound _ _ _ _ _ _ _ Hs C).
  - destruct (get_state E S D last m) as [[o|e] m'] eqn:C; destruct (get_state_sound _ _ _ _ _ _ _ Hs C) as [H1 H2]; [|exact H1].
    intros _. apply H2.
  - unfold do_step. destruct (get_state E S D last m) as [[o|e] m'] eqn:C; destruct (get_state_sound _ _ _ _ _ _ _ Hs C) as [H1 H2]; [|exact H1].
    destruct (get_config E S D last m') as [[[cfg sched]|e] m2] eqn:C2.
    + destruct (snd (schedules_io E (as_value o) sched cfg)); intros _; discriminate.
    + apply (get_config_sound _ _ _ _ _ _ _ H1 C2).
Qed.

Lemma perform_all_sound E S last l : forall m, sound m -> sound (snd (perform_all E S last l m)).
Proof. induction l as [|[D op] l IH]; intros m Hs; [exact Hs|]. cbn [perform_all snd]. apply IH. now apply perform_sound. Qed.

Lemma perform_both E S D last op m : both m -> both (snd (perform E S D last op m)) /\ forall D', perform E S D' last op m = perform E S D last op m.
Proof.
  intros [Hc Hs]. destruct (g_config m) as [[cfg sched]|] eqn:C; [|easy]. destruct (g_state m) as [o|] eqn:G; [|easy]. clear Hc Hs.
  assert (X : both m) by (unfold both; rewrite C, G; split; discriminate).
  destruct op as [| |n v|]; unfold perform, do_step.
  - rewrite (get_config_some E S D last m _ C). split; [exact X|]. intros D'. now rewrite (get_config_some E S D' last m _ C).
  - rewrite (get_state_some E S D last m _ G). split; [exact X|]. intros D'. now rewrite (get_state_some E S D' last m _ G).
  - rewrite (get_state_some E S D last m _ G). split; [|intros D'; now rewrite (get_state_some E S D' last m _ G)].
    split; cbn; [rewrite C|]; discriminate.
  - rewrite (get_state_some E S D last m _ G), (get_config_some E S D last m _ C).
    split; [|intros D'; now rewrite (get_state_some E S D' last m _ G), (get_config_some E S D' last m _ C)].
    destruct (snd (schedules_io E (as_value o) sched cfg)); (split; cbn; [discriminate|rewrite G; discriminate]).
Qed.

Lemma perform_all_both E S last l : forall l' m, both m -> map snd l = map snd l' -> perform_all E S last l m = perform_all E S last l' m.
Proof.
  induction l as [|[D op] l IH]; intros [|[D' op'] l'] m Hb He; try discriminate; [reflexivity|].
  cbn [map snd] in He. injection He as <- He. cbn [perform_all]. destruct (perform_both E S D last op m Hb) as [H1 H2].
  rewrite (H2 D'), (IH l' _ H1 He). reflexivity.
Qed.

Lemma perform_got E S D last op m : sound m -> op <> UseConfig -> (forall e, fst (perform E S D last op m) <> GRaised e) ->
  both (snd (perform E S D last op m)).
Proof.
  intros Hs Ho. destruct op as [| |n v|]; [easy| | |]; unfold perform; intros He.
  - destruct (get_state E S D last m) as [[o|e] m'] eqn:C; [|now elim (He e)]. destruct (get_state_sound _ _ _ _ _ _ _ Hs C) as (_ & H1 & H2).
    split; auto. cbn [snd]. now rewrite H1.
  - destruct (get_state E S D last m) as [[o|e] m'] eqn:C; [|now elim (He e)]. destruct (get_state_sound _ _ _ _ _ _ _ Hs C) as (_ & H1 & H2).
    split; auto. discriminate.
  - unfold do_step in *. destruct (get_state E S D last m) as [[o|e] m'] eqn:C; [|now elim (He e)].
    destruct (get_state_sound _ _ _ _ _ _ _ Hs C) as (H0 & H1 & H2). destruct (g_config m') as [[cfg sched]|] eqn:G; [|easy].
    rewrite (get_config_some E S D last m' _ G) in *. destruct (snd (schedules_io E (as_value o) sched cfg)) eqn:X; [now elim (He e)|].
    split; cbn; [discriminate|]. now rewrite H1.
Qed.

(** ** C64 *)
Lemma read_once E S last pre D op r r' : let m := snd (perform_all E S last pre new_mgr) in let gm := perform E S D last op m in
  op <> UseConfig -> (forall e, fst gm <> GRaised e) -> map snd r = map snd r' ->
  perform_all E S last r (snd gm) = perform_all E S last r' (snd gm).
Proof.
  intros m gm Ho He Hr. apply perform_all_both; auto. apply perform_got; auto. apply perform_all_sound. intros X. now elim X.
Qed.

Lemma config_once E S last D m cfg m' : perform E S D last UseConfig m = (GConfig cfg, m') ->
  forall D', perform E S D' last UseConfig m' = (GConfig cfg, m').
Proof.
  unfold perform, get_config. intros H D'. destruct (g_config m) as [c|] eqn:G.
  - injection H as <- <-. now rewrite G.
  - destruct (manager_config E S D last); [|discriminate]. injection H as <- <-. reflexivity.
Qed.

Lemma config_fails E S D last e ops : manager_config E S D last = Err e ->
  perform_all E S last (map (pair D) ops) new_mgr = (map (fun _ => GRaised e) ops, new_mgr).
Proof.
  intros H. assert (C : get_config E S D last new_mgr = (Err e, new_mgr)) by (unfold get_config; cbn; now rewrite H).
  assert (G : get_state E S D last new_mgr = (Err e, new_mgr)) by (unfold get_state; cbn [g_state new_mgr]; now rewrite C).
  induction ops as [|op ops IH]; [reflexivity|]. cbn [map perform_all].
  assert (P : perform E S D last op new_mgr = (GRaised e, new_mgr)) by (destruct op; unfold perform, do_step; now rewrite ?C, ?G).
  rewrite P. cbn [fst snd]. rewrite IH. reflexivity.
Qed.

Lemma state_fails E S D last c e ops : manager_config E S D last = Ok c -> manager_state E S D last (l_value c) = Err e ->
  fst (perform_all E S last (map (pair D) ops) new_mgr) =
  map (fun op => match op with UseConfig => GConfig (l_value c) | _ => GRaised e end) ops.
Proof.
  intros Hc Hs.
  assert (K : forall m, m = new_mgr \/ m = mkMgr (Some (l_value c, l_sched c)) None ->
    fst (perform_all E S last (map (pair D) ops) m) = map (fun op => match op with UseConfig => GConfig (l_value c) | _ => GRaised e end) ops);
    [|now apply K; left].
  induction ops as [|op ops IH]; intros m Hm; [reflexivity|]. cbn [map perform_all fst].
  assert (C : get_config E S D last m = (Ok (l_value c, l_sched c), mkMgr (Some (l_value c, l_sched c)) None)).
  { destruct Hm as [-> | ->]; unfold get_config; cbn; auto. now rewrite Hc. }
  assert (G : get_state E S D last m = (Err e, mkMgr (Some (l_value c, l_sched c)) None)).
  { unfold get_state. replace (g_state m) with (@None inst) by now destruct Hm as [-> | ->]. now rewrite C, Hs. }
  assert (P : perform E S D last op m = (match op with UseConfig => GConfig (l_value c) | _ => GRaised e end, mkMgr (Some (l_value c, l_sched c)) None)).
  { destruct op; unfold perform, do_step; now rewrite ?C, ?G. }
  rewrite P. cbn [fst snd]. now rewrite IH by now right.
Qed.

(** the first access to the state of a new manager, possibly after uses of the config *)
Lemma first_state E S D last c s k : manager_config E S D last = Ok c -> manager_state E S D last (l_value c) = Ok s ->
  let m := snd (perform_all E S last (repeat (D, UseConfig) k) new_mgr) in
  let ce := schedules_io E (as_value (inst_of s)) (l_sched c) (l_value c) in
  get_state E S D last m = (match snd ce with None => Ok (inst_of s) | Some e => Err e end, mkMgr (Some (fst ce, l_sched c)) (Some (inst_of s))) /\
  fst (perform_all E S last (repeat (D, UseConfig) k) new_mgr) = repeat (GConfig (l_value c)) k.
Proof.
  intros Hc Hs m ce.
  assert (K : forall k m, m = new_mgr \/ m = mkMgr (Some (l_value c, l_sched c)) None ->
    (let m' := snd (perform_all E S last (repeat (D, UseConfig) k) m) in m' = new_mgr \/ m' = mkMgr (Some (l_value c, l_sched c)) None) /\
    fst (perform_all E S last (repeat (D, UseConfig) k) m) = repeat (GConfig (l_value c)) k).
  { clear k m. induction k as [|k IH]; intros m Hm; [split; auto|]. cbn [repeat perform_all].
    assert (P : perform E S D last UseConfig m = (GConfig (l_value c), mkMgr (Some (l_value c, l_sched c)) None)).
    { unfold perform, get_config. destruct Hm as [-> | ->]; cbn; auto. now rewrite Hc. }
    rewrite P. cbn [fst snd]. destruct (IH _ (or_intror eq_refl)) as [I1 I2]. split; [exact I1|]. now rewrite I2. }
  destruct (K k new_mgr (or_introl eq_refl)) as [K1 K2]. split; [|exact K2]. fold m in K1. cbv zeta in K1.
  unfold get_state. replace (g_state m) with (@None inst) by now destruct K1 as [-> | ->].
  assert (C : get_config E S D last m = (Ok (l_value c, l_sched c), mkMgr (Some (l_value c, l_sched c)) None)).
  { destruct K1 as [-> | ->]; unfold get_config; cbn; auto. now rewrite Hc. }
  rewrite C, Hs. reflexivity.
Qed.

(** what a program gets that neither fails to load nor assigns to the state *)
Definition steady (cfg : pyval) (o : inst) (r : option exc) (op : mop) : got :=
  match op with
  | UseConfig => GConfig cfg
  | UseState => GState o
  | _ => match r with None => GDone | Some e => GRaised e end
  end.

Lemma steady_all E S last cfg l o r ops : schedules_io E (as_value o) l cfg = (cfg, r) ->
  (forall D n v, ~ In (D, Assign n v) ops) ->
  fst (perform_all E S last ops (mkMgr (Some (cfg, l)) (Some o))) = map (fun x => steady cfg o r (snd x)) ops.
Proof.
  intros H. induction ops as [|[D op] ops IH]; intros Ho; [reflexivity|]. cbn [perform_all fst map snd].
  assert (P : perform E S D last op (mkMgr (Some (cfg, l)) (Some o)) = (steady cfg o r op, mkMgr (Some (cfg, l)) (Some o))).
  { destruct op as [| |n v|]; try reflexivity; [elim (Ho D n v); now left|].
    unfold perform, do_step. cbn [get_state get_config g_state g_config]. unfold get_state, get_config. cbn [g_state g_config].
    rewrite H. cbn [fst snd]. now destruct r. }
  rewrite P. cbn [fst snd]. f_equal. apply IH. intros D' n v I. apply (Ho D' n v). now right.
Qed.

Lemma perform_all_app E S last a : forall b m, perform_all E S last (a ++ b)%list m =
  (let r := perform_all E S last a m in let r' := perform_all E S last b (snd r) in ((fst r ++ fst r')%list, snd r')).
Proof.
  induction a as [|[D op] a IH]; intros b m; [cbn [app perform_all fst snd]; destruct (perform_all E S last b m); reflexivity|].
  cbn [app perform_all]. cbv zeta in *. rewrite IH. reflexivity.
Qed.

Lemma run_state E S D last c s k ops : manager_config E S D last = Ok c -> manager_state E S D last (l_value c) = Ok s ->
  named "" (SNode (l_sched c)) -> (forall D' n v, ~ In (D', Assign n v) ops) ->
  let ce := schedules_io E (as_value (inst_of s)) (l_sched c) (l_value c) in
  fst (perform_all E S last (repeat (D, UseConfig) k ++ (D, UseState) :: ops) new_mgr) =
  (repeat (GConfig (l_value c)) k ++ match snd ce with None => GState (inst_of s) | Some e => GRaised e end ::
   map (fun x => steady (fst ce) (inst_of s) (snd ce) (snd x)) ops)%list.
Proof.
  intros Hc Hs Hn Ho ce. rewrite perform_all_app. cbv zeta. cbn [fst].
  destruct (first_state E S D last c s k Hc Hs) as [F1 F2]. cbv zeta in F1. fold ce in F1. rewrite F2. f_equal.
  cbn [perform_all fst]. unfold perform at 1 2. rewrite F1.
  assert (Y : fst (perform_all E S last ops (mkMgr (Some (fst ce, l_sched c)) (Some (inst_of s)))) =
              map (fun x => steady (fst ce) (inst_of s) (snd ce) (snd x)) ops).
  { apply steady_all; auto. unfold ce at 1. rewrite schedules_again by auto. fold ce. now destruct ce. }
  destruct (snd ce) as [e|]; cbn [fst snd]; now rewrite Y.
Qed.

(** C64 *)
Lemma started E S D m k ops : manager_start E S D = Ok m -> named "" (SNode (m_sched m)) ->
  (forall D' n v, ~ In (D', Assign n v) ops) ->
  exists c, fst (perform_all E S (resume_point D) (repeat (D, UseConfig) k ++ (D, UseState) :: ops) new_mgr) =
    (repeat (GConfig c) k ++ GState (m_state m) ::
     map (fun x => match snd x with UseConfig => GConfig (m_config m) | UseState => GState (m_state m) | _ => GDone end) ops)%list.
Proof.
  intros H Hn Ho. unfold manager_start in H. apply rbind_ok in H as [c [Hc H]]. apply rbind_ok in H as [s [Hs H]].
  cbv zeta in H. apply rbind_ok in H as [cfg [Ha H]]. injection H as <-. cbn [m_sched m_state m_config] in *. exists (l_value c).
  rewrite (run_state E S D (resume_point D) c s k ops Hc Hs Hn Ho). apply schedules_ok in Ha. cbv zeta. rewrite Ha. reflexivity.
Qed.

Lemma schedule_error E S D c s e k ops : manager_config E S D (resume_point D) = Ok c ->
  manager_state E S D (resume_point D) (l_value c) = Ok s ->
  apply_schedules E (as_value (inst_of s)) (l_sched c) (l_value c) = Err e -> named "" (SNode (l_sched c)) ->
  (forall D' n v, ~ In (D', Assign n v) ops) ->
  exists cfg, fst (perform_all E S (resume_point D) (repeat (D, UseConfig) k ++ (D, UseState) :: ops) new_mgr) =
    (repeat (GConfig (l_value c)) k ++ GRaised e ::
     map (fun x => match snd x with UseConfig => GConfig cfg | UseState => GState (inst_of s) | _ => GRaised e end) ops)%list.
Proof.
  intros Hc Hs Ha Hn Ho. apply schedules_err in Ha. eexists.
  rewrite (run_state E S D (resume_point D) c s k ops Hc Hs Hn Ho). cbv zeta. rewrite Ha. reflexivity.
Qed.
