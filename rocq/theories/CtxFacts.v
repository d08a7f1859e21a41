(** CtxFacts.v -- the deserialization context (C62). *)
From Verif Require Import Base Value Schema Rewrite Sched Types Asdict FromDict AFacts Lazy Ctx SpecCtx.

Lemma opened_nil : ~ opened [].
Proof. intros (x & [] & _). Qed.

Lemma opened_snoc l x : opened (l ++ [x]) <-> opened l \/ loads x.
Proof.
  split.
  - intros (o & I & H). apply in_app_iff in I. destruct I as [I|[<-|[]]]; [left; now exists o|now right].
  - intros [(o & I & H)|H].
    + exists o. split; [apply in_app_iff; now left|exact H].
    + exists x. split; [apply in_app_iff; right; now left|exact H].
Qed.

Lemma registers_fun pre op k v w : registers pre op k v -> registers pre op k w -> v = w.
Proof. unfold registers. intros [[-> _] | [-> _]] [[H _]|[H _]]; congruence. Qed.

Lemma snoc_split {A} (l pre post : list A) x y : (l ++ [x] = pre ++ y :: post)%list ->
  (post = [] /\ pre = l /\ y = x) \/ exists p, post = (p ++ [x])%list /\ l = (pre ++ y :: p)%list.
Proof.
  revert l. induction pre as [|a pre IH]; intros l H.
  - destruct l as [|b l]; cbn in H.
    + injection H as -> <-. now left.
    + injection H as -> <-. right. now exists l.
  - destruct l as [|b l]; cbn in H.
    + injection H as -> H. destruct pre; discriminate.
    + injection H as -> H. destruct (IH l H) as [(-> & -> & ->)|(p & -> & ->)]; [now left|right; now exists p].
Qed.

Lemma registered_snoc l op k v : registered (l ++ [op]) k v <->
  registers l op k v \/ (registered l k v /\ forall w, ~ registers l op k w).
Proof.
  split.
  - intros (pre & o & post & E & R & N). destruct (snoc_split _ _ _ _ _ E) as [(-> & -> & ->)|(p & -> & ->)]; [now left|].
    right. split.
    + exists pre, o, p. split; [reflexivity|]. split; [exact R|]. intros mid o' rest w ->. apply (N mid o' (rest ++ [op])%list w).
      now rewrite <- app_assoc.
    + intros w. apply (N p op [] w). reflexivity.
  - intros [R|[(pre & o & post & -> & R & N) H]].
    + exists l, op, []. split; [reflexivity|]. split; [exact R|]. intros [|? ?] ? ? ? ?; discriminate.
    + exists pre, o, (post ++ [op])%list. split; [now rewrite <- app_assoc|]. split; [exact R|].
      intros mid o' rest w E. destruct (snoc_split _ _ _ _ _ E) as [(-> & -> & ->)|(p & -> & ->)]; [apply H|]. eapply N. reflexivity.
Qed.

Lemma registered_nil k v : ~ registered [] k v.
Proof. intros ([|] & o & post & E & _); discriminate. Qed.

Section Invariant.
Context (is_lazy : bool) (deser : string -> pyval -> inst -> ctx -> res pyval) (pickle_allowed : bool).

(* the context of the manager before the state is loaded, that of the state afterwards *)
Definition holds_ctx (c : ctx) (l : list (moment * cop)) : Prop := forall k v, aget k c = Some v <-> registered l k v.
Definition inv (l : list (moment * cop)) (m : holder) : Prop :=
  match h_state m with
  | None => ~ opened l /\ holds_ctx (h_ctx m) l
  | Some (_, c) => opened l /\ (is_lazy = true -> exists c', c = Some c' /\ holds_ctx c' l)
  end.
Definition call_ok (l : list (moment * cop)) (c : call) : Prop :=
  match c with
  | Initial c => ~ opened l /\ holds_ctx c l
  | Deserialize _ c => holds_ctx c l
  end.

Lemma holds_set c l op k v : holds_ctx c l -> registers l op k v ->
  (forall k' w, registers l op k' w -> k' = k) -> holds_ctx (aset k v c) (l ++ [op]).
Proof.
  intros H R F k' w. rewrite registered_snoc. destruct (String.eqb_spec k' k) as [->|Hn].
  - rewrite aget_aset_same. split.
    + intros [= <-]. now left.
    + intros [R'|[_ N]]; [f_equal; eapply registers_fun; eauto|now apply N in R].
  - rewrite aget_aset_other by auto. rewrite (H k' w). split.
    + intros R'. right. split; [exact R'|]. intros w' X. now apply F in X.
    + intros [X|[X _]]; [now apply F in X|exact X].
Qed.

Lemma holds_skip c l op : holds_ctx c l -> (forall k w, ~ registers l op k w) -> holds_ctx c (l ++ [op]).
Proof.
  intros H N k w. rewrite registered_snoc, (H k w). split; [intros R; right; auto|]. intros [R|[R _]]; [now apply N in R|exact R].
Qed.

(* the access of an operation other than MSet *)
Definition accesses (op : cop) : Prop := match op with MSet _ _ => False | _ => True end.
Lemma access_inv l m w op r m' calls : inv l m -> accesses op -> access is_lazy w m = (r, m', calls) ->
  Forall (call_ok l) calls /\
  match r with
  | Ok s => at_state l (w, op) /\ h_state m' = Some s /\ (is_lazy = true -> exists c, snd s = Some c /\ holds_ctx c l)
  | Err _ => ~ at_state l (w, op) /\
      match h_state m' with
      | None => ~ opened l /\ ~ loads (w, op) /\ holds_ctx (h_ctx m') l
      | Some s => loads (w, op) /\ (is_lazy = true -> exists c, snd s = Some c /\ holds_ctx c l)
      end
  end.
Proof.
  unfold inv, access. intros H A. destruct m as [c [[o oc]|]]; cbn [h_state h_ctx] in *.
  - intros [= <- <- <-]. destruct H as [O H]. split; [constructor|]. split; [now left|]. split; [reflexivity|exact H].
  - destruct H as [O H].
    assert (Ld : loads (w, op) <-> match m_load w with Saved (Ok _) | Fresh (Ok _) => True | _ => False end).
    { unfold loads. cbn [fst snd]. destruct op; [destruct A|reflexivity..]. }
    assert (At : at_state l (w, op) <-> loads (w, op) /\ m_sched w = None). { unfold at_state. cbn [fst]. tauto. }
    assert (C : forall r0 : res (inst * option ctx), Forall (call_ok l) match m_load w with Fresh _ => [Initial c] | _ => [] end).
    { intros _. destruct (m_load w); [constructor..|]. constructor; [now split|constructor]. }
    destruct (m_load w) as [[o|e]|e|[[o oc]|e]]; cbn [rbind fst snd]; specialize (C (Err TypeError));
      try (intros [= <- <- <-]; split; [exact C|]; cbn [h_state h_ctx]; rewrite At, Ld; tauto);
      (destruct (m_sched w) as [e|] eqn:Es; intros [= <- <- <-]; (split; [exact C|]); cbn [h_state h_ctx]; rewrite At, Ld;
       [split; [intros [_ X]; discriminate|split; [exact I|]; intros ->; cbn [snd]; eauto]
       |split; [now split|split; [reflexivity|]; intros ->; cbn [snd]; eauto]]).
Qed.

Lemma at_opened l x : at_state l x -> opened (l ++ [x]).
Proof. intros [O|[L _]]; apply opened_snoc; auto. Qed.
(* an access that raises *)
Lemma failed_inv l m w op e m' calls : inv l m -> accesses op -> access is_lazy w m = (Err e, m', calls) -> inv (l ++ [(w, op)]) m'.
Proof.
  intros H A E. destruct (access_inv _ _ _ op _ _ _ H A E) as [_ [N H']].
  assert (R : forall k v, ~ registers l (w, op) k v). { intros k v [[_ X]|[X _]]; [now apply N in X|]. cbn in X. subst op. destruct A. }
  unfold inv. destruct (h_state m') as [[o c]|].
  - destruct H' as [L H']. split; [apply opened_snoc; now right|]. intros Z. destruct (H' Z) as (c' & Ec & Hc). exists c'. split; [exact Ec|]. now apply holds_skip.
  - destruct H' as (O & L & H'). split; [rewrite opened_snoc; tauto|]. now apply holds_skip.
Qed.

Lemma cstep_inv l m w op r m' calls : inv l m -> cstep is_lazy deser pickle_allowed w op m = (r, m', calls) ->
  inv (l ++ [(w, op)]) m' /\ Forall (call_ok l) calls.
Proof.
  intros H. destruct op as [k v|k v|n]; cbn [cstep].
  - intros [= _ <- <-]. split; [|constructor]. unfold inv in *. destruct m as [c [[o oc]|]]; cbn [h_state h_ctx] in *.
    + destruct H as [O H]. split; [apply opened_snoc; now left|]. intros L. destruct (H L) as (c' & -> & H'). exists c'. split; [reflexivity|].
      apply holds_skip; [exact H'|]. intros k' v' [[X _]|[_ X]]; [discriminate|now apply X].
    + destruct H as [O H]. split; [rewrite opened_snoc; cbn [loads snd]; tauto|]. apply holds_set; [exact H|right; now split|].
      intros k' v' [[X _]|[X _]]; [discriminate|]. cbn in X. congruence.
  - destruct (access is_lazy w m) as [[[[o c]|e] m1] cs] eqn:A.
    2: { intros [= _ <- <-]. split; [exact (failed_inv _ _ _ (SSet k v) _ _ _ H I A)|apply (access_inv _ _ _ (SSet k v) _ _ _ H I A)]. }
    destruct (access_inv _ _ _ (SSet k v) _ _ _ H I A) as (C & At & S1 & L).
    destruct is_lazy eqn:EL.
    + intros [= _ <- <-]. split; [|exact C]. unfold inv. cbn [h_state]. split; [now apply at_opened|]. intros _.
      destruct (L eq_refl) as (c' & E & H'). cbn [snd] in E. subst c. eexists. split; [reflexivity|].
      apply holds_set; [exact H'|left; now split|]. intros k' v' [[X _]|[X _]]; cbn in X; [congruence|discriminate].
    + intros [= _ <- <-]. split; [|exact C]. unfold inv. rewrite S1. split; [now apply at_opened|]. congruence.
  - destruct (access is_lazy w m) as [[[[o c]|e] m1] cs] eqn:A.
    2: { intros [= _ <- <-]. split; [exact (failed_inv _ _ _ (Read n) _ _ _ H I A)|apply (access_inv _ _ _ (Read n) _ _ _ H I A)]. }
    destruct (access_inv _ _ _ (Read n) _ _ _ H I A) as (C & At & S1 & L).
    destruct is_lazy eqn:EL.
    + destruct (L eq_refl) as (c' & E & H'). cbn [snd] in E. subst c.
      destruct (lazy_get _ _ _ _ _) as [[r1 o'] ev]. intros [= _ <- <-]. split.
      * unfold inv. cbn [h_state]. split; [now apply at_opened|]. intros _. exists c'. split; [reflexivity|].
        apply holds_skip; [exact H'|]. intros k' v' [[X _]|[X _]]; discriminate.
      * apply Forall_app. split; [exact C|]. destruct ev as [|? [|? ?]]; [constructor..|]. constructor; [exact H'|constructor].
    + intros [= _ <- <-]. split; [|exact C]. unfold inv. rewrite S1. split; [now apply at_opened|]. congruence.
Qed.

Lemma crun_inv ops : forall l m, inv l m -> forall i r calls,
  nth_error (crun is_lazy deser pickle_allowed ops m) i = Some (r, calls) ->
  Forall (call_ok (l ++ firstn i ops)) calls.
Proof.
  induction ops as [|[w op] ops IH]; intros l m H i r calls E; [destruct i; discriminate|]. cbn [crun] in E.
  destruct (cstep _ _ _ _ _ _) as [[v m'] cs] eqn:S1. destruct (cstep_inv _ _ _ _ _ _ _ H S1) as [H' C].
  destruct i as [|i]; cbn [nth_error] in E.
  - injection E as _ <-. cbn [firstn]. now rewrite app_nil_r.
  - cbn [firstn]. specialize (IH _ _ H' _ _ _ E). now rewrite <- app_assoc in IH.
Qed.

Lemma new_inv : inv [] new_holder.
Proof. split; [exact opened_nil|]. intros k v. cbn [new_holder h_ctx aget]. split; [discriminate|]. now intros H%registered_nil. Qed.

Lemma calls_ctx ops i r calls : nth_error (crun is_lazy deser pickle_allowed ops new_holder) i = Some (r, calls) ->
  forall c, (In (Initial c) calls \/ exists f, In (Deserialize f c) calls) ->
  forall k v, aget k c = Some v <-> registered (firstn i ops) k v.
Proof.
  intros E c Hc. assert (F := crun_inv ops [] new_holder new_inv i r calls E). cbn [app] in F. rewrite Forall_forall in F.
  destruct Hc as [I|[f I]]; apply F in I; [exact (proj2 I)|exact I].
Qed.

(* initial_state is not called any more once a state was loaded *)
Lemma initial_first ops i r calls c : nth_error (crun is_lazy deser pickle_allowed ops new_holder) i = Some (r, calls) ->
  In (Initial c) calls -> ~ opened (firstn i ops).
Proof.
  intros E Hc. assert (F := crun_inv ops [] new_holder new_inv i r calls E). cbn [app] in F. rewrite Forall_forall in F.
  apply F in Hc. exact (proj1 Hc).
Qed.
End Invariant.

(** when the manager is told everything before the state is loaded, and the state only when it
    is there *)
Lemma registered_given l : (forall pre w k v post, l = (pre ++ (w, MSet k v) :: post)%list -> ~ opened pre) ->
  (forall pre w k v post, l = (pre ++ (w, SSet k v) :: post)%list -> at_state pre (w, SSet k v)) ->
  forall k v, registered l k v <-> given l k v.
Proof.
  intros H H' k v. split.
  - intros (pre & x & post & -> & R & N). exists pre, x, post. split; [reflexivity|]. split; [destruct R as [[-> _]|[-> _]]; auto|].
    intros u. split; intros I; apply in_map_iff in I; destruct I as ([w op] & E & I); cbn in E; subst op; apply in_split in I; destruct I as (mid & rest & ->);
      eapply (N mid _ rest u eq_refl).
    + right. split; [reflexivity|]. apply (H _ w k u rest). now rewrite <- app_assoc.
    + left. split; [reflexivity|]. apply (H' _ w k u rest). now rewrite <- app_assoc.
  - intros (pre & [w op] & post & -> & R & N). exists pre, (w, op), post. split; [reflexivity|]. cbn [snd] in R. split.
    + destruct R as [-> | ->]; [right|left]; (split; [reflexivity|]); [now apply (H pre w k v post)|now apply (H' pre w k v post)].
    + intros mid [w' op'] rest u -> X. destruct (N u) as [N1 N2]. rewrite map_app in N1, N2. unfold registers in X. cbn [snd] in X.
      destruct X as [[-> _] | [-> _]]; [apply N2|apply N1]; apply in_app_iff; right; now left.
Qed.

(** the first read of an attribute that was saved *)
Section First.
Context (o : inst) (deser : string -> pyval -> inst -> ctx -> res pyval) (pickle_allowed : bool) (n : string).

Definition waiting (m : holder) : Prop :=
  match h_state m with None => True | Some (o', _) => aget n (i_unloaded o') = aget n (i_unloaded o) end.
(* loading the checkpoint gives [o] or raises *)
Definition from_saved (w : moment) : Prop := m_load w = Saved (Ok o) \/ exists e, m_load w = Saved (Err e).

Lemma access_waiting m w r m' calls : waiting m -> from_saved w -> access true w m = (r, m', calls) ->
  waiting m' /\ calls = [] /\ match r with Ok s => h_state m' = Some s | Err _ => True end.
Proof.
  unfold waiting, access. intros W F. destruct (h_state m) as [[o' c]|] eqn:Em.
  - intros [= <- <- <-]. rewrite Em. auto.
  - destruct F as [-> |[e ->]]; cbn [rbind fst].
    + destruct (m_sched w); intros [= <- <- <-]; cbn [h_state]; auto.
    + intros [= <- <- <-]. rewrite Em. auto.
Qed.

Lemma cstep_waiting m w op r m' calls : waiting m -> from_saved w -> op <> Read n ->
  cstep true deser pickle_allowed w op m = (r, m', calls) -> waiting m'.
Proof.
  intros W F N. destruct op as [k v|k v|f]; cbn [cstep].
  - intros [= _ <- _]. exact W.
  - destruct (access _ _ m) as [[[[o1 c]|e] m1] cs] eqn:A; destruct (access_waiting _ _ _ _ _ W F A) as (E & _ & S1); intros [= _ <- _]; [|exact E].
    unfold waiting in *. rewrite S1 in E. exact E.
  - destruct (access _ _ m) as [[[[o1 c]|e] m1] cs] eqn:A; destruct (access_waiting _ _ _ _ _ W F A) as (E & _ & S1); [|intros [= _ <- _]; exact E].
    unfold waiting in E. rewrite S1 in E.
    assert (Hn : n <> f) by congruence. unfold lazy_get.
    destruct (aget f (i_unloaded o1)) as [lr|]; [|destruct (aget f (i_attrs o1)); intros [= _ <- _]; exact E].
    destruct (m_disk w (lz_file lr)) as [data|]; [|intros [= _ <- _]; exact E].
    destruct (lz_pickle lr && negb pickle_allowed); [intros [= _ <- _]; exact E|].
    destruct (deser _ _ _ _); intros [= _ <- _]; [|exact E]. unfold waiting. cbn [h_state i_unloaded]. rewrite <- E. now apply aget_adel_other.
Qed.

Lemma crun_first w lr data : aget n (i_unloaded o) = Some lr -> m_disk w (lz_file lr) = Some data ->
  (lz_pickle lr = true -> pickle_allowed = true) -> m_load w = Saved (Ok o) -> m_sched w = None ->
  forall pre post m, waiting m -> Forall (fun x => from_saved (fst x)) pre -> ~ In (Read n) (map snd pre) ->
  exists c o', nth_error (crun true deser pickle_allowed (pre ++ (w, Read n) :: post) m) (length pre) =
    Some (deser (lz_cls lr) data o' c, [Deserialize n c]).
Proof.
  intros U D P Ld Sc. induction pre as [|[w' op] pre IH]; intros post m W Fp N.
  - cbn [app length crun nth_error cstep].
    assert (A : exists o1 c m1, access true w m = (Ok (o1, c), m1, []) /\ aget n (i_unloaded o1) = aget n (i_unloaded o)).
    { unfold access. unfold waiting in W. destruct (h_state m) as [[o1 c]|]; [eauto|]. rewrite Ld. cbn [rbind fst]. rewrite Sc. eauto. }
    destruct A as (o1 & c & m1 & -> & E). unfold lazy_get. rewrite E, U, D.
    assert (X : lz_pickle lr && negb pickle_allowed = false) by (destruct (lz_pickle lr); [now rewrite P|reflexivity]). rewrite X.
    exists (match c with Some c => c | None => [] end), o1. destruct (deser _ _ _ _); reflexivity.
  - cbn [app length crun]. destruct (cstep _ _ _ _ _ _) as [[r m'] cs] eqn:S1. cbn [nth_error]. cbn [map snd] in N. inversion Fp; subst. apply IH; auto.
    + eapply cstep_waiting; [exact W|eassumption| |exact S1]. intros ->. apply N. now left.
    + intros I. apply N. now right.
Qed.
End First.

Lemma first_read o deser pickle_allowed n w lr data pre post :
  aget n (i_unloaded o) = Some lr -> m_disk w (lz_file lr) = Some data -> (lz_pickle lr = true -> pickle_allowed = true) ->
  m_load w = Saved (Ok o) -> m_sched w = None ->
  (forall x, In x pre -> m_load (fst x) = Saved (Ok o) \/ exists e, m_load (fst x) = Saved (Err e)) -> ~ In (Read n) (map snd pre) ->
  exists c o', nth_error (crun true deser pickle_allowed (pre ++ (w, Read n) :: post) new_holder) (length pre) =
    Some (deser (lz_cls lr) data o' c, [Deserialize n c]) /\
    forall k v, aget k c = Some v <-> registered pre k v.
Proof.
  intros U D P Ld Sc Fp N. apply Forall_forall in Fp.
  destruct (crun_first o deser pickle_allowed n w lr data U D P Ld Sc pre post new_holder I Fp N) as (c & o' & E).
  exists c, o'. split; [exact E|]. intros k v. rewrite (calls_ctx _ _ _ _ _ _ _ E c); [|right; exists n; now left].
  rewrite firstn_app, Nat.sub_diag, app_nil_r, firstn_all2; [reflexivity|lia].
Qed.
