(** RenameFacts.v -- the loop of [_find_renames] produces a matching. *)
From Coq Require Import Permutation.
From Verif Require Import Base Value Schema AFacts Checker SpecRenames.

(** ** [SFltb] is a strict partial order *)
Lemma SFltb_irrefl x : SFltb x x = false.
Proof.
  unfold SFltb, SFcompare. destruct x as [s|s| |s m e]; try reflexivity; [destruct s; reflexivity|].
  rewrite Z.compare_refl. fold (Pos.compare m m). rewrite Pos.compare_refl. destruct s; reflexivity.
Qed.

Lemma pcomp m n : Pos.compare_cont Eq m n = Pos.compare m n.
Proof. reflexivity. Qed.

(** position of a float on an integer line that [SFltb] follows *)
Lemma fin_lt s m e m' e' : SFltb (S754_finite s m e) (S754_finite s m' e') = true <->
  if s then (e' < e)%Z \/ (e = e' /\ (m' < m)%positive) else (e < e')%Z \/ (e = e' /\ (m < m')%positive).
Proof.
  unfold SFltb, SFcompare. rewrite pcomp. destruct s.
  - destruct (Z.compare_spec e e') as [E|E|E]; simpl.
    + destruct (Pos.compare_spec m m') as [M|M|M]; simpl; split; intros H; try discriminate; auto; try lia.
    + split; [discriminate|lia].
    + split; auto.
  - destruct (Z.compare_spec e e') as [E|E|E]; simpl.
    + destruct (Pos.compare_spec m m') as [M|M|M]; simpl; split; intros H; try discriminate; auto; try lia.
    + split; auto.
    + split; [discriminate|lia].
Qed.

Lemma SFltb_trans x y z : SFltb x y = true -> SFltb y z = true -> SFltb x z = true.
Proof.
  destruct x as [sx|sx| |sx mx ex]; destruct y as [sy|sy| |sy my ey]; try discriminate;
  destruct z as [sz|sz| |sz mz ez]; try discriminate;
  try destruct sx; try destruct sy; try destruct sz; try discriminate; auto; rewrite !fin_lt; lia.
Qed.

(** ** Objects *)
Definition del (x : obj) (l : list obj) : list obj := filter (fun y => negb (Nat.eqb (fst y) (fst x))) l.

Lemma in_del x y l : In y (del x l) <-> In y l /\ fst y <> fst x.
Proof. unfold del. rewrite filter_In, negb_true_iff, Nat.eqb_neq. reflexivity. Qed.

Lemma del_notin x l : ~ In (fst x) (map fst l) -> del x l = l.
Proof.
  induction l as [|y l IH]; intros N; [reflexivity|]. simpl. simpl in N.
  destruct (Nat.eqb_spec (fst y) (fst x)); [tauto|]. simpl. f_equal. apply IH. tauto.
Qed.

Lemma map_fst_filter_nodup (f : obj -> bool) l : NoDup (map fst l) -> NoDup (map fst (filter f l)).
Proof.
  induction l as [|y l IH]; intros N; [constructor|]. inversion N; subst. simpl. destruct (f y); [|auto].
  simpl. constructor; [|auto]. intros H. apply H1. apply in_map_iff in H. destruct H as [z [E H]].
  apply filter_In in H. rewrite <- E. now apply in_map.
Qed.

Lemma nodup_same l (x y : obj) : NoDup (map fst l) -> In x l -> In y l -> fst x = fst y -> x = y.
Proof.
  induction l as [|z l IH]; intros N X Y E; [destruct X|]. inversion N; subst. destruct X as [->|X], Y as [->|Y]; auto.
  - exfalso. apply H1. rewrite E. now apply in_map.
  - exfalso. apply H1. rewrite <- E. now apply in_map.
Qed.

(** [x] is compared equal only to itself in [l] *)
Definition unique (x : obj) (l : list obj) : Prop :=
  forall y, In y l -> change_eqb (snd y) (snd x) = true -> fst y = fst x.

Lemma remove_ok x l : NoDup (map fst l) -> In x l -> unique x l -> remove_obj x l = Ok (del x l).
Proof.
  induction l as [|y l IH]; intros N I U; [destruct I|]. inversion N; subst. simpl. unfold obj_eqb.
  destruct (Nat.eqb_spec (fst y) (fst x)) as [E|E]; simpl.
  - f_equal. symmetry. apply del_notin. now rewrite <- E.
  - destruct (change_eqb (snd y) (snd x)) eqn:C; [exfalso; apply E; apply U; [now left|auto]|].
    destruct I as [->|I]; [congruence|]. rewrite IH; auto. intros z Z. apply U. now right.
Qed.

Lemma del_length x l : NoDup (map fst l) -> In x l -> S (length (del x l)) = length l.
Proof.
  induction l as [|y l IH]; intros N I; [destruct I|]. inversion N; subst. simpl.
  destruct (Nat.eqb_spec (fst y) (fst x)) as [E|E]; simpl.
  - f_equal. fold (del x l). rewrite del_notin; auto. now rewrite <- E.
  - destruct I as [->|I]; [congruence|]. f_equal. fold (del x l). auto.
Qed.

(** ** The best pair *)
Section Best.
  Variable sim : change -> change -> option pyfloat.

  Definition simof (p : obj * obj) : option pyfloat := sim (snd (snd p)) (snd (fst p)).

  (** the state [b] is right for the pairs [seen] so far *)
  Definition best_of (seen : obj * obj -> Prop) (b : best_state) : Prop :=
    (forall p x, seen p -> simof p = Some x -> SFltb (fst b) x = false) /\
    match snd b with
    | None => fst b = f64_0_1
    | Some p => seen p /\ simof p = Some (fst b) /\ SFltb f64_0_1 (fst b) = true
    end.

  Lemma best_ext s s' b : (forall p, s p <-> s' p) -> best_of s b -> best_of s' b.
  Proof.
    intros E [A B]. split.
    - intros p x P. apply A. now apply E.
    - destruct (snd b); [|auto]. destruct B as (B & C). split; [now apply E|auto].
  Qed.

  Lemma best_step s b r a : best_of s b ->
    best_of (fun p => s p \/ p = (r, a))
      (match sim (snd a) (snd r) with
       | Some simi => if SFltb (fst b) simi then (simi, Some (r, a)) else b
       | None => b
       end).
  Proof.
    intros [A B]. destruct (sim (snd a) (snd r)) as [x|] eqn:Sx.
    - destruct (SFltb (fst b) x) eqn:L.
      + split; simpl.
        * intros p y [P| ->] Sy.
          -- destruct (SFltb x y) eqn:L2; [|reflexivity]. pose proof (A p y P Sy) as F.
             rewrite (SFltb_trans _ _ _ L L2) in F. discriminate.
          -- unfold simof in Sy. simpl in Sy. rewrite Sx in Sy. injection Sy as <-. apply SFltb_irrefl.
        * split; [now right|]. split; [exact Sx|]. destruct (snd b) as [p|].
          -- destruct B as (_ & _ & B). eapply SFltb_trans; eauto.
          -- now rewrite <- B.
      + split.
        * intros p y [P| ->] Sy; [now apply (A p)|]. unfold simof in Sy. simpl in Sy. rewrite Sx in Sy. now injection Sy as <-.
        * destruct (snd b) as [p|]; [|auto]. destruct B as (B & C). split; [now left|auto].
    - split.
      + intros p y [P| ->] Sy; [now apply (A p)|]. unfold simof in Sy. simpl in Sy. rewrite Sx in Sy. discriminate.
      + destruct (snd b) as [p|]; [|auto]. destruct B as (B & C). split; [now left|auto].
  Qed.

  Lemma best_added_ok r addeds : forall s b, best_of s b ->
    best_of (fun p => s p \/ (fst p = r /\ In (snd p) addeds)) (best_added sim r addeds b).
  Proof.
    induction addeds as [|a addeds IH]; intros s b B.
    - simpl. eapply best_ext; [|exact B]. intros p. simpl. tauto.
    - cbn [best_added]. eapply best_ext; [|apply IH, best_step, B]. intros [p q]. simpl. split.
      + intros [[P|P]|[E P]]; [now left| |right; auto]. injection P as -> ->. right; auto.
      + intros [P|[E [P|P]]]; [auto| |auto]. subst. auto.
  Qed.

  Lemma best_pair_ok removeds addeds : forall s b, best_of s b ->
    best_of (fun p => s p \/ (In (fst p) removeds /\ In (snd p) addeds)) (best_pair sim removeds addeds b).
  Proof.
    induction removeds as [|r removeds IH]; intros s b B.
    - simpl. eapply best_ext; [|exact B]. intros p. tauto.
    - cbn [best_pair]. eapply best_ext; [|apply IH, best_added_ok, B]. intros [p q]. simpl. split.
      + intros [[P|[E P]]|[E P]]; [auto| |auto]. subst. auto.
      + intros [P|[[E|P] Q]]; [auto| |auto]. subst. auto.
  Qed.

  Lemma best_init : best_of (fun _ => False) (f64_0_1, None).
  Proof. split; [intros p x []|reflexivity]. Qed.

  (** the pair chosen in one round *)
  Lemma best_none removeds addeds : snd (best_pair sim removeds addeds (f64_0_1, None)) = None ->
    forall r a x, In r removeds -> In a addeds -> simof (r, a) = Some x -> SFltb f64_0_1 x = false.
  Proof.
    intros E r a x R A Sx. pose proof (best_pair_ok removeds addeds _ _ best_init) as [H1 H2].
    rewrite E in H2. rewrite <- H2. apply (H1 (r, a)); [right; auto|auto].
  Qed.

  Lemma best_some removeds addeds r a : snd (best_pair sim removeds addeds (f64_0_1, None)) = Some (r, a) ->
    In r removeds /\ In a addeds /\ exists y, simof (r, a) = Some y /\ SFltb f64_0_1 y = true /\
      forall r' a' x, In r' removeds -> In a' addeds -> simof (r', a') = Some x -> SFltb y x = false.
  Proof.
    intros E. pose proof (best_pair_ok removeds addeds _ _ best_init) as [H1 H2].
    rewrite E in H2. destruct H2 as ([[]|[R A]] & S & L). split; [exact R|]. split; [exact A|].
    eexists. split; [exact S|]. split; [exact L|]. intros r' a' x R' A' Sx. apply (H1 (r', a')); auto.
  Qed.
End Best.

(** ** The loop *)
Section Loop.
  Variable is_added is_removed : change -> bool.
  Variable sim : change -> change -> option pyfloat.
  Variable mk : change -> change -> change.

  Definition used (pairs : list (obj * obj)) : list nat :=
    (map (fun p => fst (fst p)) pairs ++ map (fun p => fst (snd p)) pairs)%list.
  Definition unpaired (pairs : list (obj * obj)) (o : obj) : bool :=
    negb (existsb (Nat.eqb (fst o)) (used pairs)).

  Lemma unpaired_iff pairs o : unpaired pairs o = true <-> ~ In (fst o) (used pairs).
  Proof.
    unfold unpaired. rewrite negb_true_iff. split.
    - intros E I. assert (existsb (Nat.eqb (fst o)) (used pairs) = true).
      { apply existsb_exists. exists (fst o). split; [auto|apply Nat.eqb_refl]. } congruence.
    - intros N. destruct (existsb (Nat.eqb (fst o)) (used pairs)) eqn:E; [|reflexivity].
      apply existsb_exists in E. destruct E as [x [I E]]. apply Nat.eqb_eq in E. subst. tauto.
  Qed.

  Definition loop_result (rs ads : list obj) (pairs : list (obj * obj)) : Prop :=
    NoDup (used pairs) /\
    (forall r a, In (r, a) pairs -> In r rs /\ In a ads /\ similar sim (snd r) (snd a)) /\
    (forall r a, In r rs -> In a ads -> ~ In (fst r) (used pairs) -> ~ In (fst a) (used pairs) -> ~ similar sim (snd r) (snd a)) /\
    (forall pre r a post, pairs = (pre ++ (r, a) :: post)%list ->
       forall r' a', In r' rs -> In a' ads -> ~ In (fst r') (used pre) -> ~ In (fst a') (used pre) ->
         ~ more_similar sim (snd r') (snd a') (snd r) (snd a)).

  Lemma used_cons r a pairs i : In i (used ((r, a) :: pairs)) <-> i = fst r \/ i = fst a \/ In i (used pairs).
  Proof. unfold used. simpl. rewrite !in_app_iff. simpl. intuition congruence. Qed.

  Lemma filter_del r a pairs cs :
    filter (unpaired ((r, a) :: pairs)) cs = filter (unpaired pairs) (del a (del r cs)).
  Proof.
    induction cs as [|c cs IH]; [reflexivity|]. unfold del in *. cbn [filter].
    destruct (unpaired ((r, a) :: pairs) c) eqn:U.
    - apply unpaired_iff in U. rewrite used_cons in U.
      destruct (Nat.eqb_spec (fst c) (fst r)); [tauto|]. cbn [negb filter].
      destruct (Nat.eqb_spec (fst c) (fst a)); [tauto|]. cbn [negb filter].
      rewrite (proj2 (unpaired_iff pairs c)) by tauto. now f_equal.
    - destruct (Nat.eqb_spec (fst c) (fst r)); cbn [negb filter]; [exact IH|].
      destruct (Nat.eqb_spec (fst c) (fst a)); cbn [negb filter]; [exact IH|].
      destruct (unpaired pairs c) eqn:U'; [|exact IH].
      exfalso. apply unpaired_iff in U'. assert (~ In (fst c) (used ((r, a) :: pairs))) by (rewrite used_cons; tauto).
      apply unpaired_iff in H. congruence.
  Qed.

  Hypothesis eqb_class : forall c d, change_eqb c d = true -> is_added c = is_added d /\ is_removed c = is_removed d.
  Hypothesis mk_class : forall a r, is_added a = true -> is_removed r = true ->
    is_added (mk a r) = false /\ is_removed (mk a r) = false.
  Hypothesis disjoint : forall c, is_added c = true -> is_removed c = true -> False.

  Lemma used_split pre r a post i : In i (used (pre ++ (r, a) :: post)) <-> In i (used pre) \/ i = fst r \/ i = fst a \/ In i (used post).
  Proof. unfold used. rewrite !map_app, !in_app_iff. simpl. rewrite ?in_app_iff. intuition congruence. Qed.

  Lemma rename_loop_ok fuel : forall rs ads cs next,
    length rs < fuel ->
    NoDup (map fst cs) -> NoDup (map fst rs) -> NoDup (map fst ads) ->
    (forall o : obj, In o cs -> fst o < next) ->
    (forall o : obj, In o rs -> In o cs /\ is_removed (snd o) = true) ->
    (forall o : obj, In o ads -> In o cs /\ is_added (snd o) = true) ->
    (forall o : obj, In o rs \/ In o ads -> unique o cs) ->
    exists pairs new, rename_loop sim mk fuel rs ads cs next = Ok (filter (unpaired pairs) cs ++ new)%list /\
      map snd new = map (fun p : obj * obj => mk (snd (snd p)) (snd (fst p))) pairs /\
      loop_result rs ads pairs.
  Proof.
    induction fuel as [|fuel IH]; intros rs ads cs next F Nc Nr Na Lt Rs As U; [lia|].
    cbn [rename_loop]. destruct (snd (best_pair sim rs ads (f64_0_1, None))) as [[r a]|] eqn:B.
    2:{ exists [], []. split; [|split; [reflexivity|]].
        - f_equal. rewrite app_nil_r. clear. induction cs as [|c cs IH]; [reflexivity|]. cbn [filter]. replace (unpaired [] c) with true by reflexivity. now rewrite <- IH.
        - split; [constructor|]. split; [intros ? ? []|]. split.
          + intros r a R A _ _ [x [Sx L]]. change one_tenth with f64_0_1 in L. rewrite (best_none sim rs ads B r a x R A Sx) in L. discriminate.
          + intros pre r a post E. destruct pre; discriminate. }
    destruct (best_some sim rs ads r a B) as (R & A & y & Sy & Ly & Best).
    destruct (Rs r R) as [Rc Rr]. destruct (As a A) as [Ac Aa].
    assert (Nra : fst r <> fst a).
    { intros E. assert (r = a) by (apply (nodup_same cs); auto). subst. eapply disjoint; eauto. }
    rewrite (remove_ok r cs) by (auto; apply U; auto). cbn [rbind].
    rewrite (remove_ok a (del r cs)); [|now apply map_fst_filter_nodup|apply in_del; auto|
      intros z Z; apply in_del in Z; apply (U a); tauto]. cbn [rbind].
    rewrite (remove_ok r rs); [|auto|auto|intros z Z; apply (U r); [auto|apply Rs; auto]]. cbn [rbind].
    rewrite (remove_ok a ads); [|auto|auto|intros z Z; apply (U a); [auto|apply As; auto]]. cbn [rbind].
    set (newobj := (next, mk (snd a) (snd r)) : obj).
    destruct (mk_class (snd a) (snd r) Aa Rr) as [Ma Mr].
    destruct (IH (del r rs) (del a ads) (del a (del r cs) ++ [newobj])%list (S next)) as (pairs & new & E & M & RES).
    - pose proof (del_length r rs Nr R). unfold obj in *. lia.
    - rewrite map_app. apply Permutation_NoDup with (l := (next :: map fst (del a (del r cs)))%list).
      { apply Permutation_cons_append. }
      constructor; [|now apply map_fst_filter_nodup, map_fst_filter_nodup].
      intros I. apply in_map_iff in I. destruct I as [z [Ez Z]]. apply in_del in Z. destruct Z as [Z _]. apply in_del in Z.
      destruct Z as [Z _]. apply Lt in Z. lia.
    - now apply map_fst_filter_nodup.
    - now apply map_fst_filter_nodup.
    - intros o I. apply in_app_iff in I. destruct I as [I|[<-|[]]]; [|simpl; lia].
      apply in_del in I. destruct I as [I _]. apply in_del in I. destruct I as [I _]. apply Lt in I. lia.
    - intros o I. apply in_del in I. destruct I as [I D]. destruct (Rs o I) as [I1 I2]. split; [|exact I2].
      apply in_app_iff. left. apply in_del. split; [apply in_del; auto|].
      intros Eo. assert (o = a) by (apply (nodup_same cs); auto). subst. eapply disjoint; eauto.
    - intros o I. apply in_del in I. destruct I as [I D]. destruct (As o I) as [I1 I2]. split; [|exact I2].
      apply in_app_iff. left. apply in_del. split; [apply in_del; split; auto|auto].
      intros Eo. assert (o = r) by (apply (nodup_same cs); auto). subst. eapply disjoint; eauto.
    - intros o I z Z Q. apply in_app_iff in Z. destruct Z as [Z|[<-|[]]].
      + apply in_del in Z. destruct Z as [Z _]. apply in_del in Z. destruct Z as [Z _]. apply (U o); auto.
        destruct I as [I|I]; apply in_del in I; tauto.
      + exfalso. simpl in Q. apply eqb_class in Q. destruct Q as [Q1 Q2]. destruct I as [I|I]; apply in_del in I; destruct I as [I _].
        * destruct (Rs o I). congruence.
        * destruct (As o I). congruence.
    - destruct RES as (R1 & R2 & R3 & R4).
      assert (Lp : forall i, In i (used pairs) -> i < next /\ i <> fst r /\ i <> fst a).
      { intros i I. unfold used in I. apply in_app_iff in I. destruct I as [I|I]; apply in_map_iff in I; destruct I as [[p q] [<- I]]; cbn [fst snd].
        - apply R2 in I. destruct I as [I _]. apply in_del in I. destruct I as [I D]. destruct (Rs p I) as [I1 I2].
          split; [auto|]. split; [auto|]. intros Eo. assert (p = a) by (apply (nodup_same cs); auto). subst. eapply disjoint; eauto.
        - apply R2 in I. destruct I as [_ [I _]]. apply in_del in I. destruct I as [I D]. destruct (As q I) as [I1 I2].
          split; [auto|]. split; [|auto]. intros Eo. assert (q = r) by (apply (nodup_same cs); auto). subst. eapply disjoint; eauto. }
      exists ((r, a) :: pairs), (newobj :: new). split; [|split; [|split; [|split; [|split]]]].
      + etransitivity; [exact E|]. f_equal. rewrite filter_app, filter_del, <- app_assoc. f_equal. simpl.
        assert (UN : unpaired pairs newobj = true).
        { apply unpaired_iff. intros I. apply Lp in I. simpl in I. lia. }
        now rewrite UN.
      + simpl. now rewrite M.
      + unfold used. simpl. constructor.
        * rewrite in_app_iff. simpl. intros [I|[I|I]]; [|congruence|].
          -- destruct (Lp (fst r)) as (_ & D & _); [unfold used; apply in_app_iff; auto|congruence].
          -- destruct (Lp (fst r)) as (_ & D & _); [unfold used; apply in_app_iff; auto|congruence].
        * apply Permutation_NoDup with (l := (fst a :: used pairs)%list); [apply Permutation_middle|].
          constructor; [|exact R1]. intros I. apply Lp in I. tauto.
      + intros r0 a0 [I|I].
        * injection I as <- <-. split; [auto|]. split; [auto|]. exists y. split; auto.
        * apply R2 in I. destruct I as (I1 & I2 & I3). apply in_del in I1, I2. tauto.
      + intros r0 a0 I1 I2 D1 D2. rewrite used_cons in D1, D2. apply R3; [apply in_del; split; [auto|tauto]|apply in_del; split; [auto|tauto]|tauto|tauto].
      + intros pre r0 a0 post Ep r' a' I1 I2 D1 D2. destruct pre as [|[pr pa] pre].
        * simpl in Ep. injection Ep as -> -> ->. intros (x1 & x2 & S1 & S2 & L).
          unfold simof in Sy. simpl in Sy. rewrite Sy in S2. injection S2 as <-.
          rewrite (Best r' a' x1 I1 I2 S1) in L. discriminate.
        * simpl in Ep. injection Ep as <- <- Ep. rewrite used_cons in D1, D2.
          apply (R4 pre r0 a0 post Ep); [apply in_del; split; [auto|tauto]|apply in_del; split; [auto|tauto]|tauto|tauto].
  Qed.

  (** ** [_find_renames] as a whole *)
  Lemma objects_ids cs : map fst (objects cs) = seq 0 (length cs).
  Proof.
    unfold objects. generalize 0. induction cs as [|c cs IH]; intros n; [reflexivity|]. simpl. f_equal. apply IH.
  Qed.

  Lemma objects_snd cs : map snd (objects cs) = cs.
  Proof.
    unfold objects. generalize 0. induction cs as [|c cs IH]; intros n; [reflexivity|]. simpl. f_equal. apply IH.
  Qed.

  Lemma filter_subseq {A} (f : A -> bool) l : subseq (filter f l) l.
  Proof. induction l as [|x l IH]; simpl; [constructor|]. destruct (f x); now constructor. Qed.

  Lemma subseq_map {A B} (f : A -> B) l m : subseq l m -> subseq (map f l) (map f m).
  Proof. induction 1; simpl; now constructor. Qed.

  Lemma pairs_perm cs pairs : NoDup (map fst cs) -> NoDup (used pairs) ->
    (forall r a, In (r, a) pairs -> In r cs /\ In a cs) ->
    Permutation cs (filter (unpaired pairs) cs ++ map fst pairs ++ map snd pairs).
  Proof.
    intros Nc Np I. apply NoDup_Permutation.
    - eapply NoDup_map_inv; eauto.
    - apply (NoDup_map_inv fst). rewrite !map_app, !map_map.
      assert (N1 : NoDup (map fst (filter (unpaired pairs) cs))) by now apply map_fst_filter_nodup.
      change (NoDup (map fst (filter (unpaired pairs) cs) ++ used pairs)).
      revert N1. assert (D : forall i, In i (map fst (filter (unpaired pairs) cs)) -> ~ In i (used pairs)).
      { intros i H. apply in_map_iff in H. destruct H as [o [<- H]]. apply filter_In in H. now apply unpaired_iff. }
      revert D. generalize (map fst (filter (unpaired pairs) cs)). intros l D N1.
      induction l as [|x l IHl]; [exact Np|]. simpl. inversion N1; subst. constructor.
      + rewrite in_app_iff. intros [H|H]; [tauto|]. apply (D x); [now left|auto].
      + apply IHl; auto. intros i H. apply D. now right.
    - intros o. rewrite !in_app_iff, filter_In. split.
      + intros H. destruct (unpaired pairs o) eqn:E; [auto|right].
        assert (U : In (fst o) (used pairs)).
        { destruct (in_dec Nat.eq_dec (fst o) (used pairs)) as [U|U]; [auto|]. apply unpaired_iff in U. congruence. }
        unfold used in U. apply in_app_iff in U. destruct U as [U|U]; apply in_map_iff in U; destruct U as [[r a] [Eo U]]; cbn [fst snd] in Eo.
        * left. destruct (I r a U) as [X _]. assert (r = o) by (apply (nodup_same cs); auto). subst. apply (in_map fst _ _ U).
        * right. destruct (I r a U) as [_ X]. assert (a = o) by (apply (nodup_same cs); auto). subst. apply (in_map snd _ _ U).
      + intros [[H _]|[H|H]]; [auto| |]; apply in_map_iff in H; destruct H as [[r a] [<- H]]; destruct (I r a H); auto.
  Qed.

  Lemma find_renames_strong cs :
    NoDup (map change_key (filter (fun c => is_added c || is_removed c) cs)) ->
    (forall c d, change_eqb c d = true -> change_key c = change_key d) ->
    exists (f : obj -> bool) pairs,
      (forall o, In o (objects cs) -> f o = false -> is_added (snd o) || is_removed (snd o) = true) /\
      find_renames is_added is_removed sim mk cs =
        Ok (map snd (filter f (objects cs)) ++ map (fun p => mk (snd p) (fst p)) pairs)%list /\
      (forall r a, In (r, a) pairs -> is_removed r = true /\ is_added a = true) /\
      matching is_added is_removed sim mk cs
        (map snd (filter f (objects cs)) ++ map (fun p => mk (snd p) (fst p)) pairs)%list.
  Proof.
    intros K EK. set (os := objects cs).
    assert (Nos : NoDup (map fst os)) by (unfold os; rewrite objects_ids; apply seq_NoDup).
    set (rs := filter (fun o : obj => is_removed (snd o)) os).
    set (ads := filter (fun o : obj => is_added (snd o)) os).
    assert (UQ : forall o, In o rs \/ In o ads -> unique o os).
    { assert (G : forall l, NoDup (map change_key (filter (fun c => is_added c || is_removed c) (map snd l))) ->
                 forall o y : obj, In o l -> In y l -> is_added (snd o) || is_removed (snd o) = true ->
                 is_added (snd y) || is_removed (snd y) = true -> change_key (snd y) = change_key (snd o) -> y = o).
      { induction l as [|z l IH]; intros N o y O Y Co Cy E; [destruct O|]. simpl in N.
        assert (P : forall w : obj, In w l -> is_added (snd w) || is_removed (snd w) = true ->
          In (change_key (snd w)) (map change_key (filter (fun c => is_added c || is_removed c) (map snd l)))).
        { intros w W Cw. apply in_map. apply filter_In. split; [now apply in_map|auto]. }
        destruct O as [->|O], Y as [->|Y]; auto.
        - rewrite Co in N. simpl in N. inversion N; subst. exfalso. apply H1. rewrite <- E. auto.
        - rewrite Cy in N. simpl in N. inversion N; subst. exfalso. apply H1. rewrite E. auto.
        - apply IH; auto. destruct (is_added (snd z) || is_removed (snd z)); [now inversion N|auto]. }
      intros o O y Y Q. assert (Co : is_added (snd o) || is_removed (snd o) = true).
      { destruct O as [O|O]; apply filter_In in O; destruct O as [_ O]; rewrite O; [apply orb_true_r|reflexivity]. }
      assert (Oo : In o os) by (destruct O as [O|O]; apply filter_In in O; tauto).
      pose proof (eqb_class _ _ Q) as [Q1 Q2]. f_equal. apply (G os); auto.
      - unfold os. rewrite objects_snd. exact K.
      - now rewrite Q1, Q2. }
    destruct (rename_loop_ok (S (length rs)) rs ads os (length cs)) as (pairs & new & E & M & R1 & R2 & R3 & R4).
    - apply Nat.lt_succ_diag_r.
    - exact Nos.
    - now apply map_fst_filter_nodup.
    - now apply map_fst_filter_nodup.
    - intros o O. assert (I : In (fst o) (map fst os)) by now apply in_map. unfold os in I. rewrite objects_ids in I. apply in_seq in I. lia.
    - intros o O. apply filter_In in O. auto.
    - intros o O. apply filter_In in O. auto.
    - exact UQ.
    - assert (IN : forall r a, In (r, a) pairs -> In r os /\ In a os /\ is_removed (snd r) = true /\ is_added (snd a) = true).
      { intros r a I. apply R2 in I. destruct I as (I1 & I2 & _). apply filter_In in I1, I2. tauto. }
      set (P := map (fun p : obj * obj => (snd (fst p), snd (snd p))) pairs).
      assert (PM : map (fun p : change * change => mk (snd p) (fst p)) P = map snd new).
      { rewrite M. unfold P. now rewrite map_map. }
      assert (F1 : map fst P = map snd (map fst pairs)) by (unfold P; rewrite !map_map; reflexivity).
      assert (F2 : map snd P = map snd (map snd pairs)) by (unfold P; rewrite !map_map; reflexivity).
      exists (unpaired pairs), P. split; [|split; [|split]].
      + intros o O U. destruct (in_dec Nat.eq_dec (fst o) (used pairs)) as [I|I].
        2:{ apply unpaired_iff in I. congruence. }
        unfold used in I. apply in_app_iff in I.
        destruct I as [I|I]; apply in_map_iff in I; destruct I as [[r a] [Eo I]]; cbn [fst snd] in Eo; destruct (IN r a I) as (X & Y & Z & W).
        * assert (r = o) by (apply (nodup_same os); auto). subst. rewrite Z. apply orb_true_r.
        * assert (a = o) by (apply (nodup_same os); auto). subst. now rewrite W.
      + transitivity (let* out := rename_loop sim mk (S (length rs)) rs ads os (length cs) in Ok (map snd out)); [reflexivity|].
        rewrite E. cbn [rbind]. rewrite map_app, PM. reflexivity.
      + intros r a I. unfold P in I. apply in_map_iff in I. destruct I as [[r0 a0] [Eq I]]. injection Eq as <- <-. cbn [fst snd].
        destruct (IN r0 a0 I). tauto.
      + assert (RE : forall x, In x (map snd (filter (unpaired pairs) os)) -> exists o, snd o = x /\ In o os /\ ~ In (fst o) (used pairs)).
        { intros x I. apply in_map_iff in I. destruct I as [o [<- I]]. apply filter_In in I. exists o. split; [auto|]. split; [tauto|]. apply unpaired_iff. tauto. }
        exists P, (map snd (filter (unpaired pairs) os)).
        split; [reflexivity|]. split; [|split; [|split; [|split]]].
        * assert (EO : map snd os = cs) by apply objects_snd.
          rewrite F1, F2, <- !map_app, <- EO at 1.
          apply Permutation_map. apply pairs_perm; auto. intros r a I. destruct (IN r a I). tauto.
        * pose proof (subseq_map snd _ _ (filter_subseq (unpaired pairs) os)) as Q. unfold os in Q at 2. rewrite objects_snd in Q. exact Q.
        * intros r a I. unfold P in I. apply in_map_iff in I. destruct I as [[r0 a0] [Eq I]]. injection Eq as <- <-. cbn [fst snd].
          destruct (IN r0 a0 I) as (_ & _ & X & Y). destruct (R2 r0 a0 I) as (_ & _ & Z). auto.
        * intros r a I1 I2 C1 C2. apply RE in I1, I2. destruct I1 as (o1 & <- & I1 & D1). destruct I2 as (o2 & <- & I2 & D2).
          apply R3; auto; apply filter_In; auto.
        * intros pre r a post Eq r' a' I1 I2 C1 C2.
          assert (SP : exists pre0 p post0, pairs = (pre0 ++ p :: post0)%list /\ snd (fst p) = r /\ snd (snd p) = a /\
                     post = map (fun p : obj * obj => (snd (fst p), snd (snd p))) post0).
          { clear -Eq. unfold P in Eq. revert pre Eq. induction pairs as [|p pairs IH]; intros pre Eq; [destruct pre; discriminate|].
            destruct pre as [|q pre]; simpl in Eq.
            - injection Eq as E1 E2 E3. exists [], p, pairs. repeat split; auto.
            - injection Eq as _ Eq. destruct (IH pre Eq) as (pre0 & p0 & post0 & -> & X). exists (p :: pre0), p0, post0. auto. }
          destruct SP as (pre0 & [r0 a0] & post0 & Ep & <- & <- & ->). cbn [fst snd] in *.
          (* no number of the remaining pairs occurs among the earlier ones *)
          assert (DIS : forall i, In i (used ((r0, a0) :: post0)) -> ~ In i (used pre0)).
          { intros i J1 J2. rewrite Ep in R1.
            assert (PP : Permutation (used (pre0 ++ (r0, a0) :: post0)) (used pre0 ++ used ((r0, a0) :: post0))).
            { unfold used. rewrite !map_app. rewrite <- !app_assoc. apply Permutation_app_head.
              rewrite !app_assoc. apply Permutation_app_tail. apply Permutation_app_comm. }
            apply (Permutation_NoDup PP) in R1. revert R1 J1 J2. generalize (used pre0) (used ((r0, a0) :: post0)). clear.
            intros l m N A B. induction l as [|x l IH]; [destruct B|]. simpl in N. inversion N; subst. destruct B as [->|B]; [|auto].
            apply H1, in_app_iff. auto. }
          assert (SUB : forall i, In i (used pre0) -> In i (used pairs)).
          { intros i J. rewrite Ep. apply used_split. auto. }
          apply in_app_iff in I1, I2.
          assert (X1 : exists o, snd o = r' /\ In o os /\ ~ In (fst o) (used pre0)).
          { destruct I1 as [I1|I1].
            - apply RE in I1. destruct I1 as (o & Eo & I1 & D). exists o. repeat split; auto.
            - change ((snd r0, snd a0) :: map (fun p : obj * obj => (snd (fst p), snd (snd p))) post0) with (map (fun p : obj * obj => (snd (fst p), snd (snd p))) ((r0, a0) :: post0)) in I1.
              rewrite map_map in I1. apply in_map_iff in I1. destruct I1 as [[o1 o2] [Eo I1]]. cbn [fst snd] in Eo. exists o1. split; [auto|]. split.
              + apply (IN o1 o2). rewrite Ep. apply in_app_iff. auto.
              + apply DIS. unfold used. apply in_app_iff. left. apply (in_map (fun p : obj * obj => fst (fst p)) _ _ I1). }
          assert (X2 : exists o, snd o = a' /\ In o os /\ ~ In (fst o) (used pre0)).
          { destruct I2 as [I2|I2].
            - apply RE in I2. destruct I2 as (o & Eo & I2 & D). exists o. repeat split; auto.
            - change ((snd r0, snd a0) :: map (fun p : obj * obj => (snd (fst p), snd (snd p))) post0) with (map (fun p : obj * obj => (snd (fst p), snd (snd p))) ((r0, a0) :: post0)) in I2.
              rewrite map_map in I2. apply in_map_iff in I2. destruct I2 as [[o1 o2] [Eo I2]]. cbn [fst snd] in Eo. exists o2. split; [auto|]. split.
              + apply (IN o1 o2). rewrite Ep. apply in_app_iff. auto.
              + apply DIS. unfold used. apply in_app_iff. right. apply (in_map (fun p : obj * obj => fst (snd p)) _ _ I2). }
          destruct X1 as (o1 & <- & O1 & D1). destruct X2 as (o2 & <- & O2 & D2).
          apply (R4 pre0 r0 a0 post0 Ep); auto; apply filter_In; auto.
  Qed.

  Hypothesis key_ok : forall c d, change_eqb c d = true -> change_key c = change_key d.

  Lemma find_renames_ok cs :
    NoDup (map change_key (filter (fun c => is_added c || is_removed c) cs)) ->
    exists out, find_renames is_added is_removed sim mk cs = Ok out /\ matching is_added is_removed sim mk cs out.
  Proof.
    intros K. destruct (find_renames_strong cs K key_ok) as (f & pairs & _ & E & _ & M). eauto.
  Qed.

  (** changes of another kind are the same before and after *)
  Lemma find_renames_filter cs out (P : change -> bool) :
    NoDup (map change_key (filter (fun c => is_added c || is_removed c) cs)) ->
    find_renames is_added is_removed sim mk cs = Ok out ->
    (forall c, P c = true -> is_added c = false /\ is_removed c = false) ->
    (forall a r, is_added a = true -> is_removed r = true -> P (mk a r) = false) ->
    filter P out = filter P cs.
  Proof.
    intros K E D Dm. destruct (find_renames_strong cs K key_ok) as (f & pairs & F & E' & PR & _).
    rewrite E in E'. injection E' as ->. rewrite filter_app.
    assert (Z : filter P (map (fun p => mk (snd p) (fst p)) pairs) = []).
    { clear -PR Dm. induction pairs as [|[r a] pairs IH]; [reflexivity|]. cbn [map filter fst snd].
      destruct (PR r a (or_introl eq_refl)) as [X Y]. rewrite (Dm a r) by auto. apply IH. intros r' a' I. apply PR. now right. }
    rewrite Z, app_nil_r.
    transitivity (filter P (map snd (objects cs))); [|now rewrite objects_snd].
    revert F. generalize (objects cs). intros os F. induction os as [|o os IH]; [reflexivity|]. cbn [filter map].
    assert (IH' : filter P (map snd (filter f os)) = filter P (map snd os)) by (apply IH; intros; apply F; [now right|auto]).
    destruct (f o) eqn:Fo; cbn [map filter]; [now rewrite IH'|].
    destruct (P (snd o)) eqn:Po; [|exact IH']. apply D in Po. destruct Po as [A B].
    assert (X : is_added (snd o) || is_removed (snd o) = true) by (apply F; [now left|auto]). rewrite A, B in X. discriminate.
  Qed.
End Loop.
