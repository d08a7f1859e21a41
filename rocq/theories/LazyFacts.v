(** LazyFacts.v -- sequences of accesses to a Lazy object. *)
From Verif Require Import Base Value Schema Rewrite Sched Types Asdict FromDict AFacts Induct SpecTypes SpecState Lazy SpecLazy.

Section Access.
Variable deser : string -> pyval -> inst -> res pyval.
Variable pk : bool.

Definition result {A B C} (x : A * B * C) : A := fst (fst x).
Definition object {A B C} (x : A * B * C) : B := snd (fst x).
Definition events {A B C} (x : A * B * C) : C := snd x.

Lemma get_loaded disk o n : aget n (i_unloaded o) = None ->
  lazy_get deser pk disk o n = (match aget n (i_attrs o) with Some v => Ok v | None => Err AttributeError end, o, []).
Proof. intro H. unfold lazy_get. rewrite H. now destruct (aget n (i_attrs o)). Qed.

(** an access only concerns its own field *)
Lemma get_about disk o n e : In e (events (lazy_get deser pk disk o n)) -> about n e.
Proof.
  unfold lazy_get, events. destruct (aget n (i_unloaded o)) as [r|].
  - destruct (disk (lz_file r)) as [data|]; [|easy]. destruct (lz_pickle r && negb pk).
    + intros [<-|[]]. reflexivity.
    + destruct (deser (lz_cls r) data o); intros [<-|[<-|[]]]; try reflexivity; destruct (lz_pickle r); reflexivity.
  - destruct (aget n (i_attrs o)); easy.
Qed.

(** an access that fails changes nothing *)
Lemma get_fails disk o n e : result (lazy_get deser pk disk o n) = Err e -> object (lazy_get deser pk disk o n) = o.
Proof.
  unfold lazy_get, result, object. destruct (aget n (i_unloaded o)) as [r|].
  - destruct (disk (lz_file r)) as [data|]; [|auto]. destruct (lz_pickle r && negb pk); [auto|].
    destruct (deser (lz_cls r) data o); auto. discriminate.
  - destruct (aget n (i_attrs o)); auto.
Qed.

Lemma get_object disk o n : object (lazy_get deser pk disk o n) = o \/
  exists v, result (lazy_get deser pk disk o n) = Ok v /\
    object (lazy_get deser pk disk o n) = mkInst (i_cls o) (aset n v (i_attrs o)) (adel n (i_unloaded o)).
Proof.
  unfold lazy_get, result, object. destruct (aget n (i_unloaded o)) as [r|].
  - destruct (disk (lz_file r)) as [data|]; [|auto]. destruct (lz_pickle r && negb pk); [auto|].
    destruct (deser (lz_cls r) data o) as [v|e]; [|auto]. right. exists v. auto.
  - destruct (aget n (i_attrs o)); auto.
Qed.

Lemma get_nodup disk o n : NoDup (akeys (i_unloaded o)) -> NoDup (akeys (i_unloaded (object (lazy_get deser pk disk o n)))).
Proof. intro H. destruct (get_object disk o n) as [->|(v & _ & ->)]; auto. cbn. now apply nodup_adel. Qed.

Lemma get_other disk o n f : n <> f -> aget f (i_unloaded (object (lazy_get deser pk disk o n))) = aget f (i_unloaded o).
Proof. intro H. destruct (get_object disk o n) as [->|(v & _ & ->)]; auto. cbn. apply aget_adel_other. auto. Qed.

Lemma get_mono disk o n f : NoDup (akeys (i_unloaded o)) -> aget f (i_unloaded o) = None ->
  aget f (i_unloaded (object (lazy_get deser pk disk o n))) = None.
Proof.
  intros N H. destruct (get_object disk o n) as [->|(v & _ & ->)]; auto. cbn.
  destruct (string_dec f n) as [->|D]; [now apply aget_adel_same|]. rewrite aget_adel_other; auto.
Qed.

Lemma get_ok_gone disk o n v : NoDup (akeys (i_unloaded o)) -> result (lazy_get deser pk disk o n) = Ok v ->
  aget n (i_unloaded (object (lazy_get deser pk disk o n))) = None.
Proof.
  intros N. unfold lazy_get, result, object. destruct (aget n (i_unloaded o)) as [r|] eqn:E.
  - destruct (disk (lz_file r)) as [data|]; [|discriminate]. destruct (lz_pickle r && negb pk); [discriminate|].
    destruct (deser (lz_cls r) data o) as [x|e]; [|discriminate]. intros _. cbn. now apply aget_adel_same.
  - destruct (aget n (i_attrs o)); [auto|discriminate].
Qed.

Notation run := (uses deser pk).

Lemma uses_get disk n r o : run ((disk, Get n) :: r) o =
  (result (lazy_get deser pk disk o n) :: result (run r (object (lazy_get deser pk disk o n))),
   object (run r (object (lazy_get deser pk disk o n))),
   (events (lazy_get deser pk disk o n) ++ events (run r (object (lazy_get deser pk disk o n))))%list).
Proof.
  cbn [uses]. destruct (lazy_get deser pk disk o n) as [[v o'] ev]. unfold result, object, events. cbn [fst snd].
  destruct (run r o') as [[vs o''] evs]. reflexivity.
Qed.

Lemma uses_nodup l : forall o, NoDup (akeys (i_unloaded o)) -> NoDup (akeys (i_unloaded (object (run l o)))).
Proof.
  induction l as [|[disk [n|n v]] l IH]; intros o H; [exact H| |].
  - rewrite uses_get. cbn [object fst snd]. apply IH, get_nodup, H.
  - cbn [uses]. apply IH. exact H.
Qed.

(** fields that are never read cause no file access *)
Lemma unread l f : (forall d, ~ In (d, Get f) l) -> forall o e, In e (events (run l o)) -> ~ about f e.
Proof.
  induction l as [|[disk [n|n v]] l IH]; intros H o e He; [contradiction| |].
  - rewrite uses_get in He. cbn [events snd] in He. apply in_app_or in He. destruct He as [He|He].
    + apply get_about in He. intro C. apply (H disk). left. f_equal. f_equal. destruct e; cbn in *; congruence.
    + eapply IH; eauto. intros d Hd. apply (H d). now right.
  - cbn [uses] in He. eapply IH; eauto. intros d Hd. apply (H d). now right.
Qed.

(** loaded fields cause none either *)
Lemma loaded_quiet l f : forall o, NoDup (akeys (i_unloaded o)) -> aget f (i_unloaded o) = None ->
  forall e, In e (events (run l o)) -> ~ about f e.
Proof.
  induction l as [|[disk [n|n v]] l IH]; intros o N H e He; [contradiction| |].
  - rewrite uses_get in He. cbn [events snd] in He. apply in_app_or in He. destruct He as [He|He].
    + intro C. apply get_about in He as A. assert (n = f) by (destruct e; cbn in *; congruence). subst n.
      rewrite get_loaded in He by auto. destruct He.
    + eapply IH; [| |exact He]; [now apply get_nodup|now apply get_mono].
  - cbn [uses] in He. eapply IH; [| |exact He]; auto.
Qed.

Lemma read_once disk l o f v : NoDup (akeys (i_unloaded o)) -> result (lazy_get deser pk disk o f) = Ok v ->
  forall e, In e (events (run l (object (lazy_get deser pk disk o f)))) -> ~ about f e.
Proof. intros N H. apply loaded_quiet; [now apply get_nodup|eapply get_ok_gone; eauto]. Qed.

(** reads of other fields do not depend on the file of [f] *)
Lemma get_same_but path d d' o n r : (forall p, p <> path -> d p = d' p) -> aget n (i_unloaded o) = r ->
  (forall x, r = Some x -> lz_file x <> path) -> lazy_get deser pk d o n = lazy_get deser pk d' o n.
Proof. intros H E F. unfold lazy_get. rewrite E. destruct r as [x|]; auto. rewrite (H (lz_file x)); auto. Qed.

Lemma other_blobs path f l l' : same_but path l l' -> (forall d, ~ In (d, Get f) l) ->
  forall o, NoDup (akeys (i_unloaded o)) -> (forall n r, n <> f -> aget n (i_unloaded o) = Some r -> lz_file r <> path) -> run l o = run l' o.
Proof.
  induction 1 as [|[d u] [d' u'] l l' [Hu Hd] H IH]; intros Hf o N Ho; [reflexivity|]. cbn [fst snd] in *. subst u'.
  assert (Hf' : forall d, ~ In (d, Get f) l) by (intros x Hx; apply (Hf x); now right).
  destruct u as [n|n v].
  - assert (n <> f) by (intros ->; apply (Hf d); now left).
    rewrite !uses_get. rewrite (get_same_but path d d' o n (aget n (i_unloaded o))); auto; [|intros; eapply Ho; eauto].
    rewrite IH; auto; [now apply get_nodup|].
    intros m r Hm Hr. apply (Ho m r Hm). destruct (get_object d' o n) as [E|(v & _ & E)]; rewrite E in Hr; auto.
    cbn in Hr. destruct (string_dec m n) as [->|Dn]; [|now rewrite aget_adel_other in Hr].
    now rewrite aget_adel_same in Hr.
  - cbn [uses]. apply IH; auto.
Qed.

(** ** no unpickling *)
Lemma no_unpickle l : pk = false -> forall o e, In e (events (run l o)) -> match e with Unpickled _ => False | _ => True end.
Proof.
  intros Hk. induction l as [|[disk [n|n v]] l IH]; intros o e He; [contradiction| |].
  - rewrite uses_get in He. cbn [events snd] in He. apply in_app_or in He. destruct He as [He|He]; [|exact (IH _ _ He)].
    unfold lazy_get, events in He. destruct (aget n (i_unloaded o)) as [r|].
    + destruct (disk (lz_file r)) as [data|]; [|easy]. destruct (lz_pickle r && negb pk) eqn:E.
      * destruct He as [<-|[]]. exact I.
      * rewrite Hk in E. destruct (lz_pickle r); [discriminate|].
        destruct (deser (lz_cls r) data o); destruct He as [<-|[<-|[]]]; exact I.
    + destruct (aget n (i_attrs o)); easy.
  - cbn [uses] in He. exact (IH _ _ He).
Qed.

(** ** values *)
Notation pending := (pending deser pk).

Lemma get_pending disk o n r v : aget n (i_unloaded o) = Some r -> pending disk r v ->
  lazy_get deser pk disk o n = (Ok v, mkInst (i_cls o) (aset n v (i_attrs o)) (adel n (i_unloaded o)),
    [Opened n; if lz_pickle r then Unpickled n else Parsed n]).
Proof.
  intros H (Hk & data & Hd & Hv). unfold lazy_get. rewrite H, Hd, Hv.
  destruct (lz_pickle r); [rewrite Hk by auto|]; reflexivity.
Qed.

(** an assignment before the first read is lost *)
Lemma assignment_lost l : forall o f r v disk, (forall d, ~ In (d, Get f) l) -> aget f (i_unloaded o) = Some r -> pending disk r v ->
  result (lazy_get deser pk disk (object (run l o)) f) = Ok v.
Proof.
  induction l as [|[d [n|n x]] l IH]; intros o f r v disk Hf Hr Hp.
  - cbn [uses object fst snd]. now rewrite (get_pending _ _ _ _ _ Hr Hp).
  - rewrite uses_get. cbn [object fst snd]. apply (IH _ f r v disk); auto.
    + intros d' Hd. apply (Hf d'). now right.
    + change (snd (fst (lazy_get deser pk d o n))) with (object (lazy_get deser pk d o n)).
      rewrite get_other; auto. intros ->. apply (Hf d). now left.
  - cbn [uses]. apply (IH _ f r v disk); auto. intros d' Hd. apply (Hf d'). now right.
Qed.

(** with every unloaded field read before it is assigned, it is an ordinary object *)
Lemma as_attributes disk l : forall o attrs,
  NoDup (akeys (i_unloaded o)) ->
  (forall n r, aget n (i_unloaded o) = Some r -> read_first n l /\ exists v, pending disk r v /\ aget n attrs = Some v) ->
  (forall n, aget n (i_unloaded o) = None -> aget n (i_attrs o) = aget n attrs) ->
  result (run (map (fun u => (disk, u)) l) o) = plain_uses l attrs.
Proof.
  induction l as [|[n|n x] l IH]; intros o attrs N Hu Ha; [reflexivity| |].
  - cbn [map]. rewrite uses_get. cbn [result fst plain_uses].
    destruct (aget n (i_unloaded o)) as [r|] eqn:E.
    + destruct (Hu _ _ E) as (_ & v & Hp & Hv). rewrite Hv. rewrite (get_pending _ _ _ _ _ E Hp). cbn [fst snd result object].
      f_equal. apply IH.
      * cbn. now apply nodup_adel.
      * cbn. intros m r' Hm. assert (m <> n) by (intros ->; rewrite aget_adel_same in Hm; [discriminate|auto]).
        rewrite aget_adel_other in Hm by auto. destruct (Hu _ _ Hm) as ([->|Hr] & V); [congruence|]. auto.
      * cbn. intros m Hm. rewrite aget_aset. destruct (String.eqb_spec m n) as [->|D]; auto.
        rewrite aget_adel_other in Hm by auto. auto.
    + rewrite get_loaded by auto. cbn [fst snd result object]. rewrite (Ha _ E). f_equal. apply IH; auto.
      intros m r Hm. destruct (Hu _ _ Hm) as ([->|Hr] & V); [congruence|]. auto.
  - cbn [map uses plain_uses]. apply IH.
    + exact N.
    + cbn. intros m r Hm. destruct (Hu _ _ Hm) as ((D & Hr) & v & Hp & Hv). split; auto. exists v. split; auto.
      rewrite aget_aset_other; auto.
    + cbn. intros m Hm. rewrite !aget_aset. destruct (String.eqb m n); auto.
Qed.
End Access.

Lemma first_access deser pk disk o f r v : aget f (i_unloaded o) = Some r -> pending deser pk disk r v ->
  fst (fst (lazy_get deser pk disk o f)) = Ok v /\
  snd (lazy_get deser pk disk o f) = [Opened f; if lz_pickle r then Unpickled f else Parsed f].
Proof. intros H P. now rewrite (get_pending deser pk disk o f r v H P). Qed.

Lemma unread_field deser pk l f o : (forall disk, ~ In (disk, Get f) l) ->
  forall e, In e (snd (uses deser pk l o)) -> ~ about f e.
Proof. intros H. exact (unread deser pk l f H o). Qed.

Lemma other_fields deser pk path f l l' o : same_but path l l' -> (forall disk, ~ In (disk, Get f) l) ->
  NoDup (map fst (i_unloaded o)) ->
  (forall n r, n <> f -> aget n (i_unloaded o) = Some r -> lz_file r <> path) ->
  uses deser pk l o = uses deser pk l' o.
Proof. intros H1 H2. exact (other_blobs deser pk path f l l' H1 H2 o). Qed.

Lemma never_unpickles deser l o e : In e (snd (uses deser false l o)) -> forall f, e <> Unpickled f.
Proof. intros H f ->. exact (no_unpickle deser false l eq_refl o _ H). Qed.

Lemma pickle_raises deser l o f r disk : aget f (i_unloaded o) = Some r -> lz_pickle r = true ->
  exists e, fst (fst (lazy_get deser false disk (snd (fst (uses deser false l o))) f)) = Err e.
Proof.
  intros H P. assert (X : forall l o, aget f (i_unloaded o) = Some r -> aget f (i_unloaded (object (uses deser false l o))) = Some r).
  { clear l o H. induction l as [|[d [n|n x]] l IH]; intros o H; [exact H| |].
    - rewrite uses_get. cbn [object fst snd]. apply IH.
      destruct (string_dec n f) as [->|Dn].
      + unfold lazy_get. rewrite H. destruct (d (lz_file r)); [|exact H]. rewrite P. exact H.
      + change (snd (fst (lazy_get deser false d o n))) with (object (lazy_get deser false d o n)). now rewrite get_other.
    - cbn [uses]. apply IH. exact H. }
  specialize (X l o H). unfold object in X. unfold lazy_get. rewrite X. destruct (disk (lz_file r)); [|eexists; reflexivity].
  rewrite P. eexists; reflexivity.
Qed.
