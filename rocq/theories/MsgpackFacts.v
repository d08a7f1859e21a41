(** MsgpackFacts.v -- facts about encoding arrays (C49). *)
From Coq Require Import NArith.Nnat.
From Verif Require Import Base AFacts Msgpack SpecMsgpack.
Local Open Scope nat_scope.

(** ** dtypes *)
Lemma append_assoc (a b c : string) : ((a ++ b) ++ c = a ++ b ++ c)%string.
Proof. induction a; simpl; congruence. Qed.

Lemma digit_char_value d : (d < 10)%N -> digit_value (digit_char d) = Some d.
Proof.
  intros H. assert (C : (d = 0 \/ d = 1 \/ d = 2 \/ d = 3 \/ d = 4 \/ d = 5 \/ d = 6 \/ d = 7 \/ d = 8 \/ d = 9)%N) by lia.
  repeat destruct C as [C|C]; subst; reflexivity.
Qed.

Lemma read_show fuel : forall n acc s, (n < 10 ^ N.of_nat fuel)%N ->
  exists p, read_digits acc (digits_fuel fuel n ++ s) = read_digits (acc * p + n) s.
Proof.
  induction fuel as [|fuel IH]; intros n acc s H.
  - simpl in H. exists 1%N. simpl. f_equal. lia.
  - cbn [digits_fuel]. destruct (N.ltb n 10) eqn:L.
    + apply N.ltb_lt in L. exists 10%N. cbn [append read_digits]. now rewrite (digit_char_value n L).
    + apply N.ltb_ge in L. rewrite append_assoc. cbn [append].
      assert (H' : (n / 10 < 10 ^ N.of_nat fuel)%N).
      { apply N.div_lt_upper_bound; [lia|]. rewrite <- N.pow_succ_r'. now rewrite <- Nat2N.inj_succ. }
      destruct (IH (n / 10)%N acc (String (digit_char (n mod 10)) s) H') as [p E]. rewrite E. exists (p * 10)%N.
      cbn [read_digits]. rewrite digit_char_value by (apply N.mod_lt; lia). f_equal.
      pose proof (N.div_mod n 10). lia.
Qed.

Lemma size_bound n : (n < 10 ^ N.of_nat (S (N.size_nat n)))%N.
Proof.
  assert (H : (n < 2 ^ N.of_nat (N.size_nat n))%N).
  { destruct n as [|p]; [reflexivity|]. cbn [N.size_nat]. pose proof (N.size_gt (Npos p)) as G. cbn [N.size] in G.
    assert (E : N.of_nat (Pos.size_nat p) = Npos (Pos.size p)).
    { clear. induction p; simpl; auto; rewrite <- Pos.add_1_r || idtac; cbn [Pos.size_nat Pos.size]; simpl in *; rewrite ?Nat2N.inj_succ, ?IHp; lia. }
    rewrite E. exact G. }
  eapply N.lt_le_trans; [exact H|]. transitivity (10 ^ N.of_nat (N.size_nat n))%N.
  - apply N.pow_le_mono_l. lia.
  - apply N.pow_le_mono_r; lia.
Qed.

Lemma read_show_N n s : (forall a r, s = String a r -> digit_value a = None) -> read_digits 0 (show_N n ++ s) = (n, s).
Proof.
  intros H. unfold show_N. destruct (read_show (S (N.size_nat n)) n 0 s (size_bound n)) as [p E]. rewrite E. simpl (0 * p)%N.
  change (0 + n)%N with n. destruct s as [|a r]; [reflexivity|]. cbn [read_digits]. now rewrite (H a r eq_refl).
Qed.

Lemma show_N_nonempty n s : show_N n ++ s <> "".
Proof.
  unfold show_N. cbn [digits_fuel]. destruct (N.ltb n 10); [discriminate|].
  destruct (digits_fuel (N.size_nat n) (n / 10)); discriminate.
Qed.

Lemma dtype_roundtrip d : scalar_dtype d -> np_dtype (dtype_str d) = Ok d.
Proof.
  intros (o & k & n & u & -> & K & _ & U). unfold np_dtype, dtype_str. rewrite (proj2 (Ascii.eqb_neq k "O") K).
  destruct (show_N n ++ u) as [|a r] eqn:E; [now apply show_N_nonempty in E|]. rewrite <- E.
  rewrite read_show_N; [reflexivity|]. intros a' r' ->. destruct U as [U|[r2 U]]; [discriminate|]. injection U as -> _. reflexivity.
Qed.

(** ** arrays *)
Lemma index_in shape : forall idx, In idx (indices shape) <-> index_of shape idx.
Proof.
  induction shape as [|n r IH]; intros idx; cbn [indices].
  - split; [intros [<-|[]]; constructor|intros H; inversion H; now left].
  - rewrite in_concat. split.
    + intros (l & Il & I). apply in_map_iff in Il. destruct Il as (i & <- & Ii). apply in_seq in Ii. apply in_map_iff in I.
      destruct I as (t & <- & It). constructor; [lia|now apply IH].
    + intros H. inversion H as [|? i ? t Hi Ht]; subst. exists (map (cons i) (indices r)). split.
      * apply in_map_iff. exists i. split; [reflexivity|apply in_seq; lia].
      * apply in_map. now apply IH.
Qed.

Definition uniform {A B} (sz : nat) (g : A -> list B) (l : list A) : Prop := forall x, In x l -> length (g x) = sz.

Lemma concat_length {A B} sz (g : A -> list B) l : uniform sz g l -> length (concat (map g l)) = length l * sz.
Proof.
  induction l as [|x l IH]; intros U; [reflexivity|]. cbn [map concat]. rewrite app_length, IH, (U x (or_introl eq_refl)).
  - reflexivity.
  - intros y I; apply U; now right.
Qed.

Lemma indices_length shape : length (indices shape) = prod shape.
Proof.
  induction shape as [|n r IH]; [reflexivity|]. cbn [indices prod fold_right]. rewrite (concat_length (length (indices r))).
  - rewrite seq_length, IH. reflexivity.
  - intros x _. apply map_length.
Qed.

(** position in C order *)
Fixpoint rank (shape idx : list nat) : nat :=
  match shape, idx with
  | _ :: r, i :: t => i * prod r + rank r t
  | _, _ => 0
  end.

Lemma rank_bound shape idx : index_of shape idx -> rank shape idx < prod shape.
Proof.
  induction 1 as [|n i r t H F IH]; [simpl; lia|]. cbn [rank prod fold_right] in *. fold (prod r) in *. nia.
Qed.

Lemma concat_skip {A B} sz (g : A -> list B) l k : uniform sz g l -> skipn (k * sz) (concat (map g l)) = concat (map g (skipn k l)).
Proof.
  revert l. induction k as [|k IH]; intros l U; [reflexivity|]. destruct l as [|x l]; [now rewrite skipn_nil|].
  cbn [map concat skipn]. rewrite skipn_app. rewrite (U x (or_introl eq_refl)).
  rewrite (skipn_all2 (g x)) by (rewrite (U x (or_introl eq_refl)); nia). cbn [app].
  replace (S k * sz - sz) with (k * sz) by nia. apply IH. intros y I; apply U; now right.
Qed.

Lemma nth_rank shape : forall idx d, index_of shape idx -> nth (rank shape idx) (indices shape) d = idx.
Proof.
  induction shape as [|n r IH]; intros idx d H; inversion H as [|? i ? t Hi Ht]; subst; [reflexivity|].
  cbn [rank indices].
  assert (G : forall m s, i < m -> nth (i * prod r + rank r t) (concat (map (fun i => map (cons i) (indices r)) (seq s m))) d = (s + i) :: t).
  { clear Hi H. induction i as [|i IHi]; intros m s Hm; (destruct m as [|m]; [lia|]); cbn [seq map concat].
    - replace (0 * prod r + rank r t) with (rank r t) by lia.
      rewrite app_nth1 by (rewrite map_length, indices_length; now apply rank_bound).
      rewrite (nth_indep _ d (s :: d)) by (rewrite map_length, indices_length; now apply rank_bound).
      change (s :: d) with (cons s d). rewrite map_nth. rewrite IH by exact Ht. f_equal. lia.
    - rewrite app_nth2 by (rewrite map_length, indices_length; nia). rewrite map_length, indices_length.
      replace (S i * prod r + rank r t - prod r) with (i * prod r + rank r t) by nia. rewrite IHi by lia. f_equal. lia. }
  rewrite G by exact Hi. reflexivity.
Qed.

Lemma dot_rank sz shape : forall idx, index_of shape idx -> dot (c_strides sz shape) idx = Z.of_nat (rank shape idx * sz).
Proof. induction 1 as [|n i r t H F IH]; [reflexivity|]. cbn [c_strides dot rank]. rewrite IH. nia. Qed.

Lemma chunk {A B} sz (g : A -> list B) l k d : uniform sz g l -> k < length l -> firstn sz (skipn (k * sz) (concat (map g l))) = g (nth k l d).
Proof.
  intros U H. rewrite (concat_skip sz g l k U).
  assert (E : skipn k l = nth k l d :: skipn (S k) l).
  { clear U. revert l H. induction k as [|k IH]; intros [|x l] H; simpl in H; try lia; [reflexivity|]. cbn [skipn nth]. apply IH. lia. }
  rewrite E. cbn [map concat]. assert (L : length (g (nth k l d)) = sz) by (apply U, nth_In, H).
  rewrite <- L at 1. rewrite firstn_app, firstn_all, Nat.sub_diag. simpl. apply app_nil_r.
Qed.

Lemma element_length a idx : in_memory a -> index_of (nd_shape a) idx -> length (element_at a idx) = itemsize (nd_dtype a).
Proof.
  intros [_ M] I. specialize (M idx I). unfold element_at. rewrite firstn_length, skipn_length. lia.
Qed.

Lemma tobytes_length a : in_memory a -> length (tobytes a) = prod (nd_shape a) * itemsize (nd_dtype a).
Proof.
  intros M. unfold tobytes. rewrite (concat_length (itemsize (nd_dtype a))); [now rewrite indices_length|].
  intros x I. apply element_length; auto. now apply index_in.
Qed.

(** a contiguous array made of the bytes of [a] *)
Lemma contiguous_same a w : in_memory a ->
  same_array a (mkNd (nd_dtype a) (nd_shape a) (c_strides (itemsize (nd_dtype a)) (nd_shape a)) 0 (tobytes a) w).
Proof.
  intros M. split; [reflexivity|]. split; [reflexivity|]. intros idx I. unfold element_at at 2. cbn [nd_dtype nd_shape nd_strides nd_offset nd_buf].
  rewrite (dot_rank _ _ _ I), Z.add_0_l, Nat2Z.id. unfold tobytes. rewrite (chunk _ _ _ _ idx).
  - now rewrite nth_rank.
  - intros x Ix. apply element_length; auto. now apply index_in.
  - rewrite indices_length. now apply rank_bound.
Qed.

Lemma contiguous_in_memory d shape buf w : length buf = prod shape * itemsize d -> in_memory (mkNd d shape (c_strides (itemsize d) shape) 0 buf w).
Proof.
  intros L. split; cbn [nd_strides nd_shape nd_offset nd_dtype nd_buf].
  - clear L. induction shape; simpl; auto.
  - intros idx I. rewrite (dot_rank _ _ _ I). pose proof (rank_bound _ _ I). rewrite L. nia.
Qed.

Lemma same_array_trans a b c : same_array a b -> same_array b c -> same_array a c.
Proof.
  intros (A1 & A2 & A3) (B1 & B2 & B3). repeat split; try congruence. intros idx I. rewrite A3 by exact I. apply B3. now rewrite <- A2.
Qed.

Lemma shape_roundtrip shape : rmap (fun x => match x with OInt z => if (z <? 0)%Z then Err ValueError else Ok (Z.to_nat z) | _ => Err TypeError end)
  (map (fun n => OInt (Z.of_nat n)) shape) = Ok shape.
Proof.
  induction shape as [|n r IH]; [reflexivity|]. cbn [map rmap]. destruct (Z.ltb_spec (Z.of_nat n) 0); [lia|]. cbn [rbind]. rewrite Nat2Z.id, IH. reflexivity.
Qed.

Definition view_of (a : ndarray) : ndarray :=
  mkNd (nd_dtype a) (nd_shape a) (c_strides (itemsize (nd_dtype a)) (nd_shape a)) 0 (tobytes a) false.

Lemma np_ndarray_ok a : in_memory a -> scalar_dtype (nd_dtype a) -> np_ndarray (tobytes a) (nd_dtype a) (nd_shape a) = Ok (view_of a).
Proof.
  intros M (o & k & n & u & D & _). unfold np_ndarray, view_of. rewrite D at 1. rewrite (tobytes_length a M).
  now rewrite Nat.ltb_irrefl.
Qed.

(** decoding an encoded array, whether the shape is a tuple or a list *)
Definition encoded (kind : string) (a : ndarray) (sh : list obj -> obj) : obj :=
  ODict [(KBytes "__tensor__", OStr kind);
         (KBytes "dtype", OStr (dtype_str (nd_dtype a)));
         (KBytes "shape", sh (map (fun n => OInt (Z.of_nat n)) (nd_shape a)));
         (KBytes "data", OBytes (tobytes a))].

Lemma decode_encoded torch td chain kind a sh : sh = OTuple \/ sh = OList -> in_memory a -> scalar_dtype (nd_dtype a) ->
  decode torch td chain (encoded kind a sh) =
  if (String.eqb kind "torch" && torch)%bool then
    if td (nd_dtype a) then Ok (OTensor (mkTn (np_copy (view_of a)) "cpu" false true)) else Err TypeError
  else Ok (OArray (view_of a)).
Proof.
  intros Hs M S. unfold decode, encoded. cbn [dget key_eqb String.eqb Ascii.eqb Bool.eqb].
  rewrite (dtype_roundtrip _ S). cbn [rbind].
  assert (Es : shape_of (sh (map (fun n => OInt (Z.of_nat n)) (nd_shape a))) = Ok (nd_shape a)).
  { destruct Hs as [->| ->]; cbn [shape_of]; apply shape_roundtrip. }
  rewrite Es. cbn [rbind]. rewrite (np_ndarray_ok a M S). reflexivity.
Qed.

Lemma view_same a : in_memory a -> same_array a (view_of a).
Proof. apply contiguous_same. Qed.

Lemma copy_same a : in_memory a -> same_array a (np_copy (view_of a)).
Proof.
  intros M. apply (same_array_trans _ (view_of a)); [now apply view_same|]. apply contiguous_same. apply contiguous_in_memory. now apply tobytes_length.
Qed.

(** ** files *)
Section ObjInd.
  Variable P : obj -> Prop.
  Hypothesis HN : P ONone.
  Hypothesis HB : forall b, P (OBool b).
  Hypothesis HI : forall z, P (OInt z).
  Hypothesis HF : forall f, P (OFloat f).
  Hypothesis HS : forall s, P (OStr s).
  Hypothesis HY : forall l, P (OBytes l).
  Hypothesis HL : forall l, Forall P l -> P (OList l).
  Hypothesis HT : forall l, Forall P l -> P (OTuple l).
  Hypothesis HD : forall d, Forall (fun kv => P (snd kv)) d -> P (ODict d).
  Hypothesis HA : forall a, P (OArray a).
  Hypothesis HE : forall t, P (OTensor t).
  Hypothesis HO : forall c, P (OOther c).
  Fixpoint obj_ind' (o : obj) : P o :=
    match o with
    | ONone => HN | OBool b => HB b | OInt z => HI z | OFloat f => HF f | OStr s => HS s | OBytes l => HY l
    | OList l => HL l ((fix go l : Forall P l := match l with [] => Forall_nil _ | x :: r => Forall_cons _ (obj_ind' x) (go r) end) l)
    | OTuple l => HT l ((fix go l : Forall P l := match l with [] => Forall_nil _ | x :: r => Forall_cons _ (obj_ind' x) (go r) end) l)
    | ODict d => HD d ((fix go d : Forall (fun kv => P (snd kv)) d :=
        match d with [] => Forall_nil _ | x :: r => Forall_cons _ (obj_ind' (snd x)) (go r) end) d)
    | OArray a => HA a | OTensor t => HE t | OOther c => HO c
    end.
End ObjInd.

Lemma small_ok {A} (l : list A) o : small l -> limited l o = Ok o.
Proof. intros H. unfold limited, too_long, small, ITEM_LIMIT in *. destruct (Z.ltb_spec 4294967295 (Z.of_nat (length l))); [simpl in H; lia|reflexivity]. Qed.
Lemma int64_ok z : int64 z -> packed_int z = Ok (OInt z).
Proof.
  intros [A B]. unfold packed_int. destruct (Z.leb_spec (- 2 ^ 63) z); [|lia]. destruct (Z.ltb_spec z (2 ^ 64)); [reflexivity|lia].
Qed.
Lemma key_ok k : small_key k -> packed_key k = Ok k.
Proof.
  destruct k as [s|s|z]; cbn [small_key packed_key]; intros H.
  - pose proof (small_ok _ ONone H) as E. unfold limited in E. now destruct (too_long _).
  - pose proof (small_ok _ ONone H) as E. unfold limited in E. now destruct (too_long _).
  - now rewrite (int64_ok z H).
Qed.

Lemma pack_encoded def kind a : savable_array a -> small (list_ascii_of_string kind) ->
  pack def (encoded kind a OTuple) = Ok (encoded kind a OList).
Proof.
  intros (M & S & D & L & I & B) K. unfold encoded. cbn [pack rmap fst snd packed_key].
  assert (T : forall {A} (l : list A), small l -> too_long l = false).
  { intros A l H. pose proof (small_ok l ONone H) as E. unfold limited in E. now destruct (too_long l). }
  rewrite (T _ (list_ascii_of_string "__tensor__")) by (unfold small; simpl; lia). cbn [rbind].
  rewrite (small_ok _ _ K). cbn [rbind].
  rewrite (T _ (list_ascii_of_string "dtype")) by (unfold small; simpl; lia). cbn [rbind].
  rewrite (small_ok _ _ D). cbn [rbind].
  rewrite (T _ (list_ascii_of_string "shape")) by (unfold small; simpl; lia). cbn [rbind].
  assert (R : rmap (pack def) (map (fun n => OInt (Z.of_nat n)) (nd_shape a)) = Ok (map (fun n => OInt (Z.of_nat n)) (nd_shape a))).
  { clear -I. induction I as [|n r H F IH]; [reflexivity|]. cbn [map rmap pack]. rewrite (int64_ok _ H). cbn [rbind]. now rewrite IH. }
  rewrite R. cbn [rbind]. rewrite small_ok by (unfold small in *; now rewrite map_length). cbn [rbind].
  rewrite (T _ (list_ascii_of_string "data")) by (unfold small; simpl; lia). cbn [rbind].
  rewrite small_ok by (unfold small; now rewrite (tobytes_length a M)). cbn [rbind].
  rewrite small_ok by (unfold small; simpl; lia). reflexivity.
Qed.

Lemma unpack_encoded torch td kind a : savable_array a ->
  unpackb torch td (encoded kind a OList) = decode torch td None (encoded kind a OList).
Proof.
  intros _. unfold unpackb, encoded. cbn [unpack rmap rbind fst snd].
  assert (R : rmap (unpack (decode torch td None)) (map (fun n => OInt (Z.of_nat n)) (nd_shape a)) = Ok (map (fun n => OInt (Z.of_nat n)) (nd_shape a))).
  { generalize (nd_shape a). intros l. induction l as [|n r IH]; [reflexivity|]. cbn [map rmap unpack rbind]. now rewrite IH. }
  rewrite R. reflexivity.
Qed.

Lemma dget_none d : ~ In (KBytes "__tensor__") (map fst d) -> dget (KBytes "__tensor__") d = None.
Proof.
  induction d as [|[k v] d IH]; intros H; [reflexivity|]. cbn [dget]. destruct (key_eqb (KBytes "__tensor__") k) eqn:E.
  - exfalso. apply H. left. destruct k as [s|s|z]; try discriminate. cbn [key_eqb] in E. apply String.eqb_eq in E. now subst.
  - apply IH. intros I. apply H. now right.
Qed.

Theorem file_roundtrip td o : savable td o -> exists w, packb true o = Ok w /\ exists o', unpackb true td w = Ok o' /\ same_obj o o'.
Proof.
  unfold packb. set (def := fun o => let* o' := encode true None o in pack (fun _ => Err TypeError) o').
  assert (LL : forall l, Forall (fun o => savable td o -> exists w, pack def o = Ok w /\ exists o', unpackb true td w = Ok o' /\ same_obj o o') l ->
    Forall (savable td) l -> exists ws, rmap (pack def) l = Ok ws /\ exists os, rmap (unpackb true td) ws = Ok os /\ Forall2 same_obj l os).
  { intros l IH Sv. induction Sv as [|x l Sx Sl IHl]; [exists []; split; [reflexivity|exists []; split; [reflexivity|constructor]]|].
    inversion IH as [|? ? I1 I2]; subst. destruct (I1 Sx) as (w & E & x' & E' & Sm). destruct (IHl I2) as (ws & F & os & F' & Sms).
    exists (w :: ws). cbn [rmap]. rewrite E, F. cbn [rbind]. split; [reflexivity|]. exists (x' :: os). cbn [rmap]. rewrite E', F'. cbn [rbind].
    split; [reflexivity|now constructor]. }
  induction o as [|b|z|f|s|l|l IH|l IH|d IH|a|t|c] using obj_ind'; intros Sv; inversion Sv; subst; cbn [pack].
  - eexists. split; [reflexivity|]. eexists. split; [reflexivity|constructor].
  - eexists. split; [reflexivity|]. eexists. split; [reflexivity|constructor].
  - eexists. split; [now apply int64_ok|]. eexists. split; [reflexivity|constructor].
  - eexists. split; [reflexivity|]. eexists. split; [reflexivity|constructor].
  - eexists. split; [now apply small_ok|]. eexists. split; [reflexivity|constructor].
  - eexists. split; [now apply small_ok|]. eexists. split; [reflexivity|constructor].
  - destruct (LL l IH H1) as (ws & E & os & E' & Sm). rewrite E. cbn [rbind]. eexists. split; [now apply small_ok|].
    exists (OList os). split; [|now constructor]. unfold unpackb in *. cbn [unpack]. rewrite E'. reflexivity.
  - destruct (LL l IH H1) as (ws & E & os & E' & Sm). rewrite E. cbn [rbind]. eexists. split; [now apply small_ok|].
    exists (OList os). split; [|now constructor]. unfold unpackb in *. cbn [unpack]. rewrite E'. reflexivity.
  - match goal with H : Forall _ d, K : ~ In _ _, Z : small d |- _ => rename H into Sd; rename K into Nt; rename Z into Sz end.
    assert (DD : exists ws, rmap (fun kv : key * obj => let* k := packed_key (fst kv) in let* v := pack def (snd kv) in Ok (k, v)) d = Ok ws /\ exists os, rmap (fun kv : key * obj => let* v := unpackb true td (snd kv) in Ok (fst kv, v)) ws = Ok os /\ Forall2 (fun kv kw => fst kv = fst kw /\ same_obj (snd kv) (snd kw)) d os).
    { clear Nt Sz Sv LL. induction Sd as [|[k x] d [Sk Sx] Sl IHl]; [exists []; split; [reflexivity|exists []; split; [reflexivity|constructor]]|].
      inversion IH as [|? ? I1 I2]; subst. cbn [fst snd] in *. destruct (I1 Sx) as (w & E & x' & E' & Sm). destruct (IHl I2) as (ws & F & os & F' & Sms).
      exists ((k, w) :: ws). cbn [rmap fst snd]. rewrite (key_ok k Sk). cbn [rbind]. rewrite E. cbn [rbind]. rewrite F. cbn [rbind]. split; [reflexivity|].
      exists ((k, x') :: os). cbn [rmap fst snd]. rewrite E'. cbn [rbind]. rewrite F'. cbn [rbind]. split; [reflexivity|]. constructor; auto. }
    destruct DD as (ws & E & os & E' & Sm). rewrite E. cbn [rbind]. eexists. split; [now apply small_ok|].
    exists (ODict os). split; [|now constructor]. unfold unpackb in *. cbn [unpack]. rewrite E'. cbn [rbind decode]. rewrite dget_none; [reflexivity|].
    assert (K : map fst os = map fst d) by (clear -Sm; induction Sm as [|? ? ? ? [H _] _ IH]; simpl; congruence). now rewrite K.
  - unfold def. cbn [encode rbind]. change (ODict _) with (encoded "numpy" a OTuple). eexists. split; [apply pack_encoded; [assumption|unfold small; simpl; lia]|].
    rewrite unpack_encoded by assumption. match goal with H : savable_array a |- _ => destruct H as (M & S & _) end.
    rewrite decode_encoded by auto. cbn. eexists. split; [reflexivity|]. constructor. now apply view_same.
  - unfold def, encode, to_numpy. rewrite H1, H2. cbn [rbind]. change (ODict _) with (encoded "torch" (tn_array t) OTuple).
    eexists. split; [apply pack_encoded; [assumption|unfold small; simpl; lia]|].
    rewrite unpack_encoded by assumption. match goal with H : savable_array _ |- _ => destruct H as (M & S & _) end.
    rewrite decode_encoded by auto. cbn [String.eqb Ascii.eqb Bool.eqb andb]. rewrite H3. eexists. split; [reflexivity|]. constructor. repeat split; cbn; try apply (copy_same _ M).
Qed.

(** ** others *)
Lemma array_decoded torch torch' td chain chain' a : in_memory a -> scalar_dtype (nd_dtype a) ->
  exists w b, encode torch chain (OArray a) = Ok w /\ decode torch' td chain' w = Ok (OArray b) /\ same_array a b.
Proof.
  intros M S. cbn [encode]. change (ODict _) with (encoded "numpy" a OTuple). eexists _, (view_of a). split; [reflexivity|].
  rewrite decode_encoded by auto. cbn. split; [reflexivity|now apply view_same].
Qed.
Lemma array_readonly torch td chain a : in_memory a -> scalar_dtype (nd_dtype a) ->
  exists w b, encode torch None (OArray a) = Ok w /\ decode torch td chain w = Ok (OArray b) /\ nd_writeable b = false.
Proof.
  intros M S. cbn [encode]. change (ODict _) with (encoded "numpy" a OTuple). eexists _, (view_of a). split; [reflexivity|].
  rewrite decode_encoded by auto. cbn. split; reflexivity.
Qed.
Lemma tensor_decoded torch' td chain chain' t :
  in_memory (tn_array t) -> scalar_dtype (nd_dtype (tn_array t)) ->
  tn_grad t = false -> tn_in_numpy t = true -> td (nd_dtype (tn_array t)) = true ->
  exists w o, encode true chain (OTensor t) = Ok w /\ decode torch' td chain' w = Ok o /\
    if torch' then exists t', o = OTensor t' /\ same_tensor t t' else exists b, o = OArray b /\ same_array (tn_array t) b.
Proof.
  intros M S G N T. exists (encoded "torch" (tn_array t) OTuple).
  unfold encode, to_numpy. rewrite G, N. cbn [rbind].
  rewrite decode_encoded by auto. cbn [String.eqb Ascii.eqb Bool.eqb andb]. rewrite T.
  destruct torch'; eexists; (split; [reflexivity|]); (split; [reflexivity|]); eexists; (split; [reflexivity|]).
  - repeat split; cbn; try apply (copy_same _ M).
  - now apply view_same.
Qed.
Lemma encode_others torch chain o : (forall a, o <> OArray a) -> (forall t, o <> OTensor t) ->
  encode torch None o = Ok o /\ encode torch (Some chain) o = chain o.
Proof. intros A T. destruct o; try (split; reflexivity); [now elim (A a)|now elim (T t)]. Qed.

Lemma dget_notin k d : ~ In k (map fst d) -> dget k d = None.
Proof.
  induction d as [|[k' v] d IH]; intros H; [reflexivity|]. cbn [dget]. destruct (key_eqb k k') eqn:E.
  - exfalso. apply H. left. cbn [fst]. destruct k as [s|s|z], k' as [s'|s'|z']; try discriminate; cbn [key_eqb] in E.
    + apply String.eqb_eq in E. now subst.
    + apply String.eqb_eq in E. now subst.
    + apply Z.eqb_eq in E. now subst.
  - apply IH. intros I. apply H. now right.
Qed.
Lemma decode_others torch td chain d :
  (exists k, In k ["__tensor__"; "data"; "dtype"; "shape"] /\ ~ In (KBytes k) (map fst d)) ->
  decode torch td None (ODict d) = Ok (ODict d) /\ decode torch td (Some chain) (ODict d) = chain (ODict d).
Proof.
  intros (k & I & N). apply dget_notin in N. cbn [decode].
  destruct I as [<-|[<-|[<-|[<-|[]]]]]; rewrite N; [split; reflexivity| | | ].
  all: destruct (dget (KBytes "__tensor__") d); [|split; reflexivity].
  - split; reflexivity.
  - destruct (dget (KBytes "data") d); split; reflexivity.
  - destruct (dget (KBytes "data") d), (dget (KBytes "dtype") d); split; reflexivity.
Qed.

Lemma objects_refuted : exists a, in_memory a /\
  exists w, encode true None (OArray a) = Ok w /\ forall torch td chain, decode torch td chain w = Err ValueError.
Proof.
  exists (mkNd DObject [1] [8]%Z 0 (repeat "000"%char 8) true). split.
  - split; [reflexivity|]. intros idx I. inversion I as [|? i ? t Hi Ht]; subst. inversion Ht; subst. assert (i = 0) by lia. subst. cbn. lia.
  - eexists. split; [reflexivity|]. intros. reflexivity.
Qed.
Lemma records_refuted : exists a, in_memory a /\ (0 < itemsize (nd_dtype a)) /\
  exists w b, encode true None (OArray a) = Ok w /\ (forall torch td chain, decode torch td chain w = Ok (OArray b)) /\
    nd_dtype b <> nd_dtype a.
Proof.
  exists (mkNd (DFields ["x"; "y"] 2) [1] [2]%Z 0 (repeat "000"%char 2) true). split; [|split].
  - split; [reflexivity|]. intros idx I. inversion I as [|? i ? t Hi Ht]; subst. inversion Ht; subst. assert (i = 0) by lia. subst. cbn. lia.
  - cbn. lia.
  - eexists _, _. split; [reflexivity|]. split; [intros; reflexivity|discriminate].
Qed.
Lemma grad_refuted t chain : tn_grad t = true -> encode true chain (OTensor t) = Err RuntimeError.
Proof. intros H. unfold encode, to_numpy. now rewrite H. Qed.
Lemma impostor_refuted : exists d, packb true (ODict d) = Ok (ODict d) /\
  forall td, exists a, unpackb true td (ODict d) = Ok (OArray a).
Proof.
  exists [(KBytes "__tensor__", ONone); (KBytes "dtype", OStr "|u1"); (KBytes "shape", OList []); (KBytes "data", OBytes ["x"%char])].
  split; [reflexivity|]. intros td. eexists. reflexivity.
Qed.
Lemma large_refuted torch a : in_memory a -> (2 ^ 32 <= Z.of_nat (prod (nd_shape a) * itemsize (nd_dtype a)))%Z ->
  forall w, packb torch (OArray a) <> Ok w.
Proof.
  intros M L w. unfold packb. cbn [pack encode rbind]. cbn [pack rmap fst snd packed_key].
  assert (E : limited (tobytes a) (OBytes (tobytes a)) = Err ValueError).
  { unfold limited, too_long. rewrite (tobytes_length a M). unfold ITEM_LIMIT. destruct (Z.ltb_spec 4294967295 (Z.of_nat (prod (nd_shape a) * itemsize (nd_dtype a)))); [reflexivity|lia]. }
  intros H. repeat (apply rbind_ok in H; destruct H as (? & ? & H)).
  repeat match goal with H : rbind _ _ = Ok _ |- _ => apply rbind_ok in H; destruct H as (? & ? & H) end. congruence.
Qed.
