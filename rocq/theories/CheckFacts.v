(** CheckFacts.v -- schema files (C34), comparing a schema with itself (C26) and
    severities (C27). *)
From Verif Require Import Base Value Schema Rewrite Types Sched Asdict FromDict Induct AFacts Checker SpecTypes SpecRenames
  SpecCheck RoundTrip ConfigFacts RenameFacts FindFacts.

Lemma all_in {A} (P : A -> Prop) l : all P l <-> forall x, In x l -> P x.
Proof. rewrite <- Forall_forall. split; intros H; apply all_Forall; exact H. Qed.

(** ** Severities *)
Lemma sev_gt_le a b : sev_gt a b = false <-> (sev_value a <= sev_value b)%Z.
Proof. unfold sev_gt. rewrite Z.ltb_ge. reflexivity. Qed.

Lemma worst_fold l : forall s0 s, worst l s ->
  fold_left (fun m x => if sev_gt x m then x else m) l s0 = if sev_gt s s0 then s else s0.
Proof.
  induction l as [|x l IH]; intros s0 s W; inversion W; subst; cbn [fold_left].
  - destruct s0; reflexivity.
  - match goal with H : worst l _ |- _ => rewrite (IH _ _ H) end.
    repeat match goal with s : severity |- _ => destruct s end; try reflexivity; cbn in *; lia.
  - match goal with H : worst l _ |- _ => rewrite (IH _ _ H) end.
    repeat match goal with s : severity |- _ => destruct s end; try reflexivity; cbn in *; lia.
Qed.

Lemma worst_exists l : exists s, worst l s.
Proof.
  induction l as [|x l [s W]]; [exists INFO; constructor|].
  destruct (Z_le_gt_dec (sev_value s) (sev_value x)).
  - exists x. eapply worst_more; eauto.
  - exists s. eapply worst_same; eauto. lia.
Qed.

Lemma severity_worst k : worst (map change_severity (ck_changes k)) (checker_severity k).
Proof.
  destruct (worst_exists (map change_severity (ck_changes k))) as [s W].
  assert (E : checker_severity k = s); [|now rewrite E].
  unfold checker_severity.
  assert (F : forall l s0, fold_left (fun m c => if sev_gt (change_severity c) m then change_severity c else m) l s0 =
    fold_left (fun m x => if sev_gt x m then x else m) (map change_severity l) s0).
  { induction l as [|c l IH]; intros s0; [reflexivity|]. cbn [fold_left map]. apply IH. }
  rewrite F, (worst_fold _ _ _ W). destruct s; reflexivity.
Qed.

Lemma worst_info l : worst l INFO <-> forall x, In x l -> x = INFO.
Proof.
  induction l as [|x l IH].
  - split; [intros _ x []|constructor].
  - split.
    + intros W. inversion W as [|x' l' s W' L|x' l' s W' L]; subst; intros y [<-|I]; auto.
      * destruct s; cbn in L; try lia. apply IH; auto.
      * destruct x; cbn in L; try lia; auto.
      * apply IH; auto.
    + intros H. rewrite (H x) by now left. eapply worst_more; [|apply Z.le_refl]. apply IH. intros y Y. apply H. now right.
Qed.

Lemma severity_fix c :
  (change_severity c = ERROR -> proposed_fix c = None) /\ (change_severity c = WARN -> exists r, proposed_fix c = Some r).
Proof.
  unfold change_severity, default_severity. destruct c as [p ? ? hd| | | | |p o n| | | | | | ]; cbn; split; intros H; try discriminate; eauto.
  - destruct hd; [discriminate|]. destruct type; try discriminate; auto.
  - destruct hd; [discriminate|]. destruct type; try discriminate; eauto.
  - destruct (is_subtype o n); [discriminate|]. destruct (wraps_in_list n o); [discriminate|]. destruct n; try discriminate; auto.
  - destruct (is_subtype o n); [discriminate|]. destruct (wraps_in_list n o); [eauto|]. destruct n; try discriminate; eauto.
Qed.

Lemma checker_new s clz k : schema_checker s clz true = Ok k -> exists new, materialize_type clz = Ok new.
Proof. unfold schema_checker. destruct (materialize_type clz); [eauto|discriminate]. Qed.

Lemma upgrade_schema_rewrites file clz s k : load_schema file = Ok s -> schema_checker s clz true = Ok k ->
  (checker_severity k = INFO -> exists f, dump_schema clz = Ok f /\ upgrade_schema file clz = Ok (Rewritten f)) /\
  (checker_severity k <> INFO -> upgrade_schema file clz = Ok (Reported (print_report k))).
Proof.
  intros L C. unfold upgrade_schema. rewrite L. cbn [rbind]. rewrite C. cbn [rbind]. split.
  - intros ->. cbn. unfold dump_schema. destruct (checker_new _ _ _ C) as [new ->]. cbn. eauto.
  - intros N. destruct (checker_severity k); [congruence|reflexivity|reflexivity].
Qed.

(** ** Comparing a schema with itself *)
Fixpoint comparable (t : sty) : Prop :=
  match t with
  | SPrim _ => True
  | SList i | SOption i => comparable i
  | SStruct _ fs _ =>
      NoDup (map fst fs) /\
      all (fun f : string * sfield => comparable (fst (snd f)) /\
             (fm_has_default (snd (snd f)) = true -> self_equal (fm_default (snd (snd f))))) fs
  | SEnum _ vs => NoDup (map fst vs) /\ all (fun m => self_equal (snd m)) vs
  | SLit l => all self_equal l
  | _ => False
  end.

Lemma flat_map_nil {A B} (f : A -> list B) l : (forall x, In x l -> f x = []) -> flat_map f l = [].
Proof.
  induction l as [|x l IH]; intros H; [reflexivity|]. cbn [flat_map]. rewrite (H x) by now left.
  apply IH. intros y Y. apply H. now right.
Qed.

Lemma removed_none path fs gs : (forall n, In n (map fst fs) -> In n (map fst gs)) -> removed_fields path gs fs = [].
Proof.
  intros H. unfold removed_fields. apply flat_map_nil. intros kv I.
  replace (amem (fst kv) gs) with true; [reflexivity|]. symmetry. apply amem_true. apply H. now apply in_map.
Qed.

Lemma find_self t : forall path, comparable t -> find_changes t t path = Ok [].
Proof.
  induction t as [p|i IH|l IH|k v IHk IHv|l IH|n fs ver IH|i IH|n ms|l| ] using sty_ind'; intros path C; try destruct C.
  - cbn [find_changes]. now rewrite String.eqb_refl.
  - apply IH, C.
  - rename H into N. rename H0 into A. rewrite find_struct. rewrite (removed_none path fs fs) by auto.
    rewrite all_in in A. rewrite Forall_forall in IH.
    assert (S : forall gs : list (string * sfield), (forall x, In x gs -> In x fs) -> sections fs gs path = Ok []).
    { induction gs as [|[m [ft fm]] gs IHg]; intros Sub; [reflexivity|]. cbn [sections]. unfold field_section.
      assert (I : In (m, (ft, fm)) fs) by (apply Sub; now left). assert (Eg : @aget sfield m fs = Some (ft, fm)) by (apply in_nodup_aget; auto). rewrite Eg.
      destruct (A _ I) as [Cf Df]. cbn [fst snd] in Cf, Df. rewrite andb_negb_r. rewrite (IH _ I) by exact Cf. cbn [rbind].
      rewrite IHg by (intros x X; apply Sub; now right). cbn [rbind]. unfold default_changes.
      rewrite Bool.eqb_reflx. cbn [negb]. destruct (fm_has_default fm); [|reflexivity]. rewrite Df by reflexivity. reflexivity. }
    rewrite S by auto. reflexivity.
  - apply IH, C.
  - cbn [find_changes]. rename H into N. rename H0 into A. rewrite all_in in A. unfold new_variants, gone_variants.
    rewrite flat_map_nil.
    2:{ intros [k v] I. cbn [fst snd]. rewrite (in_nodup_aget k v ms N I). rewrite (A _ I). reflexivity. }
    rewrite flat_map_nil; [reflexivity|]. intros kv I. replace (amem (fst kv) ms) with true; [reflexivity|].
    symmetry. apply amem_true. now apply in_map.
  - cbn [find_changes]. cbn [comparable] in C. rewrite all_in in C. unfold literal_changes.
    assert (Z : set_minus l l = []); [|rewrite Z; reflexivity].
    unfold set_minus. clear -C.
    assert (G : forall m, (forall x, In x m -> In x l) -> filter (fun v => negb (py_elem v l)) m = []); [|now apply G].
    induction m as [|x m IH]; intros Sub; [reflexivity|]. cbn [filter].
    replace (py_elem x l) with true; [apply IH; intros y Y; apply Sub; now right|].
    symmetry. unfold py_elem. apply existsb_exists. exists x. split; [apply Sub; now left|]. apply C, Sub. now left.
Qed.

Lemma compare_self t : comparable t -> compare_schemas t t = Ok (mkChk t t [] []).
Proof. intros C. unfold compare_schemas. rewrite find_self by exact C. reflexivity. Qed.

Lemma recorded_default d v : recorded d v <-> has_default d = true /\ schema_default (default_value d) = v.
Proof.
  destruct d as [|w|w]; cbn; [split; [intros []|intros [H _]; discriminate]| |];
    (split; [intros ->; split; [reflexivity|destruct w; reflexivity]|intros [_ <-]; destruct w; reflexivity]).
Qed.

Lemma rmap_fields_names fs fields :
  rmap (fun f : string * (ty * dflt) =>
     let '(n, (t', d)) := f in
     let* s := materialize_type t' in
     Ok (n, (s, mkF n (schema_default (default_value d)) (has_default d) None))) fs = Ok fields ->
  map fst fields = map fst fs /\
  forall x, In x fields -> exists t d, In (fst x, (t, d)) fs /\ materialize_type t = Ok (fst (snd x)) /\
    snd (snd x) = mkF (fst x) (schema_default (default_value d)) (has_default d) None.
Proof.
  revert fields. induction fs as [|[n [t d]] fs IH]; intros fields H.
  - injection H as <-. split; [reflexivity|intros x []].
  - cbn [rmap] in H. apply rbind_ok in H. destruct H as (y & Hy & H). apply rbind_ok in H. destruct H as (ys & Hys & H).
    injection H as <-. apply rbind_ok in Hy. destruct Hy as (s & Hs & Hy). injection Hy as <-.
    destruct (IH ys Hys) as [A B]. split; [cbn; now rewrite A|].
    intros x [<-|I].
    + exists t, d. cbn. auto.
    + destruct (B x I) as (t' & d' & I' & Q). exists t', d'. split; [now right|exact Q].
Qed.

Lemma materialize_comparable t : forall s, materialize_type t = Ok s ->
  file_type t -> values_in self_equal t -> names_differ t -> comparable s.
Proof.
  induction t as [| | | | |i IH|l IH|kt vt IHk IHv|i IH|l IH|c fs IH|n ms|l|n] using ty_ind'; intros s H F V N;
    cbn [materialize_type] in H; try (destruct F; fail); try (injection H as <-; exact I).
  - apply rbind_ok in H. destruct H as (s' & H & E). injection E as <-. cbn. now apply IH.
  - apply rbind_ok in H. destruct H as (s' & H & E). injection E as <-. cbn. now apply IH.
  - apply rbind_ok in H. destruct H as (fields & H & E). injection E as <-.
    destruct (rmap_fields_names _ _ H) as [A B]. cbn [file_type values_in names_differ] in F, V, N. destruct N as [Nd N].
    cbn [comparable]. rewrite A. split; [exact Nd|]. apply all_in. intros x X.
    destruct (B x X) as (t & d & I & M & E). rewrite Forall_forall in IH. rewrite all_in in F, V, N. split.
    + apply (IH _ I _ M (F _ I) (proj1 (V _ I)) (N _ I)).
    + destruct x as [k [st sm]]. cbn [fst snd] in *. subst sm. cbn [fm_has_default fm_default]. intros Hd. apply (V _ I). apply recorded_default. auto.
  - injection H as <-. cbn. auto.
  - injection H as <-. exact V.
Qed.

(** ** Schema files *)

(** the schema read back from the file of [t] *)
Fixpoint reread (t : sty) : sty :=
  match t with
  | SList i => SList (reread i)
  | SOption i => SOption (reread i)
  | SStruct n fs ver =>
      SStruct n (map (fun f : string * sfield =>
        (fst f, (reread (fst (snd f)),
                 mkF (fst f) (ron_value (fm_default (snd (snd f)))) (fm_has_default (snd (snd f))) None))) fs) ver
  | SEnum n vs => SEnum n (map (fun kv => (fst kv, ron_value (snd kv))) vs)
  | SLit l => SLit (map ron_value l)
  | _ => t
  end.

(** no Tuple, Dict, Union *)
Fixpoint in_file (t : sty) : bool :=
  match t with
  | SPrim _ | SEnum _ _ | SLit _ => true
  | SList i | SOption i => in_file i
  | SStruct _ fs _ => forallb (fun f : string * sfield => in_file (fst (snd f))) fs
  | _ => false
  end.

Definition read_fields : list (string * pyval) -> res (list (string * sfield)) :=
  fix go (l : list (string * pyval)) : res (list (string * sfield)) :=
    match l with
    | [] => Ok []
    | (n, f) :: r =>
        match f with
        | VNt _ fd =>
            let* t := nt_attr schema_from_namedtuple "type" fd in
            let* df := nt_attr Ok "default" fd in
            let* hd := nt_attr py_as_bool "has_default" fd in
            let* rest := go r in
            Ok ((n, (t, mkF n df hd None)) :: rest)
        | _ => Err AttributeError
        end
    end.

Definition field_ron (kv : string * sfield) : string * pyval :=
  let '(k, (ft, m)) := kv in
  (k, VNt "Field"
        [("name", VStr (fm_name m));
         ("type", schema_ron ft);
         ("default", ron_value (fm_default m));
         ("has_default", VBool (fm_has_default m));
         ("docstring", match fm_doc m with Some s => VStr s | None => VNone end)]).

Lemma from_struct n fs ver : schema_from_namedtuple (schema_ron (SStruct n fs ver)) =
  let* fields := read_fields (map field_ron fs) in Ok (SStruct n fields ver).
Proof.
  change (schema_from_namedtuple (schema_ron (SStruct n fs ver))) with
    (let* fields := read_fields (map field_ron fs) in
     let* ver' := py_as_optZ (match ver with Some z => VInt z | None => VNone end) in Ok (SStruct n fields ver')).
  destruct ver; reflexivity.
Qed.

Lemma read_fields_cons k ft m fs : read_fields (map field_ron ((k, (ft, m)) :: fs)) =
  let* t := schema_from_namedtuple (schema_ron ft) in
  let* rest := read_fields (map field_ron fs) in
  Ok ((k, (t, mkF k (ron_value (fm_default m)) (fm_has_default m) None)) :: rest).
Proof. reflexivity. Qed.

Lemma from_ron t : schema_from_namedtuple (schema_ron t) = if in_file t then Ok (reread t) else Err ValueError.
Proof.
  induction t as [p|i IH|l IH|k v IHk IHv|l IH|n fs ver IH|i IH|n ms|l| ] using sty_ind'; try reflexivity.
  - cbn [in_file reread]. change (schema_from_namedtuple (schema_ron (SList i))) with
      (let* t := schema_from_namedtuple (schema_ron i) in Ok (SList t)). rewrite IH. destruct (in_file i); reflexivity.
  - rewrite from_struct. cbn [in_file reread].
    assert (R : read_fields (map field_ron fs) =
      if forallb (fun f : string * sfield => in_file (fst (snd f))) fs then
        Ok (map (fun f : string * sfield =>
        (fst f, (reread (fst (snd f)),
                 mkF (fst f) (ron_value (fm_default (snd (snd f)))) (fm_has_default (snd (snd f))) None))) fs)
      else Err ValueError).
    { induction fs as [|[k [ft m]] fs IHf]; [reflexivity|]. apply Forall_cons_iff in IH. destruct IH as [H IH].
      rewrite read_fields_cons. cbn [fst snd] in H. rewrite H. cbn [forallb fst snd]. destruct (in_file ft); [|reflexivity].
      cbn [rbind andb]. rewrite (IHf IH). destruct (@forallb (string * sfield) _ fs); reflexivity. }
    rewrite R. destruct (@forallb (string * sfield) _ fs); reflexivity.
  - cbn [in_file reread]. change (schema_from_namedtuple (schema_ron (SOption i))) with
      (let* t := schema_from_namedtuple (schema_ron i) in Ok (SOption t)). rewrite IH. destruct (in_file i); reflexivity.
Qed.

Lemma simple_ron v : simple v -> ron_value v = v.
Proof.
  induction v as [| | | | |l IH|l IH|d IH|n d IH|n d IH|c m x IH|c x IH] using pyval_ind'; intros S; try reflexivity; try destruct S.
  - cbn [ron_value]. f_equal. cbn [simple] in S. rewrite all_in in S. rewrite Forall_forall in IH.
    rewrite <- (map_id l) at 2. apply map_ext_in. auto.
  - cbn [ron_value]. f_equal. cbn [simple] in S. rewrite all_in in S. rewrite Forall_forall in IH.
    rewrite <- (map_id d) at 2. apply map_ext_in. intros [k v] I. specialize (IH _ I). specialize (S _ I). cbn [fst snd] in *. now rewrite IH.
Qed.

Lemma materialize_reread t : forall s, materialize_type t = Ok s -> file_type t -> values_in simple t -> reread s = s.
Proof.
  induction t as [| | | | |i IH|l IH|kt vt IHk IHv|i IH|l IH|c fs IH|n ms|l|n] using ty_ind'; intros s H F V;
    cbn [materialize_type] in H; try (destruct F; fail); try (injection H as <-; reflexivity).
  - apply rbind_ok in H. destruct H as (s' & H & E). injection E as <-. cbn [reread]. f_equal. now apply IH.
  - apply rbind_ok in H. destruct H as (s' & H & E). injection E as <-. cbn [reread]. f_equal. now apply IH.
  - apply rbind_ok in H. destruct H as (fields & H & E). injection E as <-.
    destruct (rmap_fields_names _ _ H) as [A B]. cbn [file_type values_in] in F, V. cbn [reread]. f_equal.
    rewrite <- (map_id fields) at 2. apply map_ext_in. intros x X.
    destruct (B x X) as (t & d & I & M & E). rewrite Forall_forall in IH. rewrite all_in in F, V.
    destruct x as [k [st sm]]. cbn [fst snd] in *. subst sm.
    rewrite (IH _ I _ M (F _ I)) by apply (V _ I). cbn [fm_has_default fm_default].
    replace (ron_value (schema_default (default_value d))) with (schema_default (default_value d)).
    2:{ symmetry. destruct d as [|w|w]; [reflexivity| |]; apply simple_ron, (V _ I), recorded_default; auto. }
    reflexivity.
  - injection H as <-. cbn [reread]. f_equal. cbn [values_in] in V. rewrite all_in in V.
    rewrite <- (map_id ms) at 2. apply map_ext_in. intros [k v] I. cbn [fst snd]. rewrite simple_ron; [reflexivity|apply (V _ I)].
  - injection H as <-. cbn [reread]. f_equal. cbn [values_in] in V. rewrite all_in in V.
    rewrite <- (map_id l) at 2. apply map_ext_in. intros v I. now apply simple_ron, V.
Qed.

Lemma materialize_in_file t : forall s, materialize_type t = Ok s -> (in_file s = true <-> file_type t).
Proof.
  induction t as [| | | | |i IH|l IH|kt vt IHk IHv|i IH|l IH|c fs IH|n ms|l|n] using ty_ind'; intros s H;
    cbn [materialize_type] in H; try discriminate H; try (injection H as <-; cbn; tauto).
  - apply rbind_ok in H. destruct H as (s' & H & E). injection E as <-. cbn. now apply IH.
  - apply rbind_ok in H. destruct H as (s' & H & E). injection E as <-. cbn. split; [discriminate|intros []].
  - apply rbind_ok in H. destruct H as (s' & H & E). apply rbind_ok in E. destruct E as (s2 & H2 & E). injection E as <-.
    cbn. split; [discriminate|intros []].
  - apply rbind_ok in H. destruct H as (s' & H & E). injection E as <-. cbn. now apply IH.
  - apply rbind_ok in H. destruct H as (s' & H & E). injection E as <-. cbn. split; [discriminate|intros []].
  - apply rbind_ok in H. destruct H as (fields & H & E). injection E as <-. cbn [in_file file_type].
    rewrite all_in. revert fields H. induction fs as [|[n [t d]] fs IHf]; intros fields H.
    + injection H as <-. cbn. split; [intros _ x []|reflexivity].
    + apply Forall_cons_iff in IH. destruct IH as [IHt IH]. cbn [rmap] in H. apply rbind_ok in H. destruct H as (y & Hy & H).
      apply rbind_ok in H. destruct H as (ys & Hys & H). injection H as <-. apply rbind_ok in Hy. destruct Hy as (s & Hs & Hy). injection Hy as <-.
      cbn [forallb fst snd]. rewrite andb_true_iff, (IHt _ Hs), (IHf IH _ Hys). cbn [fst snd]. split.
      * intros [P Q] x [<-|X]; [exact P|apply Q, X].
      * intros Q. split; [apply (Q (n, (t, d))); now left|intros x X; apply Q; now right].
Qed.

(** dump-schema writes a file that load_schema reads exactly for supported types *)
Lemma dump_loads c fs s : materialize_type (TData c fs) = Ok s ->
  dump_schema (TData c fs) = Ok (schema_ron s) /\
  (file_type (TData c fs) -> load_schema (schema_ron s) = Ok (reread s)) /\
  (~ file_type (TData c fs) -> load_schema (schema_ron s) = Err ValueError).
Proof.
  intros M. unfold dump_schema. rewrite M. split; [reflexivity|].
  pose proof (materialize_in_file _ _ M) as F. unfold load_schema. rewrite from_ron.
  cbn [materialize_type] in M. apply rbind_ok in M. destruct M as (fields & M & E). injection E as <-.
  destruct (in_file _).
  - split; [intros _; reflexivity|]. intros N. exfalso. tauto.
  - split; [|reflexivity]. intros T. apply F in T. discriminate.
Qed.

Lemma file_type_configurable t : file_type t -> exists s, materialize_type t = Ok s.
Proof.
  induction t as [| | | | |i IH|l IH|kt vt IHk IHv|i IH|l IH|c fs IH|n ms|l|n] using ty_ind'; intros F; try (destruct F; fail);
    try (eexists; reflexivity).
  - destruct (IH F) as [s E]. cbn [materialize_type]. rewrite E. eexists. reflexivity.
  - destruct (IH F) as [s E]. cbn [materialize_type]. rewrite E. eexists. reflexivity.
  - cbn [materialize_type file_type] in *. rewrite all_in in F. rewrite Forall_forall in IH.
    destruct (rmap_total (fun f : string * (ty * dflt) =>
     let '(n, (t', d)) := f in
     let* s := materialize_type t' in
     Ok (n, (s, mkF n (schema_default (default_value d)) (has_default d) None))) fs) as [ys E].
    + intros [n [t d]] I. destruct (IH _ I (F _ I)) as [s E]. cbn [fst snd] in E. rewrite E. eexists. reflexivity.
    + rewrite E. eexists. reflexivity.
Qed.

Lemma zrange_self v : zrange v v = [].
Proof. unfold zrange. rewrite Z.sub_diag. reflexivity. Qed.

Lemma check_dumped c fs v rules : c_versioned c = Some (v, rules) ->
  file_type (TData c fs) -> values_in simple (TData c fs) -> values_in self_equal (TData c fs) -> names_differ (TData c fs) ->
  exists file, dump_schema (TData c fs) = Ok file /\
    check_schema file (TData c fs) = Ok (mkRep [] false true None None) /\
    upgrade_schema file (TData c fs) = Ok (Rewritten file).
Proof.
  intros Cv F Vs Ve N. destruct (file_type_configurable _ F) as [s M].
  destruct (dump_loads c fs s M) as (D & L & _). specialize (L F). rewrite (materialize_reread _ _ M F Vs) in L.
  pose proof (materialize_comparable _ _ M F Ve N) as C.
  exists (schema_ron s). split; [exact D|].
  assert (K : schema_checker s (TData c fs) true = Ok (mkChk s s [] [])).
  { unfold schema_checker. rewrite M. cbn [rbind]. assert (V : schema_version s = Some v).
    { cbn [materialize_type] in M. apply rbind_ok in M. destruct M as (fields & M & E). injection E as <-. cbn. now rewrite Cv. }
    assert (St : is_struct s = true).
    { cbn [materialize_type] in M. apply rbind_ok in M. destruct M as (fields & M & E). now injection E as <-. }
    rewrite St. cbn [negb]. rewrite Cv. unfold apply_schema_upgrades. rewrite V, zrange_self. cbn [schema_upgrade_steps rbind].
    now apply compare_self. }
  unfold check_schema, upgrade_schema. rewrite L. cbn [rbind]. rewrite K. cbn [rbind]. split; [reflexivity|].
  cbn. rewrite D. reflexivity.
Qed.

Lemma materialize_distinct t : forall s, materialize_type t = Ok s -> names_differ t -> distinct_names s.
Proof.
  assert (G : forall l ss, Forall (fun t => forall s, materialize_type t = Ok s -> names_differ t -> distinct_names s) l ->
     rmap materialize_type l = Ok ss -> all names_differ l ->
     (fix go l := match l with [] => True | x :: r => distinct_names x /\ go r end) ss).
  { intros l; induction l as [|t1 l IHl]; intros ss F H N.
    - injection H as <-. exact I.
    - cbn [rmap] in H. apply rbind_ok in H. destruct H as (y & Hy & H). apply rbind_ok in H. destruct H as (ys & Hys & H).
      injection H as <-. apply Forall_cons_iff in F. destruct F as [F1 F]. destruct N as [N1 N]. split; [now apply F1|now apply IHl]. }
  induction t as [| | | | |i IH|l IH|kt vt IHk IHv|i IH|l IH|c fs IH|n ms|l|n] using ty_ind'; intros s H N;
    cbn [materialize_type] in H; try discriminate H; try (injection H as <-; exact I).
  - apply rbind_ok in H. destruct H as (s' & H & E). injection E as <-. cbn. now apply IH.
  - apply rbind_ok in H. destruct H as (s' & H & E). injection E as <-. cbn [distinct_names]. eapply G; eauto.
  - apply rbind_ok in H. destruct H as (s' & H & E). apply rbind_ok in E. destruct E as (s2 & H2 & E). injection E as <-.
    destruct N. split; auto.
  - apply rbind_ok in H. destruct H as (s' & H & E). injection E as <-. cbn. now apply IH.
  - apply rbind_ok in H. destruct H as (s' & H & E). injection E as <-. cbn [distinct_names]. eapply G; eauto.
  - apply rbind_ok in H. destruct H as (fields & H & E). injection E as <-. apply distinct_struct.
    destruct (rmap_fields_names _ _ H) as [A B]. destruct N as [Nd N]. rewrite all_in in N. rewrite Forall_forall in *. split.
    + unfold sfield in *. rewrite A. exact Nd.
    + intros x X. destruct (B x X) as (t & d & I & M & E). apply (IH _ I _ M), (N _ I).
  - injection H as <-. exact N.
Qed.
