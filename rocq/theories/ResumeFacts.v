(** ResumeFacts.v -- dumping a config with its schedules and a state with its
    Serializable parts, and loading the result: exact equations. *)
From Coq Require Import Permutation.
From Verif Require Import Base AFacts Value Schema Rewrite Sched Types Asdict FromDict
  Induct SpecTree SpecTypes RewriteFacts FromDictFacts RoundTrip SpecState.
From Verif Require OverrideFacts.

Definition child (tr : option stree) (k : string) : option stree :=
  match tr with Some (SNode l) => aget k l | _ => None end.

Definition is_leaf (tr : option stree) : option schedule :=
  match tr with Some (SLeaf s) => Some s | _ => None end.

(** ** what a dump looks like *)
Definition imap {A B} (f : nat -> A -> B) : nat -> list A -> list B :=
  fix go i l := match l with [] => [] | x :: r => f i x :: go (S i) r end.

Section Tree.
  Variable cls : string -> cmeta.

  Fixpoint dtree2 (v : pyval) (tr : option stree) {struct v} : pyval :=
    match is_leaf tr with
    | Some s => VStr (sch_unparsed s)
    | None =>
        match v with
        | VObj c d =>
            VNt c ((match cm_version (cls c) with Some z => [("version", VInt z)] | None => [] end) ++
                   map (fun kv => (fst kv, dtree2 (snd kv) (child tr (fst kv)))) d)%list
        | VDict d => VDict (map (fun kv => (fst kv, dtree2 (snd kv) None)) d)
        | VList l => VList (map (fun x => dtree2 x None) l)
        | VTuple l => VTuple (map (fun x => dtree2 x None) l)
        | VEnum _ m _ => VStr m
        | VBlob _ _ => VStr "<blob:msgpack>"
        | _ => v
        end
    end.

  Fixpoint dumpable2 (v : pyval) : bool :=
    match v with
    | VObj c d =>
        nodupb (map fst d) &&
        forallb (fun n => field_name_ok (is_some (cm_version (cls c))) n && negb (has_char "." n)) (map fst d) &&
        forallb (fun kv => dumpable2 (snd kv)) d
    | VDict d => forallb (fun kv => dumpable2 (snd kv)) d
    | VList l | VTuple l => forallb dumpable2 l
    | VNt _ _ => false
    | _ => true
    end.

  (** the blobs written, in order: dump path and payload *)
  Fixpoint dblobs (v : pyval) (tr : option stree) (path : string) {struct v} : list (string * pyval) :=
    match is_leaf tr with
    | Some _ => []
    | None =>
        match v with
        | VObj _ d => concat (map (fun kv => dblobs (snd kv) (child tr (fst kv)) (path_join path (fst kv))) d)
        | VDict d => concat (map (fun kv => dblobs (snd kv) None (path_join path (fst kv))) d)
        | VList l | VTuple l => concat (imap (fun i x => dblobs x None (path_join path (show_nat i))) 0 l)
        | VBlob _ p => [(path, p)]
        | _ => []
        end
    end.
End Tree.

(** schedules sit at dataclass fields only, and never on a blob *)
Fixpoint tree_ok (v : pyval) (tr : option stree) {struct v} : Prop :=
  match is_leaf tr with
  | Some _ => match v with VBlob _ _ => False | _ => True end
  | None =>
      match v with
      | VObj _ d => all (fun kv => tree_ok (snd kv) (child tr (fst kv))) d
      | VDict d => (tr = None \/ tr = Some (SNode [])) /\ all (fun kv => tree_ok (snd kv) None) d
      | VList l | VTuple l => (tr = None \/ tr = Some (SNode [])) /\ all (fun x => tree_ok x None) l
      | _ => True
      end
  end.

Definition blobs_add (l : list (string * pyval)) (b : blobs) : blobs :=
  fold_left (fun b kv => aset (blob_file (fst kv)) (snd kv) b) l b.

Lemma blobs_add_app l1 l2 b : blobs_add (l1 ++ l2)%list b = blobs_add l2 (blobs_add l1 b).
Proof. apply fold_left_app. Qed.

Lemma smap_blobs {A B} (f : A -> blobs -> res (B * blobs)) (g : A -> B) (e : A -> list (string * pyval)) l :
  (forall x, In x l -> forall b, f x b = Ok (g x, blobs_add (e x) b)) ->
  forall b, smap f l b = Ok (map g l, blobs_add (concat (map e l)) b).
Proof.
  induction l as [|x l IH]; intros H b; [reflexivity|]. rewrite smap_cons, H by (left; auto).
  cbn [rbind fst snd]. rewrite IH by (intros; apply H; right; auto). cbn [rbind fst snd map concat].
  now rewrite blobs_add_app.
Qed.

Lemma smapi_blobs {A B} (f : nat -> A -> blobs -> res (B * blobs)) (g : A -> B) (e : nat -> A -> list (string * pyval)) l :
  (forall i x, In x l -> forall b, f i x b = Ok (g x, blobs_add (e i x) b)) ->
  forall i b, smapi f i l b = Ok (map g l, blobs_add (concat (imap e i l)) b).
Proof.
  induction l as [|x l IH]; intros H i b; [reflexivity|]. rewrite smapi_cons, H by (left; auto).
  cbn [rbind fst snd]. rewrite IH by (intros; apply H; right; auto). cbn [rbind fst snd map imap concat].
  now rewrite blobs_add_app.
Qed.

(** ** dumping *)
Lemma split_on_dot a b : split_on "." (a ++ "." ++ b) = (split_on "." a ++ split_on "." b)%list.
Proof.
  change ("." ++ b) with (String "." b).
  induction a as [|c a IH]; [reflexivity|].
  change (split_on "." (String c a ++ String "." b)) with
    (if Ascii.eqb c "." then EmptyString :: split_on "." (a ++ String "." b)
     else match split_on "." (a ++ String "." b) with [] => [String c EmptyString] | w :: ws => String c w :: ws end).
  change (split_on "." (String c a)) with
    (if Ascii.eqb c "." then EmptyString :: split_on "." a
     else match split_on "." a with [] => [String c EmptyString] | w :: ws => String c w :: ws end).
  rewrite IH. assert (N := OverrideFacts.split_on_nonempty "." a).
  destruct (Ascii.eqb c "."); [reflexivity|]. destruct (split_on "." a); [easy|]. reflexivity.
Qed.

Section Dump.
  Variable cls : string -> cmeta.
  Variable root : option (list (string * stree)).
  Variable el : bool.

  Definition ssS : list serializer :=
    ([LazySer; VersionedSer] ++ match root with Some t => [ScheduleSer t] | None => [] end)%list.

  Definition look (segs : list string) : res (option string) :=
    match root with Some t => sched_lookup (SNode t) segs | None => Ok None end.

  Definition segs (path : string) : list string := if String.eqb path "" then [] else split_on "." path.

  (** [tr] is what the schedules dict has at [path] *)
  Definition at_path (path : string) (tr : option stree) : Prop :=
    (forall rest, look (segs path ++ rest) = match tr with None => Ok None | Some t => sched_lookup t rest end) /\
    (path = "" -> look [""] = Ok None /\ is_leaf tr = None).

  Lemma look_at path tr : at_path path tr ->
    look (split_on "." path) = Ok (match is_leaf tr with Some s => Some (sch_unparsed s) | None => None end).
  Proof.
    intros [H1 H2]. destruct (String.eqb_spec path "") as [->|Hp].
    - destruct (H2 eq_refl) as [H3 ->]. exact H3.
    - specialize (H1 []). unfold segs in H1. rewrite eqb_neq_str in H1 by auto. rewrite app_nil_r in H1. rewrite H1.
      destruct tr as [[s|l]|]; reflexivity.
  Qed.

  Lemma at_child path tr k : at_path path tr -> is_leaf tr = None -> k <> "" -> has_char "." k = false ->
    at_path (path_join path k) (child tr k).
  Proof.
    intros [H1 _] Hl Hk Hd. split.
    - intros rest. assert (segs (path_join path k) = segs path ++ [k])%list as ->.
      { unfold segs, path_join. destruct (String.eqb_spec path "") as [->|Hp].
        - rewrite eqb_neq_str by auto. now rewrite OverrideFacts.split_on_plain.
        - rewrite eqb_neq_str; [|intros X; apply append_empty in X; tauto].
          rewrite split_on_dot. now rewrite (OverrideFacts.split_on_plain _ k). }
      rewrite <- app_assoc, H1. destruct tr as [[s|l]|]; [discriminate| |reflexivity].
      cbn [app sched_lookup child]. destruct (aget k l); reflexivity.
    - unfold path_join. intros H. exfalso. destruct (String.eqb_spec path "") as [->|Hp]; [tauto|].
      apply append_empty in H. tauto.
  Qed.

  (** below a place without schedules there are none *)
  Lemma at_none path k : path <> "" -> at_path path None -> at_path (path_join path k) None.
  Proof.
    intros Hp [H1 _]. split.
    - intros rest. assert (segs (path_join path k) = segs path ++ split_on "." k)%list as ->.
      { unfold segs, path_join. rewrite (eqb_neq_str path "") by auto.
        rewrite eqb_neq_str; [|intros X; apply append_empty in X; tauto]. apply split_on_dot. }
      rewrite <- app_assoc. apply H1.
    - unfold path_join. intros H. exfalso. rewrite (eqb_neq_str path "") in H by auto. apply append_empty in H. tauto.
  Qed.

  Lemma ser_tree v tr path b : at_path path tr ->
    match is_leaf tr, v with Some _, VBlob _ _ => False | _, _ => True end ->
    ser_all ssS v None path b =
    Ok (match is_leaf tr with
        | Some s => Some (VStr (sch_unparsed s))
        | None => match v with VBlob _ _ => Some (VStr "<blob:msgpack>") | _ => None end
        end,
        match v with VBlob _ p => aset (blob_file path) p b | _ => b end).
  Proof.
    intros Ha Hb. apply look_at in Ha. unfold ssS, look in *. destruct root as [t|].
    - destruct v; cbn [app ser_all ser_one rbind fst snd]; rewrite Ha; cbn [rbind fst snd];
        destruct (is_leaf tr) as [s'|]; try reflexivity; easy.
    - assert (is_leaf tr = None) as -> by (destruct (is_leaf tr); [discriminate|auto]).
      destruct v; reflexivity.
  Qed.

  Lemma asdict_tree v : forall tr path b,
    dumpable2 cls v = true -> tree_ok v tr -> at_path path tr -> (path = "" -> match v with VObj _ _ => True | _ => False end) ->
    asdict cls ssS true v path b = Ok (dtree2 cls v tr, blobs_add (dblobs v tr path) b).
  Proof.
    induction v as [|x|z|f|s|l IH|l IH|d IH|n d IH|n d IH|c m x IH|c x IH] using pyval_ind';
      intros tr path b Hd Ht Ha Hp; try discriminate;
      match goal with |- asdict _ _ _ ?v _ _ = _ => assert (S := ser_tree v tr path b Ha) end;
      cbn [asdict]; cbn [tree_ok] in Ht; cbn [dtree2 dblobs];
      destruct (is_leaf tr) as [s'|] eqn:El; try (rewrite S by exact I; reflexivity); try easy.
    - rewrite S by exact I. cbn [rbind fst snd].
      assert (Hpn : path <> "") by (intros ->; apply Hp; auto).
      assert (Ha' : at_path path None).
      { destruct Ht as [[->| ->] _]; auto. destruct Ha as [A1 A2]. split; [|intros X; destruct (A2 X); auto].
        intros rest. rewrite A1. destruct rest; reflexivity. }
      rewrite (smapi_blobs _ (fun x => dtree2 cls x None) (fun i x => dblobs x None (path_join path (show_nat i)))); [reflexivity|].
      intros i x Hx b'. simpl in Hd. rewrite forallb_forall in Hd. rewrite Forall_forall in IH. apply IH; auto.
      + destruct Ht as [_ Ht]. apply all_Forall in Ht. rewrite Forall_forall in Ht. auto.
      + now apply at_none.
      + unfold path_join. rewrite (eqb_neq_str path "") by auto. intros X. apply append_empty in X. tauto.
    - rewrite S by exact I. cbn [rbind fst snd].
      assert (Hpn : path <> "") by (intros ->; apply Hp; auto).
      assert (Ha' : at_path path None).
      { destruct Ht as [[->| ->] _]; auto. destruct Ha as [A1 A2]. split; [|intros X; destruct (A2 X); auto].
        intros rest. rewrite A1. destruct rest; reflexivity. }
      rewrite (smapi_blobs _ (fun x => dtree2 cls x None) (fun i x => dblobs x None (path_join path (show_nat i)))); [reflexivity|].
      intros i x Hx b'. simpl in Hd. rewrite forallb_forall in Hd. rewrite Forall_forall in IH. apply IH; auto.
      + destruct Ht as [_ Ht]. apply all_Forall in Ht. rewrite Forall_forall in Ht. auto.
      + now apply at_none.
      + unfold path_join. rewrite (eqb_neq_str path "") by auto. intros X. apply append_empty in X. tauto.
    - rewrite S by exact I. cbn [rbind fst snd].
      assert (Hpn : path <> "") by (intros ->; apply Hp; auto).
      assert (Ha' : at_path path None).
      { destruct Ht as [[->| ->] _]; auto. destruct Ha as [A1 A2]. split; [|intros X; destruct (A2 X); auto].
        intros rest. rewrite A1. destruct rest; reflexivity. }
      rewrite (smap_blobs _ (fun kv => (fst kv, dtree2 cls (snd kv) None)) (fun kv => dblobs (snd kv) None (path_join path (fst kv)))); [reflexivity|].
      intros [k x] Hx b'. cbn [fst snd]. simpl in Hd. rewrite forallb_forall in Hd. rewrite Forall_forall in IH.
      destruct Ht as [_ Ht]. apply all_Forall in Ht. rewrite Forall_forall in Ht.
      rewrite (IH (k, x) Hx None); [reflexivity|apply (Hd (k, x) Hx)|apply (Ht (k, x) Hx)|now apply at_none|].
      unfold path_join. rewrite (eqb_neq_str path "") by auto. intros X. apply append_empty in X. tauto.
    - rewrite S by exact I. cbn [rbind fst snd].
      simpl in Hd. apply andb_true_iff in Hd as [Hd H3]. apply andb_true_iff in Hd as [H1 H2].
      rewrite forallb_forall in H2, H3. apply all_Forall in Ht. rewrite Forall_forall in Ht, IH.
      rewrite (smap_blobs _ (fun kv => (fst kv, dtree2 cls (snd kv) (child tr (fst kv))))
                 (fun kv => dblobs (snd kv) (child tr (fst kv)) (path_join path (fst kv)))).
      2:{ intros [k x] Hx b'. cbn [fst snd].
          assert (Hk := H2 k (in_map fst _ _ Hx)). apply andb_true_iff in Hk as [Hk1 Hk2]. apply negb_true_iff in Hk2.
          assert (Hk0 : k <> "") by (intros ->; discriminate).
          rewrite (IH (k, x) Hx (child tr k)); [reflexivity|apply (H3 (k, x) Hx)|apply (Ht (k, x) Hx)|now apply at_child|].
          unfold path_join. intros X. exfalso. destruct (String.eqb_spec path ""); [tauto|]. apply append_empty in X. tauto. }
      cbn [rbind fst snd]. unfold ssS. cbn [app modify_attrs rbind].
      apply nodupb_NoDup in H1.
      set (attrs := map (fun kv => (fst kv, dtree2 cls (snd kv) (child tr (fst kv)))) d).
      assert (K : akeys attrs = map fst d).
      { unfold attrs, akeys. rewrite map_map. reflexivity. }
      assert (Hm : modify_attrs (match root with Some t => [ScheduleSer t] | None => [] end) (cls n)
        (match cm_version (cls n) with Some v => insert_version v attrs | None => attrs end) =
        Ok ((match cm_version (cls n) with Some z => [("version", VInt z)] | None => [] end) ++ attrs)%list).
      { assert (match cm_version (cls n) with Some v => insert_version v attrs | None => attrs end =
          (match cm_version (cls n) with Some z => [("version", VInt z)] | None => [] end ++ attrs)%list) as ->.
        { destruct (cm_version (cls n)) as [ver|] eqn:Ev; [|reflexivity].
          apply insert_version_spec; rewrite K; auto. intros Hin. apply H2 in Hin. apply andb_true_iff in Hin as [Hin _]. discriminate. }
        destruct root; reflexivity. }
      rewrite Hm. cbn [rbind].
      assert (forallb nt_name_ok (akeys ((match cm_version (cls n) with Some z => [("version", VInt z)] | None => [] end) ++ attrs)%list) = true) as ->; [|reflexivity].
      unfold akeys. rewrite map_app, forallb_app. apply andb_true_iff. split.
      + destruct (cm_version (cls n)); reflexivity.
      + fold (akeys attrs). rewrite K. apply forallb_forall. intros k Hk. apply H2 in Hk. apply andb_true_iff in Hk as [Hk _].
        eapply field_name_ok_nt; eauto.
  Qed.
End Dump.

(** ** loading *)
Inductive eff := ESched (path : string) (s : schedule) | ELazy (path cls : string).

Section Load.
  Variable E : env.
  Hypothesis HE : order_ok E.
  Variable ovs : option (list string).
  Variable allow : bool.
  Variable dir : option string.
  Variable bl : bool.
  Hypothesis Hbl : bl = true -> dir <> None.
  Let dss := typed_load_desers ovs allow dir.
  Let cls := e_class E.

  Definition dir_of : string := match dir with Some d => d | None => "" end.

  (** what is in memory right after loading *)
  Fixpoint resumed (v : pyval) (tr : option stree) {struct v} : pyval :=
    match is_leaf tr with
    | Some s => match initial_value E s with Ok r => r | Err _ => v end
    | None =>
        match v with
        | VObj c d => VObj c (map (fun kv => (fst kv, resumed (snd kv) (child tr (fst kv)))) d)
        | VDict d => VDict (map (fun kv => (fst kv, resumed (snd kv) None)) d)
        | VList l => VList (map (fun x => resumed x None) l)
        | VTuple l => VTuple (map (fun x => resumed x None) l)
        | VBlob _ _ => VNone
        | _ => v
        end
    end.

  (** the effects of loading on the deserializers' dicts, in order *)
  Fixpoint leff (v : pyval) (tr : option stree) (path : string) {struct v} : list eff :=
    match is_leaf tr with
    | Some s => [ESched path s]
    | None =>
        match v with
        | VObj _ d => concat (map (fun kv => leff (snd kv) (child tr (fst kv)) (path_join path (fst kv))) d)
        | VDict d => concat (map (fun kv => leff (snd kv) None (path ++ "." ++ fst kv)) d)
        | VList l | VTuple l => concat (imap (fun i x => leff x None (path ++ "[" ++ show_nat i ++ "]")) 0 l)
        | VBlob c _ => [ELazy path c]
        | _ => []
        end
    end.

  Definition run1 (e : eff) (st : dstate) : res dstate :=
    match e with
    | ESched p s => let* r := sched_add (st_sched st) p s in Ok (mkSt (st_ov_applied st) r (st_lazy st))
    | ELazy p c => Ok (mkSt (st_ov_applied st) (st_sched st)
                            (aset p (mkLazy c (dir_of ++ "/" ++ blob_file p) false) (st_lazy st)))
    end.

  Fixpoint run (l : list eff) (st : dstate) : res dstate :=
    match l with [] => Ok st | e :: r => let* st' := run1 e st in run r st' end.

  Lemma rbind_assoc {A B C} (m : res A) (f : A -> res B) (g : B -> res C) :
    rbind (rbind m f) g = rbind m (fun x => rbind (f x) g).
  Proof. destruct m; reflexivity. Qed.

  Lemma run_app l1 : forall l2 st, run (l1 ++ l2)%list st = (let* st' := run l1 st in run l2 st').
  Proof.
    induction l1 as [|e l1 IH]; intros l2 st; [reflexivity|]. cbn [app run]. rewrite rbind_assoc.
    destruct (run1 e st); cbn [rbind]; auto.
  Qed.

  Lemma run_applied l : forall st st', run l st = Ok st' -> st_ov_applied st' = st_ov_applied st.
  Proof.
    induction l as [|e l IH]; intros st st' H; cbn [run] in H; [injection H as <-; auto|].
    apply rbind_ok in H as [s1 [H1 H]]. rewrite (IH _ _ H).
    destruct e; cbn [run1] in H1; [apply rbind_ok in H1 as [r [_ H1]]|]; injection H1 as <-; reflexivity.
  Qed.

  Definition quiet (st : dstate) : Prop :=
    match ovs with None => True | Some _ => st_ov_applied st = true end.

  Lemma quiet_run l st st' : quiet st -> run l st = Ok st' -> quiet st'.
  Proof. unfold quiet. intros H R. rewrite (run_applied _ _ _ R). destruct ovs; auto. Qed.

  Lemma quiet_deser t v path st : quiet st ->
    deser_all E dss t v VNone false path st =
    deser_all E (typed_load_desers None allow dir) t v VNone false path st.
  Proof.
    intros H. unfold dss, typed_load_desers. unfold quiet in H. destruct ovs as [o|]; auto.
    assert (Hd : deser_one E (DOverrides o) t v path st = Ok (mkD v VNone false false st))
      by (cbn [deser_one]; rewrite H; reflexivity).
    generalize ([DSchedule; DVersioned allow] ++ match dir with Some d => [DLazy d] | None => [] end)%list.
    intros rest. cbn [app deser_all]. rewrite Hd. reflexivity.
  Qed.

  Lemma smapi_run {A B} (f : nat -> A -> dstate -> res (B * dstate)) (g : A -> B) (e : nat -> A -> list eff) l :
    (forall i x, In x l -> forall st, quiet st -> f i x st = (let* st' := run (e i x) st in Ok (g x, st'))) ->
    forall i st, quiet st -> smapi f i l st = (let* st' := run (concat (imap e i l)) st in Ok (map g l, st')).
  Proof.
    induction l as [|x l IH]; intros H i st Hq; [reflexivity|]. rewrite smapi_cons, H by (try left; auto).
    cbn [imap concat map]. rewrite run_app, !rbind_assoc.
    destruct (run (e i x) st) as [st1|] eqn:R; cbn [rbind fst snd]; auto.
    assert (Hq1 := quiet_run _ _ _ Hq R).
    rewrite IH by (try (intros; apply H; auto; right; auto); auto).
    rewrite rbind_assoc. destruct (run (concat (imap e (S i) l)) st1); reflexivity.
  Qed.

  Lemma smap_run {A B} (f : A -> dstate -> res (B * dstate)) (g : A -> B) (e : A -> list eff) l :
    (forall x, In x l -> forall st, quiet st -> f x st = (let* st' := run (e x) st in Ok (g x, st'))) ->
    forall st, quiet st -> smap f l st = (let* st' := run (concat (map e l)) st in Ok (map g l, st')).
  Proof.
    induction l as [|x l IH]; intros H st Hq; [reflexivity|]. rewrite smap_cons, H by (try left; auto).
    cbn [concat map]. rewrite run_app, !rbind_assoc.
    destruct (run (e x) st) as [st1|] eqn:R; cbn [rbind fst snd]; auto.
    assert (Hq1 := quiet_run _ _ _ Hq R).
    rewrite IH by (try (intros; apply H; auto; right; auto); auto).
    rewrite rbind_assoc. destruct (run (concat (map e l)) st1); reflexivity.
  Qed.

  Lemma tuple_run f path (g : pyval -> pyval) (e : pyval -> string -> list eff) (P : ty -> pyval -> Prop) (h : pyval -> pyval) :
    forall ts l i st, quiet st ->
    (forall t x, In t ts -> In x l -> P t x -> forall p st, quiet st -> f t (h x) p st = (let* st' := run (e x p) st in Ok (g x, st'))) ->
    all2 false P ts l ->
    tuple_loop f path ts i (map h l) st =
    (let* st' := run (concat (imap (fun i x => e x (path ++ "[" ++ show_nat i ++ "]")) i l)) st in Ok (map g l, st')).
  Proof.
    induction ts as [|t ts IH]; intros [|x l] i st Hq H Ha; try easy.
    destruct Ha as [Ha1 Ha2]. cbn [map]. rewrite tuple_loop_cons, H by (try left; auto).
    cbn [imap concat map]. rewrite run_app, !rbind_assoc.
    destruct (run (e x _) st) as [st1|] eqn:R; cbn [rbind fst snd]; auto.
    assert (Hq1 := quiet_run _ _ _ Hq R).
    rewrite (IH l (S i) st1) by (try (intros; apply H; auto; right; auto); auto).
    rewrite rbind_assoc. destruct (run (concat _) st1); reflexivity.
  Qed.

  Lemma fields_run f cname path ig (rv : string -> pyval -> pyval) (g : string -> pyval -> pyval) (e : string -> pyval -> list eff) : forall d2 d1 st,
    quiet st -> NoDup (akeys (d1 ++ d2)%list) ->
    (forall k x, In (k, x) d2 -> k <> "!__name__" /\ is_weak (rv k x) = false /\
       exists h, f k = Some h /\ forall st, quiet st -> h (rv k x) (path_join path k) st = (let* st' := run (e k x) st in Ok (g k x, st'))) ->
    fields_loop f cname path ig (map (fun kv => (fst kv, rv (fst kv) (snd kv))) d2) d1 [] st =
    (let* st' := run (concat (map (fun kv => e (fst kv) (snd kv)) d2)) st in
     Ok ((d1 ++ map (fun kv => (fst kv, g (fst kv) (snd kv))) d2)%list, [], st')).
  Proof.
    induction d2 as [|[k x] d2 IH]; intros d1 st Hq Hn H; cbn [map fields_loop fst snd].
    - cbn [concat run rbind]. now rewrite app_nil_r.
    - destruct (H k x (or_introl eq_refl)) as (Hk & Hw & h & Hf & Hg).
      rewrite eqb_neq_str by exact Hk. rewrite Hw, Hf, Hg by auto. cbn [concat]. rewrite run_app, !rbind_assoc.
      destruct (run (e k x) st) as [st1|] eqn:R; cbn [rbind fst snd]; auto.
      assert (Hq1 := quiet_run _ _ _ Hq R).
      rewrite akeys_aset_notin.
      + rewrite IH; auto.
        * rewrite <- app_assoc. reflexivity.
        * unfold akeys in *. rewrite !map_app in *. simpl in *. rewrite <- app_assoc. exact Hn.
        * intros k' x' Hin. apply H; right; auto.
      + unfold akeys in *. rewrite map_app in Hn. simpl in Hn. apply NoDup_remove_2 in Hn.
        intros H'. apply Hn, in_or_app; auto.
  Qed.

  Lemma holds_dumpable t : forall v, persistable E bl t -> holds t v -> dumpable2 cls v = true.
  Proof.
    induction t as [| | | | |i IH|l IH|k v IHk IHv|i IH|l IH|c fs IH|n ms|l|n] using ty_ind';
      intros v0 Hs Hc; simpl in Hc; try (destruct v0; simpl in *; try easy; reflexivity).
    - destruct v0; try easy. simpl. apply forallb_forall. rewrite Forall_forall in Hc. intros x Hx. apply IH; auto.
    - destruct v0 as [| | | | | |l0| | | | |]; try easy. simpl in Hs |- *. apply all_Forall in Hs.
      clear -IH Hs Hc. revert l0 Hc. induction l as [|t l IHl]; destruct l0 as [|x l0]; simpl; intros Hc; try easy.
      inversion IH; inversion Hs; subst. rewrite andb_true_iff. split; [apply H1; tauto|]. apply IHl; tauto.
    - destruct v0 as [| | | | | | |d| | | |]; try easy. simpl. apply forallb_forall. rewrite Forall_forall in Hc.
      intros kv Hx. apply IHv; auto. apply Hs.
    - destruct Hc as [->|Hc]; [reflexivity|]. apply IH; auto.
    - apply any_Exists in Hc as [t [Ht Hc]]. destruct Hs as [Hs _]. apply all_Forall in Hs.
      rewrite Forall_forall in *. apply (IH t Ht v0); auto. apply Hs; auto.
    - destruct v0 as [| | | | | | | | |n d| |]; try easy. destruct Hc as [-> Hc].
      destruct Hs as (Hnd & Hok & Hcl & _ & Hs). apply all_Forall in Hs.
      simpl. unfold cls. rewrite Hcl. cbn [cm_version].
      assert (Hk : map fst d = field_names fs).
      { clear -Hc. revert d Hc. unfold field_names.
        induction fs as [|[fn [ft fd]] fs IHf]; destruct d as [|[k x] d]; simpl; intros Hc; try easy.
        destruct Hc as [[-> _] Hc]. f_equal; auto. }
      rewrite Hk, !andb_true_iff. split; [split|].
      + now apply nodupb_NoDup.
      + apply forallb_forall. rewrite Forall_forall in Hok. intros x Hx. destruct (Hok x Hx) as [H1 H2].
        replace (is_some (option_map fst (c_versioned c))) with (is_some (c_versioned c)) by (destruct (c_versioned c); reflexivity).
        now rewrite H1, H2.
      + clear -IH Hs Hc. revert d Hc. induction fs as [|[fn [ft fd]] fs IHf]; destruct d as [|[k x] d]; simpl; intros Hc; try easy.
        inversion IH; inversion Hs; subst. destruct Hc as [[_ H3] H4]. rewrite andb_true_iff. split; auto.
    - destruct Hc as [a [Ha Hc]]. simpl in Hs. rewrite Forall_forall in Hs.
      destruct (Hs a Ha) as [Hsc _]. apply (scalar_eq a v0 Hsc) in Hc. destruct v0; try discriminate; reflexivity.
  Qed.

  Lemma is_weak_dumped2 x tr :
    dumpable2 cls x = true -> clean x = true -> is_weak (ron_view (dtree2 cls x tr)) = false.
  Proof.
    destruct x as [| | | | | | |d| |n d| |]; intros Hd Hc; try discriminate; cbn [dtree2]; destruct (is_leaf tr); auto.
    - simpl in *. apply andb_true_iff in Hc as [Hc _]. apply negb_true_iff in Hc.
      apply amem_false in Hc. apply amem_false. rewrite map_map. cbn [fst snd].
      unfold akeys in *. rewrite map_map. exact Hc.
    - simpl in *. apply andb_true_iff in Hd as [Hd _]. apply andb_true_iff in Hd as [_ Hd].
      rewrite forallb_forall in Hd. apply amem_false.
      intros Hin. unfold akeys in Hin. simpl in Hin. destruct Hin as [Hin|Hin]; [discriminate|].
      rewrite map_map in Hin. cbn [fst] in Hin. rewrite map_app in Hin.
      apply in_app_or in Hin as [Hin|Hin].
      + destruct (cm_version (cls n)); simpl in Hin; [destruct Hin as [Hin|[]]; discriminate|easy].
      + rewrite map_map in Hin. cbn [fst] in Hin. apply Hd in Hin. discriminate.
  Qed.

  Definition fits_opt (n : string) (tr : option stree) (t : ty) (v : pyval) : Prop :=
    match tr with None => True | Some tr => fits E n tr t v end.

  (** a scheduled int or float field *)
  Lemma load_leaf n s path ig : forall t st, quiet st -> leaf_fits E n s t -> last (split_on "." path) "" = n ->
    from_dict E dss t (VStr (sch_unparsed s)) path ig st =
    (let* st' := run1 (ESched path s) st in
     Ok (match initial_value E s with Ok r => r | Err _ => VNone end, st')).
  Proof.
    intros t. induction t; intros st Hq (Hb & Hn & Ha & Hp & v & Hv) Hl; simpl in Hb; try (destruct (sch_int s); discriminate).
    - (* int *)
      destruct (sch_int s) eqn:Ei; [|discriminate].
      rewrite from_dict_main by discriminate. unfold from_main. rewrite quiet_deser by auto.
      rewrite Hv. unfold initial_value in Hv. apply rbind_ok in Hv as [y [Hy Hv]]. rewrite Ei in Hv.
      unfold typed_load_desers. cbn [app deser_all deser_one]. rewrite Ha. cbv zeta. rewrite Hp. cbn [rbind].
      rewrite Hl, <- Hn, <- Ei. destruct s as [pw fl si un]. cbn [sch_pw sch_field sch_int sch_unparsed] in *. cbn [run1].
      destruct (sched_add (st_sched st) path (mkSched pw fl si un)) as [root|er]; cbn [rbind]; auto.
      rewrite Hy, Ei. cbn [rbind]. rewrite Hv. cbn [rbind d_ok d_value d_mut d_ret d_st orb deser_versioned].
      destruct dir; cbn [deser_all deser_one rbind d_ok d_value d_mut d_ret d_st orb];
        cbn [num_cast] in Hv; apply rbind_ok in Hv as [z [_ Hv]]; injection Hv as <-; reflexivity.
    - destruct (sch_int s) eqn:Ei; [discriminate|].
      rewrite from_dict_main by discriminate. unfold from_main. rewrite quiet_deser by auto.
      rewrite Hv. unfold initial_value in Hv. apply rbind_ok in Hv as [y [Hy Hv]]. rewrite Ei in Hv.
      unfold typed_load_desers. cbn [app deser_all deser_one]. rewrite Ha. cbv zeta. rewrite Hp. cbn [rbind].
      rewrite Hl, <- Hn, <- Ei. destruct s as [pw fl si un]. cbn [sch_pw sch_field sch_int sch_unparsed] in *. cbn [run1].
      destruct (sched_add (st_sched st) path (mkSched pw fl si un)) as [root|er]; cbn [rbind]; auto.
      rewrite Hy, Ei. cbn [rbind]. rewrite Hv. cbn [rbind d_ok d_value d_mut d_ret d_st orb deser_versioned].
      destruct dir; cbn [deser_all deser_one rbind d_ok d_value d_mut d_ret d_st orb];
        cbn [num_cast] in Hv; injection Hv as <-; reflexivity.
    - rewrite from_dict_eq. cbn [is_none]. apply IHt; auto. unfold leaf_fits. eauto 10.
  Qed.

  Lemma fits_node n l t v : fits E n (SNode l) t v <->
    forall k tr', In (k, tr') l -> exists c d fs ft fd x,
      v = VObj c d /\ member_fields t c = Some fs /\
      aget k fs = Some (ft, fd) /\ aget k d = Some x /\ fits E k tr' ft x.
  Proof.
    cbn [fits]. rewrite all_Forall, Forall_forall. split.
    - intros H k tr' Hin. apply (H (k, tr') Hin).
    - intros H [k tr'] Hin. apply (H k tr' Hin).
  Qed.


  Definition num_ty (t : ty) : bool := match base_ty t with TInt | TFloat => true | _ => false end.

  Lemma fits_leaf_num n tr t v s : fits_opt n tr t v -> is_leaf tr = Some s -> num_ty t = true /\ leaf_fits E n s t.
  Proof.
    intros H Hl. destruct tr as [[s'|l]|]; try discriminate. injection Hl as ->. split; [|exact H].
    destruct H as [H _]. unfold num_ty. rewrite H. destruct (sch_int s); reflexivity.
  Qed.

  Lemma fits_no_leaf n tr t v : fits_opt n tr t v -> num_ty t = false -> is_leaf tr = None.
  Proof.
    intros H Hn. destruct (is_leaf tr) eqn:El; auto. destruct (fits_leaf_num _ _ _ _ _ H El). congruence.
  Qed.

  Lemma ser_deser nn path st : bl = true ->
    deser_all E (typed_load_desers None allow dir) (TSer nn) (VStr "<blob:msgpack>") VNone false path st =
    Ok (VNone, VNone, true, mkSt (st_ov_applied st) (st_sched st)
          (aset path (mkLazy nn (dir_of ++ "/" ++ blob_file path) false) (st_lazy st))).
  Proof.
    intros H. unfold dir_of. assert (Hd := Hbl H). clear dss. destruct dir; [reflexivity|easy].
  Qed.

  Lemma load_tree t : forall n v tr path ig st, quiet st ->
    persistable E bl t -> holds t v -> clean v = true -> fits_opt n tr t v ->
    (forall s, is_leaf tr = Some s -> last (split_on "." path) "" = n) ->
    from_dict E dss t (ron_view (dtree2 cls v tr)) path ig st =
    (let* st' := run (leff v tr path) st in Ok (resumed v tr, st')).
  Proof.
    assert (LEAF : forall t n v tr s path ig st, quiet st -> fits_opt n tr t v -> is_leaf tr = Some s -> last (split_on "." path) "" = n ->
      from_dict E dss t (ron_view (dtree2 cls v tr)) path ig st = (let* st' := run (leff v tr path) st in Ok (resumed v tr, st'))).
    { intros t0 n v tr s path ig st Hq Hf Hl Hp. destruct (fits_leaf_num _ _ _ _ _ Hf Hl) as [_ Hlf].
      assert (D : dtree2 cls v tr = VStr (sch_unparsed s)) by (destruct v; cbn [dtree2]; rewrite Hl; reflexivity).
      assert (L : leff v tr path = [ESched path s]) by (destruct v; cbn [leff]; rewrite Hl; reflexivity).
      destruct Hlf as (H1 & H2 & H3 & H4 & r & H5).
      assert (R : resumed v tr = r) by (destruct v; cbn [resumed]; rewrite Hl, H5; reflexivity).
      rewrite D, L, R. cbn [ron_view]. rewrite (load_leaf n) by (unfold leaf_fits; eauto 10). rewrite H5. cbn [run].
      rewrite rbind_assoc. destruct (run1 (ESched path s) st); reflexivity. }
    induction t as [| | | | |i IH|l IH|kt vt IHk IHv|i IH|l IH|c fs IH|nn ms|l|nn] using ty_ind';
      intros n v tr path ig st Hq Hs Hc Hcl Hf Hp.
    - destruct (is_leaf tr) as [s|] eqn:El; [eapply LEAF; eauto|].
      rewrite from_dict_main by discriminate. unfold from_main. rewrite quiet_deser by auto.
      destruct v; simpl in Hc; try easy; cbn [dtree2 leff resumed ron_view]; rewrite El; rewrite deser_noop by reflexivity; reflexivity.
    - destruct (is_leaf tr) as [s|] eqn:El; [eapply LEAF; eauto|].
      rewrite from_dict_main by discriminate. unfold from_main. rewrite quiet_deser by auto.
      destruct v; simpl in Hc; try easy; cbn [dtree2 leff resumed ron_view]; rewrite El; rewrite deser_noop by reflexivity; reflexivity.
    - assert (El := fits_no_leaf _ _ _ _ Hf eq_refl).
      rewrite from_dict_main by discriminate. unfold from_main. rewrite quiet_deser by auto.
      destruct v; simpl in Hc; try easy; cbn [dtree2 leff resumed ron_view]; rewrite El; rewrite deser_noop by reflexivity; reflexivity.
    - assert (El := fits_no_leaf _ _ _ _ Hf eq_refl).
      rewrite from_dict_main by discriminate. unfold from_main. rewrite quiet_deser by auto.
      destruct v; simpl in Hc; try easy; cbn [dtree2 leff resumed ron_view]; rewrite El; rewrite deser_noop by reflexivity; reflexivity.
    - assert (El := fits_no_leaf _ _ _ _ Hf eq_refl).
      rewrite from_dict_main by discriminate. unfold from_main. rewrite quiet_deser by auto.
      simpl in Hc; subst; cbn [dtree2 leff resumed ron_view]; rewrite El; rewrite deser_noop by reflexivity; reflexivity.
    - (* list *)
      assert (El := fits_no_leaf _ _ _ _ Hf eq_refl).
      destruct v as [| | | | |l| | | | | |]; simpl in Hc; try easy.
      rewrite from_dict_main by discriminate. unfold from_main. rewrite quiet_deser by auto.
      cbn [dtree2 leff resumed]. rewrite El. rewrite deser_noop by reflexivity.
      cbn [ron_view rbind isinstance coerce_scalar from_struct]. rewrite map_map.
      assert (G : forall j st, quiet st -> smapi (fun i0 x s => from_dict E dss i x (path ++ "[" ++ show_nat i0 ++ "]") false s)
                  j (map (fun x => ron_view (dtree2 cls x None)) l) st =
                  (let* st' := run (concat (imap (fun i x => leff x None (path ++ "[" ++ show_nat i ++ "]")) j l)) st in Ok (map (fun x => resumed x None) l, st'))).
      { simpl in Hcl. clear -IH Hc Hcl Hs. induction l as [|x l IHl]; intros j st Hq; [reflexivity|].
        cbn [map imap concat]. rewrite smapi_cons. inversion Hc; subst. simpl in Hcl. apply andb_true_iff in Hcl as [Hcx Hcl].
        rewrite (IH "" x None) by (auto; try discriminate; exact I). rewrite run_app, !rbind_assoc.
        destruct (run (leff x None _) st) as [st1|] eqn:R; cbn [rbind fst snd]; auto.
        rewrite IHl by (auto; eapply quiet_run; eauto). rewrite rbind_assoc.
        destruct (run (concat _) st1); reflexivity. }
      rewrite G by auto. rewrite rbind_assoc. destruct (run (concat _) st); reflexivity.
    - (* tuple *)
      assert (El := fits_no_leaf _ _ _ _ Hf eq_refl).
      destruct v as [| | | | | |vs| | | | |]; simpl in Hc; try easy.
      rewrite from_dict_main by discriminate. unfold from_main. rewrite quiet_deser by auto.
      cbn [dtree2 leff resumed]. rewrite El. rewrite deser_noop by reflexivity.
      cbn [ron_view rbind isinstance coerce_scalar from_struct tuple_items]. rewrite map_map.
      simpl in Hs, Hcl. apply all_Forall in Hs. rewrite forallb_forall in Hcl. rewrite Forall_forall in Hs, IH.
      rewrite (tuple_run _ path (fun x => resumed x None) (fun x p => leff x None p) holds (fun x => ron_view (dtree2 cls x None)) l vs 0 st); auto.
      + rewrite rbind_assoc. destruct (run (concat _) st); reflexivity.
      + intros t x Ht Hx Hh p st1 Hq1. apply (IH t Ht "" x None); auto; [exact I|discriminate].
    - (* dict *)
      assert (El := fits_no_leaf _ _ _ _ Hf eq_refl).
      destruct v as [| | | | | | |d| | | |]; simpl in Hc; try easy.
      rewrite from_dict_main by discriminate. unfold from_main. rewrite quiet_deser by auto.
      cbn [dtree2 leff resumed]. rewrite El. rewrite deser_noop by reflexivity.
      cbn [ron_view rbind isinstance coerce_scalar from_struct]. rewrite map_map. cbn [fst snd].
      assert (G : forall st, quiet st -> smap (fun (kv : string * pyval) s =>
                    let* r := from_dict E dss vt (snd kv) (path ++ "." ++ fst kv) false s in
                    Ok ((fst kv, fst r), snd r)) (map (fun x => (fst x, ron_view (dtree2 cls (snd x) None))) d) st
                  = (let* st' := run (concat (map (fun kv => leff (snd kv) None (path ++ "." ++ fst kv)) d)) st in
                     Ok (map (fun kv => (fst kv, resumed (snd kv) None)) d, st'))).
      { simpl in Hcl. apply andb_true_iff in Hcl as [_ Hcl]. destruct Hs as [_ Hs].
        clear -IHv Hc Hcl Hs. induction d as [|[k x] d IHd]; intros st Hq; [reflexivity|].
        cbn [map concat]. rewrite smap_cons. cbn [fst snd]. inversion Hc; subst. simpl in Hcl.
        apply andb_true_iff in Hcl as [Hcx Hcl].
        rewrite (IHv "" x None) by (auto; try discriminate; exact I). rewrite run_app, !rbind_assoc.
        destruct (run (leff x None _) st) as [st1|] eqn:R; cbn [rbind fst snd]; auto.
        rewrite IHd by (auto; eapply quiet_run; eauto). rewrite rbind_assoc.
        destruct (run (concat _) st1); reflexivity. }
      rewrite G by auto. rewrite rbind_assoc. destruct (run (concat _) st); reflexivity.
    - (* optional *)
      destruct (is_leaf tr) as [s|] eqn:El; [eapply LEAF; eauto|].
      rewrite from_dict_eq. simpl in Hc. destruct (is_none (ron_view (dtree2 cls v tr))) eqn:En.
      + destruct v; cbn [dtree2] in En; rewrite El in En; try discriminate. cbn [leff resumed]. rewrite El. reflexivity.
      + destruct Hc as [->|Hc]; [cbn [dtree2] in En; rewrite El in En; discriminate|]. apply (IH n); auto.
        * destruct tr as [[s|nl]|]; try discriminate; [|exact I]. exact Hf.
        * rewrite El. discriminate.
    - (* union *)
      assert (El := fits_no_leaf _ _ _ _ Hf eq_refl).
      rewrite from_dict_main by discriminate. unfold from_main. rewrite quiet_deser by auto.
      destruct Hs as [Hs Hnd]. apply all_Forall in Hs. simpl in Hc. apply any_Exists in Hc as [t [Ht Hc]].
      rewrite Forall_forall in Hs, IH. destruct (Hs t Ht) as [Hdt Hst].
      destruct t; try discriminate. assert (Hc' := Hc). simpl in Hc'. destruct v as [| | | | | | | | |nm d| |]; try easy.
      destruct Hc' as [-> _].
      rewrite deser_noop by reflexivity. cbn [rbind]. cbn [isinstance].
      assert (Hdict : exists m, ron_view (dtree2 cls (VObj (c_name c) d) tr) = VDict (("!__name__", VStr (c_name c)) :: m)).
      { cbn [dtree2]. rewrite El. eexists; reflexivity. }
      destruct Hdict as [m Hm].
      assert (Hfm : fits_opt n tr (TData c fields) (VObj (c_name c) d)).
      { destruct tr as [[s|nl]|]; try discriminate; [|exact I]. cbn [fits_opt] in *. rewrite fits_node in *.
        intros k tr' Hin. destruct (Hf k tr' Hin) as (c0 & d0 & fs0 & ft & fd & x & H1 & H2 & H3).
        exists c0, d0, fields, ft, fd, x. injection H1 as <- <-. split; auto.
        assert (member_fields (TData c fields) (c_name c) = Some fields) as Hm0 by (cbn [member_fields]; now rewrite String.eqb_refl).
        split; auto. assert (fs0 = fields) as <-; [|exact H3].
        clear -Hnd Ht Hs H2. cbn [member_fields] in H2. induction l as [|a l IHl]; [easy|]. simpl in Hnd. inversion Hnd as [|? ? N1 N2]; subst.
        destruct Ht as [->|Ht].
        - cbn [member_fields] in H2. rewrite String.eqb_refl in H2. congruence.
        - destruct (Hs a (or_introl eq_refl)) as [Ha _]. destruct a as [| | | | | | | | | |c1 fs1| | |]; try discriminate.
          cbn [member_fields] in H2. rewrite eqb_neq_str in H2.
          + apply IHl; auto. intros y Hy. apply Hs; right; auto.
          + intros He. apply N1. simpl. rewrite <- He. apply in_map_iff. exists (TData c fields). split; auto. }
      assert (Hv := IH _ Ht n (VObj (c_name c) d) tr path ig st Hq Hst Hc Hcl Hfm Hp).
      rewrite Hm in Hv |- *. cbn [coerce_scalar from_struct aget]. rewrite String.eqb_refl.
      rewrite (union_scan_hit _ (c_name c) l (TData c fields)); auto.
    - (* dataclass *)
      assert (El := fits_no_leaf _ _ _ _ Hf eq_refl).
      destruct v as [| | | | | | | | |nm d| |]; simpl in Hc; try easy. destruct Hc as [-> Hc].
      assert (Hdump : dumpable2 cls (VObj (c_name c) d) = true).
      { apply (holds_dumpable (TData c fs)); auto. simpl; auto. }
      destruct Hs as (Hnd & Hok & Hclass & Hrules & Hs). apply all_Forall in Hs.
      assert (Hk : map fst d = field_names fs).
      { clear -Hc. revert d Hc. unfold field_names.
        induction fs as [|[fn [ft fd]] fs IHf]; destruct d as [|[k x] d]; simpl; intros Hc; try easy.
        destruct Hc as [[-> _] Hc]. f_equal; auto. }
      assert (Hdes : deser_all E (typed_load_desers None allow dir) (TData c fs) (ron_view (dtree2 cls (VObj (c_name c) d) tr)) VNone false path st =
                Ok (VDict (("!__name__", VStr (c_name c)) ::
                           map (fun kv => (fst kv, ron_view (dtree2 cls (snd kv) (child tr (fst kv))))) d), VNone, false, st)).
      { cbn [dtree2]. rewrite El. cbn [ron_view]. unfold cls at 1. rewrite Hclass. cbn [cm_version].
        destruct (c_versioned c) as [[ver rules]|] eqn:Ev; cbn [option_map].
        - rewrite map_app, map_map. cbn [map fst snd app ron_view].
          rewrite (deser_versioned_current E allow dir c fs ver rules _ path st (VInt ver) ver); auto; try lia.
          specialize (Hrules ver rules eq_refl). apply forallb_forall. intros kr Hkr. rewrite Forall_forall in Hrules.
          apply Z.ltb_lt. auto.
        - cbn [app]. rewrite map_map. cbn [fst snd]. apply deser_noop; auto.
          simpl. now rewrite Ev. }
      rewrite from_dict_main by discriminate. unfold from_main. rewrite quiet_deser, Hdes by auto. cbn [rbind isinstance coerce_scalar].
      cbn [from_struct dataclass_input rbind].
      cbn [fields_loop]. rewrite String.eqb_refl.
      simpl in Hdump. apply andb_true_iff in Hdump as [_ Hdump]. rewrite forallb_forall in Hdump.
      simpl in Hcl. rewrite forallb_forall in Hcl.
      assert (Hkd : NoDup (akeys d)) by (unfold akeys; rewrite Hk; exact Hnd).
      rewrite (fields_run _ _ _ _ (fun k x => ron_view (dtree2 cls x (child tr k))) (fun k x => resumed x (child tr k))
                 (fun k x => leff x (child tr k) (path_join path k)) d [] st); auto.
      2:{ intros k x Hin.
          assert (Hkin : In k (field_names fs)).
          { rewrite <- Hk. apply in_map_iff. exists (k, x); auto. }
          rewrite Forall_forall in Hok. apply Hok in Hkin as [Hkok Hkdot]. split; [|split].
          - intros ->. discriminate.
          - apply is_weak_dumped2; [apply (Hdump (k, x) Hin)|apply (Hcl (k, x) Hin)].
          - assert (exists ft fd, In (k, (ft, fd)) fs /\ holds ft x) as (ft & fd & Hff & Hfc).
            { clear -Hc Hin. revert d Hc Hin. induction fs as [|[fn [ft fd]] fs IHf]; destruct d as [|[k' x'] d]; simpl; intros Hc Hin; try easy.
              destruct Hc as [[-> Hx] Hc]. destruct Hin as [Hin|Hin].
              - injection Hin as -> ->. exists ft, fd; auto.
              - destruct (IHf d Hc Hin) as (ft' & fd' & H1 & H2). exists ft', fd'; auto. }
            eexists. split.
            + apply (field_with_in _ k ft fd fs Hnd Hff).
            + rewrite Forall_forall in IH, Hs. intros st1 Hq1. apply (IH _ Hff k); auto.
              * apply (Hs _ Hff).
              * apply (Hcl (k, x) Hin).
              * destruct tr as [[s|nl]|]; try discriminate; [|exact I]. cbn [child]. destruct (aget k nl) as [tr'|] eqn:Eg; [|exact I].
                cbn [fits_opt] in *. rewrite fits_node in Hf.
                destruct (Hf k tr' (aget_some_in _ _ _ Eg)) as (c0 & d0 & fs0 & ft0 & fd0 & x0 & H1 & H2 & H3 & H4 & H5).
                injection H1 as <- <-. cbn [member_fields] in H2. rewrite String.eqb_refl in H2. injection H2 as <-.
                assert (aget k fs = Some (ft, fd)) as X1 by (apply in_nodup_aget; auto).
                assert (aget k d = Some x) as X2 by (apply in_nodup_aget; auto).
                rewrite X1 in H3. rewrite X2 in H4. injection H3 as <- <-. injection H4 as <-. exact H5.
              * intros s _. unfold path_join. destruct (String.eqb path "").
                -- now rewrite OverrideFacts.split_on_plain.
                -- rewrite split_on_dot, (OverrideFacts.split_on_plain _ k) by auto. apply last_last. }
      cbn [leff resumed]. rewrite El. rewrite rbind_assoc.
      destruct (run (concat _) st) as [st1|]; cbn [rbind app]; auto. 
      rewrite filter_none.
      2:{ intros k Hin. apply negb_false_iff, amem_true. unfold akeys. rewrite map_map. change (In k (map fst d)). rewrite Hk. exact Hin. }
      rewrite (order_nil E HE). cbn [try_create_defaults rbind fst snd].
      rewrite (construct_all fs _ (map (fun kv => (fst kv, resumed (snd kv) (child tr (fst kv)))) d)); auto.
      + intros k x Hin. apply in_nodup_aget; auto. unfold akeys. rewrite map_map. exact Hkd.
      + rewrite map_map. exact Hk.
    - (* enum *)
      assert (El := fits_no_leaf _ _ _ _ Hf eq_refl).
      destruct v as [| | | | | | | | | |cn m x|]; simpl in Hc; try easy. destruct Hc as [-> Hc].
      rewrite from_dict_main by discriminate. unfold from_main. rewrite quiet_deser by auto.
      cbn [dtree2 leff resumed]. rewrite El. cbn [ron_view].
      rewrite deser_noop by reflexivity. cbn [rbind isinstance coerce_scalar clz_or_arg is_TFloat is_TInt orb from_struct].
      rewrite enum_lookup_find. simpl in Hs. rewrite (Hs m x Hc). reflexivity.
    - (* literal *)
      assert (El := fits_no_leaf _ _ _ _ Hf eq_refl).
      destruct Hc as [a [Ha Hc]]. simpl in Hs. rewrite Forall_forall in Hs.
      assert (Hsv : scalar v = true) by (eapply scalar_eq; [apply (Hs a Ha)|exact Hc]).
      assert (Hv : ron_view (dtree2 cls v tr) = v) by (destruct v; try discriminate; cbn [dtree2]; rewrite El; reflexivity).
      assert (Hr : resumed v tr = v) by (destruct v; try discriminate; cbn [resumed]; rewrite El; reflexivity).
      assert (Hl : leff v tr path = []) by (destruct v; try discriminate; cbn [leff]; rewrite El; reflexivity).
      rewrite Hv, Hr, Hl. rewrite from_dict_main by discriminate. unfold from_main. rewrite quiet_deser by auto.
      rewrite deser_noop by reflexivity. cbn [rbind].
      assert (isinstance v (TLit l) = false) as -> by (destruct v; reflexivity).
      assert (coerce_scalar E (TLit l) v = None) as -> by (destruct v; try discriminate; reflexivity).
      cbn [from_struct].
      assert (typing_args_ok E l = Ok tt) as ->.
      { clear -Hs. induction l as [|x l IHl]; auto. simpl. destruct (Hs x (or_introl eq_refl)) as [_ ->].
        apply IHl. intros y Hy. apply Hs; right; auto. }
      cbn [rbind]. assert (unit_name v = None) as -> by (destruct v; try discriminate; reflexivity).
      assert (py_elem v l = true) as ->; [|reflexivity].
      apply existsb_exists. exists a; auto.
    - (* Serializable *)
      assert (El := fits_no_leaf _ _ _ _ Hf eq_refl).
      simpl in Hc. destruct v as [| | | | | | | | | | |bn p]; try easy. subst bn. simpl in Hs.
      cbn [dtree2 leff resumed]. rewrite El. cbn [ron_view].
      rewrite from_dict_main by discriminate. unfold from_main.
      rewrite quiet_deser by auto. rewrite ser_deser by auto. reflexivity.
  Qed.
End Load.
