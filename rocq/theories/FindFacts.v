(** FindFacts.v -- facts about [_find_changes]: unfolding, where changes are
    reported, and that no two changes concern the same thing. *)
From Coq Require Import Permutation.
From Verif Require Import Base Value Schema Induct AFacts Checker SpecRenames RenameFacts.

Ltac inv H := inversion H; subst; clear H.

Lemma all_new_struct n fs ver path : all_new (SStruct n fs ver) path =
  flat_map (fun kv : string * sfield =>
    if is_struct (fst (snd kv)) then all_new (fst (snd kv)) (path ++ [fst kv])%list
    else [field_added path (fst kv) (snd kv)]) fs.
Proof.
  cbn [all_new]. induction fs as [|[k [ft m]] fs IH]; [reflexivity|]. cbn [flat_map fst snd]. rewrite <- IH. reflexivity.
Qed.

Lemma all_gone_struct n fs ver path : all_gone (SStruct n fs ver) path =
  flat_map (fun kv : string * sfield =>
    if is_struct (fst (snd kv)) then all_gone (fst (snd kv)) (path ++ [fst kv])%list
    else [field_removed path (fst kv) (snd kv)]) fs.
Proof.
  cbn [all_gone]. induction fs as [|[k [ft m]] fs IH]; [reflexivity|]. cbn [flat_map fst snd]. rewrite <- IH. reflexivity.
Qed.

(** the part of [_find_changes] about field [n] of the new struct *)
Definition field_section (fs : list (string * sfield)) (path : list string) (n : string) (ft : sty) (m : fmeta)
  : res (list change) :=
  match aget n fs with
  | None => Ok (if is_struct ft then all_new ft (path ++ [n])%list else [field_added path n (ft, m)])
  | Some (ot, om) =>
      if is_struct ft && negb (is_struct ot) then
        Ok (field_removed path n (ot, om) :: all_new ft (path ++ [n])%list)
      else if is_struct ot && negb (is_struct ft) then
        Ok (field_added path n (ft, m) :: all_gone ot (path ++ [n])%list)
      else
        let* inner := find_changes ot ft (path ++ [n])%list in
        Ok (inner ++ default_changes path n om m)%list
  end.

Fixpoint sections (fs gs : list (string * sfield)) (path : list string) : res (list change) :=
  match gs with
  | [] => Ok []
  | (n, (ft, m)) :: r =>
      let* here := field_section fs path n ft m in
      let* rest := sections fs r path in
      Ok (here ++ rest)%list
  end.

Lemma find_struct n fs ver n' gs ver' path :
  find_changes (SStruct n fs ver) (SStruct n' gs ver') path =
  let* cs := sections fs gs path in Ok (cs ++ removed_fields path gs fs)%list.
Proof.
  cbn [find_changes]. f_equal. induction gs as [|[k [ft m]] gs IH]; [reflexivity|].
  cbn [sections]. unfold field_section. rewrite <- IH. reflexivity.
Qed.

Lemma sections_cons fs n ft m r path cs : sections fs ((n, (ft, m)) :: r) path = Ok cs ->
  exists here rest, field_section fs path n ft m = Ok here /\ sections fs r path = Ok rest /\ cs = (here ++ rest)%list.
Proof.
  cbn [sections]. destruct (field_section fs path n ft m) as [here|]; [|discriminate]. cbn [rbind].
  destruct (sections fs r path) as [rest|]; [|discriminate]. cbn [rbind]. intros E. injection E as <-. eauto.
Qed.

Lemma distinct_struct n fs ver : distinct_names (SStruct n fs ver) <->
  NoDup (map fst fs) /\ Forall (fun kv : string * sfield => distinct_names (fst (snd kv))) fs.
Proof.
  cbn [distinct_names].
  assert (H : (fix go (l : list (string * sfield)) := match l with [] => True | (_, (ft, _)) :: r => distinct_names ft /\ go r end) fs
    <-> Forall (fun kv : string * sfield => distinct_names (fst (snd kv))) fs).
  { induction fs as [|[k [ft m]] fs IH]; [split; [constructor|auto]|]. rewrite Forall_cons_iff. cbn [fst snd]. tauto. }
  tauto.
Qed.

(** ** Where changes are reported *)
Definition ktag (c : change) : nat := fst (fst (change_key c)).
Definition kpath (c : change) : list string := snd (fst (change_key c)).
Definition kname (c : change) : string := snd (change_key c).

Definition at_or_below (p : list string) (c : change) : Prop := exists s, kpath c = (p ++ s)%list.
Definition below (p : list string) (c : change) : Prop := exists k s, kpath c = (p ++ k :: s)%list.

Lemma aob_step p k c : at_or_below (p ++ [k]) c -> below p c.
Proof. intros [s E]. rewrite <- app_assoc in E. exists k, s. exact E. Qed.

Lemma below_aob p c : below p c -> at_or_below p c.
Proof. intros (k & s & E). eexists. exact E. Qed.

Lemma nodup_app {A} (l m : list A) : NoDup l -> NoDup m -> (forall x, In x l -> ~ In x m) -> NoDup (l ++ m).
Proof.
  induction l as [|x l IH]; intros L M D; [exact M|]. inv L. simpl. constructor.
  - rewrite in_app_iff. intros [H|H]; [tauto|]. apply (D x); [now left|auto].
  - apply IH; auto. intros y Y. apply D. now right.
Qed.

(** changes of different fields have different keys *)
Lemma keyed_nodup {K} (f : K -> list change) (name : K -> string) path l :
  NoDup (map name l) ->
  (forall x, In x l -> NoDup (map change_key (f x)) /\ forall c, In c (f x) -> at_or_below (path ++ [name x]) c) ->
  NoDup (map change_key (flat_map f l)) /\
  forall c, In c (flat_map f l) -> exists x, In x l /\ at_or_below (path ++ [name x]) c.
Proof.
  induction l as [|x l IH]; intros N H; [split; [constructor|intros c []]|].
  cbn [map] in N. inv N. destruct (H x (or_introl eq_refl)) as [H1 H0].
  destruct IH as [IH1 IH2]; [auto|intros y Y; apply H; now right|]. cbn [flat_map].
  split.
  - rewrite map_app. apply nodup_app; auto. intros k I1 I2. apply in_map_iff in I1, I2.
    destruct I1 as (c1 & E1 & I1). destruct I2 as (c2 & E2 & I2). destruct (H0 c1 I1) as [s1 P1].
    destruct (IH2 c2 I2) as (y & Y & s2 & P2).
    assert (EP : kpath c1 = kpath c2) by (unfold kpath; now rewrite E1, E2). rewrite P1, P2, <- !app_assoc in EP.
    apply app_inv_head in EP. simpl in EP. injection EP as EN _. apply H2. rewrite EN. now apply in_map.
  - intros c I. apply in_app_iff in I. destruct I as [I|I].
    + exists x. split; [now left|auto].
    + destruct (IH2 c I) as (y & Y & Q). exists y. split; [now right|auto].
Qed.

Lemma single_key path n c : kpath c = (path ++ [n])%list ->
  NoDup (map change_key [c]) /\ forall d, In d [c] -> at_or_below (path ++ [n]) d.
Proof.
  intros E. split; [constructor; [intros []|constructor]|]. intros d [<-|[]]. exists []. now rewrite app_nil_r.
Qed.

Lemma all_new_keys t : forall path, distinct_names t ->
  NoDup (map change_key (all_new t path)) /\ forall c, In c (all_new t path) -> ktag c = 0 /\ below path c.
Proof.
  induction t as [p|i IH|l IH|k v IHk IHv|l IH|n fs ver IH|i IH|n ms|l| ] using sty_ind'; intros path D;
    try (split; [constructor|intros c []]).
  rewrite all_new_struct. apply distinct_struct in D. destruct D as [N D]. rewrite Forall_forall in IH, D.
  split.
  - apply (keyed_nodup _ fst path); [exact N|]. intros [k [ft m]] I. cbn [fst snd]. destruct (is_struct ft).
    + destruct (IH _ I (path ++ [k])%list (D _ I)) as [A B]. split; [exact A|]. intros c C. apply below_aob, B, C.
    + now apply single_key.
  - intros c I. apply in_flat_map in I. destruct I as ([k [ft m]] & I & C). cbn [fst snd] in C. destruct (is_struct ft).
    + destruct (IH _ I (path ++ [k])%list (D _ I)) as [A B]. destruct (B c C) as [T Q]. split; [auto|].
      apply (aob_step _ k), below_aob, Q.
    + destruct C as [<-|[]]. split; [reflexivity|]. now exists k, [].
Qed.

Lemma all_gone_keys t : forall path, distinct_names t ->
  NoDup (map change_key (all_gone t path)) /\ forall c, In c (all_gone t path) -> ktag c = 1 /\ below path c.
Proof.
  induction t as [p|i IH|l IH|k v IHk IHv|l IH|n fs ver IH|i IH|n ms|l| ] using sty_ind'; intros path D;
    try (split; [constructor|intros c []]).
  rewrite all_gone_struct. apply distinct_struct in D. destruct D as [N D]. rewrite Forall_forall in IH, D.
  split.
  - apply (keyed_nodup _ fst path); [exact N|]. intros [k [ft m]] I. cbn [fst snd]. destruct (is_struct ft).
    + destruct (IH _ I (path ++ [k])%list (D _ I)) as [A B]. split; [exact A|]. intros c C. apply below_aob, B, C.
    + now apply single_key.
  - intros c I. apply in_flat_map in I. destruct I as ([k [ft m]] & I & C). cbn [fst snd] in C. destruct (is_struct ft).
    + destruct (IH _ I (path ++ [k])%list (D _ I)) as [A B]. destruct (B c C) as [T Q]. split; [auto|].
      apply (aob_step _ k), below_aob, Q.
    + destruct C as [<-|[]]. split; [reflexivity|]. now exists k, [].
Qed.

Lemma sections_list fs gs path cs : sections fs gs path = Ok cs ->
  exists l, cs = flat_map snd l /\ map fst l = map fst gs /\
    forall n h, In (n, h) l -> exists ft m, In (n, (ft, m)) gs /\ field_section fs path n ft m = Ok h.
Proof.
  revert cs. induction gs as [|[n [ft m]] gs IH]; intros cs H.
  - injection H as <-. exists []. split; [reflexivity|]. split; [reflexivity|]. intros n h [].
  - apply sections_cons in H. destruct H as (here & rest & A & B & ->). destruct (IH _ B) as (l & -> & Nl & L).
    exists ((n, here) :: l). split; [reflexivity|]. split; [simpl; now rewrite Nl|]. intros n' h [I|I].
    + injection I as <- <-. exists ft, m. split; [now left|auto].
    + destruct (L n' h I) as (ft' & m' & I' & E). exists ft', m'. split; [now right|auto].
Qed.

Definition gone_section (path : list string) (kv : string * sfield) : list change :=
  if is_struct (fst (snd kv)) then all_gone (fst (snd kv)) (path ++ [fst kv])%list
  else [field_removed path (fst kv) (snd kv)].

Lemma removed_fields_filter path gs fs : removed_fields path gs fs =
  flat_map (gone_section path) (filter (fun kv => negb (amem (fst kv) gs)) fs).
Proof.
  unfold removed_fields. induction fs as [|kv fs IH]; [reflexivity|]. cbn [flat_map filter].
  destruct (amem (fst kv) gs); cbn [negb]; [exact IH|]. cbn [flat_map]. now rewrite <- IH.
Qed.

Lemma default_keys path n om m : NoDup (map change_key (default_changes path n om m)) /\
  forall c, In c (default_changes path n om m) -> kpath c = (path ++ [n])%list /\ (ktag c = 3 \/ ktag c = 4).
Proof.
  unfold default_changes.
  destruct (negb (Bool.eqb (fm_has_default om) (fm_has_default m))).
  - destruct (negb (fm_has_default m)).
    + split; [constructor; [intros []|constructor]|]. intros c [<-|[]]. split; [reflexivity|now right].
    + split; [constructor|intros c []].
  - destruct (fm_has_default om && negb (py_eq (fm_default om) (fm_default m))).
    + split; [constructor; [intros []|constructor]|]. intros c [<-|[]]. split; [reflexivity|now left].
    + split; [constructor|intros c []].
Qed.

(** what every list of changes returned by the comparison satisfies *)
Definition well_keyed (path : list string) (cs : list change) : Prop :=
  NoDup (map change_key cs) /\
  forall c, In c cs -> at_or_below path c /\ (ktag c = 3 \/ ktag c = 4 -> below path c).

Lemma well_keyed_nil path : well_keyed path [].
Proof. split; [constructor|intros c []]. Qed.

Lemma well_keyed_type path o n : well_keyed path [TypeChanged path o n].
Proof.
  split; [constructor; [intros []|constructor]|]. intros c [<-|[]]. split.
  - exists []. now rewrite app_nil_r.
  - intros [H|H]; discriminate.
Qed.

Lemma section_keyed (fs gs : list (string * sfield)) path n ft m h :
  distinct_names ft -> (forall ot om, aget n fs = Some (ot, om) -> distinct_names ot) ->
  (forall old path cs, distinct_names old -> find_changes old ft path = Ok cs -> well_keyed path cs) ->
  In (n, (ft, m)) gs -> field_section fs path n ft m = Ok h ->
  NoDup (map change_key h) /\ forall c, In c h -> at_or_below (path ++ [n]) c.
Proof.
  intros D Do IH I H. unfold field_section in H. destruct (aget n fs) as [[ot om]|].
  - specialize (Do ot om eq_refl). destruct (is_struct ft && negb (is_struct ot)).
    + injection H as <-. destruct (all_new_keys ft (path ++ [n]) D) as [A B].
      destruct (single_key path n (field_removed path n (ot, om)) eq_refl) as [A' B'].
      split.
      * cbn [map]. constructor; [|exact A]. intros J. apply in_map_iff in J. destruct J as (c & E & J). apply B in J.
        unfold ktag in J. rewrite E in J. destruct J as [J _]. discriminate.
      * intros c [<-|J]; [apply B'; now left|apply below_aob, B, J].
    + destruct (is_struct ot && negb (is_struct ft)).
      * injection H as <-. destruct (all_gone_keys ot (path ++ [n]) Do) as [A B].
        destruct (single_key path n (field_added path n (ft, m)) eq_refl) as [A' B'].
        split.
        -- cbn [map]. constructor; [|exact A]. intros J. apply in_map_iff in J. destruct J as (c & E & J). apply B in J.
           unfold ktag in J. rewrite E in J. destruct J as [J _]. discriminate.
        -- intros c [<-|J]; [apply B'; now left|apply below_aob, B, J].
      * destruct (find_changes ot ft (path ++ [n])) as [inner|] eqn:F; [|discriminate]. cbn [rbind] in H. injection H as <-.
        destruct (IH ot _ _ Do F) as [A B]. destruct (default_keys path n om m) as [A' B']. split.
        -- rewrite map_app. apply nodup_app; auto. intros k I1 I2. apply in_map_iff in I1, I2.
           destruct I1 as (c1 & E1 & I1). destruct I2 as (c2 & E2 & I2). destruct (B' c2 I2) as [P T].
           destruct (B c1 I1) as [_ Q]. assert (T1 : ktag c1 = ktag c2) by (unfold ktag; now rewrite E1, E2).
           rewrite <- T1 in T. destruct (Q T) as (k' & s & P1).
           assert (P2 : kpath c1 = kpath c2) by (unfold kpath; now rewrite E1, E2).
           rewrite P1, P in P2. rewrite <- (app_nil_r (path ++ [n])) in P2 at 2. apply app_inv_head in P2. discriminate.
        -- intros c J. apply in_app_iff in J. destruct J as [J|J]; [now apply B|]. destruct (B' c J) as [P _].
           exists []. now rewrite app_nil_r.
  - injection H as <-. destruct (is_struct ft).
    + destruct (all_new_keys ft (path ++ [n]) D) as [A B]. split; [exact A|]. intros c J. apply below_aob, B, J.
    + now apply single_key.
Qed.

Lemma in_variants_nodup path (vs : list (string * pyval)) (f : string * pyval -> list change) :
  NoDup (map fst vs) ->
  (forall kv, In kv vs -> f kv = [] \/ exists c, f kv = [c] /\ kpath c = path /\ kname c = fst kv) ->
  NoDup (map change_key (flat_map f vs)) /\
  forall c, In c (flat_map f vs) -> kpath c = path /\ In (kname c) (map fst vs).
Proof.
  induction vs as [|kv vs IH]; intros N H; [split; [constructor|intros c []]|]. cbn [map] in N. inv N.
  destruct IH as [A B]; [auto|intros x X; apply H; now right|]. cbn [flat_map].
  destruct (H kv (or_introl eq_refl)) as [->|(c & -> & P & Q)].
  - cbn [app]. split; [exact A|]. intros c C. destruct (B c C). split; [auto|now right].
  - cbn [app map]. split.
    + constructor; [|exact A]. intros J. apply in_map_iff in J. destruct J as (d & E & J). apply B in J. destruct J as [_ J].
      apply H2. replace (fst kv) with (kname d); [auto|]. unfold kname in *. now rewrite E.
    + intros d [<-|J]; [split; [auto|left; auto]|]. destruct (B d J). split; [auto|now right].
Qed.

Lemma enum_keyed path n ws vs : NoDup (map fst ws) -> NoDup (map fst vs) ->
  well_keyed path (new_variants path n ws vs ++ gone_variants path n ws vs).
Proof.
  intros Nw Nv. unfold new_variants, gone_variants.
  destruct (in_variants_nodup path vs (fun kv : string * pyval =>
              match aget (fst kv) ws with
              | None => [EnumVariantAdded path n (fst kv) (snd kv)]
              | Some w => if py_eq w (snd kv) then []
                          else [EnumVariantValueChanged path n (fst kv) w (snd kv)]
              end)) as [A1 B1]; [auto| |].
  { intros kv _. destruct (aget (fst kv) ws) as [w|]; [destruct (py_eq w (snd kv)); [now left|]|]; right; eauto. }
  destruct (in_variants_nodup path ws (fun kv : string * pyval =>
              if amem (fst kv) vs then [] else [EnumVariantRemoved path n (fst kv) (snd kv)])) as [A2 B2]; [auto| |].
  { intros kv _. destruct (amem (fst kv) vs); [now left|right; eauto]. }
  assert (T1 : forall c, In c (flat_map (fun kv : string * pyval =>
              match aget (fst kv) ws with
              | None => [EnumVariantAdded path n (fst kv) (snd kv)]
              | Some w => if py_eq w (snd kv) then []
                          else [EnumVariantValueChanged path n (fst kv) w (snd kv)]
              end) vs) -> ktag c = 6 \/ ktag c = 8).
  { intros c C. apply in_flat_map in C. destruct C as (kv & _ & C). destruct (aget (fst kv) ws) as [w|]; [destruct (py_eq w (snd kv))|];
    [destruct C|destruct C as [<-|[]]; now left|destruct C as [<-|[]]; now right]. }
  assert (T2 : forall c, In c (flat_map (fun kv : string * pyval =>
              if amem (fst kv) vs then [] else [EnumVariantRemoved path n (fst kv) (snd kv)]) ws) -> ktag c = 7).
  { intros c C. apply in_flat_map in C. destruct C as (kv & _ & C). destruct (amem (fst kv) vs); [destruct C|destruct C as [<-|[]]; reflexivity]. }
  split.
  - rewrite map_app. apply nodup_app; auto. intros k I1 I2. apply in_map_iff in I1, I2.
    destruct I1 as (c1 & E1 & I1). destruct I2 as (c2 & E2 & I2). apply T1 in I1. apply T2 in I2. unfold ktag in *.
    rewrite E1 in I1. rewrite E2 in I2. lia.
  - intros c C. apply in_app_iff in C. split.
    + exists []. rewrite app_nil_r. destruct C as [C|C]; [now apply B1|now apply B2].
    + intros T. exfalso. destruct C as [C|C]; [apply T1 in C|apply T2 in C]; lia.
Qed.

Lemma literal_keyed path ws vs : well_keyed path (literal_changes path ws vs).
Proof.
  unfold literal_changes. destruct (set_minus vs ws); destruct (set_minus ws vs); cbn [app].
  - apply well_keyed_nil.
  - split; [constructor; [intros []|constructor]|]. intros c [<-|[]]. split; [exists []; now rewrite app_nil_r|intros [H|H]; discriminate].
  - split; [constructor; [intros []|constructor]|]. intros c [<-|[]]. split; [exists []; now rewrite app_nil_r|intros [H|H]; discriminate].
  - split.
    + cbn. constructor; [intros [H|[]]; discriminate|]. constructor; [intros []|constructor].
    + intros c [<-|[<-|[]]]; (split; [exists []; now rewrite app_nil_r|intros [H|H]; discriminate]).
Qed.

Lemma amem_in {A} n (gs : list (string * A)) : amem n gs = false -> ~ In n (map fst gs).
Proof. unfold amem. destruct (aget n gs) eqn:E; [discriminate|]. intros _. now apply aget_none_notin. Qed.

Lemma nodup_filter_fst {A} (fs : list (string * A)) f : NoDup (map fst fs) ->
  NoDup (map (fun kv => fst kv) (filter f fs)).
Proof.
  induction fs as [|kv fs IH]; intros Nf; [constructor|]. cbn [map] in Nf. inv Nf.
  cbn [filter]. destruct (f kv); [|auto]. cbn [map]. constructor; [|auto].
  intros J. apply H1. apply in_map_iff in J. destruct J as (x & <- & J). apply filter_In in J. apply in_map. tauto.
Qed.

Lemma find_keyed new : forall old path cs, distinct_names new -> distinct_names old ->
  find_changes old new path = Ok cs -> well_keyed path cs.
Proof.
  induction new as [p|i IH|l IH|k v IHk IHv|l IH|n gs ver IH|i IH|n ms|l| ] using sty_ind'; intros old path cs Dn Do H;
    destruct old as [q|j|l'|k' v'|l'|n' fs ver'|j|n' ws|ws| ];
    try (injection H as <-; apply well_keyed_type); try discriminate H.
  - cbn [find_changes] in H. destruct (String.eqb q p); injection H as <-; [apply well_keyed_nil|apply well_keyed_type].
  - cbn [find_changes] in H. now apply (IH j).
  - rewrite find_struct in H. destruct (sections fs gs path) as [ss|] eqn:S; [|discriminate]. cbn [rbind] in H. injection H as <-.
    apply distinct_struct in Dn, Do. destruct Dn as [Ng Dn]. destruct Do as [Nf Do]. rewrite Forall_forall in IH, Dn, Do.
    destruct (sections_list _ _ _ _ S) as (l & -> & Nl & L). rewrite removed_fields_filter.
    set (rl := map (fun kv => (fst kv, gone_section path kv)) (filter (fun kv : string * sfield => negb (@amem sfield (fst kv) gs)) fs)).
    replace (flat_map (gone_section path) (filter (fun kv : string * sfield => negb (@amem sfield (fst kv) gs)) fs)) with (flat_map snd rl).
    2:{ unfold rl. rewrite !flat_map_concat_map, map_map. reflexivity. }
    rewrite <- flat_map_app.
    destruct (keyed_nodup snd fst path (l ++ rl)%list) as [A B].
    + rewrite map_app, Nl. apply nodup_app; [auto| |].
      * unfold rl. rewrite map_map. apply nodup_filter_fst. exact Nf.
      * intros x X J. unfold rl in J. rewrite map_map in J. cbn [fst] in J. apply in_map_iff in J. destruct J as (kv & <- & J).
        apply filter_In in J. destruct J as [_ J]. apply negb_true_iff, amem_in in J. tauto.
    + intros [m h] I. cbn [fst snd]. apply in_app_iff in I. destruct I as [I|I].
      * destruct (L m h I) as (ft & fm & J & E). apply (section_keyed fs gs path m ft fm h); [| | |exact J|exact E].
        -- apply (Dn _ J).
        -- intros ot om Eo. apply aget_some_in in Eo. apply (Do _ Eo).
        -- intros old path' cs' Dold Hf. apply (IH _ J old path' cs'); [apply (Dn _ J)|auto|auto].
      * unfold rl in I. apply in_map_iff in I. destruct I as ([k [ft fm]] & Ek & I). injection Ek as <- <-. apply filter_In in I. destruct I as [I _].
        unfold gone_section. cbn [fst snd]. destruct (is_struct ft).
        -- destruct (all_gone_keys ft (path ++ [k]) (Do _ I)) as [A B]. split; [exact A|]. intros c C. apply below_aob, B, C.
        -- now apply single_key.
    + split; [exact A|]. intros c C. destruct (B c C) as ([m h] & _ & Q). cbn [fst] in Q. split; [apply below_aob|intros _]; now apply (aob_step _ m).
  - cbn [find_changes] in H. now apply (IH j).
  - cbn [find_changes] in H. injection H as <-. now apply enum_keyed.
  - cbn [find_changes] in H. injection H as <-. apply literal_keyed.
Qed.

(** ** The two rename passes *)
Lemma path_eqb_eq p : forall q, path_eqb p q = true -> p = q.
Proof.
  unfold path_eqb. induction p as [|x p IH]; intros [|y q] H; simpl in H; try discriminate; [reflexivity|].
  apply andb_true_iff in H. destruct H as [A B]. apply String.eqb_eq in A. subst. f_equal. now apply IH.
Qed.

Lemma change_eqb_key c d : change_eqb c d = true -> change_key c = change_key d.
Proof.
  destruct c, d; cbn [change_eqb]; try discriminate; intros H;
    repeat match goal with H : (_ && _)%bool = true |- _ => apply andb_true_iff in H; destruct H end;
    repeat match goal with
           | H : path_eqb _ _ = true |- _ => apply path_eqb_eq in H; subst
           | H : String.eqb _ _ = true |- _ => apply String.eqb_eq in H; subst
           end; reflexivity.
Qed.

Lemma nodup_filter_keys cs (f : change -> bool) : NoDup (map change_key cs) -> NoDup (map change_key (filter f cs)).
Proof.
  induction cs as [|c cs IH]; intros N; [constructor|]. cbn [map] in N. inv N. cbn [filter]. destruct (f c); [|auto].
  cbn [map]. constructor; [|auto]. intros J. apply H1. apply in_map_iff in J. destruct J as (d & <- & J). apply filter_In in J. apply in_map. tauto.
Qed.

Lemma field_renames_ok cs : NoDup (map change_key (filter (fun c => is_FieldAdded c || is_FieldRemoved c) cs)) ->
  exists out, find_field_renames cs = Ok out /\
    matching is_FieldAdded is_FieldRemoved field_similarity field_renamed cs out /\
    filter (fun c => is_VariantAdded c || is_VariantRemoved c) out = filter (fun c => is_VariantAdded c || is_VariantRemoved c) cs.
Proof.
  intros K. unfold find_field_renames.
  assert (EC : forall c d, change_eqb c d = true -> is_FieldAdded c = is_FieldAdded d /\ is_FieldRemoved c = is_FieldRemoved d).
  { intros c d. destruct c, d; try discriminate; auto. }
  assert (MC : forall a r, is_FieldAdded a = true -> is_FieldRemoved r = true ->
    is_FieldAdded (field_renamed a r) = false /\ is_FieldRemoved (field_renamed a r) = false).
  { intros a r. destruct a, r; try discriminate; auto. }
  assert (DC : forall c, is_FieldAdded c = true -> is_FieldRemoved c = true -> False) by (intros c; destruct c; discriminate).
  destruct (find_renames_ok is_FieldAdded is_FieldRemoved field_similarity field_renamed EC MC DC change_eqb_key cs K) as (out & E & M).
  exists out. split; [exact E|]. split; [exact M|].
  apply (find_renames_filter _ _ _ _ EC MC DC change_eqb_key cs out _ K E).
  - intros c. destruct c; try discriminate; auto.
  - intros a r. destruct a, r; try discriminate; auto.
Qed.

Lemma enum_renames_ok cs : NoDup (map change_key (filter (fun c => is_VariantAdded c || is_VariantRemoved c) cs)) ->
  exists out, find_enum_variant_renames cs = Ok out /\
    matching is_VariantAdded is_VariantRemoved enum_similarity enum_renamed cs out.
Proof.
  intros K. unfold find_enum_variant_renames. apply find_renames_ok; [| | |exact change_eqb_key|exact K].
  - intros c d. destruct c, d; try discriminate; auto.
  - intros a r. destruct a, r; try discriminate. intros _ _. cbn [enum_renamed]. destruct (negb _); auto.
  - intros c; destruct c; discriminate.
Qed.

(** comparing two schemas never fails after [_find_changes] *)
Lemma compare_ok old new cs : distinct_names old -> distinct_names new -> find_changes old new [] = Ok cs ->
  exists c2 c3, compare_schemas old new =
      Ok (mkChk old new c3 (flat_map (fun c => match proposed_fix c with Some r => [r] | None => [] end) c3)) /\
    matching is_FieldAdded is_FieldRemoved field_similarity field_renamed cs c2 /\
    matching is_VariantAdded is_VariantRemoved enum_similarity enum_renamed c2 c3.
Proof.
  intros Do Dn F. destruct (find_keyed new old [] cs Dn Do F) as [N _].
  destruct (field_renames_ok cs) as (c2 & E2 & M2 & Fl); [now apply nodup_filter_keys|].
  destruct (enum_renames_ok c2) as (c3 & E3 & M3); [rewrite Fl; now apply nodup_filter_keys|].
  exists c2, c3. split; [|auto]. unfold compare_schemas. rewrite F. cbn [rbind]. rewrite E2. cbn [rbind]. rewrite E3. reflexivity.
Qed.
