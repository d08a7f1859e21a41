(** FromDictFacts.v -- unfolding equations for [from_dict]. *)
From Coq Require Import Permutation.
From Verif Require Import Base AFacts Value Schema Rewrite Sched Types Asdict FromDict
  Induct SpecTree SpecTypes RewriteFacts.

(** the part of [from_dict] after the scalar coercions (serde.py:192-302) *)
Definition from_struct (E : env) (dss : list deser) (t : ty) (v : pyval) (path : string)
    (ignore_extra : bool) (st : dstate) : res (pyval * dstate) :=
  match t with
  | TUnion args =>
      let generic := existsb has_args args in
      match v with
      | VDict d =>
          match aget "!__name__" d with
          | Some nm =>
              match union_scan (fun a => from_dict E dss a v path ignore_extra st) nm args with
              | Some r => r
              | None => if generic then Err AttributeError else Err DeserializeValueError
              end
          | None => if generic then Err AttributeError else Err DeserializeValueError
          end
      | VList _ => if generic then Err AttributeError else Err DeserializeValueError
      | _ => Err DeserializeValueError
      end
  | TList inner =>
      match v with
      | VList l =>
          let* ls := smapi (fun i x s =>
                              from_dict E dss inner x (path ++ "[" ++ show_nat i ++ "]") false s)
                           0 l st in
          Ok (VList (fst ls), snd ls)
      | _ => Err DeserializeTypeError
      end
  | TTuple args =>
      match tuple_items v with
      | Some l =>
          let* ls := tuple_loop (fun a x p s => from_dict E dss a x p false s) path args 0 l st in
          Ok (VTuple (fst ls), snd ls)
      | None => Err DeserializeTypeError
      end
  | TDict _ vt =>
      match v with
      | VDict d =>
          let* ls := smap (fun (kv : string * pyval) s =>
                             let* r := from_dict E dss vt (snd kv) (path ++ "." ++ fst kv) false s in
                             Ok ((fst kv, fst r), snd r)) d st in
          Ok (VDict (fst ls), snd ls)
      | _ => Err DeserializeTypeError
      end
  | TData c fs =>
      let* items := dataclass_input E v in
      let* r := fields_loop
                  (fun k => field_with (fun ft _ => fun x p s => from_dict E dss ft x p false s) k fs)
                  (c_name c) path ignore_extra items [] [] st in
      let '(kw, weak, st') := r in
      let remaining :=
        e_order E (filter (fun n => negb (amem n kw)) (map fst fs)) in
      let* km := try_create_defaults fs remaining path weak kw [] in
      match snd km with
      | [] => let* obj := construct fs (fst km) in Ok (VObj (c_name c) obj, st')
      | ms => Err (MissingFields (c_name c) (map (path_join path) ms))
      end
  | TEnum c ms => let* m := enum_lookup c ms v in Ok (m, st)
  | TLit args =>
      let* _ := typing_args_ok E args in
      let v' := match unit_name v with Some n => VStr n | None => v end in
      if py_elem v' args then Ok (v', st) else Err DeserializeValueError
  | _ => Err DeserializeTypeError
  end.

(** serde.py:156-302 for a non-Optional type *)
Definition from_main (E : env) (dss : list deser) (t : ty) (v0 : pyval) (path : string)
    (ignore_extra : bool) (st0 : dstate) : res (pyval * dstate) :=
  let* dr := deser_all E dss t v0 VNone false path st0 in
  let '(v, last, ret, st) := dr in
  if ret then Ok (last, st) else
  if isinstance v t then Ok (v, st) else
  match coerce_scalar E t v with
  | Some r => let* x := r in Ok (x, st)
  | None => from_struct E dss t v path ignore_extra st
  end.

Lemma from_dict_eq E dss t v0 path ig st :
  from_dict E dss t v0 path ig st =
  match t with
  | TOpt inner => if is_none v0 then Ok (VNone, st) else from_dict E dss inner v0 path ig st
  | _ => from_main E dss t v0 path ig st
  end.
Proof. destruct t; reflexivity. Qed.

Lemma from_dict_main E dss t v0 path ig st :
  (forall i, t <> TOpt i) -> from_dict E dss t v0 path ig st = from_main E dss t v0 path ig st.
Proof. intros H. rewrite from_dict_eq. destruct t; try reflexivity. exfalso; eapply H; eauto. Qed.

(** set iteration visits every element once *)
Definition order_ok (E : env) : Prop := forall l, Permutation (e_order E l) l.

Lemma order_nil E : order_ok E -> e_order E [] = [].
Proof. intros H. apply Permutation_nil, Permutation_sym, H. Qed.

(** ** the deserializers of [_typed_load] without overrides *)
Definition schedule_text (t : ty) (v : pyval) : bool :=
  match t, v with
  | (TInt | TFloat), VStr s => has_char "@" s
  | _, _ => false
  end.

Definition is_TSer (t : ty) : bool := match t with TSer _ => true | _ => false end.

Lemma deser_noop E allow dir t v path st :
  is_TSer t = false -> is_versioned t = false -> schedule_text t v = false ->
  deser_all E (typed_load_desers None allow dir) t v VNone false path st = Ok (v, VNone, false, st).
Proof.
  intros H1 H2 H3. unfold typed_load_desers.
  assert (HS : deser_one E DSchedule t v path st = Ok (mkD v VNone false false st)).
  { unfold deser_one. destruct t; simpl in *; auto; destruct v; simpl in *; auto; rewrite H3; auto. }
  assert (HV : deser_one E (DVersioned allow) t v path st = Ok (mkD v VNone false false st)).
  { unfold deser_one, deser_versioned. destruct t; auto. simpl in H2. destruct (c_versioned c); [discriminate|auto]. }
  assert (HL : forall d, deser_one E (DLazy d) t v path st = Ok (mkD v VNone false false st)).
  { intros d. unfold deser_one. destruct t; auto. discriminate. }
  destruct dir as [d|]; cbn [app deser_all].
  - rewrite HS. cbn [rbind d_ok d_value d_mut d_ret d_st orb]. rewrite HV.
    cbn [rbind d_ok d_value d_mut d_ret d_st orb]. rewrite HL. reflexivity.
  - rewrite HS. cbn [rbind d_ok d_value d_mut d_ret d_st orb]. rewrite HV. reflexivity.
Qed.

Lemma zrange_empty v cur : (cur <= v)%Z -> zrange v cur = [].
Proof. intros H. unfold zrange. replace (Z.to_nat (cur - v)) with 0 by lia. reflexivity. Qed.

Lemma deser_versioned_current E allow dir c fs cur rules d path st v z :
  c_versioned c = Some (cur, rules) ->
  forallb (fun kv => Z.ltb (fst kv) cur) rules = true ->
  aget "version" d = Some v -> as_int v = Some z -> (cur <= z)%Z ->
  deser_all E (typed_load_desers None allow dir) (TData c fs) (VDict d) VNone false path st =
  Ok (VDict (adel "version" d), VNone, false, st).
Proof.
  intros Hv Hr Hg Hi Hz.
  assert (HV : deser_one E (DVersioned allow) (TData c fs) (VDict d) path st =
               Ok (mkD (VDict (adel "version" d)) VNone false false st)).
  { unfold deser_one, deser_versioned. rewrite Hv, Hg.
    assert (apply_upgrades cur rules (VDict (adel "version" d)) v = Ok (VDict (adel "version" d))) as ->.
    { unfold apply_upgrades. rewrite Hr, Hi, zrange_empty by exact Hz. reflexivity. }
    destruct v; try discriminate; reflexivity. }
  unfold typed_load_desers. destruct dir as [dd|]; cbn [app deser_all].
  - change (deser_one E DSchedule (TData c fs) (VDict d) path st) with (Ok (mkD (VDict d) VNone false false st)).
    cbn [rbind d_ok d_value d_mut d_ret d_st orb]. rewrite HV. reflexivity.
  - change (deser_one E DSchedule (TData c fs) (VDict d) path st) with (Ok (mkD (VDict d) VNone false false st)).
    cbn [rbind d_ok d_value d_mut d_ret d_st orb]. rewrite HV. reflexivity.
Qed.

(** ** fields *)
Lemma field_with_none {B} (f : ty -> dflt -> B) k fs :
  ~ In k (map fst fs) -> field_with f k fs = None.
Proof.
  induction fs as [|[n [t d]] fs IH]; simpl; intros H; auto.
  rewrite eqb_neq_str; [|intros ->; tauto]. apply IH; tauto.
Qed.

Lemma field_with_in {B} (f : ty -> dflt -> B) k t d fs :
  NoDup (map fst fs) -> In (k, (t, d)) fs -> field_with f k fs = Some (f t d).
Proof.
  induction fs as [|[n [t' d']] fs IH]; simpl; intros Hn H; [easy|].
  inversion Hn as [|? ? H1 H2]; subst. destruct H as [H|H].
  - injection H as -> -> ->. now rewrite String.eqb_refl.
  - rewrite eqb_neq_str; [apply IH; auto|]. intros ->. apply H1. apply in_map_iff. eexists; split; [|exact H]. auto.
Qed.

Lemma field_with_aget {B} (f : ty -> dflt -> B) k fs :
  field_with f k fs = option_map (fun td => f (fst td) (snd td)) (aget k fs).
Proof.
  induction fs as [|[n [t d]] fs IH]; simpl; auto. destruct (String.eqb k n); auto.
Qed.

Lemma construct_all fs : forall kw d,
  (forall n x, In (n, x) d -> aget n kw = Some x) ->
  map fst d = map fst fs ->
  construct fs kw = Ok d.
Proof.
  induction fs as [|[n [t df]] fs IH]; intros kw d Hg Hk; destruct d as [|[k x] d]; try discriminate; auto.
  simpl in Hk. injection Hk as -> Hk. cbn [construct].
  rewrite (Hg n x) by (left; auto). cbn [rbind]. rewrite (IH kw d); auto.
  intros m y Hy. apply Hg; right; auto.
Qed.
