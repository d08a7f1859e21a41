(** PropsKey.v -- the values step() gives to scheduled fields: C38. *)
From Coq Require Import Reals Lra.
From Flocq Require Import Core.
From Verif Require Import Base Value Schema Rewrite Sched Types Asdict FromDict Manager SpecTypes SpecState SpecNum FloatFacts SpecSched
  FloatOps SpecKey KeyFacts Examples PropsSched PropsState.
Open Scope R_scope.

(** If the state's key is a number then bringing the schedules up to date succeeds and
    sets every scheduled field to the value of its schedule at that number (C35),
    truncated towards zero for int fields, and changes nothing else. *)
Theorem C38_values : forall E c fs v l n d,
  cos_ok E -> cos_range E -> persistable E false (TData c fs) -> holds (TData c fs) v ->
  SpecState.fits E "" (SNode l) (TData c fs) v -> named "" (SNode l) ->
  (forall p s, sched_at (SNode l) p = Some s -> usable (sch_pw s) /\
     exists x r, aget (pw_xname (sch_pw s)) d = Some x /\ number x r /\ Rabs r <= bpow radix2 1022) ->
  exists v', apply_schedules E (VObj n d) l v = Ok v' /\ holds (TData c fs) v' /\
    (forall p s x r, sched_at (SNode l) p = Some s -> aget (pw_xname (sch_pw s)) d = Some x -> number x r ->
       exists y, double y /\ value_near (sch_pw s) r (real_of y) /\ field_at v' p = Some (scheduled_value s y)) /\
    (forall q, (forall p s, sched_at (SNode l) p = Some s -> ~ prefix_of p q /\ ~ prefix_of q p) ->
       field_at v' q = field_at v q).
Proof. exact step_values. Qed.
Print Assumptions C38_values.

(** ** example *)
Lemma key_fits : SpecState.fits sched_env "" (SNode ex_tree) tCfg ex_cfg.
Proof.
  unfold ex_tree. simpl. split; [|split; [|exact I]].
  - exists "Config". do 5 eexists. split; [reflexivity|]. split; [reflexivity|]. split; [reflexivity|].
    split; [reflexivity|]. split; [|exact I]. exists "Optimizer". do 5 eexists. split; [reflexivity|].
    split; [reflexivity|]. split; [reflexivity|]. split; [reflexivity|].
    split; [reflexivity|]. split; [reflexivity|]. split; [reflexivity|]. split; [vm_compute; reflexivity|].
    eexists. vm_compute. reflexivity.
  - exists "Config". do 5 eexists. split; [reflexivity|]. split; [reflexivity|]. split; [reflexivity|].
    split; [reflexivity|]. split; [reflexivity|]. split; [reflexivity|]. split; [reflexivity|].
    split; [vm_compute; reflexivity|]. eexists. vm_compute. reflexivity.
Qed.

Lemma bound_10 : 10 <= bpow radix2 1022.
Proof. apply Rle_trans with (bpow radix2 4); [simpl; lra|]. apply bpow_le. lia. Qed.

Lemma key_seg a b x y i : (0 <= a)%Z -> (a < b)%Z -> (b <= 10)%Z -> (0 <= x <= 10)%Z -> (0 <= y <= 10)%Z ->
  let sg := mkSeg (sf_of_Z a) (sf_of_Z b) (sf_of_Z x) (sf_of_Z y) i in
  good_segment sg /\ moderate (sg_initial sg) /\ moderate (sg_final sg).
Proof.
  intros Ha Hab Hb Hx Hy sg.
  assert (S : forall z, (0 <= z <= 10)%Z -> double (sf_of_Z z) /\ real_of (sf_of_Z z) = IZR z /\ moderate (sf_of_Z z)).
  { intros z Hz. destruct (sf_of_Z_double z) as [D R]; [lia|]. split; [exact D|]. split; [exact R|]. unfold moderate. rewrite R.
    assert (0 <= IZR z <= 10) by (split; apply IZR_le; lia). rewrite Rabs_right by lra. pose proof bound_10. lra. }
  destruct (S a) as (Da & Ra & Ma); [lia|]. destruct (S b) as (Db & Rb & Mb); [lia|].
  destruct (S x Hx) as (Dx & Rx & Mx). destruct (S y Hy) as (Dy & Ry & My). unfold good_segment, sg. cbn [sg_start sg_end sg_initial sg_final].
  repeat split; try apply Da; try apply Db; try apply Dx; try apply Dy; auto. rewrite Ra, Rb. now apply IZR_lt.
Qed.

Lemma key_usable p s : sched_at (SNode ex_tree) p = Some s -> usable (sch_pw s) /\ pw_xname (sch_pw s) = "step".
Proof.
  destruct p as [|k p]; [discriminate|]. cbn [sched_at ex_tree aget]. destruct (String.eqb k "opt").
  - destruct p as [|k2 p]; [discriminate|]. cbn [sched_at aget]. destruct (String.eqb k2 "lr"); [|discriminate].
    destruct p; [|discriminate]. intros [= <-]. split; [|reflexivity]. split; [discriminate|].
    intros sg [<-|[]]. apply (key_seg 0 10 3 7 ILin); lia.
  - destruct (String.eqb k "steps"); [|discriminate]. destruct p; [|discriminate]. intros [= <-]. split; [|reflexivity]. split; [discriminate|].
    intros sg [<-|[<-|[]]]; [apply (key_seg 0 7 3 10 IStep)|apply (key_seg 7 10 10 0 IStep)]; lia.
Qed.

(** the hypotheses hold for a key of 8.5 and for one of 8; the fields get the values *)
Example C38_values_ex :
  cos_ok sched_env /\ cos_range sched_env /\ persistable sched_env false tCfg /\ holds tCfg ex_cfg /\
  SpecState.fits sched_env "" (SNode ex_tree) tCfg ex_cfg /\ named "" (SNode ex_tree) /\
  (forall x, x = VInt 8 \/ x = VFloat (S754_finite false 4785074604081152 (-49)) ->
     forall p s, sched_at (SNode ex_tree) p = Some s -> usable (sch_pw s) /\
       exists y r, aget (pw_xname (sch_pw s)) [("step", x)] = Some y /\ number y r /\ Rabs r <= bpow radix2 1022) /\
  (let* v := apply_schedules sched_env (VObj "S" [("step", VFloat (S754_finite false 4785074604081152 (-49)))]) ex_tree ex_cfg in
   Ok (field_at v ["steps"], field_at v ["opt"; "lr"])) =
    Ok (Some (VInt 10), Some (VFloat (S754_finite false 7205759403792794 (-50)))).
Proof.
  destruct cos_ex_ok as [C1 C2]. do 2 (split; [assumption|]). split; [exact ex_persistable|]. split; [exact ex_holds|].
  split; [exact key_fits|]. split; [exact ex_named|]. split; [|vm_compute; reflexivity].
  intros x Hx p s Hs. destruct (key_usable p s Hs) as [U ->]. split; [exact U|]. cbn [aget String.eqb Ascii.eqb Bool.eqb].
  pose proof bound_10. destruct Hx as [-> | ->].
  - do 2 eexists. split; [reflexivity|]. split; [apply num_int; lia|]. rewrite Rabs_right by lra. lra.
  - do 2 eexists. split; [reflexivity|]. split; [apply num_float; split; reflexivity|]. rewrite real_finite. cbn [cond_Zopp].
    replace (bpow radix2 (-49)) with (/ 562949953421312) by (simpl; lra). rewrite Rabs_right by lra. lra.
Qed.
