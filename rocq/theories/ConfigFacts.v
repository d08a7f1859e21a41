(** ConfigFacts.v -- config classes. *)
From Verif Require Import Base AFacts Value Schema Rewrite Types Asdict FromDict Induct SpecTree SpecTypes RewriteFacts FromDictFacts RoundTrip SpecLazy.

(** ** config classes *)
Lemma rmap_total {A B} (f : A -> res B) l : (forall x, In x l -> exists y, f x = Ok y) -> exists ys, rmap f l = Ok ys.
Proof.
  induction l as [|x l IH]; intros H; [now exists []|]. destruct (H x (or_introl eq_refl)) as [y Hy].
  destruct IH as [ys Hys]; [intros z Hz; apply H; now right|]. exists (y :: ys). cbn. now rewrite Hy, Hys.
Qed.

Lemma rmap_in {A B} (f : A -> res B) l ys x : rmap f l = Ok ys -> In x l -> exists y, f x = Ok y.
Proof.
  revert ys. induction l as [|a l IH]; intros ys H Hin; [contradiction|]. destruct Hin as [->|Hx]; cbn in H; apply rbind_ok in H as [y [H1 H]]; eauto.
  apply rbind_ok in H as [zs [H2 _]]. eauto.
Qed.

Lemma configurable_iff t : configurable t <-> exists s, materialize_type t = Ok s.
Proof.
  induction t as [| | | | |i IH|l IH|kt vt IHk IHv|i IH|l IH|c fs IH|n ms|l|n] using ty_ind'; cbn [configurable materialize_type];
    try (split; [intros; eauto|intros _; exact I]); try (split; [easy|intros [s H]; discriminate]).
  - rewrite IH. split; intros [s H]; [rewrite H; cbn; eauto|apply rbind_ok in H as [x [H _]]; eauto].
  - rewrite all_Forall, Forall_forall. rewrite Forall_forall in IH. split.
    + intros H. destruct (rmap_total materialize_type l) as [ys Hy]; [intros x Hx; apply IH; auto|]. rewrite Hy. cbn. eauto.
    + intros [s H] x Hx. apply rbind_ok in H as [ys [H _]]. apply IH; auto. eapply rmap_in; eauto.
  - rewrite IHk, IHv. split.
    + intros [[s1 H1] [s2 H2]]. rewrite H1, H2. cbn. eauto.
    + intros [s H]. apply rbind_ok in H as [x [H1 H]]. apply rbind_ok in H as [y [H2 _]]. eauto.
  - rewrite IH. split; intros [s H]; [rewrite H; cbn; eauto|apply rbind_ok in H as [x [H _]]; eauto].
  - rewrite all_Forall, Forall_forall. rewrite Forall_forall in IH. split.
    + intros H. destruct (rmap_total materialize_type l) as [ys Hy]; [intros x Hx; apply IH; auto|]. rewrite Hy. cbn. eauto.
    + intros [s H] x Hx. apply rbind_ok in H as [ys [H _]]. apply IH; auto. eapply rmap_in; eauto.
  - rewrite all_Forall, Forall_forall. rewrite Forall_forall in IH. split.
    + intros H. edestruct (rmap_total (fun f : string * (ty * dflt) =>
                let '(n, (t', d)) := f in
                let* s := materialize_type t' in
                Ok (n, (s, mkF n (schema_default (default_value d)) (has_default d) None))) fs) as [ys Hy].
      * intros [fn [ft fd]] Hx. assert (X := H _ Hx). cbn in X. apply (IH (fn, (ft, fd)) Hx) in X as [s Hs]. cbn [fst snd] in Hs. rewrite Hs. cbn. eauto.
      * rewrite Hy. cbn. eauto.
    + intros [s H] [fn [ft fd]] Hx. apply rbind_ok in H as [ys [H _]]. apply (IH (fn, (ft, fd)) Hx).
      destruct (rmap_in _ _ _ _ H Hx) as [y Hy]. cbn beta iota in Hy. apply rbind_ok in Hy as [s1 [Hs _]]. cbn [fst snd]. eauto.
Qed.
