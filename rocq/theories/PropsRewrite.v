(** PropsRewrite.v -- C17 .. C23: what the rewrite rules do to a parsed file.
    Vocabulary ([lookup], [unrelated], [sections], [given], [wf]): SpecTree.v. *)
From Verif Require Import Base Value Rewrite SpecTree RewriteFacts.

(** the tree used in the examples:  {opt: {lr: 1, eps: 2}, net: None, steps: 7} *)
Definition ex_tree : pyval :=
  VDict [("opt", VDict [("lr", VInt 1); ("eps", VInt 2)]); ("net", VNone); ("steps", VInt 7)].

(** ** C17 RenameField *)

(** [old] present: its value is at [new], [old] is gone, everything else is as
    before.  Missing from the full claim: when a non-dict stands on the way to
    [new] (see C17_rename_refuted). *)
Theorem C17_rename_present_partial : forall d old new v,
  wf d = true -> old <> [] -> new <> [] -> ~ In WEAK_REF new ->
  lookup d old = Some v ->
  (forall q x, proper_prefix q new -> lookup d q = Some x ->
               (exists m, x = VDict m) \/ prefix old q) ->
  exists d', apply_rule (RenameField old new) d = Ok d' /\ wf d' = true /\
    lookup d' new = Some v /\
    (unrelated old new -> ~ In WEAK_REF old -> lookup d' old = None) /\
    (forall q, unrelated old q -> unrelated new q -> ~ In WEAK_REF q ->
               lookup d' q = lookup d q).
Proof. exact rename_present. Qed.
Print Assumptions C17_rename_present_partial.

Example C17_rename_present_ex :
  wf ex_tree = true /\ lookup ex_tree ["opt"; "lr"] = Some (VInt 1) /\
  (forall q x, proper_prefix q ["sched"; "rate"] -> lookup ex_tree q = Some x ->
               (exists m, x = VDict m) \/ prefix ["opt"; "lr"] q) /\
  apply_rule (RenameField ["opt"; "lr"] ["sched"; "rate"]) ex_tree =
  Ok (VDict [("opt", VDict [("eps", VInt 2)]); ("net", VNone); ("steps", VInt 7);
             ("sched", VDict [("rate", VInt 1)])]).
Proof.
  repeat split; auto. intros q x [s [Hs He]] Hx. destruct q as [|a [|b [|c q]]]; simpl in He.
  - simpl in Hx. injection Hx as <-. left; eexists; reflexivity.
  - injection He as <- He. simpl in Hx. discriminate.
  - injection He as <- <- He. destruct s; congruence.
  - discriminate.
Qed.

Theorem C17_rename_absent : forall d old new,
  old <> [] -> is_dict d = true -> sections_or_none d old -> lookup d old = None ->
  apply_rule (RenameField old new) d = Ok d.
Proof. exact rename_absent. Qed.
Print Assumptions C17_rename_absent.

Example C17_rename_absent_ex :
  is_dict ex_tree = true /\ sections_or_none ex_tree ["net"; "width"] /\
  lookup ex_tree ["net"; "width"] = None.
Proof.
  repeat split; auto. intros q x [s [Hs He]] Hx. destruct q as [|a [|b q]]; simpl in He.
  - simpl in Hx; injection Hx as <-. right; eexists; reflexivity.
  - injection He as <- He. simpl in Hx. injection Hx as <-. auto.
  - injection He as <- <- He. destruct q, s; simpl in He; congruence.
Qed.

(** The full claim is false of the code: renaming into a section that is [None]
    (an unset Optional) silently drops the value (rewrite_rule.py:229-230). *)
Theorem C17_rename_refuted :
  exists d old new v, wf d = true /\ lookup d old = Some v /\ unrelated old new /\
    exists d', apply_rule (RenameField old new) d = Ok d' /\
               lookup d' new = None /\ lookup d' old = None.
Proof.
  exists ex_tree, ["opt"; "lr"], ["net"; "lr"], (VInt 1). repeat split; auto.
  - intros [r H]; discriminate.
  - intros [r H]; discriminate.
  - eexists; repeat split; reflexivity.
Qed.
Print Assumptions C17_rename_refuted.

(** ** C18 DeleteField *)
Theorem C18_delete_removes_one : forall d p,
  wf d = true -> p <> [] -> is_dict d = true -> sections_or_none d p ->
  exists d', apply_rule (DeleteField p) d = Ok d' /\ wf d' = true /\
    lookup d' p = None /\
    (forall q, unrelated p q -> lookup d' q = lookup d q) /\
    (lookup d p = None -> d' = d).
Proof. exact delete_spec. Qed.
Print Assumptions C18_delete_removes_one.

Example C18_delete_ex :
  wf ex_tree = true /\ sections_or_none ex_tree ["net"; "width"] /\
  apply_rule (DeleteField ["opt"; "lr"]) ex_tree =
  Ok (VDict [("opt", VDict [("eps", VInt 2)]); ("net", VNone); ("steps", VInt 7)]).
Proof. repeat split; auto. apply C17_rename_absent_ex. Qed.

(** ** C19 MapFieldValue *)
Theorem C19_map_present : forall d p f r v v',
  wf d = true -> p <> [] -> ~ In WEAK_REF p -> lookup d p = Some v ->
  f v = Ok v' -> wf v' = true ->
  exists d', apply_rule (MapFieldValue p f r) d = Ok d' /\ wf d' = true /\
    lookup d' p = Some v' /\
    (forall q, unrelated p q -> ~ In WEAK_REF q -> lookup d' q = lookup d q).
Proof. exact map_present. Qed.
Print Assumptions C19_map_present.

Theorem C19_map_error : forall d p f r v e,
  wf d = true -> p <> [] -> lookup d p = Some v -> f v = Err e ->
  apply_rule (MapFieldValue p f r) d = Err e.
Proof. exact map_error. Qed.
Print Assumptions C19_map_error.

Theorem C19_map_absent : forall d p f r,
  p <> [] -> is_dict d = true -> sections_or_none d p -> lookup d p = None ->
  apply_rule (MapFieldValue p f r) d = Ok d.
Proof. exact map_absent. Qed.
Print Assumptions C19_map_absent.

Example C19_map_ex :
  ~ In WEAK_REF ["opt"; "lr"] /\ lookup ex_tree ["opt"; "lr"] = Some (VInt 1) /\
  apply_rule (MapFieldValue ["opt"; "lr"]
                (fun v => match v with VInt z => Ok (VInt (z + 41)) | _ => Err TypeError end) None)
             ex_tree =
  Ok (VDict [("opt", VDict [("eps", VInt 2); ("lr", VInt 42)]); ("net", VNone); ("steps", VInt 7)]).
Proof. repeat split; auto. intros [H|[H|[]]]; discriminate. Qed.

(** ** C20 ChangeDefault *)
Theorem C20_change_default_present : forall d p old new v,
  wf d = true -> p <> [] -> ~ In WEAK_REF p -> lookup d p = Some v -> is_weak v = false ->
  exists d', apply_rule (ChangeDefault p old new) d = Ok d' /\ wf d' = true /\
    lookup d' p = Some v /\
    (forall q, unrelated p q -> ~ In WEAK_REF q -> lookup d' q = lookup d q).
Proof. exact change_default_present. Qed.
Print Assumptions C20_change_default_present.

Theorem C20_change_default_absent : forall d p old new,
  wf d = true -> p <> [] -> ~ In WEAK_REF p -> sections d p -> lookup d p = None ->
  wf old = true ->
  exists d', apply_rule (ChangeDefault p old new) d = Ok d' /\ wf d' = true /\
    lookup d' p = Some old /\
    (forall q, unrelated p q -> ~ In WEAK_REF q -> lookup d' q = lookup d q).
Proof. exact change_default_absent. Qed.
Print Assumptions C20_change_default_absent.

Example C20_change_default_ex :
  sections ex_tree ["opt"; "beta"] /\ lookup ex_tree ["opt"; "beta"] = None /\
  apply_rule (ChangeDefault ["opt"; "beta"] (VInt 9) (VInt 10)) ex_tree =
  Ok (VDict [("opt", VDict [("lr", VInt 1); ("eps", VInt 2); ("beta", VInt 9)]);
             ("net", VNone); ("steps", VInt 7)]) /\
  is_weak (VInt 1) = false.
Proof.
  repeat split; auto. intros q x [s [Hs He]] Hx. destruct q as [|a [|b q]]; simpl in He.
  - simpl in Hx; injection Hx as <-. eexists; reflexivity.
  - injection He as <- He. simpl in Hx. injection Hx as <-. eexists; reflexivity.
  - injection He as <- <- He. destruct q, s; simpl in He; congruence.
Qed.

(** ** C21 default rules on absent sub-configs (rule level) *)

(** AddDefault never makes a section appear or disappear *)
Theorem C21_add_default_sections : forall d p dv d' q,
  wf d = true -> p <> [] -> ~ In WEAK_REF p -> sections d p ->
  apply_rule (AddDefault p dv) d = Ok d' -> proper_prefix q p -> (given d' q <-> given d q).
Proof. exact add_default_given. Qed.
Print Assumptions C21_add_default_sections.

(** ChangeDefault does not either, when the field is absent *)
Theorem C21_change_default_sections_partial : forall d p old new d' q,
  wf d = true -> p <> [] -> ~ In WEAK_REF p -> sections d p -> lookup d p = None ->
  apply_rule (ChangeDefault p old new) d = Ok d' -> proper_prefix q p ->
  (given d' q <-> given d q).
Proof. exact change_default_given. Qed.
Print Assumptions C21_change_default_sections_partial.

Example C21_sections_ex :
  sections ex_tree ["ppo"; "gamma"] /\ lookup ex_tree ["ppo"; "gamma"] = None /\
  apply_rule (AddDefault ["ppo"; "gamma"] (VInt 3)) ex_tree =
  Ok (VDict [("opt", VDict [("lr", VInt 1); ("eps", VInt 2)]); ("net", VNone); ("steps", VInt 7);
             ("ppo", VDict [(WEAK_REF, VBool true); ("gamma", VInt 3)])]).
Proof.
  repeat split; auto. intros q x [s [Hs He]] Hx. destruct q as [|a [|b q]]; simpl in He.
  - simpl in Hx; injection Hx as <-. eexists; reflexivity.
  - injection He as <- He. simpl in Hx. discriminate.
  - injection He as <- <- He. destruct q, s; simpl in He; congruence.
Qed.

(** Two default rules in sequence do make the absent sub-config appear: the
    second one finds the weakly inserted value and re-inserts it as a given one
    (rewrite_rule.py:97). *)
Theorem C21_two_default_rules_refuted :
  exists d p v1 v2 d', wf d = true /\ sections d p /\ lookup d p = None /\
    ~ given d (removelast p) /\
    apply_rules [AddDefault p v1; ChangeDefault p v1 v2] d = Ok d' /\
    given d' (removelast p).
Proof.
  exists ex_tree, ["ppo"; "gamma"], (VInt 3), (VInt 4). eexists. repeat split.
  - apply C21_sections_ex.
  - intros [m [H _]]; discriminate.
  - vm_compute. eexists; split; reflexivity.
Qed.
Print Assumptions C21_two_default_rules_refuted.

(** ** C22 CheckValue *)
Theorem C22_check_value_partial : forall d p allowed,
  p <> [] -> sections d p ->
  (lookup d p = None -> apply_rule (CheckValue p allowed) d = Ok d) /\
  (forall x, lookup d p = Some x ->
     (unhashable x -> apply_rule (CheckValue p allowed) d = Err TypeError) /\
     (~ unhashable x -> among x allowed -> apply_rule (CheckValue p allowed) d = Ok d) /\
     (~ unhashable x -> ~ among x allowed -> apply_rule (CheckValue p allowed) d = Err ValueError)).
Proof. exact check_value_cases. Qed.
Print Assumptions C22_check_value_partial.

(** whatever the file looks like, it is never modified *)
Theorem C22_check_value_pure : forall d p allowed d',
  apply_rule (CheckValue p allowed) d = Ok d' -> d' = d.
Proof. exact check_value_pure. Qed.
Print Assumptions C22_check_value_pure.

Example C22_check_value_ex :
  sections ex_tree ["opt"; "beta"] /\
  apply_rule (CheckValue ["opt"; "lr"] [VInt 1; VInt 2]) ex_tree = Ok ex_tree /\
  apply_rule (CheckValue ["opt"; "lr"] [VInt 3]) ex_tree = Err ValueError.
Proof. split; [apply C20_change_default_ex|]. auto. Qed.

(** The full claim is false: with an unset (None) parent section the check
    crashes although the field is absent (rewrite_rule.py:204-212 has no test
    for None, unlike [_remove]). *)
Theorem C22_check_value_refuted :
  exists d p allowed, wf d = true /\ lookup d p = None /\
    sections_or_none d p /\ apply_rule (CheckValue p allowed) d = Err TypeError.
Proof.
  exists ex_tree, ["net"; "width"], [VInt 1]. repeat split; auto. apply C17_rename_absent_ex.
Qed.
Print Assumptions C22_check_value_refuted.

(** ** C23 RejectValues *)

(** What it does: the right errors, but an accepted value is deleted. *)
Theorem C23_reject_values_partial : forall d p bad,
  wf d = true -> p <> [] -> is_dict d = true -> sections_or_none d p ->
  (lookup d p = None -> apply_rule (RejectValues p bad) d = Ok d) /\
  (forall x, lookup d p = Some x ->
     (unhashable x -> apply_rule (RejectValues p bad) d = Err TypeError) /\
     (~ unhashable x -> among x bad -> apply_rule (RejectValues p bad) d = Err ValueError) /\
     (~ unhashable x -> ~ among x bad -> exists d1, apply_rule (RejectValues p bad) d = Ok d1 /\ apply_rule (DeleteField p) d = Ok d1)).
Proof. exact reject_values_cases. Qed.
Print Assumptions C23_reject_values_partial.

Example C23_reject_values_ex :
  wf ex_tree = true /\ is_dict ex_tree = true /\
  apply_rule (RejectValues ["opt"; "lr"] [VInt 1]) ex_tree = Err ValueError.
Proof. auto. Qed.

Theorem C23_reject_values_refuted :
  exists d p bad v d', wf d = true /\ lookup d p = Some v /\ py_elem v bad = false /\
    apply_rule (RejectValues p bad) d = Ok d' /\ lookup d' p = None.
Proof.
  exists ex_tree, ["opt"; "lr"], [VInt 5], (VInt 1). eexists. repeat split.
Qed.
Print Assumptions C23_reject_values_refuted.
