(** PropsHelp.v -- [help]: C50, C56.  The theorems are about the schema [help] gets from
    [materialize_type]; names are shorter than 2^50 characters where similarities matter. *)
From Verif Require Import Base Value Schema Rewrite Sched Types Asdict FromDict Checker SpecNames HelpM SpecHelp HelpFacts.

(** C50: without a query every field is printed, at any depth, under its section, and
    nothing else *)
Theorem C50_listing : forall s p l,
  In (p, l) (read_listing [] (help_schema s "")) <-> exists f, field_in true s p f /\ l = listed (length p - 1) f.
Proof. exact listing. Qed.
Print Assumptions C50_listing.

(** C50: a query for the name of a field is answered with the fields of that name
    before all others.  Missing: fields in Optional and List sections. *)
Theorem C50_query_partial : forall s q, q <> "" -> short q -> every_name short s ->
  exists found others, answers (help_schema s q) = (found ++ others)%list /\
    (forall p, In p found <-> last p "" = q /\ exists f, field_in false s p f) /\
    (forall p, In p others -> last p "" <> q /\ exists f, field_in false s p f).
Proof. exact query_exact. Qed.
Print Assumptions C50_query_partial.

(** C50: each answer shows the field's own type, default and docstring *)
Theorem C50_query_lines : forall s q p t df doc, q <> "" -> In (LPath p t df doc) (help_schema s q) ->
  exists f, field_in false s p f /\ t = fst f /\ (section t = false -> df = fm_default (snd f) /\ doc = fm_doc (snd f)).
Proof. exact query_lines. Qed.
Print Assumptions C50_query_lines.

(** C50: asking for a config section by name lists its fields below it *)
Theorem C50_query_section : forall s q, q <> "" -> short q -> every_name short s -> forall p t df doc a b,
  help_schema s q = (a ++ LPath p t df doc :: b)%list -> last p "" = q -> section t = true ->
  exists n fs v c, unwrap_container t = SStruct n fs v /\ b = (map (fun kf => listed 1 (snd kf)) fs ++ c)%list.
Proof. exact query_section. Qed.
Print Assumptions C50_query_section.

Definition h_optim : sty := SStruct "Optim"
  [("lr", (SPrim "float", mkF "lr" (VInt 1) true (Some "learning rate")));
   ("momentum", (SPrim "float", mkF "momentum" VNone false None))] None.
Definition h_config : sty := SStruct "Config"
  [("lr", (SPrim "int", mkF "lr" VNone false None));
   ("optim", (h_optim, mkF "optim" VNone false (Some "optimizer")));
   ("other", (SOption h_optim, mkF "other" VNone true None))] (Some 0%Z).

Example C50_case :
  read_listing [] (help_schema h_config "") =
    [(["lr"], LField 0 "lr" (SPrim "int") VNone None);
     (["optim"], LField 0 "optim" h_optim VNone None);
     (["optim"; "lr"], LField 1 "lr" (SPrim "float") (VInt 1) (Some "learning rate"));
     (["optim"; "momentum"], LField 1 "momentum" (SPrim "float") VNone None);
     (["other"], LField 0 "other" (SOption h_optim) VNone None);
     (["other"; "lr"], LField 1 "lr" (SPrim "float") (VInt 1) (Some "learning rate"));
     (["other"; "momentum"], LField 1 "momentum" (SPrim "float") VNone None)] /\
  answers (help_schema h_config "lr") = [["lr"]; ["optim"; "lr"]] /\
  field_in false h_config ["optim"; "lr"] (SPrim "float", mkF "lr" (VInt 1) true (Some "learning rate")).
Proof.
  split; [vm_compute; reflexivity|]. split; [vm_compute; reflexivity|].
  apply (fi_sub false _ _ _ "optim" (h_optim, mkF "optim" VNone false (Some "optimizer"))); [simpl; auto|].
  apply (fi_here false _ _ _ "lr" (SPrim "float", mkF "lr" (VInt 1) true (Some "learning rate"))). simpl; auto.
Qed.

Example C50_query_case :
  help_schema h_config "lr" =
    [LPath ["lr"] (SPrim "int") VNone None; LPath ["optim"; "lr"] (SPrim "float") (VInt 1) (Some "learning rate")] /\
  help_schema h_config "optim" =
    [LPath ["optim"] h_optim VNone None;
     LField 1 "lr" (SPrim "float") (VInt 1) (Some "learning rate"); LField 1 "momentum" (SPrim "float") VNone None].
Proof. split; vm_compute; reflexivity. Qed.

(** C50 refuted for the fields of an Optional section: [other.lr] exists, is listed by
    [help(T)], but [help(T, "lr")] does not show it *)
Theorem C50_optional_refuted : exists s p f q, q <> "" /\ field_in true s p f /\ fm_name (snd f) = q /\
  In p (map fst (read_listing [] (help_schema s ""))) /\ ~ In p (answers (help_schema s q)).
Proof.
  exists h_config, ["other"; "lr"], (SPrim "float", mkF "lr" (VInt 1) true (Some "learning rate")), "lr".
  split; [discriminate|]. split.
  - apply (fi_sub true _ _ _ "other" (SOption h_optim, mkF "other" VNone true None)); [simpl; auto|]. apply fi_option; [reflexivity|].
    apply (fi_here true _ _ _ "lr" (SPrim "float", mkF "lr" (VInt 1) true (Some "learning rate"))). simpl; auto.
  - split; [reflexivity|]. split; [vm_compute; intuition|]. vm_compute. intuition discriminate.
Qed.
Print Assumptions C50_optional_refuted.

(** C56: something is shown unless the config has no field *)
Theorem C56_never_empty : forall s q, q <> "" -> short q -> every_name short s ->
  forall p f, field_in false s p f -> answers (help_schema s q) <> [].
Proof. exact query_some. Qed.
Print Assumptions C56_never_empty.

(** C56: more similar names come first *)
Theorem C56_order : forall s q, q <> "" -> short q -> every_name short s -> forall a p b p' c,
  answers (help_schema s q) = (a ++ p :: b ++ p' :: c)%list ->
  SFltb (name_similarity (last p "") q) (name_similarity (last p' "") q) = false.
Proof. exact query_order. Qed.
Print Assumptions C56_order.

(** C56: a field that is not shown is not more similar than one that is *)
Theorem C56_most_similar : forall s q, q <> "" -> short q -> every_name short s -> forall p f p',
  field_in false s p f -> In p' (answers (help_schema s q)) -> ~ In p (answers (help_schema s q)) ->
  SFltb (name_similarity (last p' "") q) (name_similarity (last p "") q) = false.
Proof. exact query_best. Qed.
Print Assumptions C56_most_similar.

(** C56: a name that differs only in underscores, an abbreviation and its long form are
    always shown *)
Theorem C56_alike : forall s q, q <> "" -> short q -> every_name short s -> forall p f, field_in false s p f ->
  (let n := fm_name (snd f) in replace_char "_" "" n = replace_char "_" "" q \/ n = initials q \/ q = initials n) ->
  In p (answers (help_schema s q)).
Proof. exact query_alike. Qed.
Print Assumptions C56_alike.

(** C56: every answer but the first is worth showing *)
Theorem C56_worth : forall s q, q <> "" -> short q -> every_name short s -> forall p0 a p b,
  answers (help_schema s q) = (p0 :: a ++ p :: b)%list ->
  worth q (name_similarity (last p0 "") q) (S (length a)) (last p "").
Proof. exact query_worth. Qed.
Print Assumptions C56_worth.

(** C56: the answers end only before a field that is not worth showing: one at least as
    similar as any field left out *)
Theorem C56_ends : forall s q, q <> "" -> short q -> every_name short s -> forall p f,
  field_in false s p f -> ~ In p (answers (help_schema s q)) ->
  exists p0 r p' f', answers (help_schema s q) = p0 :: r /\ field_in false s p' f' /\
    SFltb (name_similarity (last p' "") q) (name_similarity (last p "") q) = false /\
    ~ worth q (name_similarity (last p0 "") q) (length (p0 :: r)) (last p' "").
Proof. exact query_ends. Qed.
Print Assumptions C56_ends.

Definition h_names : sty := SStruct "Names"
  [("lr", (SPrim "float", mkF "lr" VNone false None));
   ("lx", (SPrim "float", mkF "lx" VNone false None));
   ("learning_rate", (SPrim "float", mkF "learning_rate" VNone false None));
   ("optimizer_lr_schedule", (SPrim "str", mkF "optimizer_lr_schedule" VNone false None))] None.

Example C56_case :
  answers (help_schema h_names "lr") = [["lr"]; ["learning_rate"]] /\
  answers (help_schema h_names "lrr") = [["lr"]] /\
  answers (help_schema h_names "learningrate") = [["learning_rate"]].
Proof. repeat split; vm_compute; reflexivity. Qed.

Definition h_close : sty := SStruct "Close"
  [("batch_sizes", (SPrim "int", mkF "batch_sizes" VNone false None));
   ("batch_sise", (SPrim "int", mkF "batch_sise" VNone false None));
   ("seed", (SPrim "int", mkF "seed" VNone false None))] None.

Example C56_close_case :
  answers (help_schema h_close "batch_siz") = [["batch_sizes"]; ["batch_sise"]] /\
  worth "batch_siz" (name_similarity "batch_sizes" "batch_siz") 1 "batch_sise" /\
  SFltb (name_similarity "batch_sise" "batch_siz") f64_one = true /\
  SFltb (name_similarity "seed" "batch_siz") f64_0_4 = true.
Proof.
  split; [vm_compute; reflexivity|]. split; [right; right; repeat split; vm_compute; auto|]. split; vm_compute; reflexivity.
Qed.

(** C56 refuted: a field whose name contains the query may be left out, although the
    loop makes an exception for such fields: a more similar name that does not contain
    it stops the listing first *)
Theorem C56_contains_refuted : exists s p f q, q <> "" /\ field_in false s p f /\
  (exists x y, fm_name (snd f) = x ++ q ++ y) /\ ~ In p (answers (help_schema s q)).
Proof.
  exists h_names, ["optimizer_lr_schedule"], (SPrim "str", mkF "optimizer_lr_schedule" VNone false None), "lr".
  split; [discriminate|]. split.
  - apply (fi_here false _ _ _ "optimizer_lr_schedule" (SPrim "str", mkF "optimizer_lr_schedule" VNone false None)). simpl; auto 6.
  - split; [exists "optimizer_", "_schedule"; reflexivity|]. vm_compute. intuition discriminate.
Qed.
Print Assumptions C56_contains_refuted.
