(** PropsBlob.v -- placeholders of state files, also of old ones (C70). *)
From Verif Require Import Base Value Schema Rewrite Sched Types Asdict FromDict Lazy SpecTypes SpecState SpecLazy SpecBlob BlobFacts PropsLazy.

(** C70: if a state file loads, then whatever it says for a Serializable field (other than
    None for an Optional one) is one of the three placeholders, and the field is bound to
    the file that the placeholder stands for. *)
Theorem C70_placeholder : forall E c fs d dir allow ig L f cls t dfl x,
  c_versioned c = None -> Forall plain_name (map fst fs) -> aget f fs = Some (t, dfl) -> t = TSer cls \/ t = TOpt (TSer cls) -> f <> "!__name__" ->
  NoDup (map fst d) -> aget f d = Some x -> is_weak x = false -> is_none x = false ->
  typed_load E (TData c fs) (VDict d) (Some dir) None allow ig = Ok L ->
  exists s file pk, x = VStr s /\ placeholder dir f s file pk /\ aget f (l_lazy L) = Some (mkLazy cls file pk).
Proof. exact blob_source_any. Qed.
Print Assumptions C70_placeholder.

(** The first access reads that file: it fails if the file is missing or is a pickle and
    pickles are not allowed, and otherwise user code gets the contents. *)
Theorem C70_access : forall E c fs d dir allow ig L f cls t dfl s file pk,
  c_versioned c = None -> Forall plain_name (map fst fs) -> aget f fs = Some (t, dfl) -> t = TSer cls \/ t = TOpt (TSer cls) -> f <> "!__name__" ->
  NoDup (map fst d) -> aget f d = Some (VStr s) -> typed_load E (TData c fs) (VDict d) (Some dir) None allow ig = Ok L ->
  placeholder dir f s file pk -> forall deser pickle_allowed disk,
  fst (fst (lazy_get deser pickle_allowed disk (inst_of L) f)) =
    match disk file with
    | None => Err FileNotFoundError
    | Some data => if pk && negb pickle_allowed then Err RuntimeError else deser cls data (inst_of L)
    end.
Proof. exact blob_access. Qed.
Print Assumptions C70_access.

Example C70_case :
  let d := [("step", VInt 3); ("net", VStr "<BLOB>"); ("buf", VStr "<blob:pickle>")] in
  c_versioned (mkC "Learner" None) = None /\
  Forall plain_name (map fst [("step", (TInt, DMissing)); ("net", (TSer "Network", DMissing)); ("buf", (TOpt (TSer "Buffer"), DMissing))]) /\
  exists L, typed_load learner_env tLearner (VDict d) (Some "ck") None false false = Ok L /\
    l_lazy L = [("net", mkLazy "Network" "ck/net" true); ("buf", mkLazy "Buffer" "ck/state.buf.pickle" true)] /\
    placeholder "ck" "net" "<BLOB>" "ck/net" true /\
    forall data, fst (fst (lazy_get ex_deser true (fun p => if String.eqb p "ck/net" then Some data else None) (inst_of L) "net")) = Ok (VBlob "Network" data).
Proof.
  cbv zeta. split; [reflexivity|]. split; [repeat constructor; discriminate|]. eexists. split; [vm_compute; reflexivity|]. split; [reflexivity|].
  split; [exact (ph_blob "ck" "net")|]. intros data. reflexivity.
Qed.
