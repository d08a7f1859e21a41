(** PropsLazy.v -- Lazy state objects: C45, C46, C47, C48. *)
From Verif Require Import Base Value Schema Rewrite Sched Types Asdict FromDict Lazy
  SpecTypes SpecState FromDictFacts SpecLazy LazyFacts SessionFacts Examples.

(** ** C45 *)
(** The first access to an unloaded field opens its file, once, and parses it. *)
Theorem C45_first_access : forall deser pickle_allowed disk o f r v,
  aget f (i_unloaded o) = Some r -> pending deser pickle_allowed disk r v ->
  fst (fst (lazy_get deser pickle_allowed disk o f)) = Ok v /\
  snd (lazy_get deser pickle_allowed disk o f) = [Opened f; if lz_pickle r then Unpickled f else Parsed f].
Proof. exact first_access. Qed.
Print Assumptions C45_first_access.

(** After a successful access no use of the object, with any files, touches the file of
    that field again. *)
Theorem C45_read_once : forall deser pickle_allowed disk l o f v,
  NoDup (map fst (i_unloaded o)) ->
  fst (fst (lazy_get deser pickle_allowed disk o f)) = Ok v ->
  forall e, In e (snd (uses deser pickle_allowed l (snd (fst (lazy_get deser pickle_allowed disk o f))))) -> ~ about f e.
Proof. exact read_once. Qed.
Print Assumptions C45_read_once.

(** A field that is never read is never loaded. *)
Theorem C45_unread : forall deser pickle_allowed l f o,
  (forall disk, ~ In (disk, Get f) l) ->
  forall e, In e (snd (uses deser pickle_allowed l o)) -> ~ about f e.
Proof. exact unread_field. Qed.
Print Assumptions C45_unread.

(** A missing or damaged file only concerns accesses to its own field: uses that do not
    read [f] give the same results, the same object and the same file accesses whatever
    the file of [f] contains. *)
Theorem C45_other_fields : forall deser pickle_allowed path f l l' o,
  same_but path l l' -> (forall disk, ~ In (disk, Get f) l) ->
  NoDup (map fst (i_unloaded o)) ->
  (forall n r, n <> f -> aget n (i_unloaded o) = Some r -> lz_file r <> path) ->
  uses deser pickle_allowed l o = uses deser pickle_allowed l' o.
Proof. exact other_fields. Qed.
Print Assumptions C45_other_fields.

(** A failed access leaves the object as it was, so it can be retried. *)
Theorem C45_failed_access : forall deser pickle_allowed disk o f e,
  fst (fst (lazy_get deser pickle_allowed disk o f)) = Err e ->
  snd (fst (lazy_get deser pickle_allowed disk o f)) = o.
Proof. exact get_fails. Qed.
Print Assumptions C45_failed_access.

(** class Learner(Lazy): step: int; net: Network; buf: Buffer *)
Definition ex_deser (c : string) (data : pyval) (o : inst) : res pyval := Ok (VBlob c data).
Definition ex_disk (p : string) : option pyval :=
  if String.eqb p "ck/state.net.msgpack" then Some (VDict [("w", VInt 5)]) else None.
Definition ex_learner : inst :=
  mkInst "Learner" [("step", VInt 3); ("net", VNone); ("buf", VNone)]
    [("net", mkLazy "Network" "ck/state.net.msgpack" false); ("buf", mkLazy "Buffer" "ck/state.buf.msgpack" false)].
Example C45_ex :
  uses ex_deser false (map (fun u => (ex_disk, u)) [Get "step"; Get "net"; Get "buf"; Get "net"; Get "buf"]) ex_learner =
  ([Ok (VInt 3); Ok (VBlob "Network" (VDict [("w", VInt 5)])); Err FileNotFoundError;
    Ok (VBlob "Network" (VDict [("w", VInt 5)])); Err FileNotFoundError],
   mkInst "Learner" [("step", VInt 3); ("net", VBlob "Network" (VDict [("w", VInt 5)])); ("buf", VNone)]
     [("buf", mkLazy "Buffer" "ck/state.buf.msgpack" false)],
   [Opened "net"; Parsed "net"]).
Proof. reflexivity. Qed.

(** ** C46 *)
(** If every unloaded field is read before it is assigned (or never assigned), any sequence
    of reads and assignments returns what it returns on an ordinary object with the
    checkpointed values [attrs].  Missing: unloaded fields that are assigned first, for
    which the claim is false (next). *)
Theorem C46_attributes_partial : forall deser pickle_allowed disk l o attrs,
  NoDup (map fst (i_unloaded o)) ->
  (forall n r, aget n (i_unloaded o) = Some r ->
     read_first n l /\ exists v, pending deser pickle_allowed disk r v /\ aget n attrs = Some v) ->
  (forall n, aget n (i_unloaded o) = None -> aget n (i_attrs o) = aget n attrs) ->
  fst (fst (uses deser pickle_allowed (map (fun u => (disk, u)) l) o)) = plain_uses l attrs.
Proof. exact as_attributes. Qed.
Print Assumptions C46_attributes_partial.

(** Whatever is assigned to an unloaded field before its first read is lost: the read
    returns the checkpointed value. *)
Theorem C46_assignment_lost : forall deser pickle_allowed l o f r v disk,
  (forall d, ~ In (d, Get f) l) -> aget f (i_unloaded o) = Some r -> pending deser pickle_allowed disk r v ->
  fst (fst (lazy_get deser pickle_allowed disk (snd (fst (uses deser pickle_allowed l o))) f)) = Ok v.
Proof. exact assignment_lost. Qed.
Print Assumptions C46_assignment_lost.

Theorem C46_attributes_refuted : exists deser disk o f v x y,
  fst (fst (uses deser false [(disk, Put f v); (disk, Get f)] o)) = [x] /\ x = Ok y /\ y <> v.
Proof.
  exists ex_deser, ex_disk, ex_learner, "net", (VBlob "Network" (VDict [("w", VInt 6)])). do 2 eexists.
  split; [vm_compute; reflexivity|]. split; [reflexivity|discriminate].
Qed.
Print Assumptions C46_attributes_refuted.

Example C46_ex : let net := VBlob "Network" (VDict [("w", VInt 5)]) in
  let o := mkInst "Learner" [("step", VInt 3); ("net", VNone)] [("net", mkLazy "Network" "ck/state.net.msgpack" false)] in
  let l := [Get "net"; Put "net" VNone; Put "step" (VInt 4); Get "net"; Get "step"] in
  read_first "net" l /\ pending ex_deser false ex_disk (mkLazy "Network" "ck/state.net.msgpack" false) net /\
  fst (fst (uses ex_deser false (map (fun u => (ex_disk, u)) l) o)) = [Ok net; Ok VNone; Ok (VInt 4)].
Proof.
  split; [left; reflexivity|]. split; [|reflexivity]. split; [discriminate|]. exists (VDict [("w", VInt 5)]). split; reflexivity.
Qed.

(** ** C47 *)
(** Without UNSAFE_DESERIALIZE_PICKLE no use of any object unpickles anything (loading a
    checkpoint opens no blob at all: [typed_load] has no access to their files). *)
Theorem C47_no_unpickling : forall deser l o e,
  In e (snd (uses deser false l o)) -> forall f, e <> Unpickled f.
Proof. exact never_unpickles. Qed.
Print Assumptions C47_no_unpickling.

(** Accessing a pickled field then raises, and keeps raising, whatever the file contains. *)
Theorem C47_pickle_raises : forall deser l o f r disk,
  aget f (i_unloaded o) = Some r -> lz_pickle r = true ->
  exists e, fst (fst (lazy_get deser false disk (snd (fst (uses deser false l o))) f)) = Err e.
Proof. exact pickle_raises. Qed.
Print Assumptions C47_pickle_raises.

Definition tLearner : ty := TData (mkC "Learner" None)
  [("step", (TInt, DMissing)); ("net", (TSer "Network", DMissing)); ("buf", (TOpt (TSer "Buffer"), DMissing))].
Definition learner_env : env :=
  mkEnv ex_float (fun f => f) ex_ron (fun _ => None)
    (fun n => if String.eqb n "Learner" then
                mkCM None [("step", DMissing); ("net", DMissing); ("buf", DMissing)] else mkCM None [])
    (fun l => l).
Example C47_ex :
  (let* l := typed_load learner_env tLearner (VDict [("step", VInt 3); ("net", VStr "<blob:pickle>"); ("buf", VNone)])
               (Some "ck") None false false in Ok (inst_of l)) =
    Ok (mkInst "Learner" [("step", VInt 3); ("net", VNone); ("buf", VNone)]
          [("net", mkLazy "Network" "ck/state.net.pickle" true)]) /\
  (forall data, fst (fst (lazy_get ex_deser false (fun _ => Some data)
     (mkInst "Learner" [("step", VInt 3); ("net", VNone); ("buf", VNone)]
          [("net", mkLazy "Network" "ck/state.net.pickle" true)]) "net")) = Err RuntimeError).
Proof. split; [vm_compute; reflexivity|intros; reflexivity]. Qed.

(** ** C48 *)
(** Serializable objects that are attributes of the state itself: each one is dumped to a
    file of its own, and loading the dump with that directory registers for it exactly
    that file, with its class.  Missing: Serializable objects inside lists, tuples, dicts and nested
    dataclasses, for which the claim is false (below). *)
Theorem C48_blobs_found_partial : forall E c fs n d dir allow ig,
  order_ok E -> persistable E true (TData c fs) -> holds (TData c fs) (VObj n d) -> clean (VObj n d) = true ->
  root_blobs (VObj n d) ->
  exists tree bl o lz,
    typed_dump (e_class E) (VObj n d) None false = Ok (tree, bl) /\
    typed_load E (TData c fs) (ron_view tree) (Some dir) None allow ig = Ok (mkL (VObj n o) [] lz) /\
    NoDup (map fst bl) /\ NoDup (map fst lz) /\
    (forall k c0 p, In (k, VBlob c0 p) d ->
       exists f, In (f, p) bl /\ aget k lz = Some (mkLazy c0 (dir ++ "/" ++ f) false)) /\
    (forall k r, aget k lz = Some r -> exists c0 p, In (k, VBlob c0 p) d) /\
    (forall k1 k2 r1 r2, aget k1 lz = Some r1 -> aget k2 lz = Some r2 -> lz_file r1 = lz_file r2 -> k1 = k2) /\
    (forall k x, In (k, x) d -> blob_free x -> aget k o = Some x).
Proof. exact blobs_found_again. Qed.
Print Assumptions C48_blobs_found_partial.

Definition ex_learner_attrs : list (string * pyval) :=
  [("step", VInt 3); ("net", VBlob "Network" (VDict [("w", VInt 5)])); ("buf", VBlob "Buffer" (VList [VInt 1]))].
Lemma learner_persistable : persistable learner_env true tLearner.
Proof.
  simpl. split; [nodup|]. split; [repeat constructor|]. split; [reflexivity|]. split; [discriminate|]. auto.
Qed.
Lemma learner_holds : holds tLearner (VObj "Learner" ex_learner_attrs).
Proof. simpl. repeat split. right. reflexivity. Qed.
Lemma learner_root : root_blobs (VObj "Learner" ex_learner_attrs).
Proof.
  unfold root_blobs, ex_learner_attrs. repeat apply Forall_cons; [| | |constructor]; (split; [repeat split; discriminate|]);
    [right; exact I|left; simpl; eauto|left; simpl; eauto].
Qed.
Example C48_ex :
  order_ok learner_env /\ persistable learner_env true tLearner /\ holds tLearner (VObj "Learner" ex_learner_attrs) /\
  clean (VObj "Learner" ex_learner_attrs) = true /\ root_blobs (VObj "Learner" ex_learner_attrs) /\
  (let* r := typed_dump (e_class learner_env) (VObj "Learner" ex_learner_attrs) None false in Ok (map fst (snd r))) =
    Ok ["state.net.msgpack"; "state.buf.msgpack"].
Proof.
  split; [intros l; apply Permutation.Permutation_refl|]. split; [exact learner_persistable|]. split; [exact learner_holds|].
  split; [reflexivity|]. split; [exact learner_root|]. vm_compute. reflexivity.
Qed.

(** Inside a list: the file that is written is not the one that is looked for. *)
Definition tSquad : ty := TData (mkC "Squad" None) [("nets", (TList (TSer "Network"), DMissing))].
Definition squad : pyval := VObj "Squad" [("nets", VList [VBlob "Network" (VInt 1)])].
Definition squad_env : env :=
  mkEnv ex_float (fun f => f) ex_ron (fun _ => None)
    (fun n => if String.eqb n "Squad" then mkCM None [("nets", DMissing)] else mkCM None []) (fun l => l).
Theorem C48_list_refuted : exists E t v tree bl l,
  order_ok E /\ persistable E true t /\ holds t v /\ clean v = true /\
  typed_dump (e_class E) v None false = Ok (tree, bl) /\
  typed_load E t (ron_view tree) (Some "ck") None false false = Ok l /\
  (exists k r, In (k, r) (l_lazy l)) /\
  forall k r f p, In (k, r) (l_lazy l) -> In (f, p) bl -> lz_file r <> "ck/" ++ f.
Proof.
  exists squad_env, tSquad, squad. do 3 eexists. split; [intros l; apply Permutation.Permutation_refl|].
  split; [simpl; split; [nodup|split; [repeat constructor|split; [reflexivity|split; [discriminate|auto]]]]|].
  split; [simpl; repeat split; repeat constructor|]. split; [reflexivity|].
  split; [vm_compute; reflexivity|]. split; [vm_compute; reflexivity|]. cbn [l_lazy]. split.
  - do 2 eexists. left. reflexivity.
  - intros k r f p [H|[]] [H'|[]]. injection H as <- <-. injection H' as <- <-. discriminate.
Qed.
Print Assumptions C48_list_refuted.

(** In a nested dataclass: no attribute of the loaded object reads as the object that was
    dumped, whatever the files: the entry registered for it is under a name that no
    attribute has. *)
Definition tOuter : ty := TData (mkC "Outer" None) [("inner", (TData (mkC "Squad" None) [("net", (TSer "Network", DMissing))], DMissing))].
Definition outer : pyval := VObj "Outer" [("inner", VObj "Squad" [("net", VBlob "Network" (VInt 1))])].
Definition outer_env : env :=
  mkEnv ex_float (fun f => f) ex_ron (fun _ => None)
    (fun n => if String.eqb n "Outer" then mkCM None [("inner", DMissing)]
              else if String.eqb n "Squad" then mkCM None [("net", DMissing)] else mkCM None []) (fun l => l).
Theorem C48_nested_refuted : exists E t v tree bl l,
  order_ok E /\ persistable E true t /\ holds t v /\ clean v = true /\
  typed_dump (e_class E) v None false = Ok (tree, bl) /\
  typed_load E t (ron_view tree) (Some "ck") None false false = Ok l /\
  forall disk, fst (fst (lazy_get ex_deser true disk (inst_of l) "inner")) = Ok (VObj "Squad" [("net", VNone)]).
Proof.
  exists outer_env, tOuter, outer. do 3 eexists. split; [intros l; apply Permutation.Permutation_refl|].
  split; [simpl; repeat match goal with |- _ /\ _ => split | |- NoDup _ => nodup | |- Forall _ _ => repeat constructor | |- _ = _ => reflexivity | |- True => exact I | _ => discriminate end|].
  split; [simpl; repeat split|]. split; [reflexivity|].
  split; [vm_compute; reflexivity|]. split; [vm_compute; reflexivity|]. intros disk. reflexivity.
Qed.
Print Assumptions C48_nested_refuted.

(** In a dict: two objects may be written to the same file, the second replacing the
    first. *)
Definition tDeck : ty := TData (mkC "Squad" None) [("nets", (TDict TStr (TSer "Network"), DMissing))].
Definition deck : pyval :=
  VObj "Squad" [("nets", VDict [("a[0", VBlob "Network" (VInt 1)); ("a_0", VBlob "Network" (VInt 2))])].
Theorem C48_dict_refuted : exists E t v tree,
  order_ok E /\ persistable E true t /\ holds t v /\ clean v = true /\
  typed_dump (e_class E) v None false = Ok (tree, [("state.nets.a_0.msgpack", VInt 2)]).
Proof.
  exists squad_env, tDeck, deck. eexists. split; [intros l; apply Permutation.Permutation_refl|].
  split; [simpl; split; [nodup|split; [repeat constructor|split; [reflexivity|split; [discriminate|auto]]]]|].
  split; [simpl; repeat split; repeat constructor|]. split; [reflexivity|]. vm_compute. reflexivity.
Qed.
Print Assumptions C48_dict_refuted.
