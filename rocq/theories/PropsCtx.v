(** PropsCtx.v -- the context that [initial_state] and [deserialize] get: C62. *)
From Verif Require Import Base Value Schema Rewrite Sched Types Asdict FromDict Lazy Ctx SpecCtx CtxFacts.

(** Every call of [initial_state] or [deserialize] gets exactly the values last
    registered before it: on the state, or on the manager before the state was loaded.
    Loading, [initial_state] and schedules may raise; the program goes on and tries again.
    Missing: what the manager is told after that (refuted below). *)
Theorem C62_context_partial : forall is_lazy deser pickle_allowed ops i r calls,
  nth_error (crun is_lazy deser pickle_allowed ops new_holder) i = Some (r, calls) ->
  forall c, (In (Initial c) calls \/ exists f, In (Deserialize f c) calls) ->
  forall k v, aget k c = Some v <-> registered (firstn i ops) k v.
Proof. exact calls_ctx. Qed.
Print Assumptions C62_context_partial.

(** So if the manager is told everything before the state is loaded, and the state only when
    it is there, each call gets the latest value given for each key. *)
Theorem C62_all_given : forall is_lazy deser pickle_allowed ops i r calls,
  nth_error (crun is_lazy deser pickle_allowed ops new_holder) i = Some (r, calls) ->
  (forall pre w k v post, ops = (pre ++ (w, MSet k v) :: post)%list -> ~ opened pre) ->
  (forall pre w k v post, ops = (pre ++ (w, SSet k v) :: post)%list -> at_state pre (w, SSet k v)) ->
  forall c, (In (Initial c) calls \/ exists f, In (Deserialize f c) calls) ->
  forall k v, aget k c = Some v <-> given (firstn i ops) k v.
Proof.
  intros is_lazy deser pickle_allowed ops i r calls E H H' c Hc k v. rewrite (calls_ctx _ _ _ _ _ _ _ E c Hc).
  apply registered_given; intros pre w k' v' post X; [apply (H pre w k' v' (post ++ skipn i ops)%list)|apply (H' pre w k' v' (post ++ skipn i ops)%list)];
    rewrite <- (firstn_skipn i ops) at 1; rewrite X; now rewrite <- app_assoc.
Qed.
Print Assumptions C62_all_given.

(** The first read of a saved attribute makes such a call, and yields its result; also after
    reads that failed because the checkpoint could not be loaded. *)
Theorem C62_first_read : forall o deser pickle_allowed n w lr data pre post,
  aget n (i_unloaded o) = Some lr -> m_disk w (lz_file lr) = Some data -> (lz_pickle lr = true -> pickle_allowed = true) ->
  m_load w = Saved (Ok o) -> m_sched w = None ->
  (forall x, In x pre -> m_load (fst x) = Saved (Ok o) \/ exists e, m_load (fst x) = Saved (Err e)) -> ~ In (Read n) (map snd pre) ->
  exists c o', nth_error (crun true deser pickle_allowed (pre ++ (w, Read n) :: post) new_holder) (length pre) =
    Some (deser (lz_cls lr) data o' c, [Deserialize n c]) /\
    forall k v, aget k c = Some v <-> registered pre k v.
Proof. exact first_read. Qed.
Print Assumptions C62_first_read.

(** [initial_state] is not called any more once a state was loaded. *)
Theorem C62_initial_once : forall is_lazy deser pickle_allowed ops i r calls c,
  nth_error (crun is_lazy deser pickle_allowed ops new_holder) i = Some (r, calls) ->
  In (Initial c) calls -> ~ opened (firstn i ops).
Proof. exact initial_first. Qed.
Print Assumptions C62_initial_once.

(** ** examples *)
Definition ctx_state : inst :=
  mkInst "Learner" [("step", VInt 3); ("net", VNone); ("buf", VNone)]
    [("net", mkLazy "Network" "state.net.msgpack" false); ("buf", mkLazy "Buffer" "state.buf.msgpack" false)].
(** a [deserialize] that returns the device it was given *)
Definition ctx_deser (_ : string) (_ : pyval) (_ : inst) (c : ctx) : res pyval :=
  match aget "device" c with Some v => Ok v | None => Err KeyError end.
Definition at_once (ld : loading) : moment := mkM (fun _ => Some (VInt 5)) ld None.
Definition on (ops : list cop) := map (fun op => (at_once (Saved (Ok ctx_state)), op)) ops.

Example C62_ex :
  crun true ctx_deser false
    (on [MSet "device" (VStr "cpu"); MSet "device" (VStr "cuda"); Read "step"; Read "net"; SSet "device" (VStr "tpu"); Read "net"; Read "buf"])
    new_holder =
  [(Ok VNone, []); (Ok VNone, []); (Ok (VInt 3), []); (Ok (VStr "cuda"), [Deserialize "net" [("device", VStr "cuda")]]);
   (Ok VNone, []); (Ok (VStr "cuda"), []); (Ok (VStr "tpu"), [Deserialize "buf" [("device", VStr "tpu")]])].
Proof. reflexivity. Qed.

(** with exceptions: [initial_state] raises once, then a schedule does *)
Example C62_raises_ex :
  crun true ctx_deser false
    [(at_once (Fresh (Err ValueError)), Read "step"); (at_once (Fresh (Err ValueError)), SSet "device" (VStr "cpu"));
     (at_once (NoConfig TypeError), MSet "device" (VStr "cuda"));
     (mkM (fun _ => Some (VInt 5)) (Fresh (Ok (ctx_state, None))) (Some KeyError), SSet "device" (VStr "tpu"));
     (at_once (NoConfig TypeError), Read "net")] new_holder =
  [(Err ValueError, [Initial []]); (Err ValueError, [Initial []]); (Ok VNone, []); (Err KeyError, [Initial [("device", VStr "cuda")]]);
   (Ok (VStr "cuda"), [Deserialize "net" [("device", VStr "cuda")]])].
Proof. reflexivity. Qed.

(** What the manager is told after the state was loaded does not reach the attributes that
    are deserialized later. *)
Theorem C62_late_refuted : exists deser ops i r n c k v,
  nth_error (crun true deser false ops new_holder) i = Some (r, [Deserialize n c]) /\
  given (firstn i ops) k v /\ aget k c = None.
Proof.
  exists ctx_deser, (on [Read "step"; MSet "device" (VStr "cuda"); Read "net"]), 2%nat, (Err KeyError), "net", [], "device", (VStr "cuda").
  split; [reflexivity|]. split; [|reflexivity]. exists (on [Read "step"]), (at_once (Saved (Ok ctx_state)), MSet "device" (VStr "cuda")), [].
  split; [reflexivity|]. split; [now left|]. intros w. split; intros [].
Qed.
Print Assumptions C62_late_refuted.

(** A context that [initial_state] sets on the state it returns is discarded. *)
Theorem C62_initial_context_refuted : exists o own deser ops r n c k v,
  crun true deser false ops new_holder = [(r, [Initial []; Deserialize n c])] /\
  (forall x, In x ops -> m_load (fst x) = Fresh (Ok (o, Some own))) /\ aget k own = Some v /\ aget k c = None.
Proof.
  exists ctx_state, [("device", VStr "cuda")], ctx_deser, [(at_once (Fresh (Ok (ctx_state, Some [("device", VStr "cuda")]))), Read "net")],
    (Err KeyError), "net", [], "device", (VStr "cuda").
  split; [reflexivity|]. split; [|split; reflexivity]. intros x [<-|[]]. reflexivity.
Qed.
Print Assumptions C62_initial_context_refuted.
