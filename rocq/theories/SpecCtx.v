(** SpecCtx.v -- which values are registered in the context of a deserialization (C62). *)
From Verif Require Import Base Value Ctx.

(** the state was accessed at a moment when it can be loaded (exceptions of schedules come
    later) *)
Definition loads (x : moment * cop) : Prop :=
  match snd x with MSet _ _ => False | _ => match m_load (fst x) with Saved (Ok _) | Fresh (Ok _) => True | _ => False end end.
Definition opened (l : list (moment * cop)) : Prop := exists x, In x l /\ loads x.

(** an access to the state succeeded or was preceded by a successful one, so that the state is there *)
Definition at_state (pre : list (moment * cop)) (x : moment * cop) : Prop :=
  opened pre \/ (loads x /\ m_sched (fst x) = None).

(** the operation [x], after [pre], registers [v] for [k]: on the state, when it is there, and
    on the manager before that *)
Definition registers (pre : list (moment * cop)) (x : moment * cop) (k : string) (v : pyval) : Prop :=
  (snd x = SSet k v /\ at_state pre x) \/ (snd x = MSet k v /\ ~ opened pre).

(** [v] is the value last registered for [k] in [l] *)
Definition registered (l : list (moment * cop)) (k : string) (v : pyval) : Prop :=
  exists pre x post, l = (pre ++ x :: post)%list /\ registers pre x k v /\
    forall mid x' rest w, post = (mid ++ x' :: rest)%list -> ~ registers (pre ++ x :: mid) x' k w.

(** the value last given to [k], on the manager or on the state *)
Definition given (l : list (moment * cop)) (k : string) (v : pyval) : Prop :=
  exists pre x post, l = (pre ++ x :: post)%list /\ (snd x = MSet k v \/ snd x = SSet k v) /\
    forall w, ~ In (MSet k w) (map snd post) /\ ~ In (SSet k w) (map snd post).
