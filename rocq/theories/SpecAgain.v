(** SpecAgain.v -- overrides that a config obeys already. *)
From Verif Require Import Base Value Schema Rewrite Sched Types Asdict FromDict
  SpecTree SpecLoad SpecOverride SpecTypes SpecState.

(** The field that override [o] names holds what [o] says: it has the schedule whose text
    [o] gives, or there are no schedules at, above or below it and it is equal to what the text
    of [o] stands for. *)
Definition obeys (E : env) (t : ty) (cfg : pyval) (l : list (string * stree)) (o : string) : Prop :=
  exists p text ft val u, names o p text /\ type_at t p = Some ft /\ text_value E ft text val /\
    obj_at cfg p = Some u /\
    ((exists s, sched_at (SNode l) p = Some s /\ val = VStr (sch_unparsed s)) \/
     ((forall q s, sched_at (SNode l) q = Some s -> ~ prefix_of p q /\ ~ prefix_of q p) /\
      denotes E false true true false ft val u)).

(** a later override, one of [l2], is for the same field as [o] *)
Definition overridden_again (o : string) (l2 : list string) : Prop :=
  exists o' p s s', In o' l2 /\ names o p s /\ names o' p s'.

(** the text of [o] can be read as a value for an existing field *)
Definition readable_override (E : env) (t : ty) (o : string) : Prop :=
  exists p text ft val, names o p text /\ type_at t p = Some ft /\ text_value E ft text val.

(** the last override for each field is obeyed, the others can be read *)
Fixpoint obeys_all (E : env) (t : ty) (cfg : pyval) (l : list (string * stree)) (ovs : list string) : Prop :=
  match ovs with
  | [] => True
  | o :: r => ((obeys E t cfg l o /\ ~ overridden_again o r) \/ (readable_override E t o /\ overridden_again o r)) /\
              obeys_all E t cfg l r
  end.

(** no override names a part of a field that another one names *)
Definition apart (ovs : list string) : Prop :=
  forall l1 o l2 o' p q s s', ovs = (l1 ++ o :: l2)%list -> In o' l2 -> names o p s -> names o' q s' -> unrelated p q \/ p = q.
