(** SpecPlaced.v -- where a config file has schedules.  Independent of how they
    are found while loading. *)
From Verif Require Import Base Value Schema Rewrite Sched Types Asdict FromDict SpecTree SpecTypes SpecState SpecLoad.

(** In file value [x], read at type [t], an int (with [true]) or float (with
    [false]) is given by the schedule [text]: [Some p] at the field path [p],
    [None] anywhere inside a list, tuple or dict. *)
Inductive sched_in (E : env) (allow : bool) : ty -> pyval -> option (list string) -> bool -> string -> Prop :=
| sc_int text : has_char "@" text = true -> sched_in E allow TInt (VStr text) (Some []) true text
| sc_float text : has_char "@" text = true -> sched_in E allow TFloat (VStr text) (Some []) false text
| sc_opt i x q b text : x <> VNone -> sched_in E allow i x q b text -> sched_in E allow (TOpt i) x q b text
| sc_field c fs x y d n ft fd w q b text :
    deser_versioned (e_class E) allow (TData c fs) x = Ok y -> items_of y = Some d ->
    aget n fs = Some (ft, fd) -> aget n d = Some w -> is_weak w = false ->
    sched_in E allow ft w q b text -> sched_in E allow (TData c fs) x (option_map (cons n) q) b text
| sc_union ts d nm a q b text :
    aget "!__name__" d = Some nm ->
    List.find (fun a => py_eq nm (VStr (ty_name a))) ts = Some a ->
    sched_in E allow a (VDict d) q b text -> sched_in E allow (TUnion ts) (VDict d) q b text
| sc_list i l w q b text : In w l -> sched_in E allow i w q b text -> sched_in E allow (TList i) (VList l) None b text
| sc_tuple ts x l j a w q b text :
    tuple_items x = Some l -> nth_error ts j = Some a -> nth_error l j = Some w ->
    sched_in E allow a w q b text -> sched_in E allow (TTuple ts) x None b text
| sc_dict kt vt d k w q b text :
    In (k, w) d -> sched_in E allow vt w q b text -> sched_in E allow (TDict kt vt) (VDict d) None b text.

(** every schedule of the file sits at a field of the config itself or of a direct
    sub-config *)
Definition shallow_file (E : env) (allow : bool) (t : ty) (x : pyval) : Prop :=
  forall q b text, sched_in E allow t x q b text -> exists p, q = Some p /\ length p <= 2.

(** the schedule for a text at a path *)
Definition schedule_for (E : env) (p : list string) (b : bool) (text : string) (s : schedule) : Prop :=
  exists pw, parse_schedule (e_float E) text = Ok pw /\ s = mkSched pw (last p "") b text.
