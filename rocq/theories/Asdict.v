(** Asdict.v -- serde.py [asdict] / [dumps] with the serializers of
    hyperstate.py, lazy.py and versioned.py. *)
From Verif Require Import Base Value Schema Rewrite Sched Types.

(** What the code looks up on [value.__class__]: [version()] if the class is a
    [Versioned], and [__dataclass_fields__] with their defaults. *)
Record cmeta := mkCM { cm_version : option Z; cm_fields : list (string * dflt) }.

(** External code, as oracles.
    - [e_float s]    : [float(s)], [None] if it raises ValueError;
    - [e_cos]        : [math.cos];
    - [e_ron s]      : [pyron.loads(s, preserve_structs=True)];
    - [e_type_arg v] : the exception raised by [typing.Tuple[v]] for a constant [v]
                       (typing turns a string into a ForwardRef, which compiles it as
                       an expression: SyntaxError for "a b"; up to Python 3.10 a
                       non-callable constant such as 1 raises TypeError);
    - [e_class c]    : the class named [c] (class names are assumed unique);
    - [e_order l]    : iteration order of the Python set with elements [l]. *)
Record env := mkEnv {
  e_float : string -> option pyfloat;
  e_cos : pyfloat -> pyfloat;
  e_ron : string -> res pyval;
  e_type_arg : pyval -> option exc;
  e_class : string -> cmeta;
  e_order : list string -> list string }.

(** hyperstate.schedule.Schedule (schedule.py:22-25): the closure [update_value]
    built in hyperstate.py:432-435 is the parsed function, the attribute it sets
    and the class (int or float) it converts to. *)
Record schedule := mkSched {
  sch_pw : piecewise pyfloat;
  sch_field : string;
  sch_int : bool;
  sch_unparsed : string }.

(** Dict[str, Union[Schedule, Dict...]] (hyperstate.py:419-420) *)
Inductive stree : Type :=
| SLeaf (s : schedule)
| SNode (l : list (string * stree)).

(** the serializers; [_typed_dump] (hyperstate.py:233-239) always uses
    [LazySer; VersionedSer] plus optionally the other two *)
Inductive serializer : Type :=
| LazySer
| VersionedSer
| ScheduleSer (schedules : list (string * stree))
| ElideSer.

Definition blobs := list (string * pyval).

(** lazy.py:136-140 the blob file name *)
Definition blob_file (path : string) : string :=
  "state." ++ replace_char "]" "" (replace_char "[" "_" path) ++ ".msgpack".

(** hyperstate.py:453-462 [ScheduleSerializer.serialize] *)
Fixpoint sched_lookup (t : stree) (segs : list string) : res (option string) :=
  match segs with
  | [] => match t with
          | SLeaf s => Ok (Some (sch_unparsed s))
          | SNode _ => Ok None
          end
  | k :: rest =>
      match t with
      | SLeaf _ => Err TypeError        (* `segment not in <Schedule>` *)
      | SNode l => match aget k l with
                   | None => Ok None
                   | Some t' => sched_lookup t' rest
                   end
      end
  end.

(** the [serialize] methods: a replacement value, if any.
    LazySerializer lazy.py:129-141, VersionedSerializer versioned.py:85-91,
    ScheduleSerializer hyperstate.py:453-462, ElideDefaults hyperstate.py:486-492.
    The blob bytes are modelled by the object that was packed. *)
Definition ser_one (s : serializer) (v : pyval) (path : string) (b : blobs)
  : res (option pyval * blobs) :=
  match s with
  | LazySer =>
      match v with
      | VBlob _ payload => Ok (Some (VStr "<blob:msgpack>"), aset (blob_file path) payload b)
      | _ => Ok (None, b)
      end
  | VersionedSer => Ok (None, b)
  | ScheduleSer t =>
      let* r := sched_lookup (SNode t) (split_on "." path) in
      Ok (match r with Some u => Some (VStr u) | None => None end, b)
  | ElideSer => Ok (None, b)
  end.

(** serde.py:74-77.  [cur] is the replacement so far. *)
Fixpoint ser_all (ss : list serializer) (v : pyval) (cur : option pyval) (path : string) (b : blobs)
  : res (option pyval * blobs) :=
  match ss with
  | [] => Ok (cur, b)
  | s :: rest =>
      let* rb := ser_one s (match cur with Some w => w | None => v end) path b in
      ser_all rest v (match fst rb with Some w => Some w | None => cur end) path (snd rb)
  end.

(** versioned.py:93-102 *)
Definition insert_version (ver : Z) (attrs : list (string * pyval)) : list (string * pyval) :=
  fold_left (fun acc kv => aset (fst kv) (snd kv) acc) attrs [("version", VInt ver)].

(** hyperstate.py:494-504 [ElideDefaults.modify_dataclass_attrs] *)
Fixpoint elide (fields : list (string * dflt)) (attrs : list (string * pyval))
  : res (list (string * pyval)) :=
  match fields with
  | [] => Ok attrs
  | (n, d) :: rest =>
      match d with
      | DMissing => elide rest attrs
      | DValue x | DFactory x =>
          match aget n attrs with
          | None => Err KeyError
          | Some a => elide rest (if py_eq a x then adel n attrs else attrs)
          end
      end
  end.

(** serde.py:88-89 *)
Fixpoint modify_attrs (ss : list serializer) (m : cmeta) (attrs : list (string * pyval))
  : res (list (string * pyval)) :=
  match ss with
  | [] => Ok attrs
  | s :: rest =>
      let* a := match s with
                | VersionedSer => Ok (match cm_version m with
                                      | Some v => insert_version v attrs
                                      | None => attrs
                                      end)
                | ElideSer => elide (cm_fields m) attrs
                | _ => Ok attrs
                end in
      modify_attrs rest m a
  end.

(** [namedtuple] rejects field names starting with an underscore.  (Keywords and
    non-identifiers cannot be dataclass field names.) *)
Definition nt_name_ok (k : string) : bool :=
  match k with
  | EmptyString => false
  | String a _ => negb (Ascii.eqb a "_")
  end.

(** state-threading map *)
Definition smap {A B St} (f : A -> St -> res (B * St)) : list A -> St -> res (list B * St) :=
  fix go l s :=
    match l with
    | [] => Ok ([], s)
    | x :: xs => let* y := f x s in
                 let* ys := go xs (snd y) in
                 Ok (fst y :: fst ys, snd ys)
    end.

(** the same with the index ([enumerate]) *)
Definition smapi {A B St} (f : nat -> A -> St -> res (B * St))
  : nat -> list A -> St -> res (list B * St) :=
  fix go i l s :=
    match l with
    | [] => Ok ([], s)
    | x :: xs => let* y := f i x s in
                 let* ys := go (S i) xs (snd y) in
                 Ok (fst y :: fst ys, snd ys)
    end.

Section Asdict.
  Variable cls : string -> cmeta.
  Variable ss : list serializer.
  Variable named_tuples : bool.

  (** serde.py:65-137 [asdict].  When a serializer replaced the value, the
      replacement is a string, on which [asdict] is the identity (serde.py:126-133). *)
  Fixpoint asdict (v : pyval) (path : string) (b : blobs) {struct v} : res (pyval * blobs) :=
    let* rb := ser_all ss v None path b in
    match fst rb with
    | Some r => Ok (r, snd rb)
    | None =>
        match v with
        | VObj c d =>                                            (* 78-93 *)
            let* ab := smap (fun (kv : string * pyval) s =>
                               let '(k, x) := kv in
                               let* ys := asdict x (path_join path k) s in
                               Ok ((k, fst ys), snd ys)) d (snd rb) in
            let* attrs := modify_attrs ss (cls c) (fst ab) in
            if named_tuples then
              if forallb nt_name_ok (akeys attrs) then Ok (VNt c attrs, snd ab)
              else Err ValueError
            else Ok (VDict attrs, snd ab)
        | VDict d =>                                             (* 94-103 *)
            let* ab := smap (fun (kv : string * pyval) s =>
                               let '(k, x) := kv in
                               let* ys := asdict x (path_join path k) s in
                               Ok ((k, fst ys), snd ys)) d (snd rb) in
            Ok (VDict (fst ab), snd ab)
        | VList l =>                                             (* 104-113 *)
            let* lb := smapi (fun i x s => asdict x (path_join path (show_nat i)) s) 0 l (snd rb) in
            Ok (VList (fst lb), snd lb)
        | VTuple l =>                                            (* 114-123 *)
            let* lb := smapi (fun i x s => asdict x (path_join path (show_nat i)) s) 0 l (snd rb) in
            Ok (VTuple (fst lb), snd lb)
        | VNt _ d =>                                             (* 114-123: a namedtuple is a tuple *)
            let* lb := smapi (fun i (kv : string * pyval) s =>
                                let '(_, x) := kv in
                                asdict x (path_join path (show_nat i)) s) 0 d (snd rb) in
            Ok (VTuple (fst lb), snd lb)
        | VEnum _ m _ => Ok (VStr m, snd rb)                     (* 124-125 *)
        | VNone | VBool _ | VInt _ | VFloat _ | VStr _ => Ok (v, snd rb)  (* 126-133 *)
        | VBlob _ _ => Err DeserializeTypeError                  (* 134-137 *)
        end
    end.
End Asdict.

(** [asdict(value)] with no serializers and plain dicts (serde.py:245) *)
Definition asdict_plain (cls : string -> cmeta) (v : pyval) : res pyval :=
  let* r := asdict cls [] false v "" [] in Ok (fst r).

(** hyperstate.py:197-201 [StateManager.config_dict] *)
Definition config_dict (cls : string -> cmeta) (cfg : pyval) : res pyval :=
  let* r := asdict cls [VersionedSer] false cfg "" [] in Ok (fst r).

(** hyperstate.py:227-247 [_typed_dump]: the tree handed to [pyron.to_string]
    (serde.py:398-405) and the blobs written next to the file. *)
Definition typed_dump (cls : string -> cmeta) (v : pyval)
    (schedules : option (list (string * stree))) (elide_defaults : bool) : res (pyval * blobs) :=
  asdict cls
    ([LazySer; VersionedSer] ++
     (match schedules with Some t => [ScheduleSer t] | None => [] end) ++
     (if elide_defaults then [ElideSer] else []))%list
    true v "" [].

(** The RON text layer.  [pyron.to_string] prints a namedtuple as a named struct;
    [pyron.loads(..., preserve_class_names=True)] reads a named struct as a dict
    with its name under "!__name__" (serde.py:194, 258, 376).  [ron_view] is the
    composition; all other values are read back as written. *)
Fixpoint ron_view (v : pyval) : pyval :=
  match v with
  | VNt n d => VDict (("!__name__", VStr n) :: map (fun kv => (fst kv, ron_view (snd kv))) d)
  | VDict d => VDict (map (fun kv => (fst kv, ron_view (snd kv))) d)
  | VList l => VList (map ron_view l)
  | VTuple l => VTuple (map ron_view l)
  | _ => v
  end.
