(** FromDict.v -- serde.py [from_dict], [_try_create_defaults] and the
    deserializers of hyperstate.py, versioned.py and lazy.py. *)
From Verif Require Import Base Value Schema Rewrite Sched Types Asdict.

(** ** binary64 arithmetic for schedules *)
Definition f64_add := SFadd 53 1024.
Definition f64_sub := SFsub 53 1024.
Definition f64_mul := SFmul 53 1024.
Definition f64_div := SFdiv 53 1024.
Definition f64_pi : pyfloat := S754_finite false 7074237752028440 (-51).  (* math.pi *)
Definition f64_half : pyfloat := S754_finite false 4503599627370496 (-53).
Definition f64_one : pyfloat := S754_finite false 4503599627370496 (-52).
Definition f64_zero : pyfloat := S754_zero false.

Definition f64_ops (E : env) : numops pyfloat :=
  mkNum pyfloat f64_zero f64_one f64_add f64_sub f64_mul f64_div
        SFltb (fun f => SFeqb f f64_zero)
        (fun x => f64_add (f64_mul (e_cos E (f64_mul x f64_pi)) f64_half) f64_half).

(** [cls(value)] for cls in {int, float} and a float value *)
Definition num_cast (to_int : bool) (f : pyfloat) : res pyval :=
  if to_int then let* z := py_int_of_float f in Ok (VInt z) else Ok (VFloat f).

(** ** Schedules dict construction: hyperstate.py:437-442.
    The loop variable [schedules] is, by line 441 ([self.schedules[segment]],
    not [schedules[segment]]), either the root dict or one of its direct
    entries; [cur] is [None] for the root and [Some s] for [self.schedules[s]]. *)
Definition sched_contains (root : list (string * stree)) (cur : option string) (k : string)
  : res bool :=
  match cur with
  | None => Ok (amem k root)
  | Some s => match aget s root with
              | None => Err KeyError
              | Some (SLeaf _) => Err TypeError
              | Some (SNode l) => Ok (amem k l)
              end
  end.

Definition sched_assign (root : list (string * stree)) (cur : option string)
    (k : string) (t : stree) : res (list (string * stree)) :=
  match cur with
  | None => Ok (aset k t root)
  | Some s => match aget s root with
              | None => Err KeyError
              | Some (SLeaf _) => Err TypeError
              | Some (SNode l) => Ok (aset s (SNode (aset k t l)) root)
              end
  end.

Fixpoint sched_walk (root : list (string * stree)) (cur : option string) (segs : list string)
  : res (list (string * stree) * option string) :=
  match segs with
  | [] => Ok (root, cur)
  | k :: rest =>
      let* present := sched_contains root cur k in
      let* root' := if present then Ok root else sched_assign root cur k (SNode []) in
      if amem k root' then sched_walk root' (Some k) rest    (* line 441 *)
      else Err KeyError
  end.

Definition sched_add (root : list (string * stree)) (path : string) (leaf : schedule)
  : res (list (string * stree)) :=
  let segs := split_on "." path in
  let* rc := sched_walk root None (removelast segs) in
  sched_assign (fst rc) (snd rc) (last segs "") (SLeaf leaf).

(** ** State threaded through [from_dict] by the deserializer objects *)
(** lazy.py:115-120: class, file, legacy pickle? *)
Record lazyrec := mkLazy { lz_cls : string; lz_file : string; lz_pickle : bool }.

Record dstate := mkSt {
  st_ov_applied : bool;                       (* OverridesDeserializer.applied_overrides *)
  st_sched : list (string * stree);           (* ScheduleDeserializer.schedules *)
  st_lazy : list (string * lazyrec) }.        (* LazyDeserializer.lazy_fields *)

Inductive deser : Type :=
| DOverrides (overrides : list string)
| DSchedule
| DVersioned (allow_missing_version : bool)
| DLazy (dir : string).

(** ** Versioned: versioned.py:36-45 [_apply_upgrades] *)
Fixpoint zget {A} (k : Z) (l : list (Z * A)) : option A :=
  match l with
  | [] => None
  | (k', v) :: r => if Z.eqb k k' then Some v else zget k r
  end.

(** [range(lo, hi)] *)
Definition zrange (lo hi : Z) : list Z :=
  map (fun i => (lo + Z.of_nat i)%Z) (seq 0 (Z.to_nat (hi - lo))).

Definition rules_at (rules : list (Z * list rule)) (i : Z) : list rule :=
  match zget i rules with Some rs => rs | None => [] end.

Fixpoint upgrade_steps (rules : list (Z * list rule)) (vs : list Z) (d : pyval) : res pyval :=
  match vs with
  | [] => Ok d
  | i :: rest => let* d' := apply_rules (rules_at rules i) d in upgrade_steps rules rest d'
  end.

Definition apply_upgrades (cur : Z) (rules : list (Z * list rule)) (d : pyval) (version : pyval)
  : res pyval :=
  if forallb (fun kv => Z.ltb (fst kv) cur) rules then
    match as_int version with
    | Some v => upgrade_steps rules (zrange v cur) d
    | None => Err TypeError
    end
  else Err AssertionError.

(** versioned.py:58-80 [VersionedDeserializer.deserialize].  Returns the value
    after in-place modification.  For a namedtuple value the result of
    [remove_field] is [None] (namedtuple_utils.py:5-9 has no return), so the
    upgrade runs on [None] and its result is dropped. *)
Definition deser_versioned (cls : string -> cmeta) (allow : bool) (t : ty) (v : pyval) : res pyval :=
  match t with
  | TData c _ =>
      match c_versioned c with
      | None => Ok v
      | Some (cur, rules) =>
          let missing (w : pyval) := if allow then Ok w else Err ValueError in
          match v with
          | VDict d =>
              let d' := VDict (adel "version" d) in
              match aget "version" d with
              | None | Some VNone => missing d'
              | Some ver => apply_upgrades cur rules d' ver
              end
          | VNt _ d =>
              match aget "version" d with
              | None | Some VNone => missing v
              | Some ver => let* _ := apply_upgrades cur rules VNone ver in Ok v
              end
          | VObj n d =>
              match cm_version (cls n) with
              | Some _ => Err AttributeError      (* value._fields *)
              | None => if amem "version" d then Err AttributeError else missing v
              end
          | _ => missing v
          end
      end
  | _ => Ok v
  end.

(** ** Overrides: hyperstate.py:351-414 *)
Definition bool_of_text (s : string) : option bool :=
  if String.eqb s "True" || String.eqb s "true" || String.eqb s "1" ||
     String.eqb s "t" || String.eqb s "T" then Some true
  else if String.eqb s "False" || String.eqb s "false" || String.eqb s "0" ||
          String.eqb s "f" || String.eqb s "F" then Some false
  else None.

(** hyperstate.py:403-408 *)
Fixpoint set_override (d : pyval) (path : list string) (val : pyval) : res pyval :=
  match path with
  | [] => Err IndexError (* unreachable: fpath is never empty *)
  | [k] => py_setitem d k val
  | k :: rest =>
      let* present := py_in k d in
      let* fresh := if present then let* c := py_getitem d k in Ok (is_none c) else Ok true in
      let* d1 := if fresh then py_setitem d k (VDict []) else Ok d in
      let* c := py_getitem d1 k in
      let* c' := set_override c rest val in
      py_setitem d1 k c'
  end.

(** hyperstate.py:382-402; [prev] is the Python variable [val] as left by the
    previous iteration ([None] if unassigned) *)
Definition override_value (E : env) (t : sty) (text : string) (prev : option pyval) : res pyval :=
  match t with
  | SPrim "str" => Ok (VStr text)
  | SPrim "bool" =>
      match bool_of_text text with
      | Some b => Ok (VBool b)
      | None => match prev with Some v => Ok v | None => Err UnboundLocalError end
      end
  | _ => e_ron E text
  end.

(** hyperstate.py:366-408: the loop; [errs] are the keys of unknown fields *)
Fixpoint override_loop (E : env) (fields : list (string * sfield)) (ovs : list string)
    (prev : option pyval) (errs : list string) (value : pyval) : res (list string * pyval) :=
  match ovs with
  | [] => Ok (errs, value)
  | o :: rest =>
      match split_first "=" o with
      | None => Err ValueError
      | Some (key, text) =>
          let fpath := split_on "." key in
          match find_field fields fpath with
          | None => override_loop E fields rest prev (errs ++ [key])%list value
          | Some (t, _) =>
              let* val := override_value E t text prev in
              let* value' := set_override value fpath val in
              override_loop E fields rest (Some val) errs value'
          end
      end
  end.

Definition deser_overrides (E : env) (ovs : list string) (t : ty) (v : pyval) : res pyval :=
  let* schema := materialize_type t in
  match schema with
  | SStruct _ fields _ =>
      let* ev := override_loop E fields ovs None [] v in
      match fst ev with
      | [] => Ok (snd ev)
      | [k] => Err (FieldNotFound k)
      | ks => Err (FieldsNotFound ks)
      end
  | _ => Err AssertionError
  end.

(** ** One deserializer call.
    Result: the value after in-place mutation, the returned [_value], [ok], [_ret]. *)
Record dres := mkD { d_mut : pyval; d_value : pyval; d_ok : bool; d_ret : bool; d_st : dstate }.

Definition deser_one (E : env) (ds : deser) (t : ty) (v : pyval) (path : string) (st : dstate)
  : res dres :=
  match ds with
  | DOverrides ovs =>                                            (* hyperstate.py:356-414 *)
      if st_ov_applied st then Ok (mkD v VNone false false st)
      else let* v' := deser_overrides E ovs t v in
           Ok (mkD v' v' true false (mkSt true (st_sched st) (st_lazy st)))
  | DSchedule =>                                                 (* hyperstate.py:422-445 *)
      match t, v with
      | (TInt | TFloat), VStr text =>
          if has_char "@" text then
            let to_int := match t with TInt => true | _ => false end in
            let* pw := parse_schedule (e_float E) text in
            let* root := sched_add (st_sched st) path
                           (mkSched pw (last (split_on "." path) "") to_int text) in
            let* y := get_value (f64_ops E) pw f64_zero in
            let* r := num_cast to_int y in
            Ok (mkD v r true false (mkSt (st_ov_applied st) root (st_lazy st)))
          else Ok (mkD v VNone false false st)
      | _, _ => Ok (mkD v VNone false false st)
      end
  | DVersioned allow =>                                          (* versioned.py:58-80 *)
      let* v' := deser_versioned (e_class E) allow t v in
      Ok (mkD v' VNone false false st)
  | DLazy dir =>                                                 (* lazy.py:93-122 *)
      match t with
      | TSer cls =>
          match v with
          | VStr s =>
              let file :=
                if String.eqb s "<BLOB>" then
                  Some (replace_char "]" "" (replace_char "[" "/" (replace_char "." "/" path)), true)
                else if String.eqb s "<blob:pickle>" then
                  Some ("state." ++ replace_char "]" "" (replace_char "[" "_" path) ++ ".pickle", true)
                else if String.eqb s "<blob:msgpack>" then
                  Some ("state." ++ replace_char "]" "" (replace_char "[" "_" path) ++ ".msgpack", false)
                else None in
              match file with
              | Some (f, pk) =>
                  Ok (mkD v VNone true true
                          (mkSt (st_ov_applied st) (st_sched st)
                                (aset path (mkLazy cls (dir ++ "/" ++ f) pk) (st_lazy st))))
              | None => Err AssertionError
              end
          | _ => Err AssertionError
          end
      | _ => Ok (mkD v VNone false false st)
      end
  end.

(** serde.py:156-163: the loop over the deserializers: the resulting value,
    the last [_value] and whether to return it immediately *)
Fixpoint deser_all (E : env) (dss : list deser) (t : ty) (v last : pyval) (ret : bool)
    (path : string) (st : dstate) : res (pyval * pyval * bool * dstate) :=
  match dss with
  | [] => Ok (v, last, ret, st)
  | d :: rest =>
      let* r := deser_one E d t v path st in
      deser_all E rest t (if d_ok r then d_value r else d_mut r) (d_value r)
                (ret || d_ret r) path (d_st r)
  end.

(** ** Branches of [from_dict] that do not recurse *)

(** [inspect.isclass(clz) and isinstance(value, clz)] (serde.py:174) *)
Definition isinstance (v : pyval) (t : ty) : bool :=
  match t, v with
  | TInt, (VInt _ | VBool _) => true
  | TFloat, VFloat _ => true
  | TStr, VStr _ => true
  | TBool, VBool _ => true
  | TNoneType, VNone => true
  | TData c _, VObj n _ => String.eqb n (c_name c)
  | TEnum c _, VEnum n _ _ => String.eqb n c
  | TSer c, VBlob n _ => String.eqb n c
  | _, _ => false
  end.

(** [isnamedtupleinstance(value) and len(value._fields) == 0]: a bare RON identifier *)
Definition unit_name (v : pyval) : option string :=
  match v with VNt n [] => Some n | _ => None end.

Definition is_TStr (t : ty) : bool := match t with TStr => true | _ => false end.
Definition is_TFloat (t : ty) : bool := match t with TFloat => true | _ => false end.
Definition is_TInt (t : ty) : bool := match t with TInt => true | _ => false end.

(** [clz == X or X in clz.__args__] for a Union (serde.py:165-172) *)
Definition clz_or_arg (p : ty -> bool) (t : ty) : bool :=
  p t || match t with TUnion l => existsb p l | _ => false end.

(** serde.py:176-191: coercions to str / float / int.  [None]: no branch taken *)
Definition coerce_scalar (E : env) (t : ty) (v : pyval) : option (res pyval) :=
  let ustr := clz_or_arg is_TStr t in
  let ufloat := clz_or_arg is_TFloat t in
  let uint := clz_or_arg is_TInt t in
  match v with
  | VNt n [] => if ustr then Some (Ok (VStr n)) else None
  | VInt _ | VBool _ =>
      if ufloat then
        match as_int v with
        | Some z => Some (let* f := py_float_of_Z z in Ok (VFloat f))
        | None => None
        end
      else None
  | VFloat f =>
      if uint then
        match py_int_of_float f with
        | Err e => Some (Err e)
        | Ok z => if Z_eq_float z f then Some (Ok (VInt z)) else None
        end
      else None
  | VStr s =>
      if ufloat then
        Some (match e_float E s with Some f => Ok (VFloat f) | None => Err ValueError end)
      else if uint then
        Some (match e_float E s with
              | None => Err ValueError
              | Some f => let* z := py_int_of_float f in
                          if Z_eq_float z f then Ok (VInt z) else Err DeserializeValueError
              end)
      else None
  | _ => None
  end.

(** [List[clz.__args__]] / [Tuple[clz.__args__]] / [Dict[clz.__args__]] for a
    Literal (serde.py:217-236): the subscription checks every argument. *)
Fixpoint typing_args_ok (E : env) (l : list pyval) : res unit :=
  match l with
  | [] => Ok tt
  | v :: r => match e_type_arg E v with
              | None => typing_args_ok E r
              | Some e => Err e
              end
  end.

(** serde.py:284-285 [clz(value)] for an Enum class: lookup by value *)
Fixpoint enum_lookup (c : string) (ms : list (string * pyval)) (v : pyval) : res pyval :=
  match ms with
  | [] => Err ValueError
  | (n, x) :: r => if py_eq x v then Ok (VEnum c n x) else enum_lookup c r v
  end.

(** serde.py:279-281 [clz( **kwargs )] *)
Fixpoint construct (fs : list (string * (ty * dflt))) (kw : list (string * pyval))
  : res (list (string * pyval)) :=
  match fs with
  | [] => Ok []
  | (n, (_, d)) :: r =>
      let* v := match aget n kw with
                | Some v => Ok v
                | None => match d with
                          | DMissing => Err DeserializeTypeError
                          | DValue x | DFactory x => Ok x
                          end
                end in
      let* vs := construct r kw in
      Ok ((n, v) :: vs)
  end.

(** [weak_refs.get(name, {})] (serde.py:329) *)
Definition weak_get (weak : pyval) (k : string) : res pyval :=
  match weak with
  | VDict m => Ok (match aget k m with Some v => v | None => VDict [] end)
  | _ => Err AttributeError
  end.

(** serde.py:321-339 the branch for a default-less dataclass field, i.e.
    [_try_create_defaults] called on [field.type] with exactly its default-less
    fields (323-327) followed by [field.type( **_kwargs )].  On those fields the
    [elif] at 340 is never reached. *)
Fixpoint default_obj (t : ty) (path : string) (weak : pyval) : res pyval :=
  match t with
  | TData c fs =>
      let* km :=
        (fix loop (l : list (string * (ty * dflt))) (kw : list (string * pyval))
                  (missing : list string) : res (list (string * pyval) * list string) :=
           match l with
           | [] => Ok (kw, missing)
           | (n, (t', d)) :: r =>
               match d with
               | DMissing =>
                   match t' with
                   | TData _ _ =>
                       let* w := weak_get weak n in
                       let* o := default_obj t' (path_join path n) w in
                       loop r (aset n o kw) missing
                   | _ => loop r kw (missing ++ [n])%list
                   end
               | _ => loop r kw missing
               end
           end) fs [] [] in
      match snd km with
      | [] => let* obj := construct fs (fst km) in Ok (VObj (c_name c) obj)
      | ms => Err (MissingFields (c_name c) (map (path_join path) ms))
      end
  | _ => Err TypeError (* not called on anything else *)
  end.

(** find the annotation of field [k] and continue with it; structural in [fs] *)
Definition field_with {B} (f : ty -> dflt -> B) (k : string)
  : list (string * (ty * dflt)) -> option B :=
  fix go fs :=
    match fs with
    | [] => None
    | (n, (t, d)) :: r => if String.eqb k n then Some (f t d) else go r
    end.

(** serde.py:305-348 [_try_create_defaults] as called from [from_dict] (278) *)
Fixpoint try_create_defaults (fs : list (string * (ty * dflt))) (remaining : list string)
    (path : string) (weak : list (string * pyval)) (kw : list (string * pyval))
    (missing : list string) : res (list (string * pyval) * list string) :=
  match remaining with
  | [] => Ok (kw, missing)
  | n :: rest =>
      match field_with (fun t d => (t, d)) n fs with
      | None => Err AttributeError (* unreachable: remaining names are fields *)
      | Some (t, d) =>
          match d with
          | DMissing =>
              match t with
              | TData _ _ =>
                  let* w := weak_get (VDict weak) n in
                  let* o := default_obj t (path_join path n) w in
                  try_create_defaults fs rest path weak (aset n o kw) missing
              | _ => try_create_defaults fs rest path weak kw (missing ++ [n])%list
              end
          | _ =>
              match aget n weak with                             (* 340-341 *)
              | Some w => let* isw := py_in WEAK_REF w in
                          if isw then try_create_defaults fs rest path weak kw missing
                          else try_create_defaults fs rest path weak (aset n w kw) missing
              | None => try_create_defaults fs rest path weak kw missing
              end
          end
      end
  end.

(** serde.py:244-253: the value as a dict *)
Definition dataclass_input (E : env) (v : pyval) : res (list (string * pyval)) :=
  let* v1 := match v with VObj _ _ => asdict_plain (e_class E) v | _ => Ok v end in
  match v1 with
  | VTuple [] => Ok []
  | VNt _ d => Ok d
  | VDict d => Ok d
  | _ => Err DeserializeValueError
  end.

(** ** [from_dict] *)
Section FromDict.
  Variable E : env.
  Variable dss : list deser.

  (** serde.py:229-232: a tuple, item i with annotation i; too many items raise *)
  Definition tuple_loop (f : ty -> pyval -> string -> dstate -> res (pyval * dstate)) (path : string)
    : list ty -> nat -> list pyval -> dstate -> res (list pyval * dstate) :=
    fix go ts i l st :=
      match l with
      | [] => Ok ([], st)
      | x :: xs =>
          match ts with
          | [] => Err IndexError
          | t :: ts' =>
              let* y := f t x (path ++ "[" ++ show_nat i ++ "]") st in
              let* ys := go ts' (S i) xs (snd y) in
              Ok (fst y :: fst ys, snd ys)
          end
      end.

  (** serde.py:195-197: the Union member named in the file *)
  Definition union_scan (f : ty -> res (pyval * dstate)) (nm : pyval)
    : list ty -> option (res (pyval * dstate)) :=
    fix go ts :=
      match ts with
      | [] => None
      | t :: r => if py_eq nm (VStr (ty_name t)) then Some (f t) else go r
      end.

  (** serde.py:257-277: the loop over the given fields.
      Result: kwargs, weak_refs, names seen (removed from remaining_fields) *)
  Fixpoint fields_loop
      (f : string -> option (pyval -> string -> dstate -> res (pyval * dstate)))
      (cname path : string) (ignore_extra : bool)
      (items kw weak : list (string * pyval)) (st : dstate)
    : res (list (string * pyval) * list (string * pyval) * dstate) :=
    match items with
    | [] => Ok (kw, weak, st)
    | (k, v) :: rest =>
        if String.eqb k "!__name__" then fields_loop f cname path ignore_extra rest kw weak st
        else if is_weak v then
          fields_loop f cname path ignore_extra rest kw (aset k v weak) st
        else match f k with
             | None =>
                 if ignore_extra then fields_loop f cname path ignore_extra rest kw weak st
                 else Err (UnknownField cname k)
             | Some g =>
                 let* r := g v (path_join path k) st in
                 fields_loop f cname path ignore_extra rest (aset k (fst r) kw) weak (snd r)
             end
    end.

  (** serde.py:140-302 [from_dict] *)
  Fixpoint from_dict (t : ty) (v0 : pyval) (path : string) (ignore_extra : bool) (st0 : dstate)
      {struct t} : res (pyval * dstate) :=
    match t with
    | TOpt inner =>                                              (* 150-154 *)
        if is_none v0 then Ok (VNone, st0) else from_dict inner v0 path ignore_extra st0
    | _ =>
        let* dr := deser_all E dss t v0 VNone false path st0 in  (* 156-163 *)
        let '(v, last, ret, st) := dr in
        if ret then Ok (last, st) else
        if isinstance v t then Ok (v, st) else                   (* 174-175 *)
        match coerce_scalar E t v with                           (* 176-191 *)
        | Some r => let* x := r in Ok (x, st)
        | None =>
            match t with
            | TUnion args =>                                     (* 192-215 *)
                let generic := existsb has_args args in
                match v with
                | VDict d =>
                    match aget "!__name__" d with
                    | Some nm =>
                        match union_scan (fun a => from_dict a v path ignore_extra st) nm args with
                        | Some r => r
                        | None => if generic then Err AttributeError else Err DeserializeValueError
                        end
                    | None => if generic then Err AttributeError else Err DeserializeValueError
                    end
                | VList _ => if generic then Err AttributeError else Err DeserializeValueError
                | _ => Err DeserializeValueError
                end
            | TList inner =>                                     (* 217-223 *)
                match v with
                | VList l =>
                    let* ls := smapi (fun i x s =>
                                        from_dict inner x (path ++ "[" ++ show_nat i ++ "]") false s)
                                     0 l st in
                    Ok (VList (fst ls), snd ls)
                | _ => Err DeserializeTypeError
                end
            | TTuple args =>                                     (* 224-232 *)
                match tuple_items v with
                | Some l =>
                    let* ls := tuple_loop (fun a x p s => from_dict a x p false s) path args 0 l st in
                    Ok (VTuple (fst ls), snd ls)
                | None => Err DeserializeTypeError
                end
            | TDict _ vt =>                                      (* 233-242 *)
                match v with
                | VDict d =>
                    let* ls := smap (fun (kv : string * pyval) s =>
                                       let* r := from_dict vt (snd kv) (path ++ "." ++ fst kv) false s in
                                       Ok ((fst kv, fst r), snd r)) d st in
                    Ok (VDict (fst ls), snd ls)
                | _ => Err DeserializeTypeError
                end
            | TData c fs =>                                      (* 243-283 *)
                let* items := dataclass_input E v in
                let* r := fields_loop
                            (fun k => field_with (fun ft _ => fun x p s => from_dict ft x p false s) k fs)
                            (c_name c) path ignore_extra items [] [] st in
                let '(kw, weak, st') := r in
                let remaining :=
                  e_order E (filter (fun n => negb (amem n kw)) (map fst fs)) in
                let* km := try_create_defaults fs remaining path weak kw [] in
                match snd km with
                | [] => let* obj := construct fs (fst km) in Ok (VObj (c_name c) obj, st')
                | ms => Err (MissingFields (c_name c) (map (path_join path) ms))
                end
            | TEnum c ms => let* m := enum_lookup c ms v in Ok (m, st)  (* 284-285 *)
            | TLit args =>                                       (* 286-294 *)
                let* _ := typing_args_ok E args in
                let v' := match unit_name v with Some n => VStr n | None => v end in
                if py_elem v' args then Ok (v', st) else Err DeserializeValueError
            | _ => Err DeserializeTypeError                      (* 295-302 *)
            end
        end
    end.
End FromDict.

Definition st_init : dstate := mkSt false [] [].

(** hyperstate.py:260-297 [_typed_load] after [pyron.load]/[loads] returned [data]
    ("{}" when there is neither file nor text, hyperstate.py:291).  [dir] is the
    directory of the file, if any.  Result: the value, the schedules and the
    unloaded lazy fields attached to the value (295-296). *)
Definition typed_load_desers (overrides : option (list string)) (allow_missing : bool)
    (dir : option string) : list deser :=
  ((match overrides with Some o => [DOverrides o] | None => [] end) ++
   [DSchedule; DVersioned allow_missing] ++
   (match dir with Some d => [DLazy d] | None => [] end))%list.

Record loaded := mkL {
  l_value : pyval;
  l_sched : list (string * stree);
  l_lazy : list (string * lazyrec) }.

Definition typed_load (E : env) (t : ty) (data : pyval) (dir : option string)
    (overrides : option (list string)) (allow_missing ignore_extra : bool) : res loaded :=
  let* r := from_dict E (typed_load_desers overrides allow_missing dir) t data "" ignore_extra st_init in
  Ok (mkL (fst r) (st_sched (snd r)) (st_lazy (snd r))).

Definition is_versioned (t : ty) : bool :=
  match t with
  | TData c _ => match c_versioned c with Some _ => true | None => false end
  | _ => false
  end.

(** hyperstate.py:300-308 [loads] *)
Definition hs_loads (E : env) (t : ty) (data : pyval) (overrides : option (list string))
    (ignore_extra : bool) : res pyval :=
  let* l := typed_load E t data None overrides false ignore_extra in Ok (l_value l).

(** hyperstate.py:311-331 [load]; [file] is the parsed file and its directory *)
Definition hs_load (E : env) (t : ty) (file : option (pyval * string))
    (overrides : option (list string)) : res pyval :=
  match file with
  | None =>
      let* l := typed_load E t (VDict []) None overrides (is_versioned t) false in Ok (l_value l)
  | Some (data, dir) =>
      let* l := typed_load E t data (Some dir) overrides false false in Ok (l_value l)
  end.

(** hyperstate.py:256-257 [dumps] up to RON text *)
Definition hs_dumps (E : env) (v : pyval) (elide_defaults : bool) : res pyval :=
  let* r := typed_dump (e_class E) v None elide_defaults in Ok (fst r).
