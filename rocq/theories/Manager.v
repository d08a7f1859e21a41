(** Manager.v -- hyperstate/hyperstate.py: applying schedules to a config.
    Dataclass instances are trees: an object shared between two places of a
    config (for example a mutable default) is not modelled. *)
From Verif Require Import Base Value Schema Rewrite Sched Types Asdict FromDict.

(** [getattr(o, k)] / [setattr(o, k, v)] on a dataclass instance; everything else
    has no such attribute *)
Definition py_getattr (o : pyval) (k : string) : res pyval :=
  match o with
  | VObj _ d => match aget k d with Some x => Ok x | None => Err AttributeError end
  | _ => Err AttributeError
  end.

Definition py_setattr (o : pyval) (k : string) (v : pyval) : res pyval :=
  match o with
  | VObj c d => Ok (VObj c (aset k v d))
  | _ => Err AttributeError
  end.

(** the number a schedule is evaluated at.  Python keeps an int [x] exact in
    [x < segment.end] and [x - segment.start] (schedule.py:46, 49); the model
    converts it to a float first, which is the same for |x| <= 2^53. *)
Definition key_number (x : pyval) : res pyfloat :=
  match x with
  | VFloat f => Ok f
  | _ => match as_int x with Some z => py_float_of_Z z | None => Err TypeError end
  end.

(** hyperstate.py:432-435 [update]: the new value of the field *)
Definition schedule_value (E : env) (s : schedule) (state : pyval) : res pyval :=
  let* x := py_getattr state (pw_xname (sch_pw s)) in
  match pw_segments (sch_pw s) with
  | [] => Err AssertionError                                   (* schedule.py:48 *)
  | _ => let* f := key_number x in
         let* y := get_value (f64_ops E) (sch_pw s) f in
         num_cast (sch_int s) y
  end.

Definition schedule_update (E : env) (s : schedule) (config state : pyval) : res pyval :=
  let* v := schedule_value E s state in py_setattr config (sch_field s) v.

(** hyperstate.py:218-224 [_apply_schedules]; the config is updated in place, the
    result is the updated config.  The fixpoint handles one entry of the dict. *)
Fixpoint apply_entry (E : env) (state : pyval) (k : string) (t : stree) (config : pyval)
  : res pyval :=
  match t with
  | SLeaf s => schedule_update E s config state
  | SNode l =>
      let* sub := py_getattr config k in
      let* sub' :=
        (fix go (l : list (string * stree)) (c : pyval) : res pyval :=
           match l with
           | [] => Ok c
           | (k', t') :: r => let* c' := apply_entry E state k' t' c in go r c'
           end) l sub in
      py_setattr config k sub'
  end.

Fixpoint apply_schedules (E : env) (state : pyval) (l : list (string * stree)) (config : pyval)
  : res pyval :=
  match l with
  | [] => Ok config
  | (k, t) :: r => let* c := apply_entry E state k t config in apply_schedules E state r c
  end.
