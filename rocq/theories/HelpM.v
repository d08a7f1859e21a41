(** HelpM.v -- hyperstate/schema/help.py: the lines [help] prints. *)
From Verif Require Import Base Value Schema Rewrite Sched Types Asdict FromDict Checker.

(** A printed line.  Colours and the padding before a docstring are dropped; types and
    defaults are kept as they are instead of their [str()] and [repr()].  A default of
    None is not printed. *)
Inductive line : Type :=
| LField (depth : nat) (name : string) (t : sty) (default : pyval) (doc : option string)  (* help.py:68-89 *)
| LPath (path : list string) (t : sty) (default : pyval) (doc : option string)            (* help.py:34-64 *).

Definition is_struct (t : sty) : bool := match t with SStruct _ _ _ => true | _ => false end.

(** help.py:67-89 [print_schema], called on [_unwrap_container_type(t)] if that is a
    Struct; nothing is printed otherwise.  The recursive call (76) always recurses. *)
Fixpoint print_type (recurse : bool) (depth : nat) (t : sty) : list line :=
  match t with
  | SList i => print_type recurse depth i
  | SOption i => print_type recurse depth i
  | SStruct _ fs _ =>
      concat (map (fun kf : string * (sty * fmeta) =>
        let ft := fst (snd kf) in
        let m := snd (snd kf) in
        if is_struct (unwrap_container ft)
        then LField depth (fm_name m) ft VNone None ::
               (if recurse then print_type true (S depth) ft else [])
        else [LField depth (fm_name m) ft (fm_default m) (fm_doc m)]) fs)
  | _ => []
  end.

(** help.py:92-100 [find_fields]: path, similarity and field *)
Definition hit : Type := list string * pyfloat * (sty * fmeta).
Definition hit_path (h : hit) : list string := fst (fst h).
Definition hit_sim (h : hit) : pyfloat := snd (fst h).
Definition hit_type (h : hit) : sty := fst (snd h).
Definition hit_meta (h : hit) : fmeta := snd (snd h).

Fixpoint find_fields (query : string) (path : list string) (t : sty) : list hit :=
  match t with
  | SStruct _ fs _ =>
      concat (map (fun kf : string * (sty * fmeta) =>
        let ft := fst (snd kf) in
        let m := snd (snd kf) in
        (path, name_similarity (fm_name m) query, (ft, m)) ::
          find_fields query (path ++ [fm_name m])%list ft) fs)
  | _ => []
  end.

(** help.py:16 [sorted(fields, key=lambda x: x[1], reverse=True)]: stable, largest
    first.  Python's sort is modelled as insertion sort; similarities are never NaN, so
    both give the only stable order. *)
Fixpoint insert_hit (h : hit) (l : list hit) : list hit :=
  match l with
  | [] => [h]
  | g :: r => if SFltb (hit_sim h) (hit_sim g) then g :: insert_hit h r else h :: l
  end.
Definition sorted_hits (l : list hit) : list hit := fold_right insert_hit [] l.

Definition f64_0_4 : pyfloat := S754_finite false 7205759403792794 (-54).       (* 0.4 *)
Definition f64_0_2 : pyfloat := S754_finite false 7205759403792794 (-55).       (* 0.2 *)
Definition f64_neg1 : pyfloat := S754_finite true 4503599627370496 (-52).       (* -1.0 *)

(** help.py:20-31: the condition of [break] *)
Definition stop_here (query : string) (best : pyfloat) (i : nat) (prev : pyfloat) (h : hit) : bool :=
  SFleb (hit_sim h) prev && negb (str_contains query (fm_name (hit_meta h))) && SFltb (hit_sim h) f64_one &&
  (Nat.ltb 3 i || SFltb (hit_sim h) f64_0_4 || SFleb f64_one best ||
   SFltb f64_0_2 (f64_sub best (hit_sim h))).

(** help.py:32-64: the lines printed for one field *)
Definition show_hit (h : hit) : list line :=
  let p := (hit_path h ++ [fm_name (hit_meta h)])%list in
  let unwrapped := unwrap_container (hit_type h) in
  if is_struct unwrapped then
    if SFleb f64_one (hit_sim h)
    then LPath p (hit_type h) VNone None :: print_type false 1 unwrapped
    else [LPath p (hit_type h) VNone (fm_doc (hit_meta h))]
  else [LPath p (hit_type h) (fm_default (hit_meta h)) (fm_doc (hit_meta h))].

(** help.py:17-64: the loop *)
Fixpoint show_hits (query : string) (best : pyfloat) (i : nat) (prev : pyfloat) (l : list hit) : list line :=
  match l with
  | [] => []
  | h :: r =>
      if stop_here query best i prev h then []
      else (show_hit h ++ show_hits query best (S i) (hit_sim h) r)%list
  end.

(** help.py:9-64 [help] after [materialize_type] *)
Definition help_schema (config : sty) (query : string) : list line :=
  match query with
  | EmptyString => print_type true 0 config
  | _ =>
      let fields := sorted_hits (find_fields query [] config) in
      let best := match fields with [] => f64_zero | h :: _ => hit_sim h end in
      show_hits query best 0 f64_neg1 fields
  end.

(** help.py:10-12 *)
Definition help (config_clz : ty) (query : string) : res (list line) :=
  let* config := materialize_type config_clz in
  if is_struct config then Ok (help_schema config query) else Err AssertionError.
