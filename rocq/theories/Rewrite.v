(** Rewrite.v -- hyperstate/schema/rewrite_rule.py *)
From Verif Require Import Base Value Schema.

(** rewrite_rule.py:8 *)
Definition WEAK_REF : string := "!weak ref".

(** the RewriteRule classes, rewrite_rule.py:21-186 *)
Inductive rule : Type :=
| RenameField (old_field new_field : list string)
| DeleteField (field : list string)
| MapFieldValue (field : list string) (map_fn : pyval -> res pyval) (rendered : option string)
| ChangeDefault (field : list string) (old_default new_default : pyval)
| AddDefault (field : list string) (default : pyval)
| CheckValue (field : list string) (allowed_values : list pyval)
| RejectValues (field : list string) (disallowed_values : list pyval).

(** rewrite_rule.py:189-201 [_remove]: the new tree, and the removed value if any *)
Fixpoint remove_path (d : pyval) (path : list string) : res (pyval * option pyval) :=
  match path with
  | [] => Err AssertionError
  | [k] =>
      match d with
      | VDict m => match aget k m with
                   | Some v => Ok (VDict (adel k m), Some v)
                   | None => Ok (d, None)
                   end
      | _ => Ok (d, None)
      end
  | k :: rest =>
      let* present := py_in k d in
      if negb present then Ok (d, None) else
      let* c := py_getitem d k in
      if is_none c then Ok (d, None) else
      let* cr := remove_path c rest in
      let* d' := py_setitem d k (fst cr) in
      Ok (d', snd cr)
  end.

(** rewrite_rule.py:204-212 [_get] *)
Fixpoint get_path (d : pyval) (path : list string) : res (option pyval) :=
  match path with
  | [] => Err AssertionError
  | [k] =>
      let* present := py_in k d in
      if negb present then Ok None else
      let* v := py_getitem d k in Ok (Some v)
  | k :: rest =>
      let* present := py_in k d in
      if negb present then Ok None else
      let* c := py_getitem d k in
      get_path c rest
  end.

(** rewrite_rule.py:215-233 [_insert] *)
Fixpoint insert_path (d : pyval) (path : list string) (value : pyval) (create_new : bool)
  : res pyval :=
  match path with
  | [] => Err AssertionError
  | [k] => py_setitem d k value
  | k :: rest =>
      let d1 := match d with
                | VDict m =>
                    if amem k m then d
                    else VDict (aset k (if create_new then VDict []
                                        else VDict [(WEAK_REF, VBool true)]) m)
                | _ => d
                end in
      let* c := py_getitem d1 k in
      match c with
      | VDict m =>
          let c1 := if create_new && amem WEAK_REF m then VDict (adel WEAK_REF m) else c in
          let* c' := insert_path c1 rest value create_new in
          py_setitem d1 k c'
      | _ => Ok d1
      end
  end.

(** [isinstance(v, dict) and WEAK_REF in v] *)
Definition is_weak (v : pyval) : bool :=
  match v with VDict m => amem WEAK_REF m | _ => false end.

(** the [apply] methods *)
Definition apply_rule (r : rule) (d : pyval) : res pyval :=
  match r with
  | RenameField old new =>                    (* rewrite_rule.py:26-31 *)
      let* dv := remove_path d old in
      match snd dv with
      | Some v => insert_path (fst dv) new v true
      | None => Ok (fst dv)
      end
  | DeleteField p =>                          (* rewrite_rule.py:43-45 *)
      let* dv := remove_path d p in Ok (fst dv)
  | MapFieldValue p f _ =>                    (* rewrite_rule.py:57-63 *)
      let* dv := remove_path d p in
      match snd dv with
      | Some v => let* v' := f v in insert_path (fst dv) p v' true
      | None => Ok (fst dv)
      end
  | ChangeDefault p old _ =>                  (* rewrite_rule.py:92-98 *)
      let* dv := remove_path d p in
      match snd dv with
      | Some v => if is_weak v then insert_path (fst dv) p old false
                  else insert_path (fst dv) p v true
      | None => insert_path (fst dv) p old false
      end
  | AddDefault p dflt =>                      (* rewrite_rule.py:112-117 *)
      let* dv := remove_path d p in
      insert_path (fst dv) p (match snd dv with Some v => v | None => dflt end) false
  | CheckValue p allowed =>                   (* rewrite_rule.py:138-144 *)
      let* v := get_path d p in
      match v with
      | Some x => let* ok := py_in_set x allowed in if ok then Ok d else Err ValueError
      | None => Ok d
      end
  | RejectValues p bad =>                     (* rewrite_rule.py:161-167 *)
      let* dv := remove_path d p in
      match snd dv with
      | Some x => let* isbad := py_in_set x bad in
                  if isbad then Err ValueError else Ok (fst dv)
      | None => Ok (fst dv)
      end
  end.

Fixpoint apply_rules (rs : list rule) (d : pyval) : res pyval :=
  match rs with
  | [] => Ok d
  | r :: rest => let* d' := apply_rule r d in apply_rules rest d'
  end.

(** rewrite_rule.py:236-250 [_remove_schema].  [None] on the left stands for the
    failed assertion on an empty path. *)
Fixpoint remove_schema (s : sty) (path : list string) : res (sty * option sfield) :=
  match path with
  | [] => Err AssertionError
  | [k] =>
      match s with
      | SStruct n fs ver => match aget k fs with
                            | Some f => Ok (SStruct n (adel k fs) ver, Some f)
                            | None => Ok (s, None)
                            end
      | _ => Ok (s, None)
      end
  | k :: rest =>
      match s with
      | SStruct n fs ver =>
          match aget k fs with
          | None => Ok (s, None)
          | Some (t, m) =>
              let* ur := remove_schema (unwrap_container t) rest in
              Ok (SStruct n (aset k (rewrap_container t (fst ur), m) fs) ver, snd ur)
          end
      | _ => Ok (s, None)
      end
  end.

(** rewrite_rule.py:253-268 [_insert_schema] *)
Fixpoint insert_schema (s : sty) (path : list string) (f : sfield) : res sty :=
  match path with
  | [] => Err AssertionError
  | [k] =>
      match s with
      | SStruct n fs ver => Ok (SStruct n (aset k f fs) ver)
      | _ => Ok s
      end
  | k :: rest =>
      match s with
      | SStruct n fs ver =>
          let fs1 := if amem k fs then fs
                     else aset k (SStruct "" [] (Some 0%Z), mkF k VNone false None) fs in
          match aget k fs1 with
          | None => Ok s (* unreachable: the key was just inserted *)
          | Some (t, m) =>
              let* u := insert_schema (unwrap_container t) rest f in
              Ok (SStruct n (aset k (rewrap_container t u, m) fs1) ver)
          end
      | _ => Ok s
      end
  end.

Definition with_type (f : sfield) (t : sty) : sfield := (t, snd f).
Definition with_default (f : sfield) (d : pyval) (hd : bool) : sfield :=
  (fst f, mkF (fm_name (snd f)) d hd (fm_doc (snd f))).

Fixpoint map_variants (f : pyval -> res pyval) (vs : list (string * pyval))
  : res (list (string * pyval)) :=
  match vs with
  | [] => Ok []
  | (k, v) :: r => let* v' := f v in let* r' := map_variants f r in Ok ((k, v') :: r')
  end.

(** the [apply_to_schema] methods *)
Definition apply_rule_schema (r : rule) (s : sty) : res sty :=
  match r with
  | RenameField old new =>                    (* rewrite_rule.py:33-36 *)
      let* sf := remove_schema s old in
      match snd sf with
      | Some f => insert_schema (fst sf) new f
      | None => Err AssertionError
      end
  | DeleteField p =>                          (* rewrite_rule.py:47-48 *)
      let* sf := remove_schema s p in Ok (fst sf)
  | MapFieldValue p f _ =>                    (* rewrite_rule.py:65-83 *)
      let* sf := remove_schema s p in
      match snd sf with
      | Some fld =>
          match fst fld with
          | SEnum n vs => let* vs' := map_variants f vs in
                          insert_schema (fst sf) p (with_type fld (SEnum n vs'))
          | _ => insert_schema (fst sf) p fld
          end
      | None => Err AssertionError
      end
  | ChangeDefault p old new =>                (* rewrite_rule.py:100-104 *)
      let* sf := remove_schema s p in
      match snd sf with
      | Some f => if py_eq (fm_default (snd f)) old
                  then insert_schema (fst sf) p (with_default f new (fm_has_default (snd f)))
                  else Err AssertionError
      | None => Err AssertionError
      end
  | AddDefault p dflt =>                      (* rewrite_rule.py:119-130 *)
      let* sf := remove_schema s p in
      match snd sf with
      | Some f => insert_schema (fst sf) p (with_default f dflt true)
      | None => insert_schema (fst sf) p (SNothing, mkF (last p "") VNone false None)
      end
  | CheckValue p allowed =>                   (* rewrite_rule.py:146-153 *)
      let* sf := remove_schema s p in
      match snd sf with
      | Some f => insert_schema (fst sf) p (with_type f (SLit allowed))
      | None => Err AssertionError
      end
  | RejectValues p bad =>                     (* rewrite_rule.py:169-186 *)
      let* sf := remove_schema s p in
      match snd sf with
      | Some f =>
          match s with
          | SLit vs => insert_schema (fst sf) p
                         (with_type f (SLit (filter (fun v => negb (py_elem v bad)) vs)))
          | _ => Err AssertionError           (* rewrite_rule.py:172 *)
          end
      | None => Err AssertionError
      end
  end.
