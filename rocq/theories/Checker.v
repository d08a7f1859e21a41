(** Checker.v -- hyperstate/schema/schema_change.py and schema_checker.py: the
    comparison of two schemas, rename detection, severities, proposed fixes,
    the report, and the dump-schema / upgrade-schema / upgrade-config commands.
    Text styling ([click]) is not modelled; the wording of diagnostics is in Render.v. *)
From Verif Require Import Base Value Schema Rewrite Sched Types Asdict FromDict.

(** ** schema_change.py *)

(** schema_change.py:22-25 *)
Inductive severity : Type := INFO | WARN | ERROR.

(** [Severity.value] and the comparisons schema_change.py:27-37 *)
Definition sev_value (s : severity) : Z := match s with INFO => 1 | WARN => 2 | ERROR => 3 end.
Definition sev_gt (a b : severity) : bool := Z.ltb (sev_value b) (sev_value a).
Definition sev_ge (a b : severity) : bool := Z.leb (sev_value b) (sev_value a).

(** the SchemaChange classes, schema_change.py:40-260.  A set of literal values
    is a list, used for membership only. *)
Inductive change : Type :=
| FieldAdded (field : list string) (type : sty) (default : pyval) (has_default : bool)
| FieldRemoved (field : list string) (type : sty) (default : pyval) (has_default : bool)
| FieldRenamed (field new_name : list string)
| DefaultValueChanged (field : list string) (old new : pyval)
| DefaultValueRemoved (field : list string) (old : pyval)
| TypeChanged (field : list string) (old new : sty)
| EnumVariantValueChanged (field : list string) (enum_name variant : string) (old_value new_value : pyval)
| EnumVariantRemoved (field : list string) (enum_name variant : string) (variant_value : pyval)
| EnumVariantAdded (field : list string) (enum_name variant : string) (variant_value : pyval)
| EnumVariantRenamed (field : list string) (enum_name old_variant_name new_variant_name : string)
| LiteralValuesAdded (field : list string) (values : list pyval)
| LiteralValuesRemoved (field : list string) (values : list pyval).

(** [self.new.inner == self.old] (schema_change.py:161) *)
Definition wraps_in_list (new old : sty) : bool :=
  match new with SList i => sty_eqb i old | _ => false end.

(** the [proposed_fix] methods; the default is [None] (schema_change.py:55-56).
    The branch at schema_change.py:163-171 (float to int) compares a [Primitive]
    with a str, which is always False, so it is never taken. *)
Definition proposed_fix (c : change) : option rule :=
  match c with
  | FieldAdded p t _ hd =>                                       (* 87-94 *)
      if hd then None else
      match t with
      | SOption _ => Some (AddDefault p VNone)
      | SList _ => Some (AddDefault p (VList []))
      | _ => None
      end
  | FieldRemoved p _ _ _ => Some (DeleteField p)                 (* 109-110 *)
  | FieldRenamed p q => Some (RenameField p q)                   (* 120-121 *)
  | DefaultValueChanged p o n => Some (ChangeDefault p o n)      (* 132-133 *)
  | DefaultValueRemoved p o => Some (AddDefault p o)             (* 143-144 *)
  | TypeChanged p o n =>                                         (* 160-175 *)
      if wraps_in_list n o then
        Some (MapFieldValue p (fun x => Ok (VList [x])) (Some "lambda x: [x]"))
      else match n with
           | SLit allowed => Some (CheckValue p allowed)
           | _ => None
           end
  | EnumVariantValueChanged p _ _ o n =>                         (* 188-193; the text it renders is not modelled *)
      Some (MapFieldValue p (fun x => Ok (if py_eq x o then n else x)) None)
  | EnumVariantRemoved _ _ _ _ => None
  | EnumVariantAdded _ _ _ _ => None
  | EnumVariantRenamed _ _ _ _ => None
  | LiteralValuesAdded _ _ => None
  | LiteralValuesRemoved p vs => Some (RejectValues p vs)        (* 259-260 *)
  end.

(** schema_change.py:49-53 the default [severity] method *)
Definition default_severity (c : change) : severity :=
  match proposed_fix c with Some _ => WARN | None => ERROR end.

(** the [severity] methods *)
Definition change_severity (c : change) : severity :=
  match c with
  | FieldAdded _ _ _ hd => if hd then INFO else default_severity c   (* 82-85 *)
  | TypeChanged _ o n => if is_subtype o n then INFO else default_severity c (* 152-155 *)
  | EnumVariantAdded _ _ _ _ => INFO                                 (* 212-213 *)
  | EnumVariantRenamed _ _ _ _ => INFO                               (* 225-226 *)
  | LiteralValuesAdded _ _ => INFO                                   (* 236-237 *)
  | LiteralValuesRemoved _ _ => WARN                                 (* 250-251 *)
  | _ => default_severity c
  end.

Definition path_eqb (p q : list string) : bool := list_eqb String.eqb p q.

(** dataclass-generated [__eq__] of the change classes (schema_change.py:41, 76, ...) *)
Definition change_eqb (a b : change) : bool :=
  match a, b with
  | FieldAdded p t d h, FieldAdded p' t' d' h' =>
      path_eqb p p' && sty_eqb t t' && py_eq d d' && Bool.eqb h h'
  | FieldRemoved p t d h, FieldRemoved p' t' d' h' =>
      path_eqb p p' && sty_eqb t t' && py_eq d d' && Bool.eqb h h'
  | FieldRenamed p q, FieldRenamed p' q' => path_eqb p p' && path_eqb q q'
  | DefaultValueChanged p o n, DefaultValueChanged p' o' n' => path_eqb p p' && py_eq o o' && py_eq n n'
  | DefaultValueRemoved p o, DefaultValueRemoved p' o' => path_eqb p p' && py_eq o o'
  | TypeChanged p o n, TypeChanged p' o' n' => path_eqb p p' && sty_eqb o o' && sty_eqb n n'
  | EnumVariantValueChanged p e v o n, EnumVariantValueChanged p' e' v' o' n' =>
      path_eqb p p' && String.eqb e e' && String.eqb v v' && py_eq o o' && py_eq n n'
  | EnumVariantRemoved p e v x, EnumVariantRemoved p' e' v' x' =>
      path_eqb p p' && String.eqb e e' && String.eqb v v' && py_eq x x'
  | EnumVariantAdded p e v x, EnumVariantAdded p' e' v' x' =>
      path_eqb p p' && String.eqb e e' && String.eqb v v' && py_eq x x'
  | EnumVariantRenamed p e o n, EnumVariantRenamed p' e' o' n' =>
      path_eqb p p' && String.eqb e e' && String.eqb o o' && String.eqb n n'
  | LiteralValuesAdded p vs, LiteralValuesAdded p' vs' => path_eqb p p' && set_eqb vs vs'
  | LiteralValuesRemoved p vs, LiteralValuesRemoved p' vs' => path_eqb p p' && set_eqb vs vs'
  | _, _ => false
  end.

(** ** schema_checker.py: comparing two schemas *)

Definition is_struct (t : sty) : bool := match t with SStruct _ _ _ => true | _ => false end.

(** schema_checker.py:306-318 [_all_new]; called on a Struct *)
Fixpoint all_new (t : sty) (path : list string) : list change :=
  match t with
  | SStruct _ fs _ =>
      (fix go (l : list (string * sfield)) : list change :=
         match l with
         | [] => []
         | (n, (ft, m)) :: r =>
             (if is_struct ft then all_new ft (path ++ [n])%list
              else [FieldAdded (path ++ [n])%list ft (fm_default m) (fm_has_default m)]) ++ go r
         end)%list fs
  | _ => []
  end.

(** schema_checker.py:320-332 [_all_gone]; called on a Struct *)
Fixpoint all_gone (t : sty) (path : list string) : list change :=
  match t with
  | SStruct _ fs _ =>
      (fix go (l : list (string * sfield)) : list change :=
         match l with
         | [] => []
         | (n, (ft, m)) :: r =>
             (if is_struct ft then all_gone ft (path ++ [n])%list
              else [FieldRemoved (path ++ [n])%list ft (fm_default m) (fm_has_default m)]) ++ go r
         end)%list fs
  | _ => []
  end.

Definition field_added (path : list string) (n : string) (f : sfield) : change :=
  FieldAdded (path ++ [n])%list (fst f) (fm_default (snd f)) (fm_has_default (snd f)).
Definition field_removed (path : list string) (n : string) (f : sfield) : change :=
  FieldRemoved (path ++ [n])%list (fst f) (fm_default (snd f)) (fm_has_default (snd f)).

(** schema_checker.py:146-160: the defaults of a field present on both sides *)
Definition default_changes (path : list string) (n : string) (old new : fmeta) : list change :=
  if negb (Bool.eqb (fm_has_default old) (fm_has_default new)) then
    if negb (fm_has_default new) then [DefaultValueRemoved (path ++ [n])%list (fm_default old)] else []
  else if fm_has_default old && negb (py_eq (fm_default old) (fm_default new)) then
    [DefaultValueChanged (path ++ [n])%list (fm_default old) (fm_default new)]
  else [].

(** schema_checker.py:161-176: fields of the old struct that are gone *)
Definition removed_fields (path : list string) (new : list (string * sfield))
    (old : list (string * sfield)) : list change :=
  flat_map (fun kv : string * sfield =>
              if amem (fst kv) new then []
              else if is_struct (fst (snd kv)) then all_gone (fst (snd kv)) (path ++ [fst kv])%list
              else [field_removed path (fst kv) (snd kv)]) old.

(** schema_checker.py:181-202: variants of an enum present on both sides *)
Definition new_variants (path : list string) (name : string) (old new : list (string * pyval)) : list change :=
  flat_map (fun kv : string * pyval =>
              match aget (fst kv) old with
              | None => [EnumVariantAdded path name (fst kv) (snd kv)]
              | Some w => if py_eq w (snd kv) then []
                          else [EnumVariantValueChanged path name (fst kv) w (snd kv)]
              end) new.
(** schema_checker.py:203-207 *)
Definition gone_variants (path : list string) (name : string) (old new : list (string * pyval)) : list change :=
  flat_map (fun kv : string * pyval =>
              if amem (fst kv) new then [] else [EnumVariantRemoved path name (fst kv) (snd kv)]) old.

(** [set(a) - set(b)] *)
Definition set_minus (a b : list pyval) : list pyval := filter (fun v => negb (py_elem v b)) a.

(** schema_checker.py:208-225.  Literal values are assumed hashable. *)
Definition literal_changes (path : list string) (old new : list pyval) : list change :=
  ((match set_minus new old with [] => [] | vs => [LiteralValuesAdded path vs] end) ++
   (match set_minus old new with [] => [] | vs => [LiteralValuesRemoved path vs] end))%list.

(** schema_checker.py:94-227 [_find_changes]: the changes in the order in which
    they are appended to [self.changes]. *)
Fixpoint find_changes (old new : sty) (path : list string) {struct new} : res (list change) :=
  match new with
  | SPrim q =>
      match old with
      | SPrim p => Ok (if String.eqb p q then [] else [TypeChanged path old new])   (* 97-99 *)
      | _ => Ok [TypeChanged path old new]                                          (* 95-96 *)
      end
  | SList j =>
      match old with
      | SList i => find_changes i j path                                            (* 100-102 *)
      | _ => Ok [TypeChanged path old new]
      end
  | SStruct _ gs _ =>
      match old with
      | SStruct _ fs _ =>                                                           (* 103-176 *)
          let* cs :=
            (fix go (l : list (string * sfield)) : res (list change) :=
               match l with
               | [] => Ok []
               | (n, (ft, m)) :: r =>
                   let* here :=
                     match aget n fs with
                     | None => Ok (if is_struct ft then all_new ft (path ++ [n])%list
                                   else [field_added path n (ft, m)])
                     | Some (ot, om) =>
                         if is_struct ft && negb (is_struct ot) then
                           Ok (field_removed path n (ot, om) :: all_new ft (path ++ [n])%list)
                         else if is_struct ot && negb (is_struct ft) then
                           Ok (field_added path n (ft, m) :: all_gone ot (path ++ [n])%list)
                         else
                           let* inner := find_changes ot ft (path ++ [n])%list in
                           Ok (inner ++ default_changes path n om m)%list
                     end in
                   let* rest := go r in
                   Ok (here ++ rest)%list
               end) gs in
          Ok (cs ++ removed_fields path gs fs)%list
      | _ => Ok [TypeChanged path old new]
      end
  | SOption u =>
      match old with
      | SOption t => find_changes t u path                                          (* 177-179 *)
      | _ => Ok [TypeChanged path old new]
      end
  | SEnum n vs =>
      match old with
      | SEnum _ ws => Ok (new_variants path n ws vs ++ gone_variants path n ws vs)%list  (* 180-207 *)
      | _ => Ok [TypeChanged path old new]
      end
  | SLit vs =>
      match old with
      | SLit ws => Ok (literal_changes path ws vs)                                  (* 208-225 *)
      | _ => Ok [TypeChanged path old new]
      end
  | STuple _ => match old with STuple _ => Err ValueError | _ => Ok [TypeChanged path old new] end
  | SDict _ _ => match old with SDict _ _ => Err ValueError | _ => Ok [TypeChanged path old new] end
  | SUnion _ => match old with SUnion _ => Err ValueError | _ => Ok [TypeChanged path old new] end
  | SNothing => match old with SNothing => Err ValueError | _ => Ok [TypeChanged path old new] end
  end.                                                                              (* 226-227 *)

(** ** Name similarity *)

(** [c.lower()].  Simplification: only ASCII letters have a lower case. *)
Definition lower (a : ascii) : ascii :=
  let n := nat_of_ascii a in
  if Nat.leb 65 n && Nat.leb n 90 then ascii_of_nat (n + 32) else a.

Definition f64_quarter : pyfloat := S754_finite false 4503599627370496 (-54).   (* 0.25 *)

(** schema_checker.py:365-369 *)
Definition substitution_cost (c1 c2 : ascii) : pyfloat :=
  if Ascii.eqb c1 c2 then f64_zero
  else if Ascii.eqb (lower c1) (lower c2) then f64_quarter
  else f64_one.

(** [min(a, b, c)]: the first of the smallest *)
Definition py_min2 (a b : pyfloat) : pyfloat := if SFltb b a then b else a.
Definition py_min3 (a b c : pyfloat) : pyfloat := py_min2 (py_min2 a b) c.

(** schema_checker.py:359-371: the inner loop.  [prev] is [previous_row[j:]],
    [left] is [current_row[j]]; the result is [current_row[j+1:]]. *)
Fixpoint lev_cells (c1 : ascii) (s2 : list ascii) (prev : list pyfloat) (left : pyfloat) : list pyfloat :=
  match s2 with
  | [] => []
  | c2 :: r =>
      match prev with
      | diag :: (up :: _) as prev' =>
          let insertions := f64_add up f64_one in
          let deletions := f64_add left f64_one in
          let substitutions := f64_add diag (substitution_cost c1 c2) in
          let cell := py_min3 insertions deletions substitutions in
          cell :: lev_cells c1 r (match prev with _ :: p => p | [] => [] end) cell
      | _ => []   (* unreachable: a row has one cell more than s2 has characters *)
      end
  end.

(** schema_checker.py:357-372: the outer loop from row [i] on *)
Fixpoint lev_rows (s1 : list ascii) (i : nat) (s2 : list ascii) (prev : list pyfloat) : list pyfloat :=
  match s1 with
  | [] => prev
  | c1 :: r =>
      let first := sf_of_Z (Z.of_nat (S i)) in
      lev_rows r (S i) s2 (first :: lev_cells c1 s2 prev first)
  end.

(** schema_checker.py:349-374 [levenshtein].  Simplification: ints ([len(s1)],
    the first row) are converted to floats at once instead of on first use. *)
Definition levenshtein (s t : string) : pyfloat :=
  let go (s1 s2 : list ascii) :=
    match s2 with
    | [] => sf_of_Z (Z.of_nat (length s1))
    | _ => last (lev_rows s1 0 s2
                   (map (fun j => sf_of_Z (Z.of_nat j)) (seq 0 (S (length s2))))) f64_zero
    end in
  let l1 := list_ascii_of_string s in
  let l2 := list_ascii_of_string t in
  if Nat.ltb (length l1) (length l2) then go l2 l1 else go l1 l2.

(** [word[0:1]] *)
Definition first_char (w : string) : string :=
  match w with EmptyString => EmptyString | String a _ => String a EmptyString end.

(** ["".join([word[0:1] for word in s.split("_")])] *)
Definition initials (s : string) : string := join "" (map first_char (split_on "_" s)).

Definition f64_1_1 : pyfloat := S754_finite false 4953959590107546 (-52).       (* 1.1 *)

(** schema_checker.py:335-346 [name_similarity] *)
Definition name_similarity (field1 field2 : string) : pyfloat :=
  if String.eqb field1 field2 then f64_1_1
  else if String.eqb (replace_char "_" "" field1) (replace_char "_" "" field2) then f64_one
  else if String.eqb field1 (initials field2) || String.eqb field2 (initials field1) then f64_one
  else f64_sub f64_one
         (f64_div (levenshtein field1 field2)
                  (sf_of_Z (Z.of_nat (Nat.max (String.length field1) (String.length field2))))).

(** ** Rename detection: schema_checker.py:229-261 *)

Definition f64_0_1 : pyfloat := S754_finite false 7205759403792794 (-56).       (* 0.1 *)

(** A change object: [==] on objects is tried after identity ([list.remove]),
    so an object carries a number that stands for its identity. *)
Definition obj : Type := nat * change.
Definition obj_eqb (x y : obj) : bool := Nat.eqb (fst x) (fst y) || change_eqb (snd x) (snd y).

(** [l.remove(x)] *)
Fixpoint remove_obj (x : obj) (l : list obj) : res (list obj) :=
  match l with
  | [] => Err ValueError
  | y :: r => if obj_eqb y x then Ok r else let* r' := remove_obj x r in Ok (y :: r')
  end.

Section Renames.
  Variable similarity : change -> change -> option pyfloat.   (* added, removed *)
  Variable new_renamed : change -> change -> change.           (* added, removed *)

  Definition best_state : Type := pyfloat * option (obj * obj).

  (** schema_checker.py:248-252 for one [removed] *)
  Fixpoint best_added (removed : obj) (addeds : list obj) (b : best_state) : best_state :=
    match addeds with
    | [] => b
    | added :: r =>
        best_added removed r
          (match similarity (snd added) (snd removed) with
           | Some simi => if SFltb (fst b) simi then (simi, Some (removed, added)) else b
           | None => b
           end)
    end.

  (** schema_checker.py:245-252 *)
  Fixpoint best_pair (removeds addeds : list obj) (b : best_state) : best_state :=
    match removeds with
    | [] => b
    | removed :: r => best_pair r addeds (best_added removed addeds b)
    end.

  (** schema_checker.py:244-261 the while loop.  Each round removes one element
      of [removeds], so [fuel = S (length removeds)] rounds are enough (proved:
      C33); running out is an error here. *)
  Fixpoint rename_loop (fuel : nat) (removeds addeds changes : list obj) (next : nat) : res (list obj) :=
    match fuel with
    | O => Err RuntimeError
    | S fuel' =>
        match snd (best_pair removeds addeds (f64_0_1, None)) with
        | None => Ok changes
        | Some (removed, added) =>
            let* changes1 := remove_obj removed changes in
            let* changes2 := remove_obj added changes1 in
            let* removeds' := remove_obj removed removeds in
            let* addeds' := remove_obj added addeds in
            rename_loop fuel' removeds' addeds'
              (changes2 ++ [(next, new_renamed (snd added) (snd removed))])%list (S next)
        end
    end.
End Renames.

(** objects with distinct identities *)
Definition objects (cs : list change) : list obj := combine (seq 0 (length cs)) cs.

(** schema_checker.py:229-261 [_find_renames] *)
Definition find_renames (is_added is_removed : change -> bool)
    (similarity : change -> change -> option pyfloat) (new_renamed : change -> change -> change)
    (changes : list change) : res (list change) :=
  let os := objects changes in
  let removeds := filter (fun o => is_removed (snd o)) os in
  let addeds := filter (fun o => is_added (snd o)) os in
  let* out := rename_loop similarity new_renamed (S (length removeds)) removeds addeds os (length changes) in
  Ok (map snd out).

Definition is_FieldAdded (c : change) : bool := match c with FieldAdded _ _ _ _ => true | _ => false end.
Definition is_FieldRemoved (c : change) : bool := match c with FieldRemoved _ _ _ _ => true | _ => false end.
Definition is_VariantAdded (c : change) : bool := match c with EnumVariantAdded _ _ _ _ => true | _ => false end.
Definition is_VariantRemoved (c : change) : bool := match c with EnumVariantRemoved _ _ _ _ => true | _ => false end.

(** schema_checker.py:264-273 *)
Definition field_similarity (added removed : change) : option pyfloat :=
  match added, removed with
  | FieldAdded p t d h, FieldRemoved p' t' d' h' =>
      if is_subtype t' t && Bool.eqb h' h && py_eq d' d
      then Some (name_similarity (last p' "") (last p "")) else None
  | _, _ => None   (* not called *)
  end.
(** schema_checker.py:275-276 *)
Definition field_renamed (added removed : change) : change :=
  match added, removed with
  | FieldAdded p _ _ _, FieldRemoved p' _ _ _ => FieldRenamed p' p
  | _, _ => added  (* not called *)
  end.
(** schema_checker.py:263-278 [_find_field_renames] *)
Definition find_field_renames : list change -> res (list change) :=
  find_renames is_FieldAdded is_FieldRemoved field_similarity field_renamed.

(** schema_checker.py:281-284 *)
Definition enum_similarity (added removed : change) : option pyfloat :=
  match added, removed with
  | EnumVariantAdded _ _ v _, EnumVariantRemoved _ _ v' _ => Some (name_similarity v' v)
  | _, _ => None   (* not called *)
  end.
(** schema_checker.py:286-300 *)
Definition enum_renamed (added removed : change) : change :=
  match added, removed with
  | EnumVariantAdded p e v x, EnumVariantRemoved p' _ v' x' =>
      if negb (py_eq x' x) then EnumVariantValueChanged p' e v' x' x
      else EnumVariantRenamed p e v' v
  | _, _ => added  (* not called *)
  end.
(** schema_checker.py:280-304 [_find_enum_variant_renames] *)
Definition find_enum_variant_renames : list change -> res (list change) :=
  find_renames is_VariantAdded is_VariantRemoved enum_similarity enum_renamed.

(** ** The checker *)

Fixpoint apply_rules_schema (rs : list rule) (s : sty) : res sty :=
  match rs with
  | [] => Ok s
  | r :: rest => let* s' := apply_rule_schema r s in apply_rules_schema rest s'
  end.

Fixpoint schema_upgrade_steps (rules : list (Z * list rule)) (vs : list Z) (s : sty) : res sty :=
  match vs with
  | [] => Ok s
  | i :: rest => let* s' := apply_rules_schema (rules_at rules i) s in schema_upgrade_steps rules rest s'
  end.

Definition schema_version (s : sty) : option Z := match s with SStruct _ _ v => v | _ => None end.

(** versioned.py:47-51 [_apply_schema_upgrades]; the schema is changed in place.
    The version stored in the schema is not changed. *)
Definition apply_schema_upgrades (cur : Z) (rules : list (Z * list rule)) (s : sty) : res sty :=
  schema_upgrade_steps rules
    (zrange (match schema_version s with Some v => v | None => 0%Z end) cur) s.

(** the state of a [SchemaChecker] after [__init__] *)
Record checker := mkChk {
  ck_old : sty;
  ck_new : sty;
  ck_changes : list change;
  ck_fixes : list rule }.

(** schema_checker.py:52-57: comparison of the two schemas *)
Definition compare_schemas (old new : sty) : res checker :=
  let* c1 := find_changes old new [] in
  let* c2 := find_field_renames c1 in
  let* c3 := find_enum_variant_renames c2 in
  Ok (mkChk old new c3
        (flat_map (fun c => match proposed_fix c with Some r => [r] | None => [] end) c3)).

(** schema_checker.py:36-57 [SchemaChecker(old, config_clz, perform_upgrade)] *)
Definition schema_checker (old : sty) (clz : ty) (perform_upgrade : bool) : res checker :=
  let* new := materialize_type clz in
  if negb (is_struct new) then Err AssertionError else
  let* old' :=
    if perform_upgrade then
      match clz with
      | TData c _ => match c_versioned c with
                     | Some (cur, rules) => apply_schema_upgrades cur rules old
                     | None => Err AttributeError
                     end
      | _ => Err AttributeError
      end
    else Ok old in
  compare_schemas old' new.

(** schema_checker.py:59-64 [severity] *)
Definition checker_severity (k : checker) : severity :=
  fold_left (fun m c => if sev_gt (change_severity c) m then change_severity c else m)
            (ck_changes k) INFO.

(** schema_checker.py:66-92 [print_report]: what is printed, without styling *)
Record report := mkRep {
  rp_lines : list (severity * change);       (* 67-68 *)
  rp_version_warning : bool;                 (* 69-73 *)
  rp_compatible : bool;                      (* 75-78 *)
  rp_rules : option (option Z * list rule);  (* 81-86 *)
  rp_bump : option Z                         (* 87-92 *) }.

Definition version_eqb (a b : option Z) : bool := opt_eqb Z.eqb a b.

Definition print_report (k : checker) : report :=
  let sev := checker_severity k in
  let old_v := schema_version (ck_old k) in
  let same := version_eqb old_v (schema_version (ck_new k)) in
  mkRep (map (fun c => (change_severity c, c)) (ck_changes k))
        (sev_gt sev INFO && same)
        (match sev with INFO => true | _ => false end)
        (match sev with
         | INFO => None
         | _ => match ck_fixes k with [] => None | fs => Some (old_v, fs) end
         end)
        (match sev with
         | INFO => None
         | _ => if sev_gt sev INFO && same
                then Some ((match old_v with Some v => v | None => 0 end) + 1)%Z else None
         end).

(** ** Schema files *)

(** What [pyron.load(..., preserve_structs=True)] reads back from the text that
    [pyron.to_string] writes for a value: dataclass instances become namedtuples.
    [pyron] itself is not modelled: this is assumed of it. *)
Fixpoint ron_value (v : pyval) : pyval :=
  match v with
  | VList l => VList (map ron_value l)
  | VTuple l => VTuple (map ron_value l)
  | VDict d => VDict (map (fun kv => (fst kv, ron_value (snd kv))) d)
  | VNt n d => VNt n (map (fun kv => (fst kv, ron_value (snd kv))) d)
  | VObj n d => VNt n (map (fun kv => (fst kv, ron_value (snd kv))) d)
  | _ => v
  end.

(** The same for the schema dataclasses of types.py *)
Fixpoint schema_ron (t : sty) : pyval :=
  match t with
  | SPrim p => VNt "Primitive" [("type", VStr p)]
  | SList i => VNt "List" [("inner", schema_ron i)]
  | STuple l => VNt "Tuple" [("inner", VList (map schema_ron l))]
  | SDict k v => VNt "Dict" [("key", schema_ron k); ("val", schema_ron v)]
  | SUnion l => VNt "Union" [("types", VList (map schema_ron l))]
  | SStruct n fs ver =>
      VNt "Struct"
        [("name", VStr n);
         ("fields",
          VDict (map (fun kv : string * sfield =>
                        let '(k, (ft, m)) := kv in
                        (k, VNt "Field"
                              [("name", VStr (fm_name m));
                               ("type", schema_ron ft);
                               ("default", ron_value (fm_default m));
                               ("has_default", VBool (fm_has_default m));
                               ("docstring", match fm_doc m with Some s => VStr s | None => VNone end)]))
                     fs));
         ("version", match ver with Some z => VInt z | None => VNone end)]
  | SOption i => VNt "Option" [("type", schema_ron i)]
  | SEnum n vs => VNt "Enum" [("name", VStr n);
                              ("variants", VDict (map (fun kv => (fst kv, ron_value (snd kv))) vs))]
  | SLit vs => VNt "Literal" [("allowed_values", VList (map ron_value vs))]
  | SNothing => VNt "Nothing" []
  end.

(** schema_checker.py:377-380 [_dump_schema]: the file that is written, as
    [pyron.load] reads it *)
Definition dump_schema (clz : ty) : res pyval :=
  let* s := materialize_type clz in Ok (schema_ron s).

(** what upgrade-schema does: print the report, or rewrite the file *)
Inductive schema_result : Type :=
| Reported (r : report)
| Rewritten (file : pyval).

(** schema_checker.py:383-391 [_upgrade_schema] *)
Definition upgrade_schema (file : pyval) (clz : ty) : res schema_result :=
  let* schema := load_schema file in
  let* k := schema_checker schema clz true in
  if sev_ge (checker_severity k) WARN then Ok (Reported (print_report k))
  else let* f := dump_schema clz in Ok (Rewritten f).

(** schema_checker.py:446-452 [check_schema] *)
Definition check_schema (file : pyval) (clz : ty) : res report :=
  let* schema := load_schema file in
  let* k := schema_checker schema clz true in
  Ok (print_report k).

(** schema_checker.py:394-421 [_upgrade_config]: the contents of the file
    afterwards, as [pyron] parses it; [data] is the parsed file before and [dir]
    its directory.  A dry run prints a diff and leaves the file alone. *)
Definition upgrade_config (E : env) (data : pyval) (dir : string) (clz : ty)
    (elide_defaults dry_run : bool) : res pyval :=
  let* l := typed_load E clz data (Some dir) None false false in
  let* d := typed_dump (e_class E) (l_value l) (Some (l_sched l)) elide_defaults in
  Ok (if dry_run then data else ron_view (fst d)).
