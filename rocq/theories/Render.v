(** Render.v -- the texts that check-schema prints: hyperstate/schema/schema_checker.py:66-92
    [print_report], the [diagnostic] methods and [emit_diagnostic] of schema_change.py, and
    the [repr]s of rewrite_rule.py and types.py.  Colours are left out. *)
From Verif Require Import Base Value Schema Rewrite Sched Types Asdict FromDict Checker.

(** ** [repr] and [str] of Python values *)

Definition dquote : ascii := """"%char.
Definition squote : ascii := "'"%char.
Definition backslash : ascii := "\"%char.

Definition hex_char (n : nat) : ascii := nth n (list_ascii_of_string "0123456789abcdef") "0"%char.

(** one character of [repr(s)], between quotes [q].  Simplification: bytes from 128 on
    belong to printable characters, which are left as they are. *)
Definition escape (q a : ascii) : string :=
  let n := nat_of_ascii a in
  if Ascii.eqb a q || Ascii.eqb a backslash then String backslash (String a "")
  else if Nat.eqb n 10 then String backslash "n"
  else if Nat.eqb n 13 then String backslash "r"
  else if Nat.eqb n 9 then String backslash "t"
  else if Nat.ltb n 32 || Nat.eqb n 127 then
    String backslash (String "x" (String (hex_char (n / 16)) (String (hex_char (n mod 16)) "")))
  else String a "".

Fixpoint escapes (q : ascii) (s : string) : string :=
  match s with
  | "" => ""
  | String a r => escape q a ++ escapes q r
  end.

(** [repr(s)]: double quotes if there are single quotes inside and no double quotes *)
Definition repr_str (s : string) : string :=
  let q := if has_char squote s && negb (has_char dquote s) then dquote else squote in
  String q (escapes q s ++ String q "").

Definition show_Z (z : Z) : string := if Z.ltb z 0 then "-" ++ show_N (Z.abs_N z) else show_N (Z.abs_N z).

(** the items of a tuple: [(x,)] for one *)
Definition tuple_text (l : list string) : string :=
  match l with
  | [x] => "(" ++ x ++ ",)"
  | _ => "(" ++ join ", " l ++ ")"
  end.

(** [repr(v)].  [rf] is the [repr] of floats, [addr] stands for addresses.  Instances of
    dataclasses and namedtuples are shown alike. *)
Fixpoint py_repr (rf : pyfloat -> string) (addr : string) (v : pyval) : string :=
  match v with
  | VNone => "None"
  | VBool true => "True"
  | VBool false => "False"
  | VInt z => show_Z z
  | VFloat f => rf f
  | VStr s => repr_str s
  | VList l => "[" ++ join ", " (map (py_repr rf addr) l) ++ "]"
  | VTuple l => tuple_text (map (py_repr rf addr) l)
  | VDict d => "{" ++ join ", " (map (fun kv => repr_str (fst kv) ++ ": " ++ py_repr rf addr (snd kv)) d) ++ "}"
  | VNt n d | VObj n d => n ++ "(" ++ join ", " (map (fun kv => fst kv ++ "=" ++ py_repr rf addr (snd kv)) d) ++ ")"
  | VEnum c m x => "<" ++ c ++ "." ++ m ++ ": " ++ py_repr rf addr x ++ ">"
  | VBlob c _ => "<" ++ c ++ " object at " ++ addr ++ ">"
  end.

(** [str(v)] *)
Definition py_str (rf : pyfloat -> string) (addr : string) (v : pyval) : string :=
  match v with
  | VStr s => s
  | VEnum c m _ => c ++ "." ++ m
  | _ => py_repr rf addr v
  end.

(** the [repr] of a set.  Python shows its elements in some order, here they are in that
    of the list. *)
Definition set_text (l : list string) : string :=
  match l with
  | [] => "set()"
  | _ => "{" ++ join ", " l ++ "}"
  end.

(** ** Rules *)

Definition path_text (p : list string) : string := tuple_text (map repr_str p).

(** the [repr]s that [@dataclass] makes for the classes of rewrite_rule.py:22-186.  The
    [repr] of a function or lambda is "<function ... at 0x...>". *)
Definition rule_text (rf : pyfloat -> string) (addr : string) (r : rule) : string :=
  let val := py_repr rf addr in
  match r with
  | RenameField o n => "RenameField(old_field=" ++ path_text o ++ ", new_field=" ++ path_text n ++ ")"
  | DeleteField p => "DeleteField(field=" ++ path_text p ++ ")"
  | MapFieldValue p _ rendered =>
      "MapFieldValue(field=" ++ path_text p ++ ", map_fn=<function " ++ addr ++ ">, rendered=" ++
      match rendered with Some s => repr_str s | None => "None" end ++ ")"
  | ChangeDefault p o n =>
      "ChangeDefault(field=" ++ path_text p ++ ", old_default=" ++ val o ++ ", new_default=" ++ val n ++ ")"
  | AddDefault p d => "AddDefault(field=" ++ path_text p ++ ", default=" ++ val d ++ ")"
  | CheckValue p vs => "CheckValue(field=" ++ path_text p ++ ", allowed_values=" ++ set_text (map val vs) ++ ")"
  | RejectValues p vs => "RejectValues(field=" ++ path_text p ++ ", disallowed_values=" ++ set_text (map val vs) ++ ")"
  end.

Definition newline : ascii := ascii_of_nat 10.
Definition line (s : string) : string := s ++ String newline "".

(** schema_checker.py:81-86 the entry of [upgrade_rules] that is proposed *)
Definition entry_text (rf : pyfloat -> string) (addr : string) (version : option Z) (rules : list rule) : string :=
  line ("    " ++ match version with Some v => show_Z v | None => "None" end ++ ": [") ++
  fold_right (fun r rest => line ("        " ++ rule_text rf addr r ++ ",") ++ rest) (line "    ],") rules.

(** ** Diagnostics *)

(** insertion sort, [sorted] *)
Fixpoint str_insert (x : string) (l : list string) : list string :=
  match l with
  | [] => [x]
  | y :: r => if String.leb x y then x :: l else y :: str_insert x r
  end.
Definition str_sort (l : list string) : list string := fold_right str_insert [] l.

(** types.py: [repr(t)] (when [top] is false) and [str(t)], which differ for structs only
    (186-187); [{self.inner}] of a Tuple is the [repr] of a list *)
Fixpoint type_text (rf : pyfloat -> string) (addr : string) (top : bool) (t : sty) : string :=
  match t with
  | SPrim p => p                                                              (* 34-35 *)
  | SList i => "List[" ++ type_text rf addr true i ++ "]"                     (* 53-54 *)
  | STuple l => "Tuple[[" ++ join ", " (map (type_text rf addr false) l) ++ "]]"     (* 68-69 *)
  | SDict k v => "Dict[" ++ type_text rf addr true k ++ ", " ++ type_text rf addr true v ++ "]"  (* 88-89 *)
  | SUnion l => "Union[" ++ join ", " (map (type_text rf addr true) l) ++ "]" (* 107-108 *)
  | SStruct n fs _ =>                                                         (* 183-187 *)
      if top then n else
      n ++ "(" ++
      join ", " (map (fun kf : string * sfield =>
                        let '(k, (ft, m)) := kf in
                        k ++ "=Field(name=" ++ repr_str (fm_name m) ++ ", type=" ++ type_text rf addr false ft ++
                        ", default=" ++ py_repr rf addr (fm_default m) ++ ", has_default=" ++
                        py_repr rf addr (VBool (fm_has_default m)) ++ ", docstring=" ++
                        match fm_doc m with Some s => repr_str s | None => "None" end ++ ")") fs) ++ ")"
  | SOption i => "Optional[" ++ type_text rf addr true i ++ "]"               (* 219-220 *)
  | SEnum n vs => "Enum(name=" ++ repr_str n ++ ", variants=" ++ py_repr rf addr (VDict vs) ++ ")"
  | SLit vs => join "|" (str_sort (map (py_repr rf addr) vs))                 (* 168-169 *)
  | SNothing => "Nothing"
  end.

(** schema_change.py:58-60 [field_name] *)
Definition field_name (p : list string) : string := join "." p.

(** the [field] of a change *)
Definition where_ (c : change) : list string :=
  match c with
  | FieldAdded p _ _ _ | FieldRemoved p _ _ _ | FieldRenamed p _ | DefaultValueChanged p _ _ | DefaultValueRemoved p _
  | TypeChanged p _ _ | EnumVariantValueChanged p _ _ _ _ | EnumVariantRemoved p _ _ _ | EnumVariantAdded p _ _ _
  | EnumVariantRenamed p _ _ _ | LiteralValuesAdded p _ | LiteralValuesRemoved p _ => p
  end.

Definition values_text (rf : pyfloat -> string) (addr : string) (vs : list pyval) : string :=
  match vs with
  | [v] => "value " ++ py_str rf addr v
  | _ => "values " ++ join ", " (map (py_repr rf addr) vs)
  end.

(** the [diagnostic] methods of schema_change.py *)
Definition diagnostic (rf : pyfloat -> string) (addr : string) (c : change) : string :=
  let str := py_str rf addr in
  match c with
  | FieldAdded _ _ _ _ => "new field without default value"                               (* 96-97 *)
  | FieldRemoved _ _ _ _ => "field removed"                                               (* 106-107 *)
  | FieldRenamed _ n => "field renamed to " ++ field_name n                               (* 117-118 *)
  | DefaultValueChanged _ o n => "default value changed from " ++ str o ++ " to " ++ str n  (* 129-130 *)
  | DefaultValueRemoved _ o => "default value removed: " ++ str o                         (* 140-141 *)
  | TypeChanged _ o n => "type changed from " ++ type_text rf addr true o ++ " to " ++ type_text rf addr true n (* 157-158 *)
  | EnumVariantValueChanged _ e v o n =>                                                  (* 185-186 *)
      "value of " ++ e ++ "." ++ v ++ " changed from " ++ str o ++ " to " ++ str n
  | EnumVariantRemoved _ e v _ => "variant " ++ v ++ " of " ++ e ++ " removed"            (* 202-203 *)
  | EnumVariantAdded _ e v _ => "variant " ++ v ++ " of " ++ e ++ " added"                (* 215-216 *)
  | EnumVariantRenamed _ e _ n => "variant " ++ n ++ " of " ++ e ++ " renamed to " ++ n   (* 228-229 *)
  | LiteralValuesAdded p vs => values_text rf addr vs ++ " added to literal type " ++ field_name p       (* 239-243 *)
  | LiteralValuesRemoved p vs => values_text rf addr vs ++ " removed from literal type " ++ field_name p (* 253-257 *)
  end.

(** schema_change.py:62-73 [emit_diagnostic] *)
Definition severity_text (s : severity) : string :=
  match s with INFO => "info " | WARN => "warn " | ERROR => "error" end.
Definition diagnostic_line (rf : pyfloat -> string) (addr : string) (sc : severity * change) : string :=
  let '(s, c) := sc in severity_text s ++ " " ++ diagnostic rf addr c ++ ": " ++ field_name (where_ c).

(** schema_checker.py:66-92 [print_report]: the whole text *)
Definition report_text (rf : pyfloat -> string) (addr : string) (r : report) : string :=
  fold_right (fun l rest => line l ++ rest) "" (map (diagnostic_line rf addr) (rp_lines r)) ++
  (if rp_version_warning r then line "warn  schema changed but version identical" else "") ++
  (if rp_compatible r then line "Schema compatible" else
   line "Schema incompatible" ++ line "" ++ line "Proposed mitigations" ++
   match rp_rules r with
   | Some (v, rules) => line "- add upgrade rules:" ++ entry_text rf addr v rules
   | None => ""
   end ++
   match rp_bump r with
   | Some v => line ("- bump version to " ++ show_Z v)
   | None => ""
   end).
