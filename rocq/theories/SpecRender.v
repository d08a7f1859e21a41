(** SpecRender.v -- reading Python source: enough of its expressions for an entry of
    [upgrade_rules] (C67), and reading a printed diagnostic (C68). *)
From Verif Require Import Base Value Schema Rewrite Sched Types Asdict FromDict Checker SpecTypes.

(** ** Tokens *)

Definition char_in (s : string) (a : ascii) : bool := has_char a s.
Definition blank (a : ascii) : bool := Ascii.eqb a " " || Ascii.eqb a (ascii_of_nat 10).
Definition digit (a : ascii) : bool := char_in "0123456789" a.
Definition numeric (a : ascii) : bool := char_in "0123456789.eE+-" a.
Definition letter (a : ascii) : bool := char_in "ABCDEFGHIJKLMNOPQRSTUVWXYZabcdefghijklmnopqrstuvwxyz_0123456789" a.

Fixpoint skip (s : string) : string :=
  match s with
  | String a r => if blank a then skip r else s
  | "" => ""
  end.

(** the longest beginning made of such characters, and the rest *)
Fixpoint span (p : ascii -> bool) (s : string) : string * string :=
  match s with
  | String a r => if p a then let '(x, y) := span p r in (String a x, y) else ("", s)
  | "" => ("", "")
  end.

Fixpoint every (p : ascii -> bool) (s : string) : bool :=
  match s with "" => true | String a r => p a && every p r end.

(** the value of a row of digits *)
Fixpoint number (acc : Z) (s : string) : Z :=
  match s with
  | "" => acc
  | String a r => number (10 * acc + (Z.of_nat (nat_of_ascii a) - 48)) r
  end.

Definition unsigned (s : string) : bool := negb (String.eqb s "") && every digit s.
Definition negative (s : string) : option string :=
  match s with String a r => if Ascii.eqb a "-" then Some r else None | "" => None end.

(** a float literal, possibly with a sign: it starts with a digit and has a point or an
    exponent *)
Definition float_literal (s : string) : bool :=
  let t := match negative s with Some r => r | None => s end in
  match t with
  | "" => false
  | String a _ => digit a && every numeric s && (has_char "." t || has_char "e" t || has_char "E" t)
  end.

Definition read_number (E : env) (s : string) : option pyval :=
  if unsigned s then Some (VInt (number 0 s))
  else if match negative s with Some r => unsigned r | None => false end then
    Some (VInt (- number 0 (match negative s with Some r => r | None => "" end)))
  else if float_literal s then
    match e_float E s with Some f => Some (VFloat f) | None => None end
  else None.

Definition hex_value (a : ascii) : option nat :=
  List.find (fun n => match String.get n "0123456789abcdef" with Some b => Ascii.eqb a b | None => false end) (seq 0 16).

(** the inside of a string literal, up to the quote [q] *)
Fixpoint read_quoted (q : ascii) (s : string) : option (string * string) :=
  match s with
  | "" => None
  | String a r =>
      if Ascii.eqb a q then Some ("", r)
      else if Ascii.eqb a "\" then
        match r with
        | "" => None
        | String e r' =>
            let give c := match read_quoted q r' with Some (x, y) => Some (String c x, y) | None => None end in
            if Ascii.eqb e "\" || Ascii.eqb e "'" || Ascii.eqb e """" then give e
            else if Ascii.eqb e "n" then give (ascii_of_nat 10)
            else if Ascii.eqb e "r" then give (ascii_of_nat 13)
            else if Ascii.eqb e "t" then give (ascii_of_nat 9)
            else if Ascii.eqb e "x" then
              match r' with
              | String h (String l r2) =>
                  match hex_value h, hex_value l with
                  | Some i, Some j =>
                      if Nat.ltb i 8 then
                        match read_quoted q r2 with Some (x, y) => Some (String (ascii_of_nat (16 * i + j)) x, y) | None => None end
                      else None                                  (* not ASCII *)
                  | _, _ => None
                  end
              | _ => None
              end
            else None
        end
      else if Ascii.eqb a (ascii_of_nat 10) || Ascii.eqb a (ascii_of_nat 13) || Ascii.eqb a (ascii_of_nat 0) then None
      else match read_quoted q r with Some (x, y) => Some (String a x, y) | None => None end
  end.

(** ** Displays *)

(** items up to [close], separated by commas; there may be a comma after the last one.
    Also tells whether there was a comma. *)
Definition read_list {A} (rd : string -> option (A * string)) (close : ascii) : nat -> string -> option (list A * bool * string) :=
  fix go k s :=
    match k with
    | O => None
    | S k' =>
        match skip s with
        | "" => None
        | String a r =>
            if Ascii.eqb a close then Some ([], false, r)
            else match rd (skip s) with
                 | None => None
                 | Some (x, r1) =>
                     match skip r1 with
                     | "" => None
                     | String b r2 =>
                         if Ascii.eqb b close then Some ([x], false, r2)
                         else if Ascii.eqb b "," then
                           match go k' r2 with Some (l, _, r3) => Some (x :: l, true, r3) | None => None end
                         else None
                     end
                 end
        end
    end.

Definition expect (c : ascii) (s : string) : option string :=
  match skip s with
  | String a r => if Ascii.eqb a c then Some r else None
  | "" => None
  end.

(** an expression: a literal, a list, a tuple, something in parentheses, a dict with
    strings as keys (a later entry replaces an earlier one) *)
Fixpoint read_val (E : env) (n : nat) (s : string) : option (pyval * string) :=
  match n with
  | O => None
  | S n' =>
      match skip s with
      | "" => None
      | String a r =>
          if Ascii.eqb a "[" then
            match read_list (read_val E n') "]" (S (String.length r)) r with Some (l, _, r') => Some (VList l, r') | None => None end
          else if Ascii.eqb a "(" then
            match read_list (read_val E n') ")" (S (String.length r)) r with
            | Some ([x], false, r') => Some (x, r')
            | Some (l, _, r') => Some (VTuple l, r')
            | None => None
            end
          else if Ascii.eqb a "{" then
            match read_list (fun s => match read_val E n' s with
                                      | Some (VStr k, r) =>
                                          match expect ":" r with
                                          | Some r' => match read_val E n' r' with Some (v, r2) => Some ((k, v), r2) | None => None end
                                          | None => None
                                          end
                                      | _ => None
                                      end) "}" (S (String.length r)) r with
            | Some (l, _, r') => Some (VDict (fold_left (fun d kv => aset (fst kv) (snd kv) d) l []), r')
            | None => None
            end
          else if Ascii.eqb a "'" || Ascii.eqb a """" then
            match read_quoted a r with Some (x, r') => Some (VStr x, r') | None => None end
          else if digit a || Ascii.eqb a "-" then
            let '(t, r') := span numeric (String a r) in
            match read_number E t with Some v => Some (v, r') | None => None end
          else
            let '(t, r') := span letter (String a r) in
            if String.eqb t "None" then Some (VNone, r')
            else if String.eqb t "True" then Some (VBool true, r')
            else if String.eqb t "False" then Some (VBool false, r')
            else None                                            (* an unknown name, or not an expression *)
      end
  end.

(** an argument of a rule: an expression or a set *)
Inductive arg := AVal (v : pyval) | ASet (l : list pyval).

Definition read_arg (E : env) (s : string) : option (arg * string) :=
  match read_val E (S (String.length s)) s with
  | Some (v, r) => Some (AVal v, r)
  | None =>
      match skip s with
      | "" => None
      | String a r =>
          if Ascii.eqb a "{" then
            match read_list (read_val E (S (String.length r))) "}" (S (String.length r)) r with
            | Some (l, _, r') => Some (ASet l, r')
            | None => None
            end
          else
            let '(t, r') := span letter (String a r) in
            if String.eqb t "set" then
              match expect "(" r' with
              | Some r2 => match expect ")" r2 with Some r3 => Some (ASet [], r3) | None => None end
              | None => None
              end
            else None
      end
  end.

Definition read_keyword (E : env) (s : string) : option ((string * arg) * string) :=
  let '(k, r) := span letter (skip s) in
  if String.eqb k "" then None else
  match expect "=" r with
  | Some r' => match read_arg E r' with Some (v, r2) => Some ((k, v), r2) | None => None end
  | None => None
  end.

(** ** Rules and entries *)

Definition as_strings (l : list pyval) : option (list string) :=
  fold_right (fun v acc => match v, acc with VStr s, Some l => Some (s :: l) | _, _ => None end) (Some []) l.
Definition as_path (a : arg) : option (list string) :=
  match a with AVal (VTuple l) | AVal (VList l) => as_strings l | _ => None end.

(** the object that the call of a constructor of rewrite_rule.py with these arguments makes *)
Definition construct_rule (name : string) (args : list (string * arg)) : option rule :=
  let path k := match aget k args with Some a => as_path a | None => None end in
  let val k := match aget k args with Some (AVal v) => Some v | _ => None end in
  let set k := match aget k args with Some (ASet l) => Some l | _ => None end in
  let n := List.length args in
  if String.eqb name "RenameField" && Nat.eqb n 2 then
    match path "old_field", path "new_field" with Some o, Some n => Some (RenameField o n) | _, _ => None end
  else if String.eqb name "DeleteField" && Nat.eqb n 1 then
    match path "field" with Some p => Some (DeleteField p) | None => None end
  else if String.eqb name "ChangeDefault" && Nat.eqb n 3 then
    match path "field", val "old_default", val "new_default" with Some p, Some o, Some n => Some (ChangeDefault p o n) | _, _, _ => None end
  else if String.eqb name "AddDefault" && Nat.eqb n 2 then
    match path "field", val "default" with Some p, Some d => Some (AddDefault p d) | _, _ => None end
  else if String.eqb name "CheckValue" && Nat.eqb n 2 then
    match path "field", set "allowed_values" with Some p, Some l => Some (CheckValue p l) | _, _ => None end
  else if String.eqb name "RejectValues" && Nat.eqb n 2 then
    match path "field", set "disallowed_values" with Some p, Some l => Some (RejectValues p l) | _, _ => None end
  else None.

Definition read_rule (E : env) (s : string) : option (rule * string) :=
  let '(name, r) := span letter (skip s) in
  match expect "(" r with
  | Some r' =>
      match read_list (read_keyword E) ")" (S (String.length r')) r' with
      | Some (args, _, r2) => match construct_rule name args with Some x => Some (x, r2) | None => None end
      | None => None
      end
  | None => None
  end.

(** an entry [version: [rule, ...],] of a dict *)
Definition read_entry (E : env) (s : string) : option (pyval * list rule) :=
  match read_val E (S (String.length s)) s with
  | Some (v, r) =>
      match expect ":" r with
      | Some r1 =>
          match expect "[" r1 with
          | Some r2 =>
              match read_list (read_rule E) "]" (S (String.length r2)) r2 with
              | Some (l, _, r3) =>
                  match expect "," r3 with
                  | Some r4 => if String.eqb (skip r4) "" then Some (v, l) else None
                  | None => None
                  end
              | None => None
              end
          | None => None
          end
      | None => None
      end
  | None => None
  end.

(** ** Values that have a literal *)

(** [rf] is Python's [repr] of floats *)
Fixpoint literal (E : env) (rf : pyfloat -> string) (v : pyval) : Prop :=
  match v with
  | VNone | VBool _ | VInt _ | VStr _ => True
  | VFloat f => float_literal (rf f) = true /\ e_float E (rf f) = Some f
  | VList l | VTuple l => all (literal E rf) l
  | VDict d => NoDup (akeys d) /\ all (fun kv => literal E rf (snd kv)) d
  | _ => False
  end.

(** rules without functions, about values that have a literal *)
Definition pasteable (E : env) (rf : pyfloat -> string) (r : rule) : Prop :=
  match r with
  | RenameField _ _ | DeleteField _ => True
  | MapFieldValue _ _ _ => False
  | ChangeDefault _ o n => literal E rf o /\ literal E rf n
  | AddDefault _ d => literal E rf d
  | CheckValue _ vs | RejectValues _ vs => all (literal E rf) vs
  end.

(** ** Diagnostics *)

(** the part of a line after its last [": "], if any *)
Fixpoint after_colon (s : string) : option string :=
  match s with
  | "" => None
  | String a r =>
      match after_colon r with
      | Some t => Some t
      | None => if String.prefix ": " s then Some (String.substring 1 (String.length r - 1) r) else None
      end
  end.

(** what a line of the report says: its severity and the path of the field *)
Definition read_line (s : string) : option (string * list string) :=
  match after_colon s with
  | Some p => Some (String.substring 0 5 s, split_on "." p)
  | None => None
  end.

Definition severity_word (s : severity) : string :=
  match s with INFO => "info " | WARN => "warn " | ERROR => "error" end.

Definition all_info (cs : list (severity * change)) : bool :=
  forallb (fun sc => match fst sc with INFO => true | _ => false end) cs.
