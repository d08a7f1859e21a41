(** Sched.v -- hyperstate/schedule.py, generic in the number type so that the
    same definitions are used over binary64 (as Python runs them) and over the
    reals (for exact statements). *)
From Verif Require Import Base Value.

(** The arithmetic used by schedule.py.  [n_cosw x] is
    [math.cos(x * math.pi) * 0.5 + 0.5] (schedule.py:17). *)
Record numops (A : Type) := mkNum {
  n_zero : A; n_one : A;
  n_add : A -> A -> A; n_sub : A -> A -> A; n_mul : A -> A -> A; n_div : A -> A -> A;
  n_ltb : A -> A -> bool;
  n_is_zero : A -> bool;
  n_cosw : A -> A }.
Arguments n_zero {A}. Arguments n_one {A}. Arguments n_add {A}. Arguments n_sub {A}.
Arguments n_mul {A}. Arguments n_div {A}. Arguments n_ltb {A}. Arguments n_is_zero {A}.
Arguments n_cosw {A}.

Inductive interp := ILin | ICos | IStep.

(** schedule.py:15-19 *)
Definition interp_of_name (s : string) : option interp :=
  if String.eqb s "lin" then Some ILin
  else if String.eqb s "cos" then Some ICos
  else if String.eqb s "step" then Some IStep
  else None.

Definition interp_fn {A} (N : numops A) (i : interp) (x : A) : A :=
  match i with
  | ILin => n_sub N (n_one N) x
  | ICos => n_cosw N x
  | IStep => n_one N
  end.

(** schedule.py:28-34 *)
Record segment (A : Type) := mkSeg {
  sg_start : A; sg_end : A; sg_initial : A; sg_final : A; sg_interp : interp }.
Arguments mkSeg {A}. Arguments sg_start {A}. Arguments sg_end {A}.
Arguments sg_initial {A}. Arguments sg_final {A}. Arguments sg_interp {A}.

(** schedule.py:37-40 *)
Record piecewise (A : Type) := mkPW { pw_segments : list (segment A); pw_xname : string }.
Arguments mkPW {A}. Arguments pw_segments {A}. Arguments pw_xname {A}.

(** schedule.py:43-47: the loop that picks the segment *)
Fixpoint pick_segment {A} (N : numops A) (cur : option (segment A)) (l : list (segment A)) (x : A)
  : option (segment A) :=
  match l with
  | [] => cur
  | s :: r => if n_ltb N x (sg_end s) then Some s else pick_segment N (Some s) r x
  end.

(** schedule.py:42-56 [PiecewiseFunction.get_value].  [x] is already a number of
    type [A]; Python compares and subtracts an int x exactly, which agrees with
    converting it to a float first whenever |x| <= 2^53. *)
Definition get_value {A} (N : numops A) (p : piecewise A) (x : A) : res A :=
  match pick_segment N None (pw_segments p) x with
  | None => Err AssertionError                                  (* line 48 *)
  | Some s =>
      let len := n_sub N (sg_end s) (sg_start s) in
      if n_is_zero N len then Err ZeroDivisionError else        (* line 49 *)
      let r := n_div N (n_sub N x (sg_start s)) len in
      let r := if n_ltb N r (n_zero N) then n_zero N            (* lines 50-53 *)
               else if n_ltb N (n_one N) r then n_one N else r in
      let w := interp_fn N (sg_interp s) r in
      Ok (n_add N (n_mul N w (sg_initial s))
                  (n_mul N (n_sub N (n_one N) w) (sg_final s)))  (* line 56 *)
  end.

(** schedule.py:78-94: the loop over the parts.  [fl] is Python's [float()]. *)
Fixpoint parse_parts {A} (fl : string -> option A) (parts : list string)
    (cur : interp) (last : option (A * A)) (acc : list (segment A)) : res (list (segment A)) :=
  match parts with
  | [] => Ok acc
  | part :: rest =>
      if has_char "@" part then
        match split_on "@" part with
        | [y0; x0] =>                                            (* line 80 *)
            match fl y0, fl x0 with
            | Some y, Some x =>
                let acc' := match last with
                            | Some (lx, ly) => (acc ++ [mkSeg lx x ly y cur])%list
                            | None => acc
                            end in
                parse_parts fl rest cur (Some (x, y)) acc'
            | _, _ => Err ValueError
            end
        | _ => Err ValueError
        end
      else
        match interp_of_name part with                           (* line 94 *)
        | Some i => parse_parts fl rest i last acc
        | None => Err KeyError
        end
  end.

(** [s[:-1]] *)
Fixpoint drop_last (s : string) : string :=
  match s with
  | EmptyString => EmptyString
  | String _ EmptyString => EmptyString
  | String a r => String a (drop_last r)
  end.

(** schedule.py:59-95 [_parse_schedule] *)
Definition parse_schedule {A} (fl : string -> option A) (s : string) : res (piecewise A) :=
  match split_on " " s with
  | [] => Err IndexError (* unreachable: split never returns an empty list *)
  | first :: parts =>
      let* segs := parse_parts fl parts ILin None [] in
      Ok (mkPW segs (drop_last first))
  end.
