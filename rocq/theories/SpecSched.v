(** SpecSched.v -- what a schedule text means (C36) and what function of the
    reals a schedule is (C35). *)
From Coq Require Import Reals.
From Flocq Require Import Core.
From Verif Require Import Base Value Sched Asdict FromDict SpecNum.

(** The words of a schedule text after its first word: a breakpoint
    [y@x], or the name of an interpolator. *)
Inductive word := WPoint (y x : string) | WName (i : interp).

Definition interp_name (i : interp) : string :=
  match i with ILin => "lin" | ICos => "cos" | IStep => "step" end.

Definition word_text (w : word) : string :=
  match w with WPoint y x => y ++ "@" ++ x | WName i => interp_name i end.

(** "name: w1 w2 ..." (the character after the name is not looked at) *)
Fixpoint words_text (first : string) (ws : list word) : string :=
  match ws with
  | [] => first
  | w :: r => first ++ " " ++ words_text (word_text w) r
  end.

Definition plain (c : ascii) (s : string) : Prop := has_char c s = false.

(** the two halves of a breakpoint contain neither " " nor "@" and are numbers *)
Definition word_ok {A} (fl : string -> option A) (w : word) : Prop :=
  match w with
  | WPoint y x => plain " " y /\ plain " " x /\ plain "@" y /\ plain "@" x /\
                  (exists v, fl y = Some v) /\ (exists v, fl x = Some v)
  | WName _ => True
  end.

Definition is_point (w : word) : bool := match w with WPoint _ _ => true | WName _ => false end.

Fixpoint points (ws : list word) : nat :=
  match ws with [] => O | w :: r => if is_point w then Datatypes.S (points r) else points r end.

(** the interpolator named last, "lin" if none was named *)
Fixpoint latest (d : interp) (ws : list word) : interp :=
  match ws with
  | [] => d
  | WName i :: r => latest i r
  | WPoint _ _ :: r => latest d r
  end.

(** segment number [n] joins breakpoints number [n] and [n+1], with the
    interpolator named last before breakpoint [n+1] *)
Definition nth_segment {A} (fl : string -> option A) (ws : list word) (n : nat) (s : segment A) : Prop :=
  exists pre y0 x0 mid y1 x1 post,
    ws = (pre ++ WPoint y0 x0 :: mid ++ WPoint y1 x1 :: post)%list /\
    points pre = n /\ points mid = O /\
    fl x0 = Some (sg_start s) /\ fl y0 = Some (sg_initial s) /\
    fl x1 = Some (sg_end s) /\ fl y1 = Some (sg_final s) /\
    sg_interp s = latest ILin (pre ++ mid)%list.

(** the text [s] is a schedule text for [p] *)
Definition schedule_text {A} (fl : string -> option A) (s : string) (p : piecewise A) : Prop :=
  exists first ws,
    plain " " first /\ Forall (word_ok fl) ws /\ s = words_text first ws /\
    pw_xname p = drop_last first /\
    (forall n sg, nth_error (pw_segments p) n = Some sg <-> nth_segment fl ws n sg).

(** ** Schedules as functions of a real number *)
Open Scope R_scope.

(** each segment begins where the previous one ended *)
Fixpoint connected (l : list (segment R)) : Prop :=
  match l with
  | s :: ((s' :: _) as r) => sg_start s' = sg_end s /\ sg_initial s' = sg_final s /\ connected r
  | _ => True
  end.

(** the breakpoints increase *)
Definition increasing (l : list (segment R)) : Prop := forall s, In s l -> sg_start s < sg_end s.

(** how far [x] is through segment [s] *)
Definition progress (s : segment R) (x : R) : R := (x - sg_start s) / (sg_end s - sg_start s).

(** the value of a segment at [x] *)
Definition shape (s : segment R) (x : R) : R :=
  match sg_interp s with
  | ILin => sg_initial s + (sg_final s - sg_initial s) * progress s x
  | ICos => sg_initial s + (sg_final s - sg_initial s) * ((1 - cos (PI * progress s x)) / 2)
  | IStep => sg_initial s
  end.

Definition between (a b v : R) : Prop := a <= v <= b \/ b <= v <= a.

(** arithmetic of the reals for [get_value] *)
Definition real_ops : numops R :=
  mkNum R 0 1 Rplus Rminus Rmult Rdiv
        (fun x y => if Rlt_dec x y then true else false)
        (fun x => if Req_EM_T x 0 then true else false)
        (fun x => cos (x * PI) * (1 / 2) + 1 / 2).

(** a schedule made of [segs] does what its breakpoints say *)
Definition follows (f : R -> res R) (segs : list (segment R)) : Prop :=
  forall x, exists v, f x = Ok v /\
    (forall s r, segs = s :: r -> x <= sg_start s -> v = sg_initial s) /\
    (forall s, In s segs -> sg_start s <= x < sg_end s -> v = shape s x) /\
    (forall s r, segs = (r ++ [s])%list -> sg_end s <= x -> v = sg_final s).

(** ** The same schedules as Python computes them, in binary64 *)

(** a finite double *)
Definition double (f : pyfloat) : Prop := SpecFloat.valid_binary 53 1024 f = true /\ finite f = true.
(** at most 2^1022 in absolute value, so that differences do not overflow *)
Definition moderate (f : pyfloat) : Prop := Rabs (real_of f) <= bpow radix2 1022.

Definition good_segment (s : segment pyfloat) : Prop :=
  double (sg_start s) /\ double (sg_end s) /\ double (sg_initial s) /\ double (sg_final s) /\
  moderate (sg_start s) /\ moderate (sg_end s) /\ real_of (sg_start s) < real_of (sg_end s).

Definition real_segment (s : segment pyfloat) : segment R :=
  mkSeg (real_of (sg_start s)) (real_of (sg_end s)) (real_of (sg_initial s)) (real_of (sg_final s)) (sg_interp s).

(** [math.cos(0.0)] is [1.0] and [math.cos(math.pi)] is [-1.0]; [math.pi] is the double
    3.141592653589793115997963468544... *)
Definition cos_ok (E : env) : Prop :=
  (forall b, e_cos E (S754_zero b) = f64_one) /\ e_cos E (S754_finite false 7074237752028440 (-51)) = S754_finite true 4503599627370496 (-52).

(** [math.cos] returns doubles between -1 and 1 *)
Definition cos_range (E : env) : Prop :=
  forall f, double f -> double (e_cos E f) /\ -1 <= real_of (e_cos E f) <= 1.

(** between [a] and [b] up to [d] *)
Definition between_up_to (d a b v : R) : Prop := Rmin a b - d <= v <= Rmax a b + d.

(** 2^e times the larger of the two values of the segment, plus the smallest doubles *)
Definition slack (e : Z) (s : segment pyfloat) : R :=
  bpow radix2 e * Rmax (Rabs (real_of (sg_initial s))) (Rabs (real_of (sg_final s))) + bpow radix2 (-1073).
