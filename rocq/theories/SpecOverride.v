(** SpecOverride.v -- what overrides mean (C09 - C13): the names and values they
    carry, writing a value into a file, and the field of an object at a path. *)
From Verif Require Import Base Value Schema Rewrite Types Asdict FromDict SpecTree SpecLoad.

(** a part of a dotted name *)
Definition segment (s : string) : bool := negb (has_char "." s) && negb (has_char "=" s).

(** the override [o] reads "p0.p1.(...)=text"; [text] may contain anything *)
Definition names (o : string) (p : list string) (text : string) : Prop :=
  p <> [] /\ forallb segment p = true /\ o = join "." p ++ "=" ++ text.

(** Optional[Optional[...t]] is read as t *)
Fixpoint strip_opt (t : ty) : ty := match t with TOpt i => strip_opt i | _ => t end.

(** the annotation of the field at a path; Optional sections are entered *)
Fixpoint type_at (t : ty) (p : list string) : option ty :=
  match p with
  | [] => Some t
  | k :: r => match strip_opt t with
              | TData _ fs => match aget k fs with
                              | Some (ft, _) => type_at ft r
                              | None => None
                              end
              | _ => None
              end
  end.

(** the declared default of the field at a path *)
Fixpoint default_at (t : ty) (p : list string) : option dflt :=
  match p with
  | [] => None
  | k :: r => match strip_opt t with
              | TData _ fs => match aget k fs with
                              | Some (ft, fd) => match r with [] => Some fd | _ => default_at ft r end
                              | None => None
                              end
              | _ => None
              end
  end.

(** the texts of a bool *)
Definition bool_text (s : string) (b : bool) : Prop :=
  if b then In s ["True"; "true"; "1"; "t"; "T"] else In s ["False"; "false"; "0"; "f"; "F"].

(** the value that [text] stands for in a field of type [ft] *)
Definition text_value (E : env) (ft : ty) (text : string) (val : pyval) : Prop :=
  match ft with
  | TStr => val = VStr text
  | TBool => exists b, bool_text text b /\ val = VBool b
  | _ => e_ron E text = Ok val
  end.

(** the override is for a bool field but has no bool text (C12) *)
Definition bad_bool (t : ty) (o : string) : Prop :=
  exists p text, names o p text /\ type_at t p = Some TBool /\ forall b, ~ bool_text text b.

(** [v] written at a path of file [x]; sections that are absent or None are created *)
Fixpoint write (x : pyval) (p : list string) (v : pyval) : option pyval :=
  match p with
  | [] => Some v
  | k :: r =>
      match x with
      | VDict d =>
          match write (match aget k d with Some c => c | None => VNone end) r v with
          | Some c => Some (VDict (aset k c d))
          | None => None
          end
      | VNone => match write VNone r v with Some c => Some (VDict [(k, c)]) | None => None end
      | _ => None
      end
  end.

(** file [x'] is [x] with all the overrides written into it, in order *)
Inductive written (E : env) (t : ty) : list string -> pyval -> pyval -> Prop :=
| wr_nil x : written E t [] x x
| wr_cons o ovs p text ft val x y x' :
    names o p text -> type_at t p = Some ft -> text_value E ft text val ->
    write x p val = Some y -> written E t ovs y x' -> written E t (o :: ovs) x x'.

(** the value of an object's field at a path *)
Fixpoint obj_at (v : pyval) (p : list string) : option pyval :=
  match p with
  | [] => Some v
  | k :: r => match v with
              | VObj _ o => match aget k o with Some c => obj_at c r | None => None end
              | _ => None
              end
  end.

(** no dataclass on the way to [p] is Versioned *)
Fixpoint unversioned (t : ty) (p : list string) : Prop :=
  match p with
  | [] => True
  | k :: r => match strip_opt t with
              | TData c fs => c_versioned c = None /\
                              match aget k fs with Some (ft, _) => unversioned ft r | None => True end
              | _ => True
              end
  end.

(** every Versioned dataclass on the way to [p] is at its current version (or a
    later one) in file [x] *)
Fixpoint settled (t : ty) (x : pyval) (p : list string) : Prop :=
  match p with
  | [] => True
  | k :: r =>
      match strip_opt t with
      | TData c fs =>
          (c_versioned c = None \/
           exists d cur rules z, x = VDict d /\ c_versioned c = Some (cur, rules) /\
             aget "version" d = Some (VInt z) /\ (cur <= z)%Z /\ k <> "version") /\
          match aget k fs, lookup x [k] with
          | Some (ft, _), Some y => settled ft y r
          | _, _ => True
          end
      | _ => True
      end
  end.

(** no dict in [x] has the marker key of weak references *)
Fixpoint markerless (x : pyval) : bool :=
  match x with
  | VDict d => negb (existsb (fun kv => String.eqb (fst kv) WEAK_REF) d) &&
               forallb (fun kv => markerless (snd kv)) d
  | _ => true
  end.

(** no field is called "!weak ref" *)
Definition field_idents (t : ty) : Prop := forall p ft, type_at t p = Some ft -> ~ In WEAK_REF p.

(** RON texts denote file values, without weak reference markers *)
Definition ron_file (E : env) : Prop :=
  forall s y, e_ron E s = Ok y -> filev y = true /\ markerless y = true.

(** the field at [s] has an instance as its declared default *)
Definition object_default (t : ty) (s : list string) : Prop :=
  exists c o, default_at t s = Some (DValue (VObj c o)) \/ default_at t s = Some (DFactory (VObj c o)).

(** the name an override gives its value to does not exist in the type *)
Definition unknown (t : ty) (o : string) : Prop :=
  exists p text, names o p text /\ type_at t p = None.
Definition known (t : ty) (o : string) : Prop :=
  exists p text ft, names o p text /\ type_at t p = Some ft.

(** [ovs] consists of the known overrides [kept] and of unknown ones, whose names
    are [ks]; both in the order of [ovs] *)
Inductive sorted (t : ty) : list string -> list string -> list string -> Prop :=
| so_nil : sorted t [] [] []
| so_known o ovs kept ks : known t o -> sorted t ovs kept ks -> sorted t (o :: ovs) (o :: kept) ks
| so_unknown o p text ovs kept ks :
    names o p text -> type_at t p = None -> sorted t ovs kept ks ->
    sorted t (o :: ovs) kept (join "." p :: ks).

(** the error for a list of unknown names *)
Definition report (ks : list string) : exc := match ks with [k] => FieldNotFound k | _ => FieldsNotFound ks end.

(** ** upgrades (C13, C14) *)

(** the paths a rule mentions *)
Definition rule_paths (r : rule) : list (list string) :=
  match r with
  | RenameField a b => [a; b]
  | DeleteField p | MapFieldValue p _ _ | ChangeDefault p _ _ | AddDefault p _
  | CheckValue p _ | RejectValues p _ => [p]
  end.

(** no upgrade rule of a Versioned dataclass on the way to [p] mentions [p], a
    section of it or something in it *)
Fixpoint untouched (t : ty) (p : list string) : Prop :=
  match p with
  | [] => True
  | k :: r =>
      match strip_opt t with
      | TData c fs =>
          (forall cur rules, c_versioned c = Some (cur, rules) ->
             k <> "version" /\
             forall i rs ru q, In (i, rs) rules -> In ru rs -> In q (rule_paths ru) ->
               unrelated q p /\ ~ In WEAK_REF q) /\
          match aget k fs with Some (ft, _) => untouched ft r | None => True end
      | _ => True
      end
  end.

(** [rs] applied one after the other *)
Inductive run : list rule -> pyval -> pyval -> Prop :=
| run_nil x : run [] x x
| run_cons r rs x y z : apply_rule r x = Ok y -> run rs y z -> run (r :: rs) x z.

(** the rules of versions v, v+1, ..., n-1 applied to [x], each list once *)
Inductive upgraded (rules : list (Z * list rule)) (n : Z) : Z -> pyval -> pyval -> Prop :=
| up_done v x : (n <= v)%Z -> upgraded rules n v x x
| up_step v rs x y z :
    (v < n)%Z -> (In (v, rs) rules \/ (~ In v (map fst rules) /\ rs = [])) ->
    run rs x y -> upgraded rules n (v + 1) y z -> upgraded rules n v x z.
