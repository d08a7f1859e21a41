(** SpecHelp.v -- the fields of a config, and how to read what [help] prints (C50, C56). *)
From Verif Require Import Base Value Schema Rewrite Sched Types Asdict FromDict Checker HelpM.

(** [field_in wrap t p f]: following the names [p] from [t] leads to the field [f].
    With [wrap] the way may lead through Optional and List. *)
Inductive field_in (wrap : bool) : sty -> list string -> sty * fmeta -> Prop :=
| fi_here n fs v k f : In (k, f) fs -> field_in wrap (SStruct n fs v) [fm_name (snd f)] f
| fi_sub n fs v k g p f : In (k, g) fs -> field_in wrap (fst g) p f ->
    field_in wrap (SStruct n fs v) (fm_name (snd g) :: p) f
| fi_list t p f : wrap = true -> field_in wrap t p f -> field_in wrap (SList t) p f
| fi_option t p f : wrap = true -> field_in wrap t p f -> field_in wrap (SOption t) p f.

(** the field names in a schema *)
Definition every_name (P : string -> Prop) (t : sty) : Prop := forall p f, field_in true t p f -> P (fm_name (snd f)).

(** reading an indented listing: a line at depth [d] belongs to the last line at depth
    [d - 1] above it.  The result lists full paths. *)
Fixpoint read_listing (above : list string) (l : list line) : list (list string * line) :=
  match l with
  | [] => []
  | LField d n t df doc :: r =>
      let p := (firstn d above ++ [n])%list in (p, LField d n t df doc) :: read_listing p r
  | LPath p t df doc :: r => (p, LPath p t df doc) :: read_listing p r
  end.

(** a config section: its default and docstring are not part of a listing *)
Definition section (t : sty) : bool := match unwrap_container t with SStruct _ _ _ => true | _ => false end.
Definition listed (d : nat) (f : sty * fmeta) : line :=
  if section (fst f) then LField d (fm_name (snd f)) (fst f) VNone None
  else LField d (fm_name (snd f)) (fst f) (fm_default (snd f)) (fm_doc (snd f)).

(** the answers to a query: the lines with a full path *)
Fixpoint answers (l : list line) : list (list string) :=
  match l with
  | [] => []
  | LPath p _ _ _ :: r => p :: answers r
  | LField _ _ _ _ _ :: r => answers r
  end.

(** a name worth showing after [i] better answers, the first of similarity [best]: it
    contains the query, or is an alias of it, or it is among the first four, is similar
    enough, and not much less similar than the first, which is no alias *)
Definition worth (q : string) (best : pyfloat) (i : nat) (n : string) : Prop :=
  (exists x y, n = x ++ q ++ y) \/
  SFltb (name_similarity n q) f64_one = false \/
  (i <= 3 /\ SFltb (name_similarity n q) f64_0_4 = false /\ SFleb f64_one best = false /\
   SFltb f64_0_2 (f64_sub best (name_similarity n q)) = false).
