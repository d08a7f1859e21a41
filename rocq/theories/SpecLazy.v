(** SpecLazy.v -- how a Lazy state should behave, and the states for which it does. *)
From Verif Require Import Base Value Schema Rewrite Sched Types Asdict FromDict SpecTypes SpecState Lazy.

(** ** plain attributes *)
(** what the same uses return on an ordinary object *)
Fixpoint plain_uses (l : list use) (attrs : list (string * pyval)) : list (res pyval) :=
  match l with
  | [] => []
  | Get n :: r =>
      (match aget n attrs with Some v => Ok v | None => Err AttributeError end) :: plain_uses r attrs
  | Put n v :: r => plain_uses r (aset n v attrs)
  end.

(** [f] is read before it is assigned *)
Fixpoint read_first (f : string) (l : list use) : Prop :=
  match l with
  | [] => True
  | Get n :: r => n = f \/ read_first f r
  | Put n _ :: r => n <> f /\ read_first f r
  end.

(** the events about field [f] *)
Definition about (f : string) (e : file_event) : Prop :=
  match e with Opened n | Parsed n | Unpickled n => n = f end.

(** the same uses, with the files differing at [path] only *)
Definition same_but (path : string) (l l' : list ((string -> option pyval) * use)) : Prop :=
  Forall2 (fun a b => snd a = snd b /\ forall p, p <> path -> fst a p = fst b p) l l'.

(** accessing the unloaded field [r] gives [v]: its file is there, user code turns the
    contents into [v], and it is not a pickle or those are allowed *)
Definition pending (deser : string -> pyval -> inst -> res pyval) (pickle_allowed : bool)
    (disk : string -> option pyval) (r : lazyrec) (v : pyval) : Prop :=
  (lz_pickle r = true -> pickle_allowed = true) /\
  exists data, disk (lz_file r) = Some data /\ forall o, deser (lz_cls r) data o = Ok v.

(** ** positions of Serializable objects *)
Fixpoint blob_free (v : pyval) : Prop :=
  match v with
  | VBlob _ _ => False
  | VList l | VTuple l => all blob_free l
  | VDict d | VObj _ d | VNt _ d => all (fun kv => blob_free (snd kv)) d
  | VEnum _ _ x => blob_free x
  | _ => True
  end.

(** Serializable objects are attributes of the state itself; field names are identifiers
    (no dots, brackets or slashes) *)
Definition plain_name (n : string) : Prop :=
  n <> "" /\ has_char "." n = false /\ has_char "[" n = false /\ has_char "]" n = false /\ has_char "/" n = false.
Definition root_blobs (v : pyval) : Prop :=
  match v with
  | VObj _ d => Forall (fun kx => plain_name (fst kx) /\
                          ((exists c p, snd kx = VBlob c p) \/ blob_free (snd kx))) d
  | _ => False
  end.

(** a config class [StateManager] accepts: no Serializable fields and no bare None *)
Fixpoint configurable (t : ty) : Prop :=
  match t with
  | TInt | TFloat | TStr | TBool | TEnum _ _ | TLit _ => True
  | TNoneType | TSer _ => False
  | TList i | TOpt i => configurable i
  | TTuple l | TUnion l => all configurable l
  | TDict k v => configurable k /\ configurable v
  | TData _ fs => all (fun f : string * (ty * dflt) => let '(_, (ft, _)) := f in configurable ft) fs
  end.
