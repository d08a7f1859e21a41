(** Induct.v -- induction principles for the nested inductive types. *)
From Verif Require Import Base Value Schema Rewrite Types.

Section PyvalInd.
  Variable P : pyval -> Prop.
  Hypothesis HNone : P VNone.
  Hypothesis HBool : forall b, P (VBool b).
  Hypothesis HInt : forall z, P (VInt z).
  Hypothesis HFloat : forall f, P (VFloat f).
  Hypothesis HStr : forall s, P (VStr s).
  Hypothesis HList : forall l, Forall P l -> P (VList l).
  Hypothesis HTuple : forall l, Forall P l -> P (VTuple l).
  Hypothesis HDict : forall d, Forall (fun kv => P (snd kv)) d -> P (VDict d).
  Hypothesis HNt : forall n d, Forall (fun kv => P (snd kv)) d -> P (VNt n d).
  Hypothesis HObj : forall n d, Forall (fun kv => P (snd kv)) d -> P (VObj n d).
  Hypothesis HEnum : forall c m x, P x -> P (VEnum c m x).
  Hypothesis HBlob : forall c x, P x -> P (VBlob c x).

  Fixpoint pyval_ind' (v : pyval) : P v :=
    let items := fix items (d : list (string * pyval)) : Forall (fun kv => P (snd kv)) d :=
      match d with
      | [] => Forall_nil _
      | kv :: r => Forall_cons kv (pyval_ind' (snd kv)) (items r)
      end in
    let elems := fix elems (l : list pyval) : Forall P l :=
      match l with
      | [] => Forall_nil _
      | x :: r => Forall_cons x (pyval_ind' x) (elems r)
      end in
    match v with
    | VNone => HNone
    | VBool b => HBool b
    | VInt z => HInt z
    | VFloat f => HFloat f
    | VStr s => HStr s
    | VList l => HList l (elems l)
    | VTuple l => HTuple l (elems l)
    | VDict d => HDict d (items d)
    | VNt n d => HNt n d (items d)
    | VObj n d => HObj n d (items d)
    | VEnum c m x => HEnum c m x (pyval_ind' x)
    | VBlob c x => HBlob c x (pyval_ind' x)
    end.
End PyvalInd.

Section TyInd.
  Variable P : ty -> Prop.
  Hypothesis HInt : P TInt.
  Hypothesis HFloat : P TFloat.
  Hypothesis HStr : P TStr.
  Hypothesis HBool : P TBool.
  Hypothesis HNone : P TNoneType.
  Hypothesis HList : forall i, P i -> P (TList i).
  Hypothesis HTuple : forall l, Forall P l -> P (TTuple l).
  Hypothesis HDict : forall k v, P k -> P v -> P (TDict k v).
  Hypothesis HOpt : forall i, P i -> P (TOpt i).
  Hypothesis HUnion : forall l, Forall P l -> P (TUnion l).
  Hypothesis HData : forall c fs, Forall (fun f => P (fst (snd f))) fs -> P (TData c fs).
  Hypothesis HEnum : forall n ms, P (TEnum n ms).
  Hypothesis HLit : forall l, P (TLit l).
  Hypothesis HSer : forall n, P (TSer n).

  Fixpoint ty_ind' (t : ty) : P t :=
    let tys := fix tys (l : list ty) : Forall P l :=
      match l with
      | [] => Forall_nil _
      | x :: r => Forall_cons x (ty_ind' x) (tys r)
      end in
    let flds := fix flds (l : list (string * (ty * dflt))) : Forall (fun f => P (fst (snd f))) l :=
      match l with
      | [] => Forall_nil _
      | f :: r => Forall_cons f (ty_ind' (fst (snd f))) (flds r)
      end in
    match t with
    | TInt => HInt | TFloat => HFloat | TStr => HStr | TBool => HBool | TNoneType => HNone
    | TList i => HList i (ty_ind' i)
    | TTuple l => HTuple l (tys l)
    | TDict k v => HDict k v (ty_ind' k) (ty_ind' v)
    | TOpt i => HOpt i (ty_ind' i)
    | TUnion l => HUnion l (tys l)
    | TData c fs => HData c fs (flds fs)
    | TEnum n ms => HEnum n ms
    | TLit l => HLit l
    | TSer n => HSer n
    end.
End TyInd.

Section StyInd.
  Variable P : sty -> Prop.
  Hypothesis HPrim : forall p, P (SPrim p).
  Hypothesis HList : forall i, P i -> P (SList i).
  Hypothesis HTuple : forall l, Forall P l -> P (STuple l).
  Hypothesis HDict : forall k v, P k -> P v -> P (SDict k v).
  Hypothesis HUnion : forall l, Forall P l -> P (SUnion l).
  Hypothesis HStruct : forall n fs ver, Forall (fun f => P (fst (snd f))) fs -> P (SStruct n fs ver).
  Hypothesis HOpt : forall i, P i -> P (SOption i).
  Hypothesis HEnum : forall n ms, P (SEnum n ms).
  Hypothesis HLit : forall l, P (SLit l).
  Hypothesis HNothing : P SNothing.

  Fixpoint sty_ind' (t : sty) : P t :=
    let tys := fix tys (l : list sty) : Forall P l :=
      match l with
      | [] => Forall_nil _
      | x :: r => Forall_cons x (sty_ind' x) (tys r)
      end in
    let flds := fix flds (l : list (string * (sty * fmeta))) : Forall (fun f => P (fst (snd f))) l :=
      match l with
      | [] => Forall_nil _
      | f :: r => Forall_cons f (sty_ind' (fst (snd f))) (flds r)
      end in
    match t with
    | SPrim p => HPrim p
    | SList i => HList i (sty_ind' i)
    | STuple l => HTuple l (tys l)
    | SDict k v => HDict k v (sty_ind' k) (sty_ind' v)
    | SUnion l => HUnion l (tys l)
    | SStruct n fs ver => HStruct n fs ver (flds fs)
    | SOption i => HOpt i (sty_ind' i)
    | SEnum n ms => HEnum n ms
    | SLit l => HLit l
    | SNothing => HNothing
    end.
End StyInd.
