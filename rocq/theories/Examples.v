(** Examples.v -- a concrete class hierarchy and environment, used by the
    examples that show the theorems' hypotheses can be met. *)
From Verif Require Import Base Value Schema Rewrite Sched Types Asdict FromDict SpecTypes.

Definition f_half : pyfloat := S754_finite false 4503599627370496 (-53).  (* 0.5 *)

(** class Optimizer: lr: float; eps: float = 0.5 *)
Definition cOpt : cinfo := mkC "Optimizer" None.
Definition fOpt : list (string * (ty * dflt)) :=
  [("lr", (TFloat, DMissing)); ("eps", (TFloat, DValue (VFloat f_half)))].
Definition tOpt : ty := TData cOpt fOpt.

(** class PPO: clip: int = 3 *)
Definition cPPO : cinfo := mkC "PPO" None.
Definition fPPO : list (string * (ty * dflt)) := [("clip", (TInt, DValue (VInt 3)))].
Definition tPPO : ty := TData cPPO fPPO.

(** class DQN: eps_greedy: bool *)
Definition cDQN : cinfo := mkC "DQN" None.
Definition fDQN : list (string * (ty * dflt)) := [("eps_greedy", (TBool, DMissing))].
Definition tDQN : ty := TData cDQN fDQN.

(** class Net(Versioned): version 2, width renamed at version 1 *)
Definition cNet : cinfo := mkC "Net" (Some (2%Z, [(1%Z, [RenameField ["size"] ["width"]])])).
Definition fNet : list (string * (ty * dflt)) :=
  [("width", (TInt, DMissing)); ("act", (TLit [VStr "relu"; VStr "tanh"], DValue (VStr "relu")))].
Definition tNet : ty := TData cNet fNet.

(** class Color(Enum): RED = "RED"; BLUE = "BLUE" *)
Definition tColor : ty := TEnum "Color" [("RED", VStr "RED"); ("BLUE", VStr "BLUE")].

Definition cCfg : cinfo := mkC "Config" (Some (0%Z, [])).
Definition fCfg : list (string * (ty * dflt)) :=
  [("steps", (TInt, DValue (VInt 10)));
   ("name", (TStr, DMissing));
   ("tags", (TList TStr, DFactory (VList [])));
   ("shape", (TTuple [TInt; TFloat], DMissing));
   ("table", (TDict TStr TInt, DFactory (VDict [])));
   ("opt", (TOpt tOpt, DValue VNone));
   ("alg", (TUnion [tPPO; tDQN], DMissing));
   ("net", (tNet, DMissing));
   ("color", (tColor, DMissing))].
Definition tCfg : ty := TData cCfg fCfg.

Definition meta (c : cinfo) (fs : list (string * (ty * dflt))) : cmeta :=
  mkCM (option_map fst (c_versioned c)) (map (fun f => (fst f, snd (snd f))) fs).

Definition ex_class (n : string) : cmeta :=
  if String.eqb n "Optimizer" then meta cOpt fOpt
  else if String.eqb n "PPO" then meta cPPO fPPO
  else if String.eqb n "DQN" then meta cDQN fDQN
  else if String.eqb n "Net" then meta cNet fNet
  else if String.eqb n "Config" then meta cCfg fCfg
  else mkCM None [].

(** decimal digits only; enough for the examples *)
Definition ex_float (s : string) : option pyfloat :=
  if String.eqb s "0.5" then Some f_half
  else if String.eqb s "7" then Some (sf_of_Z 7)
  else if String.eqb s "3" then Some (sf_of_Z 3)
  else if String.eqb s "10" then Some (sf_of_Z 10)
  else if String.eqb s "0" then Some (sf_of_Z 0)
  else if String.eqb s "1" then Some (sf_of_Z 1) else None.

Definition ex_ron (s : string) : res pyval :=
  if String.eqb s "7" then Ok (VInt 7)
  else if String.eqb s "0.5" then Ok (VFloat f_half)
  else if String.eqb s "3" then Ok (VInt 3)
  else Err ValueError.

Definition ex_env : env :=
  mkEnv ex_float (fun f => f) ex_ron (fun _ => None) ex_class (fun l => l).

Definition ex_cfg : pyval :=
  VObj "Config"
    [("steps", VInt 10); ("name", VStr "run@1"); ("tags", VList [VStr "a"; VStr "b"]);
     ("shape", VTuple [VInt 4; VFloat f_half]); ("table", VDict [("x", VInt 1); ("y", VInt 2)]);
     ("opt", VObj "Optimizer" [("lr", VFloat f_half); ("eps", VFloat f_half)]);
     ("alg", VObj "DQN" [("eps_greedy", VBool true)]);
     ("net", VObj "Net" [("width", VInt 64); ("act", VStr "tanh")]);
     ("color", VEnum "Color" "BLUE" (VStr "BLUE"))].

Ltac nodup := repeat (constructor; [simpl; intuition discriminate|]); try constructor.

Lemma ex_storable : storable ex_env tCfg.
Proof.
  unfold tCfg. simpl.
  repeat match goal with
         | |- _ /\ _ => split
         | |- True => exact I
         | |- NoDup _ => solve [nodup]
         | |- forall _ _, Some _ = Some _ -> _ =>
             let H := fresh in intros ? ? H; injection H as <- <-; repeat constructor
         | |- forall _ _, None = Some _ -> _ => discriminate
         | |- Forall _ _ => solve [repeat constructor]
         | |- enum_by_name _ =>
             let H := fresh in
             intros m x H; simpl in H;
             repeat destruct H as [H|H]; try easy; injection H as <- <-; reflexivity
         | |- _ = _ => reflexivity
         end.
Qed.

Lemma ex_conforms : conforms false tCfg ex_cfg.
Proof.
  simpl. split; [reflexivity|].
  repeat match goal with
         | |- _ /\ _ => split
         | |- True => exact I
         | |- _ = _ => reflexivity
         | |- Forall _ _ => solve [repeat constructor]
         end.
  - right. repeat split.
  - right. left. repeat split.
  - exists (VStr "tanh"). simpl. auto.
  - simpl. auto.
Qed.
