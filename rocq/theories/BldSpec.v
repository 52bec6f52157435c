(** * What the user is told about building configurations *)
From Coq Require Import Ascii.
From Verif Require Import Prelude CfgModel BldModel.
Local Open Scope string_scope.

Inductive alg := Sgd | TikiTaka | TTv2 | ChoppedTTv2 | Agad | MixedP.
(** names in the documentation *)
Inductive named : string -> alg -> Prop :=
| nm_sgd : named "sgd" Sgd
| nm_mp : named "mp" MixedP | nm_mp' : named "mixed-precision" MixedP
| nm_tt : named "tiki-taka" TikiTaka | nm_tt1 : named "ttv1" TikiTaka | nm_tt' : named "tt" TikiTaka
| nm_tt2 : named "ttv2" TTv2
| nm_c : named "chopped-ttv2" ChoppedTTv2 | nm_c3 : named "ttv3" ChoppedTTv2 | nm_c' : named "c-ttv2" ChoppedTTv2
| nm_a : named "agad" Agad | nm_a' : named "ttv4" Agad.
(** what the algorithms set at the compound of devices *)
Definition settings (a : alg) : list (string * pval) :=
  match a with
  | Sgd => [("update_policy", VEnum "VectorUnitCellUpdatePolicy" "SINGLE_RANDOM")]
  | TikiTaka => [("units_in_mbatch", VBool true)]
  | TTv2 => [("auto_scale", VBool false); ("in_chop_prob", VFloat 0); ("units_in_mbatch", VBool false)]
  | ChoppedTTv2 | Agad => [("auto_scale", VBool true); ("fast_lr", VFloat (1 / 10)); ("units_in_mbatch", VBool false)]
  | MixedP => []
  end.
(** the settings and the construction seed, and nothing else *)
Definition has_settings (a : alg) (s : Z) (own : attrs) : Prop := forall p, In p own <-> p = ("construction_seed", VInt s) \/ In p (settings a).
(** the compound that an algorithm uses, with its settings *)
Definition device_of (a : alg) (n s : Z) (d : devt) : Prop :=
  match a, d with
  | Sgd, OneDevice _ => n = 1%Z
  | Sgd, Compound c own l None => n <> 1%Z /\ c = "VectorUnitCell" /\ length l = Z.to_nat n /\ has_settings a s own
  | TikiTaka, Compound c own [_; _] (Some _) => c = "TransferCompound" /\ has_settings a s own
  | TTv2, Compound c own [_; _] (Some _) | ChoppedTTv2, Compound c own [_; _] (Some _) => c = "ChoppedTransferCompound" /\ has_settings a s own
  | Agad, Compound c own [_; _] (Some _) => c = "DynamicTransferCompound" /\ has_settings a s own
  | MixedP, MixedPrecision _ => True
  | _, _ => False
  end.
(** ... at the update and at the parameters of the transfers (noise and bound management off but for AGAD, pulse trains of length 1) *)
Definition update_settings (a : alg) : list (string * pval) := match a with TTv2 | ChoppedTTv2 | Agad => [("desired_bl", VInt 5)] | _ => [] end.
Definition forward_settings (a : alg) : list (string * pval) :=
  match a with TikiTaka | TTv2 | ChoppedTTv2 => [("noise_management", VEnum "NoiseManagementType" "NONE"); ("bound_management", VEnum "BoundManagementType" "NONE")] | _ => [] end.
Definition transfer_settings (a : alg) : list (string * pval) :=
  match a with
  | TTv2 | ChoppedTTv2 => [("desired_bl", VInt 1); ("update_bl_management", VBool false); ("update_management", VBool false)]
  | Agad => [("desired_bl", VInt 1); ("update_bl_management", VBool true); ("update_management", VBool true)]
  | _ => []
  end.
Definition class_of (a : alg) (n : Z) : string := match a with Sgd => if Z.eqb n 1 then "SingleRPUConfig" else "UnitCellRPUConfig" | MixedP => "DigitalRankUpdateRPUConfig" | _ => "UnitCellRPUConfig" end.
Definition devices (d : devt) : list nat := match d with OneDevice a | MixedPrecision a => [a] | Compound _ _ l _ => l end.
Definition transfers (d : devt) : list (nat * nat) := match d with Compound _ _ _ (Some p) => [p] | _ => [] end.
(** all objects of a configuration *)
Definition parts (r : rpu) : list nat := (devices (r_device r) ++ flat_map (fun p => [fst p; snd p]) (transfers (r_device r)) ++ [r_forward r; r_backward r; r_update r])%list.
Fixpoint get (o : attrs) (n : string) : option pval := match o with [] => None | (m, v) :: r => if String.eqb m n then Some v else get r n end.
(** the attributes the user asked for *)
Definition wanted (g : given) (h : heap) : attrs := match g with Class d => d | Object a => nth a h [] | NotCallable => [] end.
Definition valid (g : given) (h : heap) : Prop := match g with Object a => (a < length h)%nat | _ => True end.
(** the object has the attributes, except possibly those listed *)
Definition same_but (names : list string) (h : heap) (a : nat) (o : attrs) : Prop := exists x, nth_error h a = Some x /\ forall n, ~ In n names -> get x n = get o n.
(** the object has the attributes, but for these settings *)
Definition same_with (kw : list (string * pval)) (h : heap) (a : nat) (o : attrs) : Prop :=
  exists x, nth_error h a = Some x /\ (forall n v, In (n, v) kw -> get x n = Some v) /\ forall n, ~ In n (map fst kw) -> get x n = get o n.
(** the same name in capital letters *)
Definition upper1 (c : ascii) : ascii := let n := nat_of_ascii c in if (Nat.leb 97 n && Nat.leb n 122)%bool then ascii_of_nat (n - 32) else c.
Fixpoint upper (s : string) : string := match s with EmptyString => EmptyString | String c r => String (upper1 c) (upper r) end.
