(** * Building a configuration from an algorithm's name
    Source: /repo/src/aihwkit/simulator/configs/helpers.py:35-258 *)
From Verif Require Import Prelude CfgModel.
From Coq Require Import Ascii.
Local Open Scope string_scope.

(** [str.lower] (ASCII letters only) *)
Definition lower1 (c : ascii) : ascii := let n := nat_of_ascii c in if (Nat.leb 65 n && Nat.leb n 90)%bool then ascii_of_nat (n + 32) else c.
Fixpoint lower (s : string) : string := match s with EmptyString => EmptyString | String c r => String (lower1 c) (lower r) end.
(** objects with their attributes; values are taken to be plain (a deep copy then shares nothing) *)
Definition attrs := list (string * pval).
Definition heap := list attrs.
Fixpoint put (o : attrs) (n : string) (v : pval) : attrs :=
  match o with
  | [] => [(n, v)]
  | (m, w) :: r => if String.eqb m n then (n, v) :: r else (m, w) :: put r n v
  end.
Definition update (o : attrs) (kw : attrs) : attrs := fold_left (fun o p => put o (fst p) (snd p)) kw o.
(** what the user gives: a class (with the defaults of its fields), an object, or an object of another class *)
Inductive given := Class (defaults : attrs) | Object (a : nat) | NotCallable.
Definition HM (A : Type) := heap -> res (A * heap).
Definition retH {A} (a : A) : HM A := fun h => Ok (a, h).
Definition bindH {A B} (m : HM A) (f : A -> HM B) : HM B := fun h => match m h with Raise x => Raise x | Ok (a, h') => f a h' end.
Definition failH {A} (x : exn) : HM A := fun _ => Raise x.
Local Notation "x <~ m ;; k" := (bindH m (fun x => k)) (at level 60, m at next level, right associativity).
Definition alloc (o : attrs) : HM nat := fun h => Ok (length h, (h ++ [o])%list).
(** helpers.py:123-151: a copy of the object with attributes replaced, or a new object of the class *)
Definition make (g : given) (kw : attrs) : HM nat :=
  match g with
  | Class d => if forallb (fun p => mem (fst p) (map fst d)) kw then alloc (update d kw) else failH TypeError
  | Object a => fun h => alloc (update (nth a h []) kw) h
  | NotCallable => failH TypeError
  end.
Fixpoint makes (g : given) (n : nat) : HM (list nat) := match n with O => retH [] | S m => a <~ make g [] ;; r <~ makes g m ;; retH (a :: r) end.
Inductive devt :=
| OneDevice (a : nat)
| Compound (cls : string) (own : attrs) (devs : list nat) (transfer : option (nat * nat))
| MixedPrecision (a : nat).
Record rpu := { r_class : string; r_device : devt; r_forward : nat; r_backward : nat; r_update : nat; r_other : attrs }.
Section Build.
  Context (fields : string -> list string). (* other fields of the configuration classes *)
  (** calling the class of the configuration *)
  Definition config (cls : string) (d : devt) (f b u : nat) (kw : attrs) : HM rpu :=
    if existsb (fun p => mem (fst p) ["device"; "forward"; "backward"; "update"]) kw then failH TypeError
    else if forallb (fun p => mem (fst p) (fields cls)) kw then retH {| r_class := cls; r_device := d; r_forward := f; r_backward := b; r_update := u; r_other := kw |}
    else failH TypeError.
  Definition seed (s : Z) : attrs := [("construction_seed", VInt s)].
  Definition no_management : attrs := [("noise_management", VEnum "NoiseManagementType" "NONE"); ("bound_management", VEnum "BoundManagementType" "NONE")].
  Definition transfer_pulse (m : bool) : attrs := [("desired_bl", VInt 1); ("update_bl_management", VBool m); ("update_management", VBool m)].
  (** helpers.py:153-258 *)
  Definition build (algorithm : string) (device io up : given) (n_devices s : Z) (kw : attrs) : HM rpu :=
    let alg := lower algorithm in
    let rest cls d uu := f <~ make io [] ;; b <~ make io [] ;; u <~ make up uu ;; config cls d f b u kw in
    let transfer cls tf tu own :=
      a <~ make device [] ;; b <~ make device [] ;; f <~ make io tf ;; u <~ make up tu ;; retH (Compound cls (own ++ seed s)%list [a; b] (Some (f, u))) in
    if mem alg ["sgd"] then
      if Z.eqb n_devices 1 then a <~ make device (seed s) ;; rest "SingleRPUConfig" (OneDevice a) []
      else l <~ makes device (Z.to_nat n_devices) ;; rest "UnitCellRPUConfig" (Compound "VectorUnitCell" (("update_policy", VEnum "VectorUnitCellUpdatePolicy" "SINGLE_RANDOM") :: seed s) l None) []
    else if mem alg ["tiki-taka"; "tt"; "ttv1"] then
      d <~ transfer "TransferCompound" no_management [] [("units_in_mbatch", VBool true)] ;; rest "UnitCellRPUConfig" d []
    else if mem alg ["ttv2"] then
      d <~ transfer "ChoppedTransferCompound" no_management (transfer_pulse false) [("in_chop_prob", VFloat 0); ("units_in_mbatch", VBool false); ("auto_scale", VBool false)] ;;
      rest "UnitCellRPUConfig" d [("desired_bl", VInt 5)]
    else if mem alg ["chopped-ttv2"; "ttv3"; "c-ttv2"] then
      d <~ transfer "ChoppedTransferCompound" no_management (transfer_pulse false) [("units_in_mbatch", VBool false); ("fast_lr", VFloat (1 / 10)); ("auto_scale", VBool true)] ;;
      rest "UnitCellRPUConfig" d [("desired_bl", VInt 5)]
    else if mem alg ["agad"; "ttv4"] then
      d <~ transfer "DynamicTransferCompound" [] (transfer_pulse true) [("auto_scale", VBool true); ("fast_lr", VFloat (1 / 10)); ("units_in_mbatch", VBool false)] ;;
      rest "UnitCellRPUConfig" d [("desired_bl", VInt 5)]
    else if mem alg ["mp"; "mixed-precision"] then
      a <~ make device (seed s) ;; rest "DigitalRankUpdateRPUConfig" (MixedPrecision a) []
    else failH ArgumentError.
End Build.
