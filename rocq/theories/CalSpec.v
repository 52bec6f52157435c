(** * Specification of the calibration *)
From Verif Require Import Prelude CalModel.
Local Open Scope nat_scope.

(** all input rows that tile [i] was given during the calibration *)
Definition rows_of (i : nat) (calls : list call) : mat := flat_map (fun a : call => if fst (fst a) =? i then snd (fst a) else []) calls.
(** all input values *)
Definition values_of (i : nat) (calls : list call) : vec := concat (rows_of i calls).
(** how many values satisfy [p] *)
Definition count (p : R -> bool) (l : vec) : nat := length (filter p l).
(** tile [i] belongs to a model prepared for the calibration: its configuration is supported, an enabled input range exists, and
    without [force_all_layers] it has input ranges enabled and noise management off *)
Definition ready (force : bool) (t : tile) : Prop :=
  supported (l_cfg t) = true /\ (k_enable (l_cfg t) = true -> l_range t <> None) /\ (force = true \/ k_enable (l_cfg t) = true /\ k_nm (l_cfg t) = false).
(** the input range before the data is passed *)
Definition start_range (t : tile) : option R := if k_enable (l_cfg t) then l_range t else Some (k_init (l_cfg t)).
Definition start_idx (t : tile) : nat := if k_enable (l_cfg t) then l_idx t else 0.
(** the inputs of the calls of tile [i], one after the other *)
Definition batches (i : nat) (calls : list call) : list mat := map (fun a : call => snd (fst a)) (filter (fun a : call => fst (fst a) =? i) calls).
(** an average of [k] earlier values with mean [r0] and the values [vs] *)
Definition moving_average (r0 : R) (k : nat) (vs : vec) : R := match vs with [] => r0 | _ => ((r0 * INR k + sumR vs) / INR (k + length vs))%R end.
(** the calibration types that cannot deal with a batch of zeros *)
Definition needs_data (ct : ctype) : Prop := ct = MaxAbs \/ ct = MovingQuantile.
Definition has_data (x : mat) : Prop := exists row v, List.In row x /\ List.In v row /\ v <> 0%R.
