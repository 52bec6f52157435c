(** * IR drop: the circuit, and vocabulary of the theorems *)
From Verif Require Import Prelude MvmModel ConvModel IrModel.
Local Open Scope R_scope.

(** ** The circuit of one column
    A node of the wire has devices attached to it: (conductance, voltage at their other end). *)
Definition node := list (R * R).
(** the current that flows from the devices into a node with voltage [u] *)
Definition inflow (nd : node) (u : R) : R := sumR (map (fun d => fst d * (snd d - u)) nd).
(** Kirchhoff's and Ohm's laws for nodes 0 .. n-1 in a row, neighbours connected by wires of
    resistance [rw], the last one with the ADC at voltage [vout] by half of it.  [u]: the voltages of the
    nodes, [j]: the current that leaves each node towards the ADC *)
Definition kirchhoff (rw : R) (nodes : list node) (vout : R) (u j : nat -> R) : Prop :=
  (forall s, (s < length nodes)%nat -> j s = (match s with O => 0 | S s' => j s' end) + inflow (nth s nodes []) (u s)) /\
  (forall s, (S s < length nodes)%nat -> u s - u (S s) = rw * j s) /\
  u (length nodes - 1)%nat - vout = 1 / 2 * rw * j (length nodes - 1)%nat.
(** the devices of a cell at time [t]: pulses of height 0.6 and 0.2 V (plus and minus exchanged for
    negative inputs) as long as [t] is less than the input, afterwards 0.4 V *)
Definition devices (t : R) (c : cell) : node :=
  if Rltb t (Rabs (k_x c)) then (if Rltb 0 (k_x c) then [(k_p c, 6 / 10); (k_m c, 2 / 10)] else [(k_p c, 2 / 10); (k_m c, 6 / 10)])
  else [(k_p c, 4 / 10); (k_m c, 4 / 10)].
(** the tiny conductance to ground the code adds to avoid divisions by zero *)
Definition leak : node := [(reg_eps, 0)].
Definition good_cell (c : cell) : Prop := 0 <= k_p c /\ 0 <= k_m c.
(** the time of step [t] of [U] *)
Definition step_time (tmax : R) (U t : nat) : R := INR t * tmax / INR (U - 1).

(** ** Products *)
(** sums over indices, entries of matrices *)
Definition isum (n : nat) (f : nat -> R) : R := sumR (map f (seq 0 n)).
Definition ent (M : mat) (j i : nat) : R := nth i (nth j M []) 0.
(** An input vector on the grid of the time steps: entry [z] lasts [|z|] of the [U] steps *)
Definition grid_input (U : nat) (tmax : R) (z : list Z) : list R := map (fun k => IZR k * tmax / INR (U - 1)) z.
Definition within_steps (U : nat) (z : list Z) : Prop := Forall (fun k => (Z.abs k <= Z.of_nat (U - 1))%Z) z.
(** what is integrated for an input of [z] steps: [z] itself by [ir_drop_integration_sum], half a step more
    by the trapezoidal rule *)
Definition pulses (by_sum : bool) (z : Z) : R := IZR z + (if by_sum then 0 else IZR (Z.sgn z) / 2).
(** a weight matrix of [d] rows (outputs) and [n] columns (inputs) *)
Definition is_mat (d n : nat) (W : mat) : Prop := length W = d /\ Forall (fun r => length r = n) W.
(** an input of size [n] fits a crossbar with [o_phys] rows: whole segments; without the extension one row
    less than [o_phys] is not possible *)
Definition fits (p : irp) (n : nat) : Prop :=
  (0 < n <= o_phys p)%nat /\ (0 < o_segs p)%nat /\ (o_phys p / o_segs p * o_segs p = o_phys p)%nat /\ (o_ext p = false -> (o_phys p - n)%nat <> 1%nat).
(** a converter yields non-negative conductances that represent the weights: the sum of the differences of the
    pairs, times their factors, is [ratio] times the weight *)
Definition represents (d n : nat) (W : mat) (pairs : list (R * (mat * mat))) (ratio : R) : Prop :=
  0 < ratio /\ Forall (fun q => let '(f, (gp, gm)) := q in 0 <= f /\ is_mat d n gp /\ is_mat d n gm /\ Forall (Forall (fun g => 0 <= g)) gp /\ Forall (Forall (fun g => 0 <= g)) gm) pairs /\
  forall j i, (j < d)%nat -> (i < n)%nat -> sumR (map (fun q => let '(f, (gp, gm)) := q in f * (ent gp j i - ent gm j i)) pairs) = ratio * ent W j i.
