(** * Pulsed update: vocabulary of the theorems *)
From Verif Require Import Prelude Rand DevModel DevSpec PulseModel.

Definition pulse_list := list (nat * nat * bool).
(** the directions (true is down) of the pulses sent to the cross point in row [i], column [j] *)
Definition pulses_at (l : pulse_list) (i j : nat) : list bool :=
  map snd (filter (fun p => ((fst (fst p) =? i) && (snd (fst p) =? j))%nat%bool) l).
Definition ups (bs : list bool) : nat := length (filter negb bs).
Definition downs (bs : list bool) : nat := length (filter (fun b => b) bs).
(** the largest number of time slots an update with learning rate [lr] may use *)
Definition slots (u : upar) (lr g : R) : Z :=
  if (up_fixed u || up_ublm u)%bool then up_BL u else Z.max (up_BL u) (ceilZ (Rabs lr / g)).
(** parameters that make sense *)
Definition sensible (u : upar) : Prop := (1 <= up_BL u)%Z /\ 0 < up_gs u.
Definition stochastic (u : upar) : Prop := up_type u = Stochastic \/ up_type u = StochasticCompressed.
Definition dense (u : upar) : Prop := up_type u = MeanCount \/ up_type u = DeterministicImplicit.
(** the learning rate fits into the pulse trains *)
Definition fits (u : upar) (lr g : R) : Prop := up_fixed u = true \/ up_ublm u = true \/ Rabs lr <= g * IZR (up_BL u).
(** the largest element of the update fits into the pulse trains (in units of the granularity) *)
Definition max_fits (u : upar) (lr g : R) (x d : vec) : Prop := Rabs lr * maxabs x * maxabs d <= g * IZR (up_BL u).
(** Probability that one of the numbers 0/N, 1/N .. N/N, all with the same probability, is
    below [p] *)
Definition prob_below (N : nat) (p : R) : R := INR (length (filter (fun k => Rltb (INR k / INR N) p) (seq 0 (S N)))) / INR (S N).
(** net number of down pulses *)
Definition net (bs : list bool) : Z := (Z.of_nat (downs bs) - Z.of_nat (ups bs))%Z.
