(** * Specification of the pulsed update on the GPU *)
From Verif Require Import Prelude.

(** A pulse train: the sign of the value and its pulses; a value that is zero does not fire. *)
Definition train (K : nat) (v : option (bool * list bool)) : bool * list bool :=
  match v with Some t => t | None => (false, repeat false K) end.
(** The pulses that a cross point gets from one sample: one where both trains fire; [true]
    (up, because the weight moves against the gradient) if the signs differ. *)
Definition pulses (K : nat) (x d : option (bool * list bool)) : list bool :=
  map (fun _ => xorb (fst (train K x)) (fst (train K d)))
      (filter (fun k => (nth k (snd (train K x)) false && nth k (snd (train K d)) false)%bool) (seq 0 K)).
(** all samples of a batch, in order *)
Definition all_pulses (K : nat -> nat) (x d : nat -> option (bool * list bool)) (m : nat) : list bool :=
  flat_map (fun b => pulses (K b) (x b) (d b)) (seq 0 m).
(** One-sided devices take only the pulses of one direction and step up. *)
Definition kept (one_sided : Z) (l : list bool) : list bool :=
  if (one_sided =? 0)%Z then l
  else if (one_sided =? 1)%Z then filter (fun up => up) l
  else map (fun _ => true) (filter (fun up => negb up) l).
(** One pulse moves the weight by one step and keeps it in its bounds. *)
Definition one_step (lo hi down up : R) (w : R) (is_up : bool) : R := clampR lo hi (if is_up then w + up else w - down).
Definition apply_pulses (lo hi down up : R) (w : R) (l : list bool) : R := fold_left (one_step lo hi down up) l w.
(** A train of [K] slots *)
Definition slots (K : nat) (v : option (bool * list bool)) : Prop := match v with Some (_, h) => length h = K | None => True end.
