(** * Vocabulary of the properties of clipping, remapping and modifying weights *)
From Verif Require Import Prelude.

(** the weight of output [i] and input [j] *)
Definition ent (w : mat) (i j : nat) : R := nth j (nth i w []) 0.
(** [m] is the largest absolute value in [l] *)
Definition is_absmax (l : vec) (m : R) : Prop :=
  (forall v, In v l -> Rabs v <= m) /\ (exists v, In v l /\ Rabs v = m).
(** [w'] is [w] with every weight moved to the nearest one in [-c, c] *)
Definition clipped_at (d x : nat) (c : R) (w w' : mat) : Prop :=
  shape d x w' /\
  forall i j, (i < d)%nat -> (j < x)%nat ->
    (Rabs (ent w i j) <= c -> ent w' i j = ent w i j) /\
    (c < ent w i j -> ent w' i j = c) /\
    (ent w i j < - c -> ent w' i j = - c).
(** [m] is the mean, [s] the standard deviation of the numbers in [l] *)
Definition is_mean (l : vec) (m : R) : Prop := m * INR (length l) = sumR l.
Definition is_std (l : vec) (s : R) : Prop :=
  exists m, is_mean l m /\ 0 <= s /\ s * s * (INR (length l) - 1) = sumR (map (fun v => (v - m) * (v - m)) l).
(** a limit that only counts when it is positive *)
Definition limited (fix_ c : R) : R := if Rlt_dec 0 fix_ then Rmin c fix_ else c.

(** weights and output scales that stand for the same logical weights *)
Definition same_logical (d x : nat) (w : mat) (s : vec) (w' : mat) (s' : vec) : Prop :=
  shape d x w' /\ length s' = d /\
  forall i j, (i < d)%nat -> (j < x)%nat -> nth i s' 0 * ent w' i j = nth i s 0 * ent w i j.
Definition row (w : mat) (i : nat) : vec := nth i w [].
Definition zero_row (w : mat) (i : nat) : Prop := forall v, In v (row w i) -> v = 0.
(** Smallest number of a list *)
Definition is_min (l : vec) (m : R) : Prop := In m l /\ forall v, In v l -> m <= v.

(** ** Modifying weights *)
(** the weights that count: all, or all but the last column *)
Definition counted (lastcol : bool) (x j : nat) : Prop := (j < x)%nat /\ (lastcol = true -> (S j < x)%nat).
(** the reference of noise and resolution: the largest counted weight (1 if they are all 0), or
    the assumed one *)
Definition is_reference (rel lastcol : bool) (assumed : R) (d x : nat) (w : mat) (a : R) : Prop :=
  if rel then
    (0 < a /\ (forall i j, (i < d)%nat -> counted lastcol x j -> Rabs (ent w i j) <= a) /\
     exists i j, (i < d)%nat /\ counted lastcol x j /\ Rabs (ent w i j) = a)
    \/ (a = 1 /\ forall i j, (i < d)%nat -> counted lastcol x j -> ent w i j = 0)
  else a = assumed.
(** [v] is a multiple of [step] *)
Definition on_grid (step v : R) : Prop := exists k : Z, v = IZR k * step.
(** c0 + c1 a + c2 a^2 + .. *)
Definition polynomial (cs : vec) (a : R) : R := sumR (map (fun k => nth k cs 0 * a ^ k) (seq 0 (length cs))).
(** a normal generator with mean 0 and variance 1 *)
Definition standard (G : vec) : Prop := G <> [] /\ sumR G = 0 /\ sumR (map (fun g => g * g) G) = INR (length G).
