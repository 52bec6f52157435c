(** * Vocabulary for analog matrices *)
From Verif Require Import Prelude.

Definition entry (W : list (list R)) (i j : nat) : R := nth j (nth i W []) 0.
(** entry of the sum of the outer products [d x^T] of pairs of vectors *)
Definition outer_sum (xs ds : list (list R)) (i j : nat) : R := sumR (map2 (fun x d => nth i d 0 * nth j x 0) xs ds).
(** the matrix after a history of rank updates (factor, right and left vectors) *)
Definition updated (M W : list (list R)) (hist : list (R * (list (list R) * list (list R)))) : Prop :=
  length W = length M /\ (forall i, length (nth i W []) = length (nth i M [])) /\
  forall i j, (i < length M)%nat -> (j < length (nth i M []))%nat -> entry W i j = entry M i j + sumR (map (fun h => fst h * outer_sum (fst (snd h)) (snd (snd h)) i j) hist).
(** column [j] of a matrix *)
Definition column (W : list (list R)) (j : nat) : list R := map (fun row => nth j row 0) W.
(** what a least squares solver guarantees: no other matrix has a smaller sum of squared differences of any output *)
Definition residual (xs ys : list (list R)) (i : nat) (w : list R) : R := sumR (map2 (fun x y => (dot w x - nth i y 0) ^ 2) xs ys).
Definition least_squares (n k : nat) (xs ys : list (list R)) (W : list (list R)) : Prop :=
  shape n k W /\ forall i v, (i < n)%nat -> length v = k -> residual xs ys i (nth i W []) <= residual xs ys i v.
(** the inputs span the space: no vector but zero is orthogonal to all of them *)
Definition spanning (k : nat) (xs : list (list R)) : Prop := forall v : list R, length v = k -> (forall x, In x xs -> dot v x = 0) -> v = repeat 0 k.
