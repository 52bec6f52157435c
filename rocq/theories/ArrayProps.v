(** * Tile arrays: the theorems.  Statements only; the proofs are in ArrayProofs.v
    and ArrayPeri.v. *)
From Verif Require Import Prelude ArrayModel ArrayProofs PeriModel ArrayPeri.

(** C01: the split sizes of a dimension are positive, at most the maximum, add up
    to the dimension, differ by at most one, and there are as few as possible. *)
Theorem C01_split_sizes_partition : forall size mx,
  (0 < size)%Z -> (0 < mx)%Z ->
  exists l, get_split_sizes size mx = Ok l
    /\ fold_right Z.add 0%Z l = size
    /\ Forall (fun s => 1 <= s <= mx)%Z l
    /\ (forall a b, In a l -> In b l -> (Z.abs (a - b) <= 1)%Z)
    /\ (forall l', fold_right Z.add 0%Z l' = size -> Forall (fun s => s <= mx)%Z l' ->
          (length l <= length l')%nat).
Proof. exact split_sizes_lemma. Qed.
Theorem C01_no_limit_single_tile : forall size mx, (mx <= 0)%Z -> get_split_sizes size mx = Ok [size].
Proof. exact split_sizes_unbounded. Qed.
Example C01_nontrivial : get_split_sizes 10 4 = Ok [4; 3; 3]%Z.
Proof. reflexivity. Qed.

(** C01 does not extend to empty dimensions: a size of 0 with a positive limit
    divides by zero. *)
Theorem C01_size_zero_raises_refuted :
  ~ (forall size mx, (0 <= size)%Z -> exists l, get_split_sizes size mx = Ok l).
Proof.
  intros H. destruct (H 0%Z 512%Z) as [l E]; [lia|].
  rewrite split_sizes_zero in E by lia. discriminate.
Qed.

(** C02/C03: for every shape, every limit on the physical tile sizes and every
    mapping configuration, after [set_weights(w, b)] on a freshly created array
    the array returns exactly [w, b], and its (noise free) output is [w x + b]:
    the tiling cannot be observed. *)
Theorem C02_array_set_get : forall c lr os is mo mi bias a w b x,
  (0 < os)%nat -> (0 < is)%nat ->
  tarray_new atile (at_new c lr) os is mo mi bias = Ok a ->
  shape os is w -> length b = os -> length x = is ->
  let a' := tarray_set_weights atile at_set a w (Some b) in
  tarray_get_weights atile at_get a' = (w, if bias then Some b else None)
  /\ tarray_forward atile at_fwd a' x = (if bias then vadd (matvec w x) b else matvec w x).
Proof. exact mapped_array_lemma. Qed.

(** ... and after any history of [set_weights] calls (a call without bias keeps the
    stored bias) the array returns what was last set and computes with it. *)
Theorem C03_array_history : forall c lr os is mo mi bias a hist x,
  (0 < os)%nat -> (0 < is)%nat ->
  tarray_new atile (at_new c lr) os is mo mi bias = Ok a ->
  Forall (wb_ok os is) hist -> length x = is ->
  let a' := set_all a hist in
  (forall w b h, hist = h ++ [(w, b)] ->
     tarray_get_weights atile at_get a'
     = (w, if bias then match b with
                        | Some v => Some v
                        | None => snd (tarray_get_weights atile at_get (set_all a h))
                        end else None))
  /\ tarray_forward atile at_fwd a' x =
      (let '(w, b) := tarray_get_weights atile at_get a' in
       match b with Some v => vadd (matvec w x) v | None => matvec w x end).
Proof. exact array_history_lemma. Qed.

(** C01: for positive sizes construction succeeds, and the grid of physical tiles
    has exactly the requested sizes, none above the configured maximum. *)
Theorem C01_array_new_total : forall c lr os is mo mi bias, (0 < os)%nat -> (0 < is)%nat ->
  exists a, tarray_new atile (at_new c lr) os is mo mi bias = Ok a
   /\ fold_right Nat.add 0%nat (ta_in_sizes a) = is /\ fold_right Nat.add 0%nat (ta_out_sizes a) = os
   /\ ((0 < mi)%Z -> forall s, In s (ta_in_sizes a) -> (0 < s)%nat /\ (Z.of_nat s <= mi)%Z)
   /\ ((0 < mo)%Z -> forall s, In s (ta_out_sizes a) -> (0 < s)%nat /\ (Z.of_nat s <= mo)%Z)
   /\ Forall2 (fun i row => Forall2 (fun o t => c_out (fst t) = o /\ c_in (fst t) = i) (ta_out_sizes a) row)
        (ta_in_sizes a) (ta_array a).
Proof. exact array_new_total. Qed.

Example C02_nonvacuous : exists a,
  tarray_new atile (at_new {| c_out := 0; c_in := 0; c_mapping := true; c_omega := 1; c_colwise := true;
     c_lrcomp := false; c_learn_out := true; c_out_colwise := true; c_bias := true; c_digital := true |} 1)
     3 5 2 2 true = Ok a
  /\ length (ta_array a) = 3%nat /\ map (@length _) (ta_array a) = [2; 2; 2]%nat.
Proof. eexists; split; [reflexivity|]. split; reflexivity. Qed.

Print Assumptions C01_split_sizes_partition.
Print Assumptions C01_no_limit_single_tile.
Print Assumptions C01_size_zero_raises_refuted.
Print Assumptions C02_array_set_get.
Print Assumptions C03_array_history.
Print Assumptions C01_array_new_total.
