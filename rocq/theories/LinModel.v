(** * Analog matrices for linear algebra, and estimating weights by reading
    Sources: /repo/src/aihwkit/linalg/matrix.py, /repo/src/aihwkit/simulator/parameters/mapping.py,
    /repo/src/aihwkit/simulator/tiles/array.py and periphery.py.  Tiles are ideal ([PeriModel.v]). *)
From Verif Require Import Prelude ArrayModel PeriModel ArrayPeri.

(** linalg/matrix.py:47-55: the object holds one tile, or an array of tiles *)
Inductive amat : Type := Single (t : atile) | Arr (a : tarray atile) (o i : nat).

(** parameters/mapping.py:142-162 [get_default_tile_module_class]: is it an array? (configurations with a tile
    array class) *)
Definition wants_array (mi mo : Z) (o i : nat) : bool :=
  if ((mi =? 0) && (mo =? 0))%Z%bool then false else ((mi <? Z.of_nat i) || (mo <? Z.of_nat o))%Z%bool.
(** linalg/matrix.py:35-56 [__init__] (not [realistic]); [c] holds the mapping parameters, [mi] and [mo] the largest
    sizes of a tile *)
Definition am_new (c : pcfg) (mi mo : Z) (lr : R) (o i : nat) (m : mat) : res amat :=
  if wants_array mi mo o i then
    a <- tarray_new atile (at_new c lr) o i mo mi false ;;
    Ok (Arr (tarray_set_weights atile at_set a m None) o i)
  else Ok (Single (at_set (at_new c lr o i) m)).
Definition am_out (a : amat) : nat := match a with Single t => c_out (fst t) | Arr _ o _ => o end.
Definition am_in (a : amat) : nat := match a with Single t => c_in (fst t) | Arr _ _ i => i end.
Definition all_len (n : nat) (X : list (list R)) : bool := forallb (fun x => length x =? n)%nat X.
(** :69-80 [__matmul__]; the input is a list of vectors (a vector is a list of one).  [numpy]: the input is a numpy
    array, and is moved to [self._tile.device], an attribute that arrays of tiles do not have *)
Definition am_matmul (numpy : bool) (a : amat) (X : list (list R)) : res (list (list R)) :=
  match a with
  | Single t => if all_len (c_in (fst t)) X then Ok (map (at_fwd t) X) else Raise RuntimeError
  | Arr ar _ i => if numpy then Raise AttributeError
                  else if all_len i X then Ok (map (tarray_forward atile at_fwd ar) X) else Raise RuntimeError
  end.
(** :82-93 [__rmatmul__]: [self._tile.backward]; arrays have no such method *)
Definition am_rmatmul (a : amat) (X : list (list R)) : res (list (list R)) :=
  match a with
  | Single t => if all_len (c_out (fst t)) X then Ok (map (backward (fst t) (snd t)) X) else Raise RuntimeError
  | Arr _ _ _ => Raise AttributeError
  end.
(** :117-134 [ger] *)
Definition am_ger (a : amat) (alpha : R) (xs ds : list (list R)) : res amat :=
  match a with
  | Single t =>
      if (all_len (c_in (fst t)) xs && all_len (c_out (fst t)) ds && (length xs =? length ds)%nat)%bool then
        Ok (Single (fst t, update_batch (fst t) (set_learning_rate (Some alpha) (snd t)) (combine xs (map (map Ropp) ds))))
      else Raise RuntimeError
  | Arr _ _ _ => Raise AttributeError
  end.
(** scipy's [LinearOperator.matmat] checks the number of rows of its argument (a matrix, given by its rows) and calls
    [_matmat] (:95-96), which is [self @ X] *)
Definition am_matmat (a : amat) (X : list (list R)) : res (list (list R)) :=
  if (length X =? am_in a)%nat then am_matmul true a X else Raise ValueError.

(** ** periphery.py:340-434 [read_weights]; [lstsq] stands for the solver of PyTorch: from the inputs and the outputs
    to the estimated matrix.  [n_default] is [in_size * over_sampling], the length of the column of ones. *)
Definition read_weights (c : pcfg) (t : ptile) (lstsq : list (list R) -> list (list R) -> mat) (apply : bool) (n_default : nat) (xs : list (list R)) : res (mat * option (list R)) :=
  let ys := map (forward c t) xs in
  let ys := match t_bias t with Some b => map (fun y => map2 Rminus y b) ys | None => ys end in
  if (analog_bias c && negb (length xs =? n_default)%nat)%bool then Raise RuntimeError
  else
    let xs' := if analog_bias c then map (fun x : list R => x ++ [1]) xs else xs in
    let '(w, b) := separate_weights c (lstsq xs' ys) in
    let b := if digital_bias c then t_bias t else b in
    if apply then Ok (w, b)
    else match get_scales t with
         | Some alpha => Ok (scale_rows (map Rinv alpha) w, if analog_bias c then option_map (bmul (map Rinv alpha)) b else b)
         | None => Ok (w, b)
         end.
