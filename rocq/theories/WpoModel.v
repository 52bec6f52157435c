(** * The weight programming optimizer
    Source: /repo/src/aihwkit/inference/converter/wpo.py (and the custom converter, [ConvModel.v]).
    Differential evolution of scipy is not modelled: it hands points of the hypercube to the functions below. *)
From Verif Require Import Prelude ConvModel.

(** the attributes of the optimizer (wpo.py:445-545) that the functions below read *)
Record wpo := {
  o_f : list (option R);         (* f_lst, None: to be optimized *)
  o_fmin : R; o_fmax : R;
  o_use_max_kw : bool;
  o_gmin : R; o_gmax : R; o_gerr : R;
  o_maxw : R;                    (* max_abs_weight_unitless *)
  o_nbins : nat;
  o_sym : bool }.
(** :542-544 [weights_discretized_unitless] *)
Definition discretized (d : wpo) : list R := grid (o_maxw d) (o_nbins d * 2 - 1).
Definition n_none (fs : list (option R)) : nat := length (filter (fun f => match f with None => true | Some _ => false end) fs).

(** :125-133: [None] factors are replaced by values from the first coordinates *)
Fixpoint fill_f (fmin fmax : R) (fs : list (option R)) (x : list R) : list (option R) :=
  match fs with
  | [] => []
  | Some f :: r => Some f :: fill_f fmin fmax r x
  | None :: r => match x with v :: x' => Some (v * (fmax - fmin) + fmin) :: fill_f fmin fmax r x' | [] => None :: fill_f fmin fmax r [] end
  end.
(** arithmetic on a factor that is still [None] is a TypeError *)
Definition all_some {A} (l : list (option A)) : res (list A) := mapM (fun o => match o with Some a => Ok a | None => Raise TypeError end) l.
(** :108-144 [partition_parameters] *)
Definition partition_parameters (d : wpo) (x : list R) : res (list R * R * list R) :=
  let fs := fill_f (o_fmin d) (o_fmax d) (o_f d) x in
  let x := skipn (n_none (o_f d)) x in
  xk <- (if o_use_max_kw d then Ok 1 else match x with v :: _ => Ok v | [] => Raise IndexError end) ;;
  let xg := if o_use_max_kw d then x else tl x in
  f <- all_some fs ;;
  let m := sumR (map (fun v => v * (o_gmax d - o_gmin d)) f) in
  let lo := 5 / 100 * m in
  let w_us_max := xk * (m - lo) + lo in
  Ok (f, w_us_max / o_maxw d, xg).

(** :147-165 [reformat_x_g]: slices of length [g_len] *)
Fixpoint chunks (fuel n : nat) (l : list R) : list (list R) :=
  match fuel with
  | O => []
  | S k => match l with [] => [] | _ => firstn n l :: chunks k n (skipn n l) end
  end.
Definition reformat (d : wpo) (xg : list R) (n_f : nat) : res (list (list R) * nat) :=
  let g_len := (length xg / (2 * n_f - 1))%nat in
  if (g_len =? 0)%nat then Raise ValueError
  else Ok (chunks (length xg) g_len xg, if o_sym d then (g_len * 2 - 1)%nat else g_len).

Definition at2 (rows : list (list R)) (a b : nat) : res R :=
  match nth_error rows a with
  | Some r => match nth_error r b with Some v => Ok v | None => Raise IndexError end
  | None => Raise IndexError
  end.
(** :331-366 of [denormalize]: the conductance pairs of one weight; [c] is what the remaining pairs must represent *)
Fixpoint pairs_of (d : wpo) (rows : list (list R)) (i : nat) (fs : list R) (j : nat) (c : R) : res (list (R * R)) :=
  match fs with
  | [] => Ok []
  | f :: r =>
      xg <- at2 rows (2 * j) i ;;
      xd <- (match r with [] => Ok 1 | _ => at2 rows (2 * j + 1) i end) ;;
      let span := f * (o_gmax d - o_gmin d) in
      let rest := sumR (map (fun v => v * (o_gmax d - o_gmin d)) r) in
      let lo := Rmax (c - rest) (- span) in
      let hi := Rmin (c + rest) span in
      let fd := xd * (hi - lo) + lo in
      if Reqb f 0 then Raise ZeroDivisionError
      else
        let delta := fd / f in
        let lo := o_gmin d + Rmax delta 0 - o_gerr d in
        let hi := o_gmax d + Rmin delta 0 + o_gerr d in
        let gp := Rmax (Rmin (xg * (hi - lo) + lo) (o_gmax d)) (o_gmin d) in
        let gm := Rmax (Rmin (gp - delta) (o_gmax d)) (o_gmin d) in
        ps <- pairs_of d rows i r (S j) (c - fd) ;;
        Ok ((gp, gm) :: ps)
  end.
(** the table [g_lst], by columns: one column (the pairs of one weight) is written for each weight, and with
    [symmetric] also the mirrored column, with exchanged conductances (:368-373).  Within an iteration the code writes
    the two columns pair by pair. *)
Fixpoint put_col {A} (k : nat) (v : A) (l : list (option A)) : res (list (option A)) :=
  match k, l with
  | O, _ :: r => Ok (Some v :: r)
  | S k', x :: r => r' <- put_col k' v r ;; Ok (x :: r')
  | _, [] => Raise IndexError
  end.
Definition swap_pair (p : R * R) : R * R := (snd p, fst p).
Fixpoint fill_cols (d : wpo) (rows : list (list R)) (fs : list R) (g_len : nat) (ws : list R) (i : nat) (cols : list (option (list (R * R)))) : res (list (option (list (R * R)))) :=
  match ws with
  | [] => Ok cols
  | w :: r =>
      ps <- pairs_of d rows i fs 0 w ;;
      cols <- put_col i ps cols ;;
      cols <- (if o_sym d then put_col (g_len - i - 1) (map swap_pair ps) cols else Ok cols) ;;
      fill_cols d rows fs g_len r (S i) cols
  end.
Definition rows_of (n_f : nat) (cols : list (list (R * R))) : list (list R) :=
  flat_map (fun j => [map (fun c => fst (nth j c (0, 0))) cols; map (fun c => snd (nth j c (0, 0))) cols]) (seq 0 n_f).
(** :305-374 [denormalize]; an entry that was never written is [None], which the converter cannot use (TypeError) *)
Definition denormalize (d : wpo) (x : list R) : res (list R * list (list R)) :=
  p <- partition_parameters d x ;;
  let '(fs, kw, xg) := p in
  let w_us := map (Rmult kw) (discretized d) in
  q <- reformat d xg (length fs) ;;
  let '(rows, g_len) := q in
  let w_us := if o_sym d then firstn (g_len / 2 + 1) w_us else w_us in
  cols <- fill_cols d rows fs g_len w_us 0 (repeat None g_len) ;;
  cols <- all_some cols ;;
  Ok (fs, rows_of (length fs) cols).
(** :547-565 [generate_hop_bounds]: the number of coordinates; every one is between 0 and 1 *)
Definition hop_dim (d : wpo) : nat :=
  let n := length (discretized d) in
  let n := if o_sym d then ((n + 1) / 2)%nat else n in
  let n := (n * (2 * length (o_f d) - 1) + n_none (o_f d))%nat in
  if o_use_max_kw d then n else (n + 1)%nat.

(** ** :52-77 [downsample_weight_distribution] of sorted weights, before shuffling: linear interpolation with aligned
    corners ([F.interpolate] of PyTorch) *)
Definition resample_at (s : list R) (n k : nat) : R :=
  if (n =? 1)%nat then nth 0 s 0
  else
    let pos := INR k * (INR (length s - 1) / INR (n - 1)) in
    let i0 := Z.to_nat (floorZ pos) in
    let lam := pos - INR i0 in
    let i1 := if (i0 <? length s - 1)%nat then S i0 else i0 in
    (1 - lam) * nth i0 s 0 + lam * nth i1 s 0.
Definition resample (s : list R) (n : nat) : list R := map (resample_at s n) (seq 0 n).

(** ** Losses *)
(** :207-229 of [loss_weights]; [effs] are the effective weights at the time steps, flat *)
Definition tnmse (w : list R) (maxw : R) (effs : list (list R)) : R :=
  sumR (map (fun e => sumR (map2 (fun a b => (10 * (a - b) / maxw) ^ 2) e w)) effs) / (INR (length w) * INR (length effs)).
Definition objective (baseline margin t : R) : R := (t - baseline) / baseline + margin.
(** :637 *)
Definition best_loss (baseline margin fun_ : R) : R := (fun_ - margin) * baseline + baseline.

(** ** The life of an optimizer; configurations are a converter and a mapping, [loss] is the loss that a simulation
    (its number is given) yields *)
Section Life.
  Context {conv mapping : Type} (loss : nat -> conv -> mapping -> R).
  Record optimizer := { z_conv : conv; z_map : mapping; z_saved : mapping; z_base : conv; z_factors : list (option R); z_baseline : R; z_best : R }.
  (** :456-470: output scales are switched off ([off]) in the copy of the configuration *)
  Definition z_new (off : mapping -> mapping) (c : conv) (m : mapping) (base : conv) (fs : list (option R)) : optimizer :=
    {| z_conv := c; z_map := off m; z_saved := m; z_base := base; z_factors := fs; z_baseline := 0; z_best := 0 |}.
  (** :567-598 [get_loss_baseline]: the configuration with the baseline converter is made but not used *)
  Definition get_loss_baseline (z : optimizer) (iters : nat) : R :=
    sumR (map (fun k => loss k (z_conv z) (z_map z)) (seq 0 iters)) / INR iters.
  (** Python values that may be returned as success *)
  Inductive flag := FTrue | FFloat (r : R).
  Definition truthy (f : flag) : bool := match f with FTrue => true | FFloat r => negb (Reqb r 0) end.
  (** :632-634 *)
  Definition success_flag (fun_ : R) : flag := if Rltb fun_ 0 then FTrue else FFloat fun_.
  (** :649-672 [run_optimizer]; [best] is the result of the search: the converter, its factors and its objective *)
  Definition run_optimizer (z : optimizer) (iters : nat) (margin : R) (best : optimizer -> R -> conv * list R * R) : optimizer * flag :=
    let b := get_loss_baseline z iters in
    let '(c, fs, v) := best z b in
    ({| z_conv := c; z_map := z_saved z; z_saved := z_saved z; z_base := z_base z; z_factors := map Some fs; z_baseline := b; z_best := best_loss b margin v |}, success_flag v).
End Life.
