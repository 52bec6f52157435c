(** * Pulsed devices: vocabulary of the theorems *)
From Verif Require Import Prelude Rand DevModel.

(** the cross point in row [i], column [j] *)
Definition cell_at (cs : list (list cell)) (i j : nat) : option cell :=
  match nth_error cs i with Some row => nth_error row j | None => None end.
(** The weight a device stores: with write noise it is not the visible one *)
Definition stored (mt : meta) (c : cell) : R := if Rltb 0 (m_wn mt) then c_p c else c_w c.
Definition within (x : xp) (w : R) : Prop := x_min x <= w <= x_max x.
(** what the tile constructor accepts (rpu_pulsed_device.h:106-110): write noise only for the
    devices that implement it; and a step size that is not negative *)
Definition accepted (mt : meta) (c : cell) : Prop := 0 <= m_dwmin mt /\ (0 < m_wn mt -> impl_wn (c_rule c) = true).
(** devices with a reference weight *)
Definition has_ref (r : rule) : Prop := match r with RPowRef _ _ _ | RSoftRef _ _ => True | _ => False end.
Definition is_hidden (r : rule) : Prop := match r with RHidden _ _ _ => True | _ => False end.
(** the range of the weights seen from outside: a pulse keeps weight plus reference in the
    bounds, all other operations the weight itself *)
Definition reference (r : rule) : R := match r with RPowRef _ _ ref => ref | RSoftRef _ ref => ref | _ => 0 end.
Definition in_range (c : cell) (w : R) : Prop :=
  x_min (c_x c) - Rmax (reference (c_rule c)) 0 <= w <= x_max (c_x c) - Rmin (reference (c_rule c)) 0.
(** hidden step devices check only the bound in the direction of the pulse *)
Definition hidden_ok (mt : meta) (c : cell) : Prop := is_hidden (c_rule c) -> m_std mt <= 0 /\ 0 <= x_up (c_x c) /\ 0 <= x_dn (c_x c).
(** clipping to an interval that meets the bounds *)
Definition clip_ok (c : cell) (o : op) : Prop := match o with OClip v => v < 0 \/ - v <= x_max (c_x c) | _ => True end.
(** all cross points of the device satisfy [P] *)
Definition every (P : cell -> Prop) (d : dev) : Prop := forall i j c, cell_at (d_cells d) i j = Some c -> P c.
(** the state reached by some draws after the calls [os] *)
Definition history (mt : meta) (d : dev) (os : list op) (d' : dev) : Prop := yields (foldMM (do_op mt) os d) d'.
(** [n] pulses in the same direction on one cross point *)
Definition pulses (mt : meta) (n : nat) (down : bool) (c : cell) : M cell := foldMM (fun c b => pulse mt b c) (repeat down n) c.

(** The update rule has the right sign between the bounds: the step size of a linear device is
    not negative there, and the table of a piecewise device is not negative *)
Definition sane_step (x : xp) (r : rule) : Prop :=
  0 <= x_up x /\ 0 <= x_dn x /\
  match r with
  | RLin _ sd su => forall w, within x w -> 0 <= su * w + x_up x /\ 0 <= sd * w + x_dn x
  | RPiece up dn => Forall (fun v => 0 <= v) up /\ Forall (fun v => 0 <= v) dn
  | _ => True
  end.

(** column [j] of [x_size] is one of the [n] columns starting at [start], cyclically *)
Definition addressed (x_size start n j : nat) : Prop := exists k, (k < n)%nat /\ j = ((start + k) mod x_size)%nat.

(** deterministic drift with the standard power law: no noise in the exponent, no read noise,
    exponent independent of the conductance; offsets below the tolerance count as zero *)
Definition offset (p : drift_par) : R := dp_goff p * dp_wg p + dp_woff p.
Definition plain_drift (p : drift_par) : Prop :=
  dp_nu_std p <= 0 /\ dp_k p = 0 /\ dp_read p <= 0 /\ 0 <= dp_tol p /\ (offset p = 0 \/ dp_tol p <= Rabs (offset p)).
(** the law: a weight programmed to [w0] is after time [t] (in units of [t0]) at *)
Definition drift_law (p : drift_par) (nu w0 t : R) : R :=
  let s := Rpower (Rmax t 1) (- nu) in w0 * s + offset p * (s - 1).
Definition nu_of (p : drift_par) (c : cell) : R := if dp_simple p then dp_nu p else c_nu c.

(** mirror image of a cross point: all weights negated, up and down exchanged *)
Definition mirror_xp (x : xp) : xp :=
  {| x_max := - x_min x; x_min := - x_max x; x_up := x_dn x; x_dn := x_up x;
     x_decay := x_decay x; x_diff := x_diff x; x_rbias := x_rbias x |}.
Definition mirror_of (c m : cell) : Prop :=
  c_w m = - c_w c /\ c_p m = - c_p c /\ c_h m = - c_h c /\ c_x m = mirror_xp (c_x c).

(** Two devices that differ at most in the visible weights *)
Definition same_stored (c c' : cell) : Prop :=
  c_x c = c_x c' /\ c_rule c = c_rule c' /\ c_p c = c_p c' /\ c_h c = c_h c' /\
  c_prev c = c_prev c' /\ c_w0 c = c_w0 c' /\ c_t c = c_t c' /\ c_nu c = c_nu c'.
Definition same_device (d d' : dev) : Prop :=
  Forall2 (Forall2 same_stored) (d_cells d) (d_cells d') /\ d_now d = d_now d' /\ d_fresh d = d_fresh d'.
