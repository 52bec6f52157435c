(** * The soft bounds device that is parameterized by its pulse response
    Source: /repo/src/aihwkit/simulator/configs/devices.py:599-679 [SoftBoundsPmaxDevice].
    The device that is simulated is the soft bounds device of DevModel.v. *)
From Verif Require Import Prelude Rand DevModel.

(** devices.py:644-658 *)
Record pmax : Type := { px_p : Z; px_alpha : R; px_lo : R; px_hi : R }.
(** devices.py:673: [(range_max - range_min) / (1 - exp(-p_max * alpha))] *)
Definition b_factor (d : pmax) : R := (px_hi d - px_lo d) / (1 - exp (- IZR (px_p d) * px_alpha d)).
(** devices.py:666-679: all other parameters are those of the device, the four are overwritten *)
Definition as_soft_bounds (d : pmax) (q : ppar) : ppar :=
  {| pp_dwmin := b_factor d * px_alpha d; pp_dwmin_dtod := pp_dwmin_dtod q; pp_lognormal := pp_lognormal q;
     pp_wmin := px_lo d; pp_wmin_dtod := pp_wmin_dtod q; pp_wmax := px_lo d + b_factor d; pp_wmax_dtod := pp_wmax_dtod q;
     pp_updown := 1 + 2 * px_lo d / b_factor d; pp_updown_dtod := pp_updown_dtod q;
     pp_lifetime := pp_lifetime q; pp_lifetime_dtod := pp_lifetime_dtod q; pp_diff := pp_diff q; pp_diff_dtod := pp_diff_dtod q;
     pp_consistent := pp_consistent q; pp_perfect_bias := pp_perfect_bias q; pp_corrupt := pp_corrupt q; pp_corrupt_range := pp_corrupt_range q;
     pp_reset := pp_reset q; pp_reset_dtod := pp_reset_dtod q; pp_adjust := pp_adjust q; pp_adjust_dev := pp_adjust_dev q |}.
(** a cross point of this device *)
Definition pmax_cell (d : pmax) (q : ppar) (mult last : bool) : M (xp * rule) := populate_lin (as_soft_bounds d q) (soft_lpar mult) last.

(** ** The documented response (devices.py:610-622): the weight after [n] up pulses from [range_min], and after [n] down
    pulses from [range_max] ([p_max - n] of the documentation) *)
Definition documented_up (d : pmax) (n : nat) : R := b_factor d * (1 - exp (- px_alpha d * INR n)) + px_lo d.
Definition documented_down (d : pmax) (n : nat) : R := - b_factor d * (1 - exp (- px_alpha d * INR n)) + px_hi d.
