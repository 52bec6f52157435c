(** * Specification vocabulary for the analog MVM properties (no proofs) *)
From Verif Require Import Prelude MvmModel.

(** worst-case error of a quantizer (0 if switched off) *)
Definition qerr (res bound : R) (sto : bool) : R :=
  if Rltb 0 res then Rabs (quant_step res bound) * (if sto then 1 else 1/2) else 0.
Definition rounding_ok (rn : rnd) : Prop :=
  forall k i j, Rabs (r_qin rn k i j) <= 1/2 /\ Rabs (r_qout rn k i j) <= 1/2.
Definition noise_off (p : io) : Prop :=
  inp_noise_on p = false /\ out_noise_on p = false /\ inp_asym p = 0 /\ out_asym p = 0.

(** the factor by which inputs are scaled down: the largest input of the row, limited
    by [nm_thres] if that is positive (ABS_MAX noise management), [nm_thres] or 1
    (CONSTANT), or 1 (no noise management) *)
Definition range_of (p : io) (x : vec) : R :=
  match nm p with
  | NM_ABS_MAX => if Rltb 0 (nm_thres p) then Rmin (maxabs x) (nm_thres p) else maxabs x
  | NM_CONSTANT => if Rltb 0 (nm_thres p) then nm_thres p else 1
  | _ => 1
  end.
(** no quantizer with an infinite (zero) bound *)
Definition quant_defined (p : io) : Prop :=
  (0 < inp_res p -> inp_bound p <> 0) /\ (0 < out_res p -> out_bound p <> 0).
(** error of one output caused by the converters, in units of the crossbar *)
Definition conv_err (p : io) (row : vec) : R :=
  sumR (map Rabs row) * qerr (inp_res p) (inp_bound p) (inp_sto p) + qerr (out_res p) (out_bound p) (out_sto p).
(** the bound management must stop at reduction [red] *)
Definition limit_reached (p : io) (red : R) : Prop :=
  max_bm_factor p < red
  \/ (0 < inp_res p /\ 0 < quant_step (inp_res p) (inp_bound p) /\ max_bm_res p < red * quant_step (inp_res p) (inp_bound p)).
