(** * What the analog forward and backward pass should do (independent of the model's helpers) *)
From Verif Require Import Prelude Rand CompModel PulseModel FbModel.

Definition unlimited (b : option R) : Prop := match b with None => True | Some b => b <= 0 end.
(** the product on the crossbar is exact *)
Definition quiet_product (p : fbio) : Prop :=
  f_irdrop p <= 0 /\ f_voff_std p <= 0 /\ f_rs p <= 0 /\ f_voff_vec p = [] /\ (f_wn p = WnNone \/ f_w_noise p <= 0) /\ f_wasym p <= 0.
(** the input stage adds no noise and no asymmetry *)
Definition quiet_input (p : fbio) : Prop := f_inp_noise p <= 0 /\ f_inp_asym p = 0.
(** the output stage adds no noise, no asymmetry and no nonlinearity *)
Definition quiet_output (p : fbio) : Prop :=
  f_nl p <= 0 /\ f_nl_vec p = [] /\ f_rs p <= 0 /\ f_out_asym p <= 0 /\ f_out_noise p = 0 /\ f_out_noise_std p <= 0.
Definition quiet (p : fbio) : Prop := quiet_product p /\ quiet_input p /\ quiet_output p.
(** no converters, no bounds *)
Definition no_converters (p : fbio) : Prop :=
  f_inp_res p <= 0 /\ f_out_res p <= 0 /\ unlimited (f_inp_bound p) /\ unlimited (f_out_bound p).
(** the pass is computed on the crossbar *)
Definition on_crossbar (p : fbio) : Prop := f_perfect p = false /\ f_mv p <> MvIdeal.
(** the result of an exact matrix-vector product, scaled *)
Definition exact_mv (k : R) (W : mat) (x : vec) : vec := map (fun row => k * dot row x) W.
(** noise management has a positive value to divide by, unless the input is zero.  [aux] is the running
    average before the pass (negative before the first pass). *)
Definition zero_input (x : vec) : Prop := forall v, List.In v x -> v = 0.
Definition nm_works (p : fbio) (aux : R) (x : vec) : Prop :=
  match f_nm p with
  | NmMax => (exists v, List.In v x /\ 0 < v) \/ zero_input x
  | NmAverage => 0 <= f_nm_decay p <= 1 /\ (aux <> 0 \/ 0 < f_nm_decay p \/ zero_input x)
  | _ => True
  end.
(** a value passes a converter with bound [b] unclipped *)
Definition fits (b : option R) (v : R) : Prop := match b with None => True | Some b => b <= 0 \/ Rabs v <= b end.
(** the same tile without a bound on its outputs *)
Definition unbounded (p : fbio) : fbio :=
  {| f_perfect := f_perfect p; f_mv := f_mv p; f_wn := f_wn p; f_irdrop := f_irdrop p; f_irG := f_irG p;
    f_voff_std := f_voff_std p; f_voff_vec := f_voff_vec p; f_wmin := f_wmin p; f_rs := f_rs p; f_rsmax := f_rsmax p;
    f_inp_asym := f_inp_asym p; f_out_asym := f_out_asym p; f_wasym := f_wasym p;
    f_inp_bound := f_inp_bound p; f_inp_res := f_inp_res p; f_inp_sto := f_inp_sto p; f_inp_noise := f_inp_noise p;
    f_out_noise := f_out_noise p; f_out_noise_std := f_out_noise_std p; f_w_noise := f_w_noise p;
    f_out_bound := None; f_out_res := f_out_res p; f_out_sto := f_out_sto p; f_out_scale := f_out_scale p;
    f_nl := f_nl p; f_nl_std := f_nl_std p; f_nl_vec := f_nl_vec p; f_slope := f_slope p;
    f_nm := f_nm p; f_nm_thres := f_nm_thres p; f_nm_wmax := f_nm_wmax p; f_nm_decay := f_nm_decay p;
    f_bm := f_bm p; f_bm_neg := f_bm_neg p; f_bm_factor := f_bm_factor p; f_bm_res := f_bm_res p |}.
(** the largest error of a converter with step [rs] that rounds to the nearest step or stochastically *)
Definition conv_err (sto : bool) (rs : R) : R := if Rle_dec rs 0 then 0 else if sto then rs else rs / 2.
(** clipping at [+-b] *)
Definition clipped (b : option R) (v : R) : R :=
  match b with None => v | Some b => if Rle_dec b 0 then v else Rmax (- b) (Rmin b v) end.
(** a history of forward passes: the running average before, the inputs, the running average after *)
Inductive fwd_history (p : fbio) (v : mvpar) (W : mat) (alpha : R) : R -> list vec -> R -> Prop :=
| fh_nil aux : fwd_history p v W alpha aux [] aux
| fh_cons aux x y aux1 xs aux2 : yields (forward_vector p v W aux alpha x) (Some (y, aux1)) -> fwd_history p v W alpha aux1 xs aux2 ->
    fwd_history p v W alpha aux (x :: xs) aux2.
(** exponential moving average of [m0], [ms]: weight [d * (1-d)^age] for all but the first *)
Definition moving_average (d m0 : R) (ms : list R) : R :=
  (1 - d) ^ length ms * m0 + sumR (map (fun k => d * (1 - d) ^ (length ms - 1 - k) * nth k ms 0) (seq 0 (length ms))).
(** the same parameters with another kind of product *)
Definition with_mv (t : mvtype) (p : fbio) : fbio :=
  {| f_perfect := f_perfect p; f_mv := t; f_wn := f_wn p; f_irdrop := f_irdrop p; f_irG := f_irG p;
    f_voff_std := f_voff_std p; f_voff_vec := f_voff_vec p; f_wmin := f_wmin p; f_rs := f_rs p; f_rsmax := f_rsmax p;
    f_inp_asym := f_inp_asym p; f_out_asym := f_out_asym p; f_wasym := f_wasym p;
    f_inp_bound := f_inp_bound p; f_inp_res := f_inp_res p; f_inp_sto := f_inp_sto p; f_inp_noise := f_inp_noise p;
    f_out_noise := f_out_noise p; f_out_noise_std := f_out_noise_std p; f_w_noise := f_w_noise p;
    f_out_bound := f_out_bound p; f_out_res := f_out_res p; f_out_sto := f_out_sto p; f_out_scale := f_out_scale p;
    f_nl := f_nl p; f_nl_std := f_nl_std p; f_nl_vec := f_nl_vec p; f_slope := f_slope p;
    f_nm := f_nm p; f_nm_thres := f_nm_thres p; f_nm_wmax := f_nm_wmax p; f_nm_decay := f_nm_decay p;
    f_bm := f_bm p; f_bm_neg := f_bm_neg p; f_bm_factor := f_bm_factor p; f_bm_res := f_bm_res p |}.
