(** * Model of the analog matrix-vector product of torch tiles ([AnalogMVM])
    Sources: /repo/src/aihwkit/simulator/tiles/analog_mvm.py,
             /repo/src/aihwkit/simulator/tiles/utils.py *)
From Verif Require Import Prelude.

(** tiles/utils.py:38-40: the quantization step; [res > 1] means a number of steps *)
Definition norm_res (res : R) : R := if Rltb 1 res then 1 / res else res.
Definition quant_step (res bound : R) : R := norm_res res * (2 * bound).
(** tiles/utils.py:21-57 [UniformQuantize.forward]; [u] is the uniform rounding
    noise (0 when not stochastic). *)
Definition uquant (res bound u x : R) : R :=
  let s := quant_step res bound in IZR (rhe (x / s + u)) * s.

Inductive nm_type : Type := NM_NONE | NM_ABS_MAX | NM_CONSTANT | NM_MAX | NM_OTHER.

(** parameters/io.py:19-256 the fields of [IOParameters] the torch tile uses.
    Additive noise: only whether it is switched on matters here, its values are an
    arbitrary tensor (see [rnd]). *)
Record io : Type := {
  is_perfect : bool;        (* is_perfect, or mv_type == IDEAL *)
  inp_bound : R; inp_noise_on : bool; inp_res : R; inp_sto : bool; inp_asym : R;
  out_bound : R; out_noise_on : bool; out_res : R; out_sto : bool; out_asym : R;
  out_scale : R;
  bm_on : bool;             (* bound_management != NONE *)
  nm : nm_type; nm_thres : R;
  max_bm_factor : R; max_bm_res : R
}.

(** The random tensors drawn in bound management round [k], for batch row [i] and
    column [j]: input noise, output noise, and the two rounding noises. *)
Record rnd : Type := {
  r_in : nat -> nat -> nat -> R; r_out : nat -> nat -> nat -> R;
  r_qin : nat -> nat -> nat -> R; r_qout : nat -> nat -> nat -> R
}.

Fixpoint imap {A B} (f : nat -> A -> B) (i : nat) (l : list A) : list B :=
  match l with [] => [] | a :: r => f i a :: imap f (S i) r end.

(** a bound [<= 0] means no bound *)
Definition clampb (b v : R) : R := if Rltb 0 b then clampR (- b) b v else v.
Definition within (b v : R) : bool := if Rltb 0 b then Rleb (Rabs v) b else true.

(** torch [max] of a non-empty row *)
Definition rowmax (x : vec) : R := match x with [] => 0 | a :: r => fold_left Rmax r a end.
(** analog_mvm.py:327-358 [_compute_noise_management], for one row *)
Definition noise_management (p : io) (x : vec) : R :=
  let thr a := if Rltb 0 (nm_thres p) then Rmin a (nm_thres p) else a in
  match nm p with
  | NM_ABS_MAX => thr (maxabs x)
  | NM_MAX => thr (rowmax x)
  | NM_CONSTANT => if Rltb 0 (nm_thres p) then nm_thres p else 1
  | _ => 1
  end.
(** whether the value is a tensor (one value per row) or a Python number *)
Definition nm_tensor (p : io) : bool := match nm p with NM_ABS_MAX | NM_MAX => true | _ => false end.

(** analog_mvm.py:277-325 [_prepare_input], one row *)
Definition prepare_input (p : io) (rn : rnd) (k i : nat) (scale : R) (x : vec) : vec :=
  imap (fun j v =>
          let v := v * scale in
          let v := if Rltb 0 (inp_res p)
                   then uquant (inp_res p) (inp_bound p) (if inp_sto p then r_qin rn k i j else 0) v else v in
          let v := clampb (inp_bound p) v in
          let v := if inp_noise_on p then v + r_in rn k i j else v in
          if Rltb v 0 then v * (1 - inp_asym p) else v) 0 x.

(** analog_mvm.py:229-275 [_finalize_output], one row: before clipping *)
Definition finalize_raw (p : io) (rn : rnd) (k i : nat) (y : vec) : vec :=
  imap (fun j v =>
          let v := if Rltb v 0 then v * (1 - out_asym p) else v in
          let v := if out_noise_on p then v + r_out rn k i j else v in
          if Rltb 0 (out_res p)
          then uquant (out_res p) (out_bound p) (if out_sto p then r_qout rn k i j else 0) v else v) 0 y.

(** analog_mvm.py:169-227 [_compute_analog_mv] ([mv_type == ONE_PASS], 2-d weights).
    [scales] has the input scale of each row. *)
Definition analog_mv (p : io) (rn : rnd) (k : nat) (W : mat) (X : list vec) (scales : vec)
  : bool * list vec :=
  let raw := imap (fun i '(s, x) => finalize_raw p rn k i (matvec W (prepare_input p rn k i s x)))
                  0 (combine scales X) in
  (forallb (forallb (within (out_bound p))) raw, map (map (clampb (out_bound p))) raw).

(** final scaling: analog_mvm.py:109-111, 164-167 *)
Definition unscale (p : io) (scales : vec) (Y : list vec) : list vec :=
  map2 (fun s y => map (Rmult (out_scale p / s)) y) scales Y.

(** analog_mvm.py:113-162, the bound management loop. [red] is the value of
    [reduction_due_to_bound_management] before doubling; [fuel] bounds the number of
    rounds of the model only (C21 shows that it never runs out). *)
Fixpoint bm_loop (fuel : nat) (p : io) (rn : rnd) (W : mat) (X : list vec) (nms : vec) (k : nat) (red : R)
  : option (nat * vec * list vec) :=
  match fuel with
  | O => None
  | S fuel' =>
      let red := red * 2 in
      let scales := map (fun a => 1 / a / red) nms in
      let '(passed, Y) := analog_mv p rn k W X scales in
      let ires := norm_res (inp_res p) * (2 * inp_bound p) in
      if passed
         || Rltb (max_bm_factor p) red
         || (if Rltb 0 (inp_res p) then Rltb 0 ires && Rltb (max_bm_res p / ires) red else false)
      then Some (k, scales, Y)
      else bm_loop fuel' p rn W X nms (S k) red
  end.

(** Does a quantizer divide by zero?  [res > 0] with [bound == 0] (infinite bound) *)
Definition quant_div0 (p : io) : bool :=
  (Rltb 0 (inp_res p) && Reqb (inp_bound p) 0) || (Rltb 0 (out_res p) && Reqb (out_bound p) 0).

(** analog_mvm.py:48-167 [matmul].  [None]: fuel exhausted (see C21).  A quantizer
    with zero bound computes 0/0; this is modelled by [Raise ZeroDivisionError],
    torch returns NaN. *)
Definition matmul (fuel : nat) (p : io) (rn : rnd) (W : mat) (X : list vec) : option (res (list vec)) :=
  if is_perfect p then Some (Ok (map (matvec W) X))
  else match nm p with
  | NM_OTHER => Some (Raise ConfigError)
  | _ =>
    let nms := map (noise_management p) X in
    if negb (inp_noise_on p) && nm_tensor p && forallb (fun a => Reqb a 0) nms
    then Some (Ok (map (fun _ => map (fun _ => 0) W) X))
    else if quant_div0 p then Some (Raise ZeroDivisionError)
    else
      let nms := map (fun a => if Rleb a 0 then 1 else a) nms in
      if bm_on p then
        match bm_loop fuel p rn W X nms 0 (1/2) with
        | Some (_, scales, Y) => Some (Ok (unscale p scales Y))
        | None => None
        end
      else
        let scales := map (fun a => 1 / a) nms in
        Some (Ok (unscale p scales (snd (analog_mv p rn 0 W X scales))))
  end.
