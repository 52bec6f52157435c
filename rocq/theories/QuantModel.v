(** * Model of the digital quantizers
    Sources: /repo/src/aihwkit/simulator/digital_low_precision/quantizers.py,
             range_estimators.py, quantization_manager.py, base_quantized_classes.py,
             hijacker.py
    A tensor is a list of rows (the first dimension); per-tensor quantization does not
    distinguish them.  A division by zero is [Raise ArithmeticError] where torch has
    inf or NaN.  Only the forward pass is modelled, not the gradients; [axis],
    [n_groups] and [percentile] are left at their defaults. *)
From Verif Require Import Prelude ConvModel.

Inductive qmeth : Type := Asym | Sym.
(** arguments of the quantizer (quantizers.py:104-123, 360-377) *)
Record qcfg : Type := { qc_meth : qmeth; qc_bits : nat; qc_log : bool; qc_eps : R; qc_pc : bool }.
(** the parameters of one grid: [_delta] and [_zero_float] *)
Record qpar : Type := { qp_delta : R; qp_zf : R }.
(** state of a quantizer; [None] is the NaN placeholder *)
Record qst : Type := { qs_par : option (list qpar); qs_signed : option bool }.
Definition q_new : qst := {| qs_par := None; qs_signed := None |}.

(** quantizers.py:154-161, 402-409 *)
Definition int_min (c : qcfg) (signed : bool) : Z :=
  match qc_meth c with Asym => 0 | Sym => if signed then - 2 ^ (Z.of_nat (qc_bits c) - 1) else 0 end%Z.
Definition int_max (c : qcfg) (signed : bool) : Z :=
  match qc_meth c with
  | Asym => 2 ^ Z.of_nat (qc_bits c) - 1
  | Sym => 2 ^ (Z.of_nat (qc_bits c) - (if signed then 1 else 0)) - 1
  end%Z.
(** quantizers.py:163-168, 411-416 *)
Definition q_scale (c : qcfg) (p : qpar) : R := if qc_log c then exp (qp_delta p) else Rmax (qp_delta p) (qc_eps c).
(** quantizers.py:170-174, 418-420 *)
Definition q_zero (c : qcfg) (p : qpar) : Z :=
  match qc_meth c with
  | Asym => Z.min (Z.max (rhe (qp_zf p)) (int_min c false)) (int_max c false)
  | Sym => 0%Z
  end.
(** quantizers.py:176-182, 422-428: the limits of the grid *)
Definition q_xmax (c : qcfg) (sg : bool) (p : qpar) : R := q_scale c p * IZR (int_max c sg - q_zero c p).
Definition q_xmin (c : qcfg) (sg : bool) (p : qpar) : R := q_scale c p * IZR (int_min c sg - q_zero c p).
(** quantizers.py:223-239, 461-477 [to_integer_forward] *)
Definition to_int (c : qcfg) (sg : bool) (p : qpar) (x : R) : Z :=
  Z.min (Z.max (rhe (x / q_scale c p) + q_zero c p) (int_min c sg)) (int_max c sg).
(** quantizers.py:241-263, 479-501 [forward], one element *)
Definition q_one (c : qcfg) (sg : bool) (p : qpar) (x : R) : R :=
  q_scale c p * IZR (to_int c sg p x - q_zero c p).
(** broadcast of the parameters over the rows (_adjust_params_per_channel) *)
Definition q_apply (c : qcfg) (sg : bool) (ps : list qpar) (x : mat) : res mat :=
  match ps with
  | [p] => Ok (map (map (q_one c sg p)) x)
  | _ => if negb (Nat.eqb (length ps) (length x)) then Raise RuntimeError
         else Ok (map2 (fun p row => map (q_one c sg p) row) ps x)
  end.
Definition q_forward (c : qcfg) (s : qst) (x : mat) : res mat :=
  match qs_par s with
  | None => match qc_meth c with
            | Asym => Raise QuantizerNotInitializedError
            | Sym => if qc_pc c then Raise QuantizerNotInitializedError else Raise AssertionError
            end
  | Some ps =>
      match qc_meth c, qs_signed s with
      | Sym, None => Raise AssertionError
      | _, o => q_apply c (match o with Some b => b | None => false end) ps x
      end
  end.
(** quantizers.py:286-314, 524-552 [_tensorize_min_max]: the range always contains zero *)
Definition fix_min (m : R) : R := Rmin m 0.
Definition fix_max (eps m : R) : R := Rmax m eps.
(** the new delta and zero_float (quantizers.py:316-341, 554-566) *)
Definition q_par_asym (c : qcfg) (mn mx : R) : qpar :=
  let mn := fix_min mn in let mx := fix_max (qc_eps c) mx in
  let d := (mx - mn) / IZR (int_max c false) in
  {| qp_delta := if qc_log c then ln d else d; qp_zf := - mn / d |}.
Definition q_par_sym (c : qcfg) (sg : bool) (mn mx : R) : qpar :=
  let mn := fix_min mn in let mx := fix_max (qc_eps c) mx in
  let d := Rmax (Rabs mn) mx / IZR (int_max c sg) in
  {| qp_delta := if qc_log c then ln d else d; qp_zf := 0 |}.
(** [copy_] into the parameters (resized only if not initialized) *)
Definition q_copy (old : option (list qpar)) (new : list qpar) : res (list qpar) :=
  match old with
  | None => Ok new
  | Some o => if Nat.eqb (length o) (length new) then Ok new
              else match new with [p] => Ok (repeat p (length o)) | _ => Raise RuntimeError end
  end.
(** [set_quant_range] *)
Definition q_set (c : qcfg) (s : qst) (mns mxs : vec) : res qst :=
  if negb (Nat.eqb (length mns) (length mxs)) then Raise RuntimeError
  else if Nat.ltb 1 (length mns) && negb (qc_pc c) then Raise ValueError
  else
    let sg := match qc_meth c with Asym => false | Sym => Rltb (minlist (map fix_min mns)) 0 end in
    if Z.eqb (int_max c sg) 0 then Raise ArithmeticError
    else
      ps <- q_copy (qs_par s) (map2 (match qc_meth c with Asym => q_par_asym c | Sym => q_par_sym c sg end) mns mxs) ;;
      Ok {| qs_par := Some ps; qs_signed := match qc_meth c with Asym => None | Sym => Some sg end |}.

(** ** Range estimators (range_estimators.py) *)
Inductive est : Type := CurrentMinMax | AllMinMax | RunningMinMax (momentum : R).
(** min and max of a batch, per tensor or per row *)
Definition batch_min (pc : bool) (x : mat) : vec := if pc then map minlist x else [minlist (concat x)].
Definition batch_max (pc : bool) (x : mat) : vec := if pc then map maxlist x else [maxlist (concat x)].
Definition batch_empty (pc : bool) (x : mat) : bool :=
  if pc then existsb (fun r => match r with [] => true | _ => false end) x
  else match concat x with [] => true | _ => false end.
(** range_estimators.py:87-154, 161-179, 188-229; [None] before the first batch.  A batch
    with another number of rows does not broadcast. *)
Definition estimate (e : est) (pc : bool) (cur : option (vec * vec)) (x : mat) : res (vec * vec) :=
  if batch_empty pc x then Raise RuntimeError
  else
    let mn := batch_min pc x in let mx := batch_max pc x in
    match e, cur with
    | CurrentMinMax, _ => Ok (mn, mx)
    | _, None => Ok (mn, mx)
    | AllMinMax, Some (cmn, cmx) =>
        if negb (Nat.eqb (length mn) (length cmn)) then Raise RuntimeError
        else Ok (map2 Rmin cmn mn, map2 Rmax cmx mx)
    | RunningMinMax m, Some (cmn, cmx) =>
        if negb (Nat.eqb (length mn) (length cmn)) then Raise RuntimeError
        else Ok (map2 (fun c b => (1 - m) * b + m * c) cmn mn, map2 (fun c b => (1 - m) * b + m * c) cmx mx)
    end.

(** ** The manager (quantization_manager.py) *)
Inductive qstate : Type := Estimate | Fixed | Learn | EstimateTrain.
Record qman : Type := {
  m_cfg : qcfg; m_est : option est;        (* range_estimator; None if the range was given *)
  m_cur : option (vec * vec);              (* current_xmin, current_xmax of the estimator *)
  m_q : qst; m_state : qstate; m_train : bool }.
Definition m_with_q (m : qman) (q : qst) : qman :=
  {| m_cfg := m_cfg m; m_est := m_est m; m_cur := m_cur m; m_q := q; m_state := m_state m; m_train := m_train m |}.
Definition m_with_state (m : qman) (s : qstate) : qman :=
  {| m_cfg := m_cfg m; m_est := m_est m; m_cur := m_cur m; m_q := m_q m; m_state := s; m_train := m_train m |}.
Definition m_with_train (m : qman) (b : bool) : qman :=
  {| m_cfg := m_cfg m; m_est := m_est m; m_cur := m_cur m; m_q := m_q m; m_state := m_state m; m_train := b |}.
(** quantization_manager.py:52-93; modules start in training mode *)
Definition man_new (c : qcfg) (e : est) (range : option (vec * vec)) : res qman :=
  match range with
  | Some (mn, mx) => q <- q_set c q_new mn mx ;;
      Ok {| m_cfg := c; m_est := None; m_cur := None; m_q := q; m_state := Fixed; m_train := true |}
  | None => Ok {| m_cfg := c; m_est := Some e; m_cur := None; m_q := q_new; m_state := EstimateTrain; m_train := true |}
  end.
Definition initialized (q : qst) : bool := match qs_par q with Some _ => true | None => false end.
(** quantization_manager.py:119-135 [forward] *)
Definition man_forward (m : qman) (x : mat) : res (mat * qman) :=
  match m_est m with
  | None => Raise AttributeError
  | Some e =>
      let est := match m_state m with Estimate => true | EstimateTrain => m_train m | _ => false end in
      if est then
        r <- estimate e (qc_pc (m_cfg m)) (m_cur m) x ;;
        q <- q_set (m_cfg m) (m_q m) (fst r) (snd r) ;;
        y <- q_forward (m_cfg m) q x ;;
        Ok (y, {| m_cfg := m_cfg m; m_est := m_est m; m_cur := Some r; m_q := q; m_state := m_state m; m_train := m_train m |})
      else
        y <- q_forward (m_cfg m) (m_q m) x ;; Ok (y, m)
  end.
(** quantization_manager.py:99-117 *)
Definition man_fix (m : qman) : res qman :=
  if initialized (m_q m) then Ok (m_with_state m Fixed) else Raise QuantizerNotInitializedError.
Definition man_reset (m : qman) : res qman :=
  match m_est m with
  | None => Raise AttributeError
  | Some _ => Ok {| m_cfg := m_cfg m; m_est := m_est m; m_cur := None; m_q := q_new; m_state := EstimateTrain; m_train := m_train m |}
  end.

(** calls on a manager *)
Inductive mop : Type :=
| MForward (x : mat) | MTrain (b : bool) | MEstimate | MFix | MLearn | MEstimateTrain | MReset.
Definition man_step (m : qman) (o : mop) : qman :=
  match o with
  | MForward x => match man_forward m x with Ok (_, m') => m' | Raise _ => m end
  | MTrain b => m_with_train m b
  | MEstimate => m_with_state m Estimate
  | MFix => match man_fix m with Ok m' => m' | Raise _ => m end
  | MLearn => m_with_state m Learn
  | MEstimateTrain => m_with_state m EstimateTrain
  | MReset => match man_reset m with Ok m' => m' | Raise _ => m end
  end.

(** ** A layer with quantized weights (hijacker.py:66-90, base_quantized_classes.py:88-142).
    The weight quantizer is the manager [h_man]; its training mode is the one of the
    layer.  Only [get_params] is modelled; the bias is never quantized. *)
Record hij : Type := { h_w : mat; h_man : qman; h_quant : bool; h_caching : bool; h_cache : option mat }.
Definition h_with (h : hij) (man : qman) (cache : option mat) : hij :=
  {| h_w := h_w h; h_man := man; h_quant := h_quant h; h_caching := h_caching h; h_cache := cache |}.
Definition h_params (h : hij) : res (mat * hij) :=
  let training := m_train (h_man h) in
  match training, h_cache h with
  | false, Some w => Ok (w, h)
  | _, _ =>
      r <- (if h_quant h then man_forward (h_man h) (h_w h) else Ok (h_w h, h_man h)) ;;
      let cache := match h_cache h with
                   | None => if h_caching h && negb training then Some (fst r) else None
                   | Some c => Some c
                   end in
      Ok (fst r, h_with h (snd r) cache)
  end.
Inductive hop : Type :=
| HForward | HTrain (b : bool) | HQuant (b : bool) | HCaching (b : bool) | HApply
| HSgd (w : mat)                  (* an optimizer step, or load_state_dict: weights changed in place *)
| HMan (o : mop).                 (* learn_ranges, fix_ranges, ... on the weight quantizer *)
Definition h_step (h : hij) (o : hop) : hij :=
  match o with
  | HForward => match h_params h with Ok (_, h') => h' | Raise _ => h end
  | HTrain b => {| h_w := h_w h; h_man := m_with_train (h_man h) b; h_quant := h_quant h; h_caching := h_caching h;
                   h_cache := if b then None else h_cache h |}
  | HQuant b => {| h_w := h_w h; h_man := h_man h; h_quant := b; h_caching := h_caching h; h_cache := None |}
  | HCaching b => {| h_w := h_w h; h_man := h_man h; h_quant := h_quant h; h_caching := b; h_cache := if b then h_cache h else None |}
  | HApply => h_with h (h_man h) None
  | HSgd w => {| h_w := w; h_man := h_man h; h_quant := h_quant h; h_caching := h_caching h; h_cache := h_cache h |}
  | HMan o => h_with h (man_step (h_man h) o) (h_cache h)
  end.

(** ** MSE range estimator, one dimensional grid search (range_estimators.py:244-254,
    347-396), per tensor.  [mse_lim] and [mse_one] are fixed on the first batch. *)
Record mse : Type := { mse_one : bool; mse_lim : R; mse_loss : list R }.    (* losses of candidates 1 .. n *)
Definition sq_err (c : qcfg) (mn mx : R) (x : vec) : res R :=
  q <- q_set c q_new [mn] [mx] ;;
  y <- q_forward c q [x] ;;
  Ok (sumR (map2 (fun a b => (a - b) * (a - b)) x (concat y))).
Definition mse_thr (m : mse) (n k : nat) : R * R :=
  let p := mse_lim m / INR n * INR k in (if mse_one m then 0 else - p, p).
(** first index of a minimum, starting the search at candidate 1 *)
Fixpoint argmin_from (k : nat) (best : nat) (bv : R) (l : list R) : nat :=
  match l with
  | [] => best
  | v :: r => if Rltb v bv then argmin_from (S k) k v r else argmin_from (S k) best bv r
  end.
Definition argmin (l : list R) : nat := match l with [] => 0%nat | v :: r => argmin_from 2 1 v r end.
Definition mse_first (n : nat) (margin : R) (x : vec) : mse :=
  {| mse_one := Rleb 0 (minlist x); mse_lim := Rmax (Rabs (minlist x)) (maxlist x) + margin; mse_loss := repeat 0 n |}.
Definition mse_step (c : qcfg) (n : nat) (margin : R) (s : option mse) (x : vec) : res (mse * (R * R)) :=
  match x with
  | [] => Raise RuntimeError
  | _ =>
      let m := match s with None => mse_first n margin x | Some m => m end in
      ls <- mapM (fun kl => let '(mn, mx) := mse_thr m n (fst kl) in e <- sq_err c mn mx x ;; Ok (snd kl + e))
                 (combine (seq 1 n) (mse_loss m)) ;;
      let m' := {| mse_one := mse_one m; mse_lim := mse_lim m; mse_loss := ls |} in
      Ok (m', mse_thr m' n (argmin ls))
  end.
