(** * Quantized periphery
    Sources: /repo/src/aihwkit/simulator/tiles/periphery.py, tiles/quantized_inference_torch.py, tiles/array.py,
    parameters/pre_post.py, parameters/quantization.py *)
From Verif Require Import Prelude ConvModel QuantModel PeriModel.

(** pre_post.py:133-160 PeripheryQuantizationParameter *)
Record pquant := { pq_bits : Z; pq_sym : bool; pq_learn : bool; pq_after : Z }.
(** periphery.py:640-647: the quantizer: one range for all values; linear scale domain and eps of quantizers.py:108, 366 *)
Definition pq_cfg (c : pquant) : qcfg := {| qc_meth := if pq_sym c then Sym else Asym; qc_bits := Z.to_nat (pq_bits c); qc_log := false; qc_eps := / 100000000; qc_pc := false |}.
(** a quantizer with the counter of training batches *)
Record slot := { sl_man : qman; sl_idx : Z }.
(** periphery.py:626-665 [init_periph_quant_processing], array.py:240-257; one quantizer (None: no quantization) *)
Definition slot_new (c : pquant) : res (option slot) :=
  if (pq_bits c <=? 0)%Z then Ok None
  else if pq_learn c && (pq_after c <? 1)%Z then Raise AssertionError
  else m <- man_new (pq_cfg c) CurrentMinMax None ;; Ok (Some {| sl_man := m; sl_idx := 0 |}).
Definition slot_run (m : qman) (idx : Z) (x : vec) : res (vec * slot) := r <- man_forward m [x] ;; Ok (hd [] (fst r), {| sl_man := snd r; sl_idx := idx |}).
Definition learning (m : qman) : bool := match m_state m with Learn => true | _ => false end.
(** evaluation before any range is known: periphery.py:924-931, 1021-1028; array.py:292-296 *)
Definition slot_first (m : qman) (idx : Z) (x : vec) : res (vec * slot) :=
  r <- slot_run (m_with_state m Estimate) idx x ;;
  m' <- man_fix (sl_man (snd r)) ;;
  Ok (fst r, {| sl_man := m'; sl_idx := sl_idx (snd r) |}).
(** periphery.py:908-933 (scales) and :1003-1030 (bias).  The quantizer is a submodule of the tile: its training flag is the
    tile's, and [is_test] its negation (quantized_inference_torch.py:73, 79) *)
Definition slot_forward (c : pquant) (is_test : bool) (s : slot) (x : vec) : res (vec * slot) :=
  let m := m_with_train (sl_man s) (negb is_test) in
  if negb is_test then
    if negb (pq_learn c) then slot_run (m_with_state m EstimateTrain) (sl_idx s) x
    else if negb (learning m) then
      let idx := (sl_idx s + 1)%Z in
      if (pq_after c <? idx)%Z then slot_run (m_with_state m Learn) idx x
      else slot_run (m_with_state m EstimateTrain) idx x
    else slot_run m (sl_idx s) x
  else if negb (initialized (m_q m)) then slot_first m (sl_idx s) x
  else slot_run m (sl_idx s) x.
(** array.py:289-311: the same for the bias of a module array, without the calls of [estimate_ranges_train] *)
Definition arr_forward (c : pquant) (training : bool) (s : slot) (x : vec) : res (vec * slot) :=
  let m := m_with_train (sl_man s) training in
  if negb training && negb (initialized (m_q m)) then slot_first m (sl_idx s) x
  else if training && pq_learn c && negb (learning m) then
    let idx := (sl_idx s + 1)%Z in
    if (pq_after c <? idx)%Z then slot_run (m_with_state m Learn) idx x else slot_run m idx x
  else slot_run m (sl_idx s) x.
(** a step of the user's optimizer: the step size and the offset are parameters that require gradients once the ranges are
    learned (quantization_manager.py:109-111) *)
Definition slot_opt (f : qpar -> qpar) (s : slot) : slot :=
  if learning (sl_man s)
  then {| sl_man := m_with_q (sl_man s) {| qs_par := option_map (map f) (qs_par (m_q (sl_man s))); qs_signed := qs_signed (m_q (sl_man s)) |}; sl_idx := sl_idx s |}
  else s.
(** saving and loading into a new tile: step size, offset, sign, estimates and the counter are in the state dict
    (quantizers.py:111-112, 371-372, 185-212, 437-464; range_estimators.py:57-70; periphery.py:649), the state of the manager is not *)
Definition slot_reload (s : slot) : slot :=
  {| sl_man := {| m_cfg := m_cfg (sl_man s); m_est := m_est (sl_man s); m_cur := m_cur (sl_man s); m_q := m_q (sl_man s); m_state := EstimateTrain; m_train := true |}; sl_idx := sl_idx s |}.

(** ** The tile *)
(** periphery.py:886-904: input range, mapping scales and learned output scales together; scales with one element are broadcast *)
Definition merged (ir : option R) (ms los : option vec) : option vec :=
  let s := match ir with Some r => Some [r] | None => None end in
  let s := match ms, s with Some m, Some a => Some (bmul a m) | Some m, None => Some m | None, _ => s end in
  match los, s with Some l, Some a => Some (bmul a l) | Some l, None => Some l | None, _ => s end.
Record qtile := { qt_ir : option R; qt_ms : option vec; qt_los : option vec; qt_b : option vec; qt_scale : option slot; qt_bias : option slot }.
Definition qt_with (t : qtile) (s b : option slot) : qtile := {| qt_ir := qt_ir t; qt_ms := qt_ms t; qt_los := qt_los t; qt_b := qt_b t; qt_scale := s; qt_bias := b |}.
(** periphery.py:617-665; the bias is [None] without digital bias *)
Definition qt_new (c : pquant) (ir : option R) (ms los b : option vec) : res qtile :=
  s <- slot_new c ;;
  Ok {| qt_ir := ir; qt_ms := ms; qt_los := los; qt_b := b; qt_scale := s; qt_bias := match b with Some _ => s | None => None end |}.
Definition opt_forward (c : pquant) (is_test : bool) (s : option slot) (x : vec) : res (vec * option slot) :=
  match s with None => Ok (x, None) | Some s => r <- slot_forward c is_test s x ;; Ok (fst r, Some (snd r)) end.
(** quantized_inference_torch.py:61-83 [forward], from the output [y] of the simulated array for one sample on; [q] quantizes the
    activations (abstract) *)
Definition qt_forward (c : pquant) (q : vec -> vec) (is_test : bool) (t : qtile) (y : vec) : res (vec * qtile) :=
  r <- (match merged (qt_ir t) (qt_ms t) (qt_los t) with
        | None => Ok (y, qt_scale t)
        | Some a => r <- opt_forward c is_test (qt_scale t) a ;; Ok (bmul (fst r) y, snd r)
        end) ;;
  p <- (match qt_b t with
        | None => Ok (fst r, qt_bias t)
        | Some b => p <- opt_forward c is_test (qt_bias t) b ;; Ok (map2 Rplus (fst r) (fst p), snd p)
        end) ;;
  Ok (q (fst p), qt_with t (snd r) (snd p)).

(** ** Quantization configurations: quantization.py *)
Inductive estimator := EAll | ECurrent | ERunning | EMse | ECross.
(** an object given as parameters: the class of a parameter object, None, or something else *)
Inductive pobj := PFor (e : estimator) (values : nat) | PNone | POther.
Record qconf := { qf_est : estimator; qf_par : pobj }.
(** :71-80 [__post_init__]; 0: the default values *)
Definition conf_default (e : estimator) : pobj := match e with EAll => PNone | _ => PFor e 0 end.
Definition conf_new (e : estimator) : qconf := {| qf_est := e; qf_par := conf_default e |}.
(** :87-98 *)
Definition set_estimator (e : estimator) (c : qconf) : qconf := conf_new e.
Definition est_eqb (a b : estimator) : bool := match a, b with EAll, EAll | ECurrent, ECurrent | ERunning, ERunning | EMse, EMse | ECross, ECross => true | _, _ => false end.
(** config_utils.py:50-54: the class of the parameters for the cross entropy is a subclass of the one for MSE *)
Definition is_instance (e' e : estimator) : bool := est_eqb e e' || match e, e' with EMse, ECross => true | _, _ => false end.
(** :105-121: with allminmax the expected class is None; [isinstance(None, None)] is a TypeError, too *)
Definition set_params (p : pobj) (c : qconf) : res qconf :=
  match qf_est c, p with
  | EAll, _ => Raise TypeError
  | e, PFor e' v => if is_instance e' e then Ok {| qf_est := e; qf_par := p |} else Raise TypeError
  | _, _ => Raise TypeError
  end.
(** :132-158, :169-200 ActivationQuantConfig, WeightQuantConfig *)
Definition conf_user (e : estimator) (p : pobj) : res qconf := match p with PNone => Ok (conf_new e) | _ => set_params p (conf_new e) end.
