(** * Model of the pulsed devices of the simulator core
    Sources (all in /repo/src/rpucuda): rpu_pulsed_device.{h,cpp}, rpu_constantstep_device.cpp,
    rpu_linearstep_device.{h,cpp} (linear step and soft bounds), rpu_expstep_device.{h,cpp},
    rpu_powstep_device.cpp, rpu_powstep_reference_device.cpp, rpu_softbounds_reference_device.cpp,
    rpu_piecewisestep_device.{h,cpp}, rpu_hidden_device.cpp, weight_drifter.{h,cpp}.
    A crossbar is a list of rows of cells; a cell holds the parameters and the state of one
    cross point (the C++ keeps one d_size x x_size array per field).  Numbers are reals. *)
From Verif Require Import Prelude Rand.

(** Parameters common to all devices at one cross point: [w_max_bound_], [w_min_bound_],
    [w_scale_up_], [w_scale_down_], [w_decay_scale_], [w_diffusion_rate_], [w_reset_bias_]
    (rpu_pulsed_device.h:289-295) *)
Record xp : Type := { x_max : R; x_min : R; x_up : R; x_dn : R; x_decay : R; x_diff : R; x_rbias : R }.

(** The device class with its own parameters at the cross point.
    - [RConst]: ConstantStep
    - [RLin mult slope_dn slope_up]: LinearStep, SoftBounds
    - [RExp a b A_dn A_up gamma_dn gamma_up add slope]: ExpStep
    - [RPow gamma_dn gamma_up]: PowStep
    - [RPowRef gamma_dn gamma_up ref]: PowStepReference
    - [RSoftRef mult ref]: SoftBoundsReference
    - [RPiece up dn]: PiecewiseStep
    - [RHidden hs_dn hs_up hs_std]: HiddenStep *)
Inductive rule : Type :=
| RConst
| RLin (mult : bool) (slope_dn slope_up : R)
| RExp (a b A_dn A_up g_dn g_up std_add std_slope : R)
| RPow (g_dn g_up : R)
| RPowRef (g_dn g_up ref : R)
| RSoftRef (mult : bool) (ref : R)
| RPiece (up dn : vec)
| RHidden (hs_dn hs_up hs_std : R).

(** The parts of the meta parameters that the operations read: [dw_min], [dw_min_std],
    [write_noise_std], [apply_write_noise_on_set], [reset_std] *)
Record meta : Type := { m_dwmin : R; m_std : R; m_wn : R; m_wn_on_set : bool; m_rstd : R }.

(** State of a cross point: the visible weight, [w_persistent_], [hidden_weights_], and of the
    weight drifter [previous_weights_], [w0_], [t_], [nu_] *)
Record cell : Type := {
  c_x : xp; c_rule : rule;
  c_w : R; c_p : R; c_h : R;
  c_prev : R; c_w0 : R; c_t : R; c_nu : R
}.
Definition set_wp (c : cell) (w p : R) : cell :=
  {| c_x := c_x c; c_rule := c_rule c; c_w := w; c_p := p; c_h := c_h c;
     c_prev := c_prev c; c_w0 := c_w0 c; c_t := c_t c; c_nu := c_nu c |}.
Definition set_h (c : cell) (h : R) : cell :=
  {| c_x := c_x c; c_rule := c_rule c; c_w := c_w c; c_p := c_p c; c_h := h;
     c_prev := c_prev c; c_w0 := c_w0 c; c_t := c_t c; c_nu := c_nu c |}.
Definition set_drift (c : cell) (prev w0 t : R) : cell :=
  {| c_x := c_x c; c_rule := c_rule c; c_w := c_w c; c_p := c_p c; c_h := c_h c;
     c_prev := prev; c_w0 := w0; c_t := t; c_nu := c_nu c |}.

(** [implementsWriteNoise]: rpu_expstep_device.h:57, rpu_linearstep_device.h:64,
    rpu_piecewisestep_device.h:40, rpu_powstep_device.h:36,
    rpu_softbounds_reference_device.h:41; false otherwise (rpu_pulsed_device.h:102) *)
Definition impl_wn (r : rule) : bool :=
  match r with RLin _ _ _ | RExp _ _ _ _ _ _ _ _ | RPow _ _ | RSoftRef _ _ | RPiece _ _ => true | _ => false end.
(** rpu_pulsed_device.h:103 [usesPersistentWeight] *)
Definition persist (mt : meta) : bool := Rltb 0 (m_wn mt).
(** rpu_pulsed_device.h:104 [getScaledWriteNoise] *)
Definition scaled_wn (mt : meta) : R := m_wn mt * m_dwmin mt.

(** ** Hard bounds *)
(** [w = MIN(w, max_bound); w = MAX(w, min_bound)] *)
Definition bnd (x : xp) (w : R) : R := Rmax (Rmin w (x_max x)) (x_min x).
(** [w = MAX(w, min_bound); w = MIN(w, max_bound)] *)
Definition bnd' (x : xp) (w : R) : R := Rmin (Rmax w (x_min x)) (x_max x).

(** ** One pulse *)
(** [powf] on the base values that occur (0 <= base); simplified: [0^g] is 1 for [g = 0] and 0
    otherwise, a negative base gives 0 (NaN in C, which the bound check replaces by a bound) *)
Definition powf (b g : R) : R := if Rltb 0 b then Rpower b g else if Reqb g 0 then 1 else 0.
(** the pulse has no effect at all: rpu_expstep_device.cpp:33-34, 73-74,
    rpu_powstep_device.cpp:102-105, rpu_powstep_reference_device.cpp:125-128 *)
Definition skips (r : rule) (x : xp) : bool :=
  match r with
  | RExp _ _ _ _ _ _ _ _ => negb (Rltb 0 (x_max x - x_min x))
  | RPow _ _ | RPowRef _ _ _ => Reqb (x_max x - x_min x) 0
  | _ => false
  end.
(** rpu_expstep_device.cpp:35-45: the exponential step size factor *)
Definition exp_y (r : rule) (x : xp) (down : bool) (w : R) : R :=
  match r with
  | RExp a b Ad Au gd gu _ _ =>
      let z := 2 * w / (x_max x - x_min x) * a + b in
      if down then Rmax (1 - Ad * exp (gd * (- z))) 0 else Rmax (1 - Au * exp (gu * z)) 0
  | _ => 0
  end.
(** rpu_piecewisestep_device.cpp:46-77: the interpolated step size factor of one direction *)
Definition piece_f (v : vec) (x : xp) (w : R) : R :=
  let n := (length v - 1)%nat in
  if (Nat.eqb n 0 || Rleb (x_max x) (x_min x))%bool then nth 0 v 1
  else
    let ws := Rmax ((w - x_min x) / (x_max x - x_min x) * INR n) 0 in
    let idx := Nat.min (Z.to_nat (floorZ ws)) (n - 1) in
    let t := Rmin (ws - INR idx) 1 in
    (1 - t) * nth idx v 0 + t * nth (S idx) v 0.
(** The new value of the (persistent) weight before the bounds are applied; [down] is
    [sign > 0], [g] is the normal sample (the constant step device draws only if
    [dw_min_std > 0], see [pulse_w]).
    - constant: rpu_constantstep_device.cpp:38-54, 67-77
    - linear: rpu_linearstep_device.cpp:128-132 (mult), :156-160 (add)
    - exp: rpu_expstep_device.cpp:37-46; with additive or slope noise :76-88
    - pow: rpu_powstep_device.cpp:106-112; reference: rpu_powstep_reference_device.cpp:129-137
    - soft bounds reference: rpu_softbounds_reference_device.cpp:124-132 (mult), :162-170 (add);
      here [w] already includes the reference
    - piecewise: rpu_piecewisestep_device.cpp:46-77 *)
Definition raw_step (mt : meta) (r : rule) (x : xp) (down : bool) (w g : R) : R :=
  let n := 1 + m_std mt * g in
  match r with
  | RConst => if down then w - (if Rltb 0 (m_std mt) then n * x_dn x else x_dn x)
              else w + (if Rltb 0 (m_std mt) then n * x_up x else x_up x)
  | RLin true sd su => if down then w - (sd * w + x_dn x) * n else w + (su * w + x_up x) * n
  | RLin false sd su => if down then w - (sd * w + x_dn x * n) else w + (su * w + x_up x * n)
  | RExp _ _ _ _ _ _ add slope =>
      if (Rltb 0 (m_std mt) && (negb (Reqb slope 0) || negb (Reqb add 0)))%bool then
        let dw := if down then - exp_y r x down w * x_dn x else exp_y r x down w * x_up x in
        w + (dw + m_std mt * (Rabs dw + add + slope * Rabs w) * g)
      else if down then w - exp_y r x down w * n * x_dn x else w + exp_y r x down w * n * x_up x
  | RPow gd gu | RPowRef gd gu _ =>
      let range := x_max x - x_min x in
      if down then w - x_dn x * powf ((w - x_min x) / range) gd * n
      else w + x_up x * powf ((x_max x - w) / range) gu * n
  | RSoftRef mult _ =>
      let a := if down then (if Rltb (x_min x) 0 then w / x_min x else 0)
               else (if Rltb 0 (x_max x) then w / x_max x else 0) in
      if mult then (if down then w - x_dn x * (1 - a) * n else w + x_up x * (1 - a) * n)
      else (if down then w - x_dn x * (1 - a + m_std mt * g) else w + x_up x * (1 - a + m_std mt * g))
  | RPiece up dn =>
      if down then w - (piece_f dn x w * x_dn x) * n else w + (piece_f up x w * x_up x) * n
  | RHidden _ _ _ => w
  end.
Definition ref_of (r : rule) : R :=
  match r with RPowRef _ _ ref => ref | RSoftRef _ ref => ref | _ => 0 end.
(** one pulse on the weight itself: new weight, new hidden weight.
    Hidden step: rpu_hidden_device.cpp:69-94 *)
Definition pulse_w (mt : meta) (r : rule) (x : xp) (down : bool) (w h : R) : M (R * R) :=
  match r with
  | RConst =>
      if Rltb 0 (m_std mt) then Gauss (fun g => Ret (bnd x (raw_step mt r x down w g), h))
      else Ret (bnd x (raw_step mt r x down w 0), h)
  | RExp _ _ _ _ _ _ _ _ => Gauss (fun g => Ret (bnd x (raw_step mt r x down w g), h))
  | RLin _ _ _ | RPow _ _ | RPiece _ _ => Gauss (fun g => Ret (bnd' x (raw_step mt r x down w g), h))
  | RPowRef _ _ ref | RSoftRef _ ref => Gauss (fun g => Ret (bnd' x (raw_step mt r x down (w + ref) g) - ref, h))
  | RHidden hd hu hstd =>
      h1 <~ (let dh := if down then - hd else hu in
             if Reqb hstd 0 then Ret (h + dh) else Gauss (fun g => Ret (h + (1 + hstd * g) * dh))) ;;
      (if Rltb h1 (-1) then
         dw <~ (if Rltb 0 (m_std mt) then Gauss (fun g => Ret ((1 + m_std mt * g) * x_dn x)) else Ret (x_dn x)) ;;
         Ret (Rmax (w - dw) (x_min x), 0)
       else if Rltb 1 h1 then
         dw <~ (if Rltb 0 (m_std mt) then Gauss (fun g => Ret ((1 + m_std mt * g) * x_up x)) else Ret (x_up x)) ;;
         Ret (Rmin (w + dw) (x_max x), 0)
       else Ret (w, h1))
  end.
(** One pulse at a cross point ([PULSED_UPDATE_W_LOOP], rpu_pulsed_device.h:440-466): the devices
    with write noise work on [w_persistent_] if [usesPersistentWeight] and write the visible
    weight if the scaled write noise is positive (e.g. rpu_linearstep_device.cpp:136-138);
    SoftBoundsReference writes it always (rpu_softbounds_reference_device.cpp:139-143).  If the
    weight is not persistent, both names refer to the same number. *)
Definition pulse (mt : meta) (down : bool) (c : cell) : M cell :=
  if skips (c_rule c) (c_x c) then Ret c
  else if impl_wn (c_rule c) then
    wh <~ pulse_w mt (c_rule c) (c_x c) down (if persist mt then c_p c else c_w c) (c_h c) ;;
    (if Rltb 0 (scaled_wn mt) then
       WNoise (fun n => Ret (if persist mt then set_wp c (fst wh + scaled_wn mt * n) (fst wh)
                             else set_wp c (fst wh + scaled_wn mt * n) (c_p c)))
     else Ret (if persist mt then set_wp c (match c_rule c with RSoftRef _ _ => fst wh | _ => c_w c end) (fst wh)
               else set_wp c (fst wh) (c_p c)))
  else
    wh <~ pulse_w mt (c_rule c) (c_x c) down (c_w c) (c_h c) ;;
    Ret (set_h (set_wp c (fst wh) (c_p c)) (snd wh)).

(** ** Operations on the whole crossbar *)
(** rpu_pulsed_device.cpp:568-583 [applyUpdateWriteNoise], at one cross point *)
Definition renoise (mt : meta) (c : cell) : M cell :=
  if (impl_wn (c_rule c) && persist mt)%bool then
    if Rltb 0 (scaled_wn mt) then WNoise (fun n => Ret (set_wp c (c_p c + scaled_wn mt * n) (c_p c)))
    else Ret (set_wp c (c_p c) (c_p c))
  else Ret c.
(** [T *w = usesPersistentWeight() ? w_persistent_[0] : weights[0]] *)
Definition cur (mt : meta) (c : cell) : R := if persist mt then c_p c else c_w c.
Definition set_cur (mt : meta) (c : cell) (w : R) : cell := if persist mt then set_wp c (c_w c) w else set_wp c w (c_p c).

(** rpu_pulsed_device.cpp:391-421 [decayWeights(weights, alpha, bias_no_decay)]; the version
    without alpha (:360-388) is [alpha = 1].  [last] says that the cell is in the last column. *)
Definition decay_cell (mt : meta) (alpha : R) (keep_bias last : bool) (c : cell) : M cell :=
  let b := x_rbias (c_x c) in
  let s := if (keep_bias && last)%bool then 1 else 1 + alpha * (x_decay (c_x c) - 1) in
  renoise mt (set_cur mt c (bnd (c_x c) ((cur mt c - b) * s + b))).
(** rpu_pulsed_device.cpp:433-447 [diffuseWeights] *)
Definition diffuse_cell (mt : meta) (c : cell) : M cell :=
  Gauss (fun g => renoise mt (set_cur mt c (bnd (c_x c) (cur mt c + x_diff (c_x c) * g)))).
(** rpu_pulsed_device.cpp:449-468 [clipWeights] *)
Definition clip_cell (mt : meta) (v : R) (c : cell) : M cell :=
  let x := c_x c in
  renoise mt (set_cur mt c
    (if Rltb v 0 then bnd x (cur mt c)
     else Rmax (Rmin (cur mt c) (Rmin (x_max x) v)) (Rmax (x_min x) (- v)))).
(** rpu_pulsed_device.cpp:470-496 [resetCols]: the columns that are reset *)
Definition in_cols (x_size start n j : Z) : bool :=
  (((start + n <=? x_size) && (start <=? j) && (j <? start + n)) ||
   ((x_size <? start + n) && ((start <=? j) || (j <? n - (x_size - start)))))%Z%bool.
Definition reset_cell (mt : meta) (prob : R) (hit : bool) (c : cell) : M cell :=
  c1 <~ (if hit then
           do <~ (if Reqb prob 1 then Ret true else Unif (fun u => Ret (Rltb u prob))) ;;
           (if do then
              d <~ (if Rltb 0 (m_rstd mt) then Gauss (fun g => Ret (m_rstd mt * g)) else Ret 0) ;;
              Ret (set_cur mt c (bnd (c_x c) (x_rbias (c_x c) + d)))
            else Ret c)
         else Ret c) ;;
  renoise mt c1.
(** rpu_pulsed_device.cpp:541-566 [onSetWeights] after the weights have been overwritten by [w] *)
Definition set_cell (mt : meta) (c : cell) (w : R) : M cell :=
  let w' := bnd (c_x c) w in
  if persist mt then
    (if m_wn_on_set mt then renoise mt (set_wp c w' w') else Ret (set_wp c w' w'))
  else Ret (set_wp c w' (c_p c)).

(** ** Weight drift *)
(** weight_drifter.h:14-44 [DriftParameter] *)
Record drift_par : Type := {
  dp_nu : R; dp_nu_std : R; dp_wg : R; dp_goff : R; dp_woff : R; dp_k : R; dp_logG0 : R;
  dp_t0 : R; dp_tol : R; dp_read : R; dp_simple : bool
}.
(** weight_drifter.cpp:111-113: the offset [a] *)
Definition drift_a (p : drift_par) : R :=
  let a := dp_goff p * dp_wg p + dp_woff p in if Rltb (Rabs a) (dp_tol p) then 0 else a.
(** weight_drifter.cpp:119-147, one weight; [now] is the updated [current_t_] *)
Definition drift_one (p : drift_par) (now : R) (w prev w0 t nu_i : R) : M (R * R * R) :=
  wwt <~ (if Rltb (dp_tol p) (Rabs (prev - w)) then Ret (w, w, now)
          else
            nu <~ (let nu := if dp_simple p then dp_nu p else nu_i in
                   if Rleb (dp_nu_std p) 0 then Ret nu else Gauss (fun g => Ret (nu + dp_nu_std p * nu * g))) ;;
            (let nu' := if Reqb (dp_k p) 0 then nu
                        else nu - dp_k p * ln ((w - dp_woff p) / dp_wg p + dp_goff p) + dp_k p * dp_logG0 p in
             let sc := Rpower (Rmax (now - t) 1) (- nu') in
             let a := drift_a p in
             Ret ((if Reqb a 0 then w0 * sc else w0 * sc + a * (sc - 1)), w0, t))) ;;
  n <~ (if Rltb 0 (dp_read p) then Gauss (fun g => Ret (dp_read p * g)) else Ret 0) ;;
  Ret (fst (fst wwt) + n, snd (fst wwt), snd wwt).
(** rpu_pulsed_device.cpp:423-431 [driftWeights] with weight_drifter.cpp:89-97 [saturate].
    [fresh] says that the drifter has not been called before (weight_drifter.cpp:39-54 [initialize], :106-109). *)
Definition drift_cell (mt : meta) (p : drift_par) (fresh : bool) (now : R) (c0 : cell) : M cell :=
  let c := if fresh then set_drift c0 (cur mt c0) (cur mt c0) 0 else c0 in
  r <~ drift_one p now (cur mt c) (c_prev c) (c_w0 c) (c_t c) (c_nu c) ;;
  (let x := c_x c in
   let w := fst (fst r) in
   let sat v := Rmin (Rmax (x_min x) v) (x_max x) in
   renoise mt (set_cur mt (set_drift c (sat w) (snd (fst r)) (snd r)) (sat w))).

(** ** The device with its state: cells, [current_t_], whether the drifter is initialized *)
Record dev : Type := { d_cells : list (list cell); d_now : R; d_fresh : bool }.
Definition with_cells (d : dev) (cs : list (list cell)) : dev := {| d_cells := cs; d_now := d_now d; d_fresh := d_fresh d |}.
Definition zipi {A} (l : list A) : list (nat * A) := combine (seq 0 (length l)) l.
(** elementwise operation; the function gets the column number and the number of columns *)
Definition each (f : nat -> nat -> cell -> M cell) (cs : list (list cell)) : M (list (list cell)) :=
  mapMM (fun row => mapMM (fun jc => f (fst jc) (length row) (snd jc)) (zipi row)) cs.
Definition upd_nth {A} (n : nat) (f : A -> M A) : list A -> M (list A) :=
  let fix go n l := match n, l with
    | _, [] => Ret []
    | O, a :: r => b <~ f a ;; Ret (b :: r)
    | S n', a :: r => bs <~ go n' r ;; Ret (a :: bs)
    end in go n.
(** one pulse at row [i], column [j] *)
Definition pulse_at (mt : meta) (cs : list (list cell)) (p : nat * nat * bool) : M (list (list cell)) :=
  upd_nth (fst (fst p)) (upd_nth (snd (fst p)) (pulse mt (snd p))) cs.

(** The calls a tile makes to its device.  [OPulses] is a train of pulses, as produced by the
    weight updater (see PulseModel.v); [OFloat] is the floating point update [w += delta] of the
    visible weights followed by [clipWeights(-1)], which is what the updater does for pulse type
    [NoneWithDevice] (rpu_weight_updater.cpp:217-224). *)
Inductive op : Type :=
| OPulses (l : list (nat * nat * bool))
| ODecay (alpha : R) (keep_bias : bool)
| ODiffuse
| OClip (v : R)
| OReset (start n : Z) (prob : R)
| OSet (w : mat)
| ODrift (p : drift_par) (dt : R)
| OFloat (delta : mat).

Definition do_op (mt : meta) (d : dev) (o : op) : M dev :=
  match o with
  | OPulses l => cs <~ foldMM (pulse_at mt) l (d_cells d) ;; Ret (with_cells d cs)
  | ODecay alpha kb => cs <~ each (fun j n => decay_cell mt alpha kb (Nat.eqb j (n - 1))) (d_cells d) ;; Ret (with_cells d cs)
  | ODiffuse => cs <~ each (fun _ _ => diffuse_cell mt) (d_cells d) ;; Ret (with_cells d cs)
  | OClip v => cs <~ each (fun _ _ => clip_cell mt v) (d_cells d) ;; Ret (with_cells d cs)
  | OReset start n prob =>
      cs <~ each (fun j xs => reset_cell mt prob
                    (in_cols (Z.of_nat xs) start (if (0 <=? n)%Z then n else Z.of_nat xs) (Z.of_nat j))) (d_cells d) ;;
      Ret (with_cells d cs)
  | OSet w =>
      cs <~ mapMM (fun rw => mapMM (fun cw => set_cell mt (fst cw) (snd cw)) (combine (fst rw) (snd rw))) (combine (d_cells d) w) ;;
      Ret (with_cells d cs)
  | ODrift p dt =>
      let now := (if d_fresh d then 0 else d_now d) + dt / dp_t0 p in
      cs <~ each (fun _ _ => drift_cell mt p (d_fresh d) now) (d_cells d) ;;
      Ret {| d_cells := cs; d_now := now; d_fresh := false |}
  | OFloat delta =>
      cs <~ each (fun _ _ => clip_cell mt (-1))
              (map2 (map2 (fun c dw => set_wp c (c_w c + dw) (c_p c))) (d_cells d) delta) ;;
      Ret (with_cells d cs)
  end.

(** ** Construction *)
(** rpu_pulsed_device.h:53-95 [PulsedRPUDeviceMetaParameter] *)
Record ppar : Type := {
  pp_dwmin : R; pp_dwmin_dtod : R; pp_lognormal : bool;
  pp_wmin : R; pp_wmin_dtod : R; pp_wmax : R; pp_wmax_dtod : R;
  pp_updown : R; pp_updown_dtod : R;
  pp_lifetime : R; pp_lifetime_dtod : R; pp_diff : R; pp_diff_dtod : R;
  pp_consistent : bool; pp_perfect_bias : bool;
  pp_corrupt : R; pp_corrupt_range : R;
  pp_reset : R; pp_reset_dtod : R;
  pp_adjust : bool; pp_adjust_dev : R
}.
Definition gauss : M R := Gauss (fun g => Ret g).
Definition unif : M R := Unif (fun u => Ret u).
(** rpu_pulsed_device.cpp:619-648: bounds and step sizes; the last branch turns the weight off *)
Definition pop_bounds (p : ppar) (mx mn up dn : R) : R * R * R * R :=
  if pp_consistent p then
    let lo := if Rltb mx mn then mx else mn in
    let hi := if Rltb mx mn then mn else mx in
    (Rabs hi, - Rabs lo, Rabs up, Rabs dn)
  else if Rltb mx mn then let m := mx + (mn - mx) / 2 in (m, m, up, dn)
  else (mx, mn, up, dn).
(** rpu_pulsed_device.cpp:650-683 [adjust_bounds_with_up_down] *)
Definition pop_adjust (p : ppar) (q : R * R * R * R) : R * R * R * R :=
  if pp_adjust p then
    let '(mx0, mn0, up, dn) := q in
    let mx := if Rltb mx0 mn0 then mn0 else mx0 in
    let mn := if Rltb mx0 mn0 then mx0 else mn0 in
    let al := up / (up + dn) in
    let w := mx - mn in
    let lo := if Rltb 0 (pp_adjust_dev p) then - ((tanh ((al - 1/2) / pp_adjust_dev p) + 1) / 2) * w
              else if Rltb al (1/2) then 0 else if Reqb al (1/2) then - w / 2 else - w in
    (lo + w, lo, up, dn)
  else q.
(** rpu_pulsed_device.cpp:594-733 [populate], one cross point; [last] says that it is in the
    last column.  A user value [corrupt_devices_range] of +infinity is any large number here. *)
Definition populate (p : ppar) (last : bool) : M xp :=
  if (Rltb 0 (pp_wmin p) || Rltb (pp_wmax p) 0)%bool then Throw RuntimeError
  else
    let up_bias := if Rltb 0 (pp_updown p) then 0 else pp_updown p in
    let dn_bias := if Rltb 0 (pp_updown p) then - pp_updown p else 0 in
    g1 <~ gauss ;; g2 <~ gauss ;; g3 <~ gauss ;; g4 <~ gauss ;;
    let gain := if pp_lognormal p then exp (pp_dwmin_dtod p * g3) else 1 + pp_dwmin_dtod p * g3 in
    let r := pp_updown_dtod p * g4 in
    let q := pop_adjust p (pop_bounds p (pp_wmax p * (1 + pp_wmax_dtod p * g1)) (pp_wmin p * (1 + pp_wmin_dtod p * g2))
                             ((up_bias + gain + r) * pp_dwmin p) ((dn_bias + gain - r) * pp_dwmin p)) in
    u1 <~ unif ;;
    q2 <~ (if Rltb u1 (pp_corrupt p) then
             let '(mx, mn, _, _) := q in
             let lo := Rmax (Rmin mx mn) (- Rabs (pp_corrupt_range p)) in
             let hi := Rmin (Rmax mx mn) (Rabs (pp_corrupt_range p)) in
             u2 <~ unif ;; Ret (lo + (hi - lo) * u2, lo + (hi - lo) * u2, 0, 0)
           else Ret q) ;;
    let '(mx, mn, up, dn) :=
      if (pp_perfect_bias p && last)%bool then (100 * pp_wmax p, 100 * pp_wmin p, pp_dwmin p, pp_dwmin p) else q2 in
    g5 <~ gauss ;; g6 <~ gauss ;;
    dec <~ (if Rltb 0 (pp_lifetime p) then
              g7 <~ gauss ;;
              let t := pp_lifetime p * (1 + pp_lifetime_dtod p * g7) in
              Ret (if Rltb 1 t then 1 - 1 / t else 0)
            else Ret 1) ;;
    Ret {| x_max := mx; x_min := mn; x_up := up; x_dn := dn; x_decay := dec;
           x_diff := Rabs (pp_diff p * (1 + pp_diff_dtod p * g5)); x_rbias := pp_reset p + pp_reset_dtod p * g6 |}.

(** rpu_linearstep_device.h:16-31 and rpu_linearstep_device.cpp:21-74: the slopes of the linear
    step device *)
Record lpar : Type := {
  lp_dec_up : R; lp_dec_up_dtod : R; lp_dec_dn : R; lp_dec_dn_dtod : R;
  lp_incr : bool; lp_mean : bool; lp_rev_up : bool; lp_rev_dn : bool; lp_off : R; lp_mult : bool
}.
Definition populate_lin (p : ppar) (lp : lpar) (last : bool) : M (xp * rule) :=
  x <~ populate p last ;;
  (if ((lp_rev_up lp || lp_rev_dn lp) && negb (lp_mult lp))%bool then Throw RuntimeError
   else
     g1 <~ gauss ;; g2 <~ gauss ;;
     let du := lp_dec_up lp + lp_dec_up_dtod lp * g1 in
     let dd := lp_dec_dn lp + lp_dec_dn_dtod lp * g2 in
     let du := if lp_incr lp then du else Rabs du in
     let dd := if lp_incr lp then dd else Rabs dd in
     let mx := if lp_mean lp then pp_wmax p else x_max x in
     let mn := if lp_mean lp then pp_wmin p else x_min x in
     let ru := if lp_rev_up lp then mn - lp_off lp else mx in
     let rd := if lp_rev_dn lp then mx + lp_off lp else mn in
     Ret (x, RLin (lp_mult lp) (if Reqb rd 0 then 0 else - dd * x_dn x / rd)
                               (if Reqb ru 0 then 0 else - du * x_up x / ru))).
(** rpu_linearstep_device.h:70-83: the parameters of the soft bounds device *)
Definition soft_lpar (mult : bool) : lpar :=
  {| lp_dec_up := 1; lp_dec_up_dtod := 0; lp_dec_dn := 1; lp_dec_dn_dtod := 0; lp_incr := false; lp_mean := false;
     lp_rev_up := false; lp_rev_dn := false; lp_off := 1/100; lp_mult := mult |}.
(** rpu_softbounds_reference_device.cpp:21-70 [populate] *)
Record rpar : Type := { rp_su : R; rp_sd : R; rp_mean : R; rp_std : R; rp_mult : bool; rp_sym : bool }.
Definition populate_softref (p : ppar) (rp : rpar) (last : bool) : M (xp * rule) :=
  x <~ populate p last ;;
  mm <~ (if (Rltb 0 (x_max x) && Rltb (x_min x) 0)%bool then
           g1 <~ gauss ;; g2 <~ gauss ;;
           let sd := (- x_dn x / x_min x) * Rabs (1 + rp_sd rp * g1) in
           let su := (x_up x / x_max x) * Rabs (1 + rp_su rp * g2) in
           Ret (x_up x / su, - x_dn x / sd)
         else Ret (x_max x, x_min x)) ;;
  let '(mx, mn) := mm in
  g3 <~ gauss ;;
  let sp := if (rp_sym rp && (Rltb 0 mx && Rltb mn 0))%bool
            then (x_up x - x_dn x) / (x_up x / mx - x_dn x / mn) else 0 in
  Ret ({| x_max := mx; x_min := mn; x_up := x_up x; x_dn := x_dn x; x_decay := x_decay x; x_diff := x_diff x;
          x_rbias := x_rbias x + sp |}, RSoftRef (rp_mult rp) (rp_mean rp + rp_std rp * g3 + sp)).

(** ** Saving and restoring a tile *)
(** What a saved tile holds for a cross point: the visible weight, the hidden parameters
    (rpu_pulsed_device.cpp:235-286 [getDPNames], [getDeviceParameter] and those of the device class; the
    stored weight only if there is write noise, :250-252) and the state of the drifter
    (weight_drifter.cpp:68-80 [dumpExtra]): /repo/src/aihwkit/simulator/tiles/base.py:656-665 *)
Record saved : Type := {
  sv_w : R; sv_x : xp; sv_rule : rule; sv_h : R; sv_p : option R;
  sv_prev : R; sv_w0 : R; sv_t : R; sv_nu : R
}.
Definition save (mt : meta) (c : cell) : saved :=
  {| sv_w := c_w c; sv_x := c_x c; sv_rule := c_rule c; sv_h := c_h c; sv_p := if persist mt then Some (c_p c) else None;
     sv_prev := c_prev c; sv_w0 := c_w0 c; sv_t := c_t c; sv_nu := c_nu c |}.
(** base.py:745-790 on a new tile: [set_hidden_parameters] (rpu_pulsed_device.cpp:286-336
    [setDeviceParameter], which ends with [onSetWeights] on the weights of the new tile, :335; the
    adaptation of [dw_min], :326-332, is left out), [set_weights] ([onSetWeights] on the saved
    weights), [load_extra] (weight_drifter.cpp:82-93) *)
Definition load (mt : meta) (new : cell) (s : saved) : M cell :=
  let c1 := {| c_x := sv_x s; c_rule := sv_rule s; c_w := c_w new;
               c_p := match sv_p s with Some p => p | None => c_p new end; c_h := sv_h s;
               c_prev := c_prev new; c_w0 := c_w0 new; c_t := c_t new; c_nu := c_nu new |} in
  c2 <~ set_cell mt c1 (c_w new) ;;
  c3 <~ set_cell mt c2 (sv_w s) ;;
  Ret {| c_x := c_x c3; c_rule := c_rule c3; c_w := c_w c3; c_p := c_p c3; c_h := c_h c3;
         c_prev := sv_prev s; c_w0 := sv_w0 s; c_t := sv_t s; c_nu := sv_nu s |}.
(** rpu_pulsed_device.cpp:518-543 [copyInvertDeviceParameter]: called on the second device of a
    pair with the first one as argument (rpu_onesided_device.cpp:172-174).  The common
    parameters are mirrored in place, those of the other device are not looked at; the reset bias
    is not touched. *)
Definition copy_invert_xp (own src : xp) : xp :=
  {| x_max := - x_min own; x_min := - x_max own; x_up := x_dn own; x_dn := x_up own;
     x_decay := x_decay own; x_diff := x_diff own; x_rbias := x_rbias own |}.
(** "invert copy" sections: the slopes (rpu_linearstep_device.h:177-185), gammas
    (rpu_powstep_device.h:97-105, rpu_powstep_reference_device.h:123-132) and hidden step sizes
    (rpu_hidden_device.h:117-126) come from the other device, a reference is the own one negated
    (rpu_softbounds_reference_device.h:87-92); nothing is done for constant, exponential and
    piecewise steps (rpu_constantstep_device.h:51, rpu_expstep_device.h:83,
    rpu_piecewisestep_device.h:71), whose parameters are not per cross point *)
Definition copy_invert_rule (own src : rule) : rule :=
  match own, src with
  | RLin m _ _, RLin _ sd su => RLin m (- su) (- sd)
  | RPow _ _, RPow gd gu => RPow gu gd
  | RPowRef _ _ ref, RPowRef gd gu _ => RPowRef gu gd (- ref)
  | RSoftRef m ref, _ => RSoftRef m (- ref)
  | RHidden _ _ hs, RHidden hd hu _ => RHidden hu hd hs
  | _, _ => own
  end.
