(** * Model of the analog forward and backward pass of RPUCuda (CPU)
    Sources: /repo/src/rpucuda/rpu_forward_backward_pass.cpp,
             rpu_pulsed_meta_parameter.h, rpu_pulsed_meta_parameter.cpp,
             utility_functions.h, rpu_pulsed.cpp, rpu.cpp.
    Vectors are lists (the strides [x_inc], [d_inc] only say where they are stored).  Numbers
    are reals; an infinite bound is [None]. *)
From Verif Require Import Prelude Rand CompModel PulseModel.

(** rpu_pulsed_meta_parameter.h:17-30 and 41-48 (the types that cannot be chosen from
    Python, and [SplitMode]/[BitWise] which are refused, are left out) *)
Inductive nmtype : Type := NmNone | NmAbsMax | NmNPSum | NmMax | NmConst | NmAverage.
Inductive bmtype : Type := BmNone | BmIter | BmWorst.
Inductive wntype : Type := WnNone | WnAdd | WnPcm.
Inductive mvtype : Type := MvIdeal | MvOne | MvSep | MvSepSum.

(** rpu_pulsed_meta_parameter.h:50-102 [IOMetaParameter] *)
Record fbio : Type := {
  f_perfect : bool; f_mv : mvtype; f_wn : wntype; f_irdrop : R; f_irG : R;
  f_voff_std : R; f_voff_vec : vec; f_wmin : R; f_rs : R; f_rsmax : option R;
  f_inp_asym : R; f_out_asym : R; f_wasym : R;
  f_inp_bound : option R; f_inp_res : R; f_inp_sto : bool; f_inp_noise : R;
  f_out_noise : R; f_out_noise_std : R; f_w_noise : R;
  f_out_bound : option R; f_out_res : R; f_out_sto : bool; f_out_scale : R;
  f_nl : R; f_nl_std : R; f_nl_vec : vec; f_slope : R;
  f_nm : nmtype; f_nm_thres : R; f_nm_wmax : R; f_nm_decay : R;
  f_bm : bmtype; f_bm_neg : bool; f_bm_factor : Z; f_bm_res : R }.
(** rpu_forward_backward_pass.h [MVParameter] *)
Record mvpar : Type := { v_off : vec; v_asym : vec; v_nl : vec; v_nlf : R; v_noise : vec }.

(** rpu_pulsed_meta_parameter.h:112-119 *)
Definition is_perf (p : fbio) : bool := f_perfect p || match f_mv p with MvIdeal => true | _ => false end.
Definition has_voff (p : fbio) : bool :=
  Rltb 0 (f_voff_std p) || Rltb 0 (f_rs p) || match f_voff_vec p with [] => false | _ => true end.
Definition has_nl (p : fbio) : bool :=
  (Rltb 0 (f_nl p) || match f_nl_vec p with [] => false | _ => true end) && negb (is_perf p).
Definition has_cal (p : fbio) : bool := has_nl p || Rltb 0 (f_rs p).

(** rpu_pulsed_meta_parameter.cpp:40-122 [initializeForForward], [initializeForBackward] for
    parameters that were not initialized before: [bwd] says which, [out] is the size of the
    output.  The bound of a raw parameter is a number, [None] stands for infinity after it. *)
Definition init_io (bwd : bool) (out : nat) (ib ob : R) (p : fbio) : res fbio :=
  if is_perf p then Ok {| f_perfect := true; f_mv := MvIdeal; f_wn := f_wn p; f_irdrop := f_irdrop p; f_irG := f_irG p;
    f_voff_std := f_voff_std p; f_voff_vec := f_voff_vec p; f_wmin := f_wmin p; f_rs := f_rs p; f_rsmax := f_rsmax p;
    f_inp_asym := f_inp_asym p; f_out_asym := f_out_asym p; f_wasym := f_wasym p;
    f_inp_bound := Some ib; f_inp_res := f_inp_res p; f_inp_sto := f_inp_sto p; f_inp_noise := f_inp_noise p;
    f_out_noise := f_out_noise p; f_out_noise_std := f_out_noise_std p; f_w_noise := f_w_noise p;
    f_out_bound := Some ob; f_out_res := f_out_res p; f_out_sto := f_out_sto p; f_out_scale := f_out_scale p;
    f_nl := f_nl p; f_nl_std := f_nl_std p; f_nl_vec := f_nl_vec p; f_slope := f_slope p;
    f_nm := f_nm p; f_nm_thres := f_nm_thres p; f_nm_wmax := f_nm_wmax p; f_nm_decay := f_nm_decay p;
    f_bm := f_bm p; f_bm_neg := f_bm_neg p; f_bm_factor := f_bm_factor p; f_bm_res := f_bm_res p |}
  else if match f_nm p with NmNone => false | _ => negb (Reqb ib 1) end then Raise RuntimeError
  else if match f_voff_vec p with [] => false | v => negb (Nat.eqb (length v) out) end then Raise RuntimeError
  else Ok {| f_perfect := false; f_mv := f_mv p; f_wn := f_wn p; f_irdrop := f_irdrop p; f_irG := f_irG p;
    f_voff_std := f_voff_std p; f_voff_vec := f_voff_vec p; f_wmin := f_wmin p; f_rs := f_rs p; f_rsmax := f_rsmax p;
    f_inp_asym := f_inp_asym p; f_out_asym := f_out_asym p; f_wasym := f_wasym p;
    f_inp_bound := if Rleb ib 0 then None else Some ib; f_inp_res := check_res (f_inp_res p) * (2 * ib);
    f_inp_sto := f_inp_sto p; f_inp_noise := f_inp_noise p;
    f_out_noise := f_out_noise p; f_out_noise_std := f_out_noise_std p; f_w_noise := f_w_noise p;
    f_out_bound := if Rleb ob 0 then None else Some ob; f_out_res := check_res (f_out_res p) * (2 * ob);
    f_out_sto := f_out_sto p; f_out_scale := f_out_scale p;
    f_nl := f_nl p; f_nl_std := f_nl_std p; f_nl_vec := f_nl_vec p; f_slope := f_slope p;
    f_nm := f_nm p; f_nm_thres := match f_nm p with NmNone => 0 | _ => f_nm_thres p end;
    f_nm_wmax := f_nm_wmax p; f_nm_decay := f_nm_decay p;
    f_bm := if bwd then BmNone else f_bm p; f_bm_neg := f_bm_neg p; f_bm_factor := f_bm_factor p; f_bm_res := f_bm_res p |}.

(** rpu_forward_backward_pass.cpp:254-317 [populate] of [populateFBParameter] *)
Definition populate_mv (p : fbio) (inp out : nat) : M mvpar :=
  vo <~ (if negb (Nat.eqb (length (f_voff_vec p)) out) && has_voff p
         then mapMM (fun _ => Gauss (fun g => Ret (Rmax (f_voff_std p * g) 0))) (seq 0 out)
         else Ret (f_voff_vec p)) ;;
  let ob := match f_out_bound p with Some b => if Rltb 0 b then b else 1 | None => 1 end in
  nl <~ (if has_cal p && negb (Nat.eqb (length (f_nl_vec p)) out)
         then mapMM (fun _ => Gauss (fun g => Ret (Rabs (f_nl p / ob * (1 + Rmax (f_nl_std p) 0 * g))))) (seq 0 out)
         else Ret (f_nl_vec p)) ;;
  let nlf := if Rltb 0 (f_slope p)
             then let s := if has_nl p then sumR (map Rabs (firstn out nl)) else 0 in
                  let f := 1 + (s / INR out + f_rs p) * f_slope p * ob in f * f
             else 1 in
  ws <~ (if negb (Reqb (f_wasym p) 0)
         then mapMM (fun _ => Gauss (fun g => Ret (1 + f_wasym p * g))) (seq 0 (out * inp))
         else Ret []) ;;
  no <~ (if Rltb 0 (f_out_noise_std p)
         then mapMM (fun _ => Gauss (fun g => Ret (Rabs (f_out_noise p * (1 + f_out_noise_std p * g))))) (seq 0 out)
         else Ret []) ;;
  Ret {| v_off := vo; v_asym := ws; v_nl := nl; v_nlf := nlf; v_noise := no |}.

(** ** Noise management *)
(** math_util.cpp [max] of a vector that is not empty *)
Definition listmax (x : vec) : R := match x with [] => 0 | a :: r => fold_left Rmax r a end.
Definition psum (x : vec) : R := sumR (map (fun v => if Rltb 0 v then v else 0) x).
Definition nsum (x : vec) : R := sumR (map (fun v => if Rltb v 0 then v else 0) x).
Definition thr (t a : R) : R := if Rltb 0 t then Rmin a t else a.
(** rpu_forward_backward_pass.cpp:156-181: the case AbsMaxNPSum *)
Definition npsum (p : fbio) (x : vec) : R :=
  let bound := match f_out_bound p with Some b => b | None => 1 end in
  let s := Rmax (psum x) (- nsum x) in
  let a := thr (f_nm_thres p) (maxabs x) in
  let n := s * f_nm_wmax p / bound in
  let n := if Rltb 0 (f_inp_res p) then Rmin (a / f_inp_res p * f_bm_res p) n else n in
  Rmax a n.
(** rpu_forward_backward_pass.cpp:113-185 [computeNoiseManagement]: the scale and the new value
    of [aux_nm_value_] *)
Definition noise_mgmt (p : fbio) (aux : R) (x : vec) : R * R :=
  match f_nm p with
  | NmNone => (1, aux)
  | NmAbsMax => (thr (f_nm_thres p) (maxabs x), aux)
  | NmConst => (if Rltb 0 (f_nm_thres p) then f_nm_thres p else 1, aux)
  | NmMax => (thr (f_nm_thres p) (listmax x), aux)
  | NmAverage =>
      let a := if Rltb aux 0 then maxabs x else aux * (1 - f_nm_decay p) + f_nm_decay p * maxabs x in (a, a)
  | NmNPSum => (npsum p x, aux)
  end.

(** ** Converters *)
(** utility_functions.h:186-210 [getDiscretizedValueSR] ([rintf] rounds half to even) *)
Definition disc_sr (sto : bool) (v rs : R) : M R :=
  if Rleb rs 0 then Ret v
  else if sto then Unif (fun u => Ret (IZR (rhe (v / rs + (u - 1/2))) * rs))
  else Ret (IZR (rhe (v / rs)) * rs).
Definition clip_o (b : option R) (v : R) : R :=
  match b with
  | None => v
  | Some b => let v := if Rltb b v then b else v in if Rltb v (- b) then - b else v
  end.
(** rpu_forward_backward_pass.cpp:572-603 [prepareInputImplStage4], one value *)
Definition prep_elem (p : fbio) (scale v : R) : M R :=
  v <~ disc_sr (f_inp_sto p) (v * scale) (f_inp_res p) ;;
  let v := clip_o (match f_inp_bound p with Some b => if Rltb 0 b then Some b else None | None => None end) v in
  v <~ (if Rltb 0 (f_inp_noise p) then Gauss (fun g => Ret (v + f_inp_noise p * g)) else Ret v) ;;
  Ret (if negb (Reqb (f_inp_asym p) 0) then (if Rltb v 0 then v * (1 - f_inp_asym p) else v) else v).
Definition prepare (p : fbio) (scale : R) (x : vec) : M vec := mapMM (prep_elem p scale) x.

Definition out_limit (p : fbio) : option R := match f_out_bound p with Some b => if Rltb 0 b then Some b else None | None => None end.
(** rpu_forward_backward_pass.cpp:663-685, output [i] before the bound.  The noise is drawn in
    all cases (line 753 passes [true] in both branches). *)
Definition fin_elem (p : fbio) (v : mvpar) (i : nat) (y : R) : M R :=
  let y := if has_cal p then v_nlf v * y / (1 + Rabs (nth i (v_nl v) 0 * y)) else y in
  let y := if Rltb 0 (f_out_asym p) then (if Rltb y 0 then y * (1 - f_out_asym p) else y) else y in
  let sd := if Rltb 0 (f_out_noise_std p) then nth i (v_noise v) 0 else f_out_noise p in
  Gauss (fun g => disc_sr (f_out_sto p) (y + sd * g) (f_out_res p)).
(** rpu_forward_backward_pass.cpp:687-698: the bound test, over the outputs in order *)
Definition bound_step (p : fbio) (ok : bool) (v : R) : bool :=
  match out_limit p with
  | None => ok
  | Some b => if Rltb b v then false else if Rltb v (- b) then negb (f_bm_neg p) else ok
  end.
Definition bound_test (p : fbio) (y : vec) : bool :=
  match f_bm p with BmNone => true | _ => fold_left (bound_step p) y true end.
(** rpu_forward_backward_pass.cpp:648-775 [finalizeOutput] *)
Definition finalize (p : fbio) (v : mvpar) (y : vec) : M (bool * vec) :=
  raw <~ mapMM (fun iy => fin_elem p v (fst iy) (snd iy)) (combine (seq 0 (length y)) y) ;;
  Ret (bound_test p raw, map (clip_o (out_limit p)) raw).

(** ** Non-idealities of the product *)
(** rpu_forward_backward_pass.cpp:505-528 [computeTotalCurrent]; [W] has a row per output *)
Definition total_current (W : mat) (x : vec) : vec := map (fun row => dot (map Rabs row) (map Rabs x)) W.
(** rpu_forward_backward_pass.cpp:384-429 [applyIrDrop] *)
Definition ir_drop (p : fbio) (W : mat) (x y : vec) : vec :=
  let n := INR (length x) in
  let a_scale := n / f_irG p in
  let c := map (fun cur => let a := a_scale * cur in a * (a * (5/100 * a - 2/10) + 5/10)) (total_current W x) in
  let xs := map2 (fun j v => let q := 1 - INR j / n in v * (1 - q * q)) (seq 0 (length x)) x in
  map2 (fun yi cd => yi - fst cd * (f_irdrop p * snd cd)) y (combine c (matvec W xs)).
(** rpu_forward_backward_pass.cpp:431-503 [applyVoltageOffsets], output [i] *)
Definition cap (m : option R) (a : R) : R := match m with None => a | Some b => Rmin a b end.
Definition volt_elem (p : fbio) (sx v y : R) : R :=
  let rs := Rmax (f_rs p) 0 in
  if Reqb (f_wmin p) 0 then
    if Rleb rs 0 then y * (1 - v) else (1 - v) * y / (1 + cap (f_rsmax p) (rs * Rabs y))
  else
    if Rleb rs 0 then y * (1 - v) - v * (- f_wmin p * sx * 2)
    else
      let yr := - f_wmin p * sx in
      let yp := y + yr in
      (1 - v) * yp / (1 + cap (f_rsmax p) (rs * Rabs yp)) - (1 + v) * yr / (1 + cap (f_rsmax p) (rs * Rabs yr)).
Definition volt (p : fbio) (v : mvpar) (x y : vec) : vec :=
  map (fun iy => volt_elem p (sumR x) (nth (fst iy) (v_off v) 0) (snd iy)) (combine (seq 0 (length y)) y).
(** rpu_forward_backward_pass.cpp:325-382 [applyOutputWeightNoise] *)
Definition wnoise_std (p : fbio) (x : vec) (row : vec) : R :=
  match f_wn p with
  | WnNone => 0
  | WnAdd => f_w_noise p * sqrt (dot x x)
  | WnPcm => f_w_noise p * sqrt (dot (map Rabs row) (map (fun v => v * v) x))
  end.
Definition wnoise (p : fbio) (W : mat) (x y : vec) : M vec :=
  match f_wn p with
  | WnNone => Ret y
  | _ => if Rltb 0 (f_w_noise p)
         then mapMM (fun ry : vec * R => Gauss (fun g => Ret (snd ry + wnoise_std p x (fst ry) * g))) (combine W y)
         else Ret y
  end.
(** rpu_forward_backward_pass.cpp:530-560, 779-798 [computeAnalogMVSinglePass] *)
Definition single_pass (p : fbio) (v : mvpar) (W : mat) (x : vec) : M vec :=
  let y := matvec W x in
  let y := if Rltb 0 (f_irdrop p) then ir_drop p W x y else y in
  let y := if has_voff p then volt p v x y else y in
  wnoise p W x y.

(** rpu_forward_backward_pass.cpp:801-894 [computeAnalogMV].  [W] has a row per output ([transposed]
    is applied before); [Wn] are the weights seen by negative inputs. *)
Definition neg_part (x : vec) : vec := map (fun v => if Rltb v 0 then v else 0) x.
Definition pos_part (x : vec) : vec := map (fun v => if Rltb 0 v then v else 0) x.
Definition analog_mv (p : fbio) (v : mvpar) (W Wn : mat) (scale : R) (x : vec) : M (bool * vec) :=
  x <~ prepare p scale x ;;
  match f_mv p with
  | MvOne => y <~ single_pass p v W x ;; finalize p v y
  | MvSep =>
      yn <~ single_pass p v Wn (neg_part x) ;;
      yp <~ single_pass p v W (pos_part x) ;;
      finalize p v (vadd yp yn)
  | MvSepSum =>
      yn <~ single_pass p v Wn (neg_part x) ;; bn <~ finalize p v yn ;;
      yp <~ single_pass p v W (pos_part x) ;; bp <~ finalize p v yp ;;
      Ret (fst bp && fst bn, vadd (snd bp) (snd bn))
  | MvIdeal => Throw RuntimeError
  end.
(** rpu_forward_backward_pass.cpp:838-848: the factors are stored as one list over the weights in
    row-major order, also those of the backward pass *)
Fixpoint flat_mul (W : mat) (f : vec) : mat :=
  match W with [] => [] | r :: W => map2 Rmult r (firstn (length r) f) :: flat_mul W (skipn (length r) f) end.
Definition neg_weights (p : fbio) (v : mvpar) (W : mat) : mat :=
  if Rltb 0 (f_wasym p) then flat_mul W (v_asym v) else W.

(** ** Forward and backward *)
(** rpu_forward_backward_pass.cpp:971-978: the bound management gives up *)
Definition bm_limit (p : fbio) (red : Z) : bool :=
  Z.ltb (f_bm_factor p) red || (Rltb 0 (f_inp_res p) && Rltb (f_bm_res p / f_inp_res p) (IZR red)).
Definition nm_on (p : fbio) : bool := match f_nm p with NmNone => false | _ => true end.
Definition bm_on (p : fbio) : bool := match f_bm p with BmNone => false | _ => true end.
(** rpu_forward_backward_pass.cpp:938-979: the loop.  [red] is the reduction of the round (a
    power of 2, so the conversion to int is exact), [round] the number of rounds done.  [fuel] bounds the
    rounds of the model; [None] is never returned (C96). *)
Fixpoint bm_loop (fuel : nat) (p : fbio) (v : mvpar) (W Wn : mat) (x : vec) (nmv : R) (red : Z) (round : nat)
  : M (option (nat * R * vec)) :=
  match fuel with
  | O => Ret None
  | S fuel =>
      let worst := Nat.eqb round 1 && match f_bm p with BmWorst => true | _ => false end
                   && match f_nm p with NmNPSum => false | _ => true end in
      let nmv := if worst then npsum p x else nmv in
      let red := if worst then 1%Z else red in
      let scale := (if nm_on p && Rltb 0 nmv then 1 / nmv else 1) / (if bm_on p then IZR red else 1) in
      r <~ analog_mv p v W Wn scale x ;;
      if negb (bm_on p) || (fst r || bm_limit p red) then Ret (Some (round, scale, snd r))
      else bm_loop fuel p v W Wn x nmv (2 * red) (S round)
  end.
Definition bm_fuel (p : fbio) : nat := (Z.to_nat (f_bm_factor p) + 4)%nat.
(** rpu_forward_backward_pass.cpp:900-985 [forwardVector]: the output and the new [aux_nm_value_] *)
Definition forward_vector (p : fbio) (v : mvpar) (W : mat) (aux alpha : R) (x : vec) : M (option (vec * R)) :=
  if is_perf p then Ret (Some (map (Rmult (f_out_scale p * alpha)) (matvec W x), aux))
  else
    let (nmv, aux') := noise_mgmt p aux x in
    if nm_on p && Rleb nmv 0 && Rleb (f_inp_noise p) 0 then Ret (Some (map (fun _ => 0) W, aux'))
    else
      r <~ bm_loop (bm_fuel p) p v W (neg_weights p v W) x nmv 1 0 ;;
      Ret (match r with
           | None => None
           | Some (_, scale, y) => Some (map (Rmult (f_out_scale p * alpha / scale)) y, aux')
           end).
(** rpu_forward_backward_pass.cpp:987-1030 [backwardVector]; [W] is the weight matrix with a row
    per output of the forward pass *)
Definition backward_vector (p : fbio) (v : mvpar) (W : mat) (aux alpha : R) (d : vec) : M (vec * R) :=
  let Wt := transposed W in
  if is_perf p then Ret (map (Rmult (f_out_scale p * alpha)) (matvec Wt d), aux)
  else
    let (nmv, aux') := noise_mgmt p aux d in
    if nm_on p && Rleb nmv 0 then Ret (map (fun _ => 0) Wt, aux')
    else
      r <~ analog_mv p v Wt (transposed (neg_weights p v W)) (1 / nmv) d ;;
      Ret (map (Rmult (f_out_scale p * alpha * nmv)) (snd r), aux').
