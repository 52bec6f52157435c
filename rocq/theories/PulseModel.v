(** * Model of the pulse train generation of the analog update
    Sources (all in /repo/src/rpucuda): rpu_pulsed_meta_parameter.{h,cpp},
    sparse_bit_line_maker.cpp, dense_bit_line_maker.cpp, rpu_weight_updater.cpp,
    utility_functions.h.  The pulses go to the devices of DevModel.v.  Numbers are reals,
    pulse numbers integers (no overflow). *)
From Verif Require Import Prelude Rand DevModel.

(** the pulse types that send pulses (rpu_pulsed_meta_parameter.h [PulseType]) *)
Inductive ptype : Type := Stochastic | StochasticCompressed | MeanCount | DeterministicImplicit.
(** [PulsedUpdateMetaParameter]: [pulse_type], [desired_BL], [fixed_BL],
    [update_bl_management], [update_management], [um_grad_scale], [res], [x_res_implicit],
    [d_res_implicit], [sto_round] *)
Record upar : Type := {
  up_type : ptype; up_BL : Z; up_fixed : bool; up_ublm : bool; up_um : bool; up_gs : R;
  up_res : R; up_xres : R; up_dres : R; up_sto : bool
}.
(** rpu_pulsed_meta_parameter.cpp:26-29 [checkRes] *)
Definition check_res (r : R) : R :=
  let r' := if Rltb r 0 then 0 else r in if Rltb 1 r' then 1 / r' else r'.
(** rpu_pulsed_meta_parameter.cpp:134-146 [initialize]: the results of the three calls of
    [checkRes] are discarded *)
Definition init_upar (u : upar) : upar :=
  {| up_type := up_type u; up_BL := up_BL u; up_fixed := up_fixed u; up_ublm := up_ublm u;
     up_um := (up_um u || up_ublm u)%bool; up_gs := up_gs u;
     up_res := up_res u; up_xres := up_xres u; up_dres := up_dres u; up_sto := up_sto u |}.

Definition ceilZ (x : R) : Z := (- floorZ (- x))%Z.
(** rpu_pulsed_meta_parameter.cpp:152-179 [calculateBlAB]: length of the pulse trains, factors A
    (for d) and B (for x); [g] is the weight granularity *)
Definition calc_bl (u : upar) (lr g : R) : res (Z * R * R) :=
  if Rltb lr 0 then Raise RuntimeError
  else if Reqb lr 0 then Ok (0%Z, 0, 0)
  else
    let fixed := let a := sqrt (lr / (g * IZR (up_BL u))) in (up_BL u, a, a) in
    if (up_fixed u || up_ublm u)%bool then Ok fixed
    else if Rltb (g * IZR (up_BL u)) lr then Ok (Z.max (ceilZ (lr / g)) 1, 1, 1)
    else Ok fixed.
(** rpu_pulsed_meta_parameter.cpp:181-231 [performUpdateManagement] with
    [max_BL = desired_BL] *)
Definition manage_bl (u : upar) (xmax dmax lr g : R) : res (Z * R * R) :=
  bab <- calc_bl u lr g ;;
  (if Rltb 0 lr then
     if (Reqb dmax 0 || Reqb xmax 0)%bool then Ok (0%Z, 1, 1)
     else if (up_ublm u || up_um u)%bool then
       let xv := xmax in
       let dv := up_gs u * dmax in
       let k := lr * xv * dv / g in
       let '(BL, A, B) :=
         if up_ublm u then
           let bl := Z.min (ceilZ k) (up_BL u) in
           let a := sqrt (lr / (g * IZR bl)) in (bl, a, a)
         else bab in
       if up_um u then
         let dv' := if Rltb (IZR (up_BL u)) k then dv * (IZR (up_BL u) / k) else dv in
         Ok (BL, A * sqrt (xv / dv'), B * sqrt (dv' / xv))
       else Ok (BL, A, B)
     else Ok bab
   else Ok bab).
(** utility_functions.h:277-286 [Find_Absolute_Max] is [maxabs];
    sparse_bit_line_maker.cpp:308-321 and dense_bit_line_maker.cpp:326-338 *)
Definition bl_ab (u : upar) (x d : vec) (lr g : R) : res (Z * R * R) :=
  if (up_ublm u || up_um u)%bool then manage_bl u (maxabs x) (maxabs d) lr g else calc_bl u lr g.

(** utility_functions.h:187-194 [getDiscretizedValue] ([rintf] rounds half to even) *)
Definition disc (v r : R) (sto : bool) : M R :=
  if Rleb r 0 then Ret v
  else if sto then Unif (fun u => Ret (IZR (rhe (v / r + (u - 1/2))) * r))
  else Ret (IZR (rhe (v / r)) * r).

(** ** Stochastic trains *)
(** The train of one element: sparse_bit_line_maker.cpp:147-197 [generateCountsPN], :200-238
    [generateCounts]; bit [k] says that the index is appended to list [k] *)
Definition train (P r : R) (sto : bool) (BL : nat) (v : R) : M (list bool) :=
  pp <~ disc (Rabs v * P) r sto ;;
  if Reqb pp 0 then Ret (repeat false BL)
  else mapMM (fun _ => Unif (fun u => Ret (Rltb u pp))) (seq 0 BL).
Definition trains (P r : R) (sto : bool) (BL : nat) (v : vec) : M (list (list bool)) := mapMM (train P r sto BL) v.
(** the indices of list [k] in order; an index is negated if its value is not positive *)
Definition firing (ts : list (list bool)) (k : nat) : list nat := filter (fun j => nth k (nth j ts []) false) (seq 0 (length ts)).
Definition is_pos (v : vec) (j : nat) : bool := Rltb 0 (nth j v 0).
(** sparse_bit_line_maker.cpp:330-358: for [Stochastic] the positive indices come first *)
Definition x_order (t : ptype) (x : vec) (js : list nat) : list nat :=
  match t with
  | Stochastic => filter (is_pos x) js ++ filter (fun j => negb (is_pos x j)) js
  | _ => js
  end.
(** rpu_weight_updater.cpp:256-290 with [PULSED_UPDATE_W_LOOP] (rpu_pulsed_device.h:450-459):
    the pulses of one time slot; [lr_sign], [d_sign] and [sign] as booleans (true is -1); a
    positive sign decreases the weight *)
Definition slot (t : ptype) (lr_neg : bool) (x d : vec) (xts dts : list (list bool)) (k : nat) : list (nat * nat * bool) :=
  flat_map (fun i =>
    let d_neg := if is_pos d i then lr_neg else negb lr_neg in
    map (fun j => let neg := if is_pos x j then d_neg else negb d_neg in (i, j, negb neg))
        (x_order t x (firing xts k))) (firing dts k).
Definition liftR {A} (m : res A) : M A := match m with Ok a => Ret a | Raise e => Throw e end.
Definition sparse_update (u : upar) (lr g : R) (x d : vec) : M (list (nat * nat * bool)) :=
  bab <~ liftR (bl_ab u x d (Rabs lr) g) ;;
  let '(BL, A, B) := bab in
  if (BL =? 0)%Z then Ret []
  else
    xts <~ trains B (up_res u) (up_sto u) (Z.to_nat BL) x ;;
    dts <~ trains A (up_res u) (up_sto u) (Z.to_nat BL) d ;;
    Ret (flat_map (slot (up_type u) (Rltb lr 0) x d xts dts) (seq 0 (Z.to_nat BL))).

(** ** Dense types *)
(** dense_bit_line_maker.cpp:144-173 [generateCountsMean], one element *)
Definition count_mean (P r : R) (sto : bool) (BL : Z) (lr v : R) : M Z :=
  let v' := if Rltb lr 0 then - v else v in
  pp <~ disc (Rabs v' * P) r sto ;;
  Ret (if Reqb pp 0 then 0%Z
       else let n := Z.max (Z.min (rhe (IZR BL * pp)) BL) 0 in if Rleb 0 v' then n else (- n)%Z).
(** dense_bit_line_maker.cpp:176-203 [generateCoincidences] *)
Definition coinc_mean (BL dc xc : Z) : Z := if (dc =? 0)%Z then 0%Z else rhe (IZR dc / IZR BL * IZR xc).
(** dense_bit_line_maker.cpp:209-235 [generateDetImplicit], one element *)
Definition det_implicit (P r : R) (sto : bool) (lr v : R) : M R :=
  let v' := if Rltb lr 0 then - v else v in
  pp <~ disc (Rabs v' * P) r sto ;;
  let q := Rmax (Rmin pp 1) 0 in Ret (if Rleb 0 v' then q else - q).
(** dense_bit_line_maker.cpp:237-263 [generateCoincidencesDetI] *)
Definition coinc_det (BL : Z) (dv xv : R) : Z := if Reqb dv 0 then 0%Z else rhe (dv * IZR BL * xv).
(** [PULSED_UPDATE_W_LOOP_DENSE] (rpu_pulsed_device.h:461-474) *)
Definition dense_pulses (cs : list (list Z)) : list (nat * nat * bool) :=
  flat_map (fun ir => flat_map (fun jc => repeat (fst ir, fst jc, (0 <? snd jc)%Z) (Z.abs_nat (snd jc))) (zipi (snd ir))) (zipi cs).
(** dense_bit_line_maker.cpp:268-331 [makeCoincidences], rpu_weight_updater.cpp:291-297 *)
Definition dense_update (u : upar) (lr g : R) (x d : vec) : M (list (nat * nat * bool)) :=
  bab <~ liftR (bl_ab u x d (Rabs lr) g) ;;
  let '(BL, A, B) := bab in
  match up_type u with
  | MeanCount =>
      xc <~ mapMM (count_mean B (up_res u) (up_sto u) BL lr) x ;;
      dc <~ mapMM (count_mean A (up_res u) (up_sto u) BL lr) d ;;
      Ret (dense_pulses (map (fun a => map (coinc_mean BL a) xc) dc))
  | _ =>
      xv <~ mapMM (det_implicit B (up_xres u) (up_sto u) lr) x ;;
      dv <~ mapMM (det_implicit A (up_dres u) (up_sto u) lr) d ;;
      Ret (dense_pulses (map (fun a => map (coinc_det BL a) xv) dv))
  end.
(** rpu_weight_updater.cpp:198-299 [updateVectorWithDevice] for devices that are updated with
    pulses: the pulses sent to the device *)
Definition update_pulses (u : upar) (lr g : R) (x d : vec) : M (list (nat * nat * bool)) :=
  if Reqb lr 0 then Ret []
  else match up_type u with
       | Stochastic | StochasticCompressed => sparse_update u lr g x d
       | _ => dense_update u lr g x d
       end.
(** the update of a crossbar with one pair of vectors; the granularity of a constant step
    device is [dw_min] (rpu_constantstep_device.h) *)
Definition update_vector (u : upar) (mt : meta) (lr : R) (x d : vec) (dv : dev) : M dev :=
  l <~ update_pulses u lr (m_dwmin mt) x d ;; do_op mt dv (OPulses l).
(** ... with a mini batch: one vector after the other (rpu_pulsed.cpp:559-577 and rpu.cpp:76-89
    [updateMatrix]) *)
Definition update_batch (u : upar) (mt : meta) (lr : R) (b : list (vec * vec)) (dv : dev) : M dev :=
  foldMM (fun s xd => update_vector u mt lr (fst xd) (snd xd) s) b dv.
