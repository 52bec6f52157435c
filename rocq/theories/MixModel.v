(** * Model of the mixed precision device
    Sources (all in /repo/src/rpucuda): rpu_mixedprec_device_base.{h,cpp}, rpu_mixedprec_device.{h,cpp}.
    The outer products of an update are summed in a digital matrix [chi]; the whole multiples of the
    granularity in [chi] are written to the device with pulses, row by row. *)
From Verif Require Import Prelude Rand DevModel PulseModel CompModel.

(** rpu_mixedprec_device.h:33-37, rpu_mixedprec_device_base.h:25-31: [n_x_bins], [n_d_bins],
    [stoc_round_x], [stoc_round_d], [transfer_every], [n_rows_per_transfer], [random_row],
    [transfer_lr], [granularity], [compute_sparsity] *)
Record mpar : Type := {
  mp_xb : Z; mp_db : Z; mp_stox : bool; mp_stod : bool; mp_every : Z; mp_rows : Z; mp_random : bool;
  mp_lr : R; mp_gran : R; mp_sparsity : bool
}.
(** rpu_mixedprec_device.cpp:37-45 [initialize] *)
Definition init_mpar (p : mpar) : mpar :=
  {| mp_xb := mp_xb p; mp_db := mp_db p; mp_stox := mp_stox p; mp_stod := mp_stod p; mp_every := mp_every p;
     mp_rows := mp_rows p; mp_random := mp_random p; mp_lr := mp_lr p; mp_gran := mp_gran p;
     mp_sparsity := if ((mp_db p <=? 0) || (mp_xb p <=? 0))%Z%bool then false else mp_sparsity p |}.
(** the device with its parameters, [chi_], [granularity_], [current_row_index_],
    [current_update_index_], [avg_sparsity_] *)
Record mstate : Type := { x_part : part; x_chi : mat; x_gran : R; x_row : nat; x_cnt : nat; x_avg : R }.
Definition with_chi (s : mstate) (p : part) (chi : mat) : mstate :=
  {| x_part := p; x_chi := chi; x_gran := x_gran s; x_row := x_row s; x_cnt := x_cnt s; x_avg := x_avg s |}.
Definition with_row (s : mstate) (r : nat) : mstate :=
  {| x_part := x_part s; x_chi := x_chi s; x_gran := x_gran s; x_row := r; x_cnt := x_cnt s; x_avg := x_avg s |}.
(** rpu_mixedprec_device_base.cpp:206-239 and rpu_mixedprec_device.cpp:141-147 [populate], for a
    pulsed device (its [getWeightGranularity] is [dw_min]) *)
Definition zeros_like {A} (m : list (list A)) : mat := map (map (fun _ => 0)) m.
Definition mix_make (p : mpar) (q : part) : res mstate :=
  let g := if Rltb 0 (mp_gran p) then mp_gran p else m_dwmin (fst q) in
  if Rleb g 0 then Raise RuntimeError
  else Ok {| x_part := q; x_chi := zeros_like (d_cells (snd q)); x_gran := g; x_row := 0; x_cnt := 0; x_avg := 0 |}.

(** ** The digital outer product: rpu_mixedprec_device.cpp:196-349 [doDirectVectorUpdate] *)
(** :210-231 half the number of bins (integer division) and the width of a bin *)
Definition half_bins (n : Z) : Z := (n / 2)%Z.
Definition bin_width (n : Z) (v : vec) : R := let w := maxabs v / IZR (half_bins n) in if Reqb w 0 then 1 else w.
(** :253-259, :274-280, :303-307, :325-329 ([RPU_ROUNDFUNF] is [rintf]) *)
Definition to_bin (sto : bool) (w v : R) : M Z :=
  s <~ (if sto then u <~ unif ;; Ret (u - 1/2) else Ret 0) ;; Ret (rhe (v / w + s)).
(** [MIN(MAX(x, -half_bins), half_bins) * width] *)
Definition from_bin (n : Z) (w : R) (k : Z) : R := IZR (Z.min (Z.max k (- half_bins n)) (half_bins n)) * w.
(** one entry of the loops :248-262 and :269-283; the number of bins is positive or the entry is
    kept *)
Definition quant (n : Z) (sto : bool) (w v : R) : M R :=
  if (0 <? n)%Z then k <~ to_bin sto w v ;; Ret (from_bin n w k) else Ret v.
(** [ger] *)
Definition ger (lr : R) (d x : vec) (chi : mat) : mat := map2 (fun dj row => map2 (fun xi c => c + lr * dj * xi) x row) d chi.
(** :291-345 the sparse product: the indices and values of the non zero entries of x; only the rows
    of [chi] where the rounded d is not 0 are changed *)
Definition nonzero (n : Z) (w : R) (ks : list Z) : list (nat * R) :=
  map (fun ik => (fst ik, from_bin n w (snd ik))) (filter (fun ik => negb (snd ik =? 0)%Z) (zipi ks)).
Definition add_sparse (lr qd : R) (qx : list (nat * R)) (row : vec) : vec :=
  fold_left (fun row iv => set_nth (fst iv) (nth (fst iv) row 0 + lr * qd * snd iv) row) qx row.
(** result: the new [chi] and the numbers [kx], [kd] of non zero entries.  In the second case the
    quantized entries of d are all written to [qd_[i]], where [i] is left at [x_size - 1] by the loop
    over x (:282); the other entries of [qd_] are never written and keep the 0 of the [resize];
    writing behind the end of [qd_] is undefined behaviour, here an exception, as is the division by 0
    for one bin. *)
Definition outer (p : mpar) (lr : R) (x d : vec) (chi : mat) : M (mat * nat * nat) :=
  let wx := bin_width (mp_xb p) x in
  let wd := bin_width (mp_db p) d in
  if ((mp_db p <=? 0) && (mp_xb p <=? 0))%Z%bool then Ret (ger lr d x chi, 0%nat, 0%nat)
  else if ((mp_xb p =? 1) || (mp_db p =? 1))%Z%bool then Throw ZeroDivisionError
  else if ((mp_db p <=? 0) || (mp_xb p <=? 0))%Z%bool then
    qx <~ mapMM (quant (mp_xb p) (mp_stox p) wx) x ;;
    qs <~ mapMM (quant (mp_db p) (mp_stod p) wd) d ;;
    if (length d <=? length x - 1)%nat then Throw IndexError
    else Ret (ger lr (set_nth (length x - 1) (last qs 0) (repeat 0 (length d))) qx chi, 0%nat, 0%nat)
  else
    kxs <~ mapMM (to_bin (mp_stox p) wx) x ;;
    kds <~ mapMM (to_bin (mp_stod p) wd) d ;;
    let qx := nonzero (mp_xb p) wx kxs in
    Ret (map2 (fun k row => if (k =? 0)%Z then row else add_sparse lr (from_bin (mp_db p) wd k) qx row) kds chi,
         length qx, length (filter (fun k => negb (k =? 0)%Z) kds)).

(** ** The transfer *)
(** rpu_mixedprec_device_base.cpp:290-301 [setUpPar] *)
Definition managed (u : upar) : upar :=
  {| up_type := up_type u; up_BL := up_BL u; up_fixed := up_fixed u; up_ublm := true; up_um := true;
     up_gs := up_gs u; up_res := up_res u; up_xres := up_xres u; up_dres := up_dres u; up_sto := up_sto u |}.
(** rpu_mixedprec_device.cpp:151-190 [forwardUpdate], one row *)
Definition mix_row (p : mpar) (u : upar) (s : mstate) (j : nat) : M mstate :=
  let g := x_gran s in
  let row := nth j (x_chi s) [] in
  let dw v := IZR (truncZ (v / g)) in
  d <~ update_vector (init_upar (managed u)) (fst (x_part s)) (g * mp_lr p) (map dw row) (unit_vec (length (x_chi s)) j) (snd (x_part s)) ;;
  Ret (with_chi s (fst (x_part s), d) (set_nth j (map (fun v => v - dw v * g) row) (x_chi s))).
Definition mix_rows (p : mpar) (u : upar) (j n : nat) (s : mstate) : M mstate :=
  if Reqb (mp_lr p) 0 then Ret s
  else if Rleb (x_gran s) 0 then Throw RuntimeError
  else foldMM (mix_row p u) (seq j n) s.
(** rpu_mixedprec_device_base.cpp:312-352 [transfer] *)
Definition n_rows (p : mpar) (m : nat) : nat := if (mp_rows p <? 0)%Z then m else Nat.min (Z.to_nat (mp_rows p)) m.
Definition mix_transfer (p : mpar) (u : upar) (s : mstate) : M mstate :=
  if ((mp_rows p =? 0)%Z || Reqb (Rabs (mp_lr p)) 0)%bool then Ret s
  else
    let m := length (x_chi s) in
    let n := n_rows p m in
    i0 <~ (if (mp_random p && (n <? m)%nat)%bool
           then v <~ unif ;; Ret (Z.to_nat (Z.max (Z.min (floorZ (v * INR m)) (Z.of_nat m - 1)) 0))
           else Ret (x_row s)) ;;
    let rest := (m - i0)%nat in
    s1 <~ (if (rest <? n)%nat then a <~ mix_rows p u i0 rest s ;; mix_rows p u 0 (n - rest) a
           else mix_rows p u i0 n s) ;;
    Ret (with_row s1 ((i0 + n) mod m)%nat).
(** :281-288 [doTransfer] *)
Definition mix_due (p : mpar) (mb cnt : nat) : bool :=
  let every := (mp_every p * Z.of_nat mb)%Z in
  ((0 <? every) && (0 <? Z.of_nat cnt) && (Z.of_nat cnt mod every =? 0))%Z%bool.
(** :303-310 [computeSparsity] *)
Definition next_avg (p : mpar) (cnt x_size d_size kx kd : nat) (a : R) : R :=
  if mp_sparsity p then
    (INR cnt * a + IZR ((Z.of_nat d_size - Z.of_nat kd) * (Z.of_nat x_size - Z.of_nat kx)) / INR (x_size * d_size)) / INR (cnt + 1)
  else a.
(** the update with one pair of vectors (rpu_weight_updater.cpp:198-215: nothing is done for
    learning rate 0) *)
Definition mix_update (p : mpar) (u : upar) (lr : R) (x d : vec) (mb : nat) (s : mstate) : M mstate :=
  if Reqb lr 0 then Ret s
  else
    r <~ outer p lr x d (x_chi s) ;;
    let '(chi, kx, kd) := r in
    let s0 := with_chi s (x_part s) chi in
    s1 <~ (if mix_due p mb (x_cnt s) then mix_transfer p u s0 else Ret s0) ;;
    Ret {| x_part := x_part s1; x_chi := x_chi s1; x_gran := x_gran s1; x_row := x_row s1; x_cnt := S (x_cnt s1);
           x_avg := next_avg p (x_cnt s1) (length x) (length d) kx kd (x_avg s1) |}.

(** ** The other calls of a tile *)
Inductive mop : Type :=
| MUpdate (u : upar) (lr : R) (x d : vec) (mb : nat)
| MOp (o : op).
(** rpu_mixedprec_device_base.cpp:354-366 with rpu_mixedprec_device.cpp:351-358 [onSetWeights], and
    rpu_mixedprec_device_base.cpp:454-487: decay, diffusion, clipping, drift and reset are done by the
    device.  ([OPulses] and [OFloat] do not occur: the update is direct.) *)
Definition mix_do (p : mpar) (s : mstate) (o : mop) : M mstate :=
  match o with
  | MUpdate u lr x d mb => mix_update p u lr x d mb s
  | MOp o =>
      q <~ part_op o (x_part s) ;;
      Ret (match o with
           | OSet _ => {| x_part := q; x_chi := zeros_like (x_chi s); x_gran := x_gran s; x_row := 0; x_cnt := 0; x_avg := 0 |}
           | _ => with_chi s q (x_chi s)
           end)
  end.
(** Saving and loading (/repo/src/aihwkit/simulator/tiles/base.py:656-665, :745-790) into a new tile:
    [set_hidden_parameters] calls rpu_mixedprec_device_base.cpp:423-429 [setDeviceParameter], which
    gives the parameters to the device and does not look at [hidden_weights_chi]; [set_weights] calls
    [onSetWeights]; [load_extra] (:262-278) restores the granularity and the counters *)
Definition mix_reload (p : mpar) (saved : mstate) : M mstate :=
  q <~ load_part (x_part saved) ;;
  s1 <~ mix_do p {| x_part := q; x_chi := zeros_like (x_chi saved); x_gran := x_gran saved; x_row := 0; x_cnt := 0; x_avg := 0 |} (MOp (OSet (vis (snd (x_part saved))))) ;;
  Ret {| x_part := (fst (x_part s1), put_vis (snd (x_part s1)) (vis (snd (x_part saved)))); x_chi := x_chi s1;
         x_gran := x_gran saved; x_row := x_row saved; x_cnt := x_cnt saved; x_avg := x_avg saved |}.
