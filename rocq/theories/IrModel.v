(** * Time-dependent IR drop
    Sources: /repo/src/aihwkit/simulator/tiles/analog_mvm_irdrop_t.py and the extension operator
    /repo/src/aihwkit/extension/extension_src/ops/thevenin_equiv_op.cpp.

    One input vector at a time (all operations are separate for the elements of a batch, except for
    the mean in the read noise, see [xdep]).  A weight matrix is a list of rows, one for each output;
    a row of it is a column of the crossbar.  Voltages are in V, conductances in uS, currents in uA,
    resistances in MOhm. *)
From Verif Require Import Prelude MvmModel ConvModel.
Local Open Scope R_scope.

Inductive mvt : Type := ONE_PASS | SPLIT_MODE | BIT_WISE | OTHER_MODE.
(** parameters/io.py:259-369 [IOParametersIRDropT] and the physical number of rows
    (torch_tile_irdrop_t.py:43); [o_ext]: whether the extension is installed *)
Record irp : Type := {
  o_ext : bool; o_mode : mvt; o_res : R; o_bound : R; o_drop : R; o_rs : R; o_segs : nat; o_tscale : R; o_vread : R;
  o_shift : nat; o_adc : bool; o_freq : R; o_isum : bool; o_phys : nat }.

(** analog_mvm_irdrop_t.py:59-71 [_get_res] *)
Definition get_res (p : irp) : res R := let r := norm_res (o_res p) in if Rltb 0 r then Ok r else Raise AssertionError.

(** one cell of a column: input, the two conductances *)
Record cell : Type := { k_x : R; k_p : R; k_m : R }.
Definition reg_eps : R := 1 / 10 ^ 12.
Definition micro : R := 1 / 10 ^ 6.

(** thevenin_equiv_op.cpp:48-57: the conductances at 0.6 V, 0.2 V and 0.4 V in time step [t], at a
    scaled input [x] *)
Definition at_pp (x t : R) (c : cell) : R := (if Rltb t x then k_p c else 0) + (if Rltb x (- t) then k_m c else 0).
Definition at_mm (x t : R) (c : cell) : R := (if Rltb t x then k_m c else 0) + (if Rltb x (- t) then k_p c else 0).
Definition at_zz (x t : R) (c : cell) : R := if Rleb (Rabs x) t then k_p c + k_m c else 0.
(** combining what is there with the next node (:65-72, analog_mvm_irdrop_t.py:411-415) *)
Definition parallel (rw : R) (vr vr2 : R * R) : R * R :=
  let r1 := snd vr + rw in let r2 := snd vr2 in
  let r := r1 * r2 / (r1 + r2) in ((fst vr / r1 + fst vr2 / r2) * r, r).
(** nodes from the far end to the ADC; no nodes: the zeros of the output tensor (:148) *)
Definition ladder (rw : R) (nodes : list (R * R)) : R * R :=
  match nodes with
  | [] => (0, 0)
  | n :: l => let vr := fold_left (parallel rw) l n in (fst vr, snd vr + 1 / 2 * rw)
  end.
(** :48-63, one cell.  A [t_max] of zero (possible only for inputs of zero) makes the scaled input NaN,
    and all comparisons false *)
Definition cpp_node (U : nat) (tmax : R) (t : nat) (c : cell) : R * R :=
  let x := k_x c / tmax * INR (U - 1) in
  let nan := Reqb tmax 0 in
  let pp := if nan then 0 else at_pp x (INR t) c in let mm := if nan then 0 else at_mm x (INR t) c in let zz := if nan then 0 else at_zz x (INR t) c in
  let gth := pp + mm + zz + reg_eps in
  let rth := 1 / gth in (((6 / 10) * pp + (2 / 10) * mm + (4 / 10) * zz) * rth, rth).
(** :17-79 [theveninEquivCPU] for one output and time step: voltage and resistance *)
Definition thev_cpp (U : nat) (tmax rs : R) (cells : list cell) (t : nat) : R * R := ladder (micro * rs) (map (cpp_node U tmax t) cells).

(** torch [linspace(0, t_max, U)] *)
Definition linspace0 (tmax : R) (U t : nat) : R := if (U =? 1)%nat then 0 else INR t * (tmax / INR (U - 1)).
Fixpoint chunks {A} (fuel m : nat) (l : list A) : list (list A) :=
  match fuel with O => [] | S f => match l with [] => [] | _ => firstn m l :: chunks f m (skipn m l) end end.
(** analog_mvm_irdrop_t.py:379-404, one segment *)
Definition py_node (tmax : R) (U t : nat) (seg : list cell) : R * R :=
  let tt := linspace0 tmax U t in
  let s f := sumR (map (fun c => f (k_x c) tt c) seg) in
  let pp := s at_pp in let mm := s at_mm in let zz := s at_zz in
  let gth := pp + mm + (zz + reg_eps) in
  (((6 / 10) * pp + (2 / 10) * mm + (4 / 10) * zz) / gth, 1 / gth).
(** :340-421 [_thev_equiv] without extension: the rows in [segs] segments of equal size; a [view] that
    does not fit and an index beyond the segments are errors.  [phys] rows are expected *)
Definition thev_py (U : nat) (tmax rs : R) (segs phys : nat) (cells : list cell) (t : nat) : res (R * R) :=
  let m := (phys / segs)%nat in
  if (negb (segs =? 0) && (m * segs =? phys)%nat)%nat%bool then
    if ((m =? 1) || (length cells mod m =? 0))%nat%bool then
      let nodes := map (py_node tmax U t) (chunks (length cells) m cells) in
      if (length nodes <? segs)%nat then Raise IndexError
      else Ok (ladder (micro * rs * INR m) (firstn segs nodes))
    else Raise RuntimeError
  else Raise (if (segs =? 0)%nat then ZeroDivisionError else AssertionError).
(** :340-366 *)
Definition thev (p : irp) (U : nat) (tmax rs : R) (cells : list cell) (t : nat) : res (R * R) :=
  let m := (o_phys p / o_segs p)%nat in
  if (o_segs p =? 0)%nat then Raise ZeroDivisionError
  else if negb (m * o_segs p =? o_phys p)%nat then Raise AssertionError
  else if o_ext p then Ok (thev_cpp U tmax rs cells t) else thev_py U tmax rs (o_segs p) (o_phys p) cells t.

(** torch [trapz] with unit steps *)
Fixpoint trapz (l : vec) : R := match l with a :: ((b :: _) as r) => (a + b) / 2 + trapz r | _ => 0 end.
(** analog_mvm_irdrop_t.py:500-507: the integral of the currents; without [ir_drop_integration_sum] the first
    one is put twice (which fails if there is none) *)
Definition integrate (p : irp) (i : vec) : res R :=
  if o_isum p then Ok (sumR i) else match i with [] => Raise IndexError | a :: _ => Ok (trapz (a :: i)) end.
(** :279-293 [_apply_adc_quantization] *)
Definition adc (freq v : R) : R := IZR (truncZ (v / 100 * freq)) * 100 / freq.
(** :488-510, one output: the integrated current *)
Definition column (p : irp) (U : nat) (tmax : R) (cells : list cell) : res R :=
  bind (mapM (fun t => bind (thev p U tmax (o_drop p * o_rs p) cells t) (fun vr => Ok ((fst vr - o_vread p) / snd vr))) (seq 0 U)) (fun i =>
  bind (integrate p i) (fun v => Ok (if o_adc p then adc (o_freq p) v else v))).

Fixpoint mkcells (x gp gm : list R) : list cell :=
  match x, gp, gm with a :: x', b :: gp', c :: gm' => {| k_x := a; k_p := b; k_m := c |} :: mkcells x' gp' gm' | _, _, _ => [] end.
Fixpoint evens {A} (l : list A) : list A := match l with a :: l' => a :: match l' with _ :: l'' => evens l'' | [] => [] end | [] => [] end.
Definition odds {A} (l : list A) : list A := match l with _ :: l' => evens l' | [] => [] end.
(** :73-93 [_interleave_cols_nd]: as many outputs on both sides are needed *)
Fixpoint weave {A} (a b : list A) : list A := match a, b with x :: a', y :: b' => x :: y :: weave a' b' | _, _ => [] end.
Definition interleave (a b : vec) : res vec := if (length a =? length b)%nat then Ok (weave a b) else Raise RuntimeError.
(** :488-535, one pair of conductances: even outputs downwards, odd ones upwards (flipped) *)
Definition mvm_pair (p : irp) (U : nat) (tmax : R) (x : vec) (gp gm : mat) : res vec :=
  bind (mapM (fun '(a, b) => column p U tmax (mkcells x a b)) (combine (evens gp) (evens gm))) (fun ev =>
  bind (mapM (fun '(a, b) => column p U tmax (mkcells (rev x) (rev a) (rev b))) (combine (odds gp) (odds gm))) (fun od => interleave ev od)).
(** :95-122 [_pad_symmetric]: [pad1 == 0] means no padding at all; negative padding crops, as torch's *)
Definition pad_sym (phys n : nat) (v : vec) : vec :=
  if (n <=? phys)%nat then
    let pad1 := ((phys - n) / 2)%nat in if (pad1 =? 0)%nat then v else repeat 0 pad1 ++ v ++ repeat 0 (phys - n - pad1)
  else let pad1 := ((n - phys) / 2)%nat in if (pad1 =? 0)%nat then v else slice pad1 (n - (n - phys - pad1)) v.

(** A converter: the pairs of conductances with their factors, and the [scale_ratio] *)
Definition converter := mat -> list (R * (mat * mat)) * R.
(** SinglePairConductanceConverter (inference/converter/conductance.py:54-66) on a matrix; see
    [sp_pairs_flat] in IrProps2.v for the relation with [ConvModel.sp_to] *)
Definition sp_pairs (c : sp) : converter := fun W =>
  let ratio := (sp_gmax c - sp_gmin c) / Rmax (maxabs (concat W)) zero_clip in
  ([(1, (map (map (fun v => clampR 0 (sp_gmax c) (v * ratio) + sp_gmin c)) W, map (map (fun v => clampR 0 (sp_gmax c) (- (v * ratio)) + sp_gmin c)) W))], ratio).

Fixpoint mvm_pairs (p : irp) (U : nat) (tmax : R) (x : vec) (l : list (R * (mat * mat))) (acc : vec) : res vec :=
  match l with
  | [] => Ok acc
  | (f, (gp, gm)) :: l' => bind (mvm_pair p U tmax x gp gm) (fun y => mvm_pairs p U tmax x l' (map2 (fun a b => a + f * b) acc y))
  end.
(** :425-545 [_matmul_irdrop] (after the read noise; not transposed).  [drop]: zero in training *)
Definition matmul_ir (p : irp) (conv : converter) (drop : R) (U : nat) (tmax : R) (W : mat) (x : vec) : res vec :=
  bind (get_res p) (fun r =>
  if Reqb drop 0 then Ok (matvec W x)
  else if (o_segs p =? 0)%nat then Raise ZeroDivisionError
  else if negb ((o_phys p / o_segs p) * o_segs p =? o_phys p)%nat then Raise AssertionError
  else
    let n := length x in
    let '(pairs, ratio) := conv (map (pad_sym (o_phys p) n) W) in
    bind (mvm_pairs p U tmax (pad_sym (o_phys p) n x) pairs (map (fun _ => 0) W)) (fun y =>
    Ok (map (fun v => v / ratio / (2 / 10) / (o_bound p / r / 2)) y))).
(** :216-277 [_apply_xdep_pcm_read_noise]: [nz] is the noisy weight, a function of weight and inputs; if
    all inputs of the batch are zero the variable [x] is not assigned *)
Definition xdep (on : bool) (nz : mat -> list vec -> mat) (W : mat) (X : list vec) : res mat :=
  if on then if forallb (forallb (fun v => Reqb v 0)) X then Raise UnboundLocalError else Ok (nz W X) else Ok W.

(** sign(v) * floor(abs(v) / m) and fmod(v, m) *)
Definition upper (m v : R) : R := IZR (truncZ (v / m)).
Definition fmodR (v m : R) : R := v - m * IZR (truncZ (v / m)).
(** int(log2(1 / res + 2)), and whether it is a whole number *)
Definition n_bits (r : R) : Z := Z.log2 (floorZ (1 / r + 2)).
Definition whole_bits (r : R) : bool := Reqb (IZR (2 ^ n_bits r)) (1 / r + 2).
Fixpoint bits (n : nat) (r : R) (k : vec) : list vec :=
  match n with O => [] | S m => map (fun v => fmodR v 2 * (2 * r)) k :: bits m r (map (upper 2) k) end.
(** :124-214 [_prepare_inputs], after the preparation of the base class (MvmModel.prepare_input) *)
Definition prepare_inputs (p : irp) (x : vec) : res (list vec) :=
  bind (get_res p) (fun r =>
  match o_mode p with
  | ONE_PASS => Ok [x]
  | SPLIT_MODE =>
      if negb (whole_bits r) then Raise ConfigError
      else if negb (Z.of_nat (o_shift p) <? n_bits r)%Z then Raise ConfigError
      else let m := 2 ^ o_shift p in let k := map (fun v => v / (2 * r)) x in
           Ok [map (fun v => fmodR v m * (2 * r)) k; map (fun v => upper m v * (2 * r)) k]
  | BIT_WISE => Ok (bits (Z.to_nat (n_bits r - 1)) r (map (fun v => v / (2 * r)) x))
  | OTHER_MODE => Raise NotImplementedError
  end).

Definition trunc_nat (v : R) : nat := Z.to_nat (truncZ v).
(** the products of one pass: :547-669 [_compute_analog_mv].  [drop] is [ir_drop] in evaluation and zero
    in training; [fin i] is [_finalize_output] of pass [i] (MvmModel.finalize_raw), with its noise *)
Fixpoint bit_passes (p : irp) (conv : converter) (drop r : R) (fin : nat -> vec -> vec) (W : mat) (i : nat) (xs : list vec) (acc : vec) : res vec :=
  match xs with
  | [] => Ok acc
  | x :: xs' => bind (matmul_ir p conv drop 2 (2 * r) W x) (fun y => bit_passes p conv drop r fin W (S i) xs' (map2 (fun a b => a + 2 ^ i * b) acc (fin i y)))
  end.
Definition compute_mv (p : irp) (conv : converter) (is_test : bool) (fin : nat -> vec -> vec) (W : mat) (x : vec) : res vec :=
  let drop := if is_test then o_drop p else 0 in
  bind (prepare_inputs p x) (fun xs =>
  bind (get_res p) (fun r =>
  let bit_res := o_bound p / r + 2 in
  match o_mode p, xs with
  | ONE_PASS, [x0] => bind (matmul_ir p conv drop (trunc_nat (bit_res / 2 * o_tscale p)) 1 W x0) (fun y => Ok (fin 0%nat y))
  | SPLIT_MODE, [lsb; msb] =>
      let ul := (2 ^ o_shift p)%nat in
      bind (matmul_ir p conv drop (trunc_nat (INR ul * o_tscale p)) (2 * r * (2 ^ o_shift p - 1)) W lsb) (fun yl =>
      let um := (2 ^ Z.to_nat (Z.log2 (floorZ bit_res) - Z.of_nat (o_shift p) - 1))%nat in
      bind (matmul_ir p conv drop (trunc_nat (INR um * o_tscale p)) (2 * r * (INR um - 1)) W msb) (fun ym =>
      Ok (map2 (fun a b => a + 2 ^ o_shift p * b) (fin 0%nat yl) (fin 1%nat ym))))
  | BIT_WISE, _ => bit_passes p conv drop r fin W 0 xs (map (fun _ => 0) W)
  | _, _ => Raise NotImplementedError
  end)).
