(** * Model of the hardware-aware training operations of an inference tile
    Sources: /repo/src/rpucuda/weight_clipper.cpp, weight_remapper.cpp, weight_modifier.cpp,
             rpu.cpp, rpu_pulsed.cpp, rpu_simple_device.cpp,
             /repo/src/aihwkit/simulator/tiles/inference.py (post_update_step),
             /repo/src/aihwkit/simulator/tiles/torch_tile.py (clip, remap),
             /repo/src/aihwkit/simulator/rpu_base_src/rpu_base_tiles.cpp (bindings).
    The device of an [InferenceRPUConfig] is the [IdealDevice], so the device is the
    floating point [SimpleRPUDevice] throughout. *)
From Verif Require Import Prelude Rand CompModel PeriModel.

(** ** Clipping *)
(** parameters/enums.py:254-270 [WeightClipType] *)
Inductive ctype : Type := CNone | CFixed | CGauss | CAvgMax.
(** parameters/inference.py:137-165 [WeightClipParameter] *)
Record cpar : Type := { wc_type : ctype; wc_fix : R; wc_sigma : R }.

(** weight_clipper.cpp:22-28 [clip] *)
Definition clip_mat (v : R) (w : mat) : mat := map (map (fun x => Rmin (Rmax x (- v)) v)) w.
(** weight_clipper.cpp:70-83: mean and standard deviation (divided by N-1) of all entries *)
Definition cl_mean (w : mat) : R := sumR (concat w) / INR (length (concat w)).
Definition cl_std (w : mat) : R :=
  let s := INR (length (concat w)) - 1 in
  sqrt (sumR (map (fun x => (x - cl_mean w) * (x - cl_mean w) / s) (concat w))).
(** weight_clipper.cpp:30-101 [apply] *)
Definition clip_value (p : cpar) (w : mat) : R :=
  match wc_type p with
  | CFixed => wc_fix p
  | CAvgMax =>
      let c := Rabs (sumR (map maxabs w) / INR (length w)) in
      if Rltb 0 (wc_fix p) then Rmin c (wc_fix p) else c
  | CGauss =>
      let c := cl_std w * wc_sigma p in
      if Rltb 0 (wc_fix p) then Rmin c (wc_fix p) else c
  | CNone => -1
  end.
Definition clipper_apply (p : cpar) (w : mat) : mat :=
  if Rltb 0 (clip_value p w) then clip_mat (clip_value p w) w else w.
(** rpu_simple_device.cpp:132-142 [SimpleRPUDevice::clipWeights] *)
Definition device_clip (v : R) (w : mat) : mat := if Rleb 0 v then clip_mat v w else w.
(** rpu_pulsed.cpp:268-279 [RPUPulsed::clipWeights] *)
Definition clip_weights (p : cpar) (w : mat) : mat :=
  match wc_type p with
  | CFixed => device_clip (wc_fix p) w
  | _ => clipper_apply p w
  end.

(** torch_tile.py:142-166 [TorchSimulatorTile.clip_weights]; [torch.clamp(x, lo, hi)] is
    min(max(x, lo), hi) also for lo > hi; [Tensor.std] divides by N-1 and is NaN for a
    single weight (not modelled: more than one weight). *)
Definition torch_clip (p : cpar) (w : mat) : res mat :=
  match wc_type p with
  | CFixed => Ok (clip_mat (wc_fix p) w)
  | CGauss =>
      let a := cl_std w * wc_sigma p in
      Ok (clip_mat (if Rltb 0 (wc_fix p) then Rmin (wc_fix p) a else a) w)
  | CAvgMax => Raise NotImplementedError
  | CNone => Raise ConfigError
  end.

(** ** Remapping *)
(** parameters/enums.py:273-283 [WeightRemapType] *)
Inductive rtype : Type := RmNone | RmLayer | RmChannel.
(** parameters/inference.py:168-195 [WeightRemapParameter] *)
Record rpar : Type := { wr_type : rtype; wr_wmax : R; wr_range : R; wr_ref : R }.

Definition pos_or_one (a : R) : R := if Rltb 0 a then a else 1.
(** weight_remapper.cpp:118-128: smallest scale, at least 0, raised to the reference *)
Definition min_list (s : vec) : R := match s with [] => 0 | a :: r => fold_left Rmin r a end.
Definition remap_min_scale (p : rpar) (s : vec) : R :=
  let m := Rmax (min_list s) 0 in
  if Rltb 0 m && negb (Reqb (wr_ref p) 0) then Rmax m (wr_ref p) else m.
(** weight_remapper.cpp:130-142 *)
Definition bounded_scale (p : rpar) (ms amax old : R) : R :=
  let n := if Rltb 0 amax then amax * old else old in
  if Rltb 0 ms then (if Rltb (wr_range p) (n / ms) then ms * wr_range p else n) else n.
(** weight_remapper.cpp:22-152 [apply]; the scales are given (never null here).  A division
    by 0 gives 0 in the model (Inf/NaN in the code): only with a zero scale. *)
Definition remap_core (p : rpar) (w : mat) (s : vec) : res (mat * vec) :=
  match wr_type p with
  | RmNone => Ok (w, s)
  | RmLayer =>
      let amax := maxabs_mat w / wr_wmax p in
      if Rltb 0 amax then Ok (map (map (fun x => x / amax)) w, map (fun a => a * amax) s) else Ok (w, s)
  | RmChannel =>
      if Rleb (wr_range p) 0 then
        let mx := map (fun row : list R => if negb (Reqb (wr_wmax p) 1) then maxabs row / wr_wmax p else maxabs row) w in
        Ok (map2 (fun m (row : list R) => map (fun x => x / pos_or_one m) row) mx w,
            map2 (fun m a => a * pos_or_one m) mx s)
      else if negb (Reqb (wr_wmax p) 1) then Raise RuntimeError
      else
        let ms := remap_min_scale p s in
        let s' := map2 (fun (row : list R) old => bounded_scale p ms (maxabs row) old) w s in
        Ok (map2 (fun (row : list R) os => map (fun x => x * fst os / snd os) row) w (combine s s'), s')
  end.
(** inference.py:317-327 with the binding rpu_base_tiles.cpp:331-343: [get_scales] hands out
    a tensor (None is a TypeError), the binding insists on one scale per output, the C++ code
    writes to the tensor in place, [set_scales] stores it.  When the tile only has learned
    output scales the tensor handed out is the parameter itself. *)
Definition remap_step (c : pcfg) (p : rpar) (t : ptile) : res ptile :=
  match get_scales t with
  | None => Raise TypeError
  | Some s =>
      if negb (Nat.eqb (length s) (length (t_w t))) then Raise RuntimeError
      else
        ws <- remap_core p (t_w t) s ;;
        let t1 := with_w t (fst ws) in
        match get_scales_arg t with
        | SOutAlpha => Ok (set_scales c SOutAlpha (with_los t1 (Some (snd ws))))
        | _ => Ok (set_scales c (STensor (snd ws)) t1)
        end
  end.
(** torch_tile.py:112-140 [TorchSimulatorTile.remap_weights] with inference_torch.py:242-245;
    the parameters [remapped_wmax] and [max_scale_range] are not used. *)
Definition torch_remap_core (p : rpar) (w : mat) (s : vec) : res (mat * vec) :=
  let sw := scale_rows s w in
  match wr_type p with
  | RmLayer => let a := maxabs_mat sw in Ok (map (map (fun x => x / a)) sw, [a])
  | RmChannel => let a := map maxabs sw in Ok (map2 (fun a row => map (fun x => x / a) row) a sw, a)
  | RmNone => Raise ConfigError
  end.

(** ** Modifier *)
(** parameters/enums.py:205-251 [WeightModifierType] *)
Inductive mtype : Type :=
| MNone | MDisc | MMult | MAdd | MDiscAdd | MDoReFa | MPoly | MPcm | MProg | MDrop | MCopy.
(** parameters/inference.py:20-134 [WeightModifierParameter] *)
Record mpar : Type := {
  mo_type : mtype; mo_pbs : bool; mo_std : R; mo_res : R; mo_sto : bool; mo_dorefa : R;
  mo_pdrop : R; mo_edt : bool; mo_rel : bool; mo_awmax : R; mo_lastcol : bool;
  mo_coeffs : vec; mo_gmax : R }.

(** utility_functions.h:196-202 [getDiscretizedValueRound] *)
Definition disc_round (v rs : R) (sto : bool) : M R :=
  if Rleb rs 0 then Ret v
  else if sto then Unif (fun u => Ret (IZR (roundf (v / rs + (u - 1/2))) * rs))
  else Ret (IZR (roundf (v / rs)) * rs).
(** weight_modifier.cpp:57-70: the reference of the noise *)
Definition mod_amax (p : mpar) (w : mat) : R :=
  if mo_rel p && negb (match mo_type p with MCopy => true | _ => false end)
  then pos_or_one (maxabs_mat (if mo_lastcol p then map (@removelast R) w else w))
  else mo_awmax p.
(** weight_modifier.cpp:124-130: c0 + c1 a + c2 a^2 .. *)
Fixpoint poly_from (paw aw : R) (cs : vec) : R :=
  match cs with [] => 0 | c :: r => c * (paw * aw) + poly_from (paw * aw) aw r end.
Definition poly_sig (cs : vec) (aw : R) : R :=
  match cs with [] => 0 | c0 :: r => c0 + poly_from 1 aw r end.
Definition nonempty (cs : vec) : bool := match cs with [] => false | _ => true end.
(** weight_modifier.cpp:72-202: one weight through the switch (all loops treat the entries
    one by one, in order) *)
Definition mod_elem (p : mpar) (amax w : R) : M R :=
  match mo_type p with
  | MCopy | MDrop => Ret w
  | MDisc => if Rltb 0 (mo_res p) then v <~ disc_round (w / amax) (mo_res p) (mo_sto p) ;; Ret (amax * v) else Ret w
  | MMult => if Rltb 0 (mo_std p) then Gauss (fun g => Ret (w + w * (mo_std p * amax) * g)) else Ret w
  | MAdd => if Rltb 0 (mo_std p) then Gauss (fun g => Ret (w + mo_std p * amax * g)) else Ret w
  | MPoly =>
      if Rltb 0 (mo_std p) && nonempty (mo_coeffs p)
      then Gauss (fun g => Ret (w + amax * (poly_sig (mo_coeffs p) (Rabs w / amax) * mo_std p) * g))
      else Ret w
  | MProg =>
      if Rltb 0 (mo_std p) && nonempty (mo_coeffs p)
      then Gauss (fun g =>
             let n := w + amax * (poly_sig (mo_coeffs p) (Rabs w / amax) * (mo_std p / mo_gmax p)) * g in
             Ret (if Rltb w 0 then - Rabs n else Rabs n))
      else Ret w
  | MDoReFa =>
      if Rltb 0 (mo_res p)
      then disc_round (tanh w * Rabs (mo_dorefa p / tanh amax)) (mo_res p) (mo_sto p)
      else Ret w
  | MDiscAdd =>
      if Rltb 0 (mo_res p) || Rltb 0 (mo_std p * amax)
      then v <~ disc_round (w / amax) (mo_res p) (mo_sto p) ;; Gauss (fun g => Ret (amax * v + mo_std p * amax * g))
      else Ret w
  | MNone | MPcm => Throw RuntimeError
  end.
(** weight_modifier.cpp:21-30 [dropConnections], one weight *)
Definition drop_elem (pd w : R) : M R := Unif (fun u => Ret (if Rltb u pd then 0 else w)).
(** weight_modifier.cpp:32-214 [apply] with [new_weights != weights] (rpu.cpp:1737-1746).
    The state left behind by an exception is not modelled. *)
Definition modify (p : mpar) (w : mat) : M mat :=
  if mo_pbs p && negb (match mo_type p with MCopy => true | _ => false end) then Throw RuntimeError
  else if match mo_type p with MNone | MPcm => true | _ => false end then Throw RuntimeError
  else
    w1 <~ mapMM (mapMM (mod_elem p (mod_amax p w))) w ;;
    w2 <~ (if Rltb 0 (mo_pdrop p) then mapMM (mapMM (drop_elem (mo_pdrop p))) w1 else Ret w1) ;;
    Ret (if mo_lastcol p then map2 (fun n o => removelast n ++ [last o 0]) w2 w else w2).

(** ** The simple device *)
(** rpu_simple_device.cpp:92-120 [decayWeights] (binding: bias_no_decay = false) *)
Definition decay_scale (lifetime alpha : R) : R :=
  1 - alpha * (if Rltb 1 lifetime then 1 / lifetime else 0).
Definition decay_weights (lifetime alpha : R) (w : mat) : mat :=
  let s := decay_scale lifetime alpha in
  if Rltb 0 s && Rltb s 1 then map (map (fun x => s * x)) w else w.
(** rpu_simple_device.cpp:122-130 [diffuseWeights] *)
Definition diffuse_weights (diffusion : R) (w : mat) : M mat :=
  if Rltb 0 diffusion then mapMM (mapMM (fun x => Gauss (fun g => Ret (x + diffusion * g)))) w else Ret w.

(** ** The inference tile *)
(** A tile: periphery, [fb_weights_] with the modifier's [enable_during_test_] (allocated
    together, rpu.cpp:1739-1742), and the cached bindings [self._tmp] (inference.py:304-306). *)
Record itile : Type := {
  i_p : ptile; i_fb : option (mat * bool);
  i_cc : option cpar; i_cr : option rpar; i_cm : option mpar }.
(** What the rpu_config says at the time of a call, and the fixed parts *)
Record hcfg : Type := {
  h_p : pcfg; h_otf : bool;                       (* runtime.on_the_fly_bindings *)
  h_diff : R; h_life : R;                         (* IdealDevice: diffusion, lifetime *)
  h_clip : cpar; h_remap : rpar; h_mod : mpar }.
Definition with_p (i : itile) (p : ptile) : itile :=
  {| i_p := p; i_fb := i_fb i; i_cc := i_cc i; i_cr := i_cr i; i_cm := i_cm i |}.
Definition with_tw (i : itile) (w : mat) : itile := with_p i (with_w (i_p i) w).
(** inference.py:311-314: bindings are built anew, or taken from the cache *)
Definition effective {A} (otf : bool) (cache : option A) (live : A) : A :=
  if otf then live else match cache with Some a => a | None => live end.

Definition lift {A} (r : res A) : M A := match r with Ok a => Ret a | Raise e => Throw e end.

(** rpucuda.py:485-499 [post_update_step] of the parent *)
Definition parent_step (h : hcfg) (i : itile) : M itile :=
  w <~ (if Rltb 0 (h_diff h) then diffuse_weights (h_diff h) (t_w (i_p i)) else Ret (t_w (i_p i))) ;;
  Ret (with_tw i (if Rltb 0 (h_life h) then decay_weights (h_life h) 1 w else w)).
(** inference.py:307-315 *)
Definition clip_part (h : hcfg) (i : itile) : itile :=
  match wc_type (h_clip h) with
  | CNone => i
  | _ =>
      let p := effective (h_otf h) (i_cc i) (h_clip h) in
      let i1 := with_tw i (clip_weights p (t_w (i_p i))) in
      {| i_p := i_p i1; i_fb := i_fb i1; i_cc := Some p; i_cr := i_cr i1; i_cm := i_cm i1 |}
  end.
(** inference.py:317-327 *)
Definition remap_part (h : hcfg) (i : itile) : M itile :=
  match wr_type (h_remap h) with
  | RmNone => Ret i
  | _ =>
      let p := effective (h_otf h) (i_cr i) (h_remap h) in
      t <~ lift (remap_step (h_p h) p (i_p i)) ;;
      Ret {| i_p := t; i_fb := i_fb i; i_cc := i_cc i; i_cr := Some p; i_cm := i_cm i |}
  end.
(** inference.py:329-343 with rpu.cpp:1737-1746 [modifyFBWeights] *)
Definition mod_active (p : mpar) : bool :=
  match mo_type p with
  | MNone => false
  | MCopy => negb (Rleb (mo_pdrop p) 0)
  | _ => true
  end.
Definition modify_part (h : hcfg) (i : itile) : M itile :=
  if mod_active (h_mod h) then
    let p := effective (h_otf h) (i_cm i) (h_mod h) in
    fb <~ modify p (t_w (i_p i)) ;;
    Ret {| i_p := i_p i; i_fb := Some (fb, mo_edt p); i_cc := i_cc i; i_cr := i_cr i; i_cm := Some p |}
  else Ret i.
(** inference.py:284-343 [post_update_step] *)
Definition post_update_step (h : hcfg) (i : itile) : M itile :=
  i1 <~ parent_step h i ;;
  i2 <~ remap_part h (clip_part h i1) ;;
  modify_part h i2.

(** rpu.cpp:1483-1487 [getFBWeights]: the weights a pass multiplies with.  The backward pass
    (rpu_pulsed.cpp:508-512) asks with [is_test = false]. *)
Definition fb_weights (i : itile) (is_test : bool) : mat :=
  match i_fb i with
  | Some (w, edt) => if negb is_test || edt then w else t_w (i_p i)
  | None => t_w (i_p i)
  end.

(** ** Histories of a tile *)
(** What can happen to a tile between two looks at it:
    - [OpWrite w]: any call that writes the tile's weights ([tile.set_weights],
      rpu.cpp:1307-1314; used by [set_weights], drift and programming, inference.py:160-281);
    - [OpUpdate lr x d]: an update pass of the floating point device on the weights
      (rpu.cpp [updateVector]: w[i][j] -= lr * d[i] * x[j]);
    - [OpPost h]: [post_update_step] under the configuration [h];
    - [OpSave]: [state_dict()]/pickling, [__getstate__] forgets the cached bindings of the
      live object (inference.py:345-349);
    - [OpLoad]: unpickling, [__setstate__] of a saved state (base.py:734-793): a new C++ tile, weights set,
      then [loadExtra] (rpu.cpp:455-467), which copies [fb_weights] back and makes a new
      modifier, without loading the modifier's own state. *)
Inductive hop : Type :=
| OpWrite (w : mat)
| OpUpdate (lr : R) (x d : vec)
| OpPost (h : hcfg)
| OpSave
| OpLoad.
Definition outer_update (lr : R) (x d : vec) (w : mat) : mat :=
  map2 (fun di row => map2 (fun xj wij => wij - lr * di * xj) x row) d w.
Definition hstep (i : itile) (o : hop) : M itile :=
  match o with
  | OpWrite w => Ret (with_tw i w)
  | OpUpdate lr x d => Ret (with_tw i (outer_update lr x d (t_w (i_p i))))
  | OpPost h => post_update_step h i
  | OpSave => Ret {| i_p := i_p i; i_fb := i_fb i; i_cc := None; i_cr := None; i_cm := None |}
  | OpLoad => Ret {| i_p := i_p i; i_fb := option_map (fun f => (fst f, false)) (i_fb i);
                     i_cc := None; i_cr := None; i_cm := None |}
  end.
Definition hrun (ops : list hop) (i : itile) : M itile := foldMM hstep ops i.
Definition fresh (p : ptile) : itile := {| i_p := p; i_fb := None; i_cc := None; i_cr := None; i_cm := None |}.
