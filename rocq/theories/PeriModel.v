(** * Model of the digital periphery of an analog tile ([TileWithPeriphery])
    Sources: /repo/src/aihwkit/simulator/tiles/periphery.py,
             /repo/src/aihwkit/simulator/tiles/base.py,
             /repo/src/aihwkit/simulator/tiles/module.py,
             /repo/src/aihwkit/simulator/tiles/floating_point.py *)
From Verif Require Import Prelude.

(** Static configuration of a tile: [rpu_config.mapping] fields
    (parameters/mapping.py:20-103), the bias placement (base.py:328-335) and the
    sizes.  [c_mapping = false] models an [rpu_config] without [mapping]. *)
Record pcfg : Type := {
  c_out : nat;                    (* out_size *)
  c_in  : nat;                    (* in_size *)
  c_mapping : bool;               (* hasattr(rpu_config, "mapping") *)
  c_omega : R;                    (* mapping.weight_scaling_omega *)
  c_colwise : bool;               (* mapping.weight_scaling_columnwise *)
  c_lrcomp : bool;                (* mapping.weight_scaling_lr_compensation *)
  c_learn_out : bool;             (* mapping.learn_out_scaling *)
  c_out_colwise : bool;           (* mapping.out_scaling_columnwise *)
  c_bias : bool;                  (* bias argument *)
  c_digital : bool                (* mapping.digital_bias *)
}.
Definition digital_bias (c : pcfg) : bool := c_bias c && c_digital c.        (* base.py:333 *)
Definition analog_bias  (c : pcfg) : bool := c_bias c && negb (c_digital c). (* base.py:335 *)

(** Storage of [mapping_scales]: absent, its own tensor, or the very same storage
    as the parameter [out_scaling_alpha] (see [set_mapping_scales] below). *)
Inductive msc : Type := MsNone | MsOwn (v : vec) | MsAlias.

Record ptile : Type := {
  t_w   : mat;             (* weights in the simulator tile, [out][in(+1)] *)
  t_ms  : msc;             (* mapping_scales *)
  t_los : option vec;      (* out_scaling_alpha (learned out scales) *)
  t_lrs : R;               (* mapping_lr_scale *)
  t_bias : option vec;     (* digital bias parameter *)
  t_ir  : option R;        (* input_range *)
  t_lr  : R                (* learning rate of the simulator tile *)
}.
Definition with_w t w := {| t_w := w; t_ms := t_ms t; t_los := t_los t; t_lrs := t_lrs t;
                            t_bias := t_bias t; t_ir := t_ir t; t_lr := t_lr t |}.
Definition with_ms t m := {| t_w := t_w t; t_ms := m; t_los := t_los t; t_lrs := t_lrs t;
                            t_bias := t_bias t; t_ir := t_ir t; t_lr := t_lr t |}.
Definition with_los t l := {| t_w := t_w t; t_ms := t_ms t; t_los := l; t_lrs := t_lrs t;
                            t_bias := t_bias t; t_ir := t_ir t; t_lr := t_lr t |}.
Definition with_lrs t s := {| t_w := t_w t; t_ms := t_ms t; t_los := t_los t; t_lrs := s;
                            t_bias := t_bias t; t_ir := t_ir t; t_lr := t_lr t |}.
Definition with_bias t b := {| t_w := t_w t; t_ms := t_ms t; t_los := t_los t; t_lrs := t_lrs t;
                            t_bias := b; t_ir := t_ir t; t_lr := t_lr t |}.
Definition with_ir t r := {| t_w := t_w t; t_ms := t_ms t; t_los := t_los t; t_lrs := t_lrs t;
                            t_bias := t_bias t; t_ir := r; t_lr := t_lr t |}.
Definition with_lr t r := {| t_w := t_w t; t_ms := t_ms t; t_los := t_los t; t_lrs := t_lrs t;
                            t_bias := t_bias t; t_ir := t_ir t; t_lr := r |}.

(** periphery.py:499-508 [get_mapping_scales], dereferencing an alias *)
Definition ms_val (t : ptile) : option vec :=
  match t_ms t with MsNone => None | MsOwn v => Some v | MsAlias => t_los t end.

(** Broadcasting product of two scale vectors of length 1 or n (torch [*]) *)
Definition bmul (a b : vec) : vec :=
  match a, b with
  | [x], _ => map (Rmult x) b
  | _, [y] => map (fun x => x * y) a
  | _, _ => map2 Rmult a b
  end.
(** [weight * alpha.view(-1, 1)] *)
Definition scale_rows (alpha : vec) (m : mat) : mat :=
  match alpha with
  | [a] => map (map (Rmult a)) m
  | _ => map2 (fun a row => map (Rmult a) row) alpha m
  end.
Definition meanR (v : vec) : R := sumR v / INR (length v).

(** Argument of [set_mapping_scales]/[set_scales]: None, a Python float, a tensor
    (flattened), or the [out_scaling_alpha] parameter object itself. *)
Inductive sarg : Type := SNone | SFloat (r : R) | STensor (v : vec) | SOutAlpha.

(** periphery.py:483-509 [set_mapping_scales].  In the float branch the
    assignment is nested under [if self.mapping_scales is None] as in the code.
    The last branch stores [mapping_scales.flatten().to(device)]: torch returns
    the tensor itself for a 1-d tensor already on the device, hence [MsAlias]
    when the argument is the parameter object.  A float or None mean over an
    absent tensor cannot occur (the branch always leaves a tensor). *)
Definition set_mapping_scales (c : pcfg) (s : sarg) (t : ptile) : ptile :=
  match s with
  | SNone => with_ms t MsNone
  | _ =>
    if negb (c_mapping c) then with_ms t MsNone
    else
      let t1 :=
        match s with
        | SFloat r => match ms_val t with
                      | None => with_ms t (MsOwn [r])
                      | Some _ => t
                      end
        | STensor v =>
            match ms_val t, v with
            | Some old, [x] =>                    (* self.mapping_scales[:] = x *)
                match t_ms t with
                | MsAlias => with_los t (Some (repeat x (length old)))
                | _ => with_ms t (MsOwn (repeat x (length old)))
                end
            | _, _ => with_ms t (MsOwn v)
            end
        | SOutAlpha =>
            match ms_val t, t_los t with
            | Some old, Some [x] => with_ms t (MsOwn (repeat x (length old)))
            | _, _ => with_ms t MsAlias
            end
        | SNone => t
        end in
      if c_lrcomp c then
        match ms_val t1 with
        | Some v => with_lrs t1 (1 / meanR v)
        | None => t1
        end
      else t1
  end.

(** periphery.py:748-776 [set_learned_out_scales(1.0)] (the only call in
    [set_scales]); an in-place write to the parameter's storage. *)
Definition set_learned_out_scales_one (t : ptile) : ptile :=
  match t_los t with
  | None => t
  | Some l => with_los t (Some (repeat 1 (length l)))
  end.
(** periphery.py:689-700 [set_scales] *)
Definition set_scales (c : pcfg) (s : sarg) (t : ptile) : ptile :=
  set_learned_out_scales_one (set_mapping_scales c s t).

(** periphery.py:702-717 [get_scales], as a value *)
Definition get_scales (t : ptile) : option vec :=
  match ms_val t, t_los t with
  | None, None => None
  | None, Some l => Some l
  | Some m, None => Some m
  | Some m, Some l => Some (bmul m l)
  end.
(** ... and as the object that is returned (needed where it is passed back) *)
Definition get_scales_arg (t : ptile) : sarg :=
  match ms_val t, t_los t with
  | None, None => SNone
  | None, Some _ => SOutAlpha
  | Some m, None => STensor m
  | Some m, Some l => STensor (bmul m l)
  end.

(** periphery.py:419-470 [apply_weight_scaling] *)
Definition apply_weight_scaling (c : pcfg) (w : mat) (omega_arg : option R) (t : ptile)
  : mat * ptile :=
  if negb (c_mapping c) then (w, t)
  else
    let omega := match omega_arg with Some o => o | None => c_omega c end in
    if Rltb 0 omega then
      let weight_max := if c_colwise c then map maxabs w else [maxabs_mat w] in
      let alpha := map (fun m => m / omega) weight_max in
      let alpha := map (fun a => if Reqb a 0 then 1 else a) alpha in
      (scale_rows (map Rinv alpha) w, set_scales c (STensor alpha) t)
    else (w, t).

(** base.py:824-861 [_combine_weights] *)
Definition combine_weights (c : pcfg) (w : mat) (bias : option vec) : res mat :=
  if analog_bias c then
    match bias with
    | None => Raise ValueError
    | Some b => Ok (map2 (fun row x => row ++ [x]) w b)
    end
  else Ok w.
(** base.py:892-899 [_separate_weights] *)
Definition separate_weights (c : pcfg) (w : mat) : mat * option vec :=
  if analog_bias c then (map (fun r => removelast r) w, Some (map (fun r => last r 0) w))
  else (w, None).

(** periphery.py:114-183 [set_weights] (CPU path; [realistic=False]).  The
    transposed CUDA path computes the same combined matrix. *)
Definition set_weights (c : pcfg) (w : mat) (bias : option vec) (apply : bool)
  (omega_arg : option R) (t : ptile) : res ptile :=
  let '(t, bias) :=
    match bias with
    | Some b => if digital_bias c then (with_bias t (Some b), None) else (t, bias)
    | None => (t, None)
    end in
  cw <- combine_weights c w bias ;;
  let '(cw, t) := if apply then apply_weight_scaling c cw omega_arg t else (cw, t) in
  Ok (with_w t cw).

(** periphery.py:185-241 [get_weights] ([realistic=False]) *)
Definition get_weights (c : pcfg) (apply : bool) (t : ptile) : mat * option vec :=
  let '(weight, bias) := separate_weights c (t_w t) in
  let bias := if digital_bias c then t_bias t else bias in
  if negb apply then (weight, bias)
  else match get_scales t with
       | Some alpha =>
           (scale_rows alpha weight,
            if analog_bias c then option_map (bmul alpha) bias else bias)
       | None => (weight, bias)
       end.

(** periphery.py:305-338 [remap_weights] *)
Definition remap_weights (c : pcfg) (omega_arg : option R) (t : ptile) : res ptile :=
  let '(w, b) := get_weights c true t in
  set_weights c w b true omega_arg t.

(** periphery.py:511-536 [init_mapping_scales]: note that [set_mapping_scales]
    is only called in the non-columnwise branch. *)
Definition init_mapping_scales (c : pcfg) (t : ptile) : ptile :=
  if negb (c_mapping c) then set_mapping_scales c SNone t
  else if Reqb (c_omega c) 0 then t
  else if c_colwise c then t
  else set_mapping_scales c (STensor [1]) t.
(** periphery.py:728-754 [init_learned_out_scales] *)
Definition init_learned_out_scales (c : pcfg) (t : ptile) : ptile :=
  if negb (c_mapping c) then t
  else if c_learn_out c then
    with_los t (Some (if c_out_colwise c then repeat 1 (c_out c) else [1]))
  else t.
(** periphery.py:72-112 [__init__], with [w0] the simulator tile's initial weights *)
Definition ptile_new (c : pcfg) (w0 : mat) (ir : option R) (lr : R) : ptile :=
  let t := {| t_w := w0; t_ms := MsNone; t_los := None; t_lrs := 1;
              t_bias := if digital_bias c then Some (repeat 0 (c_out c)) else None;
              t_ir := ir; t_lr := lr |} in
  init_mapping_scales c (init_learned_out_scales c t).

(** ** Learning rate: periphery.py:1396-1416 *)
Definition set_learning_rate (lr : option R) (t : ptile) : ptile :=
  match lr with Some r => with_lr t (r * t_lrs t) | None => t end.
Definition get_learning_rate (t : ptile) : R := t_lr t / t_lrs t.

(** ** Forward, backward, update with an ideal (linear) simulator tile *)
(** periphery.py:831-836 the clamp at the end of [apply_input_range]
    ([update_from_data=False]) *)
Definition clip_input (ir : R) (x : vec) : vec := map (clampR (- Rabs ir) (Rabs ir)) x.
(** periphery.py:838-859 [pre_forward] in eval mode *)
Definition pre_forward (t : ptile) (x : vec) : vec :=
  match t_ir t with
  | None => x
  | Some ir => map (fun v => v / ir) (clip_input ir x)
  end.
(** tiles ideal forward; with an analog bias the tile appends a constant 1 to the
    input (floating_point.py:29-34) *)
Definition tile_forward (c : pcfg) (w : mat) (x : vec) : vec :=
  matvec w (if analog_bias c then x ++ [1] else x).
(** element-wise product of an output vector with a broadcast scale *)
Definition scale_vec (alpha : vec) (y : vec) : vec :=
  match alpha with [a] => map (Rmult a) y | _ => map2 Rmult alpha y end.
(** periphery.py:861-905 [post_forward] (no quantized periphery) *)
Definition post_forward (t : ptile) (y : vec) : vec :=
  match t_ir t, ms_val t with
  | None, None => y
  | Some ir, None => map (Rmult ir) y
  | None, Some m => scale_vec m y
  | Some ir, Some m => scale_vec (map (Rmult ir) m) y
  end.
Definition joint_forward (c : pcfg) (t : ptile) (x : vec) : vec :=
  post_forward t (tile_forward c (t_w t) (pre_forward t x)).
(** floating_point.py:129-147 (same in analog.py, inference.py, custom.py) *)
Definition forward (c : pcfg) (t : ptile) (x : vec) : vec :=
  let out := joint_forward c t x in
  let out := match t_los t with Some l => scale_vec l out | None => out end in
  match t_bias t with
  | Some b => if digital_bias c then vadd out b else out
  | None => out
  end.

(** transposed product, [n] columns *)
Definition vecmat (n : nat) (d : vec) (w : mat) : vec :=
  fold_right vadd (repeat 0 n) (map2 (fun dj row => map (Rmult dj) row) d w).
(** periphery.py:1070-1098, 1163-1178 [backward] without saved masks; the bias
    column's input gradient is dropped by the tile. *)
Definition backward (c : pcfg) (t : ptile) (d : vec) : vec :=
  let d := match ms_val t with Some m => scale_vec m d | None => d end in
  let w := fst (separate_weights c (t_w t)) in
  vecmat (c_in c) d w.

(** ideal tile update  w_ij <- w_ij - lr * d_i * x_j *)
Definition rank1 (lr : R) (w : mat) (x d : vec) : mat :=
  map2 (fun di row => map2 (fun wij xj => wij - lr * di * xj) row x) d w.
(** periphery.py:1170-1205 [pre_update] *)
Definition pre_update (t : ptile) (x d : vec) : vec * vec :=
  (match t_ir t with
   | None => x
   | Some ir => map (fun v => v / ir) (clip_input ir x)
   end,
   match ms_val t with
   | Some m => scale_vec (map (fun s => / (s * t_lrs t)) m) d
   | None => d
   end).
(** periphery.py:1207-1227 [update], one sample *)
Definition update (c : pcfg) (t : ptile) (x d : vec) : ptile :=
  let '(x, d) := pre_update t x d in
  with_w t (rank1 (t_lr t) (t_w t) (if analog_bias c then x ++ [1] else x) d).
(** a mini batch *)
Definition update_batch (c : pcfg) (t : ptile) (xd : list (vec * vec)) : ptile :=
  fold_left (fun t '(x, d) => update c t x d) xd t.

(** ** [TileModule.to(dtype=...)]: module.py:244-248 *)
Definition to_dtype (c : pcfg) (t : ptile) : ptile :=
  match get_scales_arg t with
  | SNone => t
  | s => set_scales c s t
  end.

(** ** Input range: periphery.py:665-687 and 814-836 *)
Definition set_input_range (v : R) (t : ptile) : res ptile :=
  match t_ir t with
  | None => Raise ConfigError
  | Some _ => Ok (with_ir t (Some (Rabs v)))
  end.
(** [input_range] and [input_range_update_idx] after one training batch whose
    standard deviation is [std] *)
Definition ir_update (init_from_data : Z) (init_std_alpha : R) (s : R * Z) (std : R) : R * Z :=
  let '(ir, idx) := s in
  if (idx <? init_from_data)%Z then
    let '(ir, idx) :=
      if Rltb 0 std then ((ir * IZR idx + init_std_alpha * std) / (IZR idx + 1), (idx + 1)%Z)
      else (ir, idx) in
    (Rabs ir, idx)
  else (ir, idx).
