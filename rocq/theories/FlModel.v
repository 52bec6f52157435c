(** * The floating point tile of the simulator core, on flat memory
    Sources: /repo/src/rpucuda/rpu.cpp:508-755 (passes), :1399-1403, :1459-1513 (update target), :1556-1575 (decay),
    /repo/src/rpucuda/math_util.cpp:360-412 (bias), /repo/src/aihwkit/simulator/rpu_base_src/rpu_base_tiles.cpp:186-254,
    405-446, 476-519, 540-598 (bindings), /repo/src/aihwkit/simulator/tiles/functions.py:92-102 (weight gradient),
    /repo/src/aihwkit/optim/analog_optimizer.py:27-56, 76-105, 146-160. *)
From Verif Require Import Prelude CnnModel.
Local Open Scope nat_scope.

Definition el (X : list R) (i : nat) : R := nth i X 0%R.
Definition grid (n m : nat) (f : nat -> nat -> R) : list R := flat_map (fun i => tab m (f i)) (seq 0 n).
(** BLAS, row major; the leading dimension of the result is its number of columns in all calls here, and a result with
    beta 0 is not read *)
Definition gemm (ta tb : bool) (M N K : nat) (alpha : R) (A : list R) (lda : nat) (B : list R) (ldb : nat) (beta : R) (C : list R) : list R :=
  grid M N (fun i j => (alpha * Sum K (fun k => el A (if ta then k * lda + i else i * lda + k) * el B (if tb then j * ldb + k else k * ldb + j)) + beta * el C (i * N + j))%R).
Definition gemv (ta : bool) (M N : nat) (alpha : R) (A : list R) (lda : nat) (x : list R) : list R :=
  if ta then tab N (fun j => (alpha * Sum M (fun i => el A (i * lda + j) * el x i))%R) else tab M (fun i => (alpha * Sum N (fun j => el A (i * lda + j) * el x j))%R).
Definition ger (M N : nat) (alpha : R) (x y A : list R) (lda : nat) : list R := grid M N (fun i j => (el A (i * lda + j) + alpha * (el x i * el y j))%R).
(** the tile: sizes, weights (row major), learning rate, output scales, and the external tensor of set_delta_weights *)
Record tile := { f_xs : nat; f_ds : nat; f_w : list R; f_lr : R; f_fa : R; f_ba : R; f_delta : option (list R) }.

(** ** Passes *)
(** rpu.cpp:580-602 *)
Definition forward_matrix (t : tile) (X : list R) (m : nat) (xt dt : bool) : list R :=
  if dt then gemm false (negb xt) (f_ds t) m (f_xs t) (f_fa t) (f_w t) (f_xs t) X (if xt then m else f_xs t) 0 []
  else gemm xt true m (f_ds t) (f_xs t) (f_fa t) X (if xt then m else f_xs t) (f_w t) (f_xs t) 0 [].
(** rpu.cpp:604-622 *)
Definition backward_matrix (t : tile) (D : list R) (m : nat) (dt xt : bool) : list R :=
  if xt then gemm true (negb dt) (f_xs t) m (f_ds t) (f_ba t) (f_w t) (f_xs t) D (if dt then m else f_ds t) 0 []
  else gemm dt false m (f_xs t) (f_ds t) (f_ba t) D (if dt then m else f_ds t) (f_w t) (f_xs t) 0 [].
(** math_util.cpp:360-381 makeBias; :393-412 copyWithoutBias *)
Definition make_bias (X : list R) (size m : nat) (trans : bool) : list R :=
  if trans then (tab (m * (size - 1)) (el X) ++ repeat 1%R m)%list else flat_map (fun j => (tab (size - 1) (fun i => el X (j * (size - 1) + i)) ++ [1%R])%list) (seq 0 m).
Definition copy_without_bias (X : list R) (size m : nat) (trans : bool) : list R :=
  if trans then tab (m * (size - 1)) (el X) else grid m (size - 1) (fun j i => el X (j * size + i)).
(** rpu.cpp:508-533 forward, :690-696, :735-740 *)
Definition forward (t : tile) (X : list R) (bias : bool) (m : nat) (xt dt : bool) : list R :=
  if ((m =? 1) && negb xt && negb dt)%bool then gemv false (f_ds t) (f_xs t) (f_fa t) (f_w t) (f_xs t) (if bias then (tab (f_xs t - 1) (el X) ++ [1%R])%list else X)
  else forward_matrix t (if bias then make_bias X (f_xs t) m xt else X) m xt dt.
(** rpu.cpp:535-554 backward, :698-703, :742-747 *)
Definition backward (t : tile) (D : list R) (bias : bool) (m : nat) (dt xt : bool) : list R :=
  if ((m =? 1) && negb xt && negb dt)%bool then let y := gemv true (f_ds t) (f_xs t) (f_ba t) (f_w t) (f_xs t) D in if bias then tab (f_xs t - 1) (el y) else y
  else let y := backward_matrix t D m dt xt in if bias then copy_without_bias y (f_xs t) m xt else y.
(** shapes of tensors *)
Definition prod (sh : list nat) : nat := fold_right Nat.mul 1 sh.
Definition feature (trans : bool) (sh : list nat) : nat := if trans then hd 0 sh else last sh 0.
Definition set_feature (trans : bool) (sh : list nat) (n : nat) : list nat := if trans then n :: tl sh else (removelast sh ++ [n])%list.
Definition cols (t : tile) (bias : bool) : nat := f_xs t - (if bias then 1 else 0).
(** rpu_base_tiles.cpp:405-446: shape of the output tensor, and what is written from its start.  (A feature dimension of 0
    is a division by zero before the check.) *)
Definition forward_binding (t : tile) (sh : list nat) (X : list R) (bias xt dt : bool) : res (list nat * list R) :=
  match sh with
  | [] => Raise RuntimeError
  | _ =>
      let n := feature xt sh in
      let m := prod sh / n in
      if negb (n =? cols t bias) then Raise RuntimeError else Ok (set_feature dt sh (f_ds t), forward t X bias m xt dt)
  end.
(** rpu_base_tiles.cpp:476-519 *)
Definition backward_binding (t : tile) (sh : list nat) (D : list R) (bias dt xt : bool) : res (list nat * list R) :=
  match sh with
  | [] => Raise RuntimeError
  | _ =>
      let n := feature dt sh in
      let m := prod sh / n in
      if negb (n =? f_ds t) then Raise RuntimeError else Ok (set_feature xt sh (cols t bias), backward t D bias m dt xt)
  end.

(** ** Update *)
(** rpu.cpp:1399-1403, 1489-1512 *)
Definition alpha_lr (t : tile) : R := match f_delta t with Some _ => (-1 / f_ba t)%R | None => (f_lr t / f_ba t)%R end.
Definition up_weights (t : tile) : list R := match f_delta t with Some d => d | None => f_w t end.
Definition up_beta (t : tile) : R := match f_delta t with Some _ => 0%R | None => 1%R end.
Definition put_up (t : tile) (v : list R) : tile :=
  match f_delta t with
  | Some _ => {| f_xs := f_xs t; f_ds := f_ds t; f_w := f_w t; f_lr := f_lr t; f_fa := f_fa t; f_ba := f_ba t; f_delta := Some v |}
  | None => {| f_xs := f_xs t; f_ds := f_ds t; f_w := v; f_lr := f_lr t; f_fa := f_fa t; f_ba := f_ba t; f_delta := None |}
  end.
(** rpu.cpp:624-634 *)
Definition update_matrix (t : tile) (X D : list R) (m : nat) (xt dt : bool) : tile :=
  put_up t (gemm (negb dt) xt (f_ds t) (f_xs t) m (- alpha_lr t) D (if dt then m else f_ds t) X (if xt then m else f_xs t) (up_beta t) (up_weights t)).
(** rpu.cpp:705-720 *)
Definition update_vector (t : tile) (x d : list R) : tile :=
  match f_delta t with
  | None => put_up t (ger (f_ds t) (f_xs t) (- alpha_lr t) d x (up_weights t) (f_xs t))
  | Some _ => update_matrix t x d 1 false false
  end.
(** rpu.cpp:556-575 *)
Definition update (t : tile) (X D : list R) (bias : bool) (m : nat) (xt dt : bool) : tile :=
  if ((m =? 1) && negb xt && negb dt)%bool then update_vector t (if bias then (tab (f_xs t - 1) (el X) ++ [1%R])%list else X) D
  else update_matrix t (if bias then make_bias X (f_xs t) m xt else X) D m xt dt.
(** rpu_base_tiles.cpp:540-598; the arguments are those of the lambda, in its order *)
Definition update_binding (t : tile) (shx : list nat) (X : list R) (shd : list nat) (D : list R) (bias xt dt : bool) : res tile :=
  if Reqb (f_lr t) 0 then Ok t
  else match shx, shd with
       | [], _ | _, [] => Raise RuntimeError
       | _, _ =>
           let n := feature xt shx in let m := prod shx / n in let o := feature dt shd in let md := prod shd / o in
           if negb (n =? cols t bias) then Raise RuntimeError
           else if negb (o =? f_ds t) then Raise RuntimeError
           else if negb (m =? md) then Raise RuntimeError
           else Ok (update t X D bias m xt dt)
       end.
(** the same with keywords: rpu_base_tiles.cpp:599-600 names the fourth argument d_trans and the fifth x_trans *)
Definition update_keywords (t : tile) (shx : list nat) (X : list R) (shd : list nat) (D : list R) (bias : bool) (x_trans d_trans : bool) : res tile :=
  update_binding t shx X shd D bias d_trans x_trans.
Definition set_delta (t : tile) (d : option (list R)) : tile := {| f_xs := f_xs t; f_ds := f_ds t; f_w := f_w t; f_lr := f_lr t; f_fa := f_fa t; f_ba := f_ba t; f_delta := d |}.
Definition set_lr (t : tile) (r : R) : tile := {| f_xs := f_xs t; f_ds := f_ds t; f_w := f_w t; f_lr := r; f_fa := f_fa t; f_ba := f_ba t; f_delta := f_delta t |}.
(** functions.py:92-102: the gradient of hardware-aware training; [junk] is what is in the memory of [empty_like] *)
Definition weight_grad (t : tile) (junk : list R) (shx : list nat) (X : list R) (shd : list nat) (D : list R) (bias xt dt : bool) : res (list R * tile) :=
  t' <- update_binding (set_delta t (Some junk)) shx X shd D bias xt dt ;;
  Ok (up_weights t', set_delta t' None).
(** the optimizer and a tile of hardware-aware training (weights in a PyTorch parameter): the learning rate of its group
    and of the tile; [scale] is mapping_lr_scale (periphery.py:1396-1407) *)
Record opt := { o_group : R; o_tile : tile }.
Inductive event := Scheduler (lr : R) | SetLearningRate (lr : R) | Step.
(** analog_optimizer.py:27-56 regroup_param_groups (when the optimizer is made) *)
Definition make_opt (scale lr : R) (t : tile) : opt := {| o_group := lr; o_tile := set_lr t (lr * scale) |}.
(** a scheduler sets the rate of the group; :146-160; :93-95 (a step leaves such a tile alone) *)
Definition opt_event (scale : R) (o : opt) (e : event) : opt :=
  match e with
  | Scheduler lr => {| o_group := lr; o_tile := o_tile o |}
  | SetLearningRate lr => {| o_group := lr; o_tile := set_lr (o_tile o) (lr * scale) |}
  | Step => o
  end.

(** ** Decay: rpu.cpp:1556-1575 *)
Definition decay (lifetime alpha : R) (bias_no_decay : bool) (xs : nat) (w : list R) : list R :=
  let rate := if Rltb 1 lifetime then (1 / lifetime)%R else 0%R in
  let s := (1 - alpha * rate)%R in
  if (Rltb 0 s && Rltb s 1)%bool then
    if negb bias_no_decay then map (fun v => (s * v)%R) w
    else tab (length w) (fun i => (el w i * (if (i mod xs =? xs - 1) then 1 else s))%R)
  else w.
