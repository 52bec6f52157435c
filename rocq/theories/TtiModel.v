(** * Training of the torch inference tile
    Source: /repo/src/aihwkit/simulator/tiles/inference_torch.py, torch_tile.py, periphery.py.
    Simplifications: tensors of a fixed size are functions of their indices; a vector of scales is given by one number or by
    one number for each output (with a single output always the former); perfect MVM (forward.is_perfect), so that autograd
    is the chain rule for a linear map; numbers are reals, and nan is an exception. *)
From Verif Require Import Prelude.
Local Open Scope R_scope.

Definition sum (n : nat) (f : nat -> R) : R := sumR (map f (seq 0 n)).
(** [abs().max()] over the first [n] elements *)
Definition amax (n : nat) (f : nat -> R) : R := fold_right Rmax 0 (map (fun i => Rabs (f i)) (seq 0 n)).

Inductive scales := S1 (a : R) | SV (v : nat -> R).
Definition scale (s : scales) (i : nat) : R := match s with S1 a => a | SV v => v i end.
(** [s[:] = a] *)
Definition fill (s : scales) (a : R) : scales := match s with S1 _ => S1 a | SV _ => SV (fun _ => a) end.
Definition oscale (s : option scales) (i : nat) : R := match s with Some s => scale s i | None => 1 end.
Inductive sarg := SFloat (x : R) | STensor (s : scales).
(** what the hook divides by: the tensor it was given, which may be the one [mapping_scales] refers to *)
Inductive hookv := HShared | HOwn (s : sarg).
Record tile := { t_w : nat -> nat -> R; t_bias : nat -> R; t_ms : option scales; t_os : option scales; t_hook : option hookv; t_rg : bool }.

(** the tensor of the hook stays when [mapping_scales] is replaced *)
Definition detach (t : tile) : option hookv :=
  match t_hook t, t_ms t with Some HShared, Some s => Some (HOwn (STensor s)) | h, _ => h end.
(** periphery.py:510-533; without learning rate compensation, which the torch tile does not use *)
Definition set_mapping_scales (v : option sarg) (t : tile) : tile :=
  match v with
  | None => {| t_w := t_w t; t_bias := t_bias t; t_ms := None; t_os := t_os t; t_hook := detach t; t_rg := t_rg t |}
  | Some (SFloat x) =>
      match t_ms t with
      | None => {| t_w := t_w t; t_bias := t_bias t; t_ms := Some (S1 x); t_os := t_os t; t_hook := detach t; t_rg := t_rg t |}
      | Some _ => t
      end
  | Some (STensor s) =>
      match s, t_ms t with
      | S1 a, Some cur => {| t_w := t_w t; t_bias := t_bias t; t_ms := Some (fill cur a); t_os := t_os t; t_hook := t_hook t; t_rg := t_rg t |}
      | _, _ => {| t_w := t_w t; t_bias := t_bias t; t_ms := Some s; t_os := t_os t; t_hook := detach t; t_rg := t_rg t |}
      end
  end.
(** whether [mapping_scales] becomes the tensor given ([flatten] and [to] do not copy) *)
Definition assigned (v : sarg) (ms : option scales) : bool :=
  match v, ms with SFloat _, _ => false | STensor (S1 _), Some _ => false | STensor _, _ => true end.
(** inference_torch.py:163-182 and periphery.py:688-699, :757-782 *)
Definition set_scales (v : sarg) (t : tile) : tile :=
  let t1 := set_mapping_scales (Some v) t in
  {| t_w := t_w t1; t_bias := t_bias t1; t_ms := t_ms t1; t_os := option_map (fun s => fill s 1) (t_os t1);
     t_hook := if t_rg t then Some (if assigned v (t_ms t) then HShared else HOwn v) else None; t_rg := t_rg t1 |}.
(** periphery.py:701-716 *)
Definition get_scales (t : tile) : option scales :=
  match t_ms t, t_os t with
  | None, o => o
  | m, None => m
  | Some m, Some o => Some (match m, o with S1 a, S1 b => S1 (a * b) | _, _ => SV (fun i => scale m i * scale o i) end)
  end.
(** module.py:238-242: the scales are set again when the data type is converted *)
Definition convert (t : tile) : tile := match get_scales t with Some s => set_scales (STensor s) t | None => t end.

Section Sizes.
Context (D K : nat).
(** periphery.py:479-497 and :111-173 (digital bias) *)
Definition nonzero (a : R) : R := if Reqb a 0 then 1 else a.
Definition set_weights (W : nat -> nat -> R) (bias : nat -> R) (omega : R) (columnwise : bool) (t : tile) : tile :=
  if Rltb 0 omega then
    let alpha := if columnwise then SV (fun i => nonzero (amax K (W i) / omega)) else S1 (nonzero (amax D (fun i => amax K (W i)) / omega)) in
    let t1 := set_scales (STensor alpha) t in
    {| t_w := fun i j => W i j / scale alpha i; t_bias := bias; t_ms := t_ms t1; t_os := t_os t1; t_hook := t_hook t1; t_rg := t_rg t1 |}
  else {| t_w := W; t_bias := bias; t_ms := t_ms t; t_os := t_os t; t_hook := t_hook t; t_rg := t_rg t |}.
(** torch_tile.py:111-139, inference_torch.py:242-245; a zero divisor gives nan
    (values of the function beyond the [D] elements are of no account) *)
Inductive remap := Layerwise | Channelwise.
Definition remap_weights (r : remap) (t : tile) : res tile :=
  match get_scales t with
  | None => Raise AttributeError
  | Some s =>
      let scaled := fun i j => t_w t i j * scale s i in
      let put (n : scales) :=
        let t1 := {| t_w := fun i j => scaled i j / scale n i; t_bias := t_bias t; t_ms := t_ms t; t_os := t_os t; t_hook := t_hook t; t_rg := t_rg t |} in
        set_scales (STensor n) t1 in
      match r with
      | Layerwise => let m := amax D (fun i => amax K (scaled i)) in if Reqb m 0 then Raise ArithmeticError else Ok (put (S1 m))
      | Channelwise => if existsb (fun i => Reqb (amax K (scaled i)) 0) (seq 0 D) then Raise ArithmeticError else Ok (put (SV (fun i => if (i <? D)%nat then amax K (scaled i) else 1)))
      end
  end.
(** inference_torch.py:214-231, periphery.py:1059-1067, :886-898; [noise]: what the weight modifier adds in training mode *)
Definition forward (noise : nat -> nat -> R) (t : tile) (x : nat -> nat -> R) : nat -> nat -> R :=
  fun b i => sum K (fun j => (t_w t i j + noise i j) * x b j) * oscale (t_ms t) i * oscale (t_os t) i + t_bias t i.
(** inference_torch.py:178-179: the hook on the gradient *)
Definition hook_div (t : tile) (i : nat) : res R :=
  match t_hook t with
  | None => Ok 1
  | Some HShared => Ok (oscale (t_ms t) i)
  | Some (HOwn (SFloat _)) => Raise AttributeError
  | Some (HOwn (STensor s)) => Ok (scale s i)
  end.
Definition hook_run (t : tile) : res (nat -> R) :=
  match t_hook t with
  | Some (HOwn (SFloat _)) => Raise AttributeError
  | _ => Ok (fun i => match hook_div t i with Ok d => d | Raise _ => 1 end)
  end.
(** gradients by autograd for [B] samples; the noise is drawn without gradient (torch_tile.py:240-266) *)
Definition grad_w (B : nat) (t : tile) (x dy : nat -> nat -> R) : nat -> nat -> R :=
  fun i j => sum B (fun b => (dy b i * oscale (t_os t) i) * oscale (t_ms t) i * x b j).
Definition grad_b (B : nat) (dy : nat -> nat -> R) : nat -> R := fun i => sum B (fun b => dy b i).
Definition grad_os (B : nat) (noise : nat -> nat -> R) (t : tile) (x dy : nat -> nat -> R) (i : nat) : R :=
  sum B (fun b => dy b i * (sum K (fun j => (t_w t i j + noise i j) * x b j) * oscale (t_ms t) i)).
Definition step_os (B : nat) (lr : R) (noise : nat -> nat -> R) (t : tile) (x dy : nat -> nat -> R) : option scales :=
  match t_os t with
  | None => None
  | Some (S1 a) => Some (S1 (a - lr * sum D (grad_os B noise t x dy)))
  | Some (SV v) => Some (SV (fun i => v i - lr * grad_os B noise t x dy i))
  end.
(** one step of SGD *)
Definition sgd (B : nat) (lr : R) (noise : nat -> nat -> R) (x dy : nat -> nat -> R) (t : tile) : res tile :=
  if t_rg t then
    h <- hook_run t ;;
    Ok {| t_w := fun i j => t_w t i j - lr * (grad_w B t x dy i j / h i ^ 2); t_bias := fun i => t_bias t i - lr * grad_b B dy i; t_ms := t_ms t;
          t_os := step_os B lr noise t x dy; t_hook := t_hook t; t_rg := t_rg t |}
  else Ok {| t_w := t_w t; t_bias := fun i => t_bias t i - lr * grad_b B dy i; t_ms := t_ms t; t_os := step_os B lr noise t x dy; t_hook := t_hook t; t_rg := t_rg t |}.
(** the loss gives the gradient for the outputs *)
Record batch := { b_x : nat -> nat -> R; b_n : nat; b_loss : (nat -> nat -> R) -> nat -> nat -> R; b_lr : R; b_noise : nat -> nat -> R }.
Inductive event := Step (b : batch) | Remap (r : remap) | SetWeights (W : nat -> nat -> R) (bias : nat -> R) (omega : R) (columnwise : bool) | Convert.
Definition exec (e : event) (t : tile) : res (list (nat -> nat -> R) * tile) :=
  match e with
  | Step b => let y := forward (b_noise b) t (b_x b) in t' <- sgd (b_n b) (b_lr b) (b_noise b) (b_x b) (b_loss b y) t ;; Ok ([y], t')
  | Remap r => t' <- remap_weights r t ;; Ok ([], t')
  | SetWeights W bias omega c => Ok ([], set_weights W bias omega c t)
  | Convert => Ok ([], convert t)
  end.
Fixpoint run (es : list event) (t : tile) : res (list (nat -> nat -> R) * tile) :=
  match es with [] => Ok ([], t) | e :: r => o <- exec e t ;; o' <- run r (snd o) ;; Ok (fst o ++ fst o', snd o')%list end.
End Sizes.
(** a new tile: scales of one when remapping or columnwise scaling is configured, learned scales when configured;
    inference.py:82-101, periphery.py:536-562, :729-755 *)
Definition fresh (has_ms : bool) (os : option bool) (bias : nat -> R) : tile :=
  {| t_w := fun _ _ => 0; t_bias := bias; t_ms := if has_ms then Some (SV (fun _ => 1)) else None;
     t_os := match os with None => None | Some true => Some (SV (fun _ => 1)) | Some false => Some (S1 1) end; t_hook := None; t_rg := true |}.
(** [load_state_dict]: base.py:678-760, module.py:392-427: the simulator tile, with its hook, stays (inference_torch.py:130-147) *)
Definition load (c t : tile) : tile := {| t_w := t_w c; t_bias := t_bias c; t_ms := t_ms c; t_os := t_os c; t_hook := detach t; t_rg := t_rg t |}.
(** [deepcopy]: a copied torch parameter has no hooks *)
Definition deepcopy (t : tile) : tile := {| t_w := t_w t; t_bias := t_bias t; t_ms := t_ms t; t_os := t_os t; t_hook := None; t_rg := t_rg t |}.
Definition require_grad (r : bool) (t : tile) : tile := {| t_w := t_w t; t_bias := t_bias t; t_ms := t_ms t; t_os := t_os t; t_hook := t_hook t; t_rg := r |}.

(** ** Input range *)
Record irp := { ir_decay : R; ir_min_pct : R; ir_scale : R; ir_relative : bool; ir_manage : bool }.
Definition ind (c : bool) (x : R) : R := if c then x else 0.
(** the common part: inference_torch.py:51-77, periphery.py:1112-1154 (no output bound known) *)
Definition thres_grad (B K : nat) (p : irp) (ir : R) (x d : nat -> nat -> R) : R :=
  let g0 := 0 + sum B (fun b => sum K (fun j => Rmin (ind (Rleb ir (x b j)) (d b j)) 0)) in
  let g1 := g0 - sum B (fun b => sum K (fun j => Rmax (ind (Rleb (x b j) (- ir)) (d b j)) 0)) in
  let g2 := if ir_relative p then g1 * ir * ir_scale p else g1 in
  if Rltb 0 (ir_decay p) then
    let percentage := sum B (fun b => sum K (fun j => ind (Rltb (Rabs (x b j)) ir) 1)) / (INR B * INR K) in
    g2 + ind (Rltb (ir_min_pct p) percentage) (ir_decay p * ir)
  else g2.
(** periphery.py:831-836 [torch.clamp] *)
Definition clip (ir x : R) : R := Rmin (Rmax x (- Rabs ir)) (Rabs ir).
(** inference_torch.py:184-212 and periphery.py:886-898: clipped, divided; MVM with additive noise [eps]; multiplied *)
Definition ir_forward (K : nat) (w : nat -> nat -> R) (ms : nat -> R) (ir : R) (eps x : nat -> nat -> R) : nat -> nat -> R :=
  fun b i => (sum K (fun j => w i j * (clip ir (x b j) / ir)) + eps b i) * (ir * ms i).
(** gradient for the input of the MVM *)
Definition mvm_grad (D : nat) (w : nat -> nat -> R) (ms : nat -> R) (ir : R) (dy : nat -> nat -> R) : nat -> nat -> R :=
  fun b j => sum D (fun i => w i j * (dy b i * (ir * ms i))).
(** autograd of the torch tile: of the division, of InputRangeForward, and of the clamp *)
Definition torch_x_grad (D : nat) (w : nat -> nat -> R) (ms : nat -> R) (ir : R) (x dy : nat -> nat -> R) : nat -> nat -> R :=
  fun b j => ind (Rleb (- Rabs ir) (x b j) && Rleb (x b j) (Rabs ir))%bool (mvm_grad D w ms ir dy b j / ir).
Definition torch_ir_grad (B D K : nat) (p : irp) (w : nat -> nat -> R) (ms : nat -> R) (ir : R) (eps x dy : nat -> nat -> R) : res R :=
  if ir_manage p then Raise NotImplementedError
  else
    let xc := fun b j => clip ir (x b j) in
    let g := mvm_grad D w ms ir dy in
    let of_division := sum B (fun b => sum K (fun j => g b j * (- (xc b j) / (ir * ir)))) in
    let of_scale := sum B (fun b => sum D (fun i => dy b i * ((sum K (fun j => w i j * (xc b j / ir)) + eps b i) * ms i))) in
    Ok (thres_grad B K p ir xc (fun b j => g b j / ir) + of_division + of_scale).
(** the CPU tile: periphery.py:1069-1106 and :1108-1160, with the inputs of the forward pass *)
Definition cpu_x_grad (D : nat) (w : nat -> nat -> R) (ms : nat -> R) (dy : nat -> nat -> R) : nat -> nat -> R :=
  fun b j => sum D (fun i => w i j * (dy b i * ms i)).
Definition cpu_ir_grad (B D K : nat) (p : irp) (w : nat -> nat -> R) (ms : nat -> R) (ir : R) (x dy : nat -> nat -> R) : R :=
  thres_grad B K p ir x (cpu_x_grad D w ms dy).
