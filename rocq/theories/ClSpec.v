(** * Layers that the exchange format can express, as constructor calls of the user *)
From Verif Require Import Prelude ClModel.
Local Open Scope string_scope.

Inductive layer :=
| LAnalogConv2d (i o : Z) (k s p d : Z * Z) (preset : string)
| LAnalogLinear (i o : Z) (preset : string)
| LBatchNorm2d (n : Z)
| LConv2d (i o : Z) (k s p d : Z * Z) (bias : bool)
| LConvTranspose2d (i o : Z) (k s p op d : Z * Z) (bias : bool)
| LFlatten
| LLinear (i o : Z) (bias : bool)
| LMaxPool2d (k : Z) (s : option Z) (p d : Z) (ceil : bool)
| LLeakyReLU (slope : R) | LLogSigmoid | LLogSoftmax (dim : Z) | LReLU | LSigmoid | LSoftmax (dim : Z) | LTanh.
Definition pr (p : Z * Z) : val := VInts [fst p; snd p].
(** a new configuration of a preset class *)
Definition fresh_preset (s : string) : val := VRpu {| rc_class := s; rc_omega := 0; rc_other := 0 |}.
(** the constructor call *)
Definition call (l : layer) : cls * dict :=
  match l with
  | LAnalogConv2d i o k s p d c => (CAnalogConv2d, [("in_channels", VInt i); ("out_channels", VInt o); ("kernel_size", pr k); ("stride", pr s); ("padding", pr p); ("dilation", pr d); ("rpu_config", fresh_preset c)])
  | LAnalogLinear i o c => (CAnalogLinear, [("in_features", VInt i); ("out_features", VInt o); ("rpu_config", fresh_preset c)])
  | LBatchNorm2d n => (CBatchNorm2d, [("num_features", VInt n)])
  | LConv2d i o k s p d b => (CConv2d, [("in_channels", VInt i); ("out_channels", VInt o); ("kernel_size", pr k); ("stride", pr s); ("padding", pr p); ("dilation", pr d); ("bias", VBool b)])
  | LConvTranspose2d i o k s p op d b => (CConvTranspose2d, [("in_channels", VInt i); ("out_channels", VInt o); ("kernel_size", pr k); ("stride", pr s); ("padding", pr p); ("output_padding", pr op); ("dilation", pr d); ("bias", VBool b)])
  | LFlatten => (CFlatten, [])
  | LLinear i o b => (CLinear, [("in_features", VInt i); ("out_features", VInt o); ("bias", VBool b)])
  | LMaxPool2d k s p d c => (CMaxPool2d, [("kernel_size", VInt k); ("stride", match s with Some z => VInt z | None => VNone end); ("padding", VInt p); ("dilation", VInt d); ("ceil_mode", VBool c)])
  | LLeakyReLU a => (CLeakyReLU, [("negative_slope", VFloat a)])
  | LLogSigmoid => (CLogSigmoid, []) | LLogSoftmax z => (CLogSoftmax, [("dim", VInt z)]) | LReLU => (CReLU, []) | LSigmoid => (CSigmoid, [])
  | LSoftmax z => (CSoftmax, [("dim", VInt z)]) | LTanh => (CTanh, [])
  end.
Definition made (l : layer) (m : md) : Prop := construct (fst (call l)) (snd (call l)) = Ok m.
(** numbers fit into 64 bits, configurations are presets *)
Definition fits1 (z : Z) : Prop := (- 2 ^ 63 <= z < 2 ^ 63)%Z.
Definition fits2 (p : Z * Z) : Prop := fits1 (fst p) /\ fits1 (snd p).
Definition fits (l : layer) : Prop :=
  match l with
  | LAnalogConv2d i o k s p d c => fits1 i /\ fits1 o /\ fits2 k /\ fits2 s /\ fits2 p /\ fits2 d /\ In c presets
  | LAnalogLinear i o c => fits1 i /\ fits1 o /\ In c presets
  | LBatchNorm2d n => fits1 n
  | LConv2d i o k s p d _ => fits1 i /\ fits1 o /\ fits2 k /\ fits2 s /\ fits2 p /\ fits2 d
  | LConvTranspose2d i o k s p op d _ => fits1 i /\ fits1 o /\ fits2 k /\ fits2 s /\ fits2 p /\ fits2 op /\ fits2 d
  | LLinear i o _ => fits1 i /\ fits1 o
  | LMaxPool2d k s p d _ => fits1 k /\ match s with Some z => fits1 z | None => True end /\ fits1 p /\ fits1 d
  | LLogSoftmax z | LSoftmax z => fits1 z
  | _ => True
  end.
(** what single precision does *)
Definition rounded (f32 : R -> R) (l : layer) : layer := match l with LLeakyReLU a => LLeakyReLU (f32 a) | _ => l end.
