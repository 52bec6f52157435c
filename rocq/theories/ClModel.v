(** * Converters of the cloud: experiments to the exchange format and back
    Sources: /repo/src/aihwkit/cloud/converter/v1/mappings.py, training.py.
    The exchange format is protobuf (definitions/onnx_common_pb2.py and others): numbers of type float are of single
    precision ([f32] is the rounding), integers are of 64 bits, fields that are not set read as 0, and setting a field to a
    value of another type raises TypeError.  The constructors of the torch classes are modelled by their parameters with
    defaults and what they store. *)
From Verif Require Import Prelude.
Local Open Scope string_scope.

(** a resistive processing unit configuration: its class, [mapping.weight_scaling_omega], and everything else (0: as in
    a new one) *)
Record rpu := { rc_class : string; rc_omega : R; rc_other : nat }.
Inductive val := VInt (z : Z) | VBool (b : bool) | VStr (s : string) | VFloat (r : R) | VInts (l : list Z) | VNone | VTensor | VRpu (c : rpu).
Definition dict := list (string * val).
Fixpoint lookup {A} (k : string) (d : list (string * A)) : option A :=
  match d with [] => None | (n, v) :: r => if String.eqb n k then Some v else lookup k r end.
Definition has {A} (k : string) (d : list (string * A)) : bool := match lookup k d with Some _ => true | None => false end.

Inductive cls := CAnalogConv2d | CAnalogLinear | CBatchNorm2d | CConv2d | CConvTranspose2d | CFlatten | CLinear | CMaxPool2d
  | CLeakyReLU | CLogSigmoid | CLogSoftmax | CReLU | CSigmoid | CSoftmax | CTanh | COther (name : string).
Definition cls_eqb (a b : cls) : bool :=
  match a, b with
  | CAnalogConv2d, CAnalogConv2d | CAnalogLinear, CAnalogLinear | CBatchNorm2d, CBatchNorm2d | CConv2d, CConv2d | CConvTranspose2d, CConvTranspose2d
  | CFlatten, CFlatten | CLinear, CLinear | CMaxPool2d, CMaxPool2d | CLeakyReLU, CLeakyReLU | CLogSigmoid, CLogSigmoid | CLogSoftmax, CLogSoftmax
  | CReLU, CReLU | CSigmoid, CSigmoid | CSoftmax, CSoftmax | CTanh, CTanh => true
  | COther x, COther y => String.eqb x y
  | _, _ => false
  end.
(** a module: its attributes are its constructor parameters as stored *)
Record md := { md_cls : cls; md_attr : dict }.

(** ** Constructors (PyTorch; nn/modules/linear.py:43-92, conv.py:225-267 of the analog layers) *)
(** how a parameter is stored *)
Inductive store := SPlain | SPair | SBiasTensor | SOr (other : string).
Definition put (s : store) (kw : dict) (v : val) : val :=
  match s, v with
  | SPair, VInt z => VInts [z; z]
  | SBiasTensor, VBool b => if b then VTensor else VNone
  | SOr p, VNone => match lookup p kw with Some w => w | None => VNone end
  | _, _ => v
  end.
Definition param := (string * option val * store)%type.
Definition conv_params (analog : bool) : list param :=
  [("in_channels", None, SPlain); ("out_channels", None, SPlain); ("kernel_size", None, SPair); ("stride", Some (VInt 1), SPair);
   ("padding", Some (VInt 0), SPair); ("dilation", Some (VInt 1), SPair); ("groups", Some (VInt 1), SPlain);
   ("bias", Some (VBool true), if analog then SPlain else SBiasTensor); ("padding_mode", Some (VStr "zeros"), SPlain)].
Definition params (c : cls) : list param :=
  match c with
  | CAnalogConv2d => (conv_params true ++ [("rpu_config", Some (VRpu {| rc_class := "SingleRPUConfig"; rc_omega := 0; rc_other := 0 |}), SPlain)])%list
  | CAnalogLinear => [("in_features", None, SPlain); ("out_features", None, SPlain); ("bias", Some (VBool true), SPlain); ("rpu_config", Some (VRpu {| rc_class := "SingleRPUConfig"; rc_omega := 0; rc_other := 0 |}), SPlain)]
  | CBatchNorm2d => [("num_features", None, SPlain); ("eps", Some (VFloat (1 / 10 ^ 5)), SPlain); ("momentum", Some (VFloat (1 / 10)), SPlain); ("affine", Some (VBool true), SPlain); ("track_running_stats", Some (VBool true), SPlain)]
  | CConv2d => conv_params false
  | CConvTranspose2d => [("in_channels", None, SPlain); ("out_channels", None, SPlain); ("kernel_size", None, SPair); ("stride", Some (VInt 1), SPair);
      ("padding", Some (VInt 0), SPair); ("output_padding", Some (VInt 0), SPair); ("groups", Some (VInt 1), SPlain); ("bias", Some (VBool true), SBiasTensor); ("dilation", Some (VInt 1), SPair); ("padding_mode", Some (VStr "zeros"), SPlain)]
  | CFlatten => [("start_dim", Some (VInt 1), SPlain); ("end_dim", Some (VInt (-1)), SPlain)]
  | CLinear => [("in_features", None, SPlain); ("out_features", None, SPlain); ("bias", Some (VBool true), SBiasTensor)]
  | CMaxPool2d => [("kernel_size", None, SPlain); ("stride", Some VNone, SOr "kernel_size"); ("padding", Some (VInt 0), SPlain); ("dilation", Some (VInt 1), SPlain); ("return_indices", Some (VBool false), SPlain); ("ceil_mode", Some (VBool false), SPlain)]
  | CLeakyReLU => [("negative_slope", Some (VFloat (1 / 100)), SPlain); ("inplace", Some (VBool false), SPlain)]
  | CReLU => [("inplace", Some (VBool false), SPlain)]
  | CLogSoftmax | CSoftmax => [("dim", Some VNone, SPlain)]
  | CLogSigmoid | CSigmoid | CTanh | COther _ => []
  end.
Definition construct (c : cls) (kw : dict) : res md :=
  if forallb (fun p => existsb (fun q => String.eqb (fst (fst q)) (fst p)) (params c)) kw then
    a <- mapM (fun p => let '(n, d, s) := p in
                match lookup n kw with
                | Some v => Ok (n, put s kw v)
                | None => match d with Some v => Ok (n, put s kw v) | None => Raise TypeError end
                end) (params c) ;;
    Ok {| md_cls := c; md_attr := a |}
  else Raise TypeError.

(** ** The exchange format *)
(** AttributeProto (onnx_common_pb2.py) *)
Record aproto := { a_name : string; a_f : R; a_i : Z; a_s : string; a_b : bool; a_ints : list Z }.
Definition a_new (n : string) : aproto := {| a_name := n; a_f := 0; a_i := 0; a_s := ""; a_b := false; a_ints := [] |}.
Record fproto := { p_id : string; p_args : list aproto }.
(** LayerOrActivationFunction *)
Inductive item := ILayer (p : fproto) | IAct (p : fproto).
Definition int64 (z : Z) : bool := ((- 2 ^ 63 <=? z) && (z <? 2 ^ 63))%Z%bool.

Inductive ty := TInt | TBool | TStr | TFloat | TInts.
(** mappings.py:149-313 [Mappings], in its order *)
Definition conv_args : list (string * ty) := [("in_channels", TInt); ("out_channels", TInt); ("kernel_size", TInts); ("stride", TInts); ("padding", TInts); ("dilation", TInts); ("bias", TBool)].
Definition layers : list (cls * (string * list (string * ty))) :=
  [(CAnalogConv2d, ("AnalogConv2d", (conv_args ++ [("rpu_config", TStr); ("weight_scaling_omega", TFloat)])%list));
   (CAnalogLinear, ("AnalogLinear", [("in_features", TInt); ("out_features", TInt); ("bias", TBool); ("rpu_config", TStr); ("weight_scaling_omega", TFloat)]));
   (CBatchNorm2d, ("BatchNorm2d", [("num_features", TInt)]));
   (CConv2d, ("Conv2d", conv_args));
   (CConvTranspose2d, ("ConvTranspose2d", [("in_channels", TInt); ("out_channels", TInt); ("kernel_size", TInts); ("stride", TInts); ("padding", TInts); ("output_padding", TInts); ("dilation", TInts); ("bias", TBool)]));
   (CFlatten, ("Flatten", []));
   (CLinear, ("Linear", [("in_features", TInt); ("out_features", TInt); ("bias", TBool)]));
   (CMaxPool2d, ("MaxPool2d", [("kernel_size", TInt); ("stride", TInt); ("padding", TInt); ("dilation", TInt); ("ceil_mode", TBool)]))].
Definition activations : list (cls * (string * list (string * ty))) :=
  [(CLeakyReLU, ("LeakyReLU", [("negative_slope", TFloat)])); (CLogSigmoid, ("LogSigmoid", [])); (CLogSoftmax, ("LogSoftmax", [("dim", TInt)]));
   (CReLU, ("ReLU", [])); (CSigmoid, ("Sigmoid", [])); (CSoftmax, ("Softmax", [("dim", TInt)])); (CTanh, ("Tanh", []))].
Definition losses : list string := ["BCELoss"; "CrossEntropyLoss"; "MSELoss"; "NLLLoss"].
Definition datasets : list (string * string) := [("FashionMNIST", "fashion_mnist"); ("SVHN", "svhn")].
Definition presets : list string :=
  ["ReRamESPreset"; "ReRamSBPreset"; "CapacitorPreset"; "EcRamPreset"; "IdealizedPreset"; "PCMPreset"; "MixedPrecisionReRamESPreset"; "MixedPrecisionReRamSBPreset";
   "MixedPrecisionCapacitorPreset"; "MixedPrecisionEcRamPreset"; "MixedPrecisionIdealizedPreset"; "MixedPrecisionPCMPreset"; "TikiTakaReRamESPreset"; "TikiTakaReRamSBPreset";
   "TikiTakaCapacitorPreset"; "TikiTakaEcRamPreset"; "TikiTakaIdealizedPreset"].
Definition mem (s : string) (l : list string) : bool := existsb (String.eqb s) l.
Fixpoint assoc_cls {A} (c : cls) (l : list (cls * A)) : option A := match l with [] => None | (k, v) :: r => if cls_eqb k c then Some v else assoc_cls c r end.
(** mappings.py:293-313: the inverse mappings *)
Definition find_id {A} (s : string) (l : list (cls * (string * A))) : option (cls * A) :=
  match find (fun p => String.eqb (fst (snd p)) s) l with Some (c, (_, a)) => Some (c, a) | None => None end.
Definition find_snd (s : string) (l : list (string * string)) : option string :=
  match find (fun p => String.eqb (snd p) s) l with Some (a, _) => Some a | None => None end.

Section F32.
  Context (f32 : R -> R).
  (** ** To the format *)
  (** mappings.py:121-143, 85-111: the value of a field; [is_layer]: a LayerFunction *)
  Definition field_value (is_layer : bool) (m : md) (n : string) : res val :=
    let plain := match lookup n (md_attr m) with Some v => v | None => VNone end in
    if is_layer then
      if String.eqb n "bias" then Ok (VBool (match lookup "bias" (md_attr m) with Some VNone | None => false | Some _ => true end))
      else if String.eqb n "weight_scaling_omega" then match lookup "rpu_config" (md_attr m) with Some (VRpu c) => Ok (VFloat (rc_omega c)) | _ => Raise AttributeError end
      else if String.eqb n "rpu_config" then match lookup "rpu_config" (md_attr m) with Some (VRpu c) => if mem (rc_class c) presets then Ok (VStr (rc_class c)) else Raise ConversionError | _ => Raise AttributeError end
      else Ok plain
    else Ok plain.
  (** mappings.py:91-116 *)
  Definition set_field (n : string) (t : ty) (v : val) : res aproto :=
    let a := a_new n in
    match t, v with
    | TInt, VInt z => if int64 z then Ok {| a_name := n; a_f := 0; a_i := z; a_s := ""; a_b := false; a_ints := [] |} else Raise ValueError
    | TInt, VBool b => Ok {| a_name := n; a_f := 0; a_i := if b then 1 else 0; a_s := ""; a_b := false; a_ints := [] |}
    | TBool, VBool b => Ok {| a_name := n; a_f := 0; a_i := 0; a_s := ""; a_b := b; a_ints := [] |}
    | TBool, VInt z => Ok {| a_name := n; a_f := 0; a_i := 0; a_s := ""; a_b := negb (z =? 0)%Z; a_ints := [] |}
    | TStr, VStr s => Ok {| a_name := n; a_f := 0; a_i := 0; a_s := s; a_b := false; a_ints := [] |}
    | TStr, _ => Raise AttributeError
    | TFloat, VFloat r => Ok {| a_name := n; a_f := f32 r; a_i := 0; a_s := ""; a_b := false; a_ints := [] |}
    | TFloat, VInt z => Ok {| a_name := n; a_f := f32 (IZR z); a_i := 0; a_s := ""; a_b := false; a_ints := [] |}
    | TInts, VInts l => if forallb int64 l then Ok {| a_name := n; a_f := 0; a_i := 0; a_s := ""; a_b := false; a_ints := l |} else Raise ValueError
    | TInts, VInt z => if int64 z then Ok {| a_name := n; a_f := 0; a_i := 0; a_s := ""; a_b := false; a_ints := [z; z] |} else Raise ValueError
    | _, _ => Raise TypeError
    end.
  Definition fun_to_proto (is_layer : bool) (id : string) (args : list (string * ty)) (m : md) : res fproto :=
    l <- mapM (fun a => v <- field_value is_layer m (fst a) ;; set_field (fst a) (snd a) v) args ;;
    Ok {| p_id := id; p_args := l |}.
  (** ** From the format *)
  (** mappings.py:113-119, 145-163: the constructor argument *)
  Definition argument (is_layer : bool) (t : ty) (a : aproto) : res val :=
    if (is_layer && String.eqb (a_name a) "rpu_config")%bool then
      if mem (a_s a) presets then Ok (VRpu {| rc_class := a_s a; rc_omega := 0; rc_other := 0 |}) else Raise ConversionError
    else Ok match t with TInt => VInt (a_i a) | TBool => VBool (a_b a) | TStr => VStr (a_s a) | TFloat => VFloat (a_f a) | TInts => VInts (a_ints a) end.
  (** mappings.py:118-147 *)
  Definition fun_from_proto (is_layer : bool) (c : cls) (args : list (string * ty)) (p : fproto) : res md :=
    kw <- mapM (fun a => match lookup (a_name a) args with
                         | None => Raise KeyError
                         | Some t => v <- argument is_layer t a ;; Ok (a_name a, v)
                         end) (p_args p) ;;
    if has "weight_scaling_omega" kw then
      (* [weights_scaling_omega] of the mapping is set, which nothing reads *)
      match lookup "rpu_config" kw with
      | Some (VRpu _) => construct c (filter (fun p => negb (String.eqb (fst p) "weight_scaling_omega")) kw)
      | _ => Raise ConversionError
      end
    else construct c kw.

  (** ** Networks: training.py:77-106, 128-146.  A model has children with identities; [children()] yields every object
      once. *)
  Record net := { n_sequential : bool; n_children : list (nat * md) }.
  Fixpoint children (seen : list nat) (l : list (nat * md)) : list md :=
    match l with
    | [] => []
    | (i, m) :: r => if existsb (Nat.eqb i) seen then children seen r else m :: children (i :: seen) r
    end.
  Definition supported (m : md) : bool := match assoc_cls (md_cls m) layers with Some _ => true | None => match assoc_cls (md_cls m) activations with Some _ => true | None => false end end.
  Definition item_to_proto (m : md) : res item :=
    match assoc_cls (md_cls m) layers with
    | Some (id, args) => p <- fun_to_proto true id args m ;; Ok (ILayer p)
    | None => match assoc_cls (md_cls m) activations with
              | Some (id, args) => p <- fun_to_proto false id args m ;; Ok (IAct p)
              | None => Raise KeyError
              end
    end.
  Definition model_to_proto (n : net) : res (list item) :=
    if negb (n_sequential n) then Raise ConversionError
    else if negb (forallb supported (children [] (n_children n))) then Raise ConversionError
    else mapM item_to_proto (children [] (n_children n)).
  Definition item_from_proto (i : item) : res md :=
    match i with
    | ILayer p => match find_id (p_id p) layers with Some (c, args) => fun_from_proto true c args p | None => Raise KeyError end
    | IAct p => match find_id (p_id p) activations with Some (c, args) => fun_from_proto false c args p | None => Raise KeyError end
    end.
  Definition model_from_proto (l : list item) : res net :=
    ms <- mapM item_from_proto l ;; Ok {| n_sequential := true; n_children := combine (seq 0 (length ms)) ms |}.

  (** ** Experiments: training.py:45-76, 107-127 *)
  Record experiment := { e_dataset : string; e_model : net; e_batch : Z; e_loss : string; e_epochs : Z; e_lr : R }.
  Record tproto := { t_dataset : string; t_batch : Z; t_net : list item; t_epochs : Z; t_lr : R; t_loss : string }.
  Definition to_proto (e : experiment) : res tproto :=
    d <- (match lookup (e_dataset e) datasets with Some d => Ok d | None => Raise ConversionError end) ;;
    b <- (if int64 (e_batch e) then Ok (e_batch e) else Raise ValueError) ;;
    n <- model_to_proto (e_model e) ;;
    l <- (if mem (e_loss e) losses then Ok (e_loss e) else Raise ConversionError) ;;
    p <- (if int64 (e_epochs e) then Ok (e_epochs e) else Raise ValueError) ;;
    Ok {| t_dataset := d; t_batch := b; t_net := n; t_epochs := p; t_lr := f32 (e_lr e); t_loss := l |}.
  Definition from_proto (t : tproto) : res experiment :=
    d <- (match find_snd (t_dataset t) datasets with Some d => Ok d | None => Raise KeyError end) ;;
    n <- model_from_proto (t_net t) ;;
    l <- (if mem (t_loss t) losses then Ok (t_loss t) else Raise KeyError) ;;
    Ok {| e_dataset := d; e_model := n; e_batch := t_batch t; e_loss := l; e_epochs := t_epochs t; e_lr := t_lr t |}.
End F32.
