(** * Conversion to low precision modules (nn/low_precision_conversion.py, nn/low_precision_modules/) *)
From Verif Require Import Prelude ConvModel QuantModel.
Local Open Scope nat_scope.

(** ** The module tree *)
(** classes of modules, as far as the conversion distinguishes them: the four classes with a default conversion
    (conversion_utils.py:29-34), analog layers, quantizers and range estimators (conversion_utils.py:35), other classes; and those made by the
    conversion: [TQuant ty cls w a] stands for a quantized module of class [cls] made from one of class [ty] with weight and activation bits,
    [TInputQ b] for a QuantizedInputModule *)
Inductive mtype : Type := TLinear | TLayerNorm | TEmbedding | TConv2d | TAnalogLinear | TAnalogConv2d | TAnalogOther | TLeaf | TOther (n : nat)
| TQuant (ty : mtype) (cls : nat) (w a : Z) | TInputQ (b : Z).
(** the parameters and other constructor arguments of a module, as tokens ([None]: no weight, e.g. a LayerNorm without elementwise_affine) *)
Record payload : Type := { d_w : option nat; d_b : option nat; d_args : nat }.
(** a module: object identity ([None] for objects made by the conversion), class, training mode, parameters, children with their names.  An object that occurs
    more than once among the children of one module has the same identity there; objects shared by different parents are treated as copies *)
Inductive tree : Type := Node (id : option nat) (ty : mtype) (train : bool) (d : payload) (ch : list (nat * tree)).
Definition t_id (t : tree) := match t with Node i _ _ _ _ => i end.
Definition t_ty (t : tree) := match t with Node _ y _ _ _ => y end.
Definition t_train (t : tree) := match t with Node _ _ b _ _ => b end.
Definition t_pay (t : tree) := match t with Node _ _ _ d _ => d end.
Definition t_ch (t : tree) := match t with Node _ _ _ _ c => c end.

(** parameters/quantization.py: QuantizedModuleConfig (the class and the bits) and QuantizationMap.  Module names (dotted strings) are paths *)
Definition path := list nat.
Record mcfg : Type := { c_cls : nat; c_w : Z; c_a : Z }.
Record qmap : Type := { q_excl : list path; q_inst : path -> option mcfg; q_type : mtype -> option mcfg; q_input : path -> option Z }.
Definition path_eqb (a b : path) : bool := if list_eq_dec Nat.eq_dec a b then true else false.
Definition excluded (q : qmap) (p : path) : bool := existsb (path_eqb p) (q_excl q).
Definition selected (q : qmap) (p : path) (ty : mtype) : option mcfg := match q_inst q p with Some c => Some c | None => q_type q ty end.
(** name of the wrapped module in custom quantized modules and in QuantizedInputModule ([self.module]) *)
Definition module_name : nat := 0.
Definition no_payload : payload := {| d_w := None; d_b := None; d_args := 0 |}.

(** low_precision_conversion.py:111-143: the quantized module.  Newly made modules are in training mode *)
Definition convert (c : mcfg) (t : tree) : res tree :=
  let made ty ch := Node None (TQuant ty (c_cls c) (c_w c) (c_a c)) true (t_pay t) ch in
  match t_ty t with
  | TLinear | TLayerNorm | TEmbedding | TConv2d => match d_w (t_pay t) with None => Raise AttributeError | Some _ => Ok (made (t_ty t) []) end
  | TAnalogLinear => Ok (made TLinear [])   (* after convert_to_digital *)
  | TAnalogConv2d => Ok (made TConv2d [])
  | TAnalogOther => Raise AssertionError
  | ty => Ok (made ty [(module_name, t)])
  end.
(** low_precision_conversion.py:155-159 *)
Definition wrap (q : qmap) (p : path) (t : tree) : tree :=
  match q_input q p with None => t | Some b => Node None (TInputQ b) true no_payload [(module_name, t)] end.
(** objects already yielded by named_children (torch), with what became of the object itself *)
Fixpoint seen (i : option nat) (memo : list (option nat * tree)) : option tree :=
  match memo with
  | [] => None
  | (j, t) :: r => match i, j with Some a, Some b => if a =? b then Some t else seen i r | _, _ => seen i r end
  end.
(** low_precision_conversion.py:53-162 quantize_model; [None]: not replaced *)
Fixpoint quantize (q : qmap) (name : path) (t : tree) {struct t} : res (option tree) :=
  match t with
  | Node id ty tr d ch =>
      if excluded q name then Ok None
      else match ty with
      | TLeaf => Ok None
      | _ =>
          match selected q name ty with
          | Some c => if negb ((0 <? c_a c)%Z || (0 <? c_w c)%Z) then Ok (Some t) else r <- convert c t ;; Ok (Some r)
          | None =>
              ch' <- (fix go (memo : list (option nat * tree)) (l : list (nat * tree)) : res (list (nat * tree)) :=
                match l with
                | [] => Ok []
                | (n, m) :: r =>
                    match seen (t_id m) memo with
                    | Some m0 => r' <- go memo r ;; Ok ((n, m0) :: r')
                    | None =>
                        if excluded q (name ++ [n]) then r' <- go ((t_id m, m) :: memo) r ;; Ok ((n, m) :: r')
                        else
                          nm <- quantize q (name ++ [n]) m ;;
                          match nm with
                          | None => r' <- go ((t_id m, m) :: memo) r ;; Ok ((n, m) :: r')
                          | Some m1 =>
                              let self := match t_id m1 with Some _ => m1 | None => m end in
                              r' <- go ((t_id m, self) :: memo) r ;; Ok ((n, wrap q (name ++ [n]) m1) :: r')
                          end
                    end
                end) [] ch ;;
              Ok (Some (Node id ty tr d ch'))
          end
      end
  end.
(** low_precision_conversion.py:26-50 convert_to_quantized (the copy is implicit).  [enable_quant_states(None)] fails *)
Definition convert_to_quantized (q : qmap) (t : tree) : res tree :=
  r <- quantize q [] t ;; match r with None => Raise AttributeError | Some t' => Ok t' end.
(** quantization_states.py:270-291 enable_quant_states: which of weights and activations of a module are quantized.  For a QuantizedInputModule:
    its QuantizedActivation, whose weight flag has no effect *)
Definition enabled (t : tree) : bool * bool :=
  match t_ty t with TQuant _ _ w a => ((0 <? w)%Z, (0 <? a)%Z) | TInputQ b => (false, (0 <? b)%Z) | _ => (false, false) end.

(** ** Padding of quantized convolutions: a Conv2d with one channel, kernel 1 x k and padding p of the width *)
Inductive pmode : Type := PZeros | PCircular | PReplicate.
Definition pad_row (m : pmode) (p : nat) (x : vec) : vec :=
  match m with
  | PZeros => repeat 0%R p ++ x ++ repeat 0%R p
  | PCircular => skipn (length x - p) x ++ x ++ firstn p x
  | PReplicate => repeat (hd 0%R x) p ++ x ++ repeat (last x 0%R) p
  end.
Definition conv_row (k x : vec) : vec := map (fun i => dot k (slice i (i + length k) x)) (seq 0 (length x + 1 - length k)).
(** torch.nn.Conv2d.forward *)
Definition conv2d_forward (m : pmode) (p : nat) (k x : vec) : vec := conv_row k (pad_row m p x).
(** quantized_base_modules.py:36-50 QuantConv2d.run_forward: [padding_mode] is not used *)
Definition quant_conv2d_forward (m : pmode) (p : nat) (k x : vec) : vec := conv_row k (pad_row PZeros p x).

(** ** A quantized layer: weights (C49) and activations *)
Record qlayer : Type := { y_hij : hij; y_act : qman; y_quant_a : bool }.
(** hijacker.py:70-74, 102-120 forward; [run]: run_forward followed by the activation function *)
Definition layer_forward (run : mat -> mat -> mat) (y : qlayer) (x : mat) : res (mat * qlayer) :=
  p <- h_params (y_hij y) ;;
  let z := run (fst p) x in
  if y_quant_a y then
    r <- man_forward (y_act y) z ;; Ok (fst r, {| y_hij := snd p; y_act := snd r; y_quant_a := true |})
  else Ok (z, {| y_hij := snd p; y_act := y_act y; y_quant_a := false |}).
(** a new layer as made by the conversion: bits of weights and activations, then enable_quant_states *)
Definition layer_new (wc ac : qcfg) (we ae : est) (w : mat) : res qlayer :=
  mw <- man_new wc we None ;; ma <- man_new ac ae None ;;
  Ok {| y_hij := {| h_w := w; h_man := mw; h_quant := 0 <? qc_bits wc; h_caching := true; h_cache := None |}; y_act := ma; y_quant_a := 0 <? qc_bits ac |}.
(** base_quantized_classes.py:131-135 train: weights are cached in evaluation mode only *)
Definition layer_train (b : bool) (y : qlayer) : qlayer := {| y_hij := h_step (y_hij y) (HTrain b); y_act := m_with_train (y_act y) b; y_quant_a := y_quant_a y |}.
(** quantization_states.py:93-107 quantized(model): all layers, whatever their bits *)
Definition layer_quantized (y : qlayer) : qlayer :=
  {| y_hij := {| h_w := h_w (y_hij y); h_man := h_man (y_hij y); h_quant := true; h_caching := h_caching (y_hij y); h_cache := None |}; y_act := y_act y; y_quant_a := true |}.

(** ** calibrate_quantization_ranges (inference/calibration/calibration.py:304-370) *)
(** the quantizers of a model, by index; a batch is the list of calls of quantizers that it causes *)
Definition managers := nat -> qman.
Definition mupd (f : managers) (i : nat) (m : qman) : managers := fun j => if j =? i then m else f j.
Definition qcall := (nat * mat)%type.
Fixpoint run_calls (l : list qcall) (f : managers) : managers * option exn :=
  match l with
  | [] => (f, None)
  | (i, x) :: r => match man_forward (f i) x with Ok (_, m) => run_calls r (mupd f i m) | Raise e => (f, Some e) end
  end.
(** calibration.py:347-357: [i > max_num_batches: break] *)
Fixpoint run_batches (max i : nat) (l : list (list qcall)) (f : managers) : managers * option exn :=
  match l with
  | [] => (f, None)
  | b :: r => if max <? i then (f, None) else match run_calls b f with (f1, None) => run_batches max (i + 1) r f1 | p => p end
  end.
Definition fix_if (m : qman) : qman := if initialized (m_q m) then m_with_state m Fixed else m.
Definition calibrate_quant (max : nat) (loader : list (list qcall)) (f : managers) : managers * option exn :=
  let f := fun i => m_with_state (f i) Estimate in                (* estimate_ranges(model) *)
  let f := fun i => m_with_train (f i) false in                   (* model.eval() *)
  match run_batches max 0 loader f with
  | (f, None) => (fun i => fix_if (f i), None)                    (* fix_ranges, fix_act_ranges, fix_weight_ranges *)
  | p => p
  end.

(** ** Learning of ranges *)
(** a manager and whether the parameters of its quantizer require gradients *)
Record tman : Type := { u_man : qman; u_req : bool }.
(** in-place changes of the parameters raise if they require gradients and gradients are recorded; resizing always raises
    (quantizers.py:332-340, 569-574) *)
Definition tman_forward (grad : bool) (u : tman) (x : mat) : res (mat * tman) :=
  match m_est (u_man u) with
  | None => Raise AttributeError
  | Some _ =>
      let est := match m_state (u_man u) with Estimate => true | EstimateTrain => m_train (u_man u) | _ => false end in
      if est && u_req u && (grad || negb (initialized (m_q (u_man u)))) then
        match estimate (match m_est (u_man u) with Some e => e | None => CurrentMinMax end) (qc_pc (m_cfg (u_man u))) (m_cur (u_man u)) x with
        | Ok _ => Raise RuntimeError
        | Raise e => Raise e
        end
      else r <- man_forward (u_man u) x ;; Ok (fst r, {| u_man := snd r; u_req := u_req u |})
  end.
(** calls on a manager with learnable ranges; [UStep ps]: a step of an optimizer that holds the parameters of the quantizer and has gradients for them,
    which gives them the values [ps]; it has an effect only on parameters that require gradients *)
Inductive uop : Type := UForward (grad : bool) (x : mat) | UTrain (b : bool) | UEstimate | UFix | ULearn | UEstimateTrain | UReset | UStep (ps : list qpar).
Definition tman_step (u : tman) (o : uop) : tman :=
  let keep m := {| u_man := m; u_req := u_req u |} in
  match o with
  | UForward g x => match tman_forward g u x with Ok (_, u') => u' | Raise _ => u end
  | UTrain b => keep (m_with_train (u_man u) b)
  | UEstimate => keep (m_with_state (u_man u) Estimate)
  | UFix => keep (fix_if (u_man u))                                   (* base_quantized_classes.py:20-23 *)
  | ULearn => if initialized (m_q (u_man u)) then {| u_man := m_with_state (u_man u) Learn; u_req := true |} else u   (* base_quantized_classes.py:14-17; quantization_manager.py:110-112 *)
  | UEstimateTrain => keep (m_with_state (u_man u) EstimateTrain)
  | UReset => match man_reset (u_man u) with Ok m => {| u_man := m; u_req := false |} | Raise _ => u end
  | UStep ps => if u_req u then keep (m_with_q (u_man u) {| qs_par := match qs_par (m_q (u_man u)) with Some o => if length o =? length ps then Some ps else Some o | None => None end; qs_signed := qs_signed (m_q (u_man u)) |}) else u
  end.

(** ** State dictionary of a manager *)
(** [_delta], [_zero_float] ([None]: the NaN placeholder), [_signed] and [current_xmin], [current_xmax] (buffers are left out of the dictionary if None).
    The state (fixed, learning, ...) is not in the dictionary *)
Record qdict : Type := { z_par : option (list qpar); z_signed : option bool; z_cur : option (vec * vec) }.
Definition man_dict (m : qman) : qdict :=
  {| z_par := qs_par (m_q m); z_signed := qs_signed (m_q m); z_cur := m_cur m |}.
(** quantizers.py:185-213, 438-466; range_estimators.py:57-71.  Loading in place raises if the parameters require gradients; a missing buffer that the
    manager has is a missing key.  The dictionary is one of a manager with the same configuration.  [req]: the parameters require gradients *)
Definition man_load (req : bool) (m : qman) (z : qdict) : res qman :=
  if req then Raise RuntimeError
  else match z_signed z, qs_signed (m_q m), z_cur z, m_cur m with
  | None, Some _, _, _ => Raise RuntimeError
  | _, _, None, Some _ => Raise RuntimeError
  | _, _, _, _ => Ok {| m_cfg := m_cfg m; m_est := m_est m; m_cur := z_cur z; m_q := {| qs_par := z_par z; qs_signed := z_signed z |}; m_state := m_state m; m_train := m_train m |}
  end.
