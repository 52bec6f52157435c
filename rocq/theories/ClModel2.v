(** * Converters of the cloud: inference experiments
    Sources: /repo/src/aihwkit/cloud/converter/v1/inferencing.py, rpu_config_info.py, noise_model_info.py, analog_info.py. *)
From Verif Require Import Prelude ClModel.
Local Open Scope string_scope.

(** the dictionary of a noise model; [None]: the key is missing *)
Record noise := { nz_device : string; nz_prog : R; nz_read : R; nz_drift : R; nz_comp : bool; nz_c1 : R; nz_c2 : R; nz_c0 : R; nz_mean : option R; nz_std : option R }.
Record pcm_proto := { np_device : string; np_prog : R; np_read : R; np_drift : R; np_comp : bool; np_c1 : R; np_c2 : R; np_c0 : R }.
Inductive nproto := NPcm (p : pcm_proto) | NGeneric (p : pcm_proto) (mean std : R).
Section F32.
  Context (f32 : R -> R).
  (** inferencing.py:132-167 *)
  Definition noise_to_proto (d : noise) : res nproto :=
    let p := {| np_device := nz_device d; np_prog := f32 (nz_prog d); np_read := f32 (nz_read d); np_drift := f32 (nz_drift d); np_comp := nz_comp d; np_c1 := f32 (nz_c1 d); np_c2 := f32 (nz_c2 d); np_c0 := f32 (nz_c0 d) |} in
    if String.eqb (nz_device d) "pcm" then Ok (NPcm p)
    else match nz_mean d, nz_std d with Some a, Some b => Ok (NGeneric p (f32 a) (f32 b)) | _, _ => Raise KeyError end.
  (** inferencing.py:278-311 *)
  Definition noise_from_proto (p : nproto) : noise :=
    match p with
    | NPcm q => {| nz_device := "pcm"; nz_prog := np_prog q; nz_read := np_read q; nz_drift := np_drift q; nz_comp := np_comp q; nz_c1 := np_c1 q; nz_c2 := np_c2 q; nz_c0 := np_c0 q; nz_mean := None; nz_std := None |}
    | NGeneric q a b => {| nz_device := "generic"; nz_prog := np_prog q; nz_read := np_read q; nz_drift := np_drift q; nz_comp := np_comp q; nz_c1 := np_c1 q; nz_c2 := np_c2 q; nz_c0 := np_c0 q; nz_mean := Some a; nz_std := Some b |}
    end.
  (** ** rpu_config_info.py *)
  Record analog := { an_noise : R; an_adc : Z; an_dac : Z }.
  (** what the configuration of a layer consists of *)
  Inductive nmodel := PCMLike | StateIndependent (nu_mean nu_std : R).
  Record iconfig := { ic_class : string; ic_out_noise : R; ic_out_res : R; ic_inp_res : R; ic_model : nmodel; ic_coeff : list R; ic_prog : R; ic_read : R; ic_drift : R; ic_comp : bool }.
  (** :48-82: the name of the configuration that the analog layers have in common; [None]: not given *)
  Definition config_names (l : list item) : list string :=
    nodup string_dec (flat_map (fun i => match i with
      | ILayer p => if String.prefix "Analog" (p_id p) then flat_map (fun a => if String.eqb (a_name a) "rpu_config" then [a_s a] else []) (p_args p) else []
      | IAct _ => [] end) l).
  Definition common_name (l : option (list item)) : option string :=
    match l with
    | None => Some "WebComposerInferenceRPUConfig"
    | Some l => match config_names l with [] => Some "" | [n] => Some n | _ => None end
    end.
  Definition rpu_classes : list string := ["InferenceRPUConfig"; "WebComposerInferenceRPUConfig"; "OldWebComposerInferenceRPUConfig"].
  (** 1.0 / (2**bits - 2) *)
  Definition resolution (bits : Z) : res R :=
    let d := (if (0 <=? bits)%Z then IZR (2 ^ bits) else / IZR (2 ^ (- bits))) - 2 in
    if Reqb d 0 then Raise ZeroDivisionError else Ok (1 / d).
  (** :134-219; noise_model_info.py:25-58 *)
  Definition create_config (a : analog) (p : nproto) (l : option (list item)) : res iconfig :=
    let q := match p with NPcm q => q | NGeneric q _ _ => q end in
    match common_name l with
    | None => Raise ConfigError
    | Some n =>
        if String.eqb n "" then Raise ConfigError
        else if negb (mem n rpu_classes) then Raise ConfigError
        else
          o <- resolution (an_adc a) ;;
          i <- resolution (an_dac a) ;;
          m <- (if String.eqb (np_device q) "pcm" then Ok PCMLike
                else if String.eqb (np_device q) "generic" then
                  match p with NGeneric _ x y => Ok (StateIndependent x y) | NPcm _ => Raise AttributeError end
                else Raise NoiseModelDeviceIDException) ;;
          Ok {| ic_class := n; ic_out_noise := f32 (an_noise a); ic_out_res := o; ic_inp_res := i; ic_model := m; ic_coeff := [np_c0 q; np_c1 q; np_c2 q];
                ic_prog := np_prog q; ic_read := np_read q; ic_drift := np_drift q; ic_comp := np_comp q |}
    end.
  (** inferencing.py:180-190 *)
  Definition rpu_config_from_info (a : analog) (d : noise) : res iconfig := p <- noise_to_proto d ;; create_config a p None.

End F32.
