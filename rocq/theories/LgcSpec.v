(** * What the user is told about converted checkpoints *)
From Verif Require Import Prelude LgcModel.
Local Open Scope string_scope.

Definition occurs (sub s : string) : Prop := exists a b, s = a ++ sub ++ b.
Definition dotless (s : string) : Prop := ~ occurs "." s.
(** the path of a layer with its dot, or nothing *)
Definition path (p : string) : Prop := p = "" \/ exists q, p = q ++ ".".
(** indices in names: "_0", "_1_2" *)
Definition ending (l : list nat) : string := fold_right (fun n r => "_" ++ str n ++ r) "" l.
Definition dotted (l : list nat) : string := fold_right (fun n r => str n ++ "." ++ r) "" l.
(** a tile, or an array of tiles (row and column) *)
Definition place (l : list nat) : Prop := l = [0%nat] \/ (2 <= List.length l)%nat.
(** where it is in the new structure *)
Definition moved (conv_mapped : bool) (l : list nat) (par : string) : string :=
  match l with [_] => "analog_module." ++ par | _ => (if conv_mapped then "array." else "analog_module.array.") ++ dotted l ++ par end.
(** the layer at path [p] is a mapped convolution *)
Definition is_conv_mapped (layers : list (string * string)) (p : string) : Prop :=
  exists q c, (p = "" /\ q = "" \/ p = q ++ ".") /\ In (q, c) layers /\ occurs "Conv" c /\ occurs "Mapped" c.
(** names of entries *)
Definition known : list string := ["analog_tile_state"; "analog_out_scaling_alpha"; "analog_shared_weights"; "analog_ctx"].
Inductive regular : string -> value -> Prop :=
| r_tile p l s : path p -> ~ occurs "analog_tile_state" p -> place l -> regular (p ++ "analog_tile_state" ++ ending l) (Tile s)
| r_ctx p l v : path p -> ~ occurs "analog_ctx" p -> ~ occurs "analog_tile_state" p -> place l -> regular (p ++ "analog_ctx" ++ ending l) (Other v)
| r_scale p v : path p -> ~ occurs "analog_out_scaling_alpha" p -> ~ occurs "analog_tile_state" p -> regular (p ++ "analog_out_scaling_alpha") (Other v)
| r_shared p l v : path p -> ~ occurs "analog_tile_state" p -> regular (p ++ "analog_shared_weights" ++ ending l) (Other v)
| r_bias p v : path p -> ~ occurs "bias" p -> ~ occurs "analog_tile_state" p -> regular (p ++ "bias") (Other v)
| r_other p name v : path p -> ~ occurs "analog_tile_state" p -> dotless name -> name <> "" -> name <> "bias" -> (forall k, In k known -> ~ exists r, name = k ++ r) -> ~ occurs "analog_tile_state" name -> regular (p ++ name) (Other v).
(** attributes of a tile that go away *)
Definition gone : list string := ["noise_model"; "drift_compensation"; "drift_baseline"; "drift_readout_tensor"; "reference_combined_weights"; "programmed_weights"; "nu_drift_list"; "shared_weights"; "image_sizes"; "bias"; "mapping_scales"; "analog_alpha_scale"].
Fixpoint lookup {A} (n : string) (d : list (string * A)) : option A := match d with [] => None | (m, v) :: r => if String.eqb m n then Some v else lookup n r end.
(** the scale of output [i] *)
Definition scale_of (v : option sval) (i : nat) : R :=
  match v with Some (STen [r]) | Some (SNum r) => r | Some (STen l) => nth i l 0%R | Some (SNat n) => INR n | _ => 1%R end.
Definition fits (v : option sval) (n : nat) : Prop := match v with None | Some (SNum _) | Some (SNat _) | Some (STen [_]) => True | Some (STen l) => List.length l = n | _ => False end.
Definition complete (s : tstate) : Prop :=
  exists n, lookup "out_size" (ts_attrs s) = Some (SNat n) /\ (exists x, lookup "analog_ctx" (ts_attrs s) = Some (STen x)) /\ fits (lookup "mapping_scales" (ts_attrs s)) n /\ fits (lookup "analog_alpha_scale" (ts_attrs s)) n.
(** the new state *)
Definition state_ok (s : attrs) (s' : attrs) : Prop :=
  forall n, lookup n s' = if existsb (String.eqb n) gone then None else if String.eqb n "use_bias" then Some (match lookup "bias" s with Some v => v | None => SBool false end) else lookup n s.
(** what an entry of the checkpoint becomes *)
Inductive entry (layers : list (string * string)) (hm : bool) (chk : dict) : string * value -> dict -> Prop :=
| e_tile p l s c c' a' t cm n al : path p -> place l -> cm = true <-> is_conv_mapped layers p -> ts_cfg s = Some c -> migrate hm c = Ok c' -> state_ok (ts_attrs s) a' ->
    lookup "out_size" (ts_attrs s) = Some (SNat n) -> List.length t = n -> (forall i, (i < n)%nat -> nth i t 0%R = (scale_of (lookup "mapping_scales" (ts_attrs s)) i * scale_of (lookup "analog_alpha_scale" (ts_attrs s)) i)%R) ->
    al = match lookup "alpha" (ts_attrs s) with Some (STen x) => [(p ++ moved cm l "alpha", Other (STen x))] | _ => [] end ->
    entry layers hm chk (p ++ "analog_tile_state" ++ ending l, Tile s) (app al [(p ++ moved cm l "mapping_scales", Other (STen t)); (p ++ moved cm l "analog_tile_state", Tile {| ts_cfg := Some c'; ts_attrs := a' |})])
| e_ctx p l v cm : path p -> place l -> cm = true <-> is_conv_mapped layers p -> entry layers hm chk (p ++ "analog_ctx" ++ ending l, Other v) [(p ++ moved cm l "analog_ctx", Other v)]
| e_scale p v : path p -> entry layers hm chk (p ++ "analog_out_scaling_alpha", Other v) [(p ++ "analog_module.out_scaling_alpha", Other v)]
| e_shared p l v : path p -> entry layers hm chk (p ++ "analog_shared_weights" ++ ending l, Other v) []
| e_bias p v cm : path p -> cm = true <-> is_conv_mapped layers p -> (exists k s, In (k, s) chk /\ exists r, k = p ++ "analog_tile_state" ++ r) -> entry layers hm chk (p ++ "bias", Other v) [(p ++ (if cm then "bias" else "analog_module.bias"), Other v)]
| e_digital p v : path p -> (forall k s, In (k, s) chk -> ~ exists r, k = p ++ "analog_tile_state" ++ r) -> entry layers hm chk (p ++ "bias", Other v) [(p ++ "bias", Other v)]
| e_other p name v : path p -> dotless name -> name <> "" -> name <> "bias" -> (forall k, In k known -> ~ exists r, name = k ++ r) -> entry layers hm chk (p ++ name, Other v) [(p ++ name, Other v)].
(** a dictionary after assignments in an order: the last one counts *)
Definition assigned (d : dict) (l : dict) : Prop := forall n, lookup n d = lookup n (rev l).
(** a configuration with all that is needed *)
Definition upgradable (c : config) : Prop := cf_inference c = false \/ cf_coeffs c <> None \/ forall k, In k ["coeff0"; "coeff1"; "coeff2"] -> lookup k (cf_modifier c) <> None.
Definition usable (v : value) : Prop := match v with Tile s => complete s /\ exists c, ts_cfg s = Some c /\ upgradable c | Other _ => True end.
Definition is_tile (v : value) : Prop := match v with Tile _ => True | Other _ => False end.
Definition mapped_model (layers : list (string * string)) : Prop := exists n c, In (n, c) layers /\ occurs "Mapped" c.
(** the new configuration *)
Definition or_else {A} (a b : option A) : option A := match a with Some _ => a | None => b end.
Definition config_ok (hm : bool) (c c' : config) : Prop :=
  exists m m', (cf_mapping c = Some m \/ cf_mapping c = None /\ m = old_mapping) /\ cf_mapping c' = Some m' /\
    lookup "weight_scaling_omega_columnwise" m' = None /\ lookup "learn_out_scaling_alpha" m' = None /\
    lookup "weight_scaling_columnwise" m' = or_else (lookup "weight_scaling_omega_columnwise" m) (lookup "weight_scaling_columnwise" m) /\
    lookup "learn_out_scaling" m' = or_else (lookup "learn_out_scaling_alpha" m) (lookup "learn_out_scaling" m) /\
    lookup "out_scaling_columnwise" m' = (if lookup "learn_out_scaling_alpha" m then or_else (lookup "weight_scaling_columnwise" m') (Some (SBool false)) else lookup "out_scaling_columnwise" m) /\
    (hm = false -> lookup "max_input_size" m' = Some (SNat 0) /\ lookup "max_output_size" m' = Some (SNat 0)) /\
    (forall n, ~ In n ["weight_scaling_omega_columnwise"; "learn_out_scaling_alpha"; "weight_scaling_columnwise"; "learn_out_scaling"; "out_scaling_columnwise"] -> (hm = true \/ n <> "max_input_size" /\ n <> "max_output_size") -> lookup n m' = lookup n m) /\
    (forall g, cf_pcm c = Some (g, None) -> cf_pcm c' = Some (g, Some g)) /\ (forall g r, cf_pcm c = Some (g, Some r) -> cf_pcm c' = cf_pcm c) /\
    (forall l, cf_coeffs c = Some l -> cf_coeffs c' = Some l) /\ (cf_coeffs c = None -> exists a b d, lookup "coeff0" (cf_modifier c) = Some a /\ lookup "coeff1" (cf_modifier c) = Some b /\ lookup "coeff2" (cf_modifier c) = Some d /\ cf_coeffs c' = Some [a; b; d]) /\
    cf_pre_post c' = true /\ cf_remap c' = true /\ cf_inference c' = true.
