(** * Conversion of checkpoints from before version 0.8 (utils/legacy.py)
    Source: /repo/src/aihwkit/utils/legacy.py:24-212; use: /repo/src/aihwkit/experiments/experiments/inferencing.py:170-196.
    Dictionaries are association lists in their order.  Everything is on a deep copy (:83), so nothing of the argument
    changes.  The copy keeps configurations shared between tiles shared; migrating one twice is the same as once
    ([LgcProps.migrate_idem]), so the model holds configurations by value. *)
From Coq Require Import Ascii DecimalString.
From Verif Require Import Prelude.
Local Open Scope string_scope.

(** ** Python strings *)
(** [s.split(c)] for one character *)
Fixpoint split1 (c : ascii) (s : string) : list string :=
  match s with
  | "" => [""]
  | String a r => if Ascii.eqb a c then "" :: split1 c r else match split1 c r with h :: t => String a h :: t | [] => [String a ""] end
  end.
(** [s.split(sub)[0]]; an empty separator is a ValueError *)
Definition before (sub s : string) : res string :=
  if String.eqb sub "" then Raise ValueError else Ok (match index 0 sub s with Some n => substring 0 n s | None => s end).
(** text after position [n] *)
Definition drop (n : nat) (s : string) : string := substring n (String.length s - n) s.
(** [s.split(sub)[-1]] and [s.replace(sub, rep)] for a non-empty separator *)
Fixpoint after_last_ (fuel : nat) (sub s : string) : string :=
  match fuel with
  | O => s
  | S f => match index 0 sub s with Some n => after_last_ f sub (drop (n + String.length sub) s) | None => s end
  end.
Definition after_last (sub s : string) : string := after_last_ (S (String.length s)) sub s.
Fixpoint replace_ (fuel : nat) (sub rep s : string) : string :=
  match fuel with
  | O => s
  | S f => match index 0 sub s with Some n => substring 0 n s ++ rep ++ replace_ f sub rep (drop (n + String.length sub) s) | None => s end
  end.
Definition replace (sub rep s : string) : string := replace_ (S (String.length s)) sub rep s.
Definition contains (sub s : string) : bool := match index 0 sub s with Some _ => true | None => false end.
(** [str(n)]; [int(s)] for digits only (signs, blanks and other digits are not modelled) *)
Definition str (n : nat) : string := NilZero.string_of_uint (Nat.to_uint n).
Definition int (s : string) : res nat := match NilZero.uint_of_string s with Some u => Ok (Nat.of_uint u) | None => Raise ValueError end.

(** ** Values *)
Inductive sval := STen (l : list R) | SNum (r : R) | SBool (b : bool) | SNat (n : nat) | SOther (n : nat).
Definition attrs := list (string * sval).
Fixpoint get (n : string) (d : attrs) : option sval := match d with [] => None | (m, v) :: r => if String.eqb m n then Some v else get n r end.
Fixpoint put {A} (n : string) (v : A) (d : list (string * A)) : list (string * A) := match d with [] => [(n, v)] | (m, w) :: r => if String.eqb m n then (m, v) :: r else (m, w) :: put n v r end.
Definition del {A} (n : string) (d : list (string * A)) : list (string * A) := filter (fun p => negb (String.eqb (fst p) n)) d.
(** an inference configuration: attributes of [mapping] (None: there is no such attribute), g_max and
    prog_coeff_g_max_reference of a PCM noise model, whether [pre_post] and [remap] exist, the modifier *)
Record config := { cf_inference : bool; cf_mapping : option attrs; cf_pcm : option (R * option R); cf_pre_post : bool; cf_remap : bool; cf_coeffs : option (list R); cf_modifier : list (string * R) }.
Record tstate := { ts_cfg : option config; ts_attrs : attrs }.
Inductive value := Tile (s : tstate) | Other (v : sval).
Definition dict := list (string * value).

(** ** Configurations *)
(** presets/web.py:121-135 *)
Definition old_mapping : attrs :=
  [("digital_bias", SBool false); ("weight_scaling_omega", SNum 1); ("weight_scaling_columnwise", SBool true); ("learn_out_scaling", SBool false); ("out_scaling_columnwise", SBool false); ("max_input_size", SNat 0); ("max_output_size", SNat 0)].
(** attribute of the object, else of the class (parameters/mapping.py:53) *)
Definition columnwise (m : attrs) : sval := match get "weight_scaling_columnwise" m with Some v => v | None => SBool false end.
Definition rename (old new : string) (m : attrs) : attrs := match get old m with Some v => put new v (del old m) | None => m end.
(** legacy.py:90-133 *)
Definition migrate (has_mapped : bool) (c : config) : res config :=
  if negb (cf_inference c) then Ok c
  else
    let m := match cf_mapping c with Some m => m | None => old_mapping end in
    let m := rename "weight_scaling_omega_columnwise" "weight_scaling_columnwise" m in
    let m := match get "learn_out_scaling_alpha" m with
             | Some v => let m' := put "learn_out_scaling" v (del "learn_out_scaling_alpha" m) in put "out_scaling_columnwise" (columnwise m') m'
             | None => m
             end in
    let m := if has_mapped then m else put "max_output_size" (SNat 0) (put "max_input_size" (SNat 0) m) in
    let pcm := match cf_pcm c with Some (g, None) => Some (g, Some g) | p => p end in
    let co (n : string) : res R := match find (fun p => String.eqb (fst p) n) (cf_modifier c) with Some (_, r) => Ok r | None => Raise KeyError end in
    k <- match cf_coeffs c with
         | Some l => Ok (Some l, cf_modifier c)
         | None => a <- co "coeff0" ;; b <- co "coeff1" ;; d <- co "coeff2" ;; Ok (Some [a; b; d], del "coeff2" (del "coeff1" (del "coeff0" (cf_modifier c))))
         end ;;
    Ok {| cf_inference := true; cf_mapping := Some m; cf_pcm := pcm; cf_pre_post := true; cf_remap := true; cf_coeffs := fst k; cf_modifier := snd k |}.

(** ** Keys *)
(** legacy.py:49-54; [layers]: names of the analog layers of the model and their classes *)
Definition check_conv_mapped (layers : list (string * string)) (prefix : string) : bool :=
  match find (fun p => String.eqb (fst p) (substring 0 (String.length prefix - 1) prefix)) layers with
  | Some (_, c) => contains "Conv" c && contains "Mapped" c
  | None => false
  end.
(** legacy.py:56-73; :62 adds the list, not its element *)
Definition get_key_from_ending (layers : list (string * string)) (key_name par_name prefix : string) : res string :=
  let ending := after_last par_name key_name in
  arr <- mapM int (filter (fun v => negb (String.eqb v "")) (split1 "_" ending)) ;;
  Ok (match arr with
      | [0%nat] => "analog_module." ++ par_name
      | [n] => "analog_module." ++ par_name ++ "." ++ "[" ++ str n ++ "]"
      | [] => "analog_module." ++ par_name ++ ending
      | _ => fold_left (fun k n => k ++ "." ++ str n) arr (if check_conv_mapped layers prefix then "array" else "analog_module.array") ++ "." ++ par_name
      end).

(** ** Entries *)
(** legacy.py:149-160 *)
Definition dropped : list string := ["noise_model"; "drift_compensation"; "drift_baseline"; "drift_readout_tensor"; "reference_combined_weights"; "programmed_weights"; "nu_drift_list"; "shared_weights"; "image_sizes"].
(** [t *= v] in place for a vector *)
Definition mul (t : list R) (v : sval) : res (list R) :=
  match v with
  | SNum r => Ok (map (fun x => x * r)%R t)
  | STen [r] => Ok (map (fun x => x * r)%R t)
  | STen l => if Nat.eqb (List.length l) (List.length t) then Ok (map2 Rmult t l) else Raise RuntimeError
  | SNat n => Ok (map (fun x => x * INR n)%R t)
  | _ => Raise TypeError
  end.
(** legacy.py:145-190; result: the entries in order of insertion, and the configuration *)
Definition convert_tile (new_key : string) (s : tstate) : res (dict * config) :=
  let a := fold_left (fun d k => del k d) dropped (ts_attrs s) in
  let bias := match get "bias" a with Some v => v | None => SBool false end in
  let a := put "use_bias" bias (del "bias" a) in
  let alpha := match get "alpha" a with Some (STen l) => [(replace "analog_tile_state" "alpha" new_key, Other (STen l))] | _ => [] end in
  match get "out_size" a, ts_cfg s, get "analog_ctx" a with
  | Some (SNat n), Some c, Some (STen _) =>
      let p_key := replace "analog_tile_state" "mapping_scales" new_key in
      t <- match get "mapping_scales" a with Some v => mul (repeat 1%R n) v | None => Ok (repeat 1%R n) end ;;
      let a := del "mapping_scales" a in
      t <- match get "analog_alpha_scale" a with Some v => mul t v | None => Ok t end ;;
      let a := del "analog_alpha_scale" a in
      Ok ((alpha ++ [(p_key, Other (STen t)); (new_key, Tile {| ts_cfg := Some c; ts_attrs := a |})])%list, c)
  | None, _, _ | _, None, _ | _, _, None => Raise KeyError
  | Some (SNat _), Some _, Some _ => Raise AttributeError
  | _, _, _ => Raise TypeError
  end.
(** legacy.py:136-211: the entries that one entry of the checkpoint gives *)
Definition convert_entry (layers : list (string * string)) (chk : dict) (key : string) (v : value) : res (dict * option config) :=
  let name := last (split1 "." key) "" in
  prefix <- before name key ;;
  if (String.eqb "bias" name && existsb (fun p => String.prefix (prefix ++ "analog_tile_state") (fst p)) chk)%bool then
    Ok ([(if check_conv_mapped layers prefix then prefix ++ name else prefix ++ "analog_module." ++ name, v)], None)
  else if String.prefix "analog_tile_state" name then
    k <- get_key_from_ending layers name "analog_tile_state" prefix ;;
    match v with
    | Tile s => r <- convert_tile (prefix ++ k) s ;; Ok (fst r, Some (snd r))
    | Other _ => Raise AttributeError
    end
  else if String.prefix "analog_out_scaling_alpha" name then
    k <- get_key_from_ending layers (after_last "analog_" name ++ "_0") "out_scaling_alpha" prefix ;;
    Ok ([(prefix ++ k, v)], None)
  else if String.prefix "analog_shared_weights" name then Ok ([], None)
  else if String.prefix "analog_ctx" name then
    k <- get_key_from_ending layers name "analog_ctx" prefix ;;
    Ok ([(prefix ++ k, v)], None)
  else Ok ([(key, v)], None).
Fixpoint convert_entries (layers : list (string * string)) (chk todo : dict) (acc : dict) (cfg : option config) : res (dict * option config) :=
  match todo with
  | [] => Ok (acc, cfg)
  | (k, v) :: r => x <- convert_entry layers chk k v ;; convert_entries layers chk r (fold_left (fun d p => put (fst p) (snd p) d) (fst x) acc) (match snd x with Some c => Some c | None => cfg end)
  end.
(** legacy.py:90-133, for all entries; [value["rpu_config"]] *)
Fixpoint migrate_all (has_mapped : bool) (chk : dict) : res (dict * option config) :=
  match chk with
  | [] => Ok ([], None)
  | (k, v) :: r =>
      if contains "analog_tile_state" k then
        match v with
        | Tile s => match ts_cfg s with
                    | Some c => c' <- migrate has_mapped c ;; x <- migrate_all has_mapped r ;;
                                Ok ((k, Tile {| ts_cfg := Some c'; ts_attrs := ts_attrs s |}) :: fst x, match snd x with Some d => Some d | None => Some c' end)
                    | None => Raise KeyError
                    end
        | Other _ => Raise TypeError
        end
      else x <- migrate_all has_mapped r ;; Ok ((k, v) :: fst x, snd x)
  end.
(** legacy.py:24-212; [model]: None, or names and classes of its analog layers.  The result has also the information
    whether the tile sizes in the configurations of the model were set to 0 (:78-81) *)
Definition convert_legacy (chk : dict) (model : option (list (string * string))) : res (dict * config * bool) :=
  let layers := match model with Some l => l | None => [] end in
  let has_mapped := existsb (fun p => contains "Mapped" (snd p)) layers in
  match model, has_mapped with
  | None, _ => Raise AttributeError
  | Some _, _ =>
      match find (fun p => contains "analog_model.analog_tile_state" (fst p)) chk with
      | Some (_, Tile {| ts_cfg := Some c |}) => Ok (chk, c, negb has_mapped)
      | Some (_, Tile _) => Raise KeyError
      | Some (_, Other _) => Raise TypeError
      | None =>
          m <- migrate_all has_mapped chk ;;
          r <- convert_entries layers (fst m) (fst m) [] (snd m) ;;
          match snd r with Some c => Ok (fst r, c, negb has_mapped) | None => Raise UnboundLocalError end
      end
  end.

(** inferencing.py:170-196: which file is read for a template ([None]: the experiment starts without loading);
    [exists_]: files that exist at the end.  :178-179 does not assign template_path *)
Definition template_path (id : string) : res (option string) :=
  if String.eqb id "" then Ok None
  else if (String.prefix "." id || String.prefix "/" id)%bool then Ok (Some id)
  else if String.prefix "http" id then Raise UnboundLocalError
  else Ok (Some ("/tmp/weight_templates" ++ "/" ++ id ++ ".pth")).
