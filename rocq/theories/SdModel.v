(** * State dictionaries of analog models (simulator/tiles/base.py, simulator/tiles/module.py, nn/modules/base.py)
    and the optimizer that outlives a load (optim/context.py, optim/analog_optimizer.py) *)
From Verif Require Import Prelude.
From Coq Require Export String.
Local Open Scope nat_scope.
Open Scope list_scope.

(** parameters/mapping.py:21-102 MappingParameter *)
Record mapping : Type := {
  mp_digital_bias : bool; mp_omega : R; mp_columnwise : bool; mp_lr_comp : bool;
  mp_learn_out : bool; mp_out_col : bool; mp_max_in : nat; mp_max_out : nat }.
(** parameters/mapping.py:103-125 compatible_with: three fields may differ *)
Definition mapping_compatible (a b : mapping) : bool :=
  Bool.eqb (mp_digital_bias a) (mp_digital_bias b) && Bool.eqb (mp_learn_out a) (mp_learn_out b) &&
  Bool.eqb (mp_out_col a) (mp_out_col b) && (mp_max_in a =? mp_max_in b) && (mp_max_out a =? mp_max_out b).

Section Sd.
(** classes of RPU configurations with their subclass relation [isinstance]; [D]: the rest of a configuration
    (devices etc.), which determines the names of the hidden parameters; [E]: the extra state (dump_extra) *)
Context {D E : Type} (isinst : nat -> nat -> bool) (names_of : D -> list string).
(** an RPU configuration object; [cf_tile]: name of its tile_class; [cf_any]: the InferenceRPUConfig rule *)
Record cfg : Type := { cf_class : nat; cf_tile : string; cf_any : bool; cf_map : mapping; cf_dev : D }.
(** parameters/base.py:54-66, configs/configs.py:256-259 [compatible_with] *)
Definition cfg_accepts (c : cfg) (tile_class : string) : bool :=
  (cf_any c && String.eqb tile_class "TorchInferenceTile") || String.eqb tile_class (cf_tile c).
(** configuration objects live on a heap: tiles and state dictionaries refer to them *)
Definition heap := nat -> cfg.
Definition hput (h : heap) (r : nat) (c : cfg) : heap := fun q => if q =? r then c else h q.

(** the simulator tile: weights, hidden parameters (max_bound, min_bound, ...), learning rate, extra state *)
Record sim : Type := { sm_w : mat; sm_h : list mat; sm_lr : R; sm_x : E }.
(** rpu_pulsed_device.cpp:545-570 [onSetWeights] without write noise; tiles without hidden parameters do not clip *)
Definition clip (h : list mat) (w : mat) : mat :=
  match h with
  | mx :: mn :: _ => map2 (map2 (fun v b => Rmax v b)) (map2 (map2 (fun v b => Rmin v b)) w mx) mn
  | _ => w
  end.
(** [d_size] x [x_size] *)
Definition sizedb (dims : nat * nat) (w : mat) : bool := (List.length w =? fst dims) && forallb (fun r => List.length r =? snd dims) w.

(** a tile module.  [t_ctx]: the AnalogContext parameter object *)
Record tile : Type := {
  t_class : string; t_cfg : nat; t_dims : nat * nat; t_sim : sim; t_load : bool; t_strict : bool; t_ctx : nat }.
Definition with_sim (t : tile) (s : sim) : tile :=
  {| t_class := t_class t; t_cfg := t_cfg t; t_dims := t_dims t; t_sim := s; t_load := t_load t; t_strict := t_strict t; t_ctx := t_ctx t |}.
Definition with_cfg (t : tile) (r : nat) : tile :=
  {| t_class := t_class t; t_cfg := r; t_dims := t_dims t; t_sim := t_sim t; t_load := t_load t; t_strict := t_strict t; t_ctx := t_ctx t |}.
Definition with_ctx (t : tile) (c : nat) : tile :=
  {| t_class := t_class t; t_cfg := t_cfg t; t_dims := t_dims t; t_sim := t_sim t; t_load := t_load t; t_strict := t_strict t; t_ctx := c |}.
(** module.py:83-86 set_load_rpu_config_state *)
Definition set_flags (l s : option bool) (t : tile) : tile :=
  {| t_class := t_class t; t_cfg := t_cfg t; t_dims := t_dims t; t_sim := t_sim t;
     t_load := match l with Some b => b | None => t_load t end; t_strict := match s with Some b => b | None => t_strict t end; t_ctx := t_ctx t |}.

(** the analog state in a state dictionary *)
Record state : Type := {
  s_class : string; s_cfg : nat; s_w : mat; s_h : list mat; s_names : list string; s_lr : option R; s_x : option E }.
(** base.py:626-676 get_analog_state / __getstate__: tensors are copies, the configuration is the object itself *)
Definition get_state (hp : heap) (t : tile) : state :=
  {| s_class := t_class t; s_cfg := t_cfg t; s_w := sm_w (t_sim t); s_h := sm_h (t_sim t);
     s_names := names_of (cf_dev (hp (t_cfg t))); s_lr := Some (sm_lr (t_sim t)); s_x := Some (sm_x (t_sim t)) |}.

(** what a freshly created simulator tile contains (random hidden parameters, zero weights) *)
Context (fresh : cfg -> nat * nat -> sim).
Inductive result : Type := Done | Fail (e : string).
(** base.py:678-812 __setstate__ for a tile that exists already.  [ctx] is the identity of the AnalogContext that is made.
    The tile keeps its sizes.  Simplifications: extra state of the wrong kind is not modelled, load_extra sets all of it *)
Definition set_state (ctx : nat) (hp : heap) (t : tile) (s : state) : heap * tile * result :=
  if negb (cfg_accepts (hp (t_cfg t)) (s_class s)) then (hp, t, Fail "TileError")
  else
    let c := hp (s_cfg s) in
    let c' := {| cf_class := cf_class c; cf_tile := cf_tile (hp (t_cfg t)); cf_any := cf_any c; cf_map := cf_map c; cf_dev := cf_dev c |} in
    let hp' := hput hp (s_cfg s) c' in
    let t0 := with_cfg t (s_cfg s) in
    let s0 := fresh c' (t_dims t) in
    let names := names_of (cf_dev c') in
    if (negb (match s_names s with [] => true | _ => false end)) && negb (if list_eq_dec string_dec names (s_names s) then true else false)
    then (hp', with_sim t0 s0, Fail "TileError")
    else if negb (match names with [] => true | _ => (List.length (s_h s) =? List.length names) && forallb (sizedb (t_dims t)) (s_h s) end)
    then (hp', with_sim t0 s0, Fail "RuntimeError")
    else
      let h1 := match names with [] => sm_h s0 | _ => s_h s end in
      let s1 := {| sm_w := clip h1 (sm_w s0); sm_h := h1; sm_lr := sm_lr s0; sm_x := sm_x s0 |} in
      if negb (sizedb (t_dims t) (s_w s)) then (hp', with_sim t0 s1, Fail "RuntimeError")
      else
        let s2 := {| sm_w := clip h1 (s_w s); sm_h := h1; sm_lr := match s_lr s with Some l => l | None => (1/100)%R end;
                     sm_x := match s_x s with Some x => x | None => sm_x s0 end |} in
        (hp', with_ctx (with_sim t0 s2) ctx, Done).

(** module.py:335-368 compatible_with (every configuration has mapping parameters here) *)
Definition compatible (hp : heap) (t : tile) (r : nat) : bool :=
  let own := hp (t_cfg t) in let new := hp r in
  (negb (t_strict t) || isinst (cf_class own) (cf_class new) || isinst (cf_class new) (cf_class own))
  && mapping_compatible (cf_map own) (cf_map new).
(** module.py:390-427 _load_state_dict_pre_hook, once the analog state has been found *)
Definition load_tile (ctx : nat) (hp : heap) (t : tile) (s : state) : heap * tile * result :=
  if t_load t then set_state ctx hp t s
  else if compatible hp t (s_cfg s) then
    set_state ctx hp t {| s_class := s_class s; s_cfg := t_cfg t; s_w := s_w s; s_h := s_h s; s_names := s_names s; s_lr := s_lr s; s_x := s_x s |}
  else (hp, t, Fail "TileModuleError").
(** module.py:370-388 replace_with; [r]: the deep copy of the new configuration *)
Definition replace_with (ctx r : nat) (hp : heap) (t : tile) : heap * tile * result :=
  if compatible hp t r then
    let s := get_state hp t in
    set_state ctx hp t {| s_class := s_class s; s_cfg := r; s_w := s_w s; s_h := s_h s; s_names := s_names s; s_lr := s_lr s; s_x := s_x s |}
  else (hp, t, Fail "TileModuleError").

(** ** a whole model: its tiles and digital parameters in the order in which they are loaded *)
Context {V : Type}.
Inductive item : Type := Tile (name : string) (t : tile) | Param (name : string) (v : V).
(** entries of a state dictionary; [Ctx empty]: an analog_ctx tensor, [empty]: of size [] (old versions) *)
Inductive entry : Type := St (s : state) | Val (v : V) | Ctx (empty : bool).
Definition dict := list (string * entry).
Fixpoint find (n : string) (d : dict) : option entry :=
  match d with [] => None | (m, e) :: r => if String.eqb n m then Some e else find n r end.
Definition item_name (i : item) : string := match i with Tile n _ => n | Param n _ => n end.
(** state_dict(): module.py:256-280.  Entries of the names analog_ctx and shared_weights, which the load removes again
    (module.py:410-420), are left out *)
Definition state_dict (hp : heap) (m : list item) : dict :=
  map (fun i => match i with Tile n t => (n, St (get_state hp t)) | Param n v => (n, Val v) end) m.
(** torch's loop over the modules; [ctx]: the next new AnalogContext; collects the missing names *)
Fixpoint load_items (ctx : nat) (hp : heap) (d : dict) (m : list item) : heap * list item * result * list string :=
  match m with
  | [] => (hp, [], Done, [])
  | Param n v :: r =>
      let '(hp', r', res, miss) := load_items ctx hp d r in
      match find n d with
      | Some (Val v') => (hp', Param n v' :: r', res, miss)
      | _ => (hp', Param n v :: r', res, n :: miss)
      end
  | Tile n t :: r =>
      match find n d with
      | Some (St s) =>
          match load_tile ctx hp t s with
          | (hp', t', Done) => let '(hp'', r', res, miss) := load_items (Datatypes.S ctx) hp' d r in (hp'', Tile n t' :: r', res, miss)
          | (hp', t', Fail e) => (hp', Tile n t' :: r, Fail e, [])
          end
      | _ => let '(hp', r', res, miss) := load_items ctx hp d r in (hp', Tile n t :: r', res, n :: miss)
      end
  end.
(** names in the dictionary that belong to nothing; analog_ctx entries are always removed from what torch sees
    (names containing ".tile." are also removed by the code, not modelled) *)
Definition unexpected (d : dict) (m : list item) : list string :=
  map fst (filter (fun p => match snd p with Ctx _ => false | _ => negb (existsb (fun i => String.eqb (item_name i) (fst p)) m) end) d).
Definition is_empty_ctx (p : string * entry) : bool := match snd p with Ctx true => true | _ => false end.
(** nn/modules/base.py:206-275 load_state_dict: empty analog_ctx entries are deleted from the user's dictionary and switch
    off [strict]; the flags are stored in the tiles first; torch raises for missing and unexpected keys at the end *)
Definition load_state_dict (ctx : nat) (hp : heap) (d : dict) (strict : bool) (l sc : option bool) (m : list item)
    : heap * list item * dict * result * (list string * list string) :=
  let strict' := strict && negb (existsb is_empty_ctx d) in
  let d' := filter (fun p => negb (is_empty_ctx p)) d in
  let m1 := map (fun i => match i with Tile n t => Tile n (set_flags l sc t) | p => p end) m in
  let '(hp', m', res, miss) := load_items ctx hp d' m1 in
  let unx := unexpected d' m in
  let res' := match res with
    | Fail e => Fail e
    | Done => if strict' && negb (match miss, unx with [], [] => true | _, _ => false end) then Fail "RuntimeError" else Done end in
  (hp', m', d', res', (miss, unx)).
End Sd.
Arguments cfg : clear implicits.
Arguments sim : clear implicits.
Arguments tile : clear implicits.
Arguments state : clear implicits.
Arguments heap : clear implicits.
Arguments item : clear implicits.
Arguments entry : clear implicits.
Arguments dict : clear implicits.
