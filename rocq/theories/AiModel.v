(** * The analog summary of a model
    Source: /repo/src/aihwkit/utils/analog_info.py.  A model is a tree of modules; a module that occurs in several
    places of the model has the same identity in each of them. *)
From Verif Require Import Prelude.

Inductive flavor := FLinear | FConv | FOther.
(** utils/analog_info.py:54-66: what a tile tells about itself: its sizes, and the largest sizes of its configuration *)
Record tile_sizes := { ts_in : Z; ts_out : Z; ts_max_in : Z; ts_max_out : Z }.
(** the kinds of modules that the summary tells apart: tiles, digital modules, analog layers (their flavor, and whether
    they are one of the [Mapped] classes), and analog containers *)
Inductive kind := KTile (s : tile_sizes) | KDigital | KLayer (f : flavor) (mapped : bool) | KContainer.
Inductive mt := Node (id : nat) (k : kind) (ch : list mt).
Definition mid (m : mt) : nat := match m with Node i _ _ => i end.
Definition mkind (m : mt) : kind := match m with Node _ k _ => k end.
Definition mch (m : mt) : list mt := match m with Node _ _ c => c end.
(** isinstance(module, AnalogLayerBase) *)
Definition is_analog (m : mt) : bool := match mkind m with KLayer _ _ | KContainer => true | _ => false end.

(** nn/modules/base.py:144-153 [analog_tiles]: [named_modules] visits every module once *)
Fixpoint tile_list (m : mt) : list (nat * tile_sizes) :=
  match m with Node i k ch => (match k with KTile s => [(i, s)] | _ => [] end) ++ flat_map tile_list ch end.
Fixpoint once (seen : list nat) (l : list (nat * tile_sizes)) : list (nat * tile_sizes) :=
  match l with [] => [] | p :: r => if existsb (Nat.eqb (fst p)) seen then once seen r else p :: once (fst p :: seen) r end.
Definition analog_tiles (m : mt) : list (nat * tile_sizes) := once [] (tile_list m).

(** :195-213 [register_hooks_recursively]: the modules that get a hook *)
Fixpoint hooked (m : mt) : list mt :=
  match m with
  | Node i k ch =>
      if (length ch =? 0)%nat then [m]
      else match k with
           | KLayer _ _ => if existsb is_analog ch then flat_map hooked ch else [m]
           | _ => flat_map hooked ch
           end
  end.

(** a call of a module in a forward pass: the sizes of the input and of the output; [None] is an output that is not a
    tensor *)
Record call := { cl_mod : mt; cl_in : list Z; cl_out : option (list Z) }.
Record layer_info := { li_mod : mt; li_analog : bool; li_tiles : nat; li_util : list R; li_reuse : Z }.
Definition prodZ (l : list Z) : Z := fold_right Z.mul 1%Z l.
(** :60-67 [TileInfo.__init__] *)
Definition utilization (mapped : bool) (s : tile_sizes) : res R :=
  if mapped then
    if (ts_max_in s * ts_max_out s =? 0)%Z then Raise ZeroDivisionError
    else Ok (IZR (ts_in s * ts_out s) * 100 / IZR (ts_max_in s * ts_max_out s))
  else Ok 100.
(** :139-150 [calculate_reuse_factor] *)
Definition floordiv (a b : Z) : res Z := if (b =? 0)%Z then Raise ZeroDivisionError else Ok (a / b)%Z.
Definition reuse_factor (f : flavor) (i o : list Z) : res Z :=
  match f with
  | FLinear => floordiv (prodZ i) (last i 0%Z)
  | FConv => floordiv (prodZ o) (nth 1 o 0%Z)
  | FOther => Ok 0%Z
  end.
(** :217-226 [get_size_hook] and :100-118 [LayerInfo.__init__] *)
Definition hook (c : call) : res layer_info :=
  match cl_out c with
  | None => Raise AttributeError
  | Some o =>
      let m := cl_mod c in
      let '(f, mapped) := match mkind m with KLayer f b => (f, b) | _ => (FOther, false) end in
      us <- (if is_analog m then mapM (fun p => utilization mapped (snd p)) (analog_tiles m) else Ok []) ;;
      r <- reuse_factor f (cl_in c) o ;;
      Ok {| li_mod := m; li_analog := is_analog m; li_tiles := if is_analog m then length (analog_tiles m) else 0%nat; li_util := us; li_reuse := r |}
  end.
(** a forward pass of a model with hooks: a module that was hooked several times runs its hook as many times *)
Definition hook_count (hs : list mt) (m : mt) : nat := length (filter (fun h => (mid h =? mid m)%nat) hs).
Definition hook_calls (hs : list mt) (tr : list call) : list call := flat_map (fun c => repeat c (hook_count hs (cl_mod c))) tr.
Definition run_hooks (hs : list mt) (tr : list call) : res (list layer_info) := mapM hook (hook_calls hs tr).

(** :183-193 [AnalogInfo.__init__], :234-246 [calculate_num_tiles] and [calculate_num_analog] *)
Record analog_info := { ai_hooks : list mt; ai_layers : list layer_info; ai_total_tiles : nat; ai_total_analog : nat }.
Definition num_tiles (l : list layer_info) : nat := fold_right (fun x n => (li_tiles x + n)%nat) 0%nat l.
Definition num_analog (l : list layer_info) : nat := fold_right (fun x n => ((if li_analog x then 1 else 0) + n)%nat) 0%nat l.
Definition analog_summary (m : mt) (tr : list call) : res analog_info :=
  let hs := hooked m in
  l <- run_hooks hs tr ;;
  Ok {| ai_hooks := hs; ai_layers := l; ai_total_tiles := num_tiles l; ai_total_analog := num_analog l |}.
(** the hooks are never removed: a later forward pass of the model appends to the list of the summary *)
Definition forward_again (a : analog_info) (tr : list call) : res analog_info :=
  l <- run_hooks (ai_hooks a) tr ;;
  Ok {| ai_hooks := ai_hooks a; ai_layers := ai_layers a ++ l; ai_total_tiles := ai_total_tiles a; ai_total_analog := ai_total_analog a |}.
(** :153-157 [tiles_summary_dict]: dictionaries with the same three keys are merged (the shown value: utilization) *)
Definition tiles_summary (l : layer_info) : option R := fold_left (fun _ u => Some u) (li_util l) None.
