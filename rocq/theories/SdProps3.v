(** * C123-C128: concrete models; what is not guaranteed *)
From Verif Require Import Prelude SdModel SdProps SdProps2.
Local Open Scope nat_scope.
Local Open Scope string_scope.

(** configurations whose devices have bounds ([true]) or no hidden parameters ([false]) *)
Definition nm (d : bool) : list string := if d then ["max_bound"; "min_bound"] else [].
Definition fr (c : cfg bool) (d : nat * nat) : sim nat :=
  {| sm_w := repeat (repeat 0%R (snd d)) (fst d); sm_h := if cf_dev c then [repeat (repeat 1%R (snd d)) (fst d); repeat (repeat (-1)%R (snd d)) (fst d)] else []; sm_lr := 1%R; sm_x := 0 |}.
Definition inst (a b : nat) : bool := (Nat.eqb a b || Nat.eqb b 0)%bool.
Definition mp0 (in_size : nat) : mapping := {| mp_digital_bias := true; mp_omega := 0; mp_columnwise := false; mp_lr_comp := false; mp_learn_out := false; mp_out_col := false; mp_max_in := in_size; mp_max_out := 512 |}.
Definition hp0 : heap bool := fun r => match r with
  | 0 => {| cf_class := 1; cf_tile := "AnalogTile"; cf_any := false; cf_map := mp0 512; cf_dev := true |}
  | 1 => {| cf_class := 1; cf_tile := "AnalogTile"; cf_any := false; cf_map := mp0 512; cf_dev := false |}
  | 2 => {| cf_class := 2; cf_tile := "TorchInferenceTile"; cf_any := true; cf_map := mp0 512; cf_dev := false |}
  | _ => {| cf_class := 3; cf_tile := "QuantizedTorchInferenceTile"; cf_any := true; cf_map := mp0 512; cf_dev := false |}
  end.
Definition w1 : mat := [[(1/2)%R; (-1)%R]].
Definition tl (cl : string) (r : nat) (w : mat) (h : list mat) : tile nat :=
  {| t_class := cl; t_cfg := r; t_dims := (1, 2); t_sim := {| sm_w := w; sm_h := h; sm_lr := (1/10)%R; sm_x := 7 |}; t_load := true; t_strict := true; t_ctx := r |}.
Definition bnd : list mat := [[[1%R; 1%R]]; [[(-1)%R; (-1)%R]]].
Definition ta := tl "AnalogTile" 0 w1 bnd.
Definition tb := tl "AnalogTile" 1 [[0%R; 0%R]] [].

Lemma fr_ok : no_hidden_fresh nm fr.
Proof. intros c d. unfold nm, fr. cbn. destruct (cf_dev c); [discriminate|reflexivity]. Qed.
Lemma ta_wf : wf nm hp0 ta.
Proof.
  split; [|split; [reflexivity|split]].
  - split; [reflexivity|]. intros r [<-|[]]. reflexivity.
  - intros h [<-|[<-|[]]]; (split; [reflexivity|]; intros r [<-|[]]; reflexivity).
  - intros i j Hi Hj. cbn in Hi. assert (i = 0) by lia. subst i. cbn in Hj. destruct j as [|[|j]]; cbn; [lra|lra|lia].
Qed.
(** the hypotheses of the round trip: a tile with bounds and a digital parameter *)
Example C123_nontrivial : let m := [Tile "l1" ta; Param "b" 3] in let m1 := [Tile "l1" (tl "AnalogTile" 0 [[0%R; 0%R]] bnd); Param "b" 4] in
  NoDup (map item_name m) /\ Forall (sound nm hp0) m /\ Forall2 (alike hp0 hp0) m m1 /\ no_hidden_fresh nm fr.
Proof.
  cbn. split; [|split; [|split; [|exact fr_ok]]].
  - repeat constructor; cbn; intuition discriminate.
  - constructor; [exact ta_wf|]. constructor; [exact I|constructor].
  - constructor; [cbn; auto|]. constructor; [reflexivity|constructor].
Qed.
(** ** C124: configurations are not independent.  Loading a dictionary into a model of another tile class writes this class
    into the configuration of the saved model, which then accepts a state it refused before *)
Theorem C124_saved_model_unaffected_refuted :
  let a := tl "TorchInferenceTile" 2 w1 [] in let b := tl "QuantizedTorchInferenceTile" 3 w1 [] in
  let foreign := get_state nm hp0 b in
  snd (load_tile inst nm fr 9 hp0 a foreign) = Fail "TileError"
  /\ let '(hp1, b1, res) := load_tile inst nm fr 8 hp0 b (get_state nm hp0 a) in
     res = Done /\ hp1 (t_cfg a) <> hp0 (t_cfg a) /\ t_cfg b1 = t_cfg a /\ snd (load_tile inst nm fr 9 hp1 a foreign) = Done.
Proof.
  cbv zeta. split; [reflexivity|]. cbn. split; [reflexivity|]. split; [|split; reflexivity]. unfold hput. cbn. discriminate.
Qed.
(** ** C126: a failing load is not atomic.  The state has hidden parameters, but the configuration object in the dictionary
    does not have them any more: TileError, and the weights of the tile are those of a new tile *)
Theorem C126_atomic_refuted :
  let s := {| s_class := "AnalogTile"; s_cfg := 1; s_w := w1; s_h := bnd; s_names := ["max_bound"; "min_bound"]; s_lr := None; s_x := None |} in
  let '(hp1, t1, res) := load_tile inst nm fr 8 hp0 ta s in
  res = Fail "TileError" /\ sm_w (t_sim ta) = w1 /\ sm_w (t_sim t1) = [[0%R; 0%R]] /\ t_cfg t1 <> t_cfg ta.
Proof. cbn. repeat split; discriminate. Qed.
(** a whole model: the tiles before the failing one are loaded, those after it are not *)
Theorem C126_model_atomic_refuted :
  let good := tl "AnalogTile" 1 [[5%R; 5%R]] [] in
  let m := [Tile "l1" tb; Tile "l2" tb; Tile "l3" tb] in
  let d := [("l1", St (get_state nm hp0 good)); ("l2", St (get_state nm hp0 (tl "TorchInferenceTile" 2 w1 []))); ("l3", St (get_state nm hp0 good))] in
  let '(_, m', _, res, _) := load_state_dict (V := nat) inst nm fr 8 hp0 d true None None m in
  res = Fail "TileError" /\ map (fun i => match i with Tile _ t => sm_w (t_sim t) | Param _ _ => [] end) m' = [[[5%R; 5%R]]; [[0%R; 0%R]]; [[0%R; 0%R]]].
Proof. cbn. split; reflexivity. Qed.
(** ** C128: one analog_ctx entry of an old version switches off [strict] for the whole load: the missing tile goes unnoticed,
    the unknown name too, and the entry is deleted from the dictionary of the caller *)
Theorem C128_legacy_refuted :
  let m := [Tile "l1" tb; Tile "l2" tb] in
  let d := [("l1", St (get_state nm hp0 tb)); ("l1.analog_ctx", Ctx true); ("other", Val 5)] in
  let '(_, _, d', res, keys) := load_state_dict inst nm fr 8 hp0 d true None None m in
  res = Done /\ keys = (["l2"], ["other"]) /\ d' = [("l1", St (get_state nm hp0 tb)); ("other", Val 5)]
  /\ let '(_, _, _, res2, _) := load_state_dict inst nm fr 8 hp0 d' true None None m in res2 = Fail "RuntimeError".
Proof. cbn. repeat split. Qed.
(** the premises of C125: the same class but other mapping parameters is refused *)
Example C125_nontrivial : 
  let t := set_flags (Some false) None (tl "AnalogTile" 1 w1 []) in
  let hp := hput hp0 0 {| cf_class := 1; cf_tile := "AnalogTile"; cf_any := false; cf_map := mp0 256; cf_dev := false |} in
  t_load t = false /\ ~ compatible_spec inst hp t 0 /\ compatible_spec inst hp0 t 1
  /\ snd (load_tile inst nm fr 4 hp0 t (get_state nm hp0 tb)) = Done /\ snd (load_tile inst nm fr 4 hp t (get_state nm hp (tl "AnalogTile" 0 w1 []))) = Fail "TileModuleError".
Proof.
  cbn. split; [reflexivity|]. split; [|split; [|split; reflexivity]].
  - intros H. destruct H as (_ & _ & _ & _ & H & _). cbn in H. discriminate.
  - split; [right; left; reflexivity|]. repeat split.
Qed.
(** the flags stay: after load_rpu_config=False a later plain call does not load the configuration *)
Example C127_nontrivial :
  let m := [Tile "l1" tb] in let d := [("l1", St (get_state nm hp0 (tl "AnalogTile" 5 w1 [])))] in
  let calls := [{| c_dict := d; c_strict := true; c_load := Some false; c_check := None |}; {| c_dict := d; c_strict := true; c_load := None; c_check := None |}] in
  map flags (snd (fold_left (do_call (V := nat) inst nm fr) calls (0, hp0, m))) = [Some (false, true)].
Proof. cbv zeta. rewrite C127_flags_stay. reflexivity. Qed.

Print Assumptions C124_saved_model_unaffected_refuted.
Print Assumptions C126_atomic_refuted.
Print Assumptions C126_model_atomic_refuted.
Print Assumptions C128_legacy_refuted.
