(** * Digital periphery of an analog tile: the theorems.
    Proofs are in PeriProofs*.v; [reachable c t] (PeriSpec.v) ranges over all
    histories of API calls on a new tile. *)
From Verif Require Import Prelude PeriModel PeriSpec PeriProofs PeriProofs4.

Definition cfg0 : pcfg :=
  {| c_out := 2; c_in := 2; c_mapping := true; c_omega := 1; c_colwise := true; c_lrcomp := true;
     c_learn_out := true; c_out_colwise := true; c_bias := true; c_digital := false |}.
Definition tile0 : ptile := ptile_new cfg0 [[0;0;0];[0;0;0]] (Some 3) 1.
(** the hypotheses below are met by a concrete, non-trivial history *)
Example reachable_nonvacuous :
  reachable cfg0 (fold_left (run cfg0)
    [OpSet [[1;2];[0;4]] (Some [5;6]) true None; OpLR 2; OpUpdate [1;1] [1;2]; OpLearned [2;3];
     OpScales [7]; OpIR (-2); OpRemap (Some 1)] tile0).
Proof.
  exists [[0;0;0];[0;0;0]], (Some 3), 1,
    [OpSet [[1;2];[0;4]] (Some [5;6]) true None; OpLR 2; OpUpdate [1;1] [1;2]; OpLearned [2;3];
     OpScales [7]; OpIR (-2); OpRemap (Some 1)].
  split; [simpl; lia|]. split; [split; simpl; repeat constructor|]. split; [lra|].
  split; [|reflexivity].
  repeat (constructor; simpl; auto; try (split; [split; simpl; repeat constructor|]); try lra; try discriminate).
Qed.

(** C04: whatever happened to the tile before, reading the weights after setting
    them returns exactly what was set, when weight scaling is active. *)
Theorem C04_set_get_roundtrip : forall c t w b o,
  reachable c t -> shape (c_out c) (c_in c) w -> bias_arg c b ->
  c_mapping c = true -> 0 < match o with Some r => r | None => c_omega c end ->
  exists t', set_weights c w b true o t = Ok t'
    /\ logical c t' = (w, if c_bias c then match b with Some v => Some v | None => t_bias t end else None).
Proof. exact P_roundtrip. Qed.

(** ... but not when weight scaling is off ([weight_scaling_omega = 0], the
    default): digital scales left by an earlier [remap_weights()] (whose default
    omega is 1) stay in place and rescale the newly set weights. *)
Definition cfg_omega0 : pcfg :=
  {| c_out := 1; c_in := 1; c_mapping := true; c_omega := 0; c_colwise := false; c_lrcomp := false;
     c_learn_out := false; c_out_colwise := false; c_bias := false; c_digital := true |}.
Theorem C04_roundtrip_omega_zero_refuted :
  ~ (forall c t w, reachable c t -> shape (c_out c) (c_in c) w -> bias_arg c None -> c_mapping c = true ->
       exists t', set_weights c w None true None t = Ok t' /\ fst (logical c t') = w).
Proof.
  intros H.
  destruct (H cfg_omega0
     (fold_left (run cfg_omega0) [OpSet [[2]] None true None; OpRemap (Some 1)] (ptile_new cfg_omega0 [[0]] None 1))
     [[3]]) as [t' [E G]]; try reflexivity.
  - exists [[0]], None, 1, [OpSet [[2]] None true None; OpRemap (Some 1)].
    split; [simpl; lia|]. split; [split; simpl; repeat constructor|]. split; [exact I|].
    split; [|reflexivity]. repeat constructor.
  - split; simpl; repeat constructor.
  - assert (N0 : ptile_new cfg_omega0 [[0]] None 1 =
      {| t_w := [[0]]; t_ms := MsNone; t_los := None; t_lrs := 1; t_bias := None; t_ir := None; t_lr := 1 |}).
    { unfold ptile_new, init_mapping_scales; simpl. rcase; [reflexivity|lra]. }
    rewrite N0 in E. clear N0. simpl fold_left in E.
    assert (S0 : set_weights cfg_omega0 [[2]] None true None
      {| t_w := [[0]]; t_ms := MsNone; t_los := None; t_lrs := 1; t_bias := None; t_ir := None; t_lr := 1 |} =
      Ok {| t_w := [[2]]; t_ms := MsNone; t_los := None; t_lrs := 1; t_bias := None; t_ir := None; t_lr := 1 |}).
    { unfold set_weights, apply_weight_scaling; simpl. rcase; [lra|reflexivity]. }
    rewrite S0 in E. clear S0.
    assert (S1 : exists w, remap_weights cfg_omega0 (Some 1)
      {| t_w := [[2]]; t_ms := MsNone; t_los := None; t_lrs := 1; t_bias := None; t_ir := None; t_lr := 1 |} =
      Ok {| t_w := w; t_ms := MsOwn [2]; t_los := None; t_lrs := 1; t_bias := None; t_ir := None; t_lr := 1 |}).
    { unfold remap_weights, set_weights, apply_weight_scaling, get_weights; simpl.
      rcase; [|lra]. unfold set_scales, set_mapping_scales, set_learned_out_scales_one, maxabs_mat, maxabs; simpl.
      replace (Rmax (Rmax (Rabs 2) 0) 0 / 1) with 2 by (mm).
      rcase; [lra|]. eexists; reflexivity. }
    destruct S1 as [w S1]. rewrite S1 in E. clear S1.
    unfold set_weights, apply_weight_scaling in E; simpl in E. revert E. rcase; [lra|].
    intros E; injection E as <-. unfold logical, get_weights, get_scales, ms_val in G; simpl in G.
    injection G; lra.
Qed.

(** What does hold without scaling: the values on the crossbar are those that were
    set, and the digital scales are untouched. *)
Theorem C04_raw_roundtrip : forall c t w b a o,
  reachable c t -> shape (c_out c) (c_in c) w -> bias_arg c b ->
  (a = false \/ c_mapping c = false \/ match o with Some r => r | None => c_omega c end <= 0) ->
  exists t', set_weights c w b a o t = Ok t'
    /\ get_weights c false t' = (w, if c_bias c then match b with Some v => Some v | None => t_bias t end else None)
    /\ get_scales t' = get_scales t.
Proof. exact P_raw. Qed.

(** C05: with weight scaling the crossbar uses the range [-omega, omega]: no
    programmed value lies outside, and the largest one (of the matrix, or of each
    output row when scaling column-wise) is exactly omega unless all are zero. *)
Theorem C05_weight_scaling_range : forall c t w b o t',
  reachable c t -> shape (c_out c) (c_in c) w -> bias_arg c b ->
  c_mapping c = true -> let omega := match o with Some r => r | None => c_omega c end in
  0 < omega -> set_weights c w b true o t = Ok t' ->
  let target := crossbar_target c w b in
  (c_colwise c = false -> maxabs_mat target <> 0 -> maxabs_mat (t_w t') = omega)
  /\ (c_colwise c = true -> forall i, (i < c_out c)%nat -> maxabs (nth i target []) <> 0 ->
        maxabs (nth i (t_w t') []) = omega)
  /\ (forall i j, (i < c_out c)%nat -> Rabs (nth j (nth i (t_w t') []) 0) <= omega).
Proof. exact P_range'. Qed.

(** C06: the noise free output of a tile is the affine map of its logical weights
    and bias, whatever the digital scales are; with an input range the inputs are
    first clipped to it. *)
Theorem C06_forward_is_logical : forall c t x, reachable c t -> length x = c_in c -> t_ir t = None ->
  forward c t x = affine_map (fst (logical c t)) (snd (logical c t)) x.
Proof. intros c t x R L E. apply P_forward; auto. rewrite E. exact I. Qed.
Theorem C06_forward_input_range : forall c t x ir, reachable c t -> length x = c_in c ->
  t_ir t = Some ir -> 0 < ir -> analog_bias c = false ->
  forward c t x = affine_map (fst (logical c t)) (snd (logical c t)) (map (clampR (- ir) ir) x).
Proof. exact P_forward_clip. Qed.
(** With an analog bias and an input range the bias is multiplied by the range:
    the bias column is driven with a constant 1 inside the tile, and the range is
    multiplied back onto the whole output. *)
Theorem C06_analog_bias_scaled_by_range : forall c t x ir, reachable c t -> length x = c_in c ->
  t_ir t = Some ir -> 0 < ir -> (forall v, In v x -> Rabs v <= ir) -> analog_bias c = true ->
  forward c t x = affine_map (fst (logical c t)) (option_map (map (Rmult ir)) (snd (logical c t))) x.
Proof. exact P_forward_bias_ir. Qed.
Definition cfg_ab : pcfg :=
  {| c_out := 1; c_in := 1; c_mapping := true; c_omega := 0; c_colwise := false; c_lrcomp := false;
     c_learn_out := false; c_out_colwise := false; c_bias := true; c_digital := false |}.
Lemma cfg_ab_reach : reachable cfg_ab (ptile_new cfg_ab [[1; 1]] (Some 3) 1).
Proof.
  exists [[1; 1]], (Some 3), 1, [].
  split; [simpl; lia|]. split; [split; simpl; repeat constructor|]. split; [lra|]. split; [constructor|reflexivity].
Qed.
Theorem C06_forward_analog_bias_refuted :
  ~ (forall c t x, reachable c t -> length x = c_in c ->
       match t_ir t with Some ir => 0 < ir /\ (forall v, In v x -> Rabs v <= ir) | None => True end ->
       forward c t x = affine_map (fst (logical c t)) (snd (logical c t)) x).
Proof.
  intros H. specialize (H cfg_ab _ [1] cfg_ab_reach eq_refl).
  assert (N0 : ptile_new cfg_ab [[1; 1]] (Some 3) 1 =
      {| t_w := [[1; 1]]; t_ms := MsNone; t_los := None; t_lrs := 1; t_bias := None; t_ir := Some 3; t_lr := 1 |}).
  { unfold ptile_new, init_mapping_scales; simpl. rcase; [reflexivity|lra]. }
  rewrite N0 in H. simpl in H. specialize (H ltac:(split; [lra|intros v [<-|[]]; mm])).
  revert H. unfold forward, joint_forward, post_forward, pre_forward, tile_forward, clip_input, clampR, ms_val; simpl.
  intros H; injection H. mm.
Qed.

(** C07: one tile update is plain SGD on the logical weights, for every state of
    the digital scales, and so is any sequence of updates. *)
Theorem C07_update_is_logical_sgd : forall c t lr xd, reachable c t -> t_los t = None -> t_ir t = None ->
  Forall (fun p => length (fst p) = c_in c /\ length (snd p) = c_out c) xd ->
  fst (logical c (update_batch c (set_learning_rate (Some lr) t) xd))
  = fold_left (fun W p => sgd lr W (fst p) (snd p)) xd (fst (logical c t)).
Proof. exact P_update. Qed.
Theorem C07_update_analog_bias : forall c t lr x d b, reachable c t -> t_los t = None -> t_ir t = None ->
  length x = c_in c -> length d = c_out c -> analog_bias c = true -> snd (logical c t) = Some b ->
  snd (logical c (update c (set_learning_rate (Some lr) t) x d)) = Some (sgd_bias lr b d).
Proof. exact P_update_bias. Qed.
(** With an input range the step size is divided by the range. *)
Theorem C07_update_input_range : forall c t lr x d ir, reachable c t -> t_los t = None -> t_ir t = Some ir -> 0 < ir ->
  length x = c_in c -> length d = c_out c -> (forall v, In v x -> Rabs v <= ir) ->
  fst (logical c (update c (set_learning_rate (Some lr) t) x d)) = sgd (lr / ir) (fst (logical c t)) x d.
Proof. exact P_update_ir. Qed.
Example C07_nonvacuous : reachable cfg_omega0 (ptile_new cfg_omega0 [[5]] None 1)
  /\ t_los (ptile_new cfg_omega0 [[5]] None 1) = None /\ t_ir (ptile_new cfg_omega0 [[5]] None 1) = None.
Proof.
  split.
  - exists [[5]], None, 1, []. split; [simpl; lia|]. split; [split; simpl; repeat constructor|].
    split; [exact I|]. split; [constructor|reflexivity].
  - unfold ptile_new, init_mapping_scales; simpl. rcase; split; reflexivity.
Qed.

(** C08: the learning rate that was set is the one that is read, and without lr
    compensation nothing but another [set_learning_rate] changes it. *)
Theorem C08_lr_get_set : forall c t lr, reachable c t -> get_learning_rate (set_learning_rate (Some lr) t) = lr.
Proof. exact P_lr. Qed.
Theorem C08_lr_history : forall c t lr ops, reachable c t -> c_lrcomp c = false -> Forall not_lr ops ->
  get_learning_rate (fold_left (run c) ops (run c t (OpLR lr))) = lr.
Proof. exact P_lr_history. Qed.
(** With [weight_scaling_lr_compensation] a later [set_weights] changes it. *)
Definition cfg_lrc : pcfg :=
  {| c_out := 1; c_in := 1; c_mapping := true; c_omega := 1; c_colwise := false; c_lrcomp := true;
     c_learn_out := false; c_out_colwise := false; c_bias := false; c_digital := true |}.
Theorem C08_lr_after_set_weights_refuted :
  ~ (forall c t lr w t', reachable c t -> shape (c_out c) (c_in c) w ->
       set_weights c w None true None (set_learning_rate (Some lr) t) = Ok t' -> get_learning_rate t' = lr).
Proof.
  intros H.
  assert (N0 : ptile_new cfg_lrc [[0]] None 1 =
      {| t_w := [[0]]; t_ms := MsOwn [1]; t_los := None; t_lrs := 1; t_bias := None; t_ir := None; t_lr := 1 |}).
  { unfold ptile_new, init_mapping_scales; simpl. rcase; [lra|].
    unfold set_mapping_scales, meanR; simpl. unfold with_lrs; simpl. f_equal. lra. }
  assert (R : reachable cfg_lrc (ptile_new cfg_lrc [[0]] None 1)).
  { exists [[0]], None, 1, []. split; [simpl; lia|]. split; [split; simpl; repeat constructor|].
    split; [exact I|]. split; [constructor|reflexivity]. }
  specialize (H cfg_lrc (ptile_new cfg_lrc [[0]] None 1) 1 [[2]]). rewrite N0 in H, R.
  assert (S0 : exists w', set_weights cfg_lrc [[2]] None true None (set_learning_rate (Some 1)
      {| t_w := [[0]]; t_ms := MsOwn [1]; t_los := None; t_lrs := 1; t_bias := None; t_ir := None; t_lr := 1 |}) =
      Ok {| t_w := w'; t_ms := MsOwn [2]; t_los := None; t_lrs := 1/2; t_bias := None; t_ir := None; t_lr := 1 |}).
  { unfold set_weights, apply_weight_scaling; simpl. rcase; [|lra].
    unfold set_scales, set_mapping_scales, set_learned_out_scales_one, maxabs_mat, maxabs, set_learning_rate; simpl.
    replace (Rmax (Rmax (Rabs 2) 0) 0 / 1) with 2 by mm.
    rcase; [lra|]. unfold meanR; simpl. unfold with_w; simpl. eexists. repeat f_equal; lra. }
  destruct S0 as [w' S0]. specialize (H _ R ltac:(split; simpl; repeat constructor) S0).
  unfold get_learning_rate in H; simpl in H. lra.
Qed.

(** C09: setting mapping scales takes effect: [set_scales(tensor)] replaces all
    scales, so [get_scales] returns (a broadcast of) the value. *)
(** value of a scale tensor of length one or [n], at output [i] *)
Definition scale_at (v : vec) (i : nat) : R := match v with [a] => a | _ => nth i v 0 end.
Theorem C09_set_scales_tensor : forall c t v, reachable c t -> c_mapping c = true ->
  length v = 1%nat \/ length v = c_out c ->
  exists g, get_scales (set_scales c (STensor v) t) = Some g
    /\ (forall i, (i < c_out c)%nat -> scale_at g i = scale_at v i)
    /\ t_w (set_scales c (STensor v) t) = t_w t /\ t_bias (set_scales c (STensor v) t) = t_bias t.
Proof.
  intros c t v R M L. apply reachable_wf in R.
  destruct (get_scales_after c t v R M L) as (g & E & O & X).
  destruct (set_scales_tensor c t v R M L) as (A & B & _).
  exists g. split; [exact E|]. split; [|auto]. intros i Hi.
  assert (Q : forall u, okl (c_out c) u -> scale_at u i = nth i (ex (c_out c) u) 0).
  { intros [|x [|y u]] _; simpl; auto. clear -Hi. revert i Hi.
    induction (c_out c) as [|n IH]; intros [|i] Hi; simpl; try lia; auto. apply IH. lia. }
  rewrite !Q by auto. now rewrite X.
Qed.
(** A Python float is ignored when the tile already has mapping scales. *)
Theorem C09_set_scales_float_refuted :
  ~ (forall c t r, reachable c t -> c_mapping c = true ->
       exists v, ms_val (set_mapping_scales c (SFloat r) t) = Some v /\ Forall (eq r) v).
Proof.
  intros H.
  assert (N0 : t_ms (ptile_new cfg_lrc [[0]] None 1) = MsOwn [1]).
  { unfold ptile_new, init_mapping_scales; simpl. rcase; [lra|reflexivity]. }
  assert (R : reachable cfg_lrc (ptile_new cfg_lrc [[0]] None 1)).
  { exists [[0]], None, 1, []. split; [simpl; lia|]. split; [split; simpl; repeat constructor|].
    split; [exact I|]. split; [constructor|reflexivity]. }
  destruct (H _ _ 5 R eq_refl) as [v [E F]].
  revert N0 E. generalize (ptile_new cfg_lrc [[0]] None 1) as t0. intros t0 N0 E.
  destruct t0 as [tw tm tl tls tb ti tlr]; simpl in N0; subst tm.
  unfold set_mapping_scales, ms_val in E; simpl in E.
  assert (Q : v = [1]) by congruence. rewrite Q in F. inversion F; lra.
Qed.

(** C10: remapping never changes the logical weights or bias. *)
Theorem C10_remap_preserves_logical : forall c t o, reachable c t -> c_mapping c = true ->
  0 < match o with Some r => r | None => c_omega c end ->
  exists t', remap_weights c o t = Ok t' /\ logical c t' = logical c t.
Proof. exact P_remap. Qed.

(** C11: backward is the adjoint of the (bias free) forward map in logical units. *)
Theorem C11_backward_adjoint : forall c t x d, reachable c t -> t_los t = None ->
  length x = c_in c -> length d = c_out c ->
  dot (matvec (fst (logical c t)) x) d = dot x (backward c t d).
Proof. exact P_adjoint. Qed.

(** C12: changing the floating point type of a tile keeps its logical weights if it
    has mapping scales or no learned scales ... *)
Theorem C12_to_dtype_preserves : forall c t, reachable c t -> c_mapping c = true ->
  (ms_val t <> None \/ t_los t = None) -> logical c (to_dtype c t) = logical c t.
Proof. exact P_dtype. Qed.
(** ... but learned output scales without mapping scales are reset to one. *)
Definition cfg_dt : pcfg :=
  {| c_out := 1; c_in := 1; c_mapping := true; c_omega := 0; c_colwise := false; c_lrcomp := false;
     c_learn_out := true; c_out_colwise := false; c_bias := false; c_digital := true |}.
Theorem C12_to_dtype_refuted :
  ~ (forall c t, reachable c t -> c_mapping c = true -> logical c (to_dtype c t) = logical c t).
Proof.
  intros H.
  assert (N0 : ptile_new cfg_dt [[1]] None 1 =
      {| t_w := [[1]]; t_ms := MsNone; t_los := Some [1]; t_lrs := 1; t_bias := None; t_ir := None; t_lr := 1 |}).
  { unfold ptile_new, init_mapping_scales; simpl. rcase; [reflexivity|lra]. }
  assert (R : reachable cfg_dt (run cfg_dt (ptile_new cfg_dt [[1]] None 1) (OpLearned [2]))).
  { exists [[1]], None, 1, [OpLearned [2]]. split; [simpl; lia|]. split; [split; simpl; repeat constructor|].
    split; [exact I|]. split; [repeat constructor|reflexivity]. }
  specialize (H _ _ R eq_refl). rewrite N0 in H.
  unfold logical, to_dtype, get_weights, get_scales, set_scales, set_mapping_scales, ms_val in H; simpl in H.
  injection H. lra.
Qed.

(** C13: an input range initialised from data is the configured factor times the
    mean standard deviation of the first N batches that are not constant, and is
    frozen afterwards. *)
Theorem C13_input_range_from_data : forall N al stds ir0, (0 <= N)%Z -> 0 <= al -> 0 <= ir0 ->
  let used := firstn (Z.to_nat N) (filter (Rltb 0) stds) in
  let '(ir, idx) := fold_left (ir_update N al) stds (ir0, 0%Z) in
  idx = Z.of_nat (length used)
  /\ ir = if Nat.eqb (length used) 0 then ir0 else al * (sumR used / INR (length used)).
Proof. exact P_ir_mean. Qed.

Print Assumptions C04_set_get_roundtrip.
Print Assumptions C04_roundtrip_omega_zero_refuted.
Print Assumptions C04_raw_roundtrip.
Print Assumptions C05_weight_scaling_range.
Print Assumptions C06_forward_is_logical.
Print Assumptions C06_forward_input_range.
Print Assumptions C06_analog_bias_scaled_by_range.
Print Assumptions C06_forward_analog_bias_refuted.
Print Assumptions C07_update_is_logical_sgd.
Print Assumptions C07_update_analog_bias.
Print Assumptions C07_update_input_range.
Print Assumptions C08_lr_get_set.
Print Assumptions C08_lr_history.
Print Assumptions C08_lr_after_set_weights_refuted.
Print Assumptions C09_set_scales_tensor.
Print Assumptions C09_set_scales_float_refuted.
Print Assumptions C10_remap_preserves_logical.
Print Assumptions C11_backward_adjoint.
Print Assumptions C12_to_dtype_preserves.
Print Assumptions C12_to_dtype_refuted.
Print Assumptions C13_input_range_from_data.
