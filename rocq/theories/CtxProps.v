(** * The analog context parameter: the theorems *)
From Verif Require Import Prelude PeriModel PeriSpec PeriProofs4 CtxModel CtxSpec CtxProofs.
From Coq Require Import Ascii.
Local Open Scope string_scope.

Definition tile_weights (w : world) : mat := t_w (w_tile w).

(** C14: the weights seen through the context are read-only.  [crun c w p] runs an
    arbitrary program [p] on the context: switching modes, reading [.data], item
    assignment, and calls of any torch function on any objects obtained before.
    If the tile has digital scales no program changes the tile's weights. *)
Theorem C14_context_read_only_with_scales : forall c w p, get_scales (w_tile w) <> None ->
  tile_weights (fst (crun c w p)) = tile_weights w.
Proof. intros c w p H. exact (proj1 (crun_scaled c w p H)). Qed.
(** Without digital scales: no program changes the weights as long as in-place
    functions are named by torch's convention and get a tensor (not a list) as first
    argument, and no function returning a view is called. *)
Theorem C14_context_read_only_direct : forall c w p, Forall plain_call p ->
  tile_weights (fst (crun c w p)) = tile_weights w.
Proof. exact crun_plain. Qed.

Definition cfg_nosc : pcfg :=
  {| c_out := 1; c_in := 1; c_mapping := true; c_omega := 0; c_colwise := false; c_lrcomp := false;
     c_learn_out := false; c_out_colwise := false; c_bias := false; c_digital := true |}.
Definition tile_nosc : ptile :=
  {| t_w := [[1]]; t_ms := MsNone; t_los := None; t_lrs := 1; t_bias := None; t_ir := None; t_lr := 1 |}.
Definition world_nosc : world := {| w_tile := tile_nosc; w_mode := PLACEHOLDER; w_buf := None |}.
Lemma ip_add : inplace_name "add_".
Proof. exists "ad", "d"%char. split; [discriminate|reflexivity]. Qed.
Lemma ip_foreach : inplace_name "_foreach_add_".
Proof. exists "_foreach_ad", "d"%char. split; [discriminate|reflexivity]. Qed.
Definition add1 (m : mat) : mat := map (map (Rplus 1)) m.
(** ... in general they are not read-only: [ctx.enable_data_view(); ctx.detach().add_(1)]
    writes the tile when no scales exist (also [.data.detach()], [.get_data()], [ctx[0]],
    [.view], [.T], which all return plain tensors sharing the tile's memory). *)
Theorem C14_view_alias_refuted :
  ~ (forall c w p,
       Forall (fun o => match o with CCall f _ _ => follows_convention f | _ => True end) p ->
       tile_weights (fst (crun c w p)) = tile_weights w).
Proof.
  intros H.
  specialize (H cfg_nosc world_nosc
    [CMode DATA_VIEW; CCall {| f_name := "detach"; f_kind := FView |} [I1 0] None;
     CCall {| f_name := "add_"; f_kind := FInplace add1 |} [I1 1] None]).
  assert (F : tile_weights world_nosc = [[1]]) by reflexivity. rewrite F in H.
  specialize (H ltac:(repeat constructor; apply ip_add)). cbv -[Rplus IZR] in H. injection H. lra.
Qed.
(** ... and neither for in-place functions that take a list of tensors, such as
    [torch._foreach_add_([ctx], 1.)]. *)
Theorem C14_foreach_refuted :
  ~ (forall c w p,
       Forall (fun o => match o with CCall f _ _ => follows_convention f /\ no_view f | _ => True end) p ->
       tile_weights (fst (crun c w p)) = tile_weights w).
Proof.
  intros H.
  specialize (H cfg_nosc world_nosc
    [CMode DATA_VIEW; CCall {| f_name := "_foreach_add_"; f_kind := FInplace add1 |} [IList [0%nat]] None]).
  assert (F : tile_weights world_nosc = [[1]]) by reflexivity. rewrite F in H.
  specialize (H ltac:(repeat constructor; try discriminate; apply ip_foreach)). cbv -[Rplus IZR] in H. injection H. lra.
Qed.
Example C14_nonvacuous : Forall plain_call
    [CMode DATA_VIEW; CData; CCall {| f_name := "add_"; f_kind := FInplace add1 |} [I1 0] None;
     CCall {| f_name := "mul"; f_kind := FValue add1 |} [I1 1; I1 1] (Some 0%nat)].
Proof. repeat constructor; try discriminate; apply ip_add. Qed.

(** C15: in placeholder mode nothing computed from the weights can be obtained: after
    any program that does not leave the mode, every object the program holds is the
    context itself, a placeholder, a tensor of unrelated memory, or no tensor. *)
Theorem C15_placeholder_reveals_nothing : forall c w p,
  w_mode w = PLACEHOLDER -> Forall stays_placeholder p ->
  Forall (fun o => o = OCtx \/ o = OPh \/ o = OPlain MOther \/ o = OMeta) (snd (crun c w p))
  /\ tile_weights (fst (crun c w p)) = tile_weights w.
Proof. exact crun_placeholder. Qed.
(** A value-reading function is refused. *)
Theorem C15_placeholder_refuses : forall w f args out,
  w_mode w = PLACEHOLDER -> is_metadata (f_name f) = false ->
  existsb (fun a => existsb is_ctx (objs_of a)) args = true ->
  f_name f <> "requires_grad_" ->
  call w f args out = Raise RuntimeError.
Proof.
  intros w f args out M N X R. unfold call. rewrite X. simpl orb.
  assert (E : String.eqb (f_name f) "requires_grad_" = false) by (now apply String.eqb_neq). rewrite E.
  destruct (readonly_guard _ _ _ _); auto.
  set (conv := fun o => match o with OCtx => torch_function_data w (f_name f) | _ => Ok o end).
  assert (C : conv OCtx = Raise RuntimeError) by (unfold conv, torch_function_data; now rewrite M, N).
  assert (CO : forall o, conv o = Ok o \/ conv o = Raise RuntimeError).
  { intros []; auto. }
  assert (L : forall l, existsb is_ctx l = true -> mapM conv l = Raise RuntimeError).
  { induction l as [|o l IH]; [discriminate|]. cbn [existsb mapM]. intros Q.
    destruct (CO o) as [Eo|Eo]; rewrite Eo; cbn [bind]; auto.
    apply orb_true_iff in Q as [Q|Q]; [destruct o; try discriminate; congruence|].
    rewrite IH; auto. }
  assert (A : forall a, (exists a', map_arg conv a = Ok a') \/ map_arg conv a = Raise RuntimeError).
  { intros [o|l]; cbn [map_arg].
    - destruct (CO o) as [Eo|Eo]; rewrite Eo; cbn [bind]; eauto.
    - assert (T : (exists l', mapM conv l = Ok l') \/ mapM conv l = Raise RuntimeError).
      { induction l as [|o l IH]; cbn [mapM]; eauto. destruct (CO o) as [Eo|Eo]; rewrite Eo; cbn [bind]; auto.
        destruct IH as [[l' ->]| ->]; cbn [bind]; eauto. }
      destruct T as [[l' ->]| ->]; cbn [bind]; eauto. }
  assert (T : mapM (map_arg conv) args = Raise RuntimeError).
  { clear -X L A C. induction args as [|a args IH]; [discriminate|]. cbn [existsb] in X. cbn [mapM].
    destruct (existsb is_ctx (objs_of a)) eqn:Ea.
    - assert (Q : map_arg conv a = Raise RuntimeError).
      { destruct a as [o|l]; cbn [objs_of] in Ea; cbn [map_arg].
        - destruct o; try discriminate. rewrite C. reflexivity.
        - rewrite (L l Ea). reflexivity. }
      rewrite Q. reflexivity.
    - destruct (A a) as [[a' ->]| ->]; cbn [bind]; auto. rewrite IH; auto. }
  rewrite T. reflexivity.
Qed.
(** Not every value-like access is refused: [ctx.type(dtype)] returns an ordinary
    tensor of uninitialised memory instead of raising. *)
Theorem C15_placeholder_type_refuted :
  ~ (forall w f args w' r, w_mode w = PLACEHOLDER -> call w f args None = Ok (w', r) ->
       In OCtx (concat (map objs_of args)) -> forall m, r <> OPlain m).
Proof.
  intros H. eapply (H world_nosc {| f_name := "type"; f_kind := FValue add1 |} [A1 OCtx]);
    [reflexivity|reflexivity|simpl; auto|reflexivity].
Qed.

(** C16: in data view mode the context shows exactly the logical weights of the tile
    for every reachable tile state, and in buffer mode a zero matrix of that shape
    that is written instead of the tile. *)
Theorem C16_data_view_is_logical : forall c t, reachable c t ->
  ctx_logical_data c t = fst (logical c t).
Proof. exact data_view_logical. Qed.
Theorem C16_buffer_starts_zero : forall c w, reachable c (w_tile w) ->
  exists b, w_buf (set_mode c BUFFER w) = Some b
    /\ shape (c_out c) (c_in c) b /\ Forall (Forall (eq 0)) b.
Proof.
  intros c w R. exists (new_data_buffer c (w_tile w)). split; [reflexivity|]. now apply buffer_zero.
Qed.
Theorem C16_buffer_written_instead : forall w name g, w_mode w = BUFFER ->
  inplace_name name -> name <> "requires_grad_" ->
  exists r, call w {| f_name := name; f_kind := FInplace g |} [A1 OCtx] None
     = Ok ({| w_tile := w_tile w; w_mode := BUFFER; w_buf := option_map g (w_buf w) |}, r).
Proof.
  intros w name g M I0 N. pose proof (inplace_spec name I0) as I. exists (OPlain MBuf). unfold call. simpl.
  assert (E : String.eqb name "requires_grad_" = false) by (now apply String.eqb_neq). rewrite E.
  unfold readonly_guard. rewrite I, M. simpl. unfold torch_function_data. rewrite M. simpl.
  unfold handle_ro, handle_ph. simpl. unfold with_buf. rewrite M. reflexivity.
Qed.

Print Assumptions C14_context_read_only_with_scales.
Print Assumptions C14_context_read_only_direct.
Print Assumptions C14_view_alias_refuted.
Print Assumptions C14_foreach_refuted.
Print Assumptions C15_placeholder_reveals_nothing.
Print Assumptions C15_placeholder_refuses.
Print Assumptions C15_placeholder_type_refuted.
Print Assumptions C16_data_view_is_logical.
Print Assumptions C16_buffer_starts_zero.
Print Assumptions C16_buffer_written_instead.
