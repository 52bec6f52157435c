(** * The life of the modified weights (C91) and of the cached parameters (C92) *)
From Verif Require Import Prelude Rand CompModel PeriModel HwaModel HwaSpec HwaProofs HwaProofs2 HwaProps4.

Lemma foldMM_app {A B} (f : B -> A -> M B) a : forall b i r, yields (foldMM f (a ++ b) i) r <-> exists m, yields (foldMM f a i) m /\ yields (foldMM f b m) r.
Proof.
  induction a as [|o a IH]; intros b i r; cbn [app foldMM].
  - split; [intros H; exists i; split; [constructor | auto] | intros (m & H & K)]. apply yields_ret in H. now subst.
  - split.
    + intros H. apply yields_bind in H as (j & H1 & H). apply IH in H as (m & H2 & H3). exists m. split; auto. apply yields_bind. eauto.
    + intros (m & H & K). apply yields_bind in H as (j & H1 & H). apply yields_bind. exists j. split; auto. apply IH. eauto.
Qed.
(** a configuration that asks for a modification of the weights *)
Definition active (p : mpar) : Prop := mo_type p <> MNone /\ (mo_type p = MCopy -> 0 < mo_pdrop p).
(** an operation that modifies the weights *)
Definition modifies (o : hop) : Prop := exists h, o = OpPost h /\ active (h_mod h).
Lemma mod_active_iff p : mod_active p = true <-> active p.
Proof.
  unfold mod_active, active. destruct (mo_type p); split; intros H;
    try discriminate H; try reflexivity; try (exfalso; now apply (proj1 H)); try (split; [discriminate | discriminate]).
  - split; [discriminate|]. intros _. apply Bool.negb_true_iff in H. apply Rleb_false in H. lra.
  - destruct H as [_ H]. specialize (H eq_refl). rewrite (proj2 (Rleb_false _ _)); [reflexivity | lra].
Qed.
Lemma parent_keeps h i i' : yields (parent_step h i) i' -> i_fb i' = i_fb i /\ i_cc i' = i_cc i /\ i_cr i' = i_cr i /\ i_cm i' = i_cm i.
Proof. unfold parent_step. intros H. apply yields_bind in H as (w & _ & H). apply yields_ret in H. subst i'. repeat split. Qed.
Lemma clip_keeps h i : i_fb (clip_part h i) = i_fb i /\ i_cr (clip_part h i) = i_cr i /\ i_cm (clip_part h i) = i_cm i.
Proof. unfold clip_part. destruct (wc_type (h_clip h)); repeat split. Qed.
Lemma remap_keeps h i i' : yields (remap_part h i) i' -> i_fb i' = i_fb i /\ i_cc i' = i_cc i /\ i_cm i' = i_cm i.
Proof.
  unfold remap_part. destruct (wr_type (h_remap h)); intros H; [apply yields_ret in H; subst; repeat split| |];
    apply yields_bind in H as (t & _ & H); apply yields_ret in H; subst i'; repeat split.
Qed.
Lemma post_fb h i i' : yields (post_update_step h i) i' ->
  (active (h_mod h) -> exists fb, i_fb i' = Some (fb, mo_edt (effective (h_otf h) (i_cm i) (h_mod h))) /\ i_cm i' = Some (effective (h_otf h) (i_cm i) (h_mod h)) /\
     yields (modify (effective (h_otf h) (i_cm i) (h_mod h)) (t_w (i_p i'))) fb) /\
  (~ active (h_mod h) -> i_fb i' = i_fb i /\ i_cm i' = i_cm i).
Proof.
  unfold post_update_step. intros H. apply yields_bind in H as (i1 & H1 & H). apply yields_bind in H as (i2 & H2 & H). apply parent_keeps in H1 as (F1 & _ & _ & C1). apply remap_keeps in H2 as (F2 & _ & C2). destruct (clip_keeps h i1) as (F3 & _ & C3).
  assert (C : i_cm i2 = i_cm i) by congruence. assert (F : i_fb i2 = i_fb i) by congruence. unfold modify_part in H. rewrite C in H. destruct (mod_active (h_mod h)) eqn:A.
  - apply mod_active_iff in A. split; [|tauto]. intros _. cbv zeta in H. apply yields_bind in H as (fb & Y & H). apply yields_ret in H. subst i'. exists fb. repeat split. exact Y.
  - assert (A' : ~ active (h_mod h)) by (intros B; apply mod_active_iff in B; congruence). split; [tauto|]. apply yields_ret in H. subst i'. auto.
Qed.
Lemma step_fb o i i' : yields (hstep i o) i' -> ~ modifies o -> (i_fb i' = i_fb i \/ (o = OpLoad /\ i_fb i' = option_map (fun f => (fst f, false)) (i_fb i))).
Proof.
  intros H N. destruct o as [w | lr x d | h | |]; cbn [hstep] in H.
  - apply yields_ret in H. subst. now left.
  - apply yields_ret in H. subst. now left.
  - left. apply post_fb in H as [_ H]. apply H. intros A. apply N. exists h. auto.
  - apply yields_ret in H. subst. now left.
  - apply yields_ret in H. subst. right. auto.
Qed.
Lemma run_fb ops : forall i i', yields (hrun ops i) i' -> (forall o, In o ops -> ~ modifies o) -> i_fb i' = i_fb i \/ (In OpLoad ops /\ i_fb i' = option_map (fun f => (fst f, false)) (i_fb i)).
Proof.
  unfold hrun. induction ops as [|o ops IH]; intros i i' H N; cbn [foldMM] in H; [apply yields_ret in H; subst; now left|]. apply yields_bind in H as (j & H1 & H).
  destruct (step_fb o i j H1) as [E | [-> E]]; [apply N; now left| |]; destruct (IH j i' H) as [E' | [L E']]; try (intros; apply N; now right).
  - left. congruence.
  - right. split; [now right | congruence].
  - right. split; [now left | congruence].
  - right. split; [now left|]. rewrite E', E. destruct (i_fb i) as [[f b]|]; reflexivity.
Qed.

(** C91: until the first post update step that modifies weights, all passes use the weights *)
Theorem C91_before : forall p ops i is_test, yields (hrun ops (fresh p)) i -> (forall o, In o ops -> ~ modifies o) -> fb_weights i is_test = t_w (i_p i).
Proof. intros p ops i b H N. destruct (run_fb ops _ _ H N) as [E | [_ E]]; unfold fb_weights; rewrite E; reflexivity. Qed.
(** C91: in test mode passes use the weights, if no configuration asks for something else *)
Lemma run_edt ops : forall i i', yields (hrun ops i) i' -> (forall h, In (OpPost h) ops -> mo_edt (h_mod h) = false) ->
  (forall f b, i_fb i = Some (f, b) -> b = false) -> (forall m, i_cm i = Some m -> mo_edt m = false) -> forall f b, i_fb i' = Some (f, b) -> b = false.
Proof.
  unfold hrun. induction ops as [|o ops IH]; intros i i' H N F C; cbn [foldMM] in H; [apply yields_ret in H; subst; auto|]. apply yields_bind in H as (j & H1 & H).
  assert (K : (forall f b, i_fb j = Some (f, b) -> b = false) /\ (forall m, i_cm j = Some m -> mo_edt m = false)).
  { destruct o as [w | lr x d | h | |]; cbn [hstep] in H1; try (apply yields_ret in H1; subst j; split; auto; discriminate).
    - apply post_fb in H1 as [A B]. assert (Eh : mo_edt (effective (h_otf h) (i_cm i) (h_mod h)) = false). { unfold effective. destruct (h_otf h); [apply N; now left|]. destruct (i_cm i) eqn:E; [now apply C | apply N; now left]. }
      destruct (mod_active (h_mod h)) eqn:Ac.
      + destruct A as (fb & Ef & Ec & _); [now apply mod_active_iff|]. rewrite Ef, Ec. split; [intros f b E; injection E as _ <-; exact Eh | intros m E; injection E as <-; exact Eh].
      + destruct B as [-> ->]; [intros A'; apply mod_active_iff in A'; congruence|]. auto.
    - apply yields_ret in H1; subst j; split; [|discriminate]. cbn [i_fb]. intros f b E. destruct (i_fb i) as [[f0 b0]|]; [|discriminate]. now injection E as _ <-. }
  destruct K. apply (IH j i'); auto. intros h Hh. apply N. now right.
Qed.
Theorem C91_test : forall p ops i, yields (hrun ops (fresh p)) i -> (forall h, In (OpPost h) ops -> mo_edt (h_mod h) = false) -> fb_weights i true = t_w (i_p i).
Proof.
  intros p ops i H N. unfold fb_weights. destruct (i_fb i) as [[f b]|] eqn:E; [|reflexivity]. rewrite (run_edt ops (fresh p) i H N ltac:(discriminate) ltac:(discriminate) f b E). reflexivity.
Qed.
(** C91: after that, training passes use the modification of the weights the tile had after the
    last modifying step, whatever is written to the tile, updated, saved or loaded since then *)
Theorem C91_training : forall p pre h post i, yields (hrun (pre ++ OpPost h :: post) (fresh p)) i -> active (h_mod h) -> h_otf h = true -> (forall o, In o post -> ~ modifies o) ->
  exists i1, yields (hrun (pre ++ [OpPost h]) (fresh p)) i1 /\ yields (hrun post i1) i /\ yields (modify (h_mod h) (t_w (i_p i1))) (fb_weights i false).
Proof.
  intros p pre h post i H A O N. unfold hrun in H. apply foldMM_app in H as (i0 & H0 & H). cbn [foldMM] in H. apply yields_bind in H as (i1 & H1 & H). exists i1. split; [|split; [exact H|]].
  - apply foldMM_app. exists i0. split; auto. cbn [foldMM]. apply yields_bind. exists i1. split; auto. constructor.
  - cbn [hstep] in H1. apply post_fb in H1 as [K _]. destruct (K A) as (fb & Ef & _ & Y). unfold effective in Y, Ef. rewrite O in Y, Ef.
    assert (E : fb_weights i false = fb) by (destruct (run_fb post i1 i H N) as [E | [_ E]]; unfold fb_weights; rewrite E, Ef; reflexivity). now rewrite E.
Qed.
(** .. and so do test passes if the configuration of that step enables it, until the tile is loaded *)
Theorem C91_enabled : forall p pre h post i, yields (hrun (pre ++ OpPost h :: post) (fresh p)) i -> active (h_mod h) -> h_otf h = true -> mo_edt (h_mod h) = true -> (forall o, In o post -> ~ modifies o) ->
  (~ In OpLoad post -> fb_weights i true = fb_weights i false) /\ (In OpLoad post -> fb_weights i true = t_w (i_p i)).
Proof.
  intros p pre h post i H A O E N. unfold hrun in H. apply foldMM_app in H as (i0 & H0 & H). cbn [foldMM] in H. apply yields_bind in H as (i1 & H1 & H). cbn [hstep] in H1. apply post_fb in H1 as [K _]. destruct (K A) as (fb & Ef & _ & Y). unfold effective in Ef. rewrite O, E in Ef. split; intros L.
  - destruct (run_fb post i1 i H N) as [F | [L' _]]; [|contradiction]. unfold fb_weights. rewrite F, Ef. reflexivity.
  - apply in_split in L as (l1 & l2 & ->). apply foldMM_app in H as (j & Ha & Hb). cbn [foldMM hstep] in Hb. apply yields_bind in Hb as (k & Hk & Hb). apply yields_ret in Hk.
    assert (Fk : exists f, i_fb k = Some (f, false)). { assert (Fj : exists f b, i_fb j = Some (f, b)) by (destruct (run_fb l1 i1 j Ha) as [F | [_ F]]; [intros; apply N; apply in_or_app; now left | |]; rewrite Ef in F; cbn [option_map] in F; eauto). destruct Fj as (f & b & Fj). exists f. subst k. cbn [i_fb]. now rewrite Fj. }
    destruct Fk as [f Fk]. destruct (run_fb l2 k i Hb) as [F | [_ F]]; [intros; apply N; apply in_or_app; right; now right | |]; unfold fb_weights; rewrite F, Fk; reflexivity.
Qed.
(** The weights themselves are not touched by a modification *)
Theorem C91_weights : forall h i i', wc_type (h_clip h) = CNone -> wr_type (h_remap h) = RmNone -> h_diff h <= 0 -> h_life h <= 0 -> yields (post_update_step h i) i' -> i_p i' = i_p i.
Proof.
  intros h i i' C Rm D L H. unfold post_update_step in H. apply yields_bind in H as (i1 & H1 & H). apply yields_bind in H as (i2 & H2 & H). unfold parent_step in H1. rewrite (proj2 (Rltb_false _ _) D), (proj2 (Rltb_false _ _) L) in H1. apply yields_bind in H1 as (w & Hw & H1). apply yields_ret in Hw, H1. unfold remap_part in H2. rewrite Rm in H2. apply yields_ret in H2. unfold clip_part in H2. rewrite C in H2.
  assert (E : i_p i2 = i_p i) by (subst; cbn; now destruct (i_p i)). unfold modify_part in H. destruct (mod_active (h_mod h)); [cbv zeta in H; apply yields_bind in H as (fb & _ & H)|]; apply yields_ret in H; subst i'; auto.
Qed.

(** Concrete cases *)
Definition hw_cfg (m : mpar) (otf : bool) : hcfg := {|
  h_p := {| c_out := 1; c_in := 2; c_mapping := false; c_omega := 0; c_colwise := false; c_lrcomp := false; c_learn_out := false; c_out_colwise := false; c_bias := false; c_digital := false |};
  h_otf := otf; h_diff := 0; h_life := 0; h_clip := {| wc_type := CNone; wc_fix := -1; wc_sigma := 5/2 |};
  h_remap := {| wr_type := RmNone; wr_wmax := 1; wr_range := 0; wr_ref := 0 |}; h_mod := m |}.
Definition hw_tile : ptile := {| t_w := [[2; -5]]; t_ms := MsNone; t_los := None; t_lrs := 1; t_bias := None; t_ir := None; t_lr := 1 |}.
(** noise of standard deviation [s] times 1, without and with use in test mode *)
Definition add_noise (s : R) (edt : bool) : mpar := {| mo_type := MAdd; mo_pbs := false; mo_std := s; mo_res := 0; mo_sto := false; mo_dorefa := 3/5; mo_pdrop := 0; mo_edt := edt; mo_rel := false; mo_awmax := 1; mo_lastcol := false; mo_coeffs := [1]; mo_gmax := 25 |}.
Lemma add_noise_active s e : active (add_noise s e).
Proof. split; discriminate. Qed.
Lemma add_noise_yields s e g w : 0 < s -> yields (modify (add_noise s e) w) (map (map (fun v => v + s * 1 * g)) w).
Proof.
  intros P. assert (Em : mod_amax (add_noise s e) w = 1) by reflexivity. unfold modify. rewrite Em. cbn [add_noise mo_pbs mo_type mo_lastcol mo_pdrop andb]. rewrite (proj2 (Rltb_false 0 0)) by lra. apply yields_bind. exists (map (map (fun v => v + s * 1 * g)) w). split; [|apply yields_bind; eexists; split; constructor].
  assert (Ye : forall v, yields (mod_elem (add_noise s e) 1 v) (v + s * 1 * g)) by (intros v; unfold mod_elem; cbn [add_noise mo_type mo_std]; rewrite (proj2 (Rltb_true 0 s)) by lra; apply yields_gauss; exists g; constructor).
  apply yields_mapMM. induction w as [|r w IH]; constructor; auto. apply yields_mapMM. induction r; constructor; auto.
Qed.
Lemma post_yields m otf i fb : active m -> yields (modify (effective otf (i_cm i) m) (t_w (i_p i))) fb ->
  yields (post_update_step (hw_cfg m otf) i) {| i_p := i_p i; i_fb := Some (fb, mo_edt (effective otf (i_cm i) m)); i_cc := i_cc i; i_cr := i_cr i; i_cm := Some (effective otf (i_cm i) m) |}.
Proof.
  intros A Y. apply yields_bind. exists i. split.
  - unfold parent_step. cbn [hw_cfg h_diff h_life]. rewrite (proj2 (Rltb_false 0 0)) by lra. cbn [bindM]. destruct i as [t f a b c], t. constructor.
  - apply yields_bind. exists i. split; [constructor|]. unfold modify_part. cbn [hw_cfg h_mod h_otf]. rewrite (proj2 (mod_active_iff m) A). apply yields_bind. exists fb. split; [exact Y | constructor].
Qed.
(** C91 refuted: saving and loading a tile keeps what its passes compute.  With [enable_during_test]
    the test passes of the loaded tile use other weights. *)
Theorem C91_reload_refuted : exists ops i j, yields (hrun ops (fresh hw_tile)) i /\ yields (hrun [OpSave; OpLoad] i) j /\ i_p j = i_p i /\ fb_weights j false = fb_weights i false /\ fb_weights j true <> fb_weights i true.
Proof.
  pose (fb := map (map (fun v => v + 1 * 1 * 1)) [[2; -5]]). exists [OpPost (hw_cfg (add_noise 1 true) true)]. eexists. eexists. split.
  - apply yields_bind. eexists. split; [apply (post_yields (add_noise 1 true) true (fresh hw_tile) fb); [apply add_noise_active | apply add_noise_yields; lra] | constructor].
  - split; [apply yields_bind; eexists; split; [constructor|]; apply yields_bind; eexists; split; constructor|]. split; [reflexivity|]. split; [reflexivity|]. cbn. intros E. injection E as E _. lra.
Qed.
(** C91: a written weight is not seen by training passes until the next modification *)
Theorem C91_nontrivial : exists h i w, active (h_mod h) /\ h_otf h = true /\ mo_edt (h_mod h) = false /\ ~ modifies (OpWrite w) /\ yields (hrun ([] ++ OpPost h :: [OpWrite w]) (fresh hw_tile)) i /\
  t_w (i_p i) = w /\ fb_weights i true = w /\ fb_weights i false <> w /\ fb_weights i false = [[2 + 1; -5 + 1]].
Proof.
  pose (fb := map (map (fun v => v + 1 * 1 * 1)) [[2; -5]]). exists (hw_cfg (add_noise 1 false) true). eexists. exists [[7; 7]]. split; [apply add_noise_active|]. split; [reflexivity|]. split; [reflexivity|]. split; [intros (h & E & _); discriminate|]. split.
  - apply yields_bind. eexists. split; [apply (post_yields (add_noise 1 false) true (fresh hw_tile) fb); [apply add_noise_active | apply add_noise_yields; lra]|]. apply yields_bind. eexists. split; constructor.
  - split; [reflexivity|]. split; [reflexivity|]. split; [cbn; intros E; injection E as E _; lra | cbn; repeat f_equal; lra].
Qed.

(** ** C92: parameters are read once *)
(** operations that keep the parameters read before: no saving or loading, and no modifying step
    with bindings on the fly *)
Definition keeps_read (o : hop) : Prop := o <> OpSave /\ o <> OpLoad /\ forall h, o = OpPost h -> h_otf h = false.
Lemma run_cm ops : forall i i' m, yields (hrun ops i) i' -> (forall o, In o ops -> keeps_read o) -> i_cm i = Some m -> i_cm i' = Some m.
Proof.
  unfold hrun. induction ops as [|o ops IH]; intros i i' m H N E; cbn [foldMM] in H; [apply yields_ret in H; now subst|]. apply yields_bind in H as (j & H1 & H). apply (IH j); auto; [intros; apply N; now right|].
  destruct (N o) as (Ns & Nl & Np); [now left|]. destruct o as [w | lr x d | h | |]; cbn [hstep] in H1; try congruence; try (apply yields_ret in H1; now subst).
  apply post_fb in H1 as [A B]. destruct (mod_active (h_mod h)) eqn:Ac.
  - destruct A as (fb & _ & Ec & _); [now apply mod_active_iff|]. rewrite Ec. unfold effective. now rewrite (Np h eq_refl), E.
  - destruct B as [_ ->]; auto. intros A'. apply mod_active_iff in A'. congruence.
Qed.
Theorem C92_first : forall i0 h1 mid h2 i, yields (hrun (OpPost h1 :: mid ++ [OpPost h2]) i0) i -> h_otf h1 = true \/ i_cm i0 = None -> active (h_mod h1) -> active (h_mod h2) -> (forall o, In o mid -> keeps_read o) -> h_otf h2 = false ->
  yields (modify (h_mod h1) (t_w (i_p i))) (fb_weights i false) /\ (mo_edt (h_mod h1) = false -> fb_weights i true = t_w (i_p i)) /\ (mo_edt (h_mod h1) = true -> fb_weights i true = fb_weights i false).
Proof.
  intros i0 h1 mid h2 i H O A1 A2 N O2. unfold hrun in H. cbn [foldMM hstep] in H. apply yields_bind in H as (i1 & H1 & H). apply foldMM_app in H as (i2 & H2 & H). cbn [foldMM hstep] in H. apply yields_bind in H as (i3 & H3 & H). apply yields_ret in H. subst i3.
  apply post_fb in H1 as [K _]. destruct (K A1) as (f1 & _ & C1 & _). assert (E1 : effective (h_otf h1) (i_cm i0) (h_mod h1) = h_mod h1) by (unfold effective; destruct O as [-> | ->]; [reflexivity | now destruct (h_otf h1)]). rewrite E1 in C1.
  pose proof (run_cm mid i1 i2 _ H2 N C1) as C2. apply post_fb in H3 as [K2 _]. destruct (K2 A2) as (f & Ef & _ & Y). unfold effective in Y, Ef. rewrite O2, C2 in Y, Ef. unfold fb_weights. rewrite Ef. cbn [negb orb]. split; [exact Y|]. split; intros ->; reflexivity.
Qed.
(** .. with bindings on the fly, or when the tile has just been saved or loaded, the present ones count *)
Theorem C92_live : forall ops i0 i1 h2 i, yields (hrun ops i0) i1 -> yields (hrun [OpPost h2] i1) i -> active (h_mod h2) -> h_otf h2 = true \/ (exists l, ops = l ++ [OpSave]) \/ (exists l, ops = l ++ [OpLoad]) ->
  yields (modify (h_mod h2) (t_w (i_p i))) (fb_weights i false) /\ (mo_edt (h_mod h2) = false -> fb_weights i true = t_w (i_p i)) /\ (mo_edt (h_mod h2) = true -> fb_weights i true = fb_weights i false).
Proof.
  intros ops i0 i1 h2 i H1 H A O. unfold hrun in H. cbn [foldMM hstep] in H. apply yields_bind in H as (i3 & H3 & H). apply yields_ret in H. subst i3.
  assert (E : effective (h_otf h2) (i_cm i1) (h_mod h2) = h_mod h2).
  { unfold effective. destruct (h_otf h2) eqn:Eo; [reflexivity|]. destruct O as [O | [[l ->] | [l ->]]]; [discriminate| |]; unfold hrun in H1; apply foldMM_app in H1 as (j & _ & H1); cbn [foldMM hstep] in H1; apply yields_bind in H1 as (k & Hk & H1); apply yields_ret in Hk; apply yields_ret in H1; subst; reflexivity. }
  apply post_fb in H3 as [K _]. destruct (K A) as (f & Ef & _ & Y). rewrite E in *. unfold fb_weights. rewrite Ef. cbn [negb orb]. split; [exact Y|]. split; intros ->; reflexivity.
Qed.
(** the same for clipping: the first fixed value read stays in force *)
Lemma post_clip h i i' : yields (post_update_step h i) i' -> i_cc i' = match wc_type (h_clip h) with CNone => i_cc i | _ => Some (effective (h_otf h) (i_cc i) (h_clip h)) end.
Proof.
  unfold post_update_step. intros H. apply yields_bind in H as (i1 & H1 & H). apply yields_bind in H as (i2 & H2 & H). apply parent_keeps in H1 as (_ & E1 & _ & _). apply remap_keeps in H2 as (_ & E2 & _).
  assert (E3 : i_cc i' = i_cc i2) by (unfold modify_part in H; destruct (mod_active (h_mod h)); [cbv zeta in H; apply yields_bind in H as (fb & _ & H)|]; apply yields_ret in H; now subst). rewrite E3, E2. unfold clip_part. rewrite E1. destruct (wc_type (h_clip h)); auto.
Qed.
Lemma run_cc ops : forall i i' m, yields (hrun ops i) i' -> (forall o, In o ops -> keeps_read o) -> i_cc i = Some m -> i_cc i' = Some m.
Proof.
  unfold hrun. induction ops as [|o ops IH]; intros i i' m H N E; cbn [foldMM] in H; [apply yields_ret in H; now subst|]. apply yields_bind in H as (j & H1 & H). apply (IH j); auto; [intros; apply N; now right|].
  destruct (N o) as (Ns & Nl & Np); [now left|]. destruct o as [w | lr x d | h | |]; cbn [hstep] in H1; try congruence; try (apply yields_ret in H1; now subst). rewrite (post_clip _ _ _ H1). unfold effective. rewrite (Np h eq_refl), E. now destruct (wc_type (h_clip h)).
Qed.
Theorem C92_clip : forall i0 h1 mid i2 h2 i d x, yields (hrun (OpPost h1 :: mid) i0) i2 -> yields (hrun [OpPost h2] i2) i -> h_otf h1 = true \/ i_cc i0 = None -> wc_type (h_clip h1) = CFixed -> 0 <= wc_fix (h_clip h1) -> wc_type (h_clip h2) <> CNone ->
  (forall o, In o mid -> keeps_read o) -> h_otf h2 = false -> h_diff h2 <= 0 -> h_life h2 <= 0 -> wr_type (h_remap h2) = RmNone -> shape d x (t_w (i_p i2)) ->
  clipped_at d x (wc_fix (h_clip h1)) (t_w (i_p i2)) (t_w (i_p i)).
Proof.
  intros i0 h1 mid i2 h2 i d x H1 H O T P N2 N O2 D L Rm S. unfold hrun in H1, H. cbn [foldMM hstep] in H1, H. apply yields_bind in H1 as (i1 & H1 & Hm). apply yields_bind in H as (i3 & H & Hr). apply yields_ret in Hr. subst i3.
  pose proof (post_clip _ _ _ H1) as C1. rewrite T in C1. assert (E1 : effective (h_otf h1) (i_cc i0) (h_clip h1) = h_clip h1) by (unfold effective; destruct O as [-> | ->]; [reflexivity | now destruct (h_otf h1)]). rewrite E1 in C1. pose proof (run_cc mid i1 i2 _ Hm N C1) as C2.
  unfold post_update_step in H. apply yields_bind in H as (j1 & J1 & H). apply yields_bind in H as (j2 & J2 & H). unfold parent_step in J1. rewrite (proj2 (Rltb_false _ _) D), (proj2 (Rltb_false _ _) L) in J1. apply yields_bind in J1 as (w & Hw & J1). apply yields_ret in Hw, J1. unfold remap_part in J2. rewrite Rm in J2. apply yields_ret in J2.
  assert (Ew : t_w (i_p i) = t_w (i_p j2)) by (unfold modify_part in H; destruct (mod_active (h_mod h2)); [cbv zeta in H; apply yields_bind in H as (fb & _ & H)|]; apply yields_ret in H; now subst). rewrite Ew, J2. unfold clip_part.
  assert (Cj : i_cc j1 = Some (h_clip h1)) by (subst; exact C2). assert (Wj : t_w (i_p j1) = t_w (i_p i2)) by (subst; reflexivity). rewrite Cj. unfold effective. rewrite O2.
  assert (G : clipped_at d x (wc_fix (h_clip h1)) (t_w (i_p i2)) (clip_weights (h_clip h1) (t_w (i_p j1)))). { unfold clip_weights. rewrite T, Wj. unfold device_clip. rewrite (proj2 (Rleb_true _ _) P). now apply clip_mat_spec. }
  destruct (wc_type (h_clip h2)); [congruence| | |]; exact G.
Qed.
(** A user who raises the noise from 1 to 2 after the first step keeps getting noise 1 *)
Theorem C92_nontrivial : exists i fb, active (h_mod (hw_cfg (add_noise 2 true) false)) /\ yields (hrun (OpPost (hw_cfg (add_noise 1 false) false) :: [OpWrite [[3; 3]]] ++ [OpPost (hw_cfg (add_noise 2 true) false)]) (fresh hw_tile)) i /\
  fb_weights i false = fb /\ fb = [[3 + 1; 3 + 1]] /\ fb_weights i true = [[3; 3]] /\ keeps_read (OpWrite [[3; 3]]).
Proof.
  eexists. exists [[3 + 1; 3 + 1]]. split; [apply add_noise_active|]. split.
  - apply yields_bind. eexists. split; [apply (post_yields (add_noise 1 false) false (fresh hw_tile) (map (map (fun v => v + 1 * 1 * 1)) [[2; -5]])); [apply add_noise_active | apply add_noise_yields; lra]|]. apply yields_bind. eexists. split; [constructor|]. apply yields_bind. eexists. split; [|constructor].
    apply (post_yields (add_noise 2 true) false _ (map (map (fun v => v + 1 * 1 * 1)) [[3; 3]])); [apply add_noise_active | apply add_noise_yields; lra].
  - split; [cbn; repeat f_equal; lra|]. split; [reflexivity|]. split; [reflexivity|]. split; [discriminate|]. split; discriminate.
Qed.

Print Assumptions C91_before.
Print Assumptions C91_test.
Print Assumptions C91_training.
Print Assumptions C91_enabled.
Print Assumptions C91_weights.
Print Assumptions C91_reload_refuted.
Print Assumptions C91_nontrivial.
Print Assumptions C92_first.
Print Assumptions C92_live.
Print Assumptions C92_clip.
Print Assumptions C92_nontrivial.
