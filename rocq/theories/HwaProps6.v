(** * The order of a post update step (C93), decay and diffusion (C94) *)
From Verif Require Import Prelude Rand CompModel PulseProofs PeriModel PeriSpec PeriProofs PeriProofs4 HwaModel HwaSpec HwaProofs HwaProofs2 HwaProps HwaProps2 HwaProps3 HwaProps4 HwaProps5.

(** what decay multiplies a weight with *)
Definition decay_factor (lifetime : R) : R := if Rlt_dec 1 lifetime then 1 - 1 / lifetime else 1.
(** [w'] is [w] with noise of standard deviation [sd] added to each weight, then decayed *)
Definition drifted (d x : nat) (sd lifetime : R) (w w' : mat) : Prop :=
  shape d x w' /\ forall i j, (i < d)%nat -> (j < x)%nat -> exists g, ent w' i j = decay_factor lifetime * (ent w i j + (if Rlt_dec 0 sd then sd * g else 0)).

Lemma decay_factor_bounds L : 0 < decay_factor L <= 1.
Proof.
  unfold decay_factor. destruct (Rlt_dec 1 L) as [H|H]; [|lra]. assert (0 < 1 / L) by (apply Rdiv_lt_0_compat; lra). assert (1 / L < 1) by (apply (Rmult_lt_reg_r L); [lra|]; unfold Rdiv; rewrite Rmult_assoc, Rinv_l by lra; lra). lra.
Qed.
Lemma decay_ent L w d x i j : shape d x w -> (i < d)%nat -> (j < x)%nat -> ent (if Rltb 0 L then decay_weights L 1 w else w) i j = decay_factor L * ent w i j.
Proof.
  intros S Hi Hj. unfold decay_weights, decay_scale. pose proof (decay_factor_bounds L) as B. unfold decay_factor in *. destruct (Rlt_dec 1 L) as [H|H].
  - assert (0 < 1 / L) by (apply Rdiv_lt_0_compat; lra). rewrite (proj2 (Rltb_true 0 L)), (proj2 (Rltb_true 1 L)) by lra. cbv zeta. rewrite Rmult_1_l. rewrite (proj2 (Rltb_true 0 (1 - 1 / L))), (proj2 (Rltb_true (1 - 1 / L) 1)) by lra. cbn [andb]. now rewrite (ent_map _ _ d x).
  - rewrite (proj2 (Rltb_false 1 L)) by lra. cbv zeta. rewrite (proj2 (Rltb_false (1 - 1 * 0) 1)) by lra. rewrite Bool.andb_false_r. destruct (Rltb 0 L); ring.
Qed.
Lemma decay_shape L w d x : shape d x w -> shape d x (if Rltb 0 L then decay_weights L 1 w else w).
Proof. intros S. unfold decay_weights. destruct (Rltb 0 L); auto. cbv zeta. destruct (_ && _); auto. now apply shape_map. Qed.
Lemma parent_drifted h i i' d x : shape d x (t_w (i_p i)) -> yields (parent_step h i) i' -> drifted d x (h_diff h) (h_life h) (t_w (i_p i)) (t_w (i_p i')).
Proof.
  intros S H. unfold parent_step in H. apply yields_bind in H as (w & Hw & H). apply yields_ret in H. subst i'. cbn [with_tw with_p i_p with_w t_w].
  assert (K : shape d x w /\ forall i0 j, (i0 < d)%nat -> (j < x)%nat -> exists g, ent w i0 j = ent (t_w (i_p i)) i0 j + (if Rlt_dec 0 (h_diff h) then h_diff h * g else 0)).
  { unfold diffuse_weights in Hw. destruct (Rlt_dec 0 (h_diff h)) as [P|P].
    - rewrite (proj2 (Rltb_true _ _) P) in Hw. destruct (yields_mat _ d x _ w S Hw) as [Sw Hv]. split; auto. intros i0 j Hi Hj. specialize (Hv i0 j Hi Hj). apply yields_gauss in Hv as [g Hv]. apply yields_ret in Hv. exists g. exact Hv.
    - rewrite (proj2 (Rltb_false 0 (h_diff h))) in Hw by lra. apply yields_ret in Hw. subst w. split; auto. intros. exists 0. ring. }
  destruct K as [Sw Hv]. split; [now apply decay_shape|]. intros i0 j Hi Hj. destruct (Hv i0 j Hi Hj) as [g Eg]. exists g. rewrite (decay_ent _ _ d x) by auto. now rewrite Eg.
Qed.

Lemma logical_remap_wf c p t s t' : wf c t -> (0 < c_out c)%nat -> (0 < c_in c)%nat -> c_mapping c = true -> t_ms t <> MsNone -> get_scales t = Some s -> remap_ok p s -> remap_step c p t = Ok t' -> logical c t' = logical c t.
Proof.
  intros W D I M Ms Es Ok_ H. destruct (remap_step_spec c p t s t' W D I M Ms Es Ok_ H) as (w' & s' & Ec & Tw & Tb & W' & Ls & SL & g & Eg & Og & Xg).
  destruct SL as (S' & Ls' & Hl). rewrite (logical_eq c t' g), (logical_eq c t s); auto; try (now right); try apply (wf_w _ _ W); try apply (wf_w _ _ W'). rewrite Tw, Tb.
  assert (E : scale_rows g w' = scale_rows s (t_w t)). { rewrite <- (same_logical_scaled (c_out c) (xs c) (t_w t) s w' s'); auto; [|apply (wf_w _ _ W) | split; auto]. apply (scale_rows_ex_eq (c_out c)); auto; [now right | now destruct S'|]. rewrite Xg. unfold ex. destruct s' as [|a [|b s']]; auto. cbn in Ls'. rewrite <- Ls'. reflexivity. }
  now rewrite E.
Qed.
(** C93: first diffusion and decay, then clipping (here at a fixed value); the modified weights are
    those of the result *)
Theorem C93_clip : forall h p i d x, yields (post_update_step h (fresh p)) i -> shape d x (t_w p) -> wc_type (h_clip h) = CFixed -> 0 <= wc_fix (h_clip h) -> wr_type (h_remap h) = RmNone ->
  (exists w1, drifted d x (h_diff h) (h_life h) (t_w p) w1 /\ clipped_at d x (wc_fix (h_clip h)) w1 (t_w (i_p i))) /\
  get_scales (i_p i) = get_scales p /\ (active (h_mod h) -> yields (modify (h_mod h) (t_w (i_p i))) (fb_weights i false)).
Proof.
  intros h p i d x H S T P Rm. assert (A : active (h_mod h) -> yields (modify (h_mod h) (t_w (i_p i))) (fb_weights i false)). { intros A. apply post_fb in H as [K _]. destruct (K A) as (f & Ef & _ & Y). cbn [fresh i_cm] in Y. unfold effective in Y. assert (E : (if h_otf h then h_mod h else h_mod h) = h_mod h) by (now destruct (h_otf h)). rewrite E in Y. unfold fb_weights. rewrite Ef. exact Y. }
  unfold post_update_step in H. apply yields_bind in H as (i1 & H1 & H). apply yields_bind in H as (i2 & H2 & H). unfold remap_part in H2. rewrite Rm in H2. apply yields_ret in H2.
  assert (Ep : i_p i = i_p i2) by (unfold modify_part in H; destruct (mod_active (h_mod h)); [cbv zeta in H; apply yields_bind in H as (fb & _ & H)|]; apply yields_ret in H; now subst).
  destruct (parent_keeps _ _ _ H1) as (_ & E1 & _). pose proof (parent_drifted h (fresh p) i1 d x S H1) as Dr. assert (Cl : i_p i2 = with_w (i_p i1) (clip_mat (wc_fix (h_clip h)) (t_w (i_p i1)))).
  { subst i2. unfold clip_part. rewrite T, E1. cbn [fresh i_cc with_tw with_p i_p]. unfold effective. assert (E : (if h_otf h then h_clip h else h_clip h) = h_clip h) by (now destruct (h_otf h)). rewrite E. unfold clip_weights. rewrite T. unfold device_clip. now rewrite (proj2 (Rleb_true _ _) P). }
  split; [|split; [|exact A]].
  - exists (t_w (i_p i1)). split; [exact Dr|]. rewrite Ep, Cl. cbn [with_w t_w]. apply clip_mat_spec; auto. now destruct Dr.
  - rewrite Ep, Cl. unfold parent_step in H1. apply yields_bind in H1 as (w & _ & H1). apply yields_ret in H1. subst i1. reflexivity.
Qed.
(** C93: remapping comes after clipping: the logical weights of the result are those of the
    clipped weights with the old scales, and the weights are within the wanted maximum *)
Theorem C93_remap : forall h p s i, yields (post_update_step h (fresh p)) i -> reachable (h_p h) p -> (0 < c_in (h_p h))%nat -> c_mapping (h_p h) = true -> t_ms p <> MsNone -> get_scales p = Some s -> remap_ok (h_remap h) s ->
  wc_type (h_clip h) = CFixed -> 0 <= wc_fix (h_clip h) ->
  exists w1 w2, drifted (c_out (h_p h)) (xs (h_p h)) (h_diff h) (h_life h) (t_w p) w1 /\ clipped_at (c_out (h_p h)) (xs (h_p h)) (wc_fix (h_clip h)) w1 w2 /\
    logical (h_p h) (i_p i) = logical (h_p h) (with_w p w2) /\ (active (h_mod h) -> yields (modify (h_mod h) (t_w (i_p i))) (fb_weights i false)).
Proof.
  intros h p s i H Re I M Ms Es Ok_ T P. set (c := h_p h) in *. pose proof (reachable_wf _ _ Re) as W. pose proof (reachable_out _ _ Re) as D. assert (A : active (h_mod h) -> yields (modify (h_mod h) (t_w (i_p i))) (fb_weights i false)). { intros A. apply post_fb in H as [K _]. destruct (K A) as (f & Ef & _ & Y). cbn [fresh i_cm] in Y. unfold effective in Y. assert (E : (if h_otf h then h_mod h else h_mod h) = h_mod h) by (now destruct (h_otf h)). rewrite E in Y. unfold fb_weights. rewrite Ef. exact Y. }
  unfold post_update_step in H. apply yields_bind in H as (i1 & H1 & H). apply yields_bind in H as (i2 & H2 & H). destruct (parent_keeps _ _ _ H1) as (_ & E1 & E1' & _). pose proof (parent_drifted h (fresh p) i1 (c_out c) (xs c) (wf_w _ _ W) H1) as Dr.
  assert (Ep : i_p i = i_p i2) by (unfold modify_part in H; destruct (mod_active (h_mod h)); [cbv zeta in H; apply yields_bind in H as (fb & _ & H)|]; apply yields_ret in H; now subst).
  set (w1 := t_w (i_p i1)) in *. set (w2 := clip_mat (wc_fix (h_clip h)) w1). assert (Cl : i_p (clip_part h i1) = with_w p w2).
  { unfold clip_part. rewrite T, E1. cbn [fresh i_cc with_tw with_p i_p]. unfold effective. assert (E : (if h_otf h then h_clip h else h_clip h) = h_clip h) by (now destruct (h_otf h)). rewrite E. unfold clip_weights. rewrite T. unfold device_clip. rewrite (proj2 (Rleb_true _ _) P). unfold w2, w1. unfold parent_step in H1. apply yields_bind in H1 as (w & _ & H1). apply yields_ret in H1. subst i1. reflexivity. }
  assert (S1 : shape (c_out c) (xs c) w1) by (now destruct Dr). assert (Cs : clipped_at (c_out c) (xs c) (wc_fix (h_clip h)) w1 w2) by (now apply clip_mat_spec). exists w1, w2. split; [exact Dr|]. split; [exact Cs|]. split; [|exact A].
  rewrite Ep. destruct (clip_keeps h i1) as (_ & Cr & _). assert (Rs : exists t, remap_step c (h_remap h) (with_w p w2) = Ok t /\ i_p i2 = t).
  { unfold remap_part in H2. rewrite Cr, E1', Cl in H2. cbn [fresh i_cr] in H2. unfold effective in H2. assert (E : (if h_otf h then h_remap h else h_remap h) = h_remap h) by (now destruct (h_otf h)). rewrite E in H2. destruct Ok_ as (_ & Ty). destruct (wr_type (h_remap h)) eqn:Tr; [destruct Ty as [ | [[] | []]]; discriminate| |]; cbv zeta in H2; apply yields_bind in H2 as (t & Ht & H2); fold c in Ht; destruct (remap_step c (h_remap h) (with_w p w2)) as [t0|e]; cbn [lift] in Ht; try (now apply yields_throw in Ht); apply yields_ret in Ht; subst t0; apply yields_ret in H2; subst i2; eauto. }
  destruct Rs as (t & Et & ->). assert (W2 : wf c (with_w p w2)) by (destruct W as [V1 V2 V3 V4 V5]; constructor; auto; now destruct Cs). apply (logical_remap_wf c (h_remap h) (with_w p w2) s t); auto.
Qed.

(** C94: decay and diffusion over many steps *)
Lemma parent_expect N G h i0 d x i j F : standard G -> shape d x (t_w (i_p i0)) -> (i < d)%nat -> (j < x)%nat ->
  expect N G (parent_step h i0) (fun i' => F (ent (t_w (i_p i')) i j)) = avg G (fun g => F (decay_factor (h_life h) * (ent (t_w (i_p i0)) i j + (if Rlt_dec 0 (h_diff h) then h_diff h else 0) * g))).
Proof.
  intros (HG & _) S Hi Hj. unfold parent_step. rewrite expect_bind. cbn [expect with_tw with_p i_p with_w t_w].
  rewrite (expect_ext _ _ _ _ (fun w => (fun v => F (decay_factor (h_life h) * v)) (ent w i j))).
  - unfold diffuse_weights. destruct (Rlt_dec 0 (h_diff h)) as [P|P].
    + rewrite (proj2 (Rltb_true _ _) P). rewrite (expect_mat N G _ d x _ i j (fun v => F (decay_factor (h_life h) * v))); auto. intros v. apply total_gauss. intros; apply total_ret.
    + rewrite (proj2 (Rltb_false 0 (h_diff h))) by lra. cbn [expect]. rewrite (avg_ext _ _ (fun _ => F (decay_factor (h_life h) * ent (t_w (i_p i0)) i j))), avg_const; auto. intros. f_equal. ring.
  - intros w Y. rewrite (decay_ent _ _ d x); auto. unfold diffuse_weights in Y. destruct (Rltb 0 (h_diff h)); [now destruct (yields_mat _ d x _ w S Y) | apply yields_ret in Y; now subst].
Qed.
Lemma quiet_post N G h i0 F : wc_type (h_clip h) = CNone -> wr_type (h_remap h) = RmNone -> mo_type (h_mod h) = MNone -> expect N G (post_update_step h i0) F = expect N G (parent_step h i0) F.
Proof.
  intros C Rm Mo. unfold post_update_step. rewrite expect_bind. apply expect_ext. intros i1 _. unfold clip_part, remap_part, modify_part, mod_active. rewrite C, Rm, Mo. reflexivity.
Qed.
Lemma quiet_yields h i0 i : wc_type (h_clip h) = CNone -> wr_type (h_remap h) = RmNone -> mo_type (h_mod h) = MNone -> yields (post_update_step h i0) i -> yields (parent_step h i0) i.
Proof.
  intros C Rm Mo H. unfold post_update_step in H. apply yields_bind in H as (i1 & H1 & H). unfold clip_part, remap_part, modify_part, mod_active in H. rewrite C, Rm, Mo in H. apply yields_bind in H as (i2 & H2 & H). apply yields_ret in H2. apply yields_ret in H. now subst.
Qed.
(** sum of f^2, f^4, .., f^(2n) *)
Fixpoint even_powers (f : R) (n : nat) : R := match n with O => 0 | S k => even_powers f k + f ^ (2 * n) end.
Lemma avg_square G a b c : standard G -> avg G (fun g => (a + b * g - c) * (a + b * g - c)) = (a - c) * (a - c) + b * b.
Proof.
  intros SG. destruct (standard_mean G SG) as [M1 M2]. destruct SG as (HG & _). rewrite (avg_ext _ _ (fun g => ((a - c) * (a - c) + (2 * (a - c) * b) * g) + (b * b) * (g * g))) by (intros; ring). rewrite (avg_plus G (fun g => (a - c) * (a - c) + 2 * (a - c) * b * g) (fun g => b * b * (g * g))), avg_lin, avg_scal, M1, M2 by auto. ring.
Qed.
Lemma history_moment N G n h d x i j c : standard G -> (i < d)%nat -> (j < x)%nat -> wc_type (h_clip h) = CNone -> wr_type (h_remap h) = RmNone -> mo_type (h_mod h) = MNone -> forall i0, shape d x (t_w (i_p i0)) ->
  expect N G (hrun (repeat (OpPost h) n) i0) (fun i' => ent (t_w (i_p i')) i j) = decay_factor (h_life h) ^ n * ent (t_w (i_p i0)) i j /\
  expect N G (hrun (repeat (OpPost h) n) i0) (fun i' => (ent (t_w (i_p i')) i j - c) * (ent (t_w (i_p i')) i j - c)) =
    (decay_factor (h_life h) ^ n * ent (t_w (i_p i0)) i j - c) * (decay_factor (h_life h) ^ n * ent (t_w (i_p i0)) i j - c) + (if Rlt_dec 0 (h_diff h) then h_diff h else 0) ^ 2 * even_powers (decay_factor (h_life h)) n.
Proof.
  intros SG Hi Hj C Rm Mo. set (f := decay_factor (h_life h)). set (sd := if Rlt_dec 0 (h_diff h) then h_diff h else 0). unfold hrun. induction n as [|n IH]; intros i0 S.
  - cbn [repeat foldMM expect pow even_powers]. split; ring.
  - cbn [repeat foldMM hstep]. rewrite !expect_bind, !quiet_post by auto.
    assert (S1 : forall i1, yields (parent_step h i0) i1 -> shape d x (t_w (i_p i1))) by (intros i1 Y; now destruct (parent_drifted h i0 i1 d x S Y)). set (w := ent (t_w (i_p i0)) i j). split.
    + rewrite (expect_ext _ _ _ _ (fun i1 => (fun v => f ^ n * v) (ent (t_w (i_p i1)) i j))) by (intros i1 Y; now destruct (IH i1 (S1 i1 Y))). rewrite (parent_expect N G h i0 d x i j (fun v => f ^ n * v)) by auto. fold f sd w.
      destruct (standard_mean G SG) as [M1 M2]. destruct SG as (HG & _). rewrite (avg_ext _ _ (fun g => f ^ n * f * w + f ^ n * f * sd * g)) by (intros; ring). rewrite avg_lin, M1 by auto. cbn [pow]. ring.
    + rewrite (expect_ext _ _ _ _ (fun i1 => (fun v => (f ^ n * v - c) * (f ^ n * v - c) + sd ^ 2 * even_powers f n) (ent (t_w (i_p i1)) i j))) by (intros i1 Y; now destruct (IH i1 (S1 i1 Y))). rewrite (parent_expect N G h i0 d x i j (fun v => (f ^ n * v - c) * (f ^ n * v - c) + sd ^ 2 * even_powers f n)) by auto. fold f sd w.
      rewrite (avg_ext _ _ (fun g => (f ^ n * f * w + f ^ n * f * sd * g - c) * (f ^ n * f * w + f ^ n * f * sd * g - c) + sd ^ 2 * even_powers f n)) by (intros; ring).
      rewrite (avg_plus G (fun g => (f ^ n * f * w + f ^ n * f * sd * g - c) * (f ^ n * f * w + f ^ n * f * sd * g - c)) (fun _ => sd ^ 2 * even_powers f n)), avg_square, avg_const by (auto; now destruct SG). cbn [even_powers].
      replace (f ^ (2 * Datatypes.S n)) with (f ^ Datatypes.S n * f ^ Datatypes.S n) by (rewrite <- pow_add; f_equal; lia). cbn [pow]. ring.
Qed.
Theorem C94_mean : forall N G n h p d x i j, standard G -> shape d x (t_w p) -> (i < d)%nat -> (j < x)%nat -> wc_type (h_clip h) = CNone -> wr_type (h_remap h) = RmNone -> mo_type (h_mod h) = MNone ->
  expect N G (hrun (repeat (OpPost h) n) (fresh p)) (fun i' => ent (t_w (i_p i')) i j) = decay_factor (h_life h) ^ n * ent (t_w p) i j.
Proof. intros N G n h p d x i j SG S Hi Hj C Rm Mo. now destruct (history_moment N G n h d x i j 0 SG Hi Hj C Rm Mo (fresh p) S). Qed.
Theorem C94_variance : forall N G n h p d x i j, standard G -> shape d x (t_w p) -> (i < d)%nat -> (j < x)%nat -> wc_type (h_clip h) = CNone -> wr_type (h_remap h) = RmNone -> mo_type (h_mod h) = MNone ->
  expect N G (hrun (repeat (OpPost h) n) (fresh p)) (fun i' => (ent (t_w (i_p i')) i j - decay_factor (h_life h) ^ n * ent (t_w p) i j) * (ent (t_w (i_p i')) i j - decay_factor (h_life h) ^ n * ent (t_w p) i j))
    = (if Rlt_dec 0 (h_diff h) then h_diff h else 0) ^ 2 * even_powers (decay_factor (h_life h)) n.
Proof.
  intros N G n h p d x i j SG S Hi Hj C Rm Mo. destruct (history_moment N G n h d x i j (decay_factor (h_life h) ^ n * ent (t_w p) i j) SG Hi Hj C Rm Mo (fresh p) S) as [_ ->]. cbn [fresh i_p]. ring.
Qed.
(** C94: with a lifetime above 1 the expected weight dies out; the variance stays bounded *)
Lemma even_powers_bound f n : 0 < f < 1 -> 0 <= even_powers f n <= f ^ 2 / (1 - f ^ 2).
Proof.
  intros F. assert (Q : 0 < f ^ 2 < 1) by (cbn [pow]; rewrite Rmult_1_r; split; [apply Rmult_lt_0_compat; lra | nra]). assert (E : even_powers f n * (1 - f ^ 2) = f ^ 2 * (1 - f ^ (2 * n))).
  { induction n as [|n IH]; [cbn; ring|]. cbn [even_powers]. rewrite Rmult_plus_distr_r, IH. replace (2 * S n)%nat with (2 + 2 * n)%nat by lia. rewrite pow_add. ring. }
  assert (P : 0 < f ^ (2 * n) <= 1). { split; [apply pow_lt; lra|]. rewrite <- (pow1 (2 * n)). apply pow_incr. lra. }
  split.
  - apply (Rmult_le_reg_r (1 - f ^ 2)); [lra|]. rewrite Rmult_0_l, E. apply Rmult_le_pos; lra.
  - apply (Rmult_le_reg_r (1 - f ^ 2)); [lra|]. rewrite E. unfold Rdiv. rewrite Rmult_assoc, Rinv_l by lra. nra.
Qed.
Theorem C94_stationary : forall N G n h p d x i j, standard G -> shape d x (t_w p) -> (i < d)%nat -> (j < x)%nat -> wc_type (h_clip h) = CNone -> wr_type (h_remap h) = RmNone -> mo_type (h_mod h) = MNone -> 1 < h_life h ->
  let f := 1 - 1 / h_life h in
  expect N G (hrun (repeat (OpPost h) n) (fresh p)) (fun i' => (ent (t_w (i_p i')) i j - f ^ n * ent (t_w p) i j) * (ent (t_w (i_p i')) i j - f ^ n * ent (t_w p) i j)) <= (h_diff h) ^ 2 * (f ^ 2 / (1 - f ^ 2)).
Proof.
  intros N G n h p d x i j SG S Hi Hj C Rm Mo L f. pose proof (C94_variance N G n h p d x i j SG S Hi Hj C Rm Mo) as E. assert (Ef : decay_factor (h_life h) = f) by (unfold decay_factor; destruct (Rlt_dec 1 (h_life h)); [reflexivity | lra]). rewrite Ef in E. rewrite E.
  assert (F : 0 < f < 1). { assert (0 < 1 / h_life h) by (apply Rdiv_lt_0_compat; lra). assert (1 / h_life h < 1) by (apply (Rmult_lt_reg_r (h_life h)); [lra|]; unfold Rdiv; rewrite Rmult_assoc, Rinv_l by lra; lra). unfold f. lra. }
  destruct (even_powers_bound f n F) as [B1 B2]. destruct (Rlt_dec 0 (h_diff h)) as [P|P].
  - apply Rmult_le_compat_l; auto. apply pow2_ge_0.
  - replace (0 ^ 2) with 0 by ring. rewrite Rmult_0_l. apply Rmult_le_pos; [apply pow2_ge_0 | lra].
Qed.
(** a lifetime in (0, 1] does nothing *)
Theorem C94_short : forall h i i', h_life h <= 1 -> h_diff h <= 0 -> yields (parent_step h i) i' -> forall d x, shape d x (t_w (i_p i)) -> t_w (i_p i') = t_w (i_p i).
Proof.
  intros h i i' L D Y d x S. destruct (parent_drifted h i i' d x S Y) as [S' H]. apply (mat_ext d x); auto. intros a b Ha Hb. destruct (H a b Ha Hb) as [g ->]. unfold decay_factor. destruct (Rlt_dec 1 (h_life h)); [lra|]. destruct (Rlt_dec 0 (h_diff h)); [lra | ring].
Qed.
Definition drift_cfg : hcfg := {| h_p := h_p (hw_cfg (add_noise 1 false) true); h_otf := false; h_diff := 1/10; h_life := 100; h_clip := {| wc_type := CNone; wc_fix := -1; wc_sigma := 5/2 |};
  h_remap := {| wr_type := RmNone; wr_wmax := 1; wr_range := 0; wr_ref := 0 |}; h_mod := {| mo_type := MNone; mo_pbs := false; mo_std := 0; mo_res := 0; mo_sto := false; mo_dorefa := 3/5; mo_pdrop := 0; mo_edt := false; mo_rel := false; mo_awmax := 1; mo_lastcol := false; mo_coeffs := [1]; mo_gmax := 25 |} |}.
Theorem C94_nontrivial : standard [1; -1] /\ shape 1 2 (t_w hw_tile) /\ 1 < h_life drift_cfg /\
  expect 1 [1; -1] (hrun (repeat (OpPost drift_cfg) 2) (fresh hw_tile)) (fun i' => ent (t_w (i_p i')) 0 1) = (99/100) * (99/100) * -5.
Proof.
  assert (SG : standard [1; -1]) by (split; [discriminate|]; cbn; split; lra). assert (S : shape 1 2 (t_w hw_tile)) by (split; [reflexivity | repeat constructor]). split; [exact SG|]. split; [exact S|]. split; [cbn; lra|].
  rewrite (C94_mean 1 [1; -1] 2 drift_cfg hw_tile 1 2 0 1); auto. unfold decay_factor. cbn [drift_cfg h_life]. destruct (Rlt_dec 1 100); [|lra]. cbn. lra.
Qed.
Definition order_cfg : hcfg := {| h_p := rm_cfg;
  h_otf := false; h_diff := 0; h_life := 0; h_clip := {| wc_type := CFixed; wc_fix := 1/2; wc_sigma := 5/2 |};
  h_remap := {| wr_type := RmLayer; wr_wmax := 1; wr_range := 0; wr_ref := 0 |}; h_mod := add_noise 1 false |}.
Theorem C93_nontrivial : exists p s i, reachable rm_cfg p /\ t_ms p <> MsNone /\ get_scales p = Some s /\ remap_ok (h_remap order_cfg) s /\ yields (post_update_step order_cfg (fresh p)) i.
Proof.
  set (t0 := ptile_new rm_cfg [[1/2; 3]; [0; -4]] None 1). set (p := set_scales rm_cfg (STensor [2; 3]) t0).
  assert (E0 : t0 = {| t_w := [[1/2; 3]; [0; -4]]; t_ms := MsNone; t_los := None; t_lrs := 1; t_bias := None; t_ir := None; t_lr := 1 |}).
  { unfold t0, ptile_new, init_mapping_scales, init_learned_out_scales. cbn [rm_cfg c_mapping negb c_omega c_colwise c_learn_out]. rewrite (proj2 (Reqb_false 1 0)) by lra. reflexivity. }
  assert (Ep : p = {| t_w := [[1/2; 3]; [0; -4]]; t_ms := MsOwn [2; 3]; t_los := None; t_lrs := 1; t_bias := None; t_ir := None; t_lr := 1 |}) by (unfold p; rewrite E0; reflexivity).
  set (w2 := clip_mat (1/2) (t_w p)). assert (Rs : exists t, remap_step rm_cfg (h_remap order_cfg) (with_w p w2) = Ok t).
  { unfold remap_step. rewrite Ep. cbn [with_w t_w get_scales ms_val t_ms t_los]. replace (length w2) with 2%nat by (unfold w2; rewrite Ep; reflexivity). cbn [length Nat.eqb negb]. unfold remap_core. cbn [order_cfg h_remap wr_type]. destruct (Rltb 0 _); cbn [bind fst snd]; eexists; reflexivity. }
  destruct Rs as [t Et]. exists p, [2; 3]. eexists. split; [|split; [rewrite Ep; discriminate|split; [rewrite Ep; reflexivity | split]]].
  - exists [[1/2; 3]; [0; -4]], None, 1, [OpScales [2; 3]]. split; [cbn; lia|]. split; [split; [reflexivity | repeat constructor]|]. split; [exact Logic.I|]. split; [|reflexivity]. constructor; [|constructor]. cbn [valid]. split; [right; reflexivity|]. split; [discriminate|]. repeat constructor; lra.
  - split; [cbn; lra | left; reflexivity].
  - apply yields_bind. exists (fresh p). split.
    + unfold parent_step. cbn [order_cfg h_diff h_life]. rewrite (proj2 (Rltb_false 0 0)) by lra. cbn [bindM]. rewrite Ep. constructor.
    + apply yields_bind. eexists. split.
      * unfold remap_part. cbn [order_cfg h_remap wr_type]. apply yields_bind. exists t. split; [|constructor]. unfold clip_part. cbn [order_cfg h_clip wc_type fresh i_cc i_cr effective h_otf i_p with_tw with_p]. unfold clip_weights, device_clip. cbn [wc_type wc_fix]. rewrite (proj2 (Rleb_true 0 (1/2))) by lra. fold w2. cbn [order_cfg h_p]. change ({| wr_type := RmLayer; wr_wmax := 1; wr_range := 0; wr_ref := 0 |}) with (h_remap order_cfg). rewrite Et. constructor.
      * unfold modify_part. cbn [order_cfg h_mod]. rewrite (proj2 (mod_active_iff _) (add_noise_active 1 false)). apply yields_bind. eexists. split; [apply (add_noise_yields 1 false 1); lra | constructor].
Qed.

Print Assumptions C93_clip.
Print Assumptions C93_remap.
Print Assumptions C94_mean.
Print Assumptions C94_variance.
Print Assumptions C94_stationary.
Print Assumptions C94_short.
Print Assumptions C94_nontrivial.
Print Assumptions C93_nontrivial.
