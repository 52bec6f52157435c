From Verif Require Import Prelude PeriModel PeriProofs PeriProofs2.

(** ** Backward is the transposed logical map *)
Lemma vadd_len n a b : length a = n -> length b = n -> length (vadd a b) = n.
Proof. unfold vadd; intros; rewrite map2_length; lia. Qed.
Lemma dot_vadd_r a b c : length b = length c -> dot a (vadd b c) = dot a b + dot a c.
Proof.
  unfold vadd. revert b c; induction a as [|x a IH]; intros [|y b] [|z c]; simpl; intros; try discriminate; try lra.
  rewrite IH by lia. lra.
Qed.
Lemma dot_zeros a n : dot a (repeat 0 n) = 0.
Proof. revert n; induction a; intros [|n]; simpl; try lra. rewrite IHa; lra. Qed.
Lemma dot_comm a b : dot a b = dot b a.
Proof. revert b; induction a; destruct b; simpl; auto. rewrite IHa; lra. Qed.
Lemma vecmat_length n d w : Forall (fun r => length r = n) w -> length (vecmat n d w) = n.
Proof.
  unfold vecmat. intros F; revert d; induction F as [|r w Hr F IH]; intros [|x d]; simpl; try apply repeat_length.
  apply vadd_len; [now rewrite map_length | apply IH].
Qed.
Lemma adjoint n w x d : Forall (fun r => length r = n) w -> length x = n ->
  dot (matvec w x) d = dot x (vecmat n d w).
Proof.
  intros F Hx; revert d; induction F as [|r w Hr F IH]; intros [|y d]; simpl.
  - unfold vecmat; simpl. now rewrite dot_zeros.
  - unfold vecmat; simpl. now rewrite dot_zeros.
  - unfold vecmat; simpl. now rewrite dot_zeros.
  - unfold vecmat in *. cbn [map2 fold_right]. rewrite dot_vadd_r.
    + rewrite dot_scale_r. unfold matvec in *. rewrite IH. rewrite (dot_comm x r). lra.
    + rewrite map_length. fold (vecmat n d w). rewrite vecmat_length; auto.
Qed.

Lemma backward_lemma c t d : wf c t -> t_los t = None -> length d = c_out c ->
  backward c t d = vecmat (c_in c) d (fst (get_weights c true t)).
Proof.
  intros W NL Hd. rewrite get_weights_oex by auto. simpl fst.
  destruct (get_scales_oex c t W) as [GX GO]. rewrite NL in GX. simpl in GX.
  pose proof (wf_ms _ _ W) as Oms.
  rewrite map2_ones_r in GX by (apply oex_length; auto).
  rewrite GX. unfold backward. rewrite (oscale (c_out c)); auto.
  unfold vecmat. f_equal. unfold rows_scaled.
  generalize (oex (c_out c) (ms_val t)) as u. generalize (fst (separate_weights c (t_w t))) as w.
  clear. intros w u. revert d w; induction u as [|a u IH]; intros [|x d] [|r w]; cbn [map2]; auto.
  f_equal; auto. rewrite map_map. apply map_ext. intros; lra.
Qed.

(** ** Update in logical units *)
Lemma rank1_shape lr r k w x d : shape r k w -> length x = k -> length d = r -> shape r k (rank1 lr w x d).
Proof.
  intros [L F] Lx Ld. unfold rank1. split; [rewrite map2_length; lia|].
  clear L Ld. revert d; induction F; intros [|y d]; simpl; constructor; auto.
  rewrite map2_length; lia.
Qed.

Lemma removelast_map2 (f : R -> R -> R) r x b :
  length r = S (length x) -> removelast (map2 f r (x ++ [b])) = map2 f (removelast r) x
  /\ last (map2 f r (x ++ [b])) 0 = f (last r 0) b.
Proof.
  revert x; induction r as [|a r IH]; intros [|y x] H; simpl in H; try discriminate.
  - destruct r; [simpl; auto | discriminate].
  - destruct r as [|a' r]; [discriminate|].
    destruct (IH x) as [I1 I2]; [simpl in *; lia|].
    cbn [map2 app] in *. destruct (x ++ [b]) as [|z q] eqn:E; [destruct x; discriminate|].
    cbn [map2] in *. split.
    + change (removelast (f a y :: f a' z :: map2 f r q)) with (f a y :: removelast (f a' z :: map2 f r q)).
      rewrite I1. reflexivity.
    + exact I2.
Qed.

(** what the (digital) learned out scales do to an output-gradient *)
Definition out_grad (n : nat) (los : option vec) (d : vec) : vec := map2 Rmult (oex n los) d.

Lemma update_core M S d w x tlr lrs k :
  (forall m, In m M -> m <> 0) -> lrs <> 0 ->
  Forall (fun r => length r = k) w -> length x = k ->
  length M = length w -> length S = length w -> length d = length w ->
  rows_scaled (map2 Rmult M S) (rank1 tlr w x (map2 Rmult (map (fun s => / (s * lrs)) M) d))
  = rank1 (tlr / lrs) (rows_scaled (map2 Rmult M S) w) x (map2 Rmult S d).
Proof.
  intros HM Hl F Lx. revert M S d HM. induction F as [|r w Hr F IH]; intros M S d HM LM LS Ld.
  - destruct M, S, d; simpl in *; try discriminate. reflexivity.
  - destruct M as [|m M], S as [|s S], d as [|y d]; simpl in LM, LS, Ld; try discriminate.
    unfold rows_scaled, rank1 in *. cbn [map map2]. f_equal.
    + rewrite map_map2, map2_map_l. apply map2_ext_in. intros a b _ _. field. split; auto. apply HM; left; auto.
    + apply IH; try lia. intros; apply HM; right; auto.
Qed.

Definition lr_ok (t : ptile) : Prop :=
  t_lrs t <> 0 /\ (ms_val t = None -> t_lrs t = 1) /\ (forall v a, ms_val t = Some v -> In a v -> a <> 0).

Lemma oex_nonzero n t : lr_ok t -> forall a, In a (oex n (ms_val t)) -> a <> 0.
Proof.
  intros (H1 & H2 & H3) a Ha. destruct (ms_val t) as [m|] eqn:E; simpl in Ha.
  - apply ex_In in Ha. eapply H3; eauto.
  - apply repeat_spec in Ha. lra.
Qed.

Lemma pre_update_d c t x d : wf c t -> lr_ok t -> length d = c_out c ->
  snd (pre_update t x d) = map2 Rmult (map (fun s => / (s * t_lrs t)) (oex (c_out c) (ms_val t))) d.
Proof.
  intros W (H1 & H2 & H3) Hd. unfold pre_update; simpl.
  destruct (ms_val t) as [m|] eqn:E; simpl.
  - rewrite (scale_vec_ex (c_out c)); auto using okl_map.
    + now rewrite ex_map.
    + apply okl_map. apply (wf_ms _ _ W); auto.
  - rewrite H2 by auto. rewrite <- Hd. rewrite map2_map_l, map2_repeat_l.
    rewrite <- (map_id d) at 1. apply map_ext; intros; field.
Qed.

(** input vector seen by the update *)
Definition upd_x (t : ptile) (x : vec) : vec := fst (pre_update t x []).
Lemma pre_update_x t x d : fst (pre_update t x d) = upd_x t x.
Proof. reflexivity. Qed.
Lemma upd_x_length t x : length (upd_x t x) = length x.
Proof. unfold upd_x, pre_update, clip_input; simpl. destruct (t_ir t); rewrite ?map_length; auto. Qed.

Lemma update_wf c t x d : wf c t -> length x = c_in c -> length d = c_out c -> wf c (update c t x d).
Proof.
  intros W Lx Ld. unfold update. destruct (pre_update t x d) as [x' d'] eqn:E.
  destruct W as [W1 W2 W3 W4 W5]; constructor; auto. simpl.
  assert (length x' = length x).
  { change x' with (fst (x', d')). rewrite <- E, pre_update_x. apply upd_x_length. }
  assert (length d' = length d).
  { unfold pre_update in E. injection E as _ <-. destruct (ms_val t) as [m|] eqn:Em; auto.
    rewrite (scale_vec_ex (c_out c)); auto using okl_map.
    rewrite map2_length, ex_length by (auto using okl_map). lia. }
  apply rank1_shape; auto; try lia.
  unfold xs. destruct (analog_bias c); rewrite ?app_length; simpl; lia.
Qed.

Lemma update_lemma c t x d :
  wf c t -> lr_ok t -> length x = c_in c -> length d = c_out c ->
  fst (get_weights c true (update c t x d))
    = rank1 (get_learning_rate t) (fst (get_weights c true t)) (upd_x t x) (out_grad (c_out c) (t_los t) d)
  /\ snd (get_weights c true (update c t x d))
    = if analog_bias c
      then option_map (fun b => map2 (fun bi di => bi - get_learning_rate t * di) b (out_grad (c_out c) (t_los t) d))
             (snd (get_weights c true t))
      else snd (get_weights c true t).
Proof.
  intros W Hlr Lx Ld.
  pose proof (update_wf c t x d W Lx Ld) as W'.
  rewrite !get_weights_oex by auto. cbn [fst snd].
  assert (Eg : get_scales (update c t x d) = get_scales t).
  { unfold update. destruct (pre_update t x d); reflexivity. }
  assert (Eb : t_bias (update c t x d) = t_bias t).
  { unfold update. destruct (pre_update t x d); reflexivity. }
  assert (Ew : t_w (update c t x d) = rank1 (t_lr t) (t_w t) (if analog_bias c then upd_x t x ++ [1] else upd_x t x)
                 (map2 Rmult (map (fun s => / (s * t_lrs t)) (oex (c_out c) (ms_val t))) d)).
  { rewrite <- (pre_update_d c t x d) by auto. unfold update, upd_x. unfold pre_update. reflexivity. }
  rewrite Eg, Eb, Ew.
  destruct (get_scales_oex c t W) as [GX GO]. rewrite GX.
  destruct (wf_w _ _ W) as [WL WF].
  pose proof (oex_length (c_out c) (ms_val t) (wf_ms _ _ W)) as LM.
  pose proof (oex_length (c_out c) (t_los t) (wf_los _ _ W)) as LS.
  pose proof (oex_nonzero (c_out c) t Hlr) as NZ.
  destruct Hlr as (Hl & _ & _).
  unfold get_learning_rate, out_grad.
  revert LM LS NZ. generalize (oex (c_out c) (ms_val t)) as M, (oex (c_out c) (t_los t)) as S. intros M S LM LS NZ.
  unfold separate_weights. destruct (analog_bias c) eqn:A; simpl fst; simpl snd.
  - rewrite (analog_not_digital c A) in *. unfold xs in WF; rewrite A in WF.
    set (d' := map2 Rmult (map (fun s => / (s * t_lrs t)) M) d).
    assert (R1 : map (fun r : list R => removelast r) (rank1 (t_lr t) (t_w t) (upd_x t x ++ [1]) d')
      = rank1 (t_lr t) (map (fun r => removelast r) (t_w t)) (upd_x t x) d'
      /\ map (fun r : list R => last r 0) (rank1 (t_lr t) (t_w t) (upd_x t x ++ [1]) d')
       = map2 (fun b di => b - t_lr t * di) (map (fun r => last r 0) (t_w t)) d').
    { unfold rank1. rewrite !map_map2, map2_map_r, map2_map_l. split.
      - apply map2_ext_in. intros a r _ Hr. rewrite Forall_forall in WF. apply removelast_map2.
        rewrite upd_x_length, (WF r Hr); lia.
      - clear -WF Lx. generalize dependent d'. rewrite <- Lx in WF. rewrite <- (upd_x_length t x) in WF.
        induction WF as [|r w Hr F IH]; intros [|y d']; cbn [map2]; auto. f_equal; auto.
        rewrite (proj2 (removelast_map2 _ _ _ _ Hr)). lra. }
    destruct R1 as [R1 R2]. rewrite R1, R2.
    assert (SF : Forall (fun r => length r = c_in c) (map (fun r : list R => removelast r) (t_w t))).
    { destruct (separate_shape c t W) as [[_ SF] _]. unfold separate_weights in SF; rewrite A in SF; auto. }
    split.
    + apply (update_core M S d _ _ (t_lr t) (t_lrs t) (c_in c)); auto; rewrite ?map_length, ?upd_x_length; lia.
    + cbn [option_map]. f_equal. subst d'.
      assert (LB : length (map (fun r => last r 0) (t_w t)) = c_out c) by (now rewrite map_length).
      revert LB. generalize (map (fun r : list R => last r 0) (t_w t)) as bb. intros bb LB.
      clear -LB LM LS Ld NZ Hl. rewrite <- LM in *. clear LM.
      revert LS Ld LB. revert S d bb.
      induction M as [|m M IH]; intros [|s S] [|y d] [|b bb]; cbn [length map map2]; intros; try discriminate; auto.
      apply (f_equal2 (@cons R)).
      * field. split; auto. apply NZ; left; auto.
      * apply IH; try lia. intros; apply NZ; right; auto.
  - unfold xs in WF; rewrite A in WF. split.
    + apply (update_core M S d _ _ (t_lr t) (t_lrs t) (c_in c)); auto; rewrite ?upd_x_length; lia.
    + destruct (digital_bias c); auto.
Qed.

Lemma update_keeps c t x d :
  get_learning_rate (update c t x d) = get_learning_rate t /\ t_ir (update c t x d) = t_ir t
  /\ t_los (update c t x d) = t_los t /\ (lr_ok t -> lr_ok (update c t x d))
  /\ (forall z, upd_x (update c t x d) z = upd_x t z).
Proof.
  unfold update; destruct (pre_update t x d).
  split; [reflexivity|]. split; [reflexivity|]. split; [reflexivity|]. split; [|reflexivity].
  intros H; exact H.
Qed.

Lemma update_batch_lemma c xd : forall t,
  wf c t -> lr_ok t -> Forall (fun p => length (fst p) = c_in c /\ length (snd p) = c_out c) xd ->
  fst (get_weights c true (update_batch c t xd))
  = fold_left (fun W p => rank1 (get_learning_rate t) W (upd_x t (fst p)) (out_grad (c_out c) (t_los t) (snd p)))
      xd (fst (get_weights c true t))
  /\ wf c (update_batch c t xd).
Proof.
  induction xd as [|[x d] xd IH]; intros t W Hl F; [split; auto|].
  inversion F as [|? ? [Hx Hd] F']; subst. simpl in Hx, Hd.
  destruct (update_keeps c t x d) as (K1 & K2 & K3 & K4 & K5).
  pose proof (update_wf c t x d W Hx Hd) as W'.
  unfold update_batch. cbn [fold_left].
  destruct (IH (update c t x d) W' (K4 Hl) F') as [IH1 IH2].
  split; [|exact IH2].
  unfold update_batch in IH1. rewrite IH1.
  rewrite (proj1 (update_lemma c t x d W Hl Hx Hd)). rewrite K1, K3.
  assert (G : forall (l : list (vec * vec)) W0,
     fold_left (fun W p => rank1 (get_learning_rate t) W (upd_x (update c t x d) (fst p)) (out_grad (c_out c) (t_los t) (snd p))) l W0
   = fold_left (fun W p => rank1 (get_learning_rate t) W (upd_x t (fst p)) (out_grad (c_out c) (t_los t) (snd p))) l W0).
  { induction l as [|p l IHl]; intros; cbn [fold_left]; [reflexivity|]. rewrite K5. apply IHl. }
  apply G.
Qed.

(** ** [to(dtype)] *)
Lemma to_dtype_lemma c t : wf c t -> c_mapping c = true -> (ms_val t <> None \/ t_los t = None) ->
  get_weights c true (to_dtype c t) = get_weights c true t.
Proof.
  intros W M H. unfold to_dtype, get_scales_arg.
  destruct (ms_val t) as [m|] eqn:Em.
  2:{ destruct H as [H|H]; [congruence|]. rewrite H; auto. }
  assert (G : forall v, okl (c_out c) v -> ex (c_out c) v = oex (c_out c) (get_scales t) ->
     get_weights c true (set_scales c (STensor v) t) = get_weights c true t).
  { intros v Ov Xv. destruct (set_scales_tensor c t v W M Ov) as (B1 & B2 & B3 & B4 & B5 & (m' & Em' & Om & Xm) & HL).
    destruct (get_scales_after c t v W M Ov) as (g & Eg & Og & Xg).
    assert (W' : wf c (set_scales c (STensor v) t)).
    { constructor.
      - rewrite B1; apply W.
      - intros u Eu; congruence.
      - intros u Eu. now apply HL in Eu.
      - exact B5.
      - rewrite B2. apply (wf_bias _ _ W). }
    rewrite (get_weights_oex c t W), (get_weights_oex c _ W'), B1, B2, Eg. simpl oex.
    now rewrite Xg, Xv. }
  pose proof (wf_ms _ _ W m Em) as Om.
  destruct (t_los t) as [l|] eqn:El.
  - pose proof (wf_los _ _ W l El) as Ol. apply G.
    + now apply bmul_ok.
    + unfold get_scales; rewrite Em, El. reflexivity.
  - apply G; auto. unfold get_scales; rewrite Em, El. reflexivity.
Qed.

(** ** Input range initialisation *)
Definition is_pos (s : R) : bool := Rltb 0 s.
Lemma ir_update_lemma N al : (0 <= N)%Z -> forall stds ir0 idx0,
  0 <= al -> 0 <= ir0 -> (0 <= idx0 <= N)%Z ->
  let used := firstn (Z.to_nat (N - idx0)) (filter is_pos stds) in
  let '(ir, idx) := fold_left (ir_update N al) stds (ir0, idx0) in
  idx = (idx0 + Z.of_nat (length used))%Z /\ 0 <= ir /\
  (used <> [] -> ir * IZR idx = ir0 * IZR idx0 + al * sumR used) /\ (used = [] -> ir = ir0).
Proof.
  intros HN. induction stds as [|s stds IH]; intros ir0 idx0 Ha Hi Hx used.
  - subst used; cbn [filter fold_left]. rewrite firstn_nil. simpl. split; [lia|]. split; auto. split; [congruence|auto].
  - cbn [fold_left]. unfold ir_update at 2.
    destruct (Z.ltb_spec idx0 N) as [Hlt|Hge].
    + destruct (Rltb 0 s) eqn:Es.
      * set (ir1 := (ir0 * IZR idx0 + al * s) / (IZR idx0 + 1)).
        assert (H0 : 0 <= IZR idx0) by (apply IZR_le; lia).
        pose proof Es as Es'. apply Rltb_true in Es'.
        assert (Hir1 : 0 <= ir1).
        { unfold ir1. apply Rmult_le_pos; [|left; apply Rinv_0_lt_compat; lra].
          apply Rplus_le_le_0_compat; apply Rmult_le_pos; lra. }
        rewrite (Rabs_pos_eq ir1) by auto.
        specialize (IH ir1 (idx0 + 1)%Z Ha Hir1 ltac:(lia)). cbv zeta in IH.
        destruct (fold_left (ir_update N al) stds (ir1, (idx0 + 1)%Z)) as [ir idx].
        assert (EU : used = s :: firstn (Z.to_nat (N - (idx0 + 1))) (filter is_pos stds)).
        { subst used. cbn [filter]. unfold is_pos at 1. rewrite Es.
          replace (Z.to_nat (N - idx0)) with (S (Z.to_nat (N - (idx0 + 1)))) by lia. reflexivity. }
        clearbody used; subst used.
        set (u := firstn (Z.to_nat (N - (idx0 + 1))) (filter is_pos stds)) in *.
        destruct IH as (I1 & I2 & I3 & I4).
        split; [cbn [length]; lia|]. split; auto. split; [|discriminate].
        intros _. cbn [sumR].
        assert (E1 : ir1 * IZR (idx0 + 1) = ir0 * IZR idx0 + al * s).
        { unfold ir1. rewrite plus_IZR. field. lra. }
        destruct u as [|z u'].
        -- rewrite I4 by auto. rewrite I1. cbn [length sumR].
           rewrite Z.add_0_r. rewrite E1. lra.
        -- rewrite I3 by discriminate. rewrite E1. lra.
      * rewrite (Rabs_pos_eq ir0) by auto.
        specialize (IH ir0 idx0 Ha Hi Hx). cbv zeta in IH.
        assert (EU : used = firstn (Z.to_nat (N - idx0)) (filter is_pos stds)).
        { subst used. cbn [filter]. unfold is_pos at 1. rewrite Es. reflexivity. }
        rewrite EU. exact IH.
    + assert (EU : used = []).
      { subst used. replace (Z.to_nat (N - idx0)) with 0%nat by lia. reflexivity. }
      specialize (IH ir0 idx0 Ha Hi Hx). cbv zeta in IH.
      replace (Z.to_nat (N - idx0)) with 0%nat in IH by lia. rewrite firstn_O in IH.
      rewrite EU. exact IH.
Qed.
