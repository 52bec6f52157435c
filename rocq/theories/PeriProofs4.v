From Verif Require Import Prelude PeriModel PeriSpec PeriProofs PeriProofs2 PeriProofs3.

Record inv (c : pcfg) (t : ptile) : Prop := {
  inv_wf : wf c t;
  inv_pos : forall v a, ms_val t = Some v -> In a v -> 0 < a;
  inv_ne : forall v, ms_val t = Some v -> v <> [];
  inv_lrs : 0 < t_lrs t;
  inv_none : ms_val t = None -> t_lrs t = 1;
  inv_nomap : c_mapping c = false -> t_ms t = MsNone /\ t_lrs t = 1
}.
Lemma inv_lr_ok c t : inv c t -> lr_ok t.
Proof.
  intros [W P N L1 L2 _]. split; [lra|]. split; auto. intros v a E H. specialize (P v a E H). lra.
Qed.

Lemma sumR_pos v : v <> [] -> Forall (fun a => 0 < a) v -> 0 < sumR v.
Proof.
  intros N F. induction F as [|a v Ha F IH]; [congruence|]. simpl.
  destruct v as [|b v]; simpl in *; [lra|]. specialize (IH ltac:(discriminate)). lra.
Qed.
Lemma mean_pos v : v <> [] -> Forall (fun a => 0 < a) v -> 0 < meanR v.
Proof.
  intros N F. unfold meanR. apply Rdiv_lt_0_compat; [now apply sumR_pos|].
  apply lt_0_INR. destruct v; [congruence|simpl; lia].
Qed.

(** set_scales keeps [inv] for positive scales *)
Lemma set_scales_inv c t v : inv c t -> okl (c_out c) v -> v <> [] -> Forall (fun a => 0 < a) v ->
  inv c (set_scales c (STensor v) t).
Proof.
  intros I Ov Nv Fv. destruct (c_mapping c) eqn:M.
  - destruct (set_scales_tensor c t v (inv_wf _ _ I) M Ov) as (B1 & B2 & B3 & B4 & B5 & (m & Em & Om & Xm) & HL).
    assert (Pm : m <> [] /\ Forall (fun a => 0 < a) m /\ 0 < t_lrs (set_scales c (STensor v) t)).
    { unfold set_scales, set_mapping_scales in Em |- *. rewrite M in *. simpl in Em |- *.
      pose proof (inv_ne _ _ I) as NE. pose proof (inv_pos _ _ I) as PO.
      pose proof (wf_nalias _ _ (inv_wf _ _ I)) as NA.
      destruct (ms_val t) as [old|] eqn:E0.
      - assert (Nold : old <> []) by (apply NE; auto).
        destruct v as [|x [|y v]]; [congruence| |].
        + assert (Q : (repeat x (length old)) <> [] /\ Forall (fun a => 0 < a) (repeat x (length old))).
          { split; [destruct old; simpl; congruence|]. apply Forall_forall. intros z Hz. apply repeat_spec in Hz; subst.
            inversion Fv; auto. }
          destruct (t_ms t) eqn:ET; try congruence; simpl in *;
          destruct (c_lrcomp c); unfold set_learned_out_scales_one in *; simpl in *;
          destruct (t_los t); unfold ms_val in *; simpl in *; rewrite ?ET in *;
          injection Em as <-; (split; [apply Q | split; [apply Q|]]); simpl;
          try (apply (inv_lrs _ _ I));
          apply Rdiv_lt_0_compat; try lra; apply mean_pos; apply Q.
        + simpl in *;
          destruct (c_lrcomp c); unfold set_learned_out_scales_one in *; simpl in *;
          destruct (t_los t); unfold ms_val in *; simpl in *;
          injection Em as <-; (split; [auto | split; [auto|]]); simpl;
          try (apply (inv_lrs _ _ I));
          apply Rdiv_lt_0_compat; try lra; apply mean_pos; auto.
      - simpl in *;
        destruct (c_lrcomp c); unfold set_learned_out_scales_one in *; simpl in *;
        destruct (t_los t); unfold ms_val in *; simpl in *;
        injection Em as <-; (split; [auto | split; [auto|]]); simpl;
        try (apply (inv_lrs _ _ I));
        apply Rdiv_lt_0_compat; try lra; apply mean_pos; auto. }
    destruct Pm as (P1 & P2 & P3).
    constructor.
    + constructor.
      * rewrite B1. apply (inv_wf _ _ I).
      * intros u Eu; congruence.
      * intros u Eu. now apply HL in Eu.
      * exact B5.
      * rewrite B2. apply (wf_bias _ _ (inv_wf _ _ I)).
    + intros u a Eu Ha. rewrite Em in Eu; injection Eu as <-. rewrite Forall_forall in P2; auto.
    + intros u Eu. congruence.
    + exact P3.
    + congruence.
    + congruence.
  - unfold set_scales, set_mapping_scales. rewrite M. simpl. destruct I as [W P N L1 L2 NM].
    destruct (NM M) as [Em El].
    unfold set_learned_out_scales_one; simpl. destruct (t_los t) as [l|] eqn:EL; constructor; simpl; try discriminate; auto.
    + destruct W as [W1 W2 W3 W4 W5]; constructor; simpl; auto; try discriminate.
      intros u Eu. injection Eu as <-. specialize (W3 _ EL). unfold okl in *; now rewrite repeat_length.
    + destruct W as [W1 W2 W3 W4 W5]; constructor; simpl; auto; try discriminate.
Qed.

Lemma inv_with_w c t w : inv c t -> shape (c_out c) (xs c) w -> inv c (with_w t w).
Proof.
  intros [W P N L1 L2 NM] S. constructor; auto. destruct W as [W1 W2 W3 W4 W5]; constructor; auto.
Qed.
Lemma inv_with_bias c t b : inv c t -> digital_bias c = true -> length b = c_out c -> inv c (with_bias t (Some b)).
Proof.
  intros [W P N L1 L2 NM] D L. constructor; auto. destruct W as [W1 W2 W3 W4 W5]; constructor; auto.
  rewrite D. simpl. eauto.
Qed.

Lemma alphas_ne c w omega : w <> [] -> alphas c w omega <> [].
Proof. unfold alphas. destruct (c_colwise c); destruct w; simpl; congruence. Qed.

Lemma set_weights_inv c t w b a o t' : (0 < c_out c)%nat -> inv c t -> shape (c_out c) (c_in c) w -> bias_ok c b ->
  set_weights c w b a o t = Ok t' -> inv c t'.
Proof.
  intros Ho I Hw Hb. unfold set_weights.
  set (tb := match b with Some v => if digital_bias c then (with_bias t (Some v), None) else (t, b) | None => (t, None) end).
  assert (Ib : inv c (fst tb)).
  { subst tb. destruct b as [v|]; simpl; auto. destruct (digital_bias c) eqn:D; simpl; auto.
    apply inv_with_bias; auto. destruct Hb; auto. }
  assert (Eb : snd tb = if digital_bias c then None else b).
  { subst tb. destruct b; destruct (digital_bias c); reflexivity. }
  destruct tb as [t1 b1]. simpl in Ib, Eb. subst b1.
  destruct (combine_ok c w b Hw Hb) as (cw & Ecw & Scw & Sep). rewrite Ecw. simpl.
  intros E.
  assert (K : exists t2 w2, inv c t2 /\ shape (c_out c) (xs c) w2 /\ t' = with_w t2 w2).
  { destruct a.
    - unfold apply_weight_scaling in E. destruct (c_mapping c) eqn:M; simpl in E.
      + fold (omega_of c o) in E. destruct (Rltb 0 (omega_of c o)) eqn:El; simpl in E.
        * apply Rltb_true in El. injection E as <-.
          fold (alphas c cw (omega_of c o)).
          assert (Oal : okl (c_out c) (alphas c cw (omega_of c o))) by (apply alphas_ok; apply Scw).
          eexists _, _; split; [|split; [|reflexivity]].
          -- apply set_scales_inv; auto.
             ++ apply alphas_ne. destruct Scw as [L _]. destruct cw; simpl in L; [lia|congruence].
             ++ apply Forall_forall. intros z Hz. eapply alphas_pos; eauto.
          -- apply scale_rows_shape; auto using okl_map.
        * injection E as <-. eauto 10.
      + injection E as <-. eauto 10.
    - injection E as <-. eauto 10. }
  destruct K as (t2 & w2 & I2 & S2 & ->). now apply inv_with_w.
Qed.

Lemma run_inv c t o : (0 < c_out c)%nat -> inv c t -> valid c o -> inv c (run c t o).
Proof.
  intros Ho I V. destruct o as [w b a om|om|v|x d|lr|v|v|v]; simpl in *.
  - destruct V as [Vw Vb]. destruct (set_weights c w b a om t) eqn:E; auto.
    eapply set_weights_inv; eauto.
  - unfold remap_weights. destruct (get_weights_shape c t (inv_wf _ _ I)) as [S B].
    destruct (get_weights c true t) as [w b]. simpl in *.
    destruct (set_weights c w b true om t) eqn:E; auto.
    eapply set_weights_inv; eauto.
  - destruct V as (V1 & V2 & V3). apply set_scales_inv; auto.
  - destruct V as [Lx Ld]. pose proof (update_wf c t x d (inv_wf _ _ I) Lx Ld) as W'.
    destruct I as [W P N L1 L2 NM].
    unfold update in *. destruct (pre_update t x d); simpl in *. constructor; auto.
  - destruct I as [W P N L1 L2 NM]. constructor; auto. destruct W as [W1 W2 W3 W4 W5]; constructor; auto.
  - unfold set_input_range. destruct (t_ir t); auto.
    destruct I as [W P N L1 L2 NM]. constructor; auto. destruct W as [W1 W2 W3 W4 W5]; constructor; auto.
  - destruct (t_los t) as [l|] eqn:El; auto. destruct (Nat.eqb_spec (length l) (length v)) as [Ev|Ev]; auto.
    destruct I as [W P N L1 L2 NM]. destruct W as [W1 W2 W3 W4 W5].
    assert (Q : ms_val (with_los t (Some v)) = ms_val t) by (unfold ms_val; simpl; destruct (t_ms t); congruence).
    constructor; rewrite ?Q; auto. constructor; rewrite ?Q; auto.
    simpl. intros u Eu. injection Eu as <-. specialize (W3 _ El). unfold okl in *. rewrite <- Ev. exact W3.
  - destruct (digital_bias c) eqn:D; auto. now apply inv_with_bias.
Qed.

Lemma new_inv c w0 ir lr : shape (c_out c) (xs c) w0 -> inv c (ptile_new c w0 ir lr).
Proof.
  intros H. constructor; [now apply ptile_new_wf|..];
  unfold ptile_new, init_mapping_scales, init_learned_out_scales, set_mapping_scales, ms_val;
  destruct (c_mapping c), (c_learn_out c), (c_out_colwise c), (c_colwise c), (c_lrcomp c); simpl;
  destruct (Reqb (c_omega c) 0); simpl; intros; try discriminate; try lra; auto;
  try (injection H0 as <-; simpl in *; destruct H1 as [<-|[]]; lra);
  try (injection H0 as <-; discriminate);
  unfold meanR; simpl; lra.
Qed.

Lemma reachable_inv c t : reachable c t -> inv c t.
Proof.
  intros (w0 & ir & lr & ops & Ho & S & _ & F & ->).
  assert (I : inv c (ptile_new c w0 ir lr)) by (apply new_inv; exact S).
  revert I. generalize (ptile_new c w0 ir lr). induction F as [|o ops V F IH]; intros t I; auto.
  simpl. apply IH. apply run_inv; auto.
Qed.
Lemma reachable_wf c t : reachable c t -> wf c t.
Proof. intros; now apply inv_wf, reachable_inv. Qed.
Lemma reachable_out c t : reachable c t -> (0 < c_out c)%nat.
Proof. intros (w0 & ir & lr & ops & Ho & _); auto. Qed.

(** ** Statement-level lemmas *)
Lemma maxabs_row_le (m : mat) : forall r, In r m -> maxabs r <= maxabs_mat m.
Proof.
  induction m as [|a m IH]; simpl; intros r H; [contradiction|]. destruct H as [->|H].
  - apply Rmax_l.
  - specialize (IH r H). eapply Rle_trans; [exact IH|apply Rmax_r].
Qed.
Lemma nth_map_lt {A B} (f : A -> B) l i d d' : (i < length l)%nat -> nth i (map f l) d = f (nth i l d').
Proof. revert i; induction l as [|a l IH]; simpl; intros i H; [lia|]. destruct i; auto. apply IH; lia. Qed.

Lemma P_roundtrip c t w b o : reachable c t -> shape (c_out c) (c_in c) w -> bias_arg c b ->
  c_mapping c = true -> 0 < match o with Some r => r | None => c_omega c end ->
  exists t', set_weights c w b true o t = Ok t'
    /\ logical c t' = (w, if c_bias c then match b with Some v => Some v | None => t_bias t end else None).
Proof.
  intros R Hw Hb M Ho. destruct (set_get_scaled c t w b o (reachable_wf _ _ R) Hw Hb M Ho) as (t' & E & _ & G & _).
  exists t'; auto.
Qed.

Lemma P_range c t w b o t' : reachable c t -> shape (c_out c) (c_in c) w -> bias_arg c b ->
  c_mapping c = true -> let omega := match o with Some r => r | None => c_omega c end in
  0 < omega -> set_weights c w b true o t = Ok t' ->
  exists cw, combine_weights c w (if digital_bias c then None else b) = Ok cw /\ (c_colwise c = false -> maxabs_mat cw <> 0 -> maxabs_mat (t_w t') = omega) /\ (c_colwise c = true -> forall i, (i < c_out c)%nat -> maxabs (nth i cw []) <> 0 -> maxabs (nth i (t_w t') []) = omega) /\ (forall i j, (i < c_out c)%nat -> Rabs (nth j (nth i (t_w t') []) 0) <= omega).
Proof.
  intros R Hw Hb M omega Ho E.
  destruct (set_get_scaled c t w b o (reachable_wf _ _ R) Hw Hb M Ho) as (t2 & E2 & W2 & G & _ & _ & TW & _).
  rewrite E in E2; injection E2 as <-.
  destruct (combine_ok c w b Hw Hb) as (cw & Ecw & Scw & Sep).
  exists cw; split; auto. specialize (TW cw Ecw). fold omega in TW.
  change (omega_of c o) with omega in TW.
  pose proof (scaled_range c cw omega Ho (proj1 Scw)) as SR. cbv zeta in SR. rewrite <- TW in SR.
  destruct (wf_w _ _ W2) as [LW FW].
  split; [|split].
  - intros C N. rewrite C in SR. rewrite SR. destruct (Reqb (maxabs_mat cw) 0) eqn:Q; auto. apply Reqb_true in Q; congruence.
  - intros C i Hi N. rewrite C in SR.
    assert (Lc : length cw = c_out c) by apply Scw.
    assert (H1 : (i < length (t_w t'))%nat) by (rewrite LW; exact Hi).
    assert (H2 : (i < length cw)%nat) by (rewrite Lc; exact Hi).
    pose proof (nth_map_lt maxabs (t_w t') i 0 [] H1) as Q1.
    pose proof (nth_map_lt (fun r : vec => if Reqb (maxabs r) 0 then 0 else omega) cw i 0 [] H2) as Q2.
    rewrite SR in Q1. rewrite Q1 in Q2. refine (eq_trans Q2 _).
    match goal with |- context [Reqb ?a ?b] => destruct (Reqb a b) eqn:Q' end; [|reflexivity].
    exfalso; apply N; apply Reqb_true in Q'; exact Q'.
  - intros i j Hi.
    assert (MB : maxabs (nth i (t_w t') []) <= omega).
    { destruct (c_colwise c).
      - assert (Q : In (maxabs (nth i (t_w t') [])) (map maxabs (t_w t'))) by (apply in_map, nth_In; lia).
        rewrite SR in Q. apply in_map_iff in Q as [r [<- _]]. rcase; lra.
      - assert (Q : maxabs (nth i (t_w t') []) <= maxabs_mat (t_w t')).
        { assert (In (nth i (t_w t') []) (t_w t')) by (apply nth_In; lia).
          apply maxabs_row_le; exact H. }
        rewrite SR in Q. revert Q. rcase; lra. }
    destruct (le_lt_dec (length (nth i (t_w t') [])) j) as [G1|G1].
    + rewrite nth_overflow by auto. rewrite Rabs_R0. lra.
    + pose proof (maxabs_ub (nth i (t_w t') []) (nth j (nth i (t_w t') []) 0) (nth_In _ _ G1)). lra.
Qed.

Lemma P_remap c t o : reachable c t -> c_mapping c = true -> 0 < match o with Some r => r | None => c_omega c end ->
  exists t', remap_weights c o t = Ok t' /\ logical c t' = logical c t.
Proof.
  intros R M Ho. destruct (remap_lemma c t o (reachable_wf _ _ R) M Ho) as (t' & E & _ & G). exists t'; auto.
Qed.

Lemma P_forward c t x : reachable c t -> length x = c_in c ->
  match t_ir t with
  | None => True
  | Some ir => 0 < ir /\ (forall v, In v x -> Rabs v <= ir) /\ analog_bias c = false
  end ->
  forward c t x = affine_map (fst (logical c t)) (snd (logical c t)) x.
Proof. intros R. apply forward_lemma, reachable_wf, R. Qed.

Lemma P_adjoint c t x d : reachable c t -> t_los t = None -> length x = c_in c -> length d = c_out c ->
  dot (matvec (fst (logical c t)) x) d = dot x (backward c t d).
Proof.
  intros R NL Lx Ld. rewrite (backward_lemma c t d (reachable_wf _ _ R) NL Ld).
  apply adjoint; auto.
  destruct (get_weights_shape c t (reachable_wf _ _ R)) as [[_ F] _]. exact F.
Qed.

Lemma setlr_get lr t : 0 < t_lrs t -> get_learning_rate (set_learning_rate (Some lr) t) = lr.
Proof. intros; unfold get_learning_rate, set_learning_rate; simpl. field. lra. Qed.

Lemma P_lr c t lr : reachable c t -> get_learning_rate (set_learning_rate (Some lr) t) = lr.
Proof. intros R. apply setlr_get, (inv_lrs c), reachable_inv, R. Qed.

Lemma fold_left_ext_in {A B} (f g : A -> B -> A) l : (forall a b, In b l -> f a b = g a b) -> forall a, fold_left f l a = fold_left g l a.
Proof. induction l as [|b l IH]; simpl; intros H a; auto. rewrite H by auto. apply IH; intros; apply H; auto. Qed.

Lemma P_update c t lr xd : reachable c t -> t_los t = None -> t_ir t = None ->
  Forall (fun p => length (fst p) = c_in c /\ length (snd p) = c_out c) xd ->
  fst (logical c (update_batch c (set_learning_rate (Some lr) t) xd))
  = fold_left (fun W p => sgd lr W (fst p) (snd p)) xd (fst (logical c t)).
Proof.
  intros R NL NI F. set (t1 := set_learning_rate (Some lr) t).
  assert (I1 : inv c t1).
  { pose proof (run_inv c t (OpLR lr) (reachable_out c t R) (reachable_inv c t R) I). exact H. }
  destruct (update_batch_lemma c xd t1 (inv_wf _ _ I1) (inv_lr_ok _ _ I1) F) as [U _].
  unfold logical. rewrite U.
  replace (get_learning_rate t1) with lr by (symmetry; apply P_lr with (c := c); auto).
  change (fst (get_weights c true t1)) with (fst (get_weights c true t)).
  change (t_los t1) with (t_los t). rewrite NL.
  rewrite Forall_forall in F. apply fold_left_ext_in. intros W p Hp.
  assert (EX : upd_x t1 (fst p) = fst p).
  { unfold upd_x, pre_update. simpl. rewrite NI. reflexivity. }
  rewrite EX. unfold out_grad. simpl oex. rewrite map2_ones by (apply F; auto).
  unfold rank1, sgd. reflexivity.
Qed.

Lemma P_update_bias c t lr x d b : reachable c t -> t_los t = None -> t_ir t = None ->
  length x = c_in c -> length d = c_out c -> analog_bias c = true -> snd (logical c t) = Some b ->
  snd (logical c (update c (set_learning_rate (Some lr) t) x d)) = Some (sgd_bias lr b d).
Proof.
  intros R NL NI Lx Ld A Eb. set (t1 := set_learning_rate (Some lr) t).
  assert (I1 : inv c t1).
  { pose proof (run_inv c t (OpLR lr) (reachable_out c t R) (reachable_inv c t R) I). exact H. }
  destruct (update_lemma c t1 x d (inv_wf _ _ I1) (inv_lr_ok _ _ I1) Lx Ld) as [_ U].
  unfold logical. rewrite U, A.
  change (snd (get_weights c true t1)) with (snd (logical c t)). rewrite Eb. simpl option_map.
  replace (get_learning_rate t1) with lr by (symmetry; apply P_lr with (c := c); auto).
  change (t_los t1) with (t_los t). rewrite NL. unfold out_grad. simpl oex. rewrite map2_ones by auto.
  reflexivity.
Qed.

(** with an input range the update uses the clipped input divided by the range *)
Lemma P_update_ir c t lr x d ir : reachable c t -> t_los t = None -> t_ir t = Some ir -> 0 < ir ->
  length x = c_in c -> length d = c_out c -> (forall v, In v x -> Rabs v <= ir) ->
  fst (logical c (update c (set_learning_rate (Some lr) t) x d)) = sgd (lr / ir) (fst (logical c t)) x d.
Proof.
  intros R NL NI Hi Lx Ld Hx. set (t1 := set_learning_rate (Some lr) t).
  assert (I1 : inv c t1).
  { pose proof (run_inv c t (OpLR lr) (reachable_out c t R) (reachable_inv c t R) I). exact H. }
  destruct (update_lemma c t1 x d (inv_wf _ _ I1) (inv_lr_ok _ _ I1) Lx Ld) as [U _].
  unfold logical. rewrite U.
  replace (get_learning_rate t1) with lr by (symmetry; apply P_lr with (c := c); auto).
  change (fst (get_weights c true t1)) with (fst (get_weights c true t)).
  change (t_los t1) with (t_los t). rewrite NL. unfold out_grad. simpl oex. rewrite map2_ones by auto.
  assert (EX : upd_x t1 x = map (fun v => v / ir) x).
  { unfold upd_x, pre_update. simpl. rewrite NI. simpl. rewrite clip_input_id; auto.
    intros; rewrite (Rabs_pos_eq ir) by lra; auto. }
  rewrite EX. unfold rank1, sgd. apply map2_ext_in. intros a r _ _. rewrite map2_map_r.
  apply map2_ext_in. intros. field. lra.
Qed.

Lemma P_range' c t w b o t' : reachable c t -> shape (c_out c) (c_in c) w -> bias_arg c b ->
  c_mapping c = true -> let omega := match o with Some r => r | None => c_omega c end in
  0 < omega -> set_weights c w b true o t = Ok t' ->
  let target := crossbar_target c w b in
  (c_colwise c = false -> maxabs_mat target <> 0 -> maxabs_mat (t_w t') = omega)
  /\ (c_colwise c = true -> forall i, (i < c_out c)%nat -> maxabs (nth i target []) <> 0 ->
        maxabs (nth i (t_w t') []) = omega)
  /\ (forall i j, (i < c_out c)%nat -> Rabs (nth j (nth i (t_w t') []) 0) <= omega).
Proof.
  intros R Hw Hb M omega Ho E target. destruct (P_range c t w b o t' R Hw Hb M Ho E) as (cw & Ec & H).
  replace target with cw; [exact H|].
  unfold target, crossbar_target, combine_weights, analog_bias, digital_bias in *.
  unfold bias_arg, analog_bias in Hb.
  destruct b as [v|]; [destruct Hb as [Hb _]; rewrite Hb in *|]; destruct (c_bias c), (c_digital c); simpl in *; try congruence.
Qed.

(** [set_scales]/[set_weights] with [lr compensation] changes [mapping_lr_scale] *)
Lemma P_dtype c t : reachable c t -> c_mapping c = true -> (ms_val t <> None \/ t_los t = None) ->
  logical c (to_dtype c t) = logical c t.
Proof. intros R M H. apply to_dtype_lemma; auto. apply reachable_wf, R. Qed.

Lemma P_forward_bias_ir c t x ir : reachable c t -> length x = c_in c -> t_ir t = Some ir -> 0 < ir ->
  (forall v, In v x -> Rabs v <= ir) -> analog_bias c = true ->
  forward c t x = affine_map (fst (logical c t)) (option_map (map (Rmult ir)) (snd (logical c t))) x.
Proof. intros R. apply forward_analog_bias_ir, reachable_wf, R. Qed.

Lemma clampR_idem lo hi x : lo <= hi -> clampR lo hi (clampR lo hi x) = clampR lo hi x.
Proof. intros; unfold clampR; mm. Qed.
Lemma forward_clip c t x ir : t_ir t = Some ir ->
  forward c t x = forward c t (map (clampR (- ir) ir) x) \/ ~ 0 < ir.
Proof.
  intros E. destruct (Rlt_dec 0 ir) as [H|H]; [left|auto].
  unfold forward, joint_forward, pre_forward. rewrite E.
  assert (Q : clip_input ir (map (clampR (- ir) ir) x) = clip_input ir x).
  { unfold clip_input. rewrite (Rabs_pos_eq ir) by lra. rewrite map_map. apply map_ext. intros a.
    apply clampR_idem. lra. }
  now rewrite Q.
Qed.
Lemma P_forward_clip c t x ir : reachable c t -> length x = c_in c -> t_ir t = Some ir -> 0 < ir ->
  analog_bias c = false ->
  forward c t x = affine_map (fst (logical c t)) (snd (logical c t)) (map (clampR (- ir) ir) x).
Proof.
  intros R Lx E H A. destruct (forward_clip c t x ir E) as [->|]; [|contradiction].
  apply P_forward; auto.
  - now rewrite map_length.
  - rewrite E. repeat split; auto. intros v Hv. apply in_map_iff in Hv as [a [<- _]]. unfold clampR. mm.
Qed.

(** learning rate over histories, without lr compensation *)
Lemma set_scales_lr c s t : c_lrcomp c = false -> get_learning_rate (set_scales c s t) = get_learning_rate t.
Proof.
  intros L. unfold set_scales, set_mapping_scales, set_learned_out_scales_one, get_learning_rate, ms_val. rewrite L.
  destruct t as [tw tm tl tls tb ti tlr]; simpl.
  destruct s as [|r|[|x [|y sv]]|], (c_mapping c); simpl; destruct tm, tl as [[|? [|? ?]]|]; reflexivity.
Qed.
Lemma set_weights_lr c w b a o t t' : c_lrcomp c = false -> set_weights c w b a o t = Ok t' ->
  get_learning_rate t' = get_learning_rate t.
Proof.
  intros L. unfold set_weights.
  set (tb := match b with Some v => if digital_bias c then (with_bias t (Some v), None) else (t, b) | None => (t, None) end).
  assert (Q : get_learning_rate (fst tb) = get_learning_rate t).
  { subst tb. destruct b; [destruct (digital_bias c)|]; reflexivity. }
  destruct tb as [t1 b1]. simpl in Q. destruct (combine_weights c w b1) as [cw|]; simpl; [|discriminate].
  unfold apply_weight_scaling. destruct a.
  - destruct (negb (c_mapping c)); [intros E; injection E as <-; exact Q|].
    destruct (Rltb 0 _); intros E; injection E as <-; [|exact Q].
    rewrite <- Q, <- (set_scales_lr c (STensor (map (fun a => if Reqb a 0 then 1 else a) (map (fun m => m / match o with Some o0 => o0 | None => c_omega c end) (if c_colwise c then map maxabs cw else [maxabs_mat cw])))) t1 L).
    reflexivity.
  - intros E; injection E as <-; exact Q.
Qed.
Definition not_lr (o : pop) : Prop := match o with OpLR _ => False | _ => True end.
Lemma run_lr c t o : c_lrcomp c = false -> not_lr o -> get_learning_rate (run c t o) = get_learning_rate t.
Proof.
  intros L N. destruct o; simpl in *; try contradiction.
  - destruct (set_weights c w b apply omega t) eqn:E; auto. eapply set_weights_lr; eauto.
  - unfold remap_weights. destruct (get_weights c true t) as [w b]. destruct (set_weights c w b true omega t) eqn:E; auto. eapply set_weights_lr; eauto.
  - now apply set_scales_lr.
  - unfold update. destruct (pre_update t x d); reflexivity.
  - unfold set_input_range. destruct (t_ir t); reflexivity.
  - destruct (t_los t); [destruct (Nat.eqb _ _)|]; reflexivity.
  - destruct (digital_bias c); reflexivity.
Qed.
Lemma P_lr_history c t lr ops : reachable c t -> c_lrcomp c = false -> Forall not_lr ops ->
  get_learning_rate (fold_left (run c) ops (run c t (OpLR lr))) = lr.
Proof.
  intros R L F. transitivity (get_learning_rate (run c t (OpLR lr))); [|now apply P_lr with (c := c)].
  generalize (run c t (OpLR lr)) as s. induction F as [|o ops N F IH]; intros s; simpl; auto.
  rewrite IH. now apply run_lr.
Qed.

Lemma P_raw c t w b a o : reachable c t -> shape (c_out c) (c_in c) w -> bias_arg c b ->
  (a = false \/ c_mapping c = false \/ match o with Some r => r | None => c_omega c end <= 0) ->
  exists t', set_weights c w b a o t = Ok t'
    /\ get_weights c false t' = (w, if c_bias c then match b with Some v => Some v | None => t_bias t end else None)
    /\ get_scales t' = get_scales t.
Proof.
  intros R Hw Hb H. destruct (set_get_unscaled c t w b o a (reachable_wf _ _ R) Hw Hb H) as (t' & E & _ & G & K1 & K2 & _).
  exists t'; repeat split; auto. unfold get_scales, ms_val. now rewrite K1, K2.
Qed.

Lemma P_ir_mean N al stds ir0 : (0 <= N)%Z -> 0 <= al -> 0 <= ir0 ->
  let used := firstn (Z.to_nat N) (filter (Rltb 0) stds) in
  let '(ir, idx) := fold_left (ir_update N al) stds (ir0, 0%Z) in
  idx = Z.of_nat (length used)
  /\ ir = if Nat.eqb (length used) 0 then ir0 else al * (sumR used / INR (length used)).
Proof.
  intros HN Ha Hi. pose proof (ir_update_lemma N al HN stds ir0 0%Z Ha Hi ltac:(lia)) as H.
  cbv zeta in *. replace (N - 0)%Z with N in H by lia.
  change (filter is_pos stds) with (filter (Rltb 0) stds) in H.
  destruct (fold_left (ir_update N al) stds (ir0, 0%Z)) as [ir idx]. destruct H as (E & P & H1 & H2).
  split; [lia|].
  set (used := firstn (Z.to_nat N) (filter (Rltb 0) stds)) in *.
  destruct (Nat.eqb_spec (length used) 0) as [Z0|Z0].
  - apply H2. destruct used; simpl in *; auto; discriminate.
  - assert (Nn : used <> []) by (intros Q; rewrite Q in Z0; simpl in Z0; lia).
    specialize (H1 Nn). rewrite E in H1. replace (0 + Z.of_nat (length used))%Z with (Z.of_nat (length used)) in H1 by lia.
    rewrite <- INR_IZR_INZ in H1.
    assert (INR (length used) <> 0) by (apply not_0_INR; auto).
    apply Rmult_eq_reg_r with (INR (length used)); auto. field_simplify; auto. lra.
Qed.
