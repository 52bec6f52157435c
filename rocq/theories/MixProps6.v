(** * Mixed precision: exact and saturated transfers (C81) *)
From Verif Require Import Prelude Rand DevModel DevSpec DevProofs DevProps PulseModel PulseSpec PulseProofs PulseProps CompModel CompSpec CompProofs CompProofs3 CompProofs4 CompProps TransProofs MixModel MixSpec MixProofs MixProps MixProps3 MixProps4 MixProps5.

(** a row with deterministic pulses *)
Lemma mix_row_exact p u n m s s' i j c k : let mt := fst (x_part s) in
  mix_sized n m s -> sensible u -> up_type u = DeterministicImplicit -> up_xres u <= 0 -> up_dres u <= 0 -> up_gs u = 1 -> 0 < m_dwmin mt -> 0 < x_gran s -> 0 < mp_lr p -> x_gran s * mp_lr p = m_dwmin mt ->
  (forall b z, (b < n)%nat -> whole (x_gran s) (chi_at s i b) z -> (Z.abs z <= up_BL u)%Z) ->
  cell_at (d_cells (snd (x_part s))) i j = Some c -> whole (x_gran s) (chi_at s i j) k -> yields (mix_row p u s i) s' ->
  exists c', cell_at (d_cells (snd (x_part s'))) i j = Some c' /\ yields (pulses mt (Z.abs_nat k) (0 <? k)%Z c) c'.
Proof.
  intros mt (Pm & Dc & Dd) Su Ty Xr Dr Gs Dw Hg Hl Eg Fi Ec Wk Y. destruct (repeat_dims_cells n m _ i j c Dd Ec) as [Li Lj]. destruct (row_len n m (x_chi s) i Dc Li) as [Lr Lc]. unfold mix_row in Y. cbv zeta in Y. apply yields_bind in Y as (dv & Y & Es). apply yields_ret in Es. subst s'. cbn [with_chi x_part snd].
  set (g := x_gran s) in *. set (row := nth i (x_chi s) []) in *. set (dw := fun v => IZR (truncZ (v / g))) in *. set (x := map dw row) in *. set (d := unit_vec (length (x_chi s)) i) in *. fold mt in Y.
  assert (Nx : forall b, (b < n)%nat -> nth b x 0 = IZR (truncZ (nth b row 0 / g))). { intros b Hb. unfold x. rewrite (nth_indep _ 0 (dw 0)) by (rewrite map_length; lia). now rewrite (map_nth dw). }
  assert (Bl : 1 <= IZR (up_BL u)) by (destruct Su as [Hb _]; now apply IZR_le in Hb).
  assert (Ek : nth j x 0 = IZR k) by (rewrite Nx by exact Lj; f_equal; apply (whole_unique g (nth j row 0)); [exact Hg | now apply whole_trunc | exact Wk]).
  assert (Ed : nth i d 0 = 1) by (unfold d; rewrite unit_nth, Nat.eqb_refl, (proj2 (Nat.ltb_lt i _)) by lia; reflexivity).
  assert (Mf : max_fits (managed u) (g * mp_lr p) (m_dwmin mt) x d).
  { unfold max_fits. cbn [managed up_BL]. rewrite Eg, (Rabs_right (m_dwmin mt)) by lra. assert (Md : 0 <= maxabs d <= 1) by (split; [apply maxabs_nonneg | apply unit_max; lia]).
    assert (Mx : maxabs x <= IZR (up_BL u)). { apply maxabs_le; [lra|]. intros b Hb. assert (Hb1 : (b < n)%nat) by (unfold x in Hb; rewrite map_length in Hb; lia). rewrite Nx by exact Hb1. rewrite Rabs_Zabs. apply IZR_le. apply (Fi b); [exact Hb1|]. now apply whole_trunc. }
    pose proof (maxabs_nonneg x). rewrite Rmult_assoc. apply Rmult_le_compat_l; [lra|]. rewrite <- (Rmult_1_r (IZR (up_BL u))). apply Rmult_le_compat; lra. }
  unfold update_vector in Y. apply yields_bind in Y as (l & Yl & Y). cbn [do_op] in Y. apply yields_bind in Y as (cs & Y & E). apply yields_ret in E. subst dv. destruct (fold_pulses_at _ _ _ _ _ _ _ Y Ec) as (c' & E' & Yp). exists c'. cbn [with_cells d_cells]. split; [exact E'|].
  assert (Hlr : 0 < g * mp_lr p) by (rewrite Eg; exact Dw).
  pose proof (C62_deterministic (managed u) x d (g * mp_lr p) (m_dwmin mt) l i j Su Ty Hlr Dw (or_intror (or_introl eq_refl)) (or_introl eq_refl) Gs Mf Yl) as H. cbn [managed up_BL up_xres up_dres up_sto] in H. rewrite (Rmax_right (up_xres u)), (Rmax_right (up_dres u)) in H by lra. rewrite Rplus_0_r, Rmult_0_l, Rmult_0_r, Rplus_0_r, Ek, Ed, Rmult_1_r, Eg in H.
  assert (Nt : net (pulses_at l i j) = k). { replace (m_dwmin mt * IZR (net (pulses_at l i j)) - m_dwmin mt * IZR k) with (m_dwmin mt * IZR (net (pulses_at l i j) - k)) in H by (rewrite minus_IZR; ring). rewrite Rabs_mult, (Rabs_right (m_dwmin mt)) in H by lra. rewrite Rabs_Zabs in H.
    assert (IZR (Z.abs (net (pulses_at l i j) - k)) <= 1/2) by (apply (Rmult_le_reg_l (m_dwmin mt)); lra). assert (Z.abs (net (pulses_at l i j) - k) < 1)%Z by (apply lt_IZR; lra). lia. }
  destruct (C60_direction (managed u) x d (g * mp_lr p) (m_dwmin mt) l i j Su Dw ltac:(lra) (or_intror Hlr) Yl) as (D & Z & _). rewrite Ek, Ed in *.
  assert (Eb : pulses_at l i j = repeat (0 <? k)%Z (length (pulses_at l i j))).
  { apply all_same_dir. intros a Ia. specialize (D a Ia). destruct (Z.ltb_spec 0 k) as [Hk | Hk]; [apply (proj2 D); apply IZR_lt in Hk; nra|]. destruct a; [|reflexivity]. exfalso. assert (P : 0 < g * mp_lr p * IZR k * 1) by tauto. apply IZR_le in Hk. nra. }
  assert (Ln : length (pulses_at l i j) = Z.abs_nat k).
  { rewrite Eb in Nt. unfold net, ups, downs in Nt. set (q := length (pulses_at l i j)) in *. assert (Fr : forall b q, length (filter (fun b => b) (repeat b q)) = (if b then q else 0)%nat /\ length (filter negb (repeat b q)) = (if b then 0 else q)%nat) by (clear; intros b q; induction q as [|q [I1 I2]]; destruct b; cbn [repeat filter negb length] in *; auto).
    destruct (Fr (0 <? k)%Z q) as [F1 F2]. rewrite F1, F2 in Nt. destruct (0 <? k)%Z; lia. }
  unfold pulses. rewrite <- Ln, <- Eb. exact Yp.
Qed.
(** With deterministic pulses and a granularity of one step, a due update writes exactly the whole
    multiples: that number of pulses. *)
Theorem C81_exact : forall p u lr x d mb n m s s' i j c k kr, let mt := fst (x_part s) in let chi i j := chi_at s i j + lr * nth i d 0 * nth j x 0 in
  (mp_xb p <= 0)%Z -> (mp_db p <= 0)%Z -> lr <> 0 -> mix_good n m s -> length x = n -> length d = m -> due p mb (x_cnt s) -> mp_rows p <> 0%Z -> mp_random p = false -> transfer_rows p m kr -> addressed m (x_row s) kr i ->
  sensible u -> up_type u = DeterministicImplicit -> up_xres u <= 0 -> up_dres u <= 0 -> up_gs u = 1 -> 0 < m_dwmin mt -> 0 < mp_lr p -> x_gran s * mp_lr p = m_dwmin mt ->
  (forall b z, (b < n)%nat -> whole (x_gran s) (chi i b) z -> (Z.abs z <= up_BL u)%Z) ->
  cell_at (d_cells (snd (x_part s))) i j = Some c -> whole (x_gran s) (chi i j) k -> yields (mix_update p u lr x d mb s) s' ->
  exists c', cell_at (d_cells (snd (x_part s'))) i j = Some c' /\ yields (pulses mt (Z.abs_nat k) (0 <? k)%Z c) c' /\ chi_at s' i j = chi i j - IZR k * x_gran s.
Proof.
  intros p u lr x d mb n m s s' i j c k kr mt chi Xb Db L (Sz & Hr & Hg) Lx Ld Du R0 Rn Kr Ad Su Ty Xr Dr Gs Dw Hl Eg Fi Ec Wk Y. assert (Sz0 := Sz). destruct Sz as (Pm & Dc & Dd). destruct (repeat_dims_cells n m _ i j c Dd Ec) as [Li Lj].
  destruct (mix_update_split _ _ _ _ _ _ _ _ L Y) as (chi1 & kx & kd & s1 & Yo & Yt & _ & Es). specialize (Yt Du). unfold outer in Yo. cbv zeta in Yo. replace (mp_db p <=? 0)%Z with true in Yo by lia. replace (mp_xb p <=? 0)%Z with true in Yo by lia. cbn [andb] in Yo. apply yields_ret in Yo. injection Yo as -> _ _.
  set (mid := with_chi s (x_part s) (ger lr d x (x_chi s))) in *. destruct (ger_spec lr d x (x_chi s) n m Dc Ld Lx) as [Dg Hgr]. assert (Szm : mix_sized n m mid) by (split; [exact Pm | split; [cbn [mid with_chi x_chi]; rewrite Dg; exact Dc | exact Dd]]).
  assert (Em : forall b, (b < n)%nat -> chi_at mid i b = chi i b) by (intros b Hb; unfold chi, chi_at; apply Hgr; auto).
  destruct (mix_transfer_fold p u n m mid s1 Szm R0 ltac:(lra) Hg Hr Yt) as (i0 & s2 & Hi & Hs & Yf & E1). specialize (Hs (or_introl Rn)). change (x_row mid) with (x_row s) in Hs. subst i0. clear Yt.
  assert (Nk : n_rows p m = kr) by (unfold transfer_rows, n_rows in *; destruct (_ <? _)%Z; now rewrite Kr). rewrite Nk in *. assert (Km : (kr <= m)%nat) by (unfold transfer_rows in Kr; destruct (_ <? _)%Z; lia). destruct (row_list_spec m (x_row s) kr Hr Km) as (ND & F & Al).
  assert (Il : List.In i (row_list m (x_row s) kr)) by (pose proof (proj2 (Al i Li) Ad) as X; apply existsb_exists in X as (y & Iy & Ey); apply Nat.eqb_eq in Ey; now subst y).
  assert (Tr : transferable p u mid) by (repeat split; auto; apply Su). assert (Lc : length (x_chi mid) = m) by (destruct Szm as (_ & D & _); destruct (row_len n m _ 0%nat D Pm); auto).
  assert (Ch : chi_at s2 i j = chi i j - IZR k * x_gran s).
  { destruct (rows_fold_spec p u n m _ mid s2 i j c Szm Tr ND F Yf Ec) as (c1 & _ & M). rewrite (proj2 (Al i Li) Ad) in M. destruct M as (k' & W' & M & _). rewrite Em in * by exact Lj. change (x_gran mid) with (x_gran s) in *. rewrite (whole_unique _ _ _ _ Hg Wk W'). exact M. }
  apply in_split in Il as (l1 & l2 & El). rewrite El in *. assert (Ys : exists a, yields (foldMM (mix_row p u) l1 mid) a /\ yields (foldMM (mix_row p u) (i :: l2) a) s2).
  { clear - Yf. revert Yf. generalize mid as z. induction l1 as [|b l1 IH]; intros z Y; [exists z; split; [constructor | exact Y]|]. cbn [app foldMM] in Y. apply yields_bind in Y as (z1 & Y1 & Y). destruct (IH z1 Y) as (a & Ya & Yb). exists a. split; [cbn [foldMM]; apply yields_bind; eauto | exact Yb]. }
  destruct Ys as (a & Ya & Yb). cbn [foldMM] in Yb. apply yields_bind in Yb as (b & Yr & Yb). apply Forall_app in F as [F1 F2]. pose proof (Forall_inv_tail F2) as F3. assert (ND1 := NoDup_remove_1 _ _ _ ND). assert (ND2 := NoDup_remove_2 _ _ _ ND). assert (Ni1 : ~ List.In i l1) by (intros I; apply ND2, in_or_app; auto). assert (Ni2 : ~ List.In i l2) by (intros I; apply ND2, in_or_app; auto).
  assert (NDa : NoDup l1). { clear - ND1. induction l1 as [|z l1 IH]; [constructor|]. cbn [app] in ND1. inversion ND1; subst. constructor; auto. intros I. apply H1, in_or_app. auto. }
  assert (NDb : NoDup l2). { clear - ND1. induction l1 as [|z l1 IH]; [exact ND1|]. cbn [app] in ND1. inversion ND1; subst. auto. }
  pose proof (rows_fold_keeps p u m l1 mid a Lc F1 Ya) as Ka. pose proof (keeps_sized n m _ _ Ka Szm) as Sza. pose proof (transferable_keeps _ _ _ _ Ka Tr) as Tra. destruct (rows_same p u n m l1 mid a i j c Szm Tr NDa F1 Ni1 Ec Ya) as (_ & Ma & Ga & Eca).
  assert (Cha : forall q, (q < n)%nat -> chi_at a i q = chi i q).
  { intros q Hq. destruct (cell_at (d_cells (snd (x_part mid))) i q) as [cq|] eqn:Eq. 2:{ exfalso. apply cell_at_dims in Eq. cbn [mid with_chi x_part] in Eq. rewrite Dd in Eq. rewrite (nth_indep _ 0%nat n) in Eq by (rewrite repeat_length; exact Li). rewrite nth_repeat in Eq. lia. }
    destruct (rows_fold_spec p u n m l1 mid a i q cq Szm Tr NDa F1 Ya Eq) as (c1 & _ & M). replace (existsb (Nat.eqb i) l1) with false in M. 2:{ symmetry. apply Bool.not_true_is_false. intros X. apply existsb_exists in X as (y & Iy & Ey). apply Nat.eqb_eq in Ey. now subst y. } destruct M as [M _]. rewrite M. now apply Em. }
  destruct (mix_row_exact p u n m a b i j c k) as (c' & Ec' & Yp); auto; rewrite ?Ma, ?Ga; auto.
  { intros q z Hq Wz. rewrite Cha in Wz by exact Hq. exact (Fi q z Hq Wz). }
  { rewrite Cha by exact Lj. exact Wk. }
  assert (Kb : keeps a b). { eapply mix_row_keeps; [|exact Yr]. destruct Sza as (_ & D & _). destruct (row_len n m _ i D Li) as [_ ->]. exact Li. }
  destruct (rows_same p u n m l2 b s2 i j c' (keeps_sized n m _ _ Kb Sza) (transferable_keeps _ _ _ _ Kb Tra) NDb F3 Ni2 Ec' Yb) as (_ & _ & _ & Ec2).
  exists c'. rewrite Es, E1. cbn [x_part with_row]. split; [exact Ec2|]. split; [rewrite Ma in Yp; exact Yp | exact Ch].
Qed.
(** Multiples that do not fit into the pulse trains are lost: they are taken out of the digital
    matrix but the device gets at most [desired_BL] pulses. *)
Definition sat_par : mpar := {| mp_xb := 0; mp_db := 0; mp_stox := false; mp_stod := false; mp_every := 1; mp_rows := -1; mp_random := false; mp_lr := 1; mp_gran := 1/10; mp_sparsity := false |}.
Definition sat_state : mstate := {| x_part := part1 0; x_chi := [[0]]; x_gran := 1/10; x_row := 0; x_cnt := 1; x_avg := 0 |}.
Lemma mix_update_total p u lr x d mb s : (mp_xb p <= 0)%Z -> (mp_db p <= 0)%Z -> 0 < x_gran s -> total (mix_update p u lr x d mb s).
Proof.
  intros Xb Db Hg. unfold mix_update. destruct (Reqb lr 0); [apply total_ret|]. unfold outer. cbv zeta. replace (mp_db p <=? 0)%Z with true by lia. replace (mp_xb p <=? 0)%Z with true by lia. cbn [andb bindM]. apply total_bind; [|intros; apply total_ret]. destruct (mix_due _ _ _); [|apply total_ret].
  unfold mix_transfer. destruct (_ || _)%bool; [apply total_ret|]. cbv zeta. apply total_bind. { destruct (_ && _)%bool; [|apply total_ret]. apply total_bind; [apply total_unif; intros; apply total_ret | intros; apply total_ret]. }
  assert (R : forall i k z, 0 < x_gran z -> total (mix_rows p u i k z)). { intros i k z Hz. unfold mix_rows. destruct (Reqb _ _); [apply total_ret|]. rewrite (proj2 (Rleb_false _ 0)) by lra. apply rows_total. }
  intros i0 _. apply total_bind; [|intros; apply total_ret]. destruct (_ <? _)%nat; [|apply R; exact Hg]. apply total_bind; [apply R; exact Hg|]. intros a Ya. apply R. apply mix_rows_rest in Ya as (_ & _ & E & _). rewrite E. exact Hg.
Qed.
Theorem C81_saturation_refuted : (exists s', yields (mix_update sat_par up_ex 1 [1/2] [1] 1 sat_state) s') /\
  forall s', yields (mix_update sat_par up_ex 1 [1/2] [1] 1 sat_state) s' -> chi_at s' 0 0 = 0 /\ - (1/10) <= mix_weight s' 0 0 /\ mix_weight sat_state 0 0 = 0.
Proof.
  split; [apply total_yields, mix_update_total; cbn; try lia; lra|]. intros s' Y. assert (Su : sensible up_ex) by (split; cbn; [lia | lra]).
  destruct (C81_content sat_par up_ex 1 [1/2] [1] 1 1 1 sat_state s') as (mid & start & k & E1 & E2 & A & Kr & Hs & St & T & _); auto.
  - left. cbn. lia.
  - split; [split; [lia | split; reflexivity] | split; [cbn; lia | cbn; lra]].
  - cbn. lra.
  - right. cbn. lra.
  - cbn. lia.
  - split; [cbn; lia|]. split; [cbn; lia|]. exists 1%Z. reflexivity.
  - destruct T as [T1 T]. destruct (T 0%nat 0%nat (cell0 0)) as (c' & Ec & H & _); [rewrite E1; reflexivity|]. destruct H as (z & W & C & (q & Nq & Yq & _)).
    { cbn in Kr. subst k. exists 0%nat. split; [lia|]. assert (start = 0)%nat by lia. subst start. reflexivity. }
    assert (Cm : chi_at mid 0 0 = 1/2). { destruct A as (qx & qd & Qx & Qd & _ & A). unfold chi_at. rewrite A by (cbn; lia). destruct Qx as [_ Qx]. destruct Qd as [_ Qd]. cbn in Qx, Qd. subst. cbn. lra. }
    rewrite Cm, E2 in *. change (x_gran sat_state) with (1/10) in *. assert (z = 5%Z) as ->. { apply (whole_unique (1/10) (1/2)); [lra | exact W|]. split; [|split]; [rewrite !Rabs_right; lra | rewrite Rabs_right; lra | lra]. }
    split; [rewrite C; lra|]. split. 2:{ unfold mix_weight, weight_at, stored. cbn. try rewrite (proj2 (Rltb_false 0 0)) by lra. cbn. lra. } unfold mix_weight, weight_at. rewrite Ec, T1, E1. change (up_BL up_ex) with 1%Z in Nq.
    rewrite E1 in Yq. change (fst (x_part sat_state)) with mt0 in *. rewrite (proj2 (Rltb_true _ 0)) in Yq by (cbn; lra). destruct (C53_constant_step mt0 q (cell0 0) c') as [_ Dn]; try (cbn; lra); try reflexivity.
    { split; [cbn; lra|]. intros H. cbn in H. lra. } { unfold stored. cbn. rewrite (proj2 (Rltb_false 0 0)) by lra. lra. }
    rewrite (Dn Yq). unfold stored. cbn [mt0 m_wn]. rewrite (proj2 (Rltb_false 0 0)) by lra. cbn. assert (INR q <= 1) by (change 1 with (INR 1); apply le_INR; lia). eapply Rle_trans; [|apply Rmax_l]. lra.
Qed.

Print Assumptions C81_exact.
Print Assumptions C81_saturation_refuted.
