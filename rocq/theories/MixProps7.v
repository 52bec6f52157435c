(** * Mixed precision: the other calls of the tile (C82) and the sparsity (C83) *)
From Verif Require Import Prelude Rand DevModel DevSpec DevProofs PulseModel PulseSpec PulseProofs PulseProps CompModel CompSpec CompProofs CompProofs3 CompProofs4 CompProps TransProofs MixModel MixSpec MixProofs MixProps MixProps3.

Lemma zeros_at {A} (m : list (list A)) i j : at_ (zeros_like m) i j = 0.
Proof.
  unfold at_, zeros_like. destruct (Nat.lt_ge_cases i (length m)) as [H | H].
  - rewrite (nth_indep _ [] (map (fun _ : A => 0) [])) by (rewrite map_length; exact H). rewrite map_nth. generalize (nth i m []) as r. intros r. revert j. induction r as [|a r IH]; intros [|j]; cbn; auto.
  - rewrite (nth_overflow (map _ m)) by (rewrite map_length; exact H). now destruct j.
Qed.
(** ** C82 *)
(** Setting the weights programs the device and forgets everything that has been accumulated. *)
Theorem C82_set : forall p s w s', yields (mix_do p s (MOp (OSet w))) s' ->
  yields (part_op (OSet w) (x_part s)) (x_part s') /\ (forall i j, chi_at s' i j = 0) /\ dims (x_chi s') = dims (x_chi s) /\ x_row s' = 0%nat /\ x_cnt s' = 0%nat /\ x_avg s' = 0 /\ x_gran s' = x_gran s.
Proof.
  intros p s w s' Y. unfold mix_do in Y. apply yields_bind in Y as (q & Yq & Y). apply yields_ret in Y. subst s'. cbn [x_part x_chi x_row x_cnt x_avg x_gran]. split; [exact Yq|].
  split; [intros; unfold chi_at; apply zeros_at|]. split; [|auto]. unfold dims, zeros_like. rewrite map_map. apply map_ext. intros. now rewrite map_length.
Qed.
(** Decay, diffusion, clipping, drift and reset act on the device only. *)
Theorem C82_others : forall p s o s', (forall w, o <> OSet w) -> yields (mix_do p s (MOp o)) s' ->
  yields (part_op o (x_part s)) (x_part s') /\ x_chi s' = x_chi s /\ x_row s' = x_row s /\ x_cnt s' = x_cnt s /\ x_avg s' = x_avg s /\ x_gran s' = x_gran s.
Proof.
  intros p s o s' No Y. unfold mix_do in Y. apply yields_bind in Y as (q & Yq & Y). apply yields_ret in Y.
  destruct o; try (subst s'; cbn [with_chi x_part x_chi x_row x_cnt x_avg x_gran]; repeat split; auto; fail). exfalso. eapply No. reflexivity.
Qed.
(** An update with learning rate 0 does nothing. *)
Theorem C82_zero_lr : forall p u x d mb s s', yields (mix_update p u 0 x d mb s) s' <-> s' = s.
Proof. intros. unfold mix_update. rewrite (proj2 (Reqb_true 0 0) eq_refl). apply yields_ret. Qed.
(** A new tile needs a granularity: the given one if it is positive, otherwise that of the device. *)
Theorem C82_new : forall p q, (forall s, mix_make p q = Ok s -> 0 < x_gran s /\ (0 < mp_gran p -> x_gran s = mp_gran p) /\ (mp_gran p <= 0 -> x_gran s = m_dwmin (fst q)) /\ x_part s = q /\ (forall i j, chi_at s i j = 0) /\ x_cnt s = 0%nat /\ x_row s = 0%nat) /\
  (mp_gran p <= 0 /\ m_dwmin (fst q) <= 0 <-> mix_make p q = Raise RuntimeError) /\ (0 < mp_gran p \/ 0 < m_dwmin (fst q) <-> exists s, mix_make p q = Ok s).
Proof.
  intros p q. unfold mix_make. cbv zeta. destruct (Rltb 0 (mp_gran p)) eqn:Eg; [apply Rltb_true in Eg | apply Rltb_false in Eg].
  - rewrite (proj2 (Rleb_false _ 0)) by lra. split; [|split].
    + intros s E. injection E as <-. cbn. repeat split; auto; try lra. intros. apply zeros_at.
    + split; [lra | discriminate].
    + split; [eauto | auto].
  - destruct (Rleb (m_dwmin (fst q)) 0) eqn:Ed; [apply Rleb_true in Ed | apply Rleb_false in Ed].
    + split; [discriminate|]. split; [split; [auto | intros _; split; lra]|]. split; [lra | intros [s E]; discriminate].
    + split; [|split; [split; [lra | discriminate] | split; [eauto | intros _; lra]]]. intros s E. injection E as <-. cbn. repeat split; auto; try lra. intros. apply zeros_at.
Qed.
Lemma vis_put d w : dims w = dims (d_cells d) -> vis (put_vis d w) = w.
Proof.
  unfold vis, put_vis. cbn [with_cells d_cells]. generalize (d_cells d) as cs. clear d. induction w as [|r w IH]; intros [|cr cs] D; [reflexivity | discriminate | discriminate |]. unfold dims in D. cbn [map] in D. injection D as D1 D2. cbn [map2 map]. f_equal.
  - clear - D1. revert cr D1. induction r as [|a r IH]; intros [|c cr] D1; [reflexivity | discriminate | discriminate |]. cbn [map2 map length] in *. injection D1 as D1. f_equal. auto.
  - apply IH. exact D2.
Qed.
(** Saving and loading restores the weights, the granularity and the counters; the digital matrix is
    lost. *)
Theorem C82_reload : forall p n m s s', mix_good n m s -> yields (mix_reload p s) s' ->
  (forall i j, at_ (vis (snd (x_part s'))) i j = at_ (vis (snd (x_part s))) i j) /\ x_gran s' = x_gran s /\ x_row s' = x_row s /\ x_cnt s' = x_cnt s /\ x_avg s' = x_avg s /\ fst (x_part s') = fst (x_part s) /\
  forall i j, chi_at s' i j = 0.
Proof.
  intros p n m s s' ((Pm & Dc & Dd) & _) Y. unfold mix_reload in Y. apply yields_bind in Y as (q & Yq & Y). apply yields_bind in Y as (s1 & Y1 & Y). apply yields_ret in Y. subst s'. cbn [x_part x_chi x_row x_cnt x_avg x_gran fst snd].
  unfold load_part in Yq. assert (Dv : dims (vis (snd (x_part s))) = repeat n m) by (rewrite dims_vis; exact Dd). destruct (part_op_dims (repeat n m) (OSet (vis (snd (x_part s)))) _ _ Dv Dd Yq) as [D1 F1].
  apply C82_set in Y1 as (Y1 & C & _). cbn [x_part] in Y1. destruct (part_op_dims (repeat n m) (OSet (vis (snd (x_part s)))) _ _ Dv D1 Y1) as [D2 F2]. unfold pdims in D2.
  split; [intros; rewrite vis_put; [reflexivity | congruence]|]. repeat split; auto. congruence.
Qed.
(** ** C83 *)
Lemma from_bin_zero n w k : (2 <= n)%Z -> w <> 0 -> Reqb (from_bin n w k) 0 = (k =? 0)%Z.
Proof.
  intros Hn W. assert (Hh : (1 <= half_bins n)%Z) by (apply le_IZR, half_pos; auto). unfold from_bin. destruct (Z.eqb_spec k 0) as [-> | E].
  - apply Reqb_true. replace (Z.min (Z.max 0 (- half_bins n)) (half_bins n)) with 0%Z by lia. lra.
  - apply Reqb_false. intros H. apply Rmult_integral in H as [H | H]; [|lra]. apply eq_IZR in H. lia.
Qed.
Lemma bin_width_pos n v : (2 <= n)%Z -> bin_width n v <> 0.
Proof. intros Hn. unfold bin_width. cbv zeta. destruct (Reqb _ 0) eqn:E; [lra|]. now apply Reqb_false in E. Qed.
Lemma zero_count_bins n w ks : (2 <= n)%Z -> w <> 0 -> (zero_count (map (from_bin n w) ks) + length (filter (fun k => negb (k =? 0)%Z) ks) = length ks)%nat.
Proof.
  intros Hn W. unfold zero_count. induction ks as [|k ks IH]; [reflexivity|]. cbn [map filter length]. rewrite from_bin_zero by auto. destruct (k =? 0)%Z; cbn [negb length]; lia.
Qed.
Lemma nonzero_length n w ks : length (nonzero n w ks) = length (filter (fun k => negb (k =? 0)%Z) ks).
Proof.
  unfold nonzero, zipi. rewrite map_length. generalize 0%nat as a. induction ks as [|k ks IH]; intros a; [reflexivity|]. cbn [length seq combine filter snd]. destruct (k =? 0)%Z; cbn [negb length]; rewrite IH; reflexivity.
Qed.
Lemma outer_sparse p lr x d chi chi' kx kd n m : (2 <= mp_xb p)%Z -> (2 <= mp_db p)%Z -> dims chi = repeat n m -> length x = n -> length d = m -> yields (outer p lr x d chi) (chi', kx, kd) ->
  exists qx qd, quantized (mp_xb p) (mp_stox p) x qx /\ quantized (mp_db p) (mp_stod p) d qd /\ (kx + zero_count qx = n)%nat /\ (kd + zero_count qd = m)%nat /\
    forall i j, (i < m)%nat -> (j < n)%nat -> at_ chi' i j = at_ chi i j + lr * nth i qd 0 * nth j qx 0.
Proof.
  intros B1 B2 D Lx Ld Y. unfold outer in Y. cbv zeta in Y. replace (mp_db p <=? 0)%Z with false in Y by lia. replace (mp_xb p <=? 0)%Z with false in Y by lia. replace (mp_xb p =? 1)%Z with false in Y by lia. replace (mp_db p =? 1)%Z with false in Y by lia. cbn [andb orb] in Y.
  apply yields_bind in Y as (kxs & Yx & Y). apply yields_bind in Y as (kds & Yd & Y). apply yields_ret in Y. injection Y as E1 E2 E3. subst kx kd chi'.
  pose proof (mapMM_length _ _ _ Yx) as Lkx. pose proof (mapMM_length _ _ _ Yd) as Lkd.
  exists (map (from_bin (mp_xb p) (bin_width (mp_xb p) x)) kxs), (map (from_bin (mp_db p) (bin_width (mp_db p) d)) kds). split; [now apply bins_quantized|]. split; [now apply bins_quantized|].
  pose proof (zero_count_bins (mp_xb p) (bin_width (mp_xb p) x) kxs B1 (bin_width_pos _ _ B1)). pose proof (zero_count_bins (mp_db p) (bin_width (mp_db p) d) kds B2 (bin_width_pos _ _ B2)).
  rewrite nonzero_length. split; [lia|]. split; [lia|]. intros i j Li Lj. destruct (row_len n m chi i D ltac:(lia)) as [Lr Lc]. rewrite (at_map2 _ 0%Z) by lia.
  assert (Hh : forall nb, (2 <= nb)%Z -> (1 <= half_bins nb)%Z) by (intros; apply le_IZR, half_pos; auto).
  assert (F0 : forall nb w, (2 <= nb)%Z -> from_bin nb w 0 = 0). { intros nb w Hnb. unfold from_bin. specialize (Hh nb Hnb). replace (Z.min (Z.max 0 (- half_bins nb)) (half_bins nb)) with 0%Z by lia. lra. }
  rewrite (nth_indep (map (from_bin (mp_db p) _) kds) 0 (from_bin (mp_db p) (bin_width (mp_db p) d) 0)) by (rewrite map_length; lia). rewrite map_nth.
  rewrite (nth_indep (map (from_bin (mp_xb p) _) kxs) 0 (from_bin (mp_xb p) (bin_width (mp_xb p) x) 0)) by (rewrite map_length; lia). rewrite map_nth.
  destruct (Z.eqb_spec (nth i kds 0%Z) 0) as [E | E].
  - rewrite E, F0 by auto. unfold at_. lra.
  - destruct (nonzero_fst (mp_xb p) (bin_width (mp_xb p) x) kxs) as [N1 N2]. rewrite add_sparse_nth; auto; [|lia | intros a I; specialize (N2 a I); lia]. rewrite nonzero_sum by auto. rewrite (proj2 (Nat.ltb_lt j (length kxs))) by lia. unfold at_. lra.
Qed.
(** One update: the new average is the mean of the old ones and the product of the fractions of
    zeros in the two quantized vectors, which are those of the outer product. *)
Theorem C83_step : forall p u lr x d mb n m s s', (2 <= mp_xb p)%Z -> (2 <= mp_db p)%Z -> mp_sparsity p = true -> lr <> 0 -> mix_sized n m s -> length x = n -> length d = m -> yields (mix_update p u lr x d mb s) s' ->
  exists qx qd, quantized (mp_xb p) (mp_stox p) x qx /\ quantized (mp_db p) (mp_stod p) d qd /\
    (~ due p mb (x_cnt s) -> forall i j, (i < m)%nat -> (j < n)%nat -> chi_at s' i j = chi_at s i j + lr * nth i qd 0 * nth j qx 0) /\
    x_avg s' * INR (x_cnt s + 1) = x_avg s * INR (x_cnt s) + sparsity_of qx qd.
Proof.
  intros p u lr x d mb n m s s' B1 B2 Sp L (Pm & Dc & Dd) Lx Ld Y. destruct (mix_update_split _ _ _ _ _ _ _ _ L Y) as (chi & kx & kd & s1 & Yo & Yt & Nt & E).
  destruct (outer_sparse p lr x d (x_chi s) chi kx kd n m B1 B2 Dc Lx Ld Yo) as (qx & qd & Qx & Qd & Kx & Kd & A). exists qx, qd. split; [exact Qx|]. split; [exact Qd|]. split.
  - intros Nd. specialize (Nt Nd). subst s1 s'. exact A.
  - assert (R : x_cnt s1 = x_cnt s /\ x_avg s1 = x_avg s). { destruct (mix_due p mb (x_cnt s)) eqn:Ed. - apply due_iff in Ed. specialize (Yt Ed). apply mix_transfer_rest in Yt as (R1 & R2 & _). auto. - assert (~ due p mb (x_cnt s)) as Nd by (intros H; apply due_iff in H; congruence). rewrite (Nt Nd). auto. }
    destruct R as [R1 R2]. subst s'. cbn [x_avg]. unfold next_avg. rewrite Sp, R1, R2. unfold sparsity_of. rewrite (proj1 Qx), (proj1 Qd), Lx, Ld.
    replace ((Z.of_nat m - Z.of_nat kd) * (Z.of_nat n - Z.of_nat kx))%Z with (Z.of_nat (zero_count qd * zero_count qx)) by (replace (Z.of_nat m - Z.of_nat kd)%Z with (Z.of_nat (zero_count qd)) by lia; replace (Z.of_nat n - Z.of_nat kx)%Z with (Z.of_nat (zero_count qx)) by lia; lia).
    rewrite <- INR_IZR_INZ. assert (INR (x_cnt s + 1) <> 0) by (apply not_0_INR; lia). unfold Rdiv at 1. rewrite Rmult_assoc, Rinv_l by auto. lra.
Qed.
(** The average sparsity is the mean over the updates since the weights were set last. *)
Theorem C83_mean : forall p n m os s s' zs, (2 <= mp_xb p)%Z -> (2 <= mp_db p)%Z -> mp_sparsity p = true -> mix_good n m s -> Forall (mop_fits n m) os ->
  x_cnt s = length zs -> x_avg s * INR (length zs) = sumR zs -> mhistory p s os s' ->
  exists zs', contributions p os zs zs' /\ x_cnt s' = length zs' /\ x_avg s' * INR (length zs') = sumR zs'.
Proof.
  intros p n m os s s' zs B1 B2 Sp. revert s zs. induction os as [|o os IH]; intros s zs G F Hc Ha Y; unfold mhistory in Y; cbn [foldMM] in Y; [apply yields_ret in Y; subst; exists zs; repeat split; auto; constructor|].
  apply yields_bind in Y as (s1 & Y1 & Y). inversion F; subst. destruct (mix_do_good p n m s o s1 G ltac:(auto) Y1) as [G1 _]. destruct o as [u lr x d mb | o].
  - cbn [mix_do] in Y1. destruct (Req_dec lr 0) as [-> | L].
    + apply C82_zero_lr in Y1. subst s1. destruct (IH s zs G ltac:(auto) Hc Ha Y) as (zs' & C & R). exists zs'. split; [now constructor | exact R].
    + destruct H1 as [Lx Ld]. destruct (C83_step p u lr x d mb n m s s1 B1 B2 Sp L (proj1 G) Lx Ld Y1) as (qx & qd & Qx & Qd & _ & E). apply mix_update_rest in Y1 as [C1 _]. rewrite (proj2 (Reqb_false _ _) L) in C1.
      destruct (IH s1 (zs ++ [sparsity_of qx qd]) G1 ltac:(auto)) as (zs' & C & R); [rewrite app_length, C1, Hc; cbn; lia | | exact Y | exists zs'; split; [econstructor; eauto | exact R]].
      rewrite app_length. cbn [length]. rewrite <- Hc, E, Hc, Ha. clear. induction zs as [|a zs IH]; cbn [app sumR]; [lra|]. cbn [app] in *. unfold sumR in *. cbn [fold_right] in *. lra.
  - destruct o as [l|al kb| |v|a b pr|w|dp dt|dl].
    6:{ apply C82_set in Y1 as (_ & _ & _ & _ & C1 & A1 & _). destruct (IH s1 [] G1 ltac:(auto)) as (zs' & C & R); [exact C1 | rewrite A1; cbn; lra | exact Y | exists zs'; split; [now constructor | exact R]]. }
    all: apply C82_others in Y1 as (_ & _ & _ & C1 & A1 & _); [|discriminate]; destruct (IH s1 zs G1 ltac:(auto)) as (zs' & C & R); [congruence | congruence | exact Y | exists zs'; split; [apply COther; [discriminate | exact C] | exact R]].
Qed.
(** It is switched off when one of the numbers of bins is not set: the average stays 0. *)
Theorem C83_off : forall p os s s', (mp_xb p <= 0 \/ mp_db p <= 0)%Z -> x_avg s = 0 -> mhistory (init_mpar p) s os s' -> x_avg s' = 0.
Proof.
  intros p os s s' B. revert s. induction os as [|o os IH]; intros s A Y; unfold mhistory in Y; cbn [foldMM] in Y; [apply yields_ret in Y; now subst|]. apply yields_bind in Y as (s1 & Y1 & Y). apply (IH s1); [|exact Y].
  destruct o as [u lr x d mb | o].
  - cbn [mix_do] in Y1. destruct (Req_dec lr 0) as [-> | L]; [apply C82_zero_lr in Y1; now subst|]. destruct (mix_update_split _ _ _ _ _ _ _ _ L Y1) as (chi & kx & kd & s2 & _ & Yt & Nt & E). subst s1. cbn [x_avg]. unfold next_avg. replace (mp_sparsity (init_mpar p)) with false.
    + destruct (mix_due (init_mpar p) mb (x_cnt s)) eqn:Ed. * apply due_iff in Ed. specialize (Yt Ed). apply mix_transfer_rest in Yt as (_ & R2 & _). rewrite R2. exact A. * assert (~ due (init_mpar p) mb (x_cnt s)) as Nd by (intros H; apply due_iff in H; congruence). rewrite (Nt Nd). exact A.
    + cbn. destruct (Z.leb_spec (mp_db p) 0), (Z.leb_spec (mp_xb p) 0); cbn; auto; lia.
  - destruct o as [l|al kb| |v|a b pr|w|dp dt|dl]; try (apply C82_others in Y1 as (_ & _ & _ & _ & A1 & _); [congruence | discriminate]). apply C82_set in Y1. tauto.
Qed.

(** ** Examples *)
(** The sparsity is not the fraction of zeros of the outer product: half of its elements are 0 here,
    but the reported value is 0. *)
Definition sp_par : mpar := {| mp_xb := 2; mp_db := 2; mp_stox := false; mp_stod := false; mp_every := 1; mp_rows := -1; mp_random := false; mp_lr := 1; mp_gran := 1/10; mp_sparsity := true |}.
Definition sp_state : mstate := {| x_part := (mt0, {| d_cells := [[cell0 0; cell0 0]; [cell0 0; cell0 0]]; d_now := 0; d_fresh := true |}); x_chi := [[0; 0]; [0; 0]]; x_gran := 1/10; x_row := 0; x_cnt := 0; x_avg := 0 |}.
Lemma sp_good : mix_good 2 2 sp_state.
Proof. repeat split; cbn; try lia; lra. Qed.
Lemma q2_unique v q : (forall k, (k < length v)%nat -> nth k v 0 = 0 \/ nth k v 0 = 1 \/ nth k v 0 = -1) -> maxabs v = 1 -> quantized 2 false v q -> q = v.
Proof.
  intros Hv Mv [Lq H]. cbn [Z.leb Z.compare] in H. cbv zeta in H. rewrite Mv in H. change (2 / 2)%Z with 1%Z in H. replace (1 / IZR 1) with 1 in H by lra. apply (nth_ext _ _ 0 0 Lq). intros k Lk. destruct (H k) as ((z & Ez) & _ & Hk). rewrite Rmult_1_r in Ez. rewrite Lq in Lk.
  specialize (Hv k Lk). rewrite Ez in *. assert (exists y, nth k v 0 = IZR y) as [y Ey] by (destruct Hv as [-> | [-> | ->]]; [now exists 0%Z | now exists 1%Z | now exists (-1)%Z]). rewrite Ey in *. f_equal. rewrite <- minus_IZR, <- abs_IZR in Hk. assert (X : IZR (Z.abs (z - y)) < IZR 1) by lra. apply lt_IZR in X. lia.
Qed.
Theorem C83_zeros_refuted : forall u, (exists s', yields (mix_update sp_par u 1 [0; 1] [1; 1] 1 sp_state) s') /\
  forall s', yields (mix_update sp_par u 1 [0; 1] [1; 1] 1 sp_state) s' -> x_avg s' = 0 /\ chi_at s' 0 0 = 0 /\ chi_at s' 1 0 = 0 /\ chi_at s' 0 1 = 1 /\ chi_at s' 1 1 = 1.
Proof.
  intros u. split.
  - apply total_yields. unfold mix_update. rewrite (proj2 (Reqb_false 1 0)) by lra. apply total_bind; [|intros [[chi kx] kd] _; cbv zeta; unfold mix_due; cbn; apply total_ret]. unfold outer. cbn [sp_par mp_db mp_xb mp_stox mp_stod]. cbv zeta. cbn [Z.leb Z.eqb andb orb Z.compare Pos.eqb]. cbn [mapMM to_bin bindM]. apply total_ret.
  - intros s' Y. assert (Nd : ~ due sp_par 1 (x_cnt sp_state)) by (intros (_ & H & _); cbn in H; lia).
    destruct (C83_step sp_par u 1 [0; 1] [1; 1] 1 2 2 sp_state s') as (qx & qd & Qx & Qd & C & E); auto; try reflexivity; try (cbn; lia); try lra; [apply sp_good|].
    assert (M1 : maxabs [0; 1] = 1) by (unfold maxabs; cbn; rewrite Rabs_R0, Rabs_R1; mm). assert (M2 : maxabs [1; 1] = 1) by (unfold maxabs; cbn; rewrite Rabs_R1; mm).
    apply q2_unique in Qx; [|intros [|[|k]] Hk; cbn in *; auto; lia|exact M1]. apply q2_unique in Qd; [|intros [|[|k]] Hk; cbn in *; auto; lia|exact M2]. subst qx qd.
    split. { unfold sparsity_of, zero_count in E. cbn [filter] in E. rewrite (proj2 (Reqb_false 1 0)) in E by lra. cbn in E. lra. }
    specialize (C Nd). unfold chi_at in *. rewrite !C by lia. cbn. repeat split; lra.
Qed.

Print Assumptions C82_set.
Print Assumptions C82_others.
Print Assumptions C82_zero_lr.
Print Assumptions C82_new.
Print Assumptions C82_reload.
Print Assumptions C83_step.
Print Assumptions C83_mean.
Print Assumptions C83_off.
Print Assumptions C83_zeros_refuted.
