(** * The pulse response of the soft bounds device with [p_max] (C184) *)
From Verif Require Import Prelude Rand DevModel DevSpec DevProofs DevProps PmxModel.

(** no variation from device to device *)
Definition nominal (q : ppar) : Prop :=
  pp_wmin_dtod q = 0 /\ pp_wmax_dtod q = 0 /\ pp_dwmin_dtod q = 0 /\ pp_updown_dtod q = 0 /\ pp_corrupt q <= 0 /\ pp_adjust q = false /\ pp_perfect_bias q = false.
(** a sensible device: positive slope and number of pulses, zero is between the bounds, and a pulse does not jump over the
    bound *)
Definition sensible (d : pmax) : Prop :=
  0 < px_alpha d /\ (0 < px_p d)%Z /\ px_lo d < 0 < px_hi d /\ 2 * px_alpha d < 1 /\ b_factor d * px_alpha d < - px_lo d /\ b_factor d * px_alpha d < px_lo d + b_factor d.
(** the relative step sizes *)
Definition rate_up (d : pmax) : R := if Rltb 0 (b_factor d + 2 * px_lo d) then b_factor d * px_alpha d / (px_lo d + b_factor d) else 2 * px_alpha d.
Definition rate_dn (d : pmax) : R := if Rltb 0 (b_factor d + 2 * px_lo d) then 2 * px_alpha d else b_factor d * px_alpha d / - px_lo d.

Lemma b_pos d : sensible d -> px_hi d - px_lo d < b_factor d.
Proof.
  intros (A & P & L & _). unfold b_factor. apply IZR_lt in P. assert (X : - IZR (px_p d) * px_alpha d < 0) by nra. pose proof (exp_increasing _ _ X) as Y. rewrite exp_0 in Y. pose proof (exp_pos (- IZR (px_p d) * px_alpha d)) as Z. set (e := exp _) in *. apply (Rmult_lt_reg_r (1 - e)); [lra|]. unfold Rdiv. rewrite Rmult_assoc, Rinv_l by lra. nra.
Qed.
Lemma div_lt1 a b : 0 < b -> a < b -> a / b < 1.
Proof. intros B H. apply (Rmult_lt_reg_r b); [lra|]. unfold Rdiv. rewrite Rmult_assoc, Rinv_l; lra. Qed.
Lemma lt_div a b c : 0 < b -> c * b < a -> c < a / b.
Proof. intros B H. apply (Rmult_lt_reg_r b); [lra|]. unfold Rdiv. rewrite Rmult_assoc, Rinv_l; lra. Qed.
Lemma rates d : sensible d -> px_alpha d < rate_up d < 1 /\ px_alpha d < rate_dn d < 1.
Proof.
  intros Hs. pose proof (b_pos d Hs) as B. destruct Hs as (A & P & L & A2 & S1 & S2). unfold rate_up, rate_dn. destruct (Rltb 0 (b_factor d + 2 * px_lo d)) eqn:E; [apply Rltb_true in E | apply Rltb_false in E].
  - split; [split; [apply lt_div; nra | apply div_lt1; lra] | lra].
  - split; [lra|]. split; [apply lt_div; nra | apply div_lt1; lra].
Qed.
Lemma cell_params d q mult last x r : nominal q -> sensible d -> yields (pmax_cell d q mult last) (x, r) ->
  x_max x = px_lo d + b_factor d /\ x_min x = px_lo d /\ x_up x / x_max x = rate_up d /\ x_dn x / - x_min x = rate_dn d /\ 0 <= x_up x /\ 0 <= x_dn x.
Proof.
  intros (N1 & N2 & N3 & N4 & N5 & N6 & N7) Hs Y. pose proof (b_pos d Hs) as B. destruct Hs as (A & P & L & A2 & S1 & S2).
  unfold pmax_cell, populate_lin in Y. apply yields_bind in Y as (x' & Yx & Y). assert (x' = x). { cbn [lp_rev_up lp_rev_dn soft_lpar orb andb] in Y. unfold gauss in Y. ysimp. inversion Y; reflexivity. } subst x'.
  assert (U : 1 + 2 * px_lo d / b_factor d = (b_factor d + 2 * px_lo d) / b_factor d) by (field; lra).
  destruct (C51_nominal (as_soft_bounds d q) last x) as (X1 & X2 & X3 & X4); cbn [as_soft_bounds pp_wmin_dtod pp_wmax_dtod pp_dwmin_dtod pp_updown_dtod pp_corrupt pp_adjust pp_perfect_bias pp_dwmin pp_updown]; try assumption; [nra | rewrite U; split; apply (Rmult_le_reg_r (b_factor d)); try lra; unfold Rdiv; rewrite Rmult_assoc, Rinv_l; lra|].
  cbn [as_soft_bounds pp_wmax pp_wmin pp_updown pp_dwmin] in X1, X2, X3, X4. rewrite U in X3. assert (X5 : x_up x - x_dn x = (b_factor d + 2 * px_lo d) * px_alpha d) by (rewrite X3; field; lra). unfold rate_up, rate_dn. rewrite X1, X2. destruct (Rltb 0 (b_factor d + 2 * px_lo d)) eqn:E; [apply Rltb_true in E | apply Rltb_false in E].
  - assert (x_dn x < x_up x) by nra. rewrite Rmax_left in X4 by lra. assert (D : x_dn x = - 2 * px_lo d * px_alpha d) by lra. rewrite X4, D. repeat split; try nra. field. lra.
  - assert (x_up x <= x_dn x) by nra. rewrite Rmax_right in X4 by lra. assert (D : x_up x = 2 * (px_lo d + b_factor d) * px_alpha d) by lra. rewrite X4, D. repeat split; try nra. field. lra.
Qed.
(** C184: without noise and variation the weight after [n] up pulses, and after [n] down pulses, from any weight *)
Theorem C184_response d q mult last x r mt n c c' : nominal q -> sensible d -> yields (pmax_cell d q mult last) (x, r) ->
  c_x c = x -> c_rule c = r -> accepted mt c -> m_std mt = 0 -> px_lo d <= stored mt c <= px_lo d + b_factor d ->
  (yields (pulses mt n false c) c' -> stored mt c' = px_lo d + b_factor d - (px_lo d + b_factor d - stored mt c) * (1 - rate_up d) ^ n) /\
  (yields (pulses mt n true c) c' -> stored mt c' = px_lo d + (stored mt c - px_lo d) * (1 - rate_dn d) ^ n).
Proof.
  intros Nq Hs Y Ex Er Ac Sd W. destruct (cell_params _ _ _ _ _ _ Nq Hs Y) as (X1 & X2 & X3 & X4 & X5 & X6). pose proof (rates d Hs) as [[R1 R2] [R3 R4]]. pose proof (b_pos d Hs) as B. destruct Hs as (A & P & L & A2 & S1 & S2).
  destruct (C53_soft_bounds _ _ _ x r mt n c c' Y Ex Er Ac Sd) as [H1 H2]; [lra | lra|]. rewrite X1, X2 in *. split; intros Yn.
  - rewrite X3 in H1. assert (G : 0 <= x_up x <= px_lo d + b_factor d). { split; [exact X5|]. assert (x_up x = rate_up d * (px_lo d + b_factor d)) by (rewrite <- X3; field; lra). nra. } specialize (H1 G Yn). lra.
  - rewrite X4 in H2. assert (G : 0 <= x_dn x <= - px_lo d). { split; [exact X6|]. assert (x_dn x = rate_dn d * - px_lo d) by (rewrite <- X4; field; lra). nra. } specialize (H2 G Yn). lra.
Qed.
Lemma pow_exp s : 0 < s < 1 -> forall n, (1 - s) ^ n <= exp (- s * INR n).
Proof.
  intros S n. induction n as [|n IH]; [cbn; replace (- s * 0) with 0 by ring; rewrite exp_0; lra|]. rewrite S_INR. replace (- s * (INR n + 1)) with (- s + - s * INR n) by ring. rewrite exp_plus. cbn [pow]. assert (1 - s <= exp (- s)). { left. pose proof (exp_ineq1 (- s)) as X. assert (- s <> 0) by lra. specialize (X H). lra. } apply Rmult_le_compat; try lra. apply pow_le; lra.
Qed.
Lemma pow_doc d s n : 0 < px_alpha d < s -> s < 1 -> (0 < n)%nat -> (1 - s) ^ n < exp (- px_alpha d * INR n).
Proof. intros A S N. eapply Rle_lt_trans; [apply pow_exp; lra|]. apply exp_increasing. apply lt_0_INR in N. nra. Qed.
(** The documented response is that of the parameters: it starts at [range_min] and is at [range_max] after [p_max]
    pulses, and back *)
Lemma documented_ends d n : sensible d -> IZR (px_p d) = INR n -> documented_up d 0 = px_lo d /\ documented_up d n = px_hi d /\ documented_down d n = px_lo d.
Proof.
  intros (A & P & L & _) E. unfold documented_up, documented_down. assert (X : b_factor d * (1 - exp (- px_alpha d * INR n)) = px_hi d - px_lo d). { unfold b_factor. rewrite E. replace (- px_alpha d * INR n) with (- INR n * px_alpha d) by ring. field. apply IZR_lt in P. assert (Y : - INR n * px_alpha d < 0) by nra. pose proof (exp_increasing _ _ Y) as Z. rewrite exp_0 in Z. lra. }
  split; [cbn; replace (- px_alpha d * 0) with 0 by ring; rewrite exp_0; ring|]. split; [rewrite X; ring|]. rewrite Ropp_mult_distr_l_reverse, X. ring.
Qed.
(** C184: refuted, that the device has the documented response: up pulses always overshoot it (so that after [p_max]
    pulses from [range_min] the weight is beyond [range_max]) and [p_max] down pulses from [range_max] never reach
    [range_min]; the two directions differ *)
Theorem C184_documented_refuted d q mult last x r mt n c c' : nominal q -> sensible d -> yields (pmax_cell d q mult last) (x, r) ->
  c_x c = x -> c_rule c = r -> accepted mt c -> m_std mt = 0 -> (0 < n)%nat ->
  (stored mt c = px_lo d -> yields (pulses mt n false c) c' -> documented_up d n < stored mt c' /\ (IZR (px_p d) = INR n -> px_hi d < stored mt c')) /\
  (stored mt c = px_hi d -> yields (pulses mt n true c) c' -> px_lo d < stored mt c' /\ (IZR (px_p d) = INR n -> documented_down d n < stored mt c')).
Proof.
  intros Nq Hs Y Ex Er Ac Sd Hn. pose proof (rates d Hs) as [[R1 R2] [R3 R4]]. pose proof (b_pos d Hs) as B. assert (Hs' := Hs). destruct Hs' as (A & P & L & A2 & S1 & S2). split; intros Ew Yn.
  - destruct (C184_response d q mult last x r mt n c c' Nq Hs Y Ex Er Ac Sd) as [H _]; [lra|]. specialize (H Yn). rewrite Ew in H. assert (G : documented_up d n < stored mt c'). { rewrite H. unfold documented_up. pose proof (pow_doc d (rate_up d) n (conj A R1) R2 Hn). nra. } split; [exact G|]. intros E. destruct (documented_ends d n Hs E) as (_ & E2 & _). lra.
  - destruct (C184_response d q mult last x r mt n c c' Nq Hs Y Ex Er Ac Sd) as [_ H]; [lra|]. specialize (H Yn). rewrite Ew in H. assert (G : px_lo d < stored mt c'). { rewrite H. assert (0 < (1 - rate_dn d) ^ n) by (apply pow_lt; lra). nra. } split; [exact G|]. intros E. destruct (documented_ends d n Hs E) as (_ & _ & E2). lra.
Qed.
(** beyond the bounds of the range, the device cannot be built *)
Theorem C184_refused d q mult last : (0 < px_lo d \/ px_lo d + b_factor d < 0) -> throws (pmax_cell d q mult last) RuntimeError.
Proof.
  intros H. unfold pmax_cell, populate_lin, populate. cbn [as_soft_bounds pp_wmin pp_wmax]. replace (Rltb 0 (px_lo d) || Rltb (px_lo d + b_factor d) 0)%bool with true; [cbn [bindM]; constructor|]. symmetry. apply orb_true_iff. destruct H; [left | right]; now apply Rltb_true.
Qed.
(** the parameters of the documentation: [p_max = 1000], [alpha = 0.0005], range from -1 to 1 *)
Definition default_pmax : pmax := {| px_p := 1000; px_alpha := 5 / 10000; px_lo := -1; px_hi := 1 |}.
Theorem C184_nontrivial : sensible default_pmax.
Proof.
  assert (E : - IZR 1000 * (5 / 10000) = - (1 / 2)) by lra. assert (B : 2 < b_factor default_pmax < 8). { unfold b_factor. cbn [px_hi px_lo px_p px_alpha default_pmax]. rewrite E. pose proof (exp_ineq1 (- (1 / 2))) as X. assert (N : - (1 / 2) <> 0) by lra. specialize (X N). pose proof (exp_ineq1 (1 / 2)) as Z. assert (N2 : 1 / 2 <> 0) by lra. specialize (Z N2). assert (Y : exp (- (1 / 2)) < 2 / 3). { rewrite exp_Ropp. apply (Rmult_lt_reg_r (exp (1 / 2))); [lra|]. rewrite Rinv_l; lra. } set (e := exp (- (1 / 2))) in *. replace (1 - -1) with 2 by lra. split.
    - apply lt_div; lra. - apply (Rmult_lt_reg_r (1 - e)); [lra|]. unfold Rdiv. rewrite Rmult_assoc, Rinv_l; lra. }
  unfold sensible. cbn [px_hi px_lo px_p px_alpha default_pmax] in *. repeat split; try lra; lia.
Qed.
Print Assumptions C184_response.
Print Assumptions C184_documented_refuted.
Print Assumptions C184_refused.

Print Assumptions C184_nontrivial.
