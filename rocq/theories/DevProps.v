(** * Pulsed devices: the theorems *)
From Verif Require Import Prelude Rand DevModel DevSpec DevProofs.

(** C51: whatever the device-to-device variation draws, the bounds of every cross point of a new
    device are in order, the decay factor is between 0 and 1, the diffusion rate not negative ... *)
Theorem C51_parameters_valid : forall p last x, yields (populate p last) x ->
  x_min x <= x_max x /\ 0 <= x_decay x <= 1 /\ 0 <= x_diff x.
Proof.
  intros p last x Y. apply populate_inv in Y as (mx & mn & up & dn & dec & g5 & g6 & Hw & Hq & Hdec & ->). cbn.
  split; [|split; [|apply Rabs_pos]].
  - destruct Hq as [(_ & _ & -> & -> & _) | (_ & g1 & g2 & g3 & g4 & u & _ & [(_ & E) | (_ & _ & _ & -> & _)])]; try lra.
    change (q_min (mx, mn, up, dn) <= q_max (mx, mn, up, dn)). rewrite E. unfold draw_q. apply adjust_order, bounds_order.
  - destruct Hdec as [-> | (t & -> )]; [lra|]. destruct (Rltb 1 t) eqn:E; [|lra]. apply Rltb_true in E.
    assert (0 < 1 / t < 1); [|lra]. split; [apply Rdiv_lt_0_compat; lra|]. apply (Rmult_lt_reg_r t); [lra|]. unfold Rdiv. rewrite Rmult_assoc, Rinv_l; lra.
Qed.
(** ... if consistency is enforced and the device is not corrupt, zero is between the bounds and
    the step sizes are not negative ... *)
Theorem C51_consistent : forall p last x, pp_consistent p = true -> pp_corrupt p <= 0 -> 0 <= pp_dwmin p ->
  yields (populate p last) x -> x_min x <= 0 <= x_max x /\ 0 <= x_up x /\ 0 <= x_dn x.
Proof.
  intros p last x Hc Hr Hd Y. apply populate_inv in Y as (mx & mn & up & dn & dec & g5 & g6 & Hw & Hq & _ & ->). cbn.
  destruct Hq as [(_ & _ & -> & -> & -> & ->) | (_ & g1 & g2 & g3 & g4 & u & Hu & [(_ & E) | (C & _)])]; [lra| |lra].
  change (q_min (mx, mn, up, dn) <= 0 <= q_max (mx, mn, up, dn) /\ 0 <= q_up (mx, mn, up, dn) /\ 0 <= q_dn (mx, mn, up, dn)). rewrite E.
  unfold draw_q. cbv zeta. match goal with |- context [pop_bounds p ?a ?b ?c ?d] => destruct (bounds_zero p a b c d Hc) as (Z1 & Z2 & Z3) end.
  destruct (adjust_zero p _ Z1) as (A1 & A2 & A3). rewrite A2, A3. auto.
Qed.
(** ... bounds that exclude zero are refused, and nothing else is ... *)
Theorem C51_refused : forall p last e, throws (populate p last) e <-> e = RuntimeError /\ (0 < pp_wmin p \/ pp_wmax p < 0).
Proof.
  intros p last e. unfold populate. destruct (Rltb 0 (pp_wmin p) || Rltb (pp_wmax p) 0)%bool eqn:E.
  - assert (0 < pp_wmin p \/ pp_wmax p < 0) as B by (apply orb_prop in E as [E | E]; apply Rltb_true in E; auto).
    split; [intros T; inversion T; subst; auto | intros [-> _]; constructor].
  - apply orb_false_elim in E as [E1 E2]. apply Rltb_false in E1, E2. split; [|intros [_ [B | B]]; lra].
    intros T. exfalso. revert T. cbv zeta.
    assert (TG : total gauss) by (apply total_gauss; intros; apply total_ret). assert (TU : total unif) by (apply total_unif; intros; apply total_ret).
    match goal with |- throws ?m e -> False => enough (Tm : total m) by exact (Tm e) end.
    do 4 (apply total_bind; [apply TG | intros ? _]). apply total_bind; [apply TU | intros u _].
    apply total_bind.
    { destruct (Rltb u _); [|apply total_ret]. destruct (pop_adjust p _) as [[[? ?] ?] ?]. apply total_bind; [apply TU | intros; apply total_ret]. }
    intros q2 _. destruct (if (pp_perfect_bias p && last)%bool then _ else _) as [[[? ?] ?] ?].
    do 2 (apply total_bind; [apply TG | intros ? _]). apply total_bind; [|intros; apply total_ret].
    destruct (Rltb 0 (pp_lifetime p)); [|apply total_ret]. apply total_bind; [apply TG | intros; apply total_ret].
Qed.
(** ... without variation the parameters are the nominal ones, where [up_down] is the relative
    difference between the step sizes ... *)
Theorem C51_nominal : forall p last x, pp_wmin_dtod p = 0 -> pp_wmax_dtod p = 0 -> pp_dwmin_dtod p = 0 -> pp_updown_dtod p = 0 ->
  pp_corrupt p <= 0 -> pp_adjust p = false -> pp_perfect_bias p = false -> 0 <= pp_dwmin p -> -1 <= pp_updown p <= 1 ->
  yields (populate p last) x ->
  x_max x = pp_wmax p /\ x_min x = pp_wmin p /\ x_up x - x_dn x = pp_updown p * pp_dwmin p /\ Rmax (x_up x) (x_dn x) = pp_dwmin p.
Proof.
  intros p last x V1 V2 V3 V4 Hc Ha Hb Hd Hu Y. apply populate_inv in Y as (mx & mn & up & dn & dec & g5 & g6 & Hw & Hq & _ & ->). cbn [x_max x_min x_up x_dn].
  destruct Hq as [(P & _) | (_ & g1 & g2 & g3 & g4 & u & Hu1 & [(_ & E) | (C & _)])]; [congruence| |lra].
  unfold draw_q, pop_adjust in E. rewrite Ha in E. cbv zeta in E.
  assert (G : gain_of p g3 = 1) by (unfold gain_of; rewrite V3; destruct (pp_lognormal p); rewrite Rmult_0_l; [apply exp_0 | lra]). rewrite G, V1, V2, V4 in E.
  rewrite !Rmult_0_l, !Rplus_0_r, !Rminus_0_r, !Rmult_1_r in E. unfold pop_bounds in E.
  assert (L : Rltb (pp_wmax p) (pp_wmin p) = false) by (apply Rltb_false; lra). rewrite L in E.
  set (ub := (if Rltb 0 (pp_updown p) then 0 else pp_updown p) + 1) in *. set (db := (if Rltb 0 (pp_updown p) then - pp_updown p else 0) + 1) in *.
  assert (Bu : 0 <= ub /\ 0 <= db /\ ub - db = pp_updown p /\ Rmax ub db = 1).
  { unfold ub, db. destruct (Rltb 0 (pp_updown p)) eqn:L0; [apply Rltb_true in L0 | apply Rltb_false in L0]; repeat split; try lra; mm. }
  destruct Bu as (B1 & B2 & B3 & B4).
  assert (E2 : mx = pp_wmax p /\ mn = pp_wmin p /\ up = ub * pp_dwmin p /\ dn = db * pp_dwmin p).
  { destruct (pp_consistent p); injection E as -> -> -> ->; auto.
    rewrite (Rabs_right (pp_wmax p)), (Rabs_left1 (pp_wmin p)), (Rabs_right (ub * _)), (Rabs_right (db * _)) by nra. repeat split; lra. }
  destruct E2 as (-> & -> & -> & ->). repeat split; [rewrite <- B3; ring|].
  rewrite !(Rmult_comm _ (pp_dwmin p)), RmaxRmult, B4 by lra. ring.
Qed.
(** ... a corrupt device has a single possible weight, within [corrupt_devices_range], and steps
    of size zero ... *)
Theorem C51_corrupt : forall p last x, 1 < pp_corrupt p -> (pp_perfect_bias p && last)%bool = false -> pp_consistent p = true ->
  yields (populate p last) x -> x_max x = x_min x /\ x_up x = 0 /\ x_dn x = 0 /\ Rabs (x_max x) <= Rabs (pp_corrupt_range p).
Proof.
  intros p last x Hc Hb Hk Y. apply populate_inv in Y as (mx & mn & up & dn & dec & g5 & g6 & Hw & Hq & _ & ->). cbn [x_max x_min x_up x_dn].
  destruct Hq as [(P & Q & _) | (_ & g1 & g2 & g3 & g4 & u & Hu1 & [(C & _) | (_ & U & D & M & u2 & Hu2 & E)])]; [rewrite P, Q in Hb; discriminate|lra|].
  subst. repeat split; auto.
  assert (Z : q_min (draw_q p g1 g2 g3 g4) <= 0 <= q_max (draw_q p g1 g2 g3 g4)).
  { unfold draw_q. cbv zeta. match goal with |- context [pop_bounds p ?a ?b ?c ?d] => destruct (bounds_zero p a b c d Hk) as (Z1 & _) end. exact (proj1 (adjust_zero p _ Z1)). }
  pose proof (Rabs_pos (pp_corrupt_range p)). set (r := Rabs (pp_corrupt_range p)) in *.
  set (lo := Rmax (q_min _) _). set (hi := Rmin (q_max _) _).
  assert (- r <= lo <= 0) by (unfold lo; mm). assert (0 <= hi <= r) by (unfold hi; mm). apply Rabs_le. nra.
Qed.
(** ... and the last column with [perfect_bias] has no variation and 100 times larger bounds. *)
Theorem C51_perfect_bias : forall p x, pp_perfect_bias p = true -> yields (populate p true) x ->
  x_max x = 100 * pp_wmax p /\ x_min x = 100 * pp_wmin p /\ x_up x = pp_dwmin p /\ x_dn x = pp_dwmin p.
Proof.
  intros p x Hp Y. apply populate_inv in Y as (mx & mn & up & dn & dec & g5 & g6 & Hw & Hq & _ & ->). cbn.
  destruct Hq as [(_ & _ & -> & -> & -> & ->) | (E & _)]; [auto | rewrite Hp in E; discriminate].
Qed.
Definition ex_ppar : ppar :=
  {| pp_dwmin := 1/1000; pp_dwmin_dtod := 3/10; pp_lognormal := false; pp_wmin := -6/10; pp_wmin_dtod := 3/10; pp_wmax := 6/10; pp_wmax_dtod := 3/10;
     pp_updown := 0; pp_updown_dtod := 1/100; pp_lifetime := 100; pp_lifetime_dtod := 1/10; pp_diff := 0; pp_diff_dtod := 0; pp_consistent := true;
     pp_perfect_bias := false; pp_corrupt := 0; pp_corrupt_range := 1000; pp_reset := 0; pp_reset_dtod := 0; pp_adjust := false; pp_adjust_dev := 1/10 |}.
Example C51_example : exists x, yields (populate ex_ppar false) x /\ x_max x = 78/100 /\ x_min x = -6/10.
Proof.
  eexists. split.
  - unfold populate, ex_ppar, gauss, unif. cbn [pp_wmin pp_wmax pp_updown pp_lognormal pp_dwmin pp_dwmin_dtod pp_wmin_dtod pp_wmax_dtod pp_updown_dtod pp_corrupt pp_perfect_bias andb pp_lifetime pp_lifetime_dtod pp_reset pp_reset_dtod pp_diff pp_diff_dtod].
    assert (E : (Rltb 0 (-6/10) || Rltb (6/10) 0)%bool = false) by (rewrite (proj2 (Rltb_false _ _)), (proj2 (Rltb_false _ _)) by lra; auto). rewrite E. cbv zeta.
    cbn [bindM]. apply (y_gauss _ 1). apply (y_gauss _ 0). apply (y_gauss _ 0). apply (y_gauss _ 0). apply (y_unif _ 0); [lra|].
    rewrite (proj2 (Rltb_false 0 0)) by lra. cbn [bindM].
    unfold pop_adjust, pop_bounds. cbn [pp_adjust pp_consistent]. rewrite (proj2 (Rltb_false (6/10 * _) _)) by lra. cbn [bindM].
    apply (y_gauss _ 0). apply (y_gauss _ 0). rewrite (proj2 (Rltb_true 0 100)) by lra. cbn [bindM]. apply (y_gauss _ 0). apply y_ret.
  - cbn. split; [rewrite Rabs_right; lra | rewrite Rabs_left; lra].
Qed.

(** C52: in any history of pulses, decay, diffusion, clipping, resets, setting of weights, drift
    and floating point updates every stored weight stays in the range of its cross point: for
    devices without a reference these are the bounds ... *)
Theorem C52_bounds_kept : forall mt os d d', history mt d os d' ->
  every (fun c => accepted mt c /\ x_min (c_x c) <= x_max (c_x c) /\ hidden_ok mt c /\ (forall o, In o os -> clip_ok c o)) d ->
  every (fun c => in_range c (stored mt c)) d -> every (fun c => in_range c (stored mt c)) d'.
Proof.
  intros mt os d d' H W I i j c E. apply (keeps_history mt os d d') with (i := i) (j := j) (c := c); auto.
  intros i' j' c' E'. destruct (W _ _ _ E') as (A & B & C & D). exact (conj A (conj B (conj C (conj D (I _ _ _ E'))))).
Qed.
Theorem C52_range_is_bounds : forall c w, ~ has_ref (c_rule c) -> (in_range c w <-> x_min (c_x c) <= w <= x_max (c_x c)).
Proof.
  intros c w H. unfold in_range. assert (reference (c_rule c) = 0) as -> by (destruct (c_rule c); auto; exfalso; apply H; exact I).
  rewrite (Rmax_left 0 0), (Rmin_left 0 0) by lra. rewrite !Rminus_0_r. tauto.
Qed.
(** ... setting the weights brings them into the bounds whatever they were before ... *)
Theorem C52_set_weights : forall mt d w d' i j c', yields (do_op mt d (OSet w)) d' -> cell_at (d_cells d') i j = Some c' ->
  x_min (c_x c') <= x_max (c_x c') ->
  x_min (c_x c') <= stored mt c' <= x_max (c_x c') /\ (x_min (c_x c') <= nth j (nth i w []) 0 <= x_max (c_x c') -> stored mt c' = nth j (nth i w []) 0).
Proof.
  intros mt d w d' i j c' Y E O. cbn [do_op] in Y. ysimp. cbn [d_cells with_cells] in E. unfold cell_at in E.
  apply yields_mapMM in Y0. pose proof (F2_nth _ _ _ i Y0) as N. destruct (nth_error a i) as [row'|] eqn:Ei; [|discriminate].
  destruct (nth_error (combine (d_cells d) w) i) as [[row ws]|] eqn:Ec; [|contradiction].
  apply yields_mapMM in N. pose proof (F2_nth _ _ _ j N) as N2. rewrite E in N2. cbn [fst snd] in N2.
  destruct (nth_error (combine row ws) j) as [[c0 w0]|] eqn:E2; [|contradiction]. cbn [fst snd] in N2.
  assert (R1 : nth i w [] = ws) by (clear -Ec; revert w i Ec; induction (d_cells d); intros [|? ?] [|?]; simpl; intros; try discriminate; [congruence | eauto]).
  assert (R2 : nth j ws 0 = w0) by (clear -E2; revert ws j E2; induction row; intros [|? ?] [|?]; simpl; intros; try discriminate; [congruence | eauto]).
  rewrite R1, R2. apply set_cell_stored in N2 as (-> & X & _). rewrite X in *. split; [now apply bnd_within | intros W; now apply bnd_id].
Qed.
(** ... the parameters of a cross point never change ... *)
Theorem C52_parameters_constant : forall mt os d d' i j c', history mt d os d' -> cell_at (d_cells d') i j = Some c' ->
  exists c, cell_at (d_cells d) i j = Some c /\ c_x c' = c_x c /\ c_rule c' = c_rule c.
Proof.
  intros mt os d d' i j c' H E.
  apply (params_history mt os (fun i j x r => exists c, cell_at (d_cells d) i j = Some c /\ x = c_x c /\ r = c_rule c) d d'); auto.
  intros i' j' c0 E0. eauto.
Qed.
(** ... so a corrupt device never moves. *)
Theorem C52_corrupt_stuck : forall mt os d d' i j c c', history mt d os d' ->
  every (fun c => accepted mt c /\ x_min (c_x c) <= x_max (c_x c) /\ hidden_ok mt c /\ (forall o, In o os -> clip_ok c o) /\ in_range c (stored mt c)) d ->
  cell_at (d_cells d) i j = Some c -> cell_at (d_cells d') i j = Some c' ->
  x_min (c_x c) = x_max (c_x c) -> ~ has_ref (c_rule c) -> stored mt c' = stored mt c.
Proof.
  intros mt os d d' i j c c' H W E E' Q NR. destruct (C52_parameters_constant _ _ _ _ _ _ _ H E' ) as (c0 & E0 & Ex & Er). rewrite E in E0. injection E0 as <-.
  assert (I' : in_range c' (stored mt c')).
  { apply (C52_bounds_kept mt os d d' H) with (i := i) (j := j); auto; intros a b e Hc; destruct (W a b e Hc) as (A1 & A2 & A3 & A4 & A5); auto. }
  destruct (W _ _ _ E) as (_ & _ & _ & _ & I). apply C52_range_is_bounds in I; auto. apply C52_range_is_bounds in I'; [|now rewrite Er]. rewrite Ex in I'. lra.
Qed.
(** Clipping to an interval outside the bounds moves the weight out of them: bounds [-0.9, -0.5],
    clip value 0.1. *)
Definition bounds (mn mx up dn : R) : xp := {| x_max := mx; x_min := mn; x_up := up; x_dn := dn; x_decay := 1; x_diff := 0; x_rbias := 0 |}.
Definition at_w (x : xp) (r : rule) (w h : R) : cell := {| c_x := x; c_rule := r; c_w := w; c_p := 0; c_h := h; c_prev := 0; c_w0 := 0; c_t := 0; c_nu := 0 |}.
Definition one (c : cell) : dev := {| d_cells := [[c]]; d_now := 0; d_fresh := true |}.
Definition quiet (std : R) : meta := {| m_dwmin := 1/10; m_std := std; m_wn := 0; m_wn_on_set := false; m_rstd := 0 |}.
Theorem C52_clip_refuted : exists d d', every (fun c => accepted (quiet 0) c /\ within (c_x c) (stored (quiet 0) c)) d /\
  history (quiet 0) d [OClip (1/10)] d' /\ exists c, cell_at (d_cells d') 0 0 = Some c /\ stored (quiet 0) c > x_max (c_x c).
Proof.
  exists (one (at_w (bounds (-9/10) (-5/10) 1 1) RConst (-7/10) 0)). eexists. split; [|split].
  - intros [|[|i]] [|[|j]] c; unfold cell_at; cbn; try discriminate; try (destruct i; discriminate). intros [= <-]. unfold accepted, within, stored. cbn. rcase; [lra|]. split; [split; [lra | intros; lra] | lra].
  - unfold history. cbn. assert (P : persist (quiet 0) = false) by (unfold persist; cbn; apply Rltb_false; lra).
    unfold clip_cell, renoise. rewrite P. rewrite andb_false_r. cbn. rewrite ?andb_false_r. constructor.
  - eexists. split; [reflexivity|]. unfold stored, set_cur, cur. cbn.
    assert (P : persist (quiet 0) = false) by (unfold persist; cbn; apply Rltb_false; lra). assert (P0 : Rltb 0 0 = false) by (apply Rltb_false; lra).
    rewrite P, P0. cbn. rcase; [lra|]. mm.
Qed.
(** With a reference weight the bounds hold for the sum, not for the weight: bounds [-1, 1],
    reference 0.5, a weight of -0.9 is moved to -1.5 by a pulse. *)
Theorem C52_reference_refuted : exists c c', accepted (quiet 0) c /\ within (c_x c) (stored (quiet 0) c) /\
  yields (pulse (quiet 0) true c) c' /\ stored (quiet 0) c' < x_min (c_x c').
Proof.
  exists (at_w (bounds (-1) 1 1 1) (RSoftRef true (1/2)) (-9/10) 0). eexists.
  assert (P0 : Rltb 0 0 = false) by (apply Rltb_false; lra). assert (P : persist (quiet 0) = false) by (unfold persist; exact P0).
  assert (Q : Rltb 0 (scaled_wn (quiet 0)) = false) by (apply Rltb_false; unfold scaled_wn; cbn; lra).
  split; [unfold accepted; cbn; split; [lra | auto]|]. split; [unfold within, stored; cbn; rewrite P0; lra|]. split.
  - unfold pulse. cbn [skips c_rule at_w impl_wn pulse_w bindM]. apply (y_gauss _ 0). rewrite Q. rewrite P. cbn [fst]. constructor.
  - unfold stored. cbn. rewrite P0. unfold bnd'. cbn. rcase; [|lra]. mm.
Qed.
(** A hidden step device checks only one bound: at the lower bound an up pulse with a negative
    noisy step leaves the range. *)
Theorem C52_hidden_refuted : exists c c', accepted (quiet 1) c /\ within (c_x c) (stored (quiet 1) c) /\
  yields (pulse (quiet 1) false c) c' /\ stored (quiet 1) c' < x_min (c_x c').
Proof.
  exists (at_w (bounds (-1) 1 (1/10) (1/10)) (RHidden 2 2 0) (-1) 0). eexists.
  assert (P0 : Rltb 0 0 = false) by (apply Rltb_false; lra).
  split; [unfold accepted; cbn; split; [lra | intros; lra]|]. split; [unfold within, stored; cbn; rewrite P0; lra|]. split.
  - unfold pulse. cbn [skips c_rule at_w impl_wn pulse_w bindM c_h c_w c_x]. rewrite (proj2 (Reqb_true 0 0)) by lra. cbn [bindM].
    rewrite (proj2 (Rltb_false (0 + 2) (-1))) by lra. rewrite (proj2 (Rltb_true 1 (0+2))) by lra. cbn [m_std quiet]. rewrite (proj2 (Rltb_true 0 1)) by lra. cbn [bindM].
    apply (y_gauss _ (-3)). constructor.
  - unfold stored. cbn. rewrite P0. mm.
Qed.
Example C52_example : every (fun c => accepted (quiet 1) c /\ x_min (c_x c) <= x_max (c_x c) /\ hidden_ok (quiet 1) c /\
  (forall o, In o [OClip (1/2); ODiffuse] -> clip_ok c o) /\ in_range c (stored (quiet 1) c)) (one (at_w (bounds (-1) 1 1 1) (RSoftRef true (1/2)) (-9/10) 0)).
Proof.
  intros [|[|i]] [|[|j]] c; unfold cell_at; cbn; try discriminate; try (destruct i; discriminate). intros [= <-].
  assert (P0 : Rltb 0 0 = false) by (apply Rltb_false; lra).
  unfold accepted, hidden_ok, in_range, stored. cbn. rewrite P0. split; [split; [lra | auto]|]. split; [lra|]. split; [tauto|]. split; [|mm].
  intros o [<- | [<- | []]]; cbn; auto. right; lra.
Qed.

(** C53: without cycle-to-cycle noise, [n] pulses on a constant step device add [n] steps, up to
    the bound ... *)
Theorem C53_constant_step : forall mt n c c', m_std mt = 0 -> accepted mt c -> c_rule c = RConst -> x_min (c_x c) <= stored mt c <= x_max (c_x c) ->
  0 <= x_up (c_x c) -> 0 <= x_dn (c_x c) ->
  (yields (pulses mt n false c) c' -> stored mt c' = Rmin (stored mt c + INR n * x_up (c_x c)) (x_max (c_x c))) /\
  (yields (pulses mt n true c) c' -> stored mt c' = Rmax (stored mt c - INR n * x_dn (c_x c)) (x_min (c_x c))).
Proof.
  intros mt n c c' S A Er W U D. set (x := c_x c) in *.
  assert (Ez : Rltb 0 (m_std mt) = false) by (apply Rltb_false; lra).
  split; intros Y.
  - rewrite (pulses_ind mt false (fun w => Rmin (w + x_up x) (x_max x)) (within x) x RConst n) with (c := c) (c' := c'); auto; try lra; try exact (fun f => f).
    + clear Y. induction n as [|n IH]; [simpl; rewrite Rmin_left; lra|]. rewrite S_INR. simpl Nat.iter. rewrite IH. pose proof (pos_INR n). mm; nra.
    + intros w Hw. unfold within in Hw. cbn [reference raw_step]. rewrite Ez, Rplus_0_r, Rminus_0_r. unfold bnd, within. split; mm.
  - rewrite (pulses_ind mt true (fun w => Rmax (w - x_dn x) (x_min x)) (within x) x RConst n) with (c := c) (c' := c'); auto; try lra; try exact (fun f => f).
    + clear Y. induction n as [|n IH]; [simpl; rewrite Rmax_left; lra|]. rewrite S_INR. simpl Nat.iter. rewrite IH. pose proof (pos_INR n). mm; nra.
    + intros w Hw. unfold within in Hw. cbn [reference raw_step]. rewrite Ez, Rplus_0_r, Rminus_0_r. unfold bnd, within. split; mm.
Qed.
(** ... on a soft bounds device the distance to the bound shrinks by a constant factor per pulse ... *)
Theorem C53_soft_bounds : forall p mult last x r mt n c c', yields (populate_lin p (soft_lpar mult) last) (x, r) ->
  c_x c = x -> c_rule c = r -> accepted mt c -> m_std mt = 0 -> x_min x < 0 < x_max x -> x_min x <= stored mt c <= x_max x ->
  (0 <= x_up x <= x_max x -> yields (pulses mt n false c) c' -> x_max x - stored mt c' = (x_max x - stored mt c) * (1 - x_up x / x_max x) ^ n) /\
  (0 <= x_dn x <= - x_min x -> yields (pulses mt n true c) c' -> stored mt c' - x_min x = (stored mt c - x_min x) * (1 - x_dn x / - x_min x) ^ n).
Proof.
  intros p mult last x r mt n c c' Yp Ex Er A S B W.
  unfold populate_lin, soft_lpar in Yp. cbn [lp_rev_up lp_rev_dn lp_mult orb andb lp_dec_up lp_dec_dn lp_dec_up_dtod lp_dec_dn_dtod lp_incr lp_mean] in Yp. unfold gauss in Yp. revert Ex Er. ysimp. intros Ex Er.
  assert (Er' : exists m, r = RLin m (- x_dn x / x_min x) (- x_up x / x_max x)).
  { revert Ex Er. inversion Yp; subst. intros. eexists. rewrite (proj2 (Reqb_false _ 0)), (proj2 (Reqb_false _ 0)) by lra. rewrite !Rmult_0_l, !Rplus_0_r, !Rabs_R1. do 2 f_equal; field; lra. }
  clear Yp Y. destruct Er' as (m & ->).
  assert (Q : forall w, raw_step mt (RLin m (- x_dn x / x_min x) (- x_up x / x_max x)) x false w 0 = x_max x - (x_max x - w) * (1 - x_up x / x_max x)).
  { intros w. destruct m; cbn [raw_step]; rewrite S; field; lra. }
  assert (Q' : forall w, raw_step mt (RLin m (- x_dn x / x_min x) (- x_up x / x_max x)) x true w 0 = x_min x + (w - x_min x) * (1 - x_dn x / - x_min x)).
  { intros w. destruct m; cbn [raw_step]; rewrite S; field; lra. }
  split; intros St Y.
  - assert (F0 : 0 <= 1 - x_up x / x_max x <= 1).
    { assert (0 <= x_up x / x_max x <= 1); [|lra]. split; [apply Rmult_le_pos; [lra | left; apply Rinv_0_lt_compat; lra]|]. apply (Rmult_le_reg_r (x_max x)); [lra|]. unfold Rdiv. rewrite Rmult_assoc, Rinv_l; lra. }
    rewrite (pulses_ind mt false (fun w => x_max x - (x_max x - w) * (1 - x_up x / x_max x)) (within x) x _ n) with (c := c) (c' := c') (7 := Er); auto; try lra; try exact (fun f => f).
    + clear Y. induction n as [|n IH]; [simpl; lra|]. simpl Nat.iter. cbn [pow]. set (ff := 1 - x_up x / x_max x) in *. match goal with |- _ = ?a * (ff * ?q) => replace (a * (ff * q)) with (a * q * ff) by ring end. rewrite <- IH. cbv beta. ring.
    + intros w Hw. cbn [reference]. rewrite Rplus_0_r, Rminus_0_r, Q. assert (within x (x_max x - (x_max x - w) * (1 - x_up x / x_max x))) by (unfold within in *; nra). rewrite bnd_id; auto.
  - assert (F0 : 0 <= 1 - x_dn x / - x_min x <= 1).
    { assert (0 <= x_dn x / - x_min x <= 1); [|lra]. split; [apply Rmult_le_pos; [lra | left; apply Rinv_0_lt_compat; lra]|]. apply (Rmult_le_reg_r (- x_min x)); [lra|]. unfold Rdiv. rewrite Rmult_assoc, Rinv_l; lra. }
    rewrite (pulses_ind mt true (fun w => x_min x + (w - x_min x) * (1 - x_dn x / - x_min x)) (within x) x _ n) with (c := c) (c' := c') (7 := Er); auto; try lra; try exact (fun f => f).
    + clear Y. induction n as [|n IH]; [simpl; lra|]. simpl Nat.iter. cbn [pow]. set (ff := 1 - x_dn x / - x_min x) in *. match goal with |- _ = ?a * (ff * ?q) => replace (a * (ff * q)) with (a * q * ff) by ring end. rewrite <- IH. cbv beta. ring.
    + intros w Hw. cbn [reference]. rewrite Rplus_0_r, Rminus_0_r, Q'. assert (within x (x_min x + (w - x_min x) * (1 - x_dn x / - x_min x))) by (unfold within in *; nra). rewrite bnd_id; auto.
Qed.
(** ... without noise a pulse never moves the weight in the wrong direction, for any device
    class except the hidden step ... *)
Theorem C53_direction : forall mt c c', m_std mt = 0 -> accepted mt c -> x_min (c_x c) <= x_max (c_x c) -> ~ is_hidden (c_rule c) ->
  sane_step (c_x c) (c_rule c) -> within (c_x c) (stored mt c + reference (c_rule c)) ->
  (yields (pulse mt false c) c' -> stored mt c <= stored mt c') /\ (yields (pulse mt true c) c' -> stored mt c' <= stored mt c).
Proof.
  intros mt c c' S A O NH Sr W. destruct (skips (c_rule c) (c_x c)) eqn:E.
  { unfold pulse. rewrite E. split; intros Y; ysimp; lra. }
  destruct (raw_dir mt _ _ _ S Sr NH W) as [D1 D2]. split; intros Y; destruct (pulse_det _ _ _ _ A S O NH E Y) as (-> & _); unfold within in W; unfold bnd; mm.
Qed.
(** ... in particular for soft bounds devices created with consistent parameters ... *)
Theorem C53_soft_bounds_sane : forall p mult last x r, pp_consistent p = true -> pp_corrupt p <= 0 -> 0 <= pp_dwmin p ->
  yields (populate_lin p (soft_lpar mult) last) (x, r) -> sane_step x r.
Proof.
  intros p mult last x r Hc Hr Hd Y. unfold populate_lin, soft_lpar in Y. cbn [lp_rev_up lp_rev_dn lp_mult orb andb lp_dec_up lp_dec_dn lp_dec_up_dtod lp_dec_dn_dtod lp_incr lp_mean] in Y. unfold gauss in Y.
  apply yields_bind in Y as (x' & Yx & Y). ysimp. inversion Y; subst. apply C51_consistent in Yx as (B & U & D); auto.
  split; [auto|]. split; [auto|]. intros w W. unfold within in W. rewrite !Rmult_0_l, !Rplus_0_r, !Rabs_R1. split.
  - destruct (Reqb (x_max x') 0) eqn:E; [lra|]. apply Reqb_false in E.
    replace (- (1) * x_up x' / x_max x' * w + x_up x') with (x_up x' * ((x_max x' - w) * / x_max x')) by (field; lra).
    apply Rmult_le_pos; auto. apply Rmult_le_pos; [lra | left; apply Rinv_0_lt_compat; lra].
  - destruct (Reqb (x_min x') 0) eqn:E; [lra|]. apply Reqb_false in E.
    replace (- (1) * x_dn x' / x_min x' * w + x_dn x') with (x_dn x' * ((w - x_min x') * / - x_min x')) by (field; lra).
    apply Rmult_le_pos; auto. apply Rmult_le_pos; [lra | left; apply Rinv_0_lt_compat; lra].
Qed.
(** ... a pulse changes only the cross point it is addressed to ... *)
Theorem C53_local : forall mt d l d' i j, yields (do_op mt d (OPulses l)) d' -> (forall b, ~ In (i, j, b) l) ->
  cell_at (d_cells d') i j = cell_at (d_cells d) i j.
Proof.
  intros mt d l d' i j Y NI. cbn [do_op] in Y. ysimp. cbn [d_cells with_cells]. symmetry.
  refine (yields_foldMM_inv _ (fun cs => cell_at (d_cells d) i j = cell_at cs i j) l _ _ _ eq_refl Y0).
  intros cs [[i' j'] b] cs' Hin E Yb. rewrite E. pose proof (pulse_at_at _ _ _ _ _ _ Yb i j) as N.
  destruct (cell_at cs i j), (cell_at cs' i j); auto; try contradiction.
  destruct (Nat.eqb i i' && Nat.eqb j j')%bool eqn:Q; [|now subst].
  apply andb_prop in Q as [Q1 Q2]. apply Nat.eqb_eq in Q1, Q2. subst. exfalso. now apply (NI b).
Qed.
(** ... and with [subtract_symmetry_point] (and no additional reference) an up and a down pulse
    on a SoftBoundsReference device at weight zero have the same size. *)
Theorem C53_symmetry_point : forall p rp last x r mt c cu cd, yields (populate_softref p rp last) (x, r) -> rp_sym rp = true -> rp_mean rp = 0 -> rp_std rp = 0 ->
  x_min x < 0 < x_max x -> 0 < x_up x <= x_max x -> 0 < x_dn x <= - x_min x -> m_std mt = 0 ->
  accepted mt c -> c_x c = x -> c_rule c = r -> stored mt c = 0 -> yields (pulse mt false c) cu -> yields (pulse mt true c) cd ->
  stored mt cu = - stored mt cd /\ 0 <= stored mt cu.
Proof.
  intros p rp last x r mt c cu cd Y Hs Hm Hstd B U D S A Ex Er W Yu Yd.
  assert (E : exists m, r = RSoftRef m ((x_up x - x_dn x) / (x_up x / x_max x - x_dn x / x_min x))).
  { clear - Y Hs Hm Hstd B. unfold populate_softref in Y. apply yields_bind in Y as (x' & _ & Y). apply yields_bind in Y as ([mx mn] & _ & Y). unfold gauss in Y. ysimp.
    inversion Y; subst. cbn [x_max x_min x_up x_dn] in *. rewrite Hs, (proj2 (Rltb_true 0 mx)), (proj2 (Rltb_true mn 0)) by lra. cbn [andb]. rewrite Hm, Hstd. eexists. f_equal. lra. }
  destruct E as (m & ->). set (sp := (x_up x - x_dn x) / (x_up x / x_max x - x_dn x / x_min x)) in *.
  assert (Dp : 0 < x_up x / x_max x - x_dn x / x_min x).
  { replace (x_up x / x_max x - x_dn x / x_min x) with (x_up x / x_max x + x_dn x / - x_min x) by (field; lra). apply Rplus_lt_0_compat; apply Rdiv_lt_0_compat; lra. }
  assert (Sp : x_up x * (1 - sp / x_max x) = x_dn x * (1 - sp / x_min x)).
  { assert (sp * (x_up x / x_max x - x_dn x / x_min x) = x_up x - x_dn x) as Q by (unfold sp; generalize Dp; generalize (x_up x / x_max x - x_dn x / x_min x); intros dd Hdd; field; lra).
    replace (x_up x * (1 - sp / x_max x)) with (x_up x - sp * (x_up x / x_max x)) by (field; lra). replace (x_dn x * (1 - sp / x_min x)) with (x_dn x - sp * (x_dn x / x_min x)) by (field; lra). lra. }
  assert (Hsp : x_min x <= sp <= x_max x).
  { assert (Den : x_up x / x_max x - x_dn x / x_min x = (x_up x * - x_min x + x_dn x * x_max x) / (x_max x * - x_min x)) by (field; lra).
    assert (sp = (x_up x - x_dn x) * (x_max x * - x_min x) / (x_up x * - x_min x + x_dn x * x_max x)) as ->.
    { unfold sp. rewrite Den. assert (0 < x_up x * - x_min x + x_dn x * x_max x) by nra. field. repeat split; lra. }
    assert (P : 0 < x_up x * - x_min x + x_dn x * x_max x) by nra.
    assert (P1 : 0 <= x_up x * x_max x * - x_min x) by (repeat apply Rmult_le_pos; lra). assert (P2 : 0 <= x_up x * - x_min x * - x_min x) by (repeat apply Rmult_le_pos; lra).
    assert (P3 : 0 <= x_dn x * x_max x * - x_min x) by (repeat apply Rmult_le_pos; lra). assert (P4 : 0 <= x_dn x * x_max x * x_max x) by (repeat apply Rmult_le_pos; lra).
    split; apply (Rmult_le_reg_r (x_up x * - x_min x + x_dn x * x_max x)); auto; unfold Rdiv; rewrite Rmult_assoc, Rinv_l, Rmult_1_r by lra; lra. }
  assert (NH : ~ is_hidden (c_rule c)) by (rewrite Er; exact (fun f => f)).
  assert (NS : skips (c_rule c) (c_x c) = false) by (rewrite Er; reflexivity).
  assert (O : x_min (c_x c) <= x_max (c_x c)) by (rewrite Ex; lra).
  destruct (pulse_det _ _ _ _ A S O NH NS Yu) as (-> & _). destruct (pulse_det _ _ _ _ A S O NH NS Yd) as (-> & _).
  rewrite W, Ex, Er. cbn [reference]. rewrite Rplus_0_l.
  assert (Ru : raw_step mt (RSoftRef m sp) x false sp 0 = sp + x_up x * (1 - sp / x_max x)).
  { cbn [raw_step]. rewrite (proj2 (Rltb_true 0 (x_max x))) by lra. rewrite S. destruct m; ring. }
  assert (Rd : raw_step mt (RSoftRef m sp) x true sp 0 = sp - x_dn x * (1 - sp / x_min x)).
  { cbn [raw_step]. rewrite (proj2 (Rltb_true (x_min x) 0)) by lra. rewrite S. destruct m; ring. }
  rewrite Ru, Rd.
  assert (Q1 : 0 <= 1 - sp / x_max x) by (assert (sp / x_max x <= 1); [|lra]; apply (Rmult_le_reg_r (x_max x)); [lra|]; unfold Rdiv; rewrite Rmult_assoc, Rinv_l; lra).
  assert (Q2 : 0 <= 1 - sp / x_min x) by (assert (sp / x_min x <= 1); [|lra]; replace (sp / x_min x) with (- sp / - x_min x) by (field; lra); apply (Rmult_le_reg_r (- x_min x)); [lra|]; unfold Rdiv; rewrite Rmult_assoc, Rinv_l; lra).
  rewrite !bnd_id.
  - rewrite <- Sp. split; [lra|]. nra.
  - split; [|nra]. replace (x_min x) with (sp - (- x_min x) * (1 - sp / x_min x)) at 1 by (field; lra). nra.
  - split; [nra|]. replace (x_max x) with (sp + x_max x * (1 - sp / x_max x)) at 2 by (field; lra). nra.
Qed.

Print Assumptions C51_parameters_valid.
Print Assumptions C51_consistent.
Print Assumptions C51_refused.
Print Assumptions C51_nominal.
Print Assumptions C51_corrupt.
Print Assumptions C51_perfect_bias.
Print Assumptions C52_bounds_kept.
Print Assumptions C52_range_is_bounds.
Print Assumptions C52_set_weights.
Print Assumptions C52_parameters_constant.
Print Assumptions C52_corrupt_stuck.
Print Assumptions C52_clip_refuted.
Print Assumptions C52_reference_refuted.
Print Assumptions C52_hidden_refuted.
Print Assumptions C53_constant_step.
Print Assumptions C53_soft_bounds.
Print Assumptions C53_direction.
Print Assumptions C53_soft_bounds_sane.
Print Assumptions C53_local.
Print Assumptions C53_symmetry_point.
