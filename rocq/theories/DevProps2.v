(** * Pulsed devices: the theorems (decay, reset, drift) *)
From Verif Require Import Prelude Rand DevModel DevSpec DevProofs.

(** C54: decay moves every stored weight towards the reset value of its cross point by the factor of the cross
    point (scaled by alpha), [n] times in [n] calls, and leaves the last column alone if the
    bias shall not decay ... *)
Theorem C54_decay : forall mt alpha kb n d d' i j c row, history mt d (repeat (ODecay alpha kb) n) d' ->
  cell_at (d_cells d) i j = Some c -> nth_error (d_cells d) i = Some row ->
  within (c_x c) (stored mt c) -> within (c_x c) (x_rbias (c_x c)) -> 0 <= 1 + alpha * (x_decay (c_x c) - 1) <= 1 ->
  exists c', cell_at (d_cells d') i j = Some c' /\
    stored mt c' = if (kb && (S j =? length row)%nat)%bool then stored mt c
                   else x_rbias (c_x c) + (stored mt c - x_rbias (c_x c)) * (1 + alpha * (x_decay (c_x c) - 1)) ^ n.
Proof.
  intros mt alpha kb. induction n as [|n IH]; intros d d' i j c row H E Er W B F; unfold history in H; cbn [repeat foldMM] in H.
  - ysimp. exists c. split; auto. destruct (kb && _)%bool; auto. simpl. lra.
  - apply yields_bind in H as (d1 & Y & H). cbn [do_op] in Y. ysimp.
    destruct (each_fwd _ _ _ _ _ _ Y0 E) as (row' & c1 & Er' & E1 & Y1). rewrite Er in Er'. injection Er' as <-.
    apply step_stored in Y1 as (S1 & X1 & R1 & _).
    assert (Er1 : exists row1, nth_error a i = Some row1 /\ length row1 = length row).
    { apply yields_mapMM in Y0. pose proof (F2_nth _ _ _ i Y0) as N. rewrite Er in N. destruct (nth_error a i) as [row1|]; [|contradiction].
      exists row1. split; auto. apply mapMM_length in N. now rewrite N, zipi_length. }
    destruct Er1 as (row1 & Er1 & L1).
    assert (Hl : Nat.eqb j (length row - 1) = (S j =? length row)%nat).
    { unfold cell_at in E. rewrite Er in E. assert (j < length row)%nat by (apply nth_error_Some; congruence). destruct (Nat.eqb_spec j (length row - 1)), (Nat.eqb_spec (S j) (length row)); auto; lia. }
    rewrite Hl in S1. set (s := if (kb && _)%bool then 1 else _) in S1.
    assert (Fs : 0 <= s <= 1) by (unfold s; destruct (kb && _)%bool; lra).
    change (cur mt c) with (stored mt c) in S1. rewrite bnd_id in S1 by (unfold within in *; nra).
    destruct (IH (with_cells d a) d' i j c1 row1 H E1 Er1) as (c' & E' & S').
    + rewrite X1, S1. unfold within in *; nra.
    + now rewrite X1.
    + now rewrite X1.
    + exists c'. split; auto. rewrite S', L1, X1, S1. unfold s. destruct (kb && _)%bool; [ring|]. cbn [pow]. ring.
Qed.
(** ... a reset changes the stored weights only in the addressed columns (cyclically from
    [start]), each of which is kept or set to the reset value plus noise within the bounds, and
    certainly set if the probability is 1. *)
Theorem C54_reset : forall mt start n prob d d' i j c row,
  yields (do_op mt d (OReset (Z.of_nat start) n prob)) d' ->
  cell_at (d_cells d) i j = Some c -> nth_error (d_cells d) i = Some row -> (start < length row)%nat -> (n <= Z.of_nat (length row))%Z ->
  exists c', cell_at (d_cells d') i j = Some c' /\
    let hit := (n < 0)%Z \/ addressed (length row) start (Z.to_nat n) j in
    (~ hit -> stored mt c' = stored mt c) /\
    (hit -> stored mt c' = stored mt c \/ exists g, stored mt c' = bnd (c_x c) (x_rbias (c_x c) + (if Rltb 0 (m_rstd mt) then m_rstd mt * g else 0))) /\
    (hit -> prob = 1 -> exists g, stored mt c' = bnd (c_x c) (x_rbias (c_x c) + (if Rltb 0 (m_rstd mt) then m_rstd mt * g else 0))).
Proof.
  intros mt start n prob d d' i j c row Y E Er Hs Hn. cbn [do_op] in Y. ysimp. cbn [d_cells with_cells].
  destruct (each_fwd _ _ _ _ _ _ Y0 E) as (row' & c1 & Er' & E1 & Y1). rewrite Er in Er'. injection Er' as <-.
  assert (Hj : (j < length row)%nat) by (unfold cell_at in E; rewrite Er in E; apply nth_error_Some; congruence).
  exists c1. split; auto. cbv zeta. set (xs := length row) in *. set (n' := if (0 <=? n)%Z then n else Z.of_nat xs) in *.
  assert (Hc : in_cols (Z.of_nat xs) (Z.of_nat start) n' (Z.of_nat j) = true <-> ((n < 0)%Z \/ addressed xs start (Z.to_nat n) j)).
  { assert (G : forall m, (m <= xs)%nat -> (in_cols (Z.of_nat xs) (Z.of_nat start) (Z.of_nat m) (Z.of_nat j) = true <-> addressed xs start m j)).
    { intros m Hm. unfold in_cols, addressed. rewrite orb_true_iff, !andb_true_iff, orb_true_iff, !Z.leb_le, !Z.ltb_lt. split.
      - intros [[[A B] C] | [A [B | B]]].
        + exists (j - start)%nat. split; [lia|]. rewrite Nat.mod_small; lia.
        + exists (j - start)%nat. split; [lia|]. rewrite Nat.mod_small; lia.
        + exists (j + xs - start)%nat. split; [lia|]. replace (start + (j + xs - start))%nat with (j + 1 * xs)%nat by lia. rewrite Nat.mod_add, Nat.mod_small; lia.
      - intros (k & Hk & Ej). destruct (Nat.lt_ge_cases (start + k) xs) as [L | L].
        + rewrite Nat.mod_small in Ej by lia. destruct (Z_le_gt_dec (Z.of_nat start + Z.of_nat m) (Z.of_nat xs)); [left; lia | right; split; [lia | left; lia]].
        + assert (Ej' : j = (start + k - xs)%nat). { rewrite Ej. replace (start + k)%nat with (start + k - xs + 1 * xs)%nat at 1 by lia. rewrite Nat.mod_add, Nat.mod_small by lia. auto. }
          right. split; [lia | right; lia]. }
    unfold n'. destruct (Z.leb_spec 0 n).
    - rewrite <- (Z2Nat.id n) at 1 by lia. rewrite G by lia. split; [auto | intros [A | A]; [lia | auto]].
    - rewrite G by lia. split; [auto|]. intros _. exists ((j + xs - start) mod xs)%nat. split; [apply Nat.mod_upper_bound; lia|].
      rewrite Nat.add_mod_idemp_r by lia. replace (start + (j + xs - start))%nat with (j + 1 * xs)%nat by lia. rewrite Nat.mod_add, Nat.mod_small; lia. }
  unfold reset_cell in Y1. apply yields_bind in Y1 as (c2 & Y1 & Y2). apply renoise_stored in Y2. rewrite Y2.
  destruct (in_cols _ _ _ _).
  - assert (Hh : (n < 0)%Z \/ addressed xs start (Z.to_nat n) j) by (now apply Hc). apply yields_bind in Y1 as (do & Yd & Y1).
    assert (R : do = true -> exists g, stored mt c2 = bnd (c_x c) (x_rbias (c_x c) + (if Rltb 0 (m_rstd mt) then m_rstd mt * g else 0))).
    { intros ->. ysimp. rewrite set_cur_stored. destruct (Rltb 0 (m_rstd mt)); ysimp; [exists g; auto | exists 0; auto]. }
    split; [intros NH; contradiction|]. split.
    + intros _. destruct do; [right; auto | ysimp; left; auto].
    + intros _ ->. apply R. rewrite (proj2 (Reqb_true 1 1)) in Yd by lra. now ysimp.
  - assert (NH : ~ ((n < 0)%Z \/ addressed xs start (Z.to_nat n) j)) by (intros Q; apply Hc in Q; discriminate). ysimp. tauto.
Qed.
Definition ex_x : xp := {| x_max := 1; x_min := -1; x_up := 1/10; x_dn := 1/10; x_decay := 9/10; x_diff := 0; x_rbias := 1/10 |}.
Definition ex_cell (w : R) : cell := {| c_x := ex_x; c_rule := RConst; c_w := w; c_p := 0; c_h := 0; c_prev := 0; c_w0 := 0; c_t := 0; c_nu := 0 |}.
Definition ex_dev : dev := {| d_cells := [[ex_cell (1/2); ex_cell (-1/2); ex_cell 0]]; d_now := 0; d_fresh := true |}.
Definition quiet (std : R) : meta := {| m_dwmin := 1/10; m_std := std; m_wn := 0; m_wn_on_set := false; m_rstd := 0 |}.
Example C54_example : within ex_x (stored (quiet 0) (ex_cell (1/2))) /\ within ex_x (x_rbias ex_x) /\ 0 <= 1 + 1 * (x_decay ex_x - 1) <= 1
  /\ addressed 3 2 2 0 /\ ~ addressed 3 2 2 1.
Proof.
  unfold within, stored. cbn. rewrite (proj2 (Rltb_false 0 0)) by lra. repeat split; try lra.
  - exists 1%nat. split; [lia | reflexivity].
  - intros (k & Hk & E). destruct k as [|[|k]]; cbn in E; lia.
Qed.

(** C55: drift follows the power law of the time since the weight was last written: the first
    call applies it to the current weight ... *)
Theorem C55_drift_law : forall mt p dt d d' i j c, yields (do_op mt d (ODrift p dt)) d' -> d_fresh d = true ->
  plain_drift p -> cell_at (d_cells d) i j = Some c -> x_min (c_x c) <= x_max (c_x c) ->
  exists c', cell_at (d_cells d') i j = Some c' /\ stored mt c' = bnd (c_x c) (drift_law p (nu_of p c) (stored mt c) (dt / dp_t0 p)).
Proof.
  intros mt p dt d d' i j c Y Fr P E O. cbn [do_op] in Y. rewrite Fr in Y. ysimp. cbn [d_cells].
  destruct (each_fwd _ _ _ _ _ _ Y0 E) as (row' & c1 & Er' & E1 & Y1). exists c1. split; auto.
  apply drift_cell_gen in Y1 as (S1 & _); auto. cbn [negb andb orb] in S1. rewrite S1. do 2 f_equal. lra.
Qed.
(** ... waiting in several steps is the same as waiting once, if nothing is written in between ... *)
Theorem C55_drift_additive : forall mt p dts d d1 d2 i j c1 c2, plain_drift p -> d_fresh d = true -> dts <> [] ->
  every (fun c => x_min (c_x c) <= x_max (c_x c)) d ->
  history mt d (map (ODrift p) dts) d1 -> history mt d [ODrift p (sumR dts)] d2 ->
  cell_at (d_cells d1) i j = Some c1 -> cell_at (d_cells d2) i j = Some c2 -> stored mt c1 = stored mt c2.
Proof.
  intros mt p dts d d1 d2 i j c1 c2 P Fr Ne O H1 H2 E1 E2.
  assert (Ec : exists c, cell_at (d_cells d) i j = Some c).
  { unfold history in H2. cbn [foldMM do_op] in H2. ysimp. cbn [d_cells] in E2. destruct (each_back _ _ _ _ _ _ Y0 E2) as (r & c & _ & E & _). eauto. }
  destruct Ec as (c & E). specialize (O _ _ _ E).
  unfold history in H2. cbn [foldMM] in H2. apply yields_bind in H2 as (d2' & Y2 & H2). ysimp.
  destruct (drift_first _ _ _ _ _ _ _ _ Y2 Fr P E O) as (_ & _ & c2' & E2' & D2). rewrite E2 in E2'. injection E2' as <-.
  destruct dts as [|t0 dts]; [congruence|]. unfold history in H1. cbn [map foldMM] in H1. apply yields_bind in H1 as (d' & Y1 & H1).
  destruct (drift_first _ _ _ _ _ _ _ _ Y1 Fr P E O) as (N & F1 & c' & E' & D'). rewrite <- N in D'.
  destruct (drift_chain mt p dts d' d1 i j c c' P H1 F1 E' O D') as (N1 & c1' & E1' & D1). rewrite E1 in E1'. injection E1' as <-.
  destruct D1 as (-> & _), D2 as (-> & _). do 2 f_equal. rewrite N1, N. cbn [sumR]. unfold Rdiv. ring.
Qed.
(** ... and a weight that was changed by more than the tolerance starts a new drift: the next call
    leaves it where it is, later calls count the time from there. *)
Theorem C55_restart : forall mt p dt dts d d1 d2 i j c, plain_drift p -> d_fresh d = false -> cell_at (d_cells d) i j = Some c ->
  within (c_x c) (stored mt c) -> dp_tol p < Rabs (c_prev c - stored mt c) ->
  yields (do_op mt d (ODrift p dt)) d1 -> history mt d1 (map (ODrift p) dts) d2 ->
  (exists c1, cell_at (d_cells d1) i j = Some c1 /\ stored mt c1 = stored mt c) /\
  (dts <> [] -> exists c2, cell_at (d_cells d2) i j = Some c2 /\ stored mt c2 = bnd (c_x c) (drift_law p (nu_of p c) (stored mt c) (sumR dts / dp_t0 p))).
Proof.
  intros mt p dt dts d d1 d2 i j c P Fr E W Mv Y H.
  assert (O : x_min (c_x c) <= x_max (c_x c)) by (unfold within in W; lra).
  cbn [do_op] in Y. rewrite Fr in Y. ysimp.
  destruct (each_fwd _ _ _ _ _ _ Y0 E) as (row' & c1 & Er' & E1 & Y1).
  apply drift_cell_gen in Y1 as (S1 & S2 & S3 & S4 & S5 & S6); auto. rewrite (proj2 (Rltb_true _ _) Mv) in *. cbn [negb andb orb] in *. rewrite bnd_id in S1 by auto.
  split; [exists c1; cbn [d_cells]; auto|].
  set (d1 := {| d_cells := a; d_now := d_now d + dt / dp_t0 p; d_fresh := false |}) in *.
  assert (G : forall ts d0 d3 c3, history mt d0 (map (ODrift p) ts) d3 -> d_fresh d0 = false -> cell_at (d_cells d0) i j = Some c3 ->
    c_prev c3 = stored mt c3 -> c_w0 c3 = stored mt c -> c_t c3 = d_now d1 -> c_x c3 = c_x c -> c_nu c3 = c_nu c -> ts <> [] ->
    exists c2, cell_at (d_cells d3) i j = Some c2 /\ stored mt c2 = bnd (c_x c) (drift_law p (nu_of p c) (stored mt c) (d_now d0 + sumR ts / dp_t0 p - d_now d1))).
  { clear - P O. induction ts as [|t ts IH]; intros d0 d3 c3 H F0 E3 Q1 Q2 Q3 Q4 Q5 Ne; [congruence|].
    unfold history in H. cbn [map foldMM] in H. apply yields_bind in H as (d4 & Y & H). cbn [do_op] in Y. rewrite F0 in Y. ysimp.
    destruct (each_fwd _ _ _ _ _ _ Y0 E3) as (row' & c4 & Er' & E4 & Y4). apply drift_cell_gen in Y4 as (S1 & S2 & S3 & S4 & S5 & S6); auto; [|now rewrite Q4].
    pose proof P as (_ & _ & _ & P4).
    assert (Z : Rltb (dp_tol p) (Rabs (c_prev c3 - stored mt c3)) = false) by (apply Rltb_false; rewrite Rminus_diag_eq, Rabs_R0 by auto; lra).
    rewrite Z in *. cbn [negb andb orb] in *. rewrite Q4, Q2, Q3 in *.
    assert (En : nu_of p c3 = nu_of p c) by (unfold nu_of; now rewrite Q5). rewrite En in S1.
    destruct ts as [|t' ts].
    - cbn [map foldMM] in H. ysimp. exists c4. split; auto. rewrite S1. do 2 f_equal. cbn [sumR]. unfold Rdiv. ring.
    - destruct (IH _ _ c4 H eq_refl E4) as (c2 & E2 & R); auto; try congruence; try discriminate. exists c2. split; auto. rewrite R. cbn [d_now sumR]. do 2 f_equal. unfold Rdiv. ring. }
  intros Ne. destruct (G dts d1 d2 c1 H eq_refl E1) as (c2 & E2 & R); auto. exists c2. split; auto. rewrite R. do 2 f_equal. unfold Rdiv. ring.
Qed.
(** A change that is not larger than the tolerance is forgotten: the next drift continues from the
    old weight. *)
Theorem C55_small_change_refuted : forall mt p dt d d1 i j c, plain_drift p -> d_fresh d = false -> cell_at (d_cells d) i j = Some c ->
  x_min (c_x c) <= x_max (c_x c) -> Rabs (c_prev c - stored mt c) <= dp_tol p -> yields (do_op mt d (ODrift p dt)) d1 ->
  exists c1, cell_at (d_cells d1) i j = Some c1 /\ stored mt c1 = bnd (c_x c) (drift_law p (nu_of p c) (c_w0 c) (d_now d1 - c_t c)).
Proof.
  intros mt p dt d d1 i j c P Fr E O Mv Y. cbn [do_op] in Y. rewrite Fr in Y. ysimp.
  destruct (each_fwd _ _ _ _ _ _ Y0 E) as (row' & c1 & Er' & E1 & Y1).
  apply drift_cell_gen in Y1 as (S1 & _); auto. rewrite (proj2 (Rltb_false _ _) Mv) in *. cbn [negb andb orb] in *. exists c1. split; auto.
Qed.
Definition ex_drift : drift_par := {| dp_nu := 1/20; dp_nu_std := 0; dp_wg := 1; dp_goff := 0; dp_woff := 0; dp_k := 0; dp_logG0 := 0; dp_t0 := 1; dp_tol := 1/10000000; dp_read := 0; dp_simple := true |}.
Example C55_example : plain_drift ex_drift /\ d_fresh ex_dev = true /\ drift_law ex_drift (1/20) 1 (exp 20) = exp (-1).
Proof.
  split; [unfold plain_drift, offset; cbn; repeat split; try lra; left; lra|]. split; auto. unfold drift_law, offset. cbn. replace (0 * 1 + 0) with 0 by lra.
  assert (1 <= exp 20) by (pose proof (exp_ineq1 20 ltac:(lra)); lra). rewrite Rmax_left by auto.
  unfold Rpower. rewrite ln_exp. replace (- (1 / 20) * 20) with (-1) by lra. lra.
Qed.

Print Assumptions C54_decay.
Print Assumptions C54_reset.
Print Assumptions C55_drift_law.
Print Assumptions C55_drift_additive.
Print Assumptions C55_restart.
Print Assumptions C55_small_change_refuted.
