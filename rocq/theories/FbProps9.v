(** * Noise management threshold and output nonlinearity (C98, C101) *)
From Verif Require Import Prelude Rand CompModel PulseModel PulseProofs FbModel FbSpec FbProofs FbProps FbProps2 FbProps3.

(** C98: a threshold caps the scale of the abs-max and max noise management; smaller inputs are scaled as without it *)
Theorem C98_threshold : forall p aux x, 0 < f_nm_thres p ->
  (f_nm p = NmAbsMax -> fst (noise_mgmt p aux x) <= f_nm_thres p
     /\ (maxabs x <= f_nm_thres p -> fst (noise_mgmt p aux x) = maxabs x)
     /\ (f_nm_thres p <= maxabs x -> fst (noise_mgmt p aux x) = f_nm_thres p)) /\
  (f_nm p = NmMax -> fst (noise_mgmt p aux x) <= f_nm_thres p
     /\ (listmax x <= f_nm_thres p -> fst (noise_mgmt p aux x) = listmax x)
     /\ (f_nm_thres p <= listmax x -> fst (noise_mgmt p aux x) = f_nm_thres p)).
Proof.
  intros p aux x H. unfold noise_mgmt. split; intros ->; cbn [fst]; unfold thr; rewrite (proj2 (Rltb_true _ _) H); repeat split; intros; mm.
Qed.
(** without a threshold the scale is the maximum *)
Theorem C98_no_threshold : forall p aux x, f_nm_thres p <= 0 -> f_nm p = NmAbsMax -> fst (noise_mgmt p aux x) = maxabs x.
Proof. intros p aux x H E. unfold noise_mgmt. rewrite E. cbn [fst]. unfold thr. rewrite (proj2 (Rltb_false _ _) H). reflexivity. Qed.

(** C101: the nonlinearity of the output: odd, keeps the sign, never amplifies more than the calibration factor and saturates *)
Theorem C101_output_nonlinearity : forall p v i y z, has_cal p = true -> f_out_asym p = 0 -> f_out_noise p = 0 -> f_out_noise_std p <= 0 -> f_out_res p <= 0 ->
  0 < v_nlf v -> yields (fin_elem p v i y) z ->
  (0 <= y -> 0 <= z <= v_nlf v * y) /\ (y <= 0 -> v_nlf v * y <= z <= 0)
  /\ Rabs (nth i (v_nl v) 0) * Rabs z <= v_nlf v
  /\ yields (fin_elem p v i (- y)) (- z).
Proof.
  intros p v i y z Hc A N S Q F Y. unfold fin_elem in *. rewrite Hc, A, N in *. rewrite (proj2 (Rltb_false 0 0)) in * by lra.
  rewrite (proj2 (Rltb_false _ _) S) in *. apply yields_gauss in Y as (g & Y). apply disc_none in Y; auto. rewrite Rmult_0_l, Rplus_0_r in Y.
  set (k := nth i (v_nl v) 0) in *. set (f := v_nlf v) in *. set (d := 1 + Rabs (k * y)) in *.
  assert (P : 1 <= d) by (unfold d; pose proof (Rabs_pos (k * y)); lra). assert (I : 0 < / d <= 1).
  { split; [apply Rinv_0_lt_compat; lra|]. rewrite <- Rinv_1. apply Rinv_le_contravar; lra. }
  unfold Rdiv in Y. set (e := / d) in *. split; [|split; [|split]].
  - intros H. subst z. assert (0 <= f * y) by (apply Rmult_le_pos; lra). split; nra.
  - intros H. subst z. assert (f * y <= 0) by nra. split; nra.
  - subst z. rewrite !Rabs_mult, (Rabs_pos_eq f), (Rabs_pos_eq e) by lra. replace (Rabs k * (f * Rabs y * e)) with (f * ((Rabs (k * y)) * e)) by (rewrite Rabs_mult; ring).
    assert (Rabs (k * y) * e <= 1). { unfold e. apply (Rmult_le_reg_r d); [lra|]. rewrite Rmult_assoc, Rinv_l by lra. unfold d. lra. }
    assert (0 <= Rabs (k * y) * e) by (apply Rmult_le_pos; [apply Rabs_pos|lra]). nra.
  - apply (y_gauss _ 0). unfold disc_sr. rewrite (proj2 (Rleb_true _ _) Q). apply yields_ret. subst z. replace (k * - y) with (- (k * y)) by ring.
    rewrite Rabs_Ropp. fold d. unfold Rdiv. fold e. ring.
Qed.
Definition io_nl : fbio :=
  {| f_perfect := false; f_mv := MvOne; f_wn := WnNone; f_irdrop := 0; f_irG := 1; f_voff_std := 0; f_voff_vec := []; f_wmin := -1; f_rs := 0; f_rsmax := None;
     f_inp_asym := 0; f_out_asym := 0; f_wasym := 0; f_inp_bound := None; f_inp_res := 0; f_inp_sto := false; f_inp_noise := 0;
     f_out_noise := 0; f_out_noise_std := 0; f_w_noise := 0; f_out_bound := None; f_out_res := 0; f_out_sto := false; f_out_scale := 1;
     f_nl := 1; f_nl_std := 0; f_nl_vec := []; f_slope := 0; f_nm := NmAbsMax; f_nm_thres := 2; f_nm_wmax := 1; f_nm_decay := 0;
     f_bm := BmNone; f_bm_neg := true; f_bm_factor := 1000; f_bm_res := 1/4 |}.
Example C101_output_nonlinearity_nontrivial :
  has_cal io_nl = true /\ yields (fin_elem io_nl {| v_off := []; v_asym := []; v_nl := [1]; v_nlf := 4; v_noise := [] |} 0 (-1)) (-2)
  /\ fst (noise_mgmt io_nl 0 [1; -3]) = 2.
Proof.
  assert (H : has_cal io_nl = true) by (unfold has_cal, has_nl; cbn; rewrite (proj2 (Rltb_true 0 1)) by lra; reflexivity). split; [exact H|]. split.
  - unfold fin_elem. rewrite H. cbn. rewrite (proj2 (Rltb_false 0 0)) by lra. apply (y_gauss _ 0). unfold disc_sr. rewrite (proj2 (Rleb_true 0 0)) by lra. apply yields_ret.
    replace (1 * -1) with (Ropp 1) by lra. rewrite Rabs_Ropp, Rabs_R1. lra.
  - destruct (C98_threshold io_nl 0 [1; -3] ltac:(cbn; lra)) as [T _]. destruct (T eq_refl) as (_ & _ & T2). apply T2. unfold maxabs. cbn. mm.
Qed.

Print Assumptions C98_threshold.
Print Assumptions C98_no_threshold.
Print Assumptions C101_output_nonlinearity.
