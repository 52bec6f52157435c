(** * The noise of the forward pass (C102) *)
From Verif Require Import HwaSpec Prelude Rand CompModel PulseModel PulseSpec PulseProofs MixProps2 HwaProps4 HwaProps6 FbModel FbSpec FbProofs FbProps FbProps2 FbProps3 FbProps6.

(** the only non-idealities are Gaussian noise on inputs and outputs *)
Definition only_noise (p : fbio) : Prop :=
  f_perfect p = false /\ f_mv p = MvOne /\ f_bm p = BmNone /\ quiet_product p /\ f_inp_asym p = 0 /\
  f_nl p <= 0 /\ f_nl_vec p = [] /\ f_out_asym p <= 0 /\ f_out_noise_std p <= 0 /\ no_converters p.
Definition out_of (i : nat) (r : option (vec * R)) : R := match r with Some (y, _) => nth i y 0 | None => 0 end.

Lemma expect_noisy_dot N G s n (row x : list R) c : standard G -> length row = length x ->
  expect N G (mapMM (fun v => Gauss (fun g => Ret (v * s + n * g))) x) (fun r => c + dot row r) = c + s * dot row x.
Proof.
  intros SG. destruct (standard_mean G SG) as [M1 M2]. pose proof (proj1 SG) as HG. revert row c. induction x as [|v x IH]; intros [|w row] c L; try discriminate; [cbn; ring|]. cbn [mapMM]. rewrite expect_bind. cbn [expect].
  rewrite (avg_ext _ _ (fun g => (c + w * (v * s) + s * dot row x) + (w * n) * g)).
  - rewrite avg_lin, M1 by auto. cbn [dot]. ring.
  - intros g _. rewrite expect_bind. cbn [expect dot]. rewrite (expect_ext _ _ _ _ (fun r => (c + w * (v * s + n * g)) + dot row r)) by (intros; ring). rewrite IH by (injection L; auto). ring.
Qed.
Lemma expect_noisy_dot_sq N G s n (row x : list R) c : standard G -> length row = length x ->
  expect N G (mapMM (fun v => Gauss (fun g => Ret (v * s + n * g))) x) (fun r => (c + dot row r) * (c + dot row r)) = (c + s * dot row x) * (c + s * dot row x) + n * n * dot row row.
Proof.
  intros SG. destruct (standard_mean G SG) as [M1 M2]. pose proof (proj1 SG) as HG. revert row c. induction x as [|v x IH]; intros [|w row] c L; try discriminate; [cbn; ring|]. cbn [mapMM]. rewrite expect_bind. cbn [expect].
  rewrite (avg_ext _ _ (fun g => n * n * dot row row + ((c + w * (v * s) + s * dot row x) + (w * n) * g - 0) * ((c + w * (v * s) + s * dot row x) + (w * n) * g - 0))).
  - rewrite (avg_plus G (fun _ => n * n * dot row row)), avg_const, avg_square by auto. cbn [dot]. ring.
  - intros g _. rewrite expect_bind. cbn [expect dot]. rewrite (expect_ext _ _ _ _ (fun r => ((c + w * (v * s + n * g)) + dot row r) * ((c + w * (v * s + n * g)) + dot row r))) by (intros; ring). rewrite IH by (injection L; auto). ring.
Qed.
Lemma expect_mapMM_same {A B} N G (f g : A -> M B) l : (forall a F, expect N G (f a) F = expect N G (g a) F) -> forall F, expect N G (mapMM f l) F = expect N G (mapMM g l) F.
Proof.
  intros H. induction l as [|a l IH]; intros F; [reflexivity|]. cbn [mapMM]. rewrite !expect_bind, H. apply expect_ext. intros b _. rewrite !expect_bind. apply IH.
Qed.
Lemma expect_prepare N G p s x F : G <> [] -> f_inp_asym p = 0 -> f_inp_res p <= 0 -> unlimited (f_inp_bound p) ->
  expect N G (prepare p s x) F = expect N G (mapMM (fun v => Gauss (fun g => Ret (v * s + Rmax 0 (f_inp_noise p) * g))) x) F.
Proof.
  intros HG A Rr B. unfold prepare. apply expect_mapMM_same. clear F. intros a F. unfold prep_elem, disc_sr. rewrite (proj2 (Rleb_true _ _) Rr). cbn [bindM]. rewrite clip_unlimited by auto. rewrite (proj2 (Reqb_true _ _) A). cbn [negb]. rewrite expect_bind. destruct (Rltb 0 (f_inp_noise p)) eqn:E.
  - apply Rltb_true in E. cbn [expect]. apply avg_ext. intros g _. rewrite (Rmax_right 0) by lra. reflexivity.
  - apply Rltb_false in E. cbn [expect]. rewrite (Rmax_left 0) by lra. rewrite (avg_ext _ _ (fun _ => F (a * s))) by (intros; f_equal; ring). rewrite avg_const by auto. reflexivity.
Qed.
Lemma expect_finalize N G p v (y : list R) i F : G <> [] -> (i < length y)%nat -> f_rs p <= 0 -> f_nl p <= 0 -> f_nl_vec p = [] -> f_out_asym p <= 0 -> f_out_noise_std p <= 0 -> f_out_res p <= 0 -> unlimited (f_out_bound p) ->
  expect N G (finalize p v y) (fun o => F (nth i (snd o) 0)) = avg G (fun g => F (nth i y 0 + f_out_noise p * g)).
Proof.
  intros HG Hi Rs Nl Nv Oa On Or Ob. unfold finalize. rewrite expect_bind. cbn [expect snd]. pose proof (out_limit_unlimited p Ob) as El. rewrite El.
  assert (Hc : has_cal p = false) by (unfold has_cal, has_nl; rewrite Nv, (proj2 (Rltb_false _ _) Nl), (proj2 (Rltb_false _ _) Rs); reflexivity).
  rewrite (expect_ext _ _ _ _ (fun r => F (nth i r 0))) by (intros r _; f_equal; f_equal; cbn [clip_o]; apply map_id).
  assert (E : nth_error (combine (seq 0 (length y)) y) i = Some (i, nth i y 0)). { apply nth_error_combine; [|now apply nth_error_nth']. rewrite nth_error_nth' with (d := 0%nat) by (rewrite seq_length; auto). now rewrite seq_nth. }
  pose proof (expect_marginal N G HG (fun iy : nat * R => fin_elem p v (fst iy) (snd iy)) F 0 _ i _ (fun a _ => ltac:(unfold fin_elem; apply total_gauss; intros; apply total_disc)) E) as Q. etransitivity; [exact Q|]. cbn [fst snd]. unfold fin_elem. rewrite Hc, (proj2 (Rltb_false _ _) Oa), (proj2 (Rltb_false _ _) On). cbn [expect]. apply avg_ext. intros g _. unfold disc_sr. rewrite (proj2 (Rleb_true _ _) Or). reflexivity.
Qed.
(** the scale of the inputs: 1 over the value of noise management *)
Definition nm_value (p : fbio) (aux : R) (x : vec) : R := match f_nm p with NmNone => 1 | _ => fst (noise_mgmt p aux x) end.
Lemma expect_forward N G p v W aux alpha x i row F : standard G -> only_noise p -> 0 < nm_value p aux x -> nth_error W i = Some row -> length row = length x ->
  let s := nm_value p aux x in
  expect N G (forward_vector p v W aux alpha x) (fun r => F (out_of i r)) =
  expect N G (mapMM (fun v => Gauss (fun g => Ret (v * (1 / s) + Rmax 0 (f_inp_noise p) * g))) x) (fun x' => avg G (fun g => F (f_out_scale p * alpha * s * (dot row x' + f_out_noise p * g)))).
Proof.
  intros SG (Pf & Mv & Bm & Qp & Ia & Nl & Nv & Oa & On & Ir & Or & Ib & Ob) Ps Hrow L s. pose proof (proj1 SG) as HG. unfold forward_vector. assert (Ep : is_perf p = false) by (unfold is_perf; rewrite Pf, Mv; reflexivity). rewrite Ep. assert (Es : (if nm_on p && Rltb 0 (fst (noise_mgmt p aux x)) then 1 / fst (noise_mgmt p aux x) else 1) = 1 / s /\ nm_on p && Rleb (fst (noise_mgmt p aux x)) 0 = false).
  { subst s. unfold nm_value, nm_on in *. destruct (f_nm p) eqn:En; cbn [andb]; try (rewrite (proj2 (Rltb_true _ _) Ps); rewrite (proj2 (Rleb_false _ _) Ps); split; reflexivity). split; [field | reflexivity]. }
  destruct Es as [E1 E2]. destruct (noise_mgmt p aux x) as [nmv aux'] eqn:En. cbn [fst] in E1, E2. rewrite E2. cbn [andb]. assert (Ps' : 0 < s) by exact Ps. clearbody s. unfold bm_fuel. rewrite Nat.add_comm. cbn [Nat.add bm_loop Nat.eqb andb]. unfold bm_on. rewrite Bm. cbn [negb orb]. rewrite E1. rewrite neg_weights_quiet by auto.
  rewrite !expect_bind. cbn [expect out_of]. rewrite (expect_ext _ _ _ _ (fun r => (fun z => F (f_out_scale p * alpha / (1 / s / 1) * z)) (nth i (snd r) 0))).
  2: { intros r Y. f_equal. rewrite <- (map_nth (Rmult (f_out_scale p * alpha / (1 / s / 1)))). now rewrite Rmult_0_r. }
  unfold analog_mv. rewrite Mv, expect_bind. rewrite expect_prepare by auto. replace (1 / s / 1) with (1 / s) by (field; lra). apply expect_ext. intros x' _. rewrite single_pass_quiet by auto. cbn [bindM]. etransitivity; [apply (expect_finalize N G p v (matvec W x') i (fun z => F (f_out_scale p * alpha / (1 / s) * z))); auto|].
  - rewrite matvec_length. apply nth_error_Some. congruence.
  - destruct Qp as (_ & _ & H & _). exact H.
  - apply avg_ext. intros g _. f_equal. rewrite (nth_matvec _ _ _ _ Hrow). field. lra.
Qed.
(** C102: Gaussian noise on inputs and outputs does not change the mean of an output, and adds a variance
    that is that of independent noise on each input line and the output, scaled like the result *)
Theorem C102_mean_variance : forall N G p v W aux alpha x i row, standard G -> only_noise p -> 0 < nm_value p aux x -> nth_error W i = Some row -> length row = length x ->
  let exact := f_out_scale p * alpha * dot row x in let k := f_out_scale p * alpha * nm_value p aux x in
  expect N G (forward_vector p v W aux alpha x) (out_of i) = exact /\
  expect N G (forward_vector p v W aux alpha x) (fun r => (out_of i r - exact) * (out_of i r - exact)) =
    k * k * (f_out_noise p * f_out_noise p + Rmax 0 (f_inp_noise p) * Rmax 0 (f_inp_noise p) * dot row row).
Proof.
  intros N G p v W aux alpha x i row SG O Ps Hrow L exact k. pose proof (proj1 SG) as HG. destruct (standard_mean G SG) as [M1 M2]. split.
  - etransitivity; [apply (expect_forward N G p v W aux alpha x i row (fun u => u)); auto|]. fold k. set (n := Rmax 0 _). rewrite (expect_ext _ _ _ _ (fun x' => k * (0 + dot row x'))).
    + rewrite expect_scal, expect_noisy_dot by auto. unfold k, exact. field. lra.
    + intros x' _. rewrite (avg_ext _ _ (fun g => k * dot row x' + k * f_out_noise p * g)) by (intros; ring). rewrite avg_lin, M1 by auto. ring.
  - etransitivity; [apply (expect_forward N G p v W aux alpha x i row (fun u => (u - exact) * (u - exact))); auto|]. fold k. set (n := Rmax 0 _). rewrite (expect_ext _ _ _ _ (fun x' => k * k * ((- (1 / nm_value p aux x * dot row x) + dot row x') * (- (1 / nm_value p aux x * dot row x) + dot row x')) + k * k * (f_out_noise p * f_out_noise p) * 1)).
    + rewrite expect_plus, expect_scal, expect_noisy_dot_sq by auto. rewrite expect_scal, expect_const; auto. { ring. } apply total_mapMM. intros; apply total_gauss; intros; apply total_ret.
    + intros x' _. rewrite (avg_ext _ _ (fun g => (k * dot row x' + k * f_out_noise p * g - exact) * (k * dot row x' + k * f_out_noise p * g - exact))) by (intros; ring). rewrite avg_square by auto. unfold exact, k. field. lra.
Qed.
(** with AbsMax the noise scales with the input: [k] is the largest input *)
Theorem C102_absmax_scales : forall N G p v W aux alpha x i row c, standard G -> only_noise p -> f_nm p = NmAbsMax -> f_nm_thres p <= 0 -> 0 < maxabs x -> 0 < c -> nth_error W i = Some row -> length row = length x ->
  expect N G (forward_vector p v W aux alpha (map (Rmult c) x)) (fun r => (out_of i r - c * (f_out_scale p * alpha * dot row x)) * (out_of i r - c * (f_out_scale p * alpha * dot row x))) =
  c * c * expect N G (forward_vector p v W aux alpha x) (fun r => (out_of i r - f_out_scale p * alpha * dot row x) * (out_of i r - f_out_scale p * alpha * dot row x)).
Proof.
  intros N G p v W aux alpha x i row c SG O Nm Th Pm Pc Hrow L. assert (Ev : forall z, nm_value p aux z = maxabs z) by (intros z; unfold nm_value, noise_mgmt, thr; rewrite Nm, (proj2 (Rltb_false _ _) Th); reflexivity).
  assert (Em : maxabs (map (Rmult c) x) = c * maxabs x). { clear -Pc. induction x as [|a x IH]; [cbn; ring|]. change (Rmax (Rabs (c * a)) (maxabs (map (Rmult c) x)) = c * Rmax (Rabs a) (maxabs x)). rewrite IH, Rabs_mult, (Rabs_pos_eq c) by lra. apply RmaxRmult. lra. }
  destruct (C102_mean_variance N G p v W aux alpha x i row SG O) as [_ V1]; rewrite ?Ev; auto. destruct (C102_mean_variance N G p v W aux alpha (map (Rmult c) x) i row SG O) as [_ V2]; rewrite ?Ev, ?Em, ?map_length; auto. { apply Rmult_lt_0_compat; lra. } rewrite Ev in V1. rewrite Ev, Em in V2. rewrite V1. rewrite dot_scale_r in V2. replace (c * (f_out_scale p * alpha * dot row x)) with (f_out_scale p * alpha * (c * dot row x)) by ring. rewrite V2. ring.
Qed.
Definition io_noisy : fbio :=
  {| f_perfect := false; f_mv := MvOne; f_wn := WnNone; f_irdrop := 0; f_irG := 1; f_voff_std := 0; f_voff_vec := []; f_wmin := -1; f_rs := 0; f_rsmax := None;
     f_inp_asym := 0; f_out_asym := 0; f_wasym := 0; f_inp_bound := None; f_inp_res := 0; f_inp_sto := false; f_inp_noise := 1/100;
     f_out_noise := 6/100; f_out_noise_std := 0; f_w_noise := 0; f_out_bound := None; f_out_res := 0; f_out_sto := false; f_out_scale := 1;
     f_nl := 0; f_nl_std := 0; f_nl_vec := []; f_slope := 0; f_nm := NmAbsMax; f_nm_thres := 0; f_nm_wmax := 1; f_nm_decay := 0;
     f_bm := BmNone; f_bm_neg := true; f_bm_factor := 1000; f_bm_res := 1/4 |}.
Example C102_nontrivial : only_noise io_noisy /\ standard [1; -1] /\ 0 < nm_value io_noisy (-1) [2; -4] /\ 0 < maxabs [2; -4] /\
  expect 3 [1; -1] (forward_vector io_noisy mv0 [[1; 2]] (-1) 1 [2; -4]) (out_of 0) = -6.
Proof.
  assert (O : only_noise io_noisy) by (unfold only_noise, quiet_product, no_converters, io_noisy; cbn; repeat split; auto; lra). assert (SG : standard [1; -1]) by (unfold standard; cbn; repeat split; try discriminate; lra). assert (Pm : maxabs [2; -4] = 4). { cbn. rewrite (Rabs_pos_eq 2) by lra. rewrite (Rabs_left (-4)) by lra. mm. }
  assert (Pv : nm_value io_noisy (-1) [2; -4] = 4). { rewrite <- Pm. unfold nm_value, noise_mgmt, thr. cbn [f_nm io_noisy f_nm_thres]. rewrite (proj2 (Rltb_false _ _)) by lra. reflexivity. }
  repeat split; try apply O; try apply SG; try lra. destruct (C102_mean_variance 3 [1; -1] io_noisy mv0 [[1; 2]] (-1) 1 [2; -4] 0 [1; 2] SG O) as [E _]; auto; [lra|]. rewrite E. cbn. lra.
Qed.

Print Assumptions C102_mean_variance.
Print Assumptions C102_absmax_scales.
