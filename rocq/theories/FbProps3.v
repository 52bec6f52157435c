(** * Range and resolution of the converters (C97) *)
From Verif Require Import Prelude Rand CompModel PulseModel PulseProofs FbModel FbSpec FbProofs FbProps FbProps2.

Lemma clip_clipped b v : clip_o (match b with Some b => if Rltb 0 b then Some b else None | None => None end) v = clipped b v.
Proof.
  destruct b as [b|]; cbn; auto. destruct (Rle_dec b 0) as [H | H]; [now rewrite (proj2 (Rltb_false _ _) H)|]. rewrite (proj2 (Rltb_true 0 b)) by lra. cbn. destruct (Rltb b v) eqn:E; [apply Rltb_true in E | apply Rltb_false in E].
  - rewrite (proj2 (Rltb_false b (- b))) by lra. mm.
  - destruct (Rltb v (- b)) eqn:E2; [apply Rltb_true in E2 | apply Rltb_false in E2]; mm.
Qed.
Lemma clipped_range b v : 0 < b -> Rabs (clipped (Some b) v) <= b.
Proof. intros H. cbn. destruct (Rle_dec b 0); [lra|]. mm. Qed.
Lemma clipped_lip b v w : Rabs (clipped b v - clipped b w) <= Rabs (v - w).
Proof. destruct b as [b|]; cbn; [|lra]. destruct (Rle_dec b 0); [lra|]. mm. Qed.
Lemma clipped_fits b v : fits b v -> clipped b v = v.
Proof. intros H. rewrite <- clip_clipped. now apply clip_fits. Qed.
Lemma disc_err sto v rs r : yields (disc_sr sto v rs) r -> Rabs (r - v) <= conv_err sto rs.
Proof.
  unfold disc_sr, conv_err. destruct (Rle_dec rs 0) as [L | L]; [rewrite (proj2 (Rleb_true _ _) L); intros Y; apply yields_ret in Y; subst r; rewrite Rminus_diag_eq, Rabs_R0 by auto; lra|]. assert (P : 0 < rs) by lra. rewrite (proj2 (Rleb_false _ _) P). assert (Ev : v = v / rs * rs) by (field; lra). destruct sto; intros Y; ysimp.
  - pose proof (rhe_err (v / rs + (u - 1/2))) as E. set (q := v / rs) in *. rewrite Ev. set (k := IZR (rhe _)) in *. rewrite <- Rmult_minus_distr_r, Rabs_mult, (Rabs_pos_eq rs) by lra.
    rewrite <- (Rmult_1_l rs) at 2. apply Rmult_le_compat_r; [lra|]. revert E. mm.
  - pose proof (rhe_err (v / rs)) as E. set (q := v / rs) in *. rewrite Ev. set (k := IZR (rhe _)) in *. rewrite <- Rmult_minus_distr_r, Rabs_mult, (Rabs_pos_eq rs) by lra.
    replace (rs / 2) with (1/2 * rs) by field. apply Rmult_le_compat_r; lra.
Qed.
Lemma disc_grid sto v rs r : 0 < rs -> yields (disc_sr sto v rs) r -> exists k, r = IZR k * rs.
Proof. intros P Y. unfold disc_sr in Y. rewrite (proj2 (Rleb_false _ _) P) in Y. destruct sto; ysimp; eexists; reflexivity. Qed.
(** the outputs of one conversion *)
Lemma finalize_out p v y o i : yields (finalize p v y) o -> (i < length y)%nat -> exists t w, yields (disc_sr (f_out_sto p) w (f_out_res p)) t /\ nth i (snd o) 0 = clipped (f_out_bound p) t.
Proof.
  intros Y Hi. apply finalize_spec in Y as (raw & [L H] & ->). cbn [snd]. specialize (H i Hi). unfold fin_elem in H. cbv zeta in H. apply yields_gauss in H as (g & H). eexists _, _. split; [exact H|]. unfold out_limit. rewrite <- clip_clipped. set (f := clip_o _). rewrite (nth_indep _ 0 (f 0)) by (rewrite map_length; lia). apply map_nth.
Qed.
Definition twice (p : fbio) : R := match f_mv p with MvSepSum => 2 | _ => 1 end.
Lemma finalize_bound p v y o b u : f_out_bound p = Some b -> 0 < b -> yields (finalize p v y) o -> List.In u (snd o) -> Rabs u <= b.
Proof. intros B P Y I. apply (In_nth _ _ 0) in I as (i & Hi & <-). rewrite (finalize_len _ _ _ _ Y) in Hi. destruct (finalize_out _ _ _ _ i Y Hi) as (t & w & _ & ->). rewrite B. now apply clipped_range. Qed.
Lemma in_vadd (a c : list R) : forall u, List.In u (vadd a c) -> exists s t, List.In s a /\ List.In t c /\ u = s + t.
Proof. unfold vadd. revert c. induction a as [|x a IH]; intros [|y c] u; cbn; try tauto. intros [<- | I]; [exists x, y; auto|]. destruct (IH c u I) as (s & t & A & B & E). exists s, t; auto. Qed.
Lemma analog_bound p v W Wn s x o b u : f_out_bound p = Some b -> 0 < b -> yields (analog_mv p v W Wn s x) o -> List.In u (snd o) -> Rabs u <= twice p * b.
Proof.
  intros B P Y I. unfold analog_mv in Y. unfold twice. apply yields_bind in Y as (x' & _ & Y). destruct (f_mv p); [ysimp | | |].
  - apply yields_bind in Y as (y & _ & Y). apply (finalize_bound p v y o b) in I; auto. lra.
  - apply yields_bind in Y as (yn & _ & Y). apply yields_bind in Y as (yp & _ & Y). pose proof (finalize_bound p v _ o b u B P Y I). lra.
  - apply yields_bind in Y as (yn & _ & Y). apply yields_bind in Y as (bn & Yn & Y). apply yields_bind in Y as (yp & _ & Y). apply yields_bind in Y as (bp & Yp & Y). apply yields_ret in Y. subst o. cbn [snd] in I. apply in_vadd in I as (a & c & Ia & Ic & ->). pose proof (finalize_bound p v _ _ b _ B P Yn Ic) as Hn. pose proof (finalize_bound p v _ _ b _ B P Yp Ia) as Hp. revert Hn Hp. mm.
Qed.
(** C97: no output leaves the range of the converter: [m] is the value that noise management divides by
    and [red] the reduction of the bound management (1 if there is none) *)
Theorem C97_range : forall p v W aux alpha x y a b, on_crossbar p -> f_out_bound p = Some b -> 0 < b -> yields (forward_vector p v W aux alpha x) (Some (y, a)) ->
  exists m red, 0 < m /\ 1 <= red /\ (f_bm p = BmNone -> red = 1) /\ (f_nm p = NmNone -> m = 1) /\ (worst_case p = false -> 0 < fst (noise_mgmt p aux x) -> m = fst (noise_mgmt p aux x)) /\
  forall u, List.In u y -> Rabs u <= (match f_mv p with MvSepSum => 2 | _ => 1 end) * b * Rabs (f_out_scale p * alpha) * m * red.
Proof.
  intros p v W aux alpha x y a b C B P Y. apply forward_inv in Y; auto. destruct Y as [(N & L & _ & E) | (nmv & red & ok & z & Hr & Hn & Y & A & E)]; injection E as -> _.
  - exists 1, 1. split; [lra|]. split; [lra|]. split; auto. split; auto. split; [intros; lra|]. intros u I. apply in_map_iff in I as (r & <- & _). rewrite Rabs_R0. pose proof (Rabs_pos (f_out_scale p * alpha)). destruct (f_mv p); nra.
  - apply IZR_le in Hr as Pr. pose proof (the_scale_pos p nmv red Hr) as Ps. set (m := if nm_on p && Rltb 0 nmv then nmv else 1). exists m, (if bm_on p then IZR red else 1).
    assert (Pm : 0 < m) by (unfold m; destruct (nm_on p); cbn [andb]; [|lra]; destruct (Rltb 0 nmv) eqn:F; [now apply Rltb_true in F | lra]).
    split; [exact Pm|]. split; [destruct (bm_on p); lra|]. split; [intros F; unfold bm_on; now rewrite F|]. split; [intros F; unfold m, nm_on; now rewrite F|]. split.
    { intros F G. destruct Hn as [-> | [K _]]; [|congruence]. unfold m. rewrite (proj2 (Rltb_true _ _) G). destruct (nm_on p) eqn:N; auto. cbn [andb]. unfold nm_on in N. unfold noise_mgmt. destruct (f_nm p); try discriminate. reflexivity. }
    intros u I. apply in_map_iff in I as (t & <- & I). apply (analog_bound _ _ _ _ _ _ _ b t B P Y) in I. fold (twice p). set (K := f_out_scale p * alpha). rewrite Rabs_mult. unfold Rdiv. rewrite Rabs_mult, (Rabs_pos_eq (/ the_scale p nmv red)) by (left; now apply Rinv_0_lt_compat).
    assert (E : / the_scale p nmv red = m * (if bm_on p then IZR red else 1)). { unfold the_scale, m. destruct (nm_on p); cbn [andb]; [destruct (Rltb 0 nmv) eqn:F; [apply Rltb_true in F|]|]; destruct (bm_on p); field; lra. }
    rewrite E. assert (0 <= Rabs K * (m * (if bm_on p then IZR red else 1))) by (apply Rmult_le_pos; [apply Rabs_pos | destruct (bm_on p); nra]). nra.
Qed.
(** C97: the error of the converters is at most a step (half a step without stochastic rounding) of the
    input converter for each weight, and of the output converter once *)
Lemma dot_close (row : list R) : forall (x x' : list R) e, 0 <= e -> length x' = length x -> (forall j, (j < length x)%nat -> Rabs (nth j x' 0 - nth j x 0) <= e) -> Rabs (dot row x' - dot row x) <= sumR (map Rabs row) * e.
Proof.
  induction row as [|w row IH]; intros x x' e He L H; [cbn; rewrite Rminus_0_r, Rabs_R0; lra|]. assert (S0 : 0 <= sumR (map Rabs row)) by (clear; induction row; cbn; [lra | pose proof (Rabs_pos a); lra]). destruct x as [|a x]; destruct x' as [|a' x']; try discriminate.
  - cbn. rewrite Rminus_0_r, Rabs_R0. pose proof (Rabs_pos w). nra.
  - cbn [dot map sumR]. pose proof (H 0%nat ltac:(cbn; lia)) as H0. cbn [nth] in H0. specialize (IH x x' e He ltac:(cbn in L; lia)). replace (w * a' + dot row x' - (w * a + dot row x)) with (w * (a' - a) + (dot row x' - dot row x)) by ring. eapply Rle_trans; [apply Rabs_triang|]. rewrite Rabs_mult.
    assert (Rabs w * Rabs (a' - a) <= Rabs w * e) by (apply Rmult_le_compat_l; [apply Rabs_pos | auto]). assert (Rabs (dot row x' - dot row x) <= sumR (map Rabs row) * e) by (apply IH; intros j Hj; apply (H (Datatypes.S j)); cbn; lia). lra.
Qed.
Lemma conv_err_nonneg sto rs : 0 <= conv_err sto rs.
Proof. unfold conv_err. destruct (Rle_dec rs 0); [lra|]. destruct sto; lra. Qed.
Lemma prepare_close p s x r : quiet_input p -> (forall u, List.In u x -> fits (f_inp_bound p) (u * s)) -> yields (prepare p s x) r ->
  length r = length x /\ forall j, (j < length x)%nat -> Rabs (nth j r 0 - nth j x 0 * s) <= conv_err (f_inp_sto p) (f_inp_res p).
Proof.
  intros [N A] B Y. unfold prepare in Y. apply yields_mapMM in Y. assert (E : forall v u, fits (f_inp_bound p) (v * s) -> yields (prep_elem p s v) u -> Rabs (u - v * s) <= conv_err (f_inp_sto p) (f_inp_res p)).
  { intros v u F Yv. unfold prep_elem in Yv. apply yields_bind in Yv as (w & Y1 & Yv). apply disc_err in Y1. rewrite (proj2 (Rltb_false _ _) N) in Yv. rewrite clip_clipped in Yv. apply yields_bind in Yv as (w' & Y2 & Yv). apply yields_ret in Y2. subst w'. apply yields_ret in Yv. rewrite (proj2 (Reqb_true _ _) A) in Yv. cbn in Yv. subst u. rewrite <- (clipped_fits _ _ F) at 1. eapply Rle_trans; [apply clipped_lip | exact Y1]. }
  clear -E B Y. induction Y; cbn [length]; [split; [auto | cbn; lia]|]. destruct IHY as [L H']; [intros; apply B; now right|]. split; [lia|]. intros [|j] Hj; cbn [nth]; [apply E; auto; apply B; now left | apply H'; lia].
Qed.
Lemma scale_none p nmv red : bm_on p = false -> (nm_on p = false -> nmv = 1) -> 0 < nmv -> the_scale p nmv red = 1 / nmv.
Proof. intros B N P. unfold the_scale. rewrite B, (proj2 (Rltb_true _ _) P). destruct (nm_on p); cbn [andb]; [field; lra | rewrite N by auto; lra]. Qed.
Lemma nm_off p aux x : nm_on p = false -> fst (noise_mgmt p aux x) = 1.
Proof. unfold nm_on, noise_mgmt. destruct (f_nm p); discriminate || reflexivity. Qed.
Theorem C97_converter_error : forall p v W aux alpha x y a row i, on_crossbar p -> f_mv p <> MvSepSum -> quiet p -> f_bm p = BmNone -> let m := fst (noise_mgmt p aux x) in 0 < m ->
  (forall u, List.In u x -> fits (f_inp_bound p) (u / m)) -> yields (forward_vector p v W aux alpha x) (Some (y, a)) -> nth_error W i = Some row ->
  Rabs (nth i y 0 - f_out_scale p * alpha * m * clipped (f_out_bound p) (dot row x / m))
    <= Rabs (f_out_scale p * alpha) * m * (sumR (map Rabs row) * conv_err (f_inp_sto p) (f_inp_res p) + conv_err (f_out_sto p) (f_out_res p)).
Proof.
  intros p v W aux alpha x y a row i C Ns Q Bm m Pm Fi Y Hrow. assert (Bo : bm_on p = false) by (unfold bm_on; now rewrite Bm). apply forward_inv in Y; auto. destruct Y as [(_ & L & _) | (nmv & red & ok & z & Hr & Hn & Y & A & E)]; [fold m in L; lra|]. injection E as -> _.
  destruct Hn as [-> | [F _]]; [|unfold worst_case in F; rewrite Bm in F; discriminate]. fold m in Y |- *. rewrite (scale_none p m red) in Y |- * by (auto; apply nm_off). set (K := f_out_scale p * alpha). destruct Q as (Q1 & Q2 & Q3). rewrite neg_weights_quiet in Y by auto.
  assert (Li : (i < length W)%nat) by (apply nth_error_Some; congruence). assert (Er : nth i W [] = row) by (now apply nth_error_nth).
  unfold analog_mv in Y. apply yields_bind in Y as (x' & Y1 & Y). apply prepare_close in Y1 as [Lx Cx]; [|auto | intros u I; replace (u * (1 / m)) with (u / m) by (field; lra); auto].
  assert (G : exists o, snd o = z /\ yields (finalize p v (matvec W x')) o). { exists (ok, z). split; auto. destruct C as [_ C]. destruct (f_mv p); [now destruct C | | | now destruct Ns]; rewrite ?single_pass_quiet in Y by auto; cbn [bindM] in Y; auto. now rewrite vadd_matvec in Y. }
  destruct G as (o & <- & Yo). apply finalize_spec in Yo as (raw & [Lr Hraw] & ->). cbn [snd]. rewrite matvec_length in *. specialize (Hraw i Li). apply fin_elem_quiet in Hraw; auto. apply disc_err in Hraw. assert (Em : nth i (matvec W x') 0 = dot row x'). { unfold matvec. rewrite (nth_indep _ 0 (dot [] x')) by (rewrite map_length; auto). rewrite (map_nth (fun r => dot r x')). apply (f_equal (fun r => dot r x')). exact Er. } rewrite Em in Hraw. set (t := nth i raw 0) in *.
  assert (En : nth i (map (Rmult (K / (1 / m))) (map (clip_o (out_limit p)) raw)) 0 = K * m * clipped (f_out_bound p) t).
  { rewrite map_map. set (f := fun u => _). rewrite (nth_indep _ 0 (f 0)) by (rewrite map_length; lia). rewrite map_nth. unfold f, out_limit. rewrite clip_clipped. fold t. field. lra. }
  rewrite En. replace (K * m * clipped (f_out_bound p) t - K * m * clipped (f_out_bound p) (dot row x / m)) with (K * m * (clipped (f_out_bound p) t - clipped (f_out_bound p) (dot row x / m))) by ring. rewrite !Rabs_mult, (Rabs_pos_eq m) by lra. apply Rmult_le_compat_l; [apply Rmult_le_pos; [apply Rabs_pos | lra]|].
  eapply Rle_trans; [apply clipped_lip|]. assert (D : Rabs (dot row x' - dot row x / m) <= sumR (map Rabs row) * conv_err (f_inp_sto p) (f_inp_res p)).
  { replace (dot row x / m) with (dot row (map (Rmult (1 / m)) x)) by (rewrite dot_scale_r; field; lra). apply dot_close; [apply conv_err_nonneg | now rewrite map_length|]. intros j Hj. rewrite map_length in Hj. rewrite (nth_indep (map (Rmult (1 / m)) x) 0 (1 / m * 0)) by now rewrite map_length. rewrite (map_nth (Rmult (1 / m))), Rmult_comm. now apply Cx. }
  replace (t - dot row x / m) with ((dot row x' - dot row x / m) + (t - dot row x')) by ring. eapply Rle_trans; [apply Rabs_triang|]. lra.
Qed.
Example C97_nontrivial : let p := {| f_perfect := false; f_mv := MvOne; f_wn := WnNone; f_irdrop := 0; f_irG := 1; f_voff_std := 0; f_voff_vec := []; f_wmin := -1; f_rs := 0; f_rsmax := None;
     f_inp_asym := 0; f_out_asym := 0; f_wasym := 0; f_inp_bound := Some 1; f_inp_res := 1/127; f_inp_sto := false; f_inp_noise := 0;
     f_out_noise := 0; f_out_noise_std := 0; f_w_noise := 0; f_out_bound := Some 12; f_out_res := 1/20; f_out_sto := true; f_out_scale := 1;
     f_nl := 0; f_nl_std := 0; f_nl_vec := []; f_slope := 0; f_nm := NmAbsMax; f_nm_thres := 0; f_nm_wmax := 1; f_nm_decay := 1/1000;
     f_bm := BmNone; f_bm_neg := true; f_bm_factor := 1000; f_bm_res := 1/4 |} in
  exists y a, yields (forward_vector p mv0 [[1; -2]] (-1) 1 [2; 1]) (Some (y, a)) /\ Rabs (nth 0 y 0 - 0) <= 2 * (3 * (1/127/2) + 1/20).
Proof.
  cbv zeta. set (p := {| f_perfect := _ |}). destruct (forward_ex p mv0 [[1; -2]] (-1) 1 [2; 1]) as (y & a & Y). exists y, a. split; [exact Y|]. assert (M : maxabs [2; 1] = 2) by (cbn; mm).
  assert (Em : fst (noise_mgmt p (-1) [2; 1]) = 2) by (cbn [noise_mgmt p f_nm f_nm_thres fst]; unfold thr; rb; exact M).
  pose proof (C97_converter_error p mv0 [[1; -2]] (-1) 1 [2; 1] y a [1; -2] 0) as H. cbv zeta in H. rewrite Em in H. assert (C : on_crossbar p) by (split; [reflexivity | discriminate]). assert (Q : quiet p) by (unfold quiet, quiet_product, quiet_input, quiet_output; cbn; repeat split; auto; lra).
  specialize (H C ltac:(discriminate) Q eq_refl ltac:(lra)). assert (Fi : forall u, List.In u [2; 1] -> fits (f_inp_bound p) (u / 2)) by (intros u [<- | [<- | []]]; cbn; right; mm). specialize (H Fi Y eq_refl). cbn [f_out_scale f_out_bound f_inp_sto f_inp_res f_out_sto f_out_res p] in H. cbn [dot map sumR] in H. unfold conv_err in H. destruct (Rle_dec (1/127) 0); [lra|]. destruct (Rle_dec (1/20) 0); [lra|].
  replace ((1 * 2 + (-2 * 1 + 0)) / 2) with 0 in H by field. unfold clipped in H. destruct (Rle_dec 12 0); [lra|]. replace (Rmax (- (12)) (Rmin 12 0)) with 0 in H by mm. rewrite (Rabs_pos_eq (1 * 1)), (Rabs_pos_eq 1), (Rabs_left (-2)) in H by lra. replace (1 * 1 * 2 * 0) with 0 in H by ring. lra.
Qed.

Print Assumptions C97_range.
Print Assumptions C97_converter_error.
