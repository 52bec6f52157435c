(** * Noise management by averages and by worst cases (C98, C99) *)
From Verif Require Import Prelude Rand CompModel PulseModel PulseProofs FbModel FbSpec FbProofs FbProps FbProps2 FbProps3.

Lemma forward_aux p v W aux alpha x y a : on_crossbar p -> yields (forward_vector p v W aux alpha x) (Some (y, a)) -> a = snd (noise_mgmt p aux x).
Proof. intros C Y. apply forward_inv in Y; auto. destruct Y as [(_ & _ & _ & E) | (? & ? & ? & ? & _ & _ & _ & _ & E)]; now injection E. Qed.
Lemma backward_aux p v W aux alpha d g a : on_crossbar p -> yields (backward_vector p v W aux alpha d) (g, a) -> a = snd (noise_mgmt p aux d).
Proof.
  intros C Y. unfold backward_vector in Y. rewrite (is_perf_false p C) in Y. destruct (noise_mgmt p aux d) as [n a']. destruct (nm_on p && Rleb n 0); [apply yields_ret in Y; now injection Y|]. apply yields_bind in Y as (o & _ & Y). apply yields_ret in Y. now injection Y.
Qed.
Lemma moving_average_cons d m0 m ms : moving_average d m0 (m :: ms) = moving_average d ((1 - d) * m0 + d * m) ms.
Proof.
  unfold moving_average. cbn [length]. set (n := length ms). cbn [seq map sumR]. replace (Datatypes.S n - 1 - 0)%nat with n by lia. cbn [nth pow]. rewrite <- seq_shift, map_map. rewrite (map_ext_in _ (fun k => d * (1 - d) ^ (n - 1 - k) * nth k ms 0)) by (intros k I; apply in_seq in I; replace (Datatypes.S n - 1 - Datatypes.S k)%nat with (n - 1 - k)%nat by lia; reflexivity). ring.
Qed.
Lemma history_aux p v W alpha xs : on_crossbar p -> f_nm p = NmAverage -> 0 <= f_nm_decay p <= 1 -> forall aux aux', 0 <= aux -> fwd_history p v W alpha aux xs aux' -> aux' = moving_average (f_nm_decay p) aux (map maxabs xs).
Proof.
  intros C N D. induction xs as [|x xs IH]; intros aux aux' A H; inversion H; subst.
  - cbn. unfold moving_average. cbn. ring.
  - match goal with H : yields _ _ |- _ => apply forward_aux in H; auto; rename H into E end. unfold noise_mgmt in E. rewrite N in E. cbn [snd] in E. rewrite (proj2 (Rltb_false aux 0)) in E by lra. cbn [map]. rewrite moving_average_cons. pose proof (maxabs_nonneg x). set (mx := maxabs x) in *. replace ((1 - f_nm_decay p) * aux + f_nm_decay p * mx) with aux1 by (rewrite E; ring). apply IH; auto. rewrite E. assert (0 <= aux * (1 - f_nm_decay p)) by (apply Rmult_le_pos; lra). assert (0 <= f_nm_decay p * mx) by (apply Rmult_le_pos; lra). lra.
Qed.
(** C98: the scale after any history of forward passes is the exponential moving average of the largest
    absolute inputs, started at the first *)
Theorem C98_average : forall p v W alpha x xs aux, on_crossbar p -> f_nm p = NmAverage -> 0 <= f_nm_decay p <= 1 -> fwd_history p v W alpha (-1) (x :: xs) aux ->
  aux = moving_average (f_nm_decay p) (maxabs x) (map maxabs xs).
Proof.
  intros p v W alpha x xs aux C N D H. inversion H; subst. match goal with H : yields _ _ |- _ => apply forward_aux in H; auto; rename H into E end. unfold noise_mgmt in E. rewrite N in E. cbn [snd] in E. rewrite (proj2 (Rltb_true (-1) 0)) in E by lra. rewrite <- E. eapply history_aux; eauto. rewrite E. apply maxabs_nonneg.
Qed.
Lemma moving_average_hull d lo hi : 0 <= d <= 1 -> forall ms m0, lo <= m0 <= hi -> (forall m, List.In m ms -> lo <= m <= hi) -> lo <= moving_average d m0 ms <= hi.
Proof.
  intros D. induction ms as [|m ms IH]; intros m0 H0 H; [unfold moving_average; cbn; lra|]. rewrite moving_average_cons. apply IH; [|intros; apply H; now right]. specialize (H m (or_introl eq_refl)). nra.
Qed.
Theorem C98_average_range : forall p v W alpha x xs aux lo hi, on_crossbar p -> f_nm p = NmAverage -> 0 <= f_nm_decay p <= 1 -> fwd_history p v W alpha (-1) (x :: xs) aux ->
  (forall z, List.In z (x :: xs) -> lo <= maxabs z <= hi) -> lo <= aux <= hi.
Proof.
  intros p v W alpha x xs aux lo hi C N D H R. rewrite (C98_average p v W alpha x xs aux) by auto. apply moving_average_hull; auto; [apply R; now left|]. intros m I. apply in_map_iff in I as (z & <- & I). apply R. now right.
Qed.
(** C98: other kinds of noise management have no memory *)
Theorem C98_no_memory : forall p v W aux aux' alpha x y, on_crossbar p -> f_nm p <> NmAverage ->
  (exists a, yields (forward_vector p v W aux alpha x) (Some (y, a))) -> exists a, yields (forward_vector p v W aux' alpha x) (Some (y, a)).
Proof.
  intros p v W aux aux' alpha x y C N (a & Y). unfold forward_vector in *. rewrite (is_perf_false p C) in *. assert (E : fst (noise_mgmt p aux x) = fst (noise_mgmt p aux' x)) by (unfold noise_mgmt; destruct (f_nm p); auto; now destruct N).
  destruct (noise_mgmt p aux x) as [n b]. destruct (noise_mgmt p aux' x) as [n' b']. cbn in E. subst n'. destruct (nm_on p && Rleb n 0 && Rleb (f_inp_noise p) 0).
  - apply yields_ret in Y. injection Y as -> _. exists b'. now apply yields_ret.
  - apply yields_bind in Y as (r & Y1 & Y). apply yields_ret in Y. destruct r as [[[k s] z]|]; [|discriminate]. injection Y as -> _. exists b'. apply yields_bind. eexists. split; [exact Y1|]. now apply yields_ret.
Qed.
(** refuted: the average of the forward pass is not that of the forward inputs alone: a backward pass of
    a zero gradient changes the result of the next forward pass *)
Definition io_avg : fbio :=
  {| f_perfect := false; f_mv := MvOne; f_wn := WnNone; f_irdrop := 0; f_irG := 1; f_voff_std := 0; f_voff_vec := []; f_wmin := -1; f_rs := 0; f_rsmax := None;
     f_inp_asym := 0; f_out_asym := 0; f_wasym := 0; f_inp_bound := Some 1; f_inp_res := 0; f_inp_sto := false; f_inp_noise := 0;
     f_out_noise := 0; f_out_noise_std := 0; f_w_noise := 0; f_out_bound := None; f_out_res := 0; f_out_sto := false; f_out_scale := 1;
     f_nl := 0; f_nl_std := 0; f_nl_vec := []; f_slope := 0; f_nm := NmAverage; f_nm_thres := 0; f_nm_wmax := 1; f_nm_decay := 1/2;
     f_bm := BmNone; f_bm_neg := true; f_bm_factor := 1000; f_bm_res := 1/4 |}.
Lemma io_avg_out aux y a : yields (forward_vector io_avg mv0 [[1]] aux 1 [1]) (Some (y, a)) -> 0 <= aux <= 1 -> y = [aux / 2 + 1 / 2] /\ a = aux / 2 + 1/2.
Proof.
  intros Y A. assert (C : on_crossbar io_avg) by (split; [reflexivity | discriminate]). assert (Q : quiet io_avg) by (unfold quiet, quiet_product, quiet_input, quiet_output; cbn; repeat split; auto; lra). pose proof (forward_aux _ _ _ _ _ _ _ _ C Y) as Ea.
  assert (M : maxabs [1] = 1) by (cbn; mm). assert (Em : noise_mgmt io_avg aux [1] = (aux / 2 + 1/2, aux / 2 + 1/2)). { unfold noise_mgmt. cbn [f_nm f_nm_decay io_avg]. rewrite (proj2 (Rltb_false aux 0)) by lra. rewrite M. replace (aux * (1 - 1/2) + 1/2 * 1) with (aux / 2 + 1/2) by field. reflexivity. }
  rewrite Em in Ea. cbn in Ea. split; [|exact Ea]. apply forward_inv in Y; auto. rewrite Em in Y. cbn [fst snd] in Y. set (m := aux / 2 + 1/2) in *. assert (Pm : 1/2 <= m <= 1) by (unfold m; lra).
  destruct Y as [(_ & L & _) | (nmv & red & ok & z & Hr & Hn & Y & _ & E)]; [lra|]. injection E as -> _. destruct Hn as [-> | [F _]]; [|discriminate]. rewrite neg_weights_quiet in Y by apply Q. rewrite (scale_none io_avg m red) in Y |- * by (auto; try lra; discriminate).
  unfold analog_mv in Y. apply yields_bind in Y as (x' & Y1 & Y). cbn [f_mv io_avg] in Y. rewrite single_pass_quiet in Y by apply Q. cbn [bindM] in Y. apply finalize_ideal in Y; [| apply Q | cbn; lra | exact Logic.I]. injection Y as _ ->.
  unfold prepare in Y1. apply yields_mapMM in Y1. inversion Y1 as [|? u ? ? H1 H2]; subst. inversion H2; subst. unfold prep_elem in H1. apply yields_bind in H1 as (w & D & H1). apply disc_none in D; [|cbn; lra]. subst w. cbn [f_inp_bound f_inp_noise f_inp_asym io_avg] in H1. fold io_avg in H1. rewrite (proj2 (Rltb_true 0 1)) in H1 by lra. rewrite (proj2 (Rltb_false 0 0)) in H1 by lra. rewrite (proj2 (Reqb_true 0 0)) in H1 by reflexivity. apply yields_bind in H1 as (w & D & H1). apply yields_ret in D. apply yields_ret in H1. cbn [negb] in H1. subst w u.
  assert (Ge : 1 <= 1 * (1 / m)). { apply (Rmult_le_reg_r m); [lra|]. replace (1 * (1 / m) * m) with 1 by (field; lra). lra. } set (q := 1 * (1 / m)) in *. assert (Ec : clip_o (Some 1) q = 1). { cbn. destruct (Rltb 1 q) eqn:F; [rb; reflexivity|]. apply Rltb_false in F. assert (q = 1) as -> by lra. rb. reflexivity. }
  rewrite Ec. cbn. f_equal. field. lra.
Qed.
Theorem C98_forward_only_refuted : exists p W,
  on_crossbar p /\ f_nm p = NmAverage /\
  (exists y a1 y2 a2, yields (forward_vector p mv0 W 1 1 [1]) (Some (y, a1)) /\ yields (forward_vector p mv0 W a1 1 [1]) (Some (y2, a2)) /\ y2 = [1]) /\
  (exists y a1 g a2 y2 a3, yields (forward_vector p mv0 W 1 1 [1]) (Some (y, a1)) /\ yields (backward_vector p mv0 W a1 1 [0]) (g, a2) /\ yields (forward_vector p mv0 W a2 1 [1]) (Some (y2, a3)) /\ y2 = [3/4]).
Proof.
  exists io_avg, [[1]]. assert (C : on_crossbar io_avg) by (split; [reflexivity | discriminate]). split; [exact C|]. split; [reflexivity|]. destruct (forward_ex io_avg mv0 [[1]] 1 1 [1]) as (y & a1 & Y1). pose proof (io_avg_out 1 y a1 Y1 ltac:(lra)) as [_ E1]. replace (1 / 2 + 1 / 2) with 1 in E1 by lra. subst a1. split.
  - exists y, 1, y, 1. split; [auto|]. split; [auto|]. pose proof (io_avg_out 1 y 1 Y1 ltac:(lra)) as [-> _]. f_equal. lra.
  - destruct (total_yields _ (total_backward io_avg mv0 [[1]] 1 1 [0])) as ([g a2] & Yb). pose proof (backward_aux _ _ _ _ _ _ _ _ C Yb) as Ea. unfold noise_mgmt in Ea. cbn [f_nm f_nm_decay io_avg snd] in Ea. rewrite (proj2 (Rltb_false 1 0)) in Ea by lra. assert (M : maxabs [0] = 0) by (cbn; rewrite Rabs_R0; mm). rewrite M in Ea. replace (1 * (1 - 1/2) + 1/2 * 0) with (1/2) in Ea by field. subst a2.
    destruct (forward_ex io_avg mv0 [[1]] (1/2) 1 [1]) as (y2 & a3 & Y2). exists y, 1, g, (1/2), y2, a3. repeat (split; [assumption|]). pose proof (io_avg_out (1/2) y2 a3 Y2 ltac:(lra)) as [-> _]. f_equal. lra.
Qed.
Example C98_nontrivial : exists aux, fwd_history io_avg mv0 [[1]] 1 (-1) [[1]; [1]] aux /\ on_crossbar io_avg /\ f_nm io_avg = NmAverage /\ 0 <= f_nm_decay io_avg <= 1.
Proof.
  destruct (forward_ex io_avg mv0 [[1]] (-1) 1 [1]) as (y & a & Y). destruct (forward_ex io_avg mv0 [[1]] a 1 [1]) as (y2 & a2 & Y2). exists a2. split; [econstructor; [exact Y|]; econstructor; [exact Y2 | constructor]|]. split; [split; [reflexivity | discriminate]|]. split; [reflexivity | cbn; lra].
Qed.

(** ** C99 *)
Lemma psum_nonneg x : 0 <= psum x.
Proof. unfold psum. induction x as [|a x IH]; cbn; [lra|]. destruct (Rltb 0 a) eqn:E; [apply Rltb_true in E|]; lra. Qed.
Lemma nsum_nonpos x : nsum x <= 0.
Proof. unfold nsum. induction x as [|a x IH]; cbn; [lra|]. destruct (Rltb a 0) eqn:E; [apply Rltb_true in E|]; lra. Qed.
Lemma dot_one_sign (row : list R) M : 0 <= M -> (forall w, List.In w row -> 0 <= w <= M) -> forall x, M * nsum x <= dot row x <= M * psum x.
Proof.
  intros HM. induction row as [|w row IH]; intros H x.
  - pose proof (psum_nonneg x). pose proof (nsum_nonpos x). cbn. split; nra.
  - destruct x as [|a x]; [cbn; lra|]. specialize (IH (fun w I => H w (or_intror I)) x). pose proof (H w (or_introl eq_refl)). unfold psum, nsum in *. cbn [dot map sumR]. destruct (Rltb 0 a) eqn:E1; destruct (Rltb a 0) eqn:E2; try apply Rltb_true in E1; try apply Rltb_true in E2; try apply Rltb_false in E1; try apply Rltb_false in E2; try lra; nra.
Qed.
Lemma dot_opp_l (row x : list R) : dot (map Ropp row) x = - dot row x.
Proof. revert x. induction row as [|w row IH]; intros [|a x]; cbn; try lra. rewrite IH. ring. Qed.
Lemma dot_any_sign (row : list R) M : 0 <= M -> (forall w, List.In w row -> Rabs w <= M) -> forall x, Rabs (dot row x) <= M * (psum x - nsum x).
Proof.
  intros HM. induction row as [|w row IH]; intros H x.
  - pose proof (psum_nonneg x). pose proof (nsum_nonpos x). cbn. rewrite Rabs_R0. nra.
  - destruct x as [|a x]; [cbn; rewrite Rabs_R0; lra|]. specialize (IH (fun w I => H w (or_intror I)) x). pose proof (H w (or_introl eq_refl)) as Hw. unfold psum, nsum in *. cbn [dot map sumR]. eapply Rle_trans; [apply Rabs_triang|]. rewrite Rabs_mult. pose proof (Rabs_pos w). 
    destruct (Rltb 0 a) eqn:E1; destruct (Rltb a 0) eqn:E2; try apply Rltb_true in E1; try apply Rltb_true in E2; try apply Rltb_false in E1; try apply Rltb_false in E2; try lra.
    + rewrite (Rabs_pos_eq a) by lra. nra.
    + rewrite (Rabs_left a) by lra. nra.
    + assert (a = 0) as -> by lra. rewrite Rabs_R0. nra.
Qed.
Lemma npsum_bound p x b : f_out_bound p = Some b -> 0 < b -> f_inp_res p <= 0 -> f_nm_thres p <= 0 -> 0 <= f_nm_wmax p ->
  maxabs x <= npsum p x /\ psum x * f_nm_wmax p <= b * npsum p x /\ - nsum x * f_nm_wmax p <= b * npsum p x.
Proof.
  intros B P R T Hw. unfold npsum. rewrite B, (proj2 (Rltb_false _ _) R). unfold thr. rewrite (proj2 (Rltb_false _ _) T). cbv zeta. set (s := Rmax (psum x) (- nsum x)). set (m := Rmax (maxabs x) _). assert (S1 : psum x <= s) by apply Rmax_l. assert (S2 : - nsum x <= s) by apply Rmax_r. assert (M1 : s * f_nm_wmax p / b <= m) by apply Rmax_r. split; [apply Rmax_l|].
  assert (M2 : s * f_nm_wmax p <= b * m). { apply (Rmult_le_compat_l b) in M1; [|lra]. replace (b * (s * f_nm_wmax p / b)) with (s * f_nm_wmax p) in M1 by (field; lra). exact M1. } split; nra.
Qed.
Definition npsum_setting (p : fbio) (b : R) : Prop := on_crossbar p /\ f_mv p <> MvSepSum /\ quiet p /\ f_bm p = BmNone /\ f_nm p = NmNPSum /\ f_inp_res p <= 0 /\ f_out_res p <= 0 /\ f_nm_thres p <= 0 /\ 0 <= f_nm_wmax p /\
  f_out_bound p = Some b /\ 0 < b /\ f_inp_bound p = Some 1.
Lemma npsum_out p v W aux alpha x y a b row i : npsum_setting p b -> 0 < npsum p x -> yields (forward_vector p v W aux alpha x) (Some (y, a)) -> nth_error W i = Some row ->
  nth i y 0 = f_out_scale p * alpha * npsum p x * clipped (Some b) (dot row x / npsum p x).
Proof.
  intros (C & Ns & Q & Bm & Nm & R1 & R2 & T & Hw & B & P & Ib) Pm Y Hrow. assert (Em : fst (noise_mgmt p aux x) = npsum p x) by (unfold noise_mgmt; now rewrite Nm). destruct (npsum_bound p x b) as (M1 & _); auto.
  pose proof (C97_converter_error p v W aux alpha x y a row i C Ns Q Bm) as H. cbv zeta in H. rewrite Em in H. specialize (H Pm). assert (Fi : forall u, List.In u x -> fits (f_inp_bound p) (u / npsum p x)).
  { intros u I. rewrite Ib. cbn. right. unfold Rdiv. rewrite Rabs_mult, (Rabs_pos_eq (/ npsum p x)) by (left; now apply Rinv_0_lt_compat). apply maxabs_ub in I. apply (Rmult_le_reg_r (npsum p x)); [lra|]. rewrite Rmult_assoc, Rinv_l by lra. lra. }
  specialize (H Fi Y Hrow). unfold conv_err in H. destruct (Rle_dec (f_inp_res p) 0); [|lra]. destruct (Rle_dec (f_out_res p) 0); [|lra]. replace (Rabs (f_out_scale p * alpha) * npsum p x * (sumR (map Rabs row) * 0 + 0)) with 0 in H by ring. rewrite B in H. set (c := clipped _ _) in *. set (q := f_out_scale p * alpha * npsum p x) in *. set (w := nth i y 0) in *. pose proof (Rabs_pos (w - q * c)). assert (Z : Rabs (w - q * c) = 0) by lra. destruct (Req_dec (w - q * c) 0) as [E | E]; [lra|]. apply Rabs_no_R0 in E. lra.
Qed.
Lemma npsum_zero_out p v W aux alpha x y a b row i : npsum_setting p b -> npsum p x <= 0 -> yields (forward_vector p v W aux alpha x) (Some (y, a)) -> nth_error W i = Some row -> nth i y 0 = 0 /\ dot row x = 0.
Proof.
  intros (C & Ns & Q & Bm & Nm & R1 & R2 & T & Hw & B & P & Ib) Z Y Hrow. assert (Zx : zero_input x). { apply maxabs_le0. destruct (npsum_bound p x b) as (M1 & _); auto. lra. } split; [|now apply dot_zero_r].
  apply forward_inv in Y; auto. assert (Em : fst (noise_mgmt p aux x) = npsum p x) by (unfold noise_mgmt; now rewrite Nm). rewrite Em in Y. destruct Y as [(_ & _ & _ & E) | (nmv & red & ok & z & Hr & Hn & Y & _ & E)]; injection E as -> _.
  - clear. revert i. induction W; intros [|i]; cbn; auto.
  - rewrite neg_weights_quiet in Y by apply Q. apply analog_quiet in Y; auto; [|intros u I; rewrite (Zx u I), Ib; cbn; right; rewrite Rmult_0_l, Rabs_R0; lra]. injection Y as _ ->. rewrite matvec_zero by auto. rewrite !map_map. assert (Ec : clip_o (out_limit p) (the_scale p nmv red * 0) = 0). { rewrite Rmult_0_r. apply out_limit_fits. rewrite B. cbn. right. rewrite Rabs_R0. lra. } rewrite Ec. clear. revert i. induction W; intros [|i]; cbn; auto. apply Rmult_0_r.
Qed.
(** C99: rows of one sign are never clipped if their weights are within the assumed range *)
Theorem C99_one_sign : forall p v W aux alpha x y a b row i, npsum_setting p b -> yields (forward_vector p v W aux alpha x) (Some (y, a)) -> nth_error W i = Some row ->
  (forall w, List.In w row -> 0 <= w <= f_nm_wmax p) \/ (forall w, List.In w row -> - f_nm_wmax p <= w <= 0) -> nth i y 0 = f_out_scale p * alpha * dot row x.
Proof.
  intros p v W aux alpha x y a b row i S Y Hrow Hs. destruct (Rle_dec (npsum p x) 0) as [Z | Z].
  - destruct (npsum_zero_out p v W aux alpha x y a b row i) as [-> ->]; auto. ring.
  - assert (Pm : 0 < npsum p x) by lra. rewrite (npsum_out p v W aux alpha x y a b row i) by auto. destruct S as (C & Ns & Q & Bm & Nm & R1 & R2 & T & Hw & B & P & Ib). destruct (npsum_bound p x b) as (_ & M2 & M3); auto. assert (D : Rabs (dot row x) <= b * npsum p x).
    { destruct Hs as [H | H].
      - pose proof (dot_one_sign row (f_nm_wmax p) Hw H x). mm.
      - assert (H' : forall w, List.In w (map Ropp row) -> 0 <= w <= f_nm_wmax p) by (intros w I; apply in_map_iff in I as (w' & <- & I); specialize (H w' I); lra). pose proof (dot_one_sign (map Ropp row) (f_nm_wmax p) Hw H' x) as D. rewrite dot_opp_l in D. mm. }
    rewrite clipped_fits; [field; lra|]. cbn. right. unfold Rdiv. rewrite Rabs_mult, (Rabs_pos_eq (/ npsum p x)) by (left; now apply Rinv_0_lt_compat). apply (Rmult_le_reg_r (npsum p x)); [lra|]. rewrite Rmult_assoc, Rinv_l by lra. lra.
Qed.
(** C99: other rows are reduced by at most a factor of two *)
Theorem C99_mixed_signs : forall p v W aux alpha x y a b row i, npsum_setting p b -> yields (forward_vector p v W aux alpha x) (Some (y, a)) -> nth_error W i = Some row ->
  (forall w, List.In w row -> Rabs w <= f_nm_wmax p) -> exists c, 1/2 <= c <= 1 /\ nth i y 0 = c * (f_out_scale p * alpha * dot row x).
Proof.
  intros p v W aux alpha x y a b row i S Y Hrow Hs. destruct (Rle_dec (npsum p x) 0) as [Z | Z].
  - destruct (npsum_zero_out p v W aux alpha x y a b row i) as [-> ->]; auto. exists 1. split; [lra | ring].
  - assert (Pm : 0 < npsum p x) by lra. rewrite (npsum_out p v W aux alpha x y a b row i) by auto. destruct S as (C & Ns & Q & Bm & Nm & R1 & R2 & T & Hw & B & P & Ib). destruct (npsum_bound p x b) as (_ & M2 & M3); auto. pose proof (dot_any_sign row (f_nm_wmax p) Hw Hs x) as D. set (m := npsum p x) in *. set (q := dot row x) in *.
    assert (D2 : Rabs (q / m) <= 2 * b). { unfold Rdiv. rewrite Rabs_mult, (Rabs_pos_eq (/ m)) by (left; now apply Rinv_0_lt_compat). apply (Rmult_le_reg_r m); [lra|]. rewrite Rmult_assoc, Rinv_l by lra. lra. }
    assert (Eq : q = m * (q / m)) by (field; lra). set (t := q / m) in *. rewrite Eq. set (K := f_out_scale p * alpha). enough (G : exists c, 1/2 <= c <= 1 /\ clipped (Some b) t = c * t) by (destruct G as (c & Hc & ->); exists c; split; [auto | ring]).
    unfold clipped. destruct (Rle_dec b 0); [lra|]. destruct (Rle_dec (Rabs t) b) as [L | L]; [exists 1; split; [lra | mm]|]. destruct (Rle_dec 0 t) as [G | G].
    + exists (b / t). rewrite (Rabs_pos_eq t) in * by lra. split; [split; apply (Rmult_le_reg_r t); try lra; replace (b / t * t) with b by (field; lra); lra|]. replace (b / t * t) with b by (field; lra). mm.
    + exists (- b / t). rewrite (Rabs_left t) in * by lra. split; [split; apply (Rmult_le_reg_r (- t)); try lra; replace (- b / t * - t) with b by (field; lra); lra|]. replace (- b / t * t) with (- b) by (field; lra). mm.
Qed.
Definition io_np : fbio := io0 MvOne NmNPSum BmNone (Some 1) (Some 1).
Lemma io_np_setting : npsum_setting io_np 1.
Proof. unfold npsum_setting. split; [split; [reflexivity | discriminate]|]. split; [discriminate|]. split; [apply io0_quiet|]. cbn. repeat split; auto; lra. Qed.
Example C99_nontrivial : exists y a, yields (forward_vector io_np mv0 [[1; 1/2]] (-1) 1 [3; -2]) (Some (y, a)) /\ nth 0 y 0 = 2.
Proof.
  destruct (forward_ex io_np mv0 [[1; 1/2]] (-1) 1 [3; -2]) as (y & a & Y). exists y, a. split; [exact Y|]. rewrite (C99_one_sign io_np mv0 [[1; 1/2]] (-1) 1 [3; -2] y a 1 [1; 1/2] 0 io_np_setting Y eq_refl); [cbn; lra|]. left. intros w [<- | [<- | []]]; cbn; lra.
Qed.
(** refuted: "to ensure that the output is not clipping" fails for rows of both signs *)
Theorem C99_never_clips_refuted : exists y a, yields (forward_vector io_np mv0 [[1; -1]] (-1) 1 [1; -1]) (Some (y, a)) /\ nth 0 y 0 = 1 /\ dot [1; -1] [1; -1] = 2.
Proof.
  destruct (forward_ex io_np mv0 [[1; -1]] (-1) 1 [1; -1]) as (y & a & Y). exists y, a. split; [exact Y|]. assert (M : maxabs [1; -1] = 1) by (cbn; mm). assert (Np : npsum io_np [1; -1] = 1). { unfold npsum. rewrite M. cbn [f_out_bound f_nm_thres f_nm_wmax f_inp_res io_np io0]. unfold thr, psum, nsum. cbn [map sumR]. rb. mm. }
  split; [|cbn; lra]. rewrite (npsum_out io_np mv0 [[1; -1]] (-1) 1 [1; -1] y a 1 [1; -1] 0 io_np_setting ltac:(rewrite Np; lra) Y eq_refl). rewrite Np. cbn [dot f_out_scale io_np io0]. unfold clipped. destruct (Rle_dec 1 0); [lra|]. mm.
Qed.

Print Assumptions C98_average.
Print Assumptions C98_average_range.
Print Assumptions C98_no_memory.
Print Assumptions C98_forward_only_refuted.
Print Assumptions C99_one_sign.
Print Assumptions C99_mixed_signs.
Print Assumptions C99_never_clips_refuted.
