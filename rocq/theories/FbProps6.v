(** * Non-idealities of the product (C101) *)
From Verif Require Import HwaSpec Prelude Rand CompModel PulseModel PulseSpec PulseProofs MixProps2 HwaProps4 HwaProps6 FbModel FbSpec FbProofs FbProps FbProps2 FbProps3.

Lemma nth_combine_map (f : nat -> R -> R) (y : list R) i : (i < length y)%nat -> nth i (map (fun iy => f (fst iy) (snd iy)) (combine (seq 0 (length y)) y)) 0 = f i (nth i y 0).
Proof.
  enough (G : forall k, (i < length y)%nat -> nth i (map (fun iy => f (fst iy) (snd iy)) (combine (seq k (length y)) y)) 0 = f (k + i)%nat (nth i y 0)) by apply (G 0%nat).
  revert i. induction y as [|a y IH]; intros i k Hi; cbn [length seq combine map nth] in *; [lia|]. destruct i as [|i]; [now rewrite Nat.add_0_r|]. cbn [fst snd]. rewrite IH by lia. now replace (Datatypes.S k + i)%nat with (k + Datatypes.S i)%nat by lia.
Qed.
Lemma nth_matvec W x i row : nth_error W i = Some row -> nth i (matvec W x) 0 = dot row x.
Proof.
  intros H. assert (Li : (i < length W)%nat) by (apply nth_error_Some; congruence). unfold matvec. rewrite (nth_indep _ 0 (dot [] x)) by (rewrite map_length; auto). rewrite (map_nth (fun r => dot r x)). apply (f_equal (fun r => dot r x)). now apply nth_error_nth.
Qed.
Lemma volt_nth p v x y i : (i < length y)%nat -> nth i (volt p v x y) 0 = volt_elem p (sumR x) (nth i (v_off v) 0) (nth i y 0).
Proof. intros H. unfold volt. apply (nth_combine_map (fun i u => volt_elem p (sumR x) (nth i (v_off v) 0) u)). exact H. Qed.
Definition no_wnoise (p : fbio) : Prop := f_wn p = WnNone \/ f_w_noise p <= 0.
Lemma wnoise_off p W x y : no_wnoise p -> wnoise p W x y = Ret y.
Proof. unfold wnoise. intros [-> | H]; auto. rewrite (proj2 (Rltb_false _ _) H). destruct (f_wn p); auto. Qed.
(** C101: voltage offsets are those of a differential read against a reference of [v_offset_w_min]: the
    coding device is scaled by [1 - v], the reference by [1 + v] *)
Theorem C101_voltage_offset : forall p v W x y i row, 0 < f_voff_std p \/ f_voff_vec p <> [] -> f_rs p <= 0 -> f_irdrop p <= 0 -> no_wnoise p -> yields (single_pass p v W x) y -> nth_error W i = Some row ->
  let vi := nth i (v_off v) 0 in let ref := - f_wmin p * sumR x in nth i y 0 = (1 - vi) * (dot row x + ref) - (1 + vi) * ref.
Proof.
  intros p v W x y i row Hv Rs Ir Wn Y Hrow. cbv zeta. unfold single_pass in Y. rewrite (proj2 (Rltb_false _ _) Ir) in Y. assert (Ev : has_voff p = true). { unfold has_voff. destruct Hv as [H | H]; [now rewrite (proj2 (Rltb_true _ _) H)|]. destruct (f_voff_vec p); [now destruct H|]. apply orb_true_r. }
  rewrite Ev, wnoise_off in Y by auto. apply yields_ret in Y. subst y. rewrite volt_nth by (rewrite matvec_length; apply nth_error_Some; congruence). rewrite (nth_matvec _ _ _ _ Hrow). unfold volt_elem. rewrite (Rmax_right _ _ Rs). rewrite (proj2 (Rleb_true 0 0)) by lra. destruct (Reqb (f_wmin p) 0) eqn:E; [apply Reqb_true in E; rewrite E|]; ring.
Qed.
(** C101: so outputs without an offset are exact *)
Theorem C101_no_offset : forall p v W x y i row, 0 < f_voff_std p \/ f_voff_vec p <> [] -> f_rs p <= 0 -> f_irdrop p <= 0 -> no_wnoise p -> yields (single_pass p v W x) y -> nth_error W i = Some row ->
  nth i (v_off v) 0 = 0 -> nth i y 0 = dot row x.
Proof. intros p v W x y i row Hv Rs Ir Wn Y Hrow Z. rewrite (C101_voltage_offset p v W x y i row) by auto. rewrite Z. ring. Qed.
(** C101: a series resistance shrinks an output and keeps its sign *)
Definition shrink (rs t : R) : R := t / (1 + rs * Rabs t).
Lemma shrink_sub rs a b : 0 <= rs -> b <= a -> 0 <= shrink rs a - shrink rs b <= a - b.
Proof.
  intros H L. unfold shrink. pose proof (Rabs_pos a). pose proof (Rabs_pos b). assert (0 <= rs * Rabs a) by (apply Rmult_le_pos; lra). assert (0 <= rs * Rabs b) by (apply Rmult_le_pos; lra).
  assert (P : 1 <= (1 + rs * Rabs a) * (1 + rs * Rabs b)) by nra. assert (E : a / (1 + rs * Rabs a) - b / (1 + rs * Rabs b) = (a - b + rs * (a * Rabs b - b * Rabs a)) / ((1 + rs * Rabs a) * (1 + rs * Rabs b))) by (field; split; lra). rewrite E.
  assert (N : 0 <= a * Rabs b - b * Rabs a). { destruct (Rabs_cases a) as [[? ->] | [? ->]]; destruct (Rabs_cases b) as [[? ->] | [? ->]]; nra. }
  split.
  - apply Rmult_le_pos; [assert (0 <= rs * (a * Rabs b - b * Rabs a)) by (apply Rmult_le_pos; lra); lra | left; apply Rinv_0_lt_compat; lra].
  - apply (Rmult_le_reg_r ((1 + rs * Rabs a) * (1 + rs * Rabs b))); [lra|]. unfold Rdiv. rewrite Rmult_assoc, Rinv_l, Rmult_1_r by lra. set (A := Rabs a) in *. set (B := Rabs b) in *. assert (rs * (a * B - b * A) <= (a - b) * (rs * A + rs * B)). { replace ((a - b) * (rs * A + rs * B)) with (rs * ((a - b) * (A + B))) by ring. apply Rmult_le_compat_l; [lra|]. assert (0 <= a * A - b * B). { unfold A, B. destruct (Rabs_cases a) as [[? ->] | [? ->]]; destruct (Rabs_cases b) as [[? ->] | [? ->]]; nra. } lra. }
    assert (0 <= (a - b) * (rs * A * (rs * B))) by (apply Rmult_le_pos; [lra | apply Rmult_le_pos; lra]). nra.
Qed.
Theorem C101_series_resistance : forall p v W x y i row, 0 < f_rs p -> f_rsmax p = None -> f_irdrop p <= 0 -> no_wnoise p -> yields (single_pass p v W x) y -> nth_error W i = Some row -> nth i (v_off v) 0 = 0 ->
  (0 <= dot row x -> 0 <= nth i y 0 <= dot row x) /\ (dot row x <= 0 -> dot row x <= nth i y 0 <= 0).
Proof.
  intros p v W x y i row Rs Cap Ir Wn Y Hrow Z. unfold single_pass in Y. rewrite (proj2 (Rltb_false _ _) Ir) in Y. assert (Ev : has_voff p = true) by (unfold has_voff; rewrite (proj2 (Rltb_true _ _) Rs); now rewrite orb_true_r).
  rewrite Ev, wnoise_off in Y by auto. apply yields_ret in Y. subst y. rewrite volt_nth by (rewrite matvec_length; apply nth_error_Some; congruence). rewrite (nth_matvec _ _ _ _ Hrow), Z. set (q := dot row x). unfold volt_elem. rewrite Cap. cbn [cap]. rewrite (Rmax_left (f_rs p) 0) by lra. rewrite (proj2 (Rleb_false _ _) Rs). set (r := f_rs p) in *.
  destruct (Reqb (f_wmin p) 0).
  - replace ((1 - 0) * q / (1 + r * Rabs q)) with (shrink r q - shrink r 0) by (unfold shrink; rewrite Rabs_R0; field; pose proof (Rabs_pos q); nra). split; intros L; [pose proof (shrink_sub r q 0 ltac:(lra) L); lra | pose proof (shrink_sub r 0 q ltac:(lra) L); lra].
  - set (ref := - f_wmin p * sumR x). replace ((1 - 0) * (q + ref) / (1 + r * Rabs (q + ref)) - (1 + 0) * ref / (1 + r * Rabs ref)) with (shrink r (q + ref) - shrink r ref) by (unfold shrink; field; pose proof (Rabs_pos (q + ref)); pose proof (Rabs_pos ref); split; nra).
    split; intros L; [pose proof (shrink_sub r (q + ref) ref ltac:(lra) ltac:(lra)); lra | pose proof (shrink_sub r ref (q + ref) ltac:(lra) ltac:(lra)); lra].
Qed.
(** C101: the drawn offsets and nonlinearities are never negative *)
Theorem C101_drawn : forall p inp out v, yields (populate_mv p inp out) v ->
  (f_voff_vec p = [] -> forall u, List.In u (v_off v) -> 0 <= u) /\ (f_nl_vec p = [] -> forall u, List.In u (v_nl v) -> 0 <= u) /\ (forall u, List.In u (v_noise v) -> 0 <= u) /\
  (has_voff p = true -> f_voff_vec p = [] -> length (v_off v) = out).
Proof.
  intros p inp out v Y. unfold populate_mv in Y. apply yields_bind in Y as (vo & Y1 & Y). apply yields_bind in Y as (nl & Y2 & Y). apply yields_bind in Y as (ws & Y3 & Y). apply yields_bind in Y as (no & Y4 & Y). apply yields_ret in Y. subst v. cbn [v_off v_nl v_noise].
  assert (G : forall (f : nat -> M R) l r, (forall a b, yields (f a) b -> 0 <= b) -> yields (mapMM f l) r -> forall u, List.In u r -> 0 <= u). { intros f l r H Yr u I. apply yields_mapMM in Yr. induction Yr; [destruct I|]. destruct I as [<- | I]; eauto. }
  repeat split.
  - intros E. rewrite E in Y1. destruct (negb _ && has_voff p); [|apply yields_ret in Y1; subst vo; cbn; tauto]. refine (G _ _ _ _ Y1). intros a b Yb. ysimp. apply Rmax_r.
  - intros E. rewrite E in Y2. destruct (has_cal p && _); [|apply yields_ret in Y2; subst nl; cbn; tauto]. refine (G _ _ _ _ Y2). intros a b Yb. ysimp. apply Rabs_pos.
  - destruct (Rltb 0 (f_out_noise_std p)); [|apply yields_ret in Y4; subst no; cbn; tauto]. refine (G _ _ _ _ Y4). intros a b Yb. ysimp. apply Rabs_pos.
  - intros Hv E. rewrite E, Hv in Y1. destruct out as [|out]; [cbn in Y1; apply yields_ret in Y1; now subst vo|]. cbn [length Nat.eqb negb andb] in Y1. apply mapMM_length in Y1. now rewrite seq_length in Y1.
Qed.
(** C101: IR drop of a single active input [j] of [n]: the drop grows with [j] and is 0 for the first *)
Definition one_hot (n j : nat) (a : R) : vec := map (fun k => if Nat.eqb k j then a else 0) (seq 0 n).
Definition drop_factor (p : fbio) (n j : nat) (cur : R) : R :=
  let a := INR n / f_irG p * cur in f_irdrop p * (a * (a * (1/20 * a - 1/5) + 1/2)) * (1 - (1 - INR j / INR n) * (1 - INR j / INR n)).
Lemma dot_one_hot (row : list R) n j a : length row = n -> (j < n)%nat -> dot row (one_hot n j a) = nth j row 0 * a.
Proof.
  unfold one_hot. intros L H. enough (G : forall k, (k <= j < k + length row)%nat -> dot row (map (fun i => if Nat.eqb i j then a else 0) (seq k (length row))) = nth (j - k) row 0 * a) by (rewrite <- L; rewrite G by lia; now replace (j - 0)%nat with j by lia).
  clear n L H. revert j. induction row as [|w row IH]; intros j k Hk; cbn [length seq map dot] in *; [lia|]. destruct (Nat.eqb_spec k j) as [-> | N].
  - rewrite Nat.sub_diag. cbn [nth]. enough (Z : dot row (map (fun i => if Nat.eqb i j then a else 0) (seq (Datatypes.S j) (length row))) = 0) by (rewrite Z; ring). apply dot_zero_r. intros u I. apply in_map_iff in I as (i & <- & I). apply in_seq in I. destruct (Nat.eqb_spec i j); [lia | auto].
  - rewrite IH by lia. replace (j - k)%nat with (Datatypes.S (j - Datatypes.S k)) by lia. cbn [nth]. ring.
Qed.
Lemma one_hot_map n j a (f : nat -> R -> R) : (forall k, f k 0 = 0) -> map2 f (seq 0 n) (one_hot n j a) = one_hot n j (f j a).
Proof.
  intros Z. unfold one_hot. generalize 0%nat as k. induction n as [|n IH]; intros k; cbn; auto. rewrite IH. f_equal. destruct (Nat.eqb_spec k j) as [-> | N]; auto.
Qed.
Lemma nth_map2_R {A B} (f : A -> B -> R) (l : list A) (r : list B) i a b : nth_error l i = Some a -> nth_error r i = Some b -> nth i (map2 f l r) 0 = f a b.
Proof. revert r i. induction l as [|x l IH]; intros [|y r] [|i]; cbn; try discriminate; [congruence | apply IH]. Qed.
Lemma nth_error_combine {A B} (l : list A) (r : list B) i a b : nth_error l i = Some a -> nth_error r i = Some b -> nth_error (combine l r) i = Some (a, b).
Proof. revert r i. induction l as [|x l IH]; intros [|y r] [|i]; cbn; try discriminate; [congruence | apply IH]. Qed.
Theorem C101_ir_drop : forall p v W n j a y i row, shape (length W) n W -> (j < n)%nat -> 0 < f_irdrop p -> 0 < f_irG p -> has_voff p = false -> no_wnoise p ->
  yields (single_pass p v W (one_hot n j a)) y -> nth_error W i = Some row ->
  nth i y 0 = nth j row 0 * a * (1 - drop_factor p n j (Rabs (nth j row 0) * Rabs a)).
Proof.
  intros p v W n j a y i row [_ F] Hj Ir G Hv Wn Y Hrow. unfold single_pass in Y. rewrite (proj2 (Rltb_true _ _) Ir), Hv, wnoise_off in Y by auto. apply yields_ret in Y. subst y. assert (Lr : length row = n) by (rewrite Forall_forall in F; apply F; now apply nth_error_In in Hrow). unfold ir_drop.
  assert (Lo : length (one_hot n j a) = n) by (unfold one_hot; rewrite map_length, seq_length; auto). rewrite Lo. rewrite (one_hot_map n j a (fun k u => u * (1 - (1 - INR k / INR n) * (1 - INR k / INR n)))) by (intros; ring). cbv zeta.
  assert (Ec : nth_error (total_current W (one_hot n j a)) i = Some (Rabs (nth j row 0) * Rabs a)).
  { unfold total_current. rewrite (map_nth_error _ _ _ Hrow). f_equal. assert (Ea : map Rabs (one_hot n j a) = one_hot n j (Rabs a)). { unfold one_hot. rewrite map_map. apply map_ext. intros k. destruct (Nat.eqb k j); auto. apply Rabs_R0. } rewrite Ea, dot_one_hot by (rewrite ?map_length; auto). f_equal. rewrite <- (map_nth Rabs). now rewrite Rabs_R0. }
  erewrite nth_map2_R; [| unfold matvec; apply map_nth_error; exact Hrow | apply nth_error_combine; [apply map_nth_error; exact Ec | unfold matvec; apply map_nth_error; exact Hrow]]. cbn [fst snd]. rewrite !dot_one_hot by auto. unfold drop_factor. set (g := 1 - _). cbv zeta. field. lra.
Qed.
Theorem C101_ir_drop_grows : forall p n j k cur, 0 < f_irdrop p -> 0 < f_irG p -> (j <= k)%nat -> (k < n)%nat -> 0 <= cur ->
  0 <= drop_factor p n j cur <= drop_factor p n k cur /\ drop_factor p n 0 cur = 0 /\ (0 < cur -> (0 < j)%nat -> 0 < drop_factor p n j cur).
Proof.
  intros p n j k cur Ir G Hjk Hk Hc. unfold drop_factor. cbv zeta. assert (Pn : 0 < INR n) by (apply lt_0_INR; lia). set (a := INR n / f_irG p * cur). assert (Pa : 0 <= a) by (apply Rmult_le_pos; [apply Rlt_le, Rdiv_lt_0_compat; lra | lra]). set (c := a * (a * (1/20 * a - 1/5) + 1/2)). assert (Pc : 0 <= c) by (apply Rmult_le_pos; [lra | nra]).
  assert (Hq : forall m, (m < n)%nat -> 0 <= INR m / INR n <= 1). { intros m Hm. apply lt_INR in Hm. pose proof (pos_INR m). split; [apply Rmult_le_pos; [lra | left; apply Rinv_0_lt_compat; lra]|]. apply (Rmult_le_reg_r (INR n)); [lra|]. unfold Rdiv. rewrite Rmult_assoc, Rinv_l by lra. lra. }
  pose proof (Hq j ltac:(lia)) as Qj. pose proof (Hq k Hk) as Qk. assert (Le : INR j / INR n <= INR k / INR n) by (apply Rmult_le_compat_r; [left; apply Rinv_0_lt_compat; lra | apply le_INR; lia]). set (u := INR j / INR n) in *. set (w := INR k / INR n) in *. assert (Pi : 0 <= f_irdrop p * c) by (apply Rmult_le_pos; lra). split; [split|split].
  - apply Rmult_le_pos; [lra | nra].
  - apply Rmult_le_compat_l; [lra | nra].
  - change (INR 0) with 0. unfold Rdiv. rewrite Rmult_0_l. ring.
  - intros Pcur Pj. apply Rmult_lt_0_compat; [apply Rmult_lt_0_compat; [lra|]|]. { unfold c. assert (0 < a) by (apply Rmult_lt_0_compat; [apply Rdiv_lt_0_compat; lra | lra]). apply Rmult_lt_0_compat; [lra | nra]. } assert (0 < u) by (apply Rdiv_lt_0_compat; [apply lt_0_INR; lia | lra]). nra.
Qed.
(** refuted: "the first input is farthest away": the first input has no drop at all, the last has most *)
Definition io_ir : fbio :=
  {| f_perfect := false; f_mv := MvOne; f_wn := WnNone; f_irdrop := 1; f_irG := 1; f_voff_std := 0; f_voff_vec := []; f_wmin := -1; f_rs := 0; f_rsmax := None;
     f_inp_asym := 0; f_out_asym := 0; f_wasym := 0; f_inp_bound := None; f_inp_res := 0; f_inp_sto := false; f_inp_noise := 0;
     f_out_noise := 0; f_out_noise_std := 0; f_w_noise := 0; f_out_bound := None; f_out_res := 0; f_out_sto := false; f_out_scale := 1;
     f_nl := 0; f_nl_std := 0; f_nl_vec := []; f_slope := 0; f_nm := NmNone; f_nm_thres := 0; f_nm_wmax := 1; f_nm_decay := 0;
     f_bm := BmNone; f_bm_neg := true; f_bm_factor := 1000; f_bm_res := 1/4 |}.
Theorem C101_first_farthest_refuted : exists y0 y1, yields (single_pass io_ir mv0 [[1/2; 1/2]] [1; 0]) y0 /\ yields (single_pass io_ir mv0 [[1/2; 1/2]] [0; 1]) y1 /\ nth 0 y0 0 = 1/2 /\ nth 0 y1 0 < 1/2.
Proof.
  destruct (total_yields _ (total_single io_ir mv0 [[1/2; 1/2]] (one_hot 2 0 1))) as (y0 & Y0). destruct (total_yields _ (total_single io_ir mv0 [[1/2; 1/2]] (one_hot 2 1 1))) as (y1 & Y1). exists y0, y1. split; [exact Y0|]. split; [exact Y1|].
  assert (S : shape (length [[1/2; 1/2]]) 2 [[1/2; 1/2]]) by (split; [reflexivity | repeat constructor]). assert (Hv : has_voff io_ir = false) by (unfold has_voff; cbn; rb; reflexivity). assert (Wn : no_wnoise io_ir) by (left; reflexivity).
  rewrite (C101_ir_drop io_ir mv0 [[1/2; 1/2]] 2 0 1 y0 0 [1/2; 1/2] S ltac:(lia) ltac:(cbn; lra) ltac:(cbn; lra) Hv Wn Y0 eq_refl). rewrite (C101_ir_drop io_ir mv0 [[1/2; 1/2]] 2 1 1 y1 0 [1/2; 1/2] S ltac:(lia) ltac:(cbn; lra) ltac:(cbn; lra) Hv Wn Y1 eq_refl). cbn [nth]. set (cur := Rabs (1/2) * Rabs 1). assert (Pc : 0 < cur) by (unfold cur; apply Rmult_lt_0_compat; apply Rabs_pos_lt; lra).
  destruct (C101_ir_drop_grows io_ir 2 1 1 cur ltac:(cbn; lra) ltac:(cbn; lra) ltac:(lia) ltac:(lia) ltac:(lra)) as (_ & -> & G). specialize (G Pc ltac:(lia)). split; lra.
Qed.
(** C101: output-referred weight noise has mean zero and the variance of independent noise on each weight:
    [w_noise] for each weight, or [w_noise * sqrt |w|] for PCM-like noise *)
Definition weight_var (p : fbio) (w : R) : R := match f_wn p with WnNone => 0 | WnAdd => f_w_noise p * f_w_noise p | WnPcm => f_w_noise p * f_w_noise p * Rabs w end.
Lemma dot_sq_nonneg (x : list R) : 0 <= dot x x.
Proof. induction x; cbn; [lra | nra]. Qed.
Lemma dot_abs_sq_nonneg (row x : list R) : 0 <= dot (map Rabs row) (map (fun v => v * v) x).
Proof. revert x. induction row as [|w row IH]; intros [|a x]; cbn; try lra. specialize (IH x). pose proof (Rabs_pos w). assert (0 <= a * a) by nra. assert (0 <= Rabs w * (a * a)) by (apply Rmult_le_pos; auto). unfold vec in *. lra. Qed.
Lemma wnoise_var p x row : length row = length x -> wnoise_std p x row * wnoise_std p x row = sumR (map2 (fun w a => weight_var p w * (a * a)) row x).
Proof.
  intros L. unfold wnoise_std, weight_var. destruct (f_wn p).
  - rewrite Rmult_0_l. revert x L. induction row as [|w row IH]; intros [|a x] L; cbn in *; try lra; try lia. rewrite <- IH by lia. ring.
  - replace (f_w_noise p * sqrt (dot x x) * (f_w_noise p * sqrt (dot x x))) with (f_w_noise p * f_w_noise p * (sqrt (dot x x) * sqrt (dot x x))) by ring. rewrite sqrt_sqrt by apply dot_sq_nonneg. revert x L. induction row as [|w row IH]; intros [|a x] L; cbn in *; try lra; try lia. rewrite <- IH by lia. ring.
  - set (d := dot _ _). replace (f_w_noise p * sqrt d * (f_w_noise p * sqrt d)) with (f_w_noise p * f_w_noise p * (sqrt d * sqrt d)) by ring. rewrite sqrt_sqrt by apply dot_abs_sq_nonneg. unfold d. clear d. revert x L. induction row as [|w row IH]; intros [|a x] L; cbn [map dot map2 sumR length] in *; try lra; try lia. rewrite <- IH by lia. ring.
Qed.
Theorem C101_weight_noise : forall N G p v W x i row, standard G -> nth_error W i = Some row -> length row = length x -> f_irdrop p <= 0 -> has_voff p = false -> f_wn p <> WnNone -> 0 < f_w_noise p ->
  expect N G (single_pass p v W x) (fun y => nth i y 0) = dot row x /\
  expect N G (single_pass p v W x) (fun y => (nth i y 0 - dot row x) * (nth i y 0 - dot row x)) = sumR (map2 (fun w a => weight_var p w * (a * a)) row x).
Proof.
  intros N G p v W x i row SG Hrow L Ir Hv Wt Wn. destruct (standard_mean G SG) as [M1 _]. pose proof (proj1 SG) as HG. unfold single_pass. rewrite (proj2 (Rltb_false _ _) Ir), Hv. cbv zeta. unfold wnoise. rewrite (proj2 (Rltb_true _ _) Wn).
  set (f := fun ry : vec * R => Gauss (fun g => Ret (snd ry + wnoise_std p x (fst ry) * g))). replace (match f_wn p with WnNone => Ret (matvec W x) | _ => mapMM f (combine W (matvec W x)) end) with (mapMM f (combine W (matvec W x))) by (destruct (f_wn p); auto; now destruct Wt).
  assert (T : forall a, List.In a (combine W (matvec W x)) -> total (f a)) by (intros; apply total_gauss; intros; apply total_ret). assert (Hc : nth_error (combine W (matvec W x)) i = Some (row, dot row x)) by (apply nth_error_combine; [exact Hrow | exact (map_nth_error (fun r => dot r x) i W Hrow)]).
  pose proof (expect_marginal N G HG f (fun u => u) 0 _ i _ T Hc) as E1. pose proof (expect_marginal N G HG f (fun u => (u - dot row x) * (u - dot row x)) 0 _ i _ T Hc) as E2. split; [etransitivity; [exact E1|] | etransitivity; [exact E2|]]; unfold f; cbn [expect fst snd].
  - rewrite avg_lin, M1 by auto. ring.
  - rewrite (avg_square G (dot row x) (wnoise_std p x row) (dot row x)) by auto. rewrite wnoise_var by auto. ring.
Qed.
(** C101: with a slope calibration at a fraction [c] of the output range, the output stage of a tile with
    equal nonlinearities has slope 1 there *)
Theorem C101_slope_calibration : forall p inp out v i ob, yields (populate_mv p inp out) v -> (i < out)%nat -> f_out_bound p = Some ob -> 0 < ob -> 0 < f_nl p -> f_nl_std p <= 0 -> f_nl_vec p = [] -> f_rs p = 0 -> 0 < f_slope p -> is_perf p = false ->
  has_cal p = true /\ nth i (v_nl v) 0 = f_nl p / ob /\ derivable_pt_lim (fun y => v_nlf v * y / (1 + Rabs (nth i (v_nl v) 0 * y))) (f_slope p * ob) 1.
Proof.
  intros p inp out v i ob Y Hi Ob Pb Nl Ns Nv Rs Sl Pf. assert (Hn : has_nl p = true) by (unfold has_nl; rewrite (proj2 (Rltb_true _ _) Nl), Pf; reflexivity). assert (Hc : has_cal p = true) by (unfold has_cal; now rewrite Hn). split; [exact Hc|].
  unfold populate_mv in Y. apply yields_bind in Y as (vo & _ & Y). apply yields_bind in Y as (nl & Y2 & Y). apply yields_bind in Y as (ws & _ & Y). apply yields_bind in Y as (no & _ & Y). apply yields_ret in Y. rewrite Ob, Hc, Nv in Y2. rewrite (proj2 (Rltb_true _ _) Pb) in Y2. cbn [andb length] in Y2. destruct out as [|out]; [lia|]. cbn [Nat.eqb negb] in Y2.
  assert (Q : nl = map (fun _ => f_nl p / ob) (seq 0 (Datatypes.S out))). { apply yields_mapMM in Y2. apply (forall2_map _ _ _ _) with (2 := Y2). intros a b Yb. apply yields_gauss in Yb as (g & Yb). apply yields_ret in Yb. rewrite (Rmax_right _ _ Ns) in Yb. subst b. replace (f_nl p / ob * (1 + 0 * g)) with (f_nl p / ob) by ring. apply Rabs_pos_eq. apply Rlt_le, Rdiv_lt_0_compat; lra. }
  assert (Pq : 0 < f_nl p / ob) by (apply Rdiv_lt_0_compat; lra). assert (Ln : length nl = Datatypes.S out) by (rewrite Q, map_length, seq_length; reflexivity).
  assert (En : nth i nl 0 = f_nl p / ob). { rewrite Q. clear -Hi. generalize 0%nat as k. revert Hi. generalize (Datatypes.S out) as n. intros n. revert i. induction n; intros i Hi k; [lia|]. destruct i; cbn; auto. apply IHn. lia. }
  assert (Es : sumR (map Rabs (firstn (Datatypes.S out) nl)) = INR (Datatypes.S out) * (f_nl p / ob)). { rewrite firstn_all2 by lia. rewrite Q, map_map. rewrite (sumR_const (Rabs (f_nl p / ob))). rewrite seq_length, (Rabs_pos_eq (f_nl p / ob)) by lra. reflexivity. }
  subst v. cbn [v_nl v_nlf]. rewrite En. split; [reflexivity|]. rewrite Ob, (proj2 (Rltb_true _ _) Pb), Hn, (proj2 (Rltb_true _ _) Sl), Es, Rs. assert (Pn : INR (Datatypes.S out) <> 0) by (apply not_0_INR; lia). set (n := f_nl p / ob) in *. set (c := f_slope p * ob). assert (Pc : 0 < c) by (apply Rmult_lt_0_compat; lra).
  replace ((1 + (INR (Datatypes.S out) * n / INR (Datatypes.S out) + 0) * f_slope p * ob) * (1 + (INR (Datatypes.S out) * n / INR (Datatypes.S out) + 0) * f_slope p * ob)) with ((1 + n * c) * (1 + n * c)) by (unfold c; field; auto). set (F := (1 + n * c) * (1 + n * c)). assert (Pnc : 0 < n * c) by (apply Rmult_lt_0_compat; lra).
  assert (D : derivable_pt_lim (fun y => F * y / (1 + n * y)) c 1).
  { enough (K : derivable_pt_lim (fun y => F * y / (1 + n * y)) c ((F * (1 + n * c) - n * (F * c)) / Rsqr (1 + n * c))). { replace ((F * (1 + n * c) - n * (F * c)) / Rsqr (1 + n * c)) with 1 in K by (unfold F, Rsqr; field; lra). exact K. } apply (derivable_pt_lim_div (fun y => F * y) (fun y => 1 + n * y) c F n).
    - enough (K : derivable_pt_lim (fun y => F * y) c (F * 1)) by (rewrite Rmult_1_r in K; exact K). apply (derivable_pt_lim_scal id F c 1). apply derivable_pt_lim_id.
    - enough (K : derivable_pt_lim (fun y => 1 + n * y) c (0 + n * 1)) by (rewrite Rmult_1_r, Rplus_0_l in K; exact K). apply (derivable_pt_lim_plus (fun _ => 1) (fun y => n * y) c 0 (n * 1)); [apply derivable_pt_lim_const | apply (derivable_pt_lim_scal id n c 1); apply derivable_pt_lim_id].
    - lra. }
  intros e He. destruct (D e He) as [d Hd]. assert (Pd : 0 < Rmin d c) by (apply Rmin_pos; [apply cond_pos | lra]). exists (mkposreal _ Pd). intros h Hh Lh. cbn in Lh. assert (L1 : Rabs h < d) by (eapply Rlt_le_trans; [exact Lh | apply Rmin_l]). assert (L2 : Rabs h < c) by (eapply Rlt_le_trans; [exact Lh | apply Rmin_r]). assert (Ph : 0 < c + h) by (revert L2; mm). rewrite (Rabs_pos_eq (n * (c + h))) by (apply Rmult_le_pos; lra). rewrite (Rabs_pos_eq (n * c)) by lra. now apply Hd.
Qed.
Theorem C101_nontrivial : standard [1; -1] /\ (exists y, yields (single_pass io_ir mv0 [[1/2; 1/2]] (one_hot 2 1 1)) y) /\ 0 < f_irdrop io_ir /\ has_voff io_ir = false.
Proof. repeat split; try discriminate; try (cbn; lra). - apply total_yields, total_single. - unfold has_voff; cbn; rb; reflexivity. Qed.

Print Assumptions C101_voltage_offset.
Print Assumptions C101_no_offset.
Print Assumptions C101_series_resistance.
Print Assumptions C101_drawn.
Print Assumptions C101_ir_drop.
Print Assumptions C101_ir_drop_grows.
Print Assumptions C101_first_farthest_refuted.
Print Assumptions C101_weight_noise.
Print Assumptions C101_slope_calibration.
Print Assumptions C101_nontrivial.
