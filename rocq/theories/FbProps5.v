(** * Separate passes for positive and negative inputs (C100) *)
From Verif Require Import Prelude Rand CompModel PulseModel PulseProofs FbModel FbSpec FbProofs FbProps FbProps2 FbProps3.

Lemma has_cal_mv t p : on_crossbar p -> t <> MvIdeal -> has_cal (with_mv t p) = has_cal p.
Proof.
  intros C T. unfold has_cal, has_nl. cbn [f_nl f_nl_vec f_rs with_mv]. rewrite (is_perf_false p C). replace (is_perf (with_mv t p)) with false; [reflexivity|]. symmetry. apply is_perf_false. split; [apply C | exact T].
Qed.
Lemma finalize_mv t p v y o : on_crossbar p -> t <> MvIdeal -> (yields (finalize (with_mv t p) v y) o <-> yields (finalize p v y) o).
Proof.
  intros C T. rewrite !finalize_spec. assert (F : forall i u, fin_elem (with_mv t p) v i u = fin_elem p v i u) by (intros; unfold fin_elem; now rewrite has_cal_mv by auto).
  split; intros (raw & [L H] & E); exists raw; (split; [|exact E]); split; auto; intros i Hi; specialize (H i Hi); [rewrite F in H | rewrite F]; exact H.
Qed.
Lemma single_mv t p v W x : single_pass (with_mv t p) v W x = single_pass p v W x.
Proof. reflexivity. Qed.
Lemma analog_sep_one p v W s x o : on_crossbar p -> quiet_product p -> f_mv p = MvSep -> (yields (analog_mv p v W W s x) o <-> yields (analog_mv (with_mv MvOne p) v W W s x) o).
Proof.
  intros C Q E. unfold analog_mv. change (prepare (with_mv MvOne p) s x) with (prepare p s x). rewrite !yields_bind. rewrite E. change (f_mv (with_mv MvOne p)) with MvOne.
  assert (G : forall x', yields (yn <~ single_pass p v W (neg_part x') ;; yp <~ single_pass p v W (pos_part x') ;; finalize p v (vadd yp yn)) o <-> yields (y <~ single_pass (with_mv MvOne p) v W x' ;; finalize (with_mv MvOne p) v y) o).
  { intros x'. rewrite single_mv, !single_pass_quiet by auto. cbn [bindM]. rewrite vadd_matvec. symmetry. apply finalize_mv; auto. discriminate. }
  split; intros (x' & Y & H); exists x'; (split; [exact Y|]); now apply G.
Qed.
Lemma loop_sep_one p v W x fuel : on_crossbar p -> quiet_product p -> f_mv p = MvSep -> forall nmv red round r,
  yields (bm_loop fuel p v W W x nmv red round) r <-> yields (bm_loop fuel (with_mv MvOne p) v W W x nmv red round) r.
Proof.
  intros C Q E. induction fuel as [|fuel IH]; intros nmv red round r; cbn [bm_loop]; [reflexivity|]. cbv zeta. cbn [f_bm f_nm with_mv]. change (npsum (with_mv MvOne p)) with (npsum p). change (nm_on (with_mv MvOne p)) with (nm_on p). change (bm_on (with_mv MvOne p)) with (bm_on p). rewrite !yields_bind.
  change (bm_limit (with_mv MvOne p)) with (bm_limit p). split; intros (o & Y & H); exists o; cbv beta in *.
  - split; [apply (proj1 (analog_sep_one p v W _ x o C Q E)), Y|]. match goal with |- yields (if ?c then _ else _) _ => destruct c end; [exact H | apply IH; exact H].
  - split; [apply (proj2 (analog_sep_one p v W _ x o C Q E)), Y|]. match goal with |- yields (if ?c then _ else _) _ => destruct c end; [exact H | apply IH; exact H].
Qed.
(** C100: without non-idealities of the product, separate passes added in analog give exactly the results of one pass *)
Theorem C100_separate_is_one_pass : forall p v W aux alpha x r, on_crossbar p -> quiet_product p -> f_mv p = MvSep ->
  (yields (forward_vector p v W aux alpha x) r <-> yields (forward_vector (with_mv MvOne p) v W aux alpha x) r).
Proof.
  intros p v W aux alpha x r C Q E. unfold forward_vector. assert (C' : on_crossbar (with_mv MvOne p)) by (split; [apply C | discriminate]). rewrite (is_perf_false p C), (is_perf_false _ C'). change (noise_mgmt (with_mv MvOne p) aux x) with (noise_mgmt p aux x). destruct (noise_mgmt p aux x) as [nmv aux']. change (nm_on (with_mv MvOne p)) with (nm_on p). change (f_inp_noise (with_mv MvOne p)) with (f_inp_noise p). destruct (nm_on p && Rleb nmv 0 && Rleb (f_inp_noise p) 0); [reflexivity|].
  change (neg_weights (with_mv MvOne p) v W) with (neg_weights p v W). rewrite neg_weights_quiet by auto. change (bm_fuel (with_mv MvOne p)) with (bm_fuel p). rewrite !yields_bind. split; intros (o & Y & H); exists o; (split; [apply (loop_sep_one p v W x (bm_fuel p) C Q E) ; exact Y | exact H]).
Qed.
(** C100: with read asymmetry the negative inputs see the weights times their own factors *)
Lemma flat_mul_concat (W F : list (list R)) : map (@length R) F = map (@length R) W -> flat_mul W (concat F) = map2 (map2 Rmult) W F.
Proof.
  revert F. induction W as [|r W IH]; intros [|f F] L; try discriminate; auto. injection L as Lf L. cbn [flat_mul concat map2]. rewrite <- Lf. rewrite firstn_app, Nat.sub_diag, firstn_all, firstn_O, app_nil_r. rewrite skipn_app, Nat.sub_diag, skipn_all. cbn [skipn app]. now rewrite (IH F L).
Qed.
Theorem C100_read_asymmetry : forall p v W F aux alpha x y a, on_crossbar p -> f_mv p = MvSep -> f_irdrop p <= 0 -> f_voff_std p <= 0 -> f_rs p <= 0 -> f_voff_vec p = [] -> f_w_noise p <= 0 ->
  quiet_input p -> quiet_output p -> no_converters p -> nm_works p aux x -> 0 < f_wasym p -> v_asym v = concat F -> map (@length R) F = map (@length R) W ->
  yields (forward_vector p v W aux alpha x) (Some (y, a)) ->
  y = map2 (fun w wn => f_out_scale p * alpha * (dot w (pos_part x) + dot wn (neg_part x))) W (map2 (map2 Rmult) W F).
Proof.
  intros p v W F aux alpha x y a C E H1 H2 H3 H4 H5 Qi Qo (R1 & R2 & B1 & B2) Wk Wa Ev LF Y. assert (Sp : forall W' x', single_pass p v W' x' = Ret (matvec W' x')).
  { intros W' x'. unfold single_pass, has_voff, wnoise. rewrite H4, (proj2 (Rltb_false _ _) H1), (proj2 (Rltb_false _ _) H2), (proj2 (Rltb_false _ _) H3), (proj2 (Rltb_false _ _) H5). cbn [orb]. destruct (f_wn p); reflexivity. }
  assert (LW : length (map2 (map2 Rmult) W F) = length W) by (rewrite map2_length; apply (f_equal (@length nat)) in LF; rewrite !map_length in LF; lia).
  apply forward_inv in Y; auto. destruct Y as [(_ & L & _ & Ey) | (nmv & red & ok & z & Hr & _ & Y & _ & Ey)]; injection Ey as -> _.
  - assert (Zx : zero_input x) by now apply (nm_positive p aux). assert (Zp : zero_input (pos_part x)) by (intros u I; apply in_map_iff in I as (w & <- & I); rewrite (Zx w I); rb; reflexivity). assert (Zn : zero_input (neg_part x)) by (intros u I; apply in_map_iff in I as (w & <- & I); rewrite (Zx w I); rb; reflexivity).
    set (G := map2 (map2 Rmult) W F) in *. clearbody G. clear -LW Zp Zn. revert G LW. induction W as [|r W IH]; intros [|g G] L; try discriminate; auto. cbn [map map2]. rewrite !dot_zero_r by auto. f_equal; [ring|]. apply IH. cbn in L. lia.
  - unfold neg_weights in Y. rewrite (proj2 (Rltb_true _ _) Wa), Ev, flat_mul_concat in Y by auto. set (G := map2 (map2 Rmult) W F) in *. unfold analog_mv in Y. apply yields_bind in Y as (x' & Y1 & Y). apply prepare_quiet in Y1; auto. subst x'. rewrite E in Y. rewrite !Sp in Y. cbn [bindM] in Y. apply finalize_ideal in Y; auto. injection Y as _ ->.
    pose proof (the_scale_pos p nmv red Hr) as Ps. set (s := the_scale p nmv red) in *. assert (Pp : pos_part (map (Rmult s) x) = map (Rmult s) (pos_part x)).
    { unfold pos_part. rewrite !map_map. apply map_ext. intros u. destruct (Rltb 0 u) eqn:F1; [apply Rltb_true in F1; rewrite (proj2 (Rltb_true _ _)) by nra; auto | apply Rltb_false in F1; rewrite (proj2 (Rltb_false _ _)) by nra; ring]. }
    assert (Pn : neg_part (map (Rmult s) x) = map (Rmult s) (neg_part x)).
    { unfold neg_part. rewrite !map_map. apply map_ext. intros u. destruct (Rltb u 0) eqn:F1; [apply Rltb_true in F1; rewrite (proj2 (Rltb_true _ _)) by nra; auto | apply Rltb_false in F1; rewrite (proj2 (Rltb_false _ _)) by nra; ring]. }
    rewrite Pp, Pn, !matvec_scale. clearbody G. clear -LW Ps. revert G LW. induction W as [|r W IH]; intros [|g G] L; try discriminate; auto. unfold vadd in *. cbn [map map2 matvec]. f_equal; [field; lra|]. apply IH. cbn in L. lia.
Qed.
Example C100_nontrivial : exists y a, yields (forward_vector (io0 MvSep NmNone BmNone None (Some 1)) mv0 [[1; 2]] (-1) 1 [1; -1/4]) (Some (y, a)) /\ y = [1/2].
Proof.
  set (p := io0 MvOne NmNone BmNone None (Some 1)). destruct (forward_ex p mv0 [[1; 2]] (-1) 1 [1; -1/4]) as (y & a & Y). exists y, a. split.
  - apply C100_separate_is_one_pass; [split; [reflexivity | discriminate] | apply io0_quiet | reflexivity |]. exact Y.
  - pose proof (C97_converter_error p mv0 [[1; 2]] (-1) 1 [1; -1/4] y a [1; 2] 0 ltac:(split; [reflexivity | discriminate]) ltac:(discriminate) (io0_quiet _ _ _ _ _) eq_refl ltac:(cbn; lra)) as H. specialize (H ltac:(intros; exact Logic.I) Y eq_refl). cbn [fst noise_mgmt f_nm f_out_scale f_out_bound f_inp_sto f_inp_res f_out_sto f_out_res p io0 dot map sumR] in H. unfold conv_err in H. destruct (Rle_dec 0 0); [|lra]. unfold clipped in H. destruct (Rle_dec 1 0); [lra|].
    destruct (C96_terminates p mv0 [[1; 2]] (-1) 1 [1; -1/4]) as [_ T]. destruct (T _ Y) as (y' & a' & E & L). injection E as <- _. destruct y as [|u [|w y]]; try discriminate. cbn [nth] in H. replace (Rmax (- (1)) (Rmin 1 ((1 * 1 + (2 * (-1 / 4) + 0)) / 1))) with (1/2) in H by mm. replace (Rabs (1 * 1) * 1 * ((Rabs 1 + (Rabs 2 + 0)) * 0 + 0)) with 0 in H by ring. f_equal. revert H. mm.
Qed.
(** refuted: the asymmetries, documented to act only with separate passes, act on a single pass, and the
    output asymmetry also acts when no input is negative *)
Definition io_asym (ia oa : R) : fbio :=
  {| f_perfect := false; f_mv := MvOne; f_wn := WnNone; f_irdrop := 0; f_irG := 1; f_voff_std := 0; f_voff_vec := []; f_wmin := -1; f_rs := 0; f_rsmax := None;
     f_inp_asym := ia; f_out_asym := oa; f_wasym := 0; f_inp_bound := None; f_inp_res := 0; f_inp_sto := false; f_inp_noise := 0;
     f_out_noise := 0; f_out_noise_std := 0; f_w_noise := 0; f_out_bound := None; f_out_res := 0; f_out_sto := false; f_out_scale := 1;
     f_nl := 0; f_nl_std := 0; f_nl_vec := []; f_slope := 0; f_nm := NmNone; f_nm_thres := 0; f_nm_wmax := 1; f_nm_decay := 1/1000;
     f_bm := BmNone; f_bm_neg := true; f_bm_factor := 1000; f_bm_res := 1/4 |}.
Theorem C100_asymmetry_one_pass_refuted : (exists y a, yields (forward_vector (io_asym (1/2) 0) mv0 [[1]] (-1) 1 [-1]) (Some (y, a)) /\ y = [-1/2]) /\
  (exists y a, yields (forward_vector (io_asym 0 (1/2)) mv0 [[-1]] (-1) 1 [1]) (Some (y, a)) /\ y = [-1/2]).
Proof.
  split.
  - destruct (forward_ex (io_asym (1/2) 0) mv0 [[1]] (-1) 1 [-1]) as (y & a & Y). exists y, a. split; [exact Y|]. assert (C : on_crossbar (io_asym (1/2) 0)) by (split; [reflexivity | discriminate]). apply forward_inv in Y; auto. destruct Y as [(F & _) | (nmv & red & ok & z & Hr & _ & Y & _ & E)]; [discriminate|]. injection E as -> _. unfold the_scale in *. cbn [nm_on bm_on io_asym f_nm f_bm andb] in *.
    unfold analog_mv in Y. apply yields_bind in Y as (x' & Y1 & Y). cbn [f_mv io_asym] in Y. assert (Qp : quiet_product (io_asym (1/2) 0)) by (unfold quiet_product; cbn; repeat split; auto; lra). assert (Qo : quiet_output (io_asym (1/2) 0)) by (unfold quiet_output; cbn; repeat split; auto; lra). rewrite single_pass_quiet in Y by auto. cbn [bindM] in Y. apply finalize_ideal in Y; [|auto | cbn; lra | exact Logic.I]. injection Y as _ ->.
    unfold prepare in Y1. apply yields_mapMM in Y1. inversion Y1 as [|? u ? ? H1 H2]; subst. inversion H2; subst. unfold prep_elem in H1. apply yields_bind in H1 as (w & D & H1). apply disc_none in D; [|cbn; lra]. subst w. cbn [f_inp_bound f_inp_noise f_inp_asym io_asym clip_o] in H1. rewrite (proj2 (Rltb_false 0 0)) in H1 by lra. rewrite (proj2 (Reqb_false (1/2) 0)) in H1 by lra. apply yields_bind in H1 as (w & D & H1). apply yields_ret in D. apply yields_ret in H1. cbn [negb] in H1. subst w. rewrite (proj2 (Rltb_true (-1 * (1 / 1)) 0)) in H1 by lra. subst u. cbn. f_equal. lra.
  - destruct (forward_ex (io_asym 0 (1/2)) mv0 [[-1]] (-1) 1 [1]) as (y & a & Y). exists y, a. split; [exact Y|]. assert (C : on_crossbar (io_asym 0 (1/2))) by (split; [reflexivity | discriminate]). apply forward_inv in Y; auto. destruct Y as [(F & _) | (nmv & red & ok & z & Hr & _ & Y & _ & E)]; [discriminate|]. injection E as -> _. unfold the_scale in *. cbn [nm_on bm_on io_asym f_nm f_bm andb] in *.
    assert (Qp : quiet_product (io_asym 0 (1/2))) by (unfold quiet_product; cbn; repeat split; auto; lra). assert (Qi : quiet_input (io_asym 0 (1/2))) by (unfold quiet_input; cbn; repeat split; auto; lra). unfold analog_mv in Y. apply yields_bind in Y as (x' & Y1 & Y). apply prepare_quiet in Y1; [|auto | cbn; lra | exact Logic.I]. subst x'. cbn [f_mv io_asym] in Y. rewrite single_pass_quiet in Y by auto. cbn [bindM] in Y. apply finalize_spec in Y as (raw & [L H] & Eo). injection Eo as _ ->.
    destruct raw as [|u [|w raw]]; try discriminate. specialize (H 0%nat ltac:(cbn; lia)). cbn [nth map matvec dot] in H. unfold fin_elem in H. cbv zeta in H. replace (has_cal (io_asym 0 (1/2))) with false in H by (unfold has_cal, has_nl; cbn; rb; reflexivity). cbn [f_out_asym f_out_noise_std f_out_noise f_out_res f_out_sto io_asym] in H. rewrite (proj2 (Rltb_true 0 (1/2))) in H by lra. rewrite (proj2 (Rltb_true (-1 * (1 / 1 * 1) + 0) 0)) in H by lra. rewrite (proj2 (Rltb_false 0 0)) in H by lra. apply yields_gauss in H as (g & H). apply disc_none in H; [|lra]. subst u. cbn. f_equal. lra.
Qed.

Print Assumptions C100_separate_is_one_pass.
Print Assumptions C100_read_asymmetry.
Print Assumptions C100_asymmetry_one_pass_refuted.
