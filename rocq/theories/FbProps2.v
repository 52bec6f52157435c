(** * Bound management (C96) *)
From Verif Require Import Prelude Rand CompModel PulseModel PulseProofs FbModel FbSpec FbProofs FbProps.

Lemma flat_mul_length W : forall f, length (flat_mul W f) = length W.
Proof. induction W; intros; cbn; auto. Qed.
Lemma neg_weights_length p v W : length (neg_weights p v W) = length W.
Proof. unfold neg_weights. destruct (Rltb 0 (f_wasym p)); auto. apply flat_mul_length. Qed.
Lemma single_length p v W x y : yields (single_pass p v W x) y -> length y = length W.
Proof.
  unfold single_pass. cbv zeta. set (y1 := if Rltb 0 (f_irdrop p) then _ else _). assert (L1 : length y1 = length W).
  { unfold y1. destruct (Rltb 0 (f_irdrop p)); [|apply matvec_length]. unfold ir_drop. rewrite map2_length, combine_length, map_length, !matvec_length. unfold total_current. rewrite map_length. lia. }
  set (y2 := if has_voff p then _ else _). assert (L2 : length y2 = length W). { unfold y2. destruct (has_voff p); auto. unfold volt. rewrite map_length, combine_length, seq_length. lia. }
  unfold wnoise. destruct (f_wn p); [intros Y; apply yields_ret in Y; congruence | |]; (destruct (Rltb 0 (f_w_noise p)); intros Y; [apply mapMM_length in Y; rewrite Y, combine_length, L2; lia | apply yields_ret in Y; congruence]).
Qed.
Lemma analog_length p v W Wn s x o : length Wn = length W -> yields (analog_mv p v W Wn s x) o -> length (snd o) = length W.
Proof.
  intros L Y. unfold analog_mv in Y. apply yields_bind in Y as (x' & _ & Y). destruct (f_mv p); [ysimp | | |].
  - apply yields_bind in Y as (y & Y1 & Y). apply single_length in Y1. apply finalize_len in Y. congruence.
  - apply yields_bind in Y as (yn & Y1 & Y). apply yields_bind in Y as (yp & Y2 & Y). apply single_length in Y1, Y2. apply finalize_len in Y. rewrite Y. unfold vadd. rewrite map2_length. lia.
  - apply yields_bind in Y as (yn & Y1 & Y). apply yields_bind in Y as (bn & Y2 & Y). apply yields_bind in Y as (yp & Y3 & Y). apply yields_bind in Y as (bp & Y4 & Y). apply yields_ret in Y. subst o. cbn [snd]. apply single_length in Y1, Y3. apply finalize_len in Y2, Y4. unfold vadd. rewrite map2_length. lia.
Qed.
(** C96: every forward pass ends with a result of the right size, whatever the noise *)
Theorem C96_terminates : forall p v W aux alpha x, total (forward_vector p v W aux alpha x) /\
  forall r, yields (forward_vector p v W aux alpha x) r -> exists y a, r = Some (y, a) /\ length y = length W.
Proof.
  intros p v W aux alpha x. split; [apply total_forward|]. intros r Y. unfold forward_vector in Y. destruct (is_perf p) eqn:P.
  - apply yields_ret in Y. subst r. eexists _, _. split; [reflexivity|]. now rewrite map_length, matvec_length.
  - destruct (noise_mgmt p aux x) as [nmv aux']. destruct (nm_on p && Rleb nmv 0 && Rleb (f_inp_noise p) 0).
    + apply yields_ret in Y. subst r. eexists _, _. split; [reflexivity|]. now rewrite map_length.
    + apply yields_bind in Y as (b & Y1 & Y). apply yields_ret in Y. subst r. pose proof Y1 as Y2. apply bm_rounds in Y1 as (n & s & z & -> & _). apply bm_loop_inv in Y2 as (n2 & r2 & ok & _ & _ & _ & Y2 & _); [|lia]. eexists _, _. split; [reflexivity|]. rewrite map_length. cbn [fst snd] in Y2. apply analog_length in Y2; [exact Y2 | apply neg_weights_length].
Qed.
(** C96: the rounds are bounded by the logarithm of the largest factor *)
Theorem C96_rounds : forall p v W x nmv r, yields (bm_loop (bm_fuel p) p v W (neg_weights p v W) x nmv 1 0) r ->
  exists n s y, r = Some (n, s, y) /\ ((n <= 1)%nat \/ (2 ^ Z.of_nat (n - 2) <= f_bm_factor p)%Z) /\ (f_bm p <> BmWorst -> n = 0%nat \/ (2 ^ Z.of_nat (n - 1) <= f_bm_factor p)%Z).
Proof.
  intros p v W x nmv r Y. apply bm_rounds in Y as (n & s & y & -> & H). exists n, s, y. split; auto. destruct (worst_case p) eqn:E.
  - split; auto. intros N. unfold worst_case in E. destruct (f_bm p); try discriminate. now destruct N.
  - split; auto. destruct H as [-> | H]; [left; lia|]. destruct n as [|[|n]]; try (left; lia). right. eapply Z.le_trans; [|exact H]. apply Z.pow_le_mono_r; lia.
Qed.
(** the bound test with both signs tested *)
Lemma bound_step_neg p ok v : f_bm_neg p = true -> bound_step p ok v = true -> ok = true /\ clip_o (out_limit p) v = v.
Proof.
  intros N. unfold bound_step. destruct (out_limit p) as [b|]; [|auto]. destruct (Rltb b v) eqn:E1; [discriminate|]. destruct (Rltb v (- b)) eqn:E2; [rewrite N; discriminate|]. intros ->. split; auto. cbn. now rewrite E1, E2.
Qed.
Lemma bound_fold_neg p y : f_bm_neg p = true -> forall ok, fold_left (bound_step p) y ok = true -> ok = true /\ map (clip_o (out_limit p)) y = y.
Proof.
  intros N. induction y as [|a y IH]; intros ok; cbn [fold_left map]; [auto|]. intros H. apply IH in H as [H ->]. apply bound_step_neg in H as [H ->]; auto.
Qed.
Lemma bound_test_neg p y : f_bm_neg p = true -> bm_on p = true -> bound_test p y = true -> map (clip_o (out_limit p)) y = y.
Proof. intros N B. unfold bound_test, bm_on in *. destruct (f_bm p); try discriminate; intros H; now apply (bound_fold_neg p y N) in H. Qed.
Lemma out_limit_unbounded p : out_limit (unbounded p) = None.
Proof. reflexivity. Qed.
Lemma finalize_unbounded p v y o : f_bm_neg p = true -> bm_on p = true -> yields (finalize p v y) o -> fst o = true -> yields (finalize (unbounded p) v y) o.
Proof.
  intros N B Y T. apply finalize_spec in Y as (raw & Hr & ->). cbn [fst] in T. apply finalize_spec. exists raw. split; [exact Hr|]. rewrite T, (bound_test_neg p raw) by auto. rewrite out_limit_unbounded, bound_test_none by reflexivity. f_equal. symmetry. rewrite <- (map_id raw) at 2. reflexivity.
Qed.
Lemma analog_unbounded p v W Wn s x o : f_bm_neg p = true -> bm_on p = true -> yields (analog_mv p v W Wn s x) o -> fst o = true -> yields (analog_mv (unbounded p) v W Wn s x) o.
Proof.
  intros N B Y T. unfold analog_mv in *. apply yields_bind in Y as (x' & Y1 & Y). apply yields_bind. exists x'. split; [exact Y1|]. change (f_mv (unbounded p)) with (f_mv p). destruct (f_mv p); [exact Y | | |].
  - apply yields_bind in Y as (y & Y2 & Y). apply yields_bind. exists y. split; [exact Y2|]. now apply finalize_unbounded.
  - apply yields_bind in Y as (yn & Y2 & Y). apply yields_bind in Y as (yp & Y3 & Y). apply yields_bind. exists yn. split; [exact Y2|]. apply yields_bind. exists yp. split; [exact Y3|]. now apply finalize_unbounded.
  - apply yields_bind in Y as (yn & Y2 & Y). apply yields_bind in Y as (bn & Y3 & Y). apply yields_bind in Y as (yp & Y4 & Y). apply yields_bind in Y as (bp & Y5 & Y). apply yields_ret in Y. subst o. cbn [fst] in T. apply andb_prop in T as [T1 T2].
    apply yields_bind. exists yn. split; [exact Y2|]. apply yields_bind. exists bn. split; [now apply finalize_unbounded|]. apply yields_bind. exists yp. split; [exact Y4|]. apply yields_bind. exists bp. split; [now apply finalize_unbounded|]. now apply yields_ret.
Qed.
(** C96: an output is either one that the same tile without an output bound could have given, or the
    input was already reduced beyond a limit given by the user *)
Theorem C96_accepted : forall p v W aux alpha x y a, on_crossbar p -> f_bm p <> BmNone -> f_bm_neg p = true ->
  yields (forward_vector p v W aux alpha x) (Some (y, a)) -> y = map (fun _ => 0) W \/
  exists s s0 red z ok, 0 < s /\ s = s0 / IZR red /\ (1 <= red)%Z /\ y = map (fun zi => f_out_scale p * alpha / s * zi) z /\
    (yields (analog_mv (unbounded p) v W (neg_weights p v W) s x) (ok, z) \/
     (yields (analog_mv p v W (neg_weights p v W) s x) (ok, z) /\ ((f_bm_factor p < red)%Z \/ (0 < f_inp_res p /\ f_bm_res p / f_inp_res p < IZR red)))).
Proof.
  intros p v W aux alpha x y a C B N Y. assert (Bo : bm_on p = true) by (unfold bm_on; destruct (f_bm p); auto; now destruct B). apply forward_inv in Y; auto. destruct Y as [(_ & _ & _ & E) | (nmv & red & ok & z & Hr & _ & Y & A & E)]; injection E as -> _; [now left|]. right.
  exists (the_scale p nmv red), (if nm_on p && Rltb 0 nmv then 1 / nmv else 1), red, z, ok. split; [now apply the_scale_pos|]. split; [unfold the_scale; now rewrite Bo|]. split; [exact Hr|]. split; [reflexivity|]. destruct A as [A | [A | A]]; [congruence | |].
  - left. subst ok. now apply analog_unbounded.
  - right. split; [exact Y|]. unfold bm_limit in A. apply orb_prop in A as [A | A]; [left; now apply Z.ltb_lt in A | right]. apply andb_prop in A as [A1 A2]. apply Rltb_true in A1, A2. auto.
Qed.
(** C96: so without noise and rounding the iterative scheme gives the exact product, as long as no
    output is above [max_bm_factor] times the bound and no input is clipped *)
Lemma clip_fits b v : fits b v -> clip_o (match b with Some b => if Rltb 0 b then Some b else None | None => None end) v = v.
Proof.
  destruct b as [b|]; cbn; auto. intros [H | H]; [now rewrite (proj2 (Rltb_false _ _) H)|]. destruct (Rltb 0 b); auto. cbn. rewrite (proj2 (Rltb_false b v)) by (revert H; mm). now rewrite (proj2 (Rltb_false v (- b))) by (revert H; mm).
Qed.
Lemma fits_le b v w : fits b w -> Rabs v <= Rabs w -> fits b v.
Proof. destruct b; cbn; auto. intros [H | H]; intros; [left | right]; lra. Qed.
Lemma prepare_fits p s x r : quiet_input p -> f_inp_res p <= 0 -> (forall v, List.In v x -> fits (f_inp_bound p) (v * s)) -> yields (prepare p s x) r -> r = map (Rmult s) x.
Proof.
  intros [N A] R B Y. unfold prepare in Y. apply yields_mapMM in Y. assert (E : forall v u, fits (f_inp_bound p) (v * s) -> yields (prep_elem p s v) u -> u = s * v).
  { intros v u F Yv. unfold prep_elem in Yv. apply yields_bind in Yv as (w & Y1 & Yv). apply disc_none in Y1; auto. subst w. rewrite clip_fits in Yv by auto. rewrite (proj2 (Rltb_false _ _) N) in Yv. apply yields_bind in Yv as (w & Y1 & Yv). apply yields_ret in Y1. subst w. apply yields_ret in Yv. rewrite (proj2 (Reqb_true _ _) A) in Yv. cbn in Yv. rewrite Yv. ring. }
  clear -E B Y. induction Y; cbn [map]; auto. rewrite (E x y (B x (or_introl eq_refl)) H). f_equal. apply IHY. intros v I. apply B. now right.
Qed.
Lemma out_limit_fits p v : fits (f_out_bound p) v -> clip_o (out_limit p) v = v.
Proof. intros H. unfold out_limit. now apply clip_fits. Qed.
Lemma Forall_clip p y : (forall v, List.In v y -> fits (f_out_bound p) v) -> map (clip_o (out_limit p)) y = y.
Proof. intros H. rewrite <- (map_id y) at 2. apply map_ext_in. intros v I. now apply out_limit_fits, H. Qed.
Lemma analog_quiet p v W s x o : on_crossbar p -> f_mv p <> MvSepSum -> quiet p -> f_inp_res p <= 0 -> f_out_res p <= 0 -> (forall u, List.In u x -> fits (f_inp_bound p) (u * s)) ->
  yields (analog_mv p v W W s x) o -> o = (bound_test p (map (Rmult s) (matvec W x)), map (clip_o (out_limit p)) (map (Rmult s) (matvec W x))).
Proof.
  intros [_ C] Ns (Q1 & Q2 & Q3) R1 R2 B Y. unfold analog_mv in Y. apply yields_bind in Y as (x' & Y1 & Y). apply prepare_fits in Y1; auto. subst x'. rewrite <- matvec_scale. set (x' := map (Rmult s) x) in *.
  destruct (f_mv p); [now destruct C | | | now destruct Ns]; rewrite ?single_pass_quiet in Y by auto; cbn [bindM] in Y; apply finalize_exact in Y; auto. now rewrite vadd_matvec in Y.
Qed.
Theorem C96_exact : forall p v W aux alpha x y a b, on_crossbar p -> f_mv p <> MvSepSum -> quiet p -> f_inp_res p <= 0 -> f_out_res p <= 0 ->
  f_bm p = BmIter -> f_bm_neg p = true -> f_out_bound p = Some b -> 0 < b -> nm_works p aux x -> let m := fst (noise_mgmt p aux x) in
  (forall u, List.In u x -> fits (f_inp_bound p) (u / m)) -> (forall row, List.In row W -> Rabs (dot row x) <= b * IZR (f_bm_factor p) * m) ->
  yields (forward_vector p v W aux alpha x) (Some (y, a)) -> y = exact_mv (f_out_scale p * alpha) W x.
Proof.
  intros p v W aux alpha x y a b C Ns Q R1 R2 Bm Bn Ob Pb Wk m Fi Fo Y. apply forward_inv in Y; auto. destruct Y as [(_ & L & _ & E) | (nmv & red & ok & z & Hr & Hn & Y & A & E)]; injection E as -> _.
  - symmetry. apply exact_zero. now apply (nm_positive p aux).
  - assert (Bo : bm_on p = true) by (unfold bm_on; now rewrite Bm). assert (Wc : worst_case p = false) by (unfold worst_case; now rewrite Bm). destruct Hn as [-> | [F _]]; [|congruence]. fold m in Y |- *.
    pose proof (the_scale_pos p m red Hr) as Ps. set (s := the_scale p m red) in *. assert (Pr : 1 <= IZR red) by now apply IZR_le.
    destruct (Rle_dec m 0) as [Z | Z].
    { assert (Zx : zero_input x) by now apply (nm_positive p aux). rewrite exact_zero by auto. rewrite neg_weights_quiet in Y by (now destruct Q). apply analog_quiet in Y; auto.
      - injection Y as _ ->. rewrite matvec_zero by auto. rewrite !map_map. apply map_ext. intros r. rewrite Rmult_0_r. rewrite out_limit_fits; [ring|]. rewrite Ob. cbn. right. rewrite Rabs_R0. lra.
      - intros u I. rewrite (Zx u I). eapply fits_le; [apply (Fi u I)|]. rewrite Rmult_0_l, Rabs_R0. apply Rabs_pos. }
    assert (Pm : 0 < m) by lra. assert (Es : s = 1 / m / IZR red). { unfold s, the_scale. rewrite Bo. destruct (nm_on p) eqn:En; cbn [andb]; [now rewrite (proj2 (Rltb_true _ _) Pm)|]. replace m with 1; [field; lra|]. unfold m, noise_mgmt. unfold nm_on in En. destruct (f_nm p); try discriminate. reflexivity. }
    assert (Is : forall u, Rabs (u * s) <= Rabs (u / m)). { intros u. rewrite Es. replace (u * (1 / m / IZR red)) with (u / m * (1 / IZR red)) by (field; lra). rewrite Rabs_mult. assert (Rabs (1 / IZR red) <= 1). { rewrite Rabs_pos_eq by (apply Rlt_le, Rdiv_lt_0_compat; lra). apply (Rmult_le_reg_r (IZR red)); [lra|]. unfold Rdiv. rewrite Rmult_assoc, Rinv_l by lra. lra. } pose proof (Rabs_pos (u / m)). nra. }
    rewrite neg_weights_quiet in Y by (now destruct Q). apply analog_quiet in Y; auto; [|intros u I; eapply fits_le; [apply (Fi u I) | apply Is]]. injection Y as Eok ->.
    assert (Cl : map (clip_o (out_limit p)) (map (Rmult s) (matvec W x)) = map (Rmult s) (matvec W x)).
    { destruct A as [A | [A | A]]; [congruence | apply bound_test_neg; auto; congruence|]. unfold bm_limit in A. rewrite (proj2 (Rltb_false _ _) R1) in A. cbn [andb] in A. rewrite orb_false_r in A. apply Z.ltb_lt, IZR_lt in A.
      apply Forall_clip. intros u I. apply in_map_iff in I as (w & <- & I). unfold matvec in I. apply in_map_iff in I as (row & <- & I). rewrite Ob. cbn. right. specialize (Fo row I). rewrite Es. rewrite Rabs_mult, (Rabs_pos_eq (1 / m / IZR red)) by (rewrite <- Es; lra).
      apply (Rmult_le_reg_l (m * IZR red)); [nra|]. replace (m * IZR red * (1 / m / IZR red * Rabs (dot row x))) with (Rabs (dot row x)) by (field; lra). eapply Rle_trans; [exact Fo|]. assert (b * m * IZR (f_bm_factor p) <= b * m * IZR red) by (apply Rmult_le_compat_l; [nra | lra]). lra. }
    rewrite Cl, exact_matvec, map_map. apply map_ext. intros u. field. lra.
Qed.
Lemma analog_quiet_ex p v W s x : on_crossbar p -> f_mv p <> MvSepSum -> quiet p -> f_inp_res p <= 0 -> f_out_res p <= 0 -> (forall u, List.In u x -> fits (f_inp_bound p) (u * s)) ->
  yields (analog_mv p v W W s x) (bound_test p (map (Rmult s) (matvec W x)), map (clip_o (out_limit p)) (map (Rmult s) (matvec W x))).
Proof. intros C N Q R1 R2 F. destruct (total_yields _ (total_analog p v W W s x C)) as (o & Y). pose proof Y as Y'. apply analog_quiet in Y'; auto. now rewrite Y' in Y. Qed.
Lemma forward_ex p v W aux alpha x : exists y a, yields (forward_vector p v W aux alpha x) (Some (y, a)).
Proof. destruct (C96_terminates p v W aux alpha x) as [T H]. destruct (total_yields _ T) as (r & Y). destruct (H r Y) as (y & a & -> & _). eauto. Qed.
Example C96_nontrivial : let p := io0 MvOne NmAbsMax BmIter (Some 1) (Some 1) in exists y a,
  yields (forward_vector p mv0 [[4]; [-3]] (-1) 1 [2]) (Some (y, a)) /\ y = [8; -6] /\ 1 < 4 * 2 / 2.
Proof.
  cbv zeta. set (p := io0 _ _ _ _ _). destruct (forward_ex p mv0 [[4]; [-3]] (-1) 1 [2]) as (y & a & Y). exists y, a. split; [exact Y|]. split; [|lra].
  assert (M : maxabs [2] = 2) by (cbn; rewrite Rabs_pos_eq by lra; mm). assert (E : fst (noise_mgmt p (-1) [2]) = 2) by (cbn [noise_mgmt p io0 f_nm f_nm_thres fst]; unfold thr; rewrite (proj2 (Rltb_false 0 0)) by lra; exact M).
  rewrite (C96_exact p mv0 [[4]; [-3]] (-1) 1 [2] y a 1); auto; try lra; try (cbn; lra); try discriminate; try exact Logic.I.
  - cbn. repeat (f_equal; try lra).
  - split; [reflexivity | discriminate].
  - apply io0_quiet.
  - intros u [<- | []]. rewrite E. cbn. right. mm.
  - intros row [<- | [<- | []]]; rewrite E; cbn; mm.
Qed.
(** refuted: when only the positive bound is tested, an output above the bound is forgotten if a later
    output is below the negative bound, and the first output is clipped although one more
    round would have given it exactly (as it does without the second output) *)
Definition io_pos : fbio :=
  {| f_perfect := false; f_mv := MvOne; f_wn := WnNone; f_irdrop := 0; f_irG := 1; f_voff_std := 0; f_voff_vec := []; f_wmin := -1; f_rs := 0; f_rsmax := None;
     f_inp_asym := 0; f_out_asym := 0; f_wasym := 0; f_inp_bound := None; f_inp_res := 0; f_inp_sto := false; f_inp_noise := 0;
     f_out_noise := 0; f_out_noise_std := 0; f_w_noise := 0; f_out_bound := Some 1; f_out_res := 0; f_out_sto := false; f_out_scale := 1;
     f_nl := 0; f_nl_std := 0; f_nl_vec := []; f_slope := 0; f_nm := NmNone; f_nm_thres := 0; f_nm_wmax := 1; f_nm_decay := 1/1000;
     f_bm := BmIter; f_bm_neg := false; f_bm_factor := 1000; f_bm_res := 1/4 |}.
Ltac rb := repeat match goal with
  | |- context [Rltb ?a ?b] => first [rewrite (proj2 (Rltb_true a b)) by lra | rewrite (proj2 (Rltb_false a b)) by lra]
  | |- context [Rleb ?a ?b] => first [rewrite (proj2 (Rleb_true a b)) by lra | rewrite (proj2 (Rleb_false a b)) by lra] end.
Theorem C96_positive_overflow_refuted : exists y a, yields (forward_vector io_pos mv0 [[4]; [-3]] (-1) 1 [1]) (Some (y, a)) /\ y = [1; -1] /\
  exists y' a', yields (forward_vector io_pos mv0 [[4]] (-1) 1 [1]) (Some (y', a')) /\ y' = [4].
Proof.
  assert (C : on_crossbar io_pos) by (split; [reflexivity | discriminate]). assert (Q : quiet io_pos) by (unfold quiet, quiet_product, quiet_input, quiet_output; cbn; repeat split; auto; lra).
  assert (G : forall W s, yields (analog_mv io_pos mv0 W W s [1]) (bound_test io_pos (map (Rmult s) (matvec W [1])), map (clip_o (out_limit io_pos)) (map (Rmult s) (matvec W [1])))).
  { intros W s. apply analog_quiet_ex; auto; try (cbn; lra); try discriminate. intros u I. exact Logic.I. }
  assert (Ol : out_limit io_pos = Some 1) by (unfold out_limit; cbn; rb; reflexivity).
  exists [1; -1], (-1). split; [|split; [reflexivity|]].
  - unfold forward_vector. rewrite (is_perf_false _ C). cbn [noise_mgmt io_pos f_nm nm_on andb]. apply yields_bind. exists (Some (0%nat, 1, [1; -1])). split.
    + replace (neg_weights _ _ [[4]; [-3]]) with ([[4]; [-3]]) by (symmetry; apply neg_weights_quiet; apply Q). change (bm_fuel _) with (Datatypes.S (Z.to_nat 1000 + 3)). cbn [bm_loop Nat.eqb andb]. fold io_pos. cbv zeta. cbn [nm_on bm_on f_nm f_bm io_pos andb negb orb]. fold io_pos. replace (1 / 1) with 1 by lra.
      apply yields_bind. eexists. split; [apply G|]. cbn [fst snd]. replace (bound_test io_pos _) with true; [cbn [orb]; apply yields_ret; repeat f_equal; cbn [map matvec dot]; rewrite Ol; cbn; rb; reflexivity|].
      cbn [map matvec dot]. unfold bound_test. cbn [f_bm io_pos fold_left]. fold io_pos. unfold bound_step. rewrite Ol. rb. reflexivity.
    + apply yields_ret. repeat f_equal. cbn. repeat (f_equal; try lra).
  - destruct (forward_ex io_pos mv0 [[4]] (-1) 1 [1]) as (y & a & Y). exists y, a. split; [exact Y|]. apply forward_inv in Y; auto. destruct Y as [(F & _) | (nmv & red & ok & z & Hr & _ & Y & A & E)]; [discriminate|]. injection E as -> _. rewrite neg_weights_quiet in Y by apply Q. apply analog_quiet in Y; auto; try (cbn; lra); try discriminate; [|intros u I; exact Logic.I].
    pose proof (the_scale_pos io_pos nmv red Hr) as Ps. set (s := the_scale io_pos nmv red) in *. injection Y as Eok ->. cbn [map matvec dot] in *. rewrite Ol. assert (L : s * (4 * 1 + 0) <= 1).
    { destruct A as [A | [A | A]]; [discriminate | |].
      - rewrite Eok in A. unfold bound_test in A. cbn [f_bm io_pos fold_left] in A. fold io_pos in A. unfold bound_step in A. rewrite Ol in A. destruct (Rltb 1 (s * (4 * 1 + 0))) eqn:F; [discriminate|]. now apply Rltb_false in F.
      - unfold bm_limit in A. cbn [f_inp_res f_bm_factor io_pos] in A. rewrite (proj2 (Rltb_false 0 0)) in A by lra. rewrite andb_false_l, orb_false_r in A. apply Z.ltb_lt, IZR_lt in A. unfold s, the_scale. cbn [nm_on bm_on f_nm f_bm io_pos andb]. apply (Rmult_le_reg_l (IZR red)); [lra|]. replace (IZR red * (1 / IZR red * (4 * 1 + 0))) with 4 by (field; lra). lra. }
    cbn [clip_o]. rewrite (proj2 (Rltb_false 1 _)) by lra. rewrite (proj2 (Rltb_false (s * (4 * 1 + 0)) (- (1)))) by lra. cbn [f_out_scale io_pos]. f_equal. field. lra.
Qed.
(** refuted: worst case bound management needs more than two passes *)
Theorem C96_worst_two_passes_refuted : exists p v W x s y, on_crossbar p /\ f_bm p = BmWorst /\ f_nm p = NmAbsMax /\ maxabs_mat W <= f_nm_wmax p /\
  yields (bm_loop (bm_fuel p) p v W (neg_weights p v W) x (fst (noise_mgmt p (-1) x)) 1 0) (Some (2%nat, s, y)).
Proof.
  set (p := io0 MvOne NmAbsMax BmWorst (Some 1) (Some 1)). exists p, mv0, [[1; -1]], [1; -1], (1/2), [1]. assert (C : on_crossbar p) by (split; [reflexivity | discriminate]). assert (Q : quiet p) by apply io0_quiet.
  assert (M : maxabs [1; -1] = 1) by (cbn; mm). split; [exact C|]. split; [reflexivity|]. split; [reflexivity|]. split; [cbn; mm|].
  assert (E : fst (noise_mgmt p (-1) [1; -1]) = 1) by (cbn [noise_mgmt p io0 f_nm f_nm_thres fst]; unfold thr; rb; exact M). rewrite E.
  assert (Ol : out_limit p = Some 1) by (unfold out_limit; cbn; rb; reflexivity).
  assert (G : forall s, 0 < s <= 1 -> yields (analog_mv p mv0 [[1; -1]] [[1; -1]] s [1; -1]) (bound_test p [s * (1 * 1 + (-1 * -1 + 0))], map (clip_o (out_limit p)) [s * (1 * 1 + (-1 * -1 + 0))])).
  { intros s Hs. apply (analog_quiet_ex p mv0 [[1; -1]] s [1; -1]); auto; try (cbn; lra); try discriminate. intros u [<- | [<- | []]]; cbn; right; mm. }
  assert (Np : npsum p [1; -1] = 1). { unfold npsum. rewrite M. cbn [f_out_bound f_nm_thres f_nm_wmax f_inp_res p io0]. unfold thr, psum, nsum. cbn [map sumR]. rb. mm. }
  rewrite neg_weights_quiet by apply Q. change (bm_fuel p) with (Datatypes.S (Datatypes.S (Datatypes.S (Z.to_nat 1000 + 1)))). 
  assert (T1 : bound_test p [1 * (1 * 1 + (-1 * -1 + 0))] = false). { unfold bound_test. cbn [f_bm p io0 fold_left]. unfold bound_step. fold p. rewrite Ol. rb. reflexivity. }
  assert (T2 : bound_test p [1/2 * (1 * 1 + (-1 * -1 + 0))] = true). { unfold bound_test. cbn [f_bm p io0 fold_left]. unfold bound_step. fold p. rewrite Ol. rb. reflexivity. }
  assert (Lm : bm_limit p 1 = false). { unfold bm_limit. cbn. rb. reflexivity. }
  assert (Nm : nm_on p = true) by reflexivity. assert (Bm : bm_on p = true) by reflexivity.
  assert (Hb : f_bm p = BmWorst) by reflexivity. assert (Hn : f_nm p = NmAbsMax) by reflexivity. clearbody p.
  remember (Z.to_nat 1000 + 1)%nat as f eqn:Ef. clear Ef. cbn [bm_loop Nat.eqb andb]. cbv zeta. rewrite Hb, Hn, Nm, Bm, Np. cbn [andb negb orb]. rewrite (proj2 (Rltb_true 0 1)) by lra.
  replace (1 / 1 / 1) with 1 by lra. replace (1 / 1 / IZR (2 * 1)) with (1/2) by (change (2 * 1)%Z with 2%Z; lra).
  apply yields_bind. eexists. split; [apply G; lra|]. cbn [fst snd]. rewrite T1, Lm. cbn [orb]. apply yields_bind. eexists. split; [apply G; lra|]. cbn [fst snd]. rewrite T1. cbn [orb]. apply yields_bind. eexists. split; [apply G; lra|]. cbn [fst snd]. rewrite T2. cbn [orb]. apply yields_ret. rewrite Ol. cbn. rb. repeat (f_equal; try lra).
Qed.

Print Assumptions C96_terminates.
Print Assumptions C96_rounds.
Print Assumptions C96_accepted.
Print Assumptions C96_exact.
Print Assumptions C96_positive_overflow_refuted.
Print Assumptions C96_worst_two_passes_refuted.
