(** * Mixed precision: cases that meet the hypotheses of the theorems *)
From Verif Require Import Prelude Rand DevModel DevSpec DevProofs PulseModel PulseSpec PulseProofs PulseProps CompModel CompSpec CompProofs CompProofs3 CompProofs4 CompProps TransProofs MixModel MixSpec MixProofs MixProps MixProps3 MixProps4 MixProps5 MixProps6 MixProps7.

Lemma sat_good : mix_good 1 1 sat_state.
Proof. split; [split; [lia | split; reflexivity] | split; [cbn; lia | cbn; lra]]. Qed.
Lemma sat_due : due sat_par 1 (x_cnt sat_state).
Proof. split; [cbn; lia|]. split; [cbn; lia|]. exists 1%Z. reflexivity. Qed.
Lemma sat_rows : transfer_rows sat_par 1 1. Proof. reflexivity. Qed.
Lemma up_ex_sensible : sensible up_ex. Proof. split; cbn; [lia | lra]. Qed.
Lemma whole_tenth : whole (1/10) (1/10) 1. Proof. split; [|split]; [rewrite !Rabs_right; lra | rewrite Rabs_right; lra | lra]. Qed.
(** C81_content, C81_position, C81_cover *)
Example mix_cover : exists s', mhistory sat_par sat_state [MUpdate up_ex 1 [1/10] [1] 1] s' /\ transfers sat_par [MUpdate up_ex 1 [1/10] [1] 1] (x_cnt sat_state) = 1%nat /\ x_row s' = 0%nat /\
  Rabs (chi_at s' 0 0) < 1/10.
Proof.
  destruct (total_yields _ (mix_update_total sat_par up_ex 1 [1/10] [1] 1 sat_state ltac:(cbn; lia) ltac:(cbn; lia) ltac:(cbn; lra))) as (s' & Y).
  assert (Hm : mhistory sat_par sat_state [MUpdate up_ex 1 [1/10] [1] 1] s') by (unfold mhistory; cbn [foldMM mix_do]; apply yields_bind; exists s'; split; [exact Y | constructor]).
  assert (Tr : transfers sat_par [MUpdate up_ex 1 [1/10] [1] 1] (x_cnt sat_state) = 1%nat). { cbn [transfers]. rewrite (proj2 (Reqb_false 1 0)) by lra. reflexivity. }
  assert (Fi : Forall (mop_fits 1 1) [MUpdate up_ex 1 [1/10] [1] 1]) by (constructor; [split; reflexivity | constructor]). assert (Fs : Forall (mop_sensible sat_par) [MUpdate up_ex 1 [1/10] [1] 1]) by (constructor; [split; [apply up_ex_sensible | right; cbn; lra] | constructor]).
  exists s'. split; [exact Hm|]. split; [exact Tr|]. split.
  - rewrite (C81_position sat_par 1 1 1 _ sat_state s' sat_good ltac:(cbn; lra) ltac:(cbn; lia) eq_refl sat_rows Fi Fs Hm). rewrite Tr. reflexivity.
  - destruct (C81_cover sat_par 1 1 1 _ sat_state s' 0%nat sat_good ltac:(cbn; lra) ltac:(cbn; lia) eq_refl sat_rows Fi Fs Hm) as (os1 & o & os2 & s1 & s2 & E & H1 & H2 & H3 & C); [rewrite Tr; lia | lia|].
    destruct os1 as [|o1 os1]; [|destruct os1; discriminate]. cbn [app] in E. injection E as <- <-. unfold mhistory in H3. cbn [foldMM] in H3. apply yields_ret in H3. subst s2. apply (C 0%nat). lia.
Qed.
(** C81_average *)
Example mix_average : forall N, (0 < N)%nat -> Rabs (expect N [1] (mix_update sat_par up_ex 1 [1/10] [1] 1 sat_state) (fun s' => mix_weight s' 0 0) - - (1/10)) <= 1 / 5 / INR (S N).
Proof.
  intros N HN. assert (Ew : 0 + 1 * nth 0 [1] 0 * nth 0 [1/10] 0 = 1/10) by (cbn; lra).
  pose proof (C81_average N [1] sat_par up_ex 1 [1/10] [1] 1 1 1 sat_state 0 0 (cell0 0) 1 1) as H. cbv beta zeta in H. change (chi_at sat_state 0 0) with 0 in H. change (x_gran sat_state) with (1/10) in H. change (fst (x_part sat_state)) with mt0 in H. change (IZR (up_BL up_ex)) with 1 in H. change (m_dwmin mt0) with (1/10) in H. change (mp_lr sat_par) with 1 in H.
  replace (1 / 5) with (2 * 1 * (1 / 10)) by lra. replace (- (1/10)) with (stored mt0 (cell0 0) - 1 * (1 * (1/10))) by (unfold stored; cbn; rewrite (proj2 (Rltb_false 0 0)) by lra; lra). apply H; clear H; try exact Ew; auto.
  all: try (cbn; lia). all: try (cbn; lra). all: try discriminate. all: try apply sat_good. all: try apply sat_due. all: try apply up_ex_sensible. all: try reflexivity.
  - exists 0%nat. split; [lia | reflexivity].
  - right. reflexivity.
  - intros b z Hb W. assert (b = 0)%nat by lia. subst b. change (chi_at sat_state 0 0) with 0 in W. rewrite Ew in W. rewrite (whole_unique (1/10) (1/10) z 1 ltac:(lra) W whole_tenth). rewrite Rabs_right; lra.
  - split; [split; [cbn; lra | intros H; cbn in H; lra] | repeat split].
  - unfold room, stored. cbn. rewrite (proj2 (Rltb_false 0 0)) by lra. lra.
  - change (chi_at sat_state 0 0) with 0. rewrite Ew. apply whole_tenth.
Qed.
(** C81_exact: a multiple of 3 is written with 3 pulses *)
Definition det_ex : upar := {| up_type := DeterministicImplicit; up_BL := 5; up_fixed := true; up_ublm := false; up_um := false; up_gs := 1; up_res := 0; up_xres := 0; up_dres := 0; up_sto := false |}.
Example mix_exact : exists s' c', yields (mix_update sat_par det_ex 1 [7/20] [1] 1 sat_state) s' /\ cell_at (d_cells (snd (x_part s'))) 0 0 = Some c' /\ yields (pulses mt0 3 true (cell0 0)) c' /\ chi_at s' 0 0 = 1/20.
Proof.
  destruct (total_yields _ (mix_update_total sat_par det_ex 1 [7/20] [1] 1 sat_state ltac:(cbn; lia) ltac:(cbn; lia) ltac:(cbn; lra))) as (s' & Y). exists s'.
  assert (Ew : 0 + 1 * nth 0 [1] 0 * nth 0 [7/20] 0 = 7/20) by (cbn; lra). assert (W3 : whole (1/10) (7/20) 3) by (split; [|split]; [rewrite !Rabs_right; lra | rewrite Rabs_right; lra | lra]).
  pose proof (C81_exact sat_par det_ex 1 [7/20] [1] 1 1 1 sat_state s' 0 0 (cell0 0) 3 1) as H. cbv beta zeta in H. change (chi_at sat_state 0 0) with 0 in H. change (x_gran sat_state) with (1/10) in H. change (fst (x_part sat_state)) with mt0 in H. change (m_dwmin mt0) with (1/10) in H. change (mp_lr sat_par) with 1 in H. change (up_BL det_ex) with 5%Z in H. rewrite Ew in H.
  destruct H as (c' & E1 & E2 & E3); auto.
  all: try (cbn; lia). all: try (cbn; lra). all: try discriminate. all: try apply sat_good. all: try apply sat_due. all: try reflexivity.
  - exists 0%nat. split; [lia | reflexivity].
  - split; cbn; [lia | lra].
  - intros b z Hb W. assert (b = 0)%nat by lia. subst b. change (chi_at sat_state 0 0) with 0 in W. rewrite Ew in W. rewrite (whole_unique (1/10) (7/20) z 3 ltac:(lra) W W3). lia.
  - exists c'. split; [exact Y|]. split; [exact E1|]. split; [exact E2|]. rewrite E3. lra.
Qed.
(** C82_reload: an accumulated value of 5 granularities is lost *)
Definition kept_state : mstate := {| x_part := part1 0; x_chi := [[1/2]]; x_gran := 1/10; x_row := 0; x_cnt := 3; x_avg := 0 |}.
Theorem C82_reload_refuted : exists s', yields (mix_reload sat_par kept_state) s' /\ chi_at kept_state 0 0 = 1/2 /\ chi_at s' 0 0 = 0 /\ x_cnt s' = 3%nat.
Proof.
  eexists. split.
  - unfold mix_reload, load_part. cbn [kept_state x_part x_chi x_gran]. change (vis (snd (part1 0))) with [[0]]. rewrite set_part1 by lra. cbn [bindM]. unfold mix_do. cbn [x_part x_chi]. change (vis (snd (part1 0))) with [[0]]. rewrite set_part1 by lra. cbn [bindM]. constructor.
  - cbn. auto.
Qed.

Print Assumptions C82_reload_refuted.
