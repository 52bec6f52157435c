(** * Inference experiments of the cloud (C183) *)
From Verif Require Import Prelude ClModel ClModel2.
Local Open Scope string_scope.

(** The noise model survives the exchange format, rounded; its kind is that of the format *)
Theorem C183_noise f32 d : nz_device d = "pcm" \/ (nz_device d = "generic" /\ nz_mean d <> None /\ nz_std d <> None) ->
  exists p, noise_to_proto f32 d = Ok p /\
  let d' := noise_from_proto p in
  nz_device d' = nz_device d /\ nz_prog d' = f32 (nz_prog d) /\ nz_read d' = f32 (nz_read d) /\ nz_drift d' = f32 (nz_drift d) /\ nz_comp d' = nz_comp d /\
  nz_c0 d' = f32 (nz_c0 d) /\ nz_c1 d' = f32 (nz_c1 d) /\ nz_c2 d' = f32 (nz_c2 d) /\
  (nz_device d = "generic" -> nz_mean d' = option_map f32 (nz_mean d) /\ nz_std d' = option_map f32 (nz_std d)).
Proof.
  intros [E|(E & M & S)]; unfold noise_to_proto; rewrite E; cbn [String.eqb].
  - eexists. split; [reflexivity|]. cbn. repeat split; auto; discriminate.
  - destruct (nz_mean d); [|contradiction]. destruct (nz_std d); [|contradiction]. eexists. split; [reflexivity|]. cbn. repeat split; auto.
Qed.
(** refuted for other device names: they come back as generic, and no configuration can be made for them *)
Theorem C183_device_refuted f32 d mean std a : nz_device d <> "pcm" -> nz_device d <> "generic" -> nz_mean d = Some mean -> nz_std d = Some std -> an_adc a <> 1%Z -> an_dac a <> 1%Z ->
  (exists p, noise_to_proto f32 d = Ok p /\ nz_device (noise_from_proto p) = "generic") /\ rpu_config_from_info f32 a d = Raise NoiseModelDeviceIDException.
Proof.
  intros N1 N2 M S A D. apply String.eqb_neq in N1, N2. assert (R : forall z, z <> 1%Z -> exists r, resolution z = Ok r). { intros z Hz. unfold resolution. destruct (Reqb _ 0) eqn:E; [exfalso | eauto]. apply Reqb_true in E. destruct (Z.leb_spec 0 z).
    - assert (X : IZR (2 ^ z) = IZR 2) by lra. apply eq_IZR in X. assert (z = 1)%Z; [|contradiction]. destruct (Z.eq_dec z 0) as [->|]; [cbn in X; lia|]. assert (2 ^ z = 2 * 2 ^ (z - 1))%Z by (rewrite <- Z.pow_succ_r by lia; f_equal; lia). destruct (Z.eq_dec z 1); [assumption|]. assert (2 ^ (z - 1) = 2 * 2 ^ (z - 2))%Z by (rewrite <- Z.pow_succ_r by lia; f_equal; lia). assert (0 < 2 ^ (z - 2))%Z by (apply Z.pow_pos_nonneg; lia). lia.
    - assert (1 <= 2 ^ (- z))%Z by (apply (Z.pow_le_mono_r 2 0 (- z)); lia). apply IZR_le in H0. assert (0 < IZR (2 ^ (- z))) by lra. assert (/ IZR (2 ^ (- z)) <= 1) by (rewrite <- Rinv_1; apply Rinv_le_contravar; lra). lra. }
  destruct (R _ A) as (o & Ho). destruct (R _ D) as (i & Hi). unfold rpu_config_from_info, noise_to_proto. rewrite N1, M, S. split; [eexists; split; reflexivity|]. cbn [bind]. unfold create_config. cbn [common_name String.eqb]. change (mem "WebComposerInferenceRPUConfig" rpu_classes) with true. cbn [negb String.eqb Ascii.eqb Bool.eqb]. rewrite Ho, Hi. cbn [bind np_device]. rewrite N1, N2. reflexivity.
Qed.
(** The configuration: resolutions of n-bit converters, polynomial in ascending order, scales and compensation as given *)
Theorem C183_config f32 a d : (2 <= an_adc a)%Z -> (2 <= an_dac a)%Z -> nz_device d = "pcm" \/ (nz_device d = "generic" /\ nz_mean d <> None /\ nz_std d <> None) ->
  exists c, rpu_config_from_info f32 a d = Ok c /\ ic_class c = "WebComposerInferenceRPUConfig" /\ ic_out_noise c = f32 (an_noise a) /\
    ic_out_res c * (IZR (2 ^ an_adc a) - 2) = 1 /\ ic_inp_res c * (IZR (2 ^ an_dac a) - 2) = 1 /\ 0 < ic_out_res c <= 1 / 2 /\ 0 < ic_inp_res c <= 1 / 2 /\
    ic_coeff c = map f32 [nz_c0 d; nz_c1 d; nz_c2 d] /\ ic_prog c = f32 (nz_prog d) /\ ic_read c = f32 (nz_read d) /\ ic_drift c = f32 (nz_drift d) /\ ic_comp c = nz_comp d /\
    (nz_device d = "pcm" -> ic_model c = PCMLike) /\
    (forall m s, nz_device d = "generic" -> nz_mean d = Some m -> nz_std d = Some s -> ic_model c = StateIndependent (f32 m) (f32 s)).
Proof.
  intros Ha Hd Hn. assert (R : forall z, (2 <= z)%Z -> exists r, resolution z = Ok r /\ r * (IZR (2 ^ z) - 2) = 1 /\ 0 < r <= 1 / 2). { intros z Hz. unfold resolution. rewrite (proj2 (Z.leb_le 0 z)) by lia. assert (P : (4 <= 2 ^ z)%Z) by (apply (Z.pow_le_mono_r 2 2 z); lia). apply IZR_le in P. rewrite (proj2 (Reqb_false _ 0)) by lra. eexists. split; [reflexivity|]. split; [field; lra|]. split; [unfold Rdiv; rewrite Rmult_1_l; apply Rinv_0_lt_compat; lra|]. unfold Rdiv. rewrite !Rmult_1_l. apply Rinv_le_contravar; lra. }
  destruct (R _ Ha) as (o & Ho & Ho1 & Ho2). destruct (R _ Hd) as (i & Hi & Hi1 & Hi2). destruct (C183_noise f32 d Hn) as (p & Ep & _). unfold rpu_config_from_info. rewrite Ep. cbn [bind]. unfold create_config. cbn [common_name]. change (mem "WebComposerInferenceRPUConfig" rpu_classes) with true. cbn [negb String.eqb Ascii.eqb Bool.eqb]. rewrite Ho, Hi. cbn [bind].
  unfold noise_to_proto in Ep. destruct Hn as [E|(E & M & S)]; rewrite E in Ep; cbn [String.eqb Ascii.eqb Bool.eqb] in Ep.
  - injection Ep as <-. cbn [np_device String.eqb Ascii.eqb Bool.eqb bind]. eexists. split; [reflexivity|]. cbn [ic_class ic_out_noise ic_out_res ic_inp_res ic_coeff ic_prog ic_read ic_drift ic_comp ic_model np_prog np_read np_drift np_comp np_c0 np_c1 np_c2 map]. repeat split; auto; try lra. intros m s E2. congruence.
  - destruct (nz_mean d) as [m|]; [|contradiction]. destruct (nz_std d) as [s|]; [|contradiction]. injection Ep as <-. cbn [np_device String.eqb Ascii.eqb Bool.eqb bind]. eexists. split; [reflexivity|]. cbn [ic_class ic_out_noise ic_out_res ic_inp_res ic_coeff ic_prog ic_read ic_drift ic_comp ic_model np_prog np_read np_drift np_comp np_c0 np_c1 np_c2 map]. repeat split; auto; try lra; [intros E2; congruence|]. intros m' s' _ E1 E2. injection E1 as <-. injection E2 as <-. reflexivity.
Qed.
(** a one-bit converter cannot be configured *)
Theorem C183_one_bit f32 a d : an_adc a = 1%Z -> nz_device d = "pcm" -> rpu_config_from_info f32 a d = Raise ZeroDivisionError.
Proof.
  intros A E. unfold rpu_config_from_info, noise_to_proto. rewrite E. cbn [String.eqb Ascii.eqb Bool.eqb bind]. unfold create_config. cbn [common_name]. change (mem "WebComposerInferenceRPUConfig" rpu_classes) with true. cbn [negb String.eqb Ascii.eqb Bool.eqb]. rewrite A. unfold resolution at 1. replace (Reqb _ 0) with true; [reflexivity|]. symmetry. apply Reqb_true. cbn. lra.
Qed.
(** All analog layers must name the same configuration class *)
Theorem C183_common f32 a p its c : create_config f32 a p (Some its) = Ok c ->
  In (ic_class c) rpu_classes /\ (forall i q, In (ILayer q) its -> String.prefix "Analog" (p_id q) = true -> In i (p_args q) -> a_name i = "rpu_config" -> a_s i = ic_class c) /\
  exists q i, In (ILayer q) its /\ In i (p_args q) /\ a_name i = "rpu_config".
Proof.
  unfold create_config, common_name. destruct (config_names its) as [|n [|n2 r]] eqn:Ec; [cbn; discriminate| |discriminate]. destruct (String.eqb n "") eqn:E1; [discriminate|]. destruct (mem n rpu_classes) eqn:E2; [|discriminate]. cbn [negb]. intros H. destruct (resolution (an_adc a)); [|discriminate]. cbn [bind] in H. destruct (resolution (an_dac a)); [|discriminate]. cbn [bind] in H. destruct (if String.eqb (np_device _) "pcm" then _ else _) as [m|]; [|discriminate]. cbn [bind] in H. injection H as <-. cbn [ic_class].
  assert (Iff : forall s, In s (config_names its) <-> exists q i, In (ILayer q) its /\ String.prefix "Analog" (p_id q) = true /\ In i (p_args q) /\ a_name i = "rpu_config" /\ a_s i = s). { intros s. unfold config_names. rewrite nodup_In, in_flat_map. split.
    - intros (it & Hit & Hs). destruct it as [q|q]; [|destruct Hs]. destruct (String.prefix "Analog" (p_id q)) eqn:Pf; [|destruct Hs]. apply in_flat_map in Hs. destruct Hs as (i & Hi & Hs). destruct (String.eqb (a_name i) "rpu_config") eqn:En; [|destruct Hs]. apply String.eqb_eq in En. destruct Hs as [<-|[]]. exists q, i. auto.
    - intros (q & i & Hq & Pf & Hi & En & Es). exists (ILayer q). split; [exact Hq|]. rewrite Pf. apply in_flat_map. exists i. split; [exact Hi|]. rewrite En, String.eqb_refl. now left. }
  rewrite Ec in Iff. split; [|split].
  - unfold mem in E2. apply existsb_exists in E2. destruct E2 as (x & Hx & Ex). apply String.eqb_eq in Ex. now subst.
  - intros i q Hq Pf Hi En. destruct (proj2 (Iff (a_s i))) as [X|[]]; [exists q, i; auto | auto].
  - destruct (proj1 (Iff n)) as (q & i & Hq & _ & Hi & En & _); [now left|]. exists q, i. auto.
Qed.
Theorem C183_nontrivial f32 : exists c, rpu_config_from_info f32 {| an_noise := 1 / 10; an_adc := 9; an_dac := 7 |} {| nz_device := "pcm"; nz_prog := 1; nz_read := 1; nz_drift := 1; nz_comp := true; nz_c1 := 2; nz_c2 := -1; nz_c0 := 1 / 4; nz_mean := None; nz_std := None |} = Ok c /\ ic_out_res c * 510 = 1.
Proof.
  destruct (C183_config f32 {| an_noise := 1 / 10; an_adc := 9; an_dac := 7 |} {| nz_device := "pcm"; nz_prog := 1; nz_read := 1; nz_drift := 1; nz_comp := true; nz_c1 := 2; nz_c2 := -1; nz_c0 := 1 / 4; nz_mean := None; nz_std := None |}) as (c & E & _ & _ & O & _); [cbn; lia | cbn; lia | left; reflexivity|]. exists c. split; [exact E|]. cbn [an_adc] in O. change (2 ^ 9)%Z with 512%Z in O. lra.
Qed.
Print Assumptions C183_noise.
Print Assumptions C183_device_refuted.
Print Assumptions C183_config.
Print Assumptions C183_one_bit.
Print Assumptions C183_common.

Print Assumptions C183_nontrivial.
