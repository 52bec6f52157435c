(** * Further facts about several areas, found by changing the models (3) *)
From Coq Require Import String.
From Verif Require Import Prelude ConvModel ConvProofs NoiseModel NoiseSpec NoiseProofs ClModel ClModel2 FitModel.

(** C35: the read noise of a drifted conductance: a draw of the standard normal times the drifted conductance, the relative strength
    of the noise and the square root of the logarithm of the time; negative results become 0 *)
Theorem C35_read_noise : forall a m z g nu t g', power_law a m -> sensible a -> 0 <= t -> pl_drift m z g nu t = Ok g' -> length g' = length g /\
  forall i, (i < length g)%nat -> let gd := nth i g 0 * decay (na_t0 a) t (nth i nu 0) in
  nth i g' 0 = Rmax 0 (gd + z i * (Rabs gd * na_rns a * pl_qs m (nth i g 0) * sqrt (ln ((t + na_t0 a + na_tread a) / (2 * na_tread a))))).
Proof.
  intros a m z g nu t g' P S Ht E. assert (F : pl_t0 m = na_t0 a /\ pl_tread m = na_tread a /\ pl_rns m = na_rns a).
  { destruct P as [| | |two m Hh]; try (cbn; auto). unfold hermes_new in Hh. repeat match type of Hh with context [match ?x with _ => _ end] => destruct x; try discriminate | context [if ?x then _ else _] => destruct x; try discriminate end; injection Hh as <-; cbn; auto. }
  destruct F as (F1 & F2 & F3). destruct S as (S1 & S2 & S3 & _). unfold pl_drift in E. destruct (Nat.eqb (length nu) (length g)) eqn:L; [|discriminate]. apply Nat.eqb_eq in L. cbn [negb] in E. destruct (pl_undef m t); [discriminate|]. injection E as <-.
  split; [rewrite mapi_length, combine_length; lia|]. intros i Hi gd. rewrite (mapi_nth _ _ _ (0, 0)) by (rewrite combine_length; lia). rewrite combine_nth by auto. cbn [fst snd]. unfold pl_drift1, pl_drifted. rewrite F1, F2, F3. rewrite (proj2 (Rltb_true 0 (t + na_t0 a))) by lra.
  assert (G : (if Rltb (na_t0 a) (t + na_t0 a) then nth i g 0 * Rpower ((t + na_t0 a) / na_t0 a) (- nth i nu 0) else nth i g 0) = gd).
  { unfold gd, decay. destruct (Rltb (na_t0 a) (t + na_t0 a)) eqn:C; [apply Rltb_true in C|apply Rltb_false in C].
    - f_equal. f_equal. field. lra.
    - replace t with 0 by lra. replace (1 + 0 / na_t0 a) with 1 by (field; lra). unfold Rpower. rewrite ln_1, Rmult_0_r, exp_0. ring. }
  rewrite G. rewrite Rmax_comm. f_equal. ring.
Qed.
(** C183: no configuration without layers that name exactly one, known configuration class *)
Theorem C183_config_error f32 a p its : (config_names its = []%list \/ (exists x y r, config_names its = (x :: y :: r)%list) \/ exists n, config_names its = [n]%list /\ ~ List.In n rpu_classes) ->
  create_config f32 a p (Some its) = Raise ConfigError.
Proof.
  unfold create_config, common_name. intros [-> | [(x & y & r & ->) | (n & -> & H)]]; [reflexivity | reflexivity |]. destruct (String.eqb n ""); [reflexivity|]. destruct (mem n rpu_classes) eqn:M; [|reflexivity]. exfalso. apply H. unfold mem in M. apply existsb_exists in M as (x & Hx & E). apply String.eqb_eq in E. now subst.
Qed.
(** C198: no measurement at all is an IndexError *)
Theorem C198_no_measurement {tile} (new_tile : nat -> nat -> rpu -> tile) set_weights update get_weights ps rd r n fw : (exists d, apply_params ps (rc_device r) = Ok d) ->
  model_response new_tile set_weights update get_weights ps (Many []) rd r n fw = Raise IndexError.
Proof. intros (d & E). unfold model_response. rewrite E. destruct rd; reflexivity. Qed.
Print Assumptions C35_read_noise.
Print Assumptions C183_config_error.
Print Assumptions C198_no_measurement.
