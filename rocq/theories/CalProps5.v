(** * C136-C141: concrete cases that meet the hypotheses *)
From Coq Require Import Permutation.
From Verif Require Import Prelude CalModel CalSpec CalProofs PeriModel CalProps CalProps2 CalProps3 CalProps4.
Local Open Scope nat_scope.

Definition demo_calls : list call := [(0, [[1; -2]%R; [0; 0]%R], fun l => rev l); (1, [[3]%R], fun l => l); (0, [[4; 0]%R], fun l => l)].
Lemma demo_data : forall i x perm, List.In (i, x, perm) demo_calls -> has_data x.
Proof.
  intros i x perm [[= <- <- <-]|[[= <- <- <-]|[[= <- <- <-]|[]]]]; [exists [1; -2]%R, 1%R|exists [3]%R, 3%R|exists [4; 0]%R, 4%R]; repeat split; try (left; reflexivity); lra.
Qed.
Lemma demo_shuffles : shuffles demo_calls.
Proof. intros i x perm [[= <- <- <-]|[[= <- <- <-]|[[= <- <- <-]|[]]]] l; [apply Permutation_sym, Permutation_rev|reflexivity|reflexivity]. Qed.
Lemma demo_ready : forall i, i < 2 -> ready true (s_tile base_state i).
Proof. intros i Hi. eapply base_ready. exact Hi. Qed.
(** MAX over two batches for tile 0 and one for tile 1: ranges 4 and 3 *)
Example C136_nontrivial : exists s', calibrate MaxAbs 1 1000 None true true 2 demo_calls base_state = (s', None) /\ l_range (s_tile s' 0) = Some 4%R /\ l_range (s_tile s' 1) = Some 3%R.
Proof.
  destruct (C136_max 1 1000 None true 2 demo_calls base_state demo_ready demo_data) as (s' & E & H). exists s'. split; [exact E|].
  pose proof (H 0 ltac:(lia)) as H0. pose proof (H 1 ltac:(lia)) as H1. cbn [demo_calls existsb fst Nat.eqb orb] in H0, H1. destruct H0 as (r & R1 & U & (v & V1 & V2) & _). destruct H1 as (r' & R1' & _ & (v' & V1' & V2') & _).
  rewrite R1, R1'. split; f_equal.
  - assert (L : (4 <= r)%R) by (rewrite <- (Rabs_right 4) by lra; apply U; cbn; tauto). cbn in V1. decompose [or] V1; try contradiction; subst v; revert V2; unfold Rabs; destruct (Rcase_abs _); lra.
  - destruct V1' as [<-|[]]. rewrite <- V2'. apply Rabs_right. lra.
Qed.
(** the cached quantile, with a shuffle that is not the identity *)
Example C137_nontrivial : exists s', calibrate CacheQuantile (1/2) 1 None true true 2 demo_calls base_state = (s', None) /\ l_range (s_tile s' 1) = Some 3%R.
Proof.
  destruct (C137_cache_quantile (1/2) 1 None true 2 demo_calls base_state demo_ready demo_shuffles) as (s' & E & H). exists s'. split; [exact E|].
  destruct (H 1 ltac:(lia)) as (rows & rest & P & L & K). assert (Nz : nonzero (rows_of 1 demo_calls) = [[3%R]]) by (cbn; replace (Reqb 3 0) with false by (symmetry; apply Reqb_false; lra); reflexivity).
  rewrite Nz in P, L. cbn in L. assert (Er : rest = []) by (apply Permutation_length in P; rewrite app_length in P; unfold mat, vec in *; destruct rest; [reflexivity|cbn in P; lia]). rewrite Er, app_nil_r in P. apply Permutation_sym, Permutation_length_1_inv in P. rewrite P in K. cbn in K. destruct K as [K _]. rewrite K. f_equal.
  unfold quantile. cbn. rewrite !Rmult_0_r. replace (floorZ 0) with 0%Z by (symmetry; apply floorZ_unique; lra). cbn. rewrite Rminus_0_r, Rmult_0_l, Rplus_0_r. apply Rabs_right. lra.
Qed.
(** the moving average of the largest magnitudes of two batches: (2 + 4) / 2 *)
Example C138_nontrivial : exists s', calibrate MovingQuantile 1 1000 None true true 2 demo_calls base_state = (s', None) /\ l_range (s_tile s' 0) = Some 3%R.
Proof.
  destruct (C138_moving_quantile 1 1000 None true 2 demo_calls base_state demo_ready demo_data) as (s' & E & H).
  - intros i r _ [= <-]. lra.
  - exists s'. split; [exact E|]. destruct (H 0 ltac:(lia)) as (r0 & S0 & K & _). cbv zeta in K. rewrite K. injection S0 as <-. f_equal.
    replace (map _ (batches 0 demo_calls)) with [2; 4]%R.
    + cbn [filter]. replace (Rltb 0 2) with true by (symmetry; apply Rltb_true; lra). replace (Rltb 0 4) with true by (symmetry; apply Rltb_true; lra). cbn. lra.
    + replace (Reqb 1 1) with true by (symmetry; apply Reqb_true; reflexivity). cbn. repeat f_equal; unfold maxabs; cbn; rewrite ?Rabs_R0, ?Rabs_Ropp; rewrite ?(Rabs_right 1), ?(Rabs_right 2), ?(Rabs_right 4) by lra; mm.
Qed.
(** without force_all_layers: a tile with noise management; tiles of which only one has an input range *)
Definition enabled_tile (nm : bool) : tile := {| l_cfg := {| k_prepost := true; k_forward := true; k_enable := true; k_learn := true; k_from_data := 100%Z; k_alpha := 3%R; k_init := 3%R; k_info := None; k_nm := nm; k_perfect := false |}; l_sim := (false, nm); l_range := Some 3%R; l_idx := 0; l_hooks := 0 |}.
Example C141_nontrivial : (exists s', calibrate MaxAbs 1 1000 None false true 2 demo_calls {| s_tile := fun i => enabled_tile (i =? 1); s_entry := fun _ => None; s_train := true |} = (s', Some ConfigError))
  /\ exists s', calibrate MaxAbs 1 1000 None false true 2 demo_calls {| s_tile := fun i => if i =? 0 then enabled_tile false else base_tile; s_entry := fun _ => None; s_train := true |} = (s', Some KeyError).
Proof.
  split.
  - destruct (C141_noise_management MaxAbs 1 1000 None 2 demo_calls {| s_tile := fun i => enabled_tile (i =? 1); s_entry := fun _ => None; s_train := true |}) as (s' & E & _); [discriminate|exists 1; repeat split; lia|exists s'; exact E].
  - destruct (C141_not_all_enabled_refuted MaxAbs 1 1000 None 2 demo_calls {| s_tile := fun i => if i =? 0 then enabled_tile false else base_tile; s_entry := fun _ => None; s_train := true |}) as (s' & E & _).
    + discriminate.
    + intros i Hi. cbn [s_tile]. destruct (i =? 0); cbn; repeat split; discriminate.
    + intros _. exact demo_data.
    + exists 1. split; [lia|reflexivity].
    + exists s'. exact E.
Qed.
(** a batch of zeros after a good one *)
Example C140_nontrivial : exists s', calibrate MaxAbs 1 1000 None true true 2 (demo_calls ++ [(1, [[0%R]], fun l => l)]) base_state = (s', Some RuntimeError) /\ s_train s' = false.
Proof.
  destruct (C140_zero_batch_refuted MaxAbs 1 1000 None true 2 demo_calls [] 1 [[0%R]] (fun l => l) base_state) as (s' & E & T & _).
  - left. reflexivity.
  - exact demo_ready.
  - exact demo_data.
  - lia.
  - intros (row & v & [<-|[]] & [<-|[]] & N). contradiction.
  - exists s'. auto.
Qed.

(** the standard deviation is the unbiased one: the squares of the deviations from the mean sum to (n-1) std^2 *)
Theorem C138_std l s : std l = Some s -> exists m, (m * INR (length l) = sumR l /\ 0 <= s /\ s * s * INR (length l - 1) = sumR (map (fun v => (v - m) * (v - m)) l))%R.
Proof.
  unfold std. destruct (Nat.ltb_spec (length l) 2) as [|L]; [discriminate|]. intros [= <-]. exists (mean l). assert (P : (0 < INR (length l))%R) by (apply lt_0_INR; lia). assert (P1 : (0 < INR (length l - 1))%R) by (apply lt_0_INR; lia).
  split; [unfold mean; field; lra|]. split; [apply sqrt_pos|]. rewrite sqrt_sqrt; [field; lra|]. apply Rmult_le_pos; [|left; apply Rinv_0_lt_compat; exact P1].
  generalize (mean l). intros m. clear. induction l as [|a l IH]; cbn; [lra|]. pose proof (Rle_0_sqr (a - m)). unfold Rsqr in H. lra.
Qed.

Print Assumptions C138_std.
