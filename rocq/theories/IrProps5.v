(** * C163: the modes compared *)
From Verif Require Import Prelude MvmModel ConvModel IrModel IrSpec IrProofs IrProofs2 IrProofs3 IrProps2 IrProps3 IrProps4.
Local Open Scope R_scope.

Lemma dot_isum : forall (a b : list R) n, length a = n -> length b = n -> dot a b = isum n (fun i => nth i a 0 * nth i b 0).
Proof. unfold dot. induction a as [|x a IH]; intros [|y b] n La Lb; cbn [length] in *; try lia; [subst; reflexivity|]. destruct n as [|n]; [lia|]. rewrite isum_S. cbn [nth]. rewrite <- (IH b n) by lia. reflexivity. Qed.
Lemma quantized_nth r z i : nth i (quantized r z) 0 = IZR (nth i z 0%Z) * (2 * r).
Proof.
  unfold quantized. destruct (Nat.lt_ge_cases i (length z)) as [L|L].
  - set (g := fun k => IZR k * (2 * r)). rewrite (nth_indep (map g z) 0 (g 0%Z)) by (rewrite map_length; exact L). rewrite map_nth. reflexivity.
  - rewrite !nth_overflow by (rewrite ?map_length; exact L). ring.
Qed.
Lemma matvec_linear p conv r W d n U tmax : get_res p = Ok r -> is_mat d n W -> linear_at p conv 0 r W d n (fun j i => ent W j i) (fun _ _ => 0) U tmax.
Proof.
  intros Er M z Lz _. exists (matvec W (quantized r z)). unfold matmul_ir. rewrite Er. cbn [bind]. rewrite (proj2 (Reqb_true 0 0) eq_refl). split; [reflexivity|]. split; [rewrite matvec_length; apply M|]. intros j Lj. pose proof (mat_row d n W j M Lj) as Lr. destruct M as [LW _]. unfold matvec.
  set (g := fun row : vec => dot row (quantized r z)). rewrite (nth_indep (map g W) 0 (g [])) by (rewrite map_length; unfold vec in *; lia). rewrite map_nth. unfold g. rewrite (dot_isum _ _ n Lr) by (unfold quantized; now rewrite map_length). rewrite Rplus_0_r. apply isum_ext. intros i _. now rewrite quantized_nth.
Qed.
Lemma list_ext_nth (d : nat) (a b : list R) : length a = d -> length b = d -> (forall j, (j < d)%nat -> nth j a 0 = nth j b 0) -> a = b.
Proof. intros La Lb H. apply (nth_ext a b 0 0); [lia|]. intros j Lj. apply H. lia. Qed.

(** Without IR drop (in training, or if it is switched off) all modes yield the product of the weights and the
    inputs, for every input on the grid of a resolution 1 / (2^nb - 2). *)
Theorem C163_without_drop p conv (is_test : bool) W d n r nb z :
  (is_test = false \/ o_drop p = 0) -> o_bound p = 1 -> o_tscale p = 1 -> get_res p = Ok r -> 1 / r + 2 = 2 ^ nb -> (o_shift p < nb)%nat -> (2 <= nb)%nat -> is_mat d n W ->
  length z = n -> Forall (fun k => (Z.abs k <= 2 ^ Z.of_nat (nb - 1) - 1)%Z) z ->
  forall m, m <> OTHER_MODE -> run p conv is_test m W (quantized r z) = Ok (matvec W (quantized r z)).
Proof.
  intros Hd Eb Et Er En Ls L2 M Lz Fz m Nm. assert (D0 : (if is_test then o_drop p else 0) = 0) by (destruct Hd as [->| ->]; [reflexivity | destruct is_test; reflexivity]).
  destruct (modes_linear p conv is_test W d n r nb (fun j i => ent W j i) (fun _ _ => 0) Eb Et Er En Ls L2 (proj1 M)) with (z := z) as (y1 & y2 & y3 & R1 & R2 & R3 & D1 & D2 & D3 & V); try exact Lz; try exact Fz; try (rewrite D0; now apply matvec_linear).
  destruct (matvec_linear p conv r W d n (2 ^ (nb - 1)) 1 Er M z Lz) as (y0 & E0 & L0 & V0). { eapply Forall_impl; [|exact Fz]. intros k B. cbn beta in B |- *. rewrite Nat2Z.inj_sub by (apply Nat.neq_0_lt_0, Nat.pow_nonzero; lia). rewrite Nat2Z.inj_pow. cbn. cbn in B. lia. }
  unfold matmul_ir in E0. rewrite Er in E0. cbn [bind] in E0. rewrite (proj2 (Reqb_true 0 0) eq_refl) in E0. injection E0 as E0. rewrite E0.
  destruct m; [rewrite R1 | rewrite R2 | rewrite R3 | contradiction]; f_equal; (apply (list_ext_nth d); [assumption | assumption|]); intros j Lj; destruct (V j Lj) as (V1 & V2 & V3); rewrite (V0 j Lj); rewrite ?V1, ?V2, ?V3; ring.
Qed.

(** With IR drop (and [ir_drop_integration_sum]) the outputs of all modes are the same up to offsets that do not depend
    on the inputs: the same attenuated products. *)
Theorem C163_with_drop p c W d n r nb :
  o_drop p <> 0 -> 0 <= o_drop p * o_rs p -> o_adc p = false -> o_isum p = true -> fits p n -> Nat.even d = true -> 0 <= sp_gmin c < sp_gmax c ->
  o_bound p = 1 -> o_tscale p = 1 -> get_res p = Ok r -> 1 / r + 2 = 2 ^ nb -> (0 < o_shift p < nb - 1)%nat -> is_mat d n W ->
  exists (al : nat -> nat -> R) (off1 off2 off3 : nat -> R),
  (forall j i, (j < d)%nat -> (i < n)%nat -> 0 < al j i <= 1) /\
  forall z, length z = n -> Forall (fun k => (Z.abs k <= 2 ^ Z.of_nat (nb - 1) - 1)%Z) z -> exists y1 y2 y3,
    run p (sp_pairs c) true ONE_PASS W (quantized r z) = Ok y1 /\ run p (sp_pairs c) true SPLIT_MODE W (quantized r z) = Ok y2 /\ run p (sp_pairs c) true BIT_WISE W (quantized r z) = Ok y3 /\
    length y1 = d /\ length y2 = d /\ length y3 = d /\
    forall j, (j < d)%nat -> let s := isum n (fun i => al j i * ent W j i * nth i (quantized r z) 0) in nth j y1 0 = s + off1 j /\ nth j y2 0 = s + off2 j /\ nth j y3 0 = s + off3 j.
Proof.
  intros Nd Rs NA Si Fi Ev G Eb Et Er En Ls M. pose proof (get_res_pos p r Er) as Pr. destruct (C161_attenuated p c W d n r Nd Rs NA Er Fi Ev M G) as (al & off & A1 & _ & _ & _ & _ & A6).
  set (o := fun U j => off U j * (2 * r)). assert (Lin : forall U tmax, (2 <= U)%nat -> tmax = 2 * r * INR (U - 1) -> linear_at p (sp_pairs c) (o_drop p) r W d n (fun j i => al j i * ent W j i) o U tmax).
  { intros U tmax LU -> z Lz Bz. assert (PU : 0 < INR (U - 1)) by (apply lt_0_INR; lia). destruct (A6 U (2 * r * INR (U - 1)) z LU ltac:(nra) Lz Bz) as (y & E & L & V). assert (Eg : grid_input U (2 * r * INR (U - 1)) z = quantized r z) by (unfold grid_input, quantized; apply map_ext; intros k; field; lra). rewrite Eg in E. exists y. split; [exact E|]. split; [exact L|]. intros j Lj. rewrite V by exact Lj. rewrite Eb, Si. replace (1 / r / 2) with (/ (2 * r)) by (field; lra). unfold Rdiv at 1. rewrite Rinv_inv, Rmult_plus_distr_r. f_equal. rewrite Rmult_comm, <- isum_scale. apply isum_ext. intros i _. unfold pulses. ring. }
  assert (IN : forall a, INR (2 ^ a - 1) = 2 ^ a - 1). { intros a. rewrite minus_INR by (apply Nat.neq_0_lt_0, Nat.pow_nonzero; lia). rewrite INR_IZR_INZ, Nat2Z.inj_pow, pow2_IZR. reflexivity. }
  assert (P2 : forall a, (1 <= a)%nat -> (2 <= 2 ^ a)%nat). { intros a La. change 2%nat with (2 ^ 1)%nat at 1. apply Nat.pow_le_mono_r; lia. }
  exists al, (o (2 ^ (nb - 1))%nat), (fun j => o (2 ^ o_shift p)%nat j + 2 ^ o_shift p * o (2 ^ (nb - 1 - o_shift p))%nat j), (fun j => (2 ^ (nb - 1) - 1) * o 2%nat j). split; [exact A1|]. intros z Lz Fz.
  destruct (modes_linear p (sp_pairs c) true W d n r nb (fun j i => al j i * ent W j i) o Eb Et Er En ltac:(lia) ltac:(lia) (proj1 M)) with (z := z) as (y1 & y2 & y3 & R1 & R2 & R3 & D1 & D2 & D3 & V); try exact Lz; try exact Fz.
  - apply Lin; [apply P2; lia|]. rewrite IN. assert (S2 : (2 ^ nb = 2 * 2 ^ (nb - 1))) by (replace nb with (S (nb - 1)) at 1 by lia; reflexivity). apply Rmult_eq_reg_r with (/ r); [|apply Rinv_neq_0_compat; lra]. replace (2 * r * (2 ^ (nb - 1) - 1) * / r) with (2 * 2 ^ (nb - 1) - 2) by (field; lra). rewrite <- S2, <- En. field. lra.
  - apply Lin; [apply P2; lia | now rewrite IN].
  - apply Lin; [apply P2; lia|]. rewrite IN. f_equal. f_equal. rewrite INR_IZR_INZ, Nat2Z.inj_pow, pow2_IZR. reflexivity.
  - apply Lin; [lia|]. cbn. ring.
  - exists y1, y2, y3. repeat (split; [assumption|]). intros j Lj. cbv zeta. destruct (V j Lj) as (V1 & V2 & V3). rewrite (isum_ext n (fun i => al j i * ent W j i * nth i (quantized r z) 0) (fun i => al j i * ent W j i * (IZR (nth i z 0%Z) * (2 * r)))) by (intros i _; now rewrite quantized_nth). repeat split; assumption.
Qed.
Theorem C163_with_drop_nontrivial : exists p, o_drop p <> 0 /\ 0 < o_drop p * o_rs p /\ o_adc p = false /\ o_isum p = true /\ fits p 3 /\ o_bound p = 1 /\ o_tscale p = 1 /\ get_res p = Ok (1 / 14) /\ 1 / (1 / 14) + 2 = 2 ^ 4 /\ (0 < o_shift p < 4 - 1)%nat /\
  Forall (fun k => (Z.abs k <= 2 ^ Z.of_nat (4 - 1) - 1)%Z) [7%Z; (-6)%Z; 0%Z].
Proof.
  exists {| o_ext := true; o_mode := ONE_PASS; o_res := 14; o_bound := 1; o_drop := 1; o_rs := 15 / 100; o_segs := 1; o_tscale := 1; o_vread := 4 / 10; o_shift := 2; o_adc := false; o_freq := 1; o_isum := true; o_phys := 8 |}. cbn [o_drop o_rs o_adc o_isum o_bound o_tscale o_shift].
  split; [lra|]. split; [lra|]. split; [reflexivity|]. split; [reflexivity|]. split; [unfold fits; cbn; repeat split; try lia; discriminate|]. split; [reflexivity|]. split; [reflexivity|]. split; [unfold get_res, norm_res; cbn [o_res]; rewrite (proj2 (Rltb_true 1 14)) by lra; rewrite (proj2 (Rltb_true 0 (1 / 14))) by lra; reflexivity|]. split; [cbn; lra|]. split; [lia|]. repeat constructor; cbn; lia.
Qed.

(** The split is exact for all inputs, on the grid or not: the two parts add up to the input. *)
Theorem C163_split_exact p r x xs : o_mode p = SPLIT_MODE -> get_res p = Ok r -> prepare_inputs p x = Ok xs ->
  exists lsb msb, xs = [lsb; msb] /\ length lsb = length x /\ length msb = length x /\ forall i, nth i lsb 0 + 2 ^ o_shift p * nth i msb 0 = nth i x 0.
Proof.
  intros Em Er H. pose proof (get_res_pos p r Er) as Pr. unfold prepare_inputs in H. rewrite Er, Em in H. cbn [bind] in H. destruct (negb (whole_bits r)); [discriminate|]. destruct (negb (Z.of_nat (o_shift p) <? n_bits r)%Z); [discriminate|]. injection H as <-. eexists. eexists. split; [reflexivity|]. rewrite !map_length. split; [reflexivity|]. split; [reflexivity|]. intros i.
  destruct (Nat.lt_ge_cases i (length x)) as [L|L]; [|rewrite !nth_overflow by (rewrite ?map_length; exact L); ring]. rewrite !map_map. set (f := fun v => fmodR (v / (2 * r)) (2 ^ o_shift p) * (2 * r)). set (g := fun v => upper (2 ^ o_shift p) (v / (2 * r)) * (2 * r)). rewrite (nth_indep (map f x) 0 (f 0)) by (rewrite map_length; exact L). rewrite (nth_indep (map g x) 0 (g 0)) by (rewrite map_length; exact L). rewrite !map_nth. unfold f, g, fmodR, upper. field. lra.
Qed.
(** A resolution that is not of the form 1 / (2^n - 2), or a shift of all bits or more, is refused in split mode. *)
Theorem C163_split_refused p conv te fin W r x : o_mode p = SPLIT_MODE -> get_res p = Ok r ->
  (forall n : nat, 1 / r + 2 <> 2 ^ n) \/ (exists n : nat, 1 / r + 2 = 2 ^ n /\ (n <= o_shift p)%nat) -> compute_mv p conv te fin W x = Raise ConfigError.
Proof.
  intros Em Er H. unfold compute_mv, prepare_inputs. rewrite Er, Em. cbn [bind]. destruct H as [H|(n & E & L)].
  - replace (whole_bits r) with false; [reflexivity|]. symmetry. unfold whole_bits. apply Reqb_false. intros C. apply (H (Z.to_nat (n_bits r))). rewrite <- C, pow2_IZR. rewrite Z2Nat.id by apply Z.log2_nonneg. reflexivity.
  - destruct (whole_n r n E) as [Nb Wb]. rewrite Nb, Wb. replace (Z.of_nat (o_shift p) <? Z.of_nat n)%Z with false by (symmetry; apply Z.ltb_ge; lia). reflexivity.
Qed.
(** Refuted: bit-wise operation yields the same as one pass for all resolutions.  With 8 steps (resolution 1 / 8) the
    product of weight 1 and input 1 is 0, even without IR drop; one pass yields 1. *)
Theorem C163_bit_wise_refuted conv is_test : let p := {| o_ext := true; o_mode := ONE_PASS; o_res := 8; o_bound := 1; o_drop := 0; o_rs := 15 / 100; o_segs := 8; o_tscale := 1; o_vread := 4 / 10; o_shift := 3; o_adc := false; o_freq := 1; o_isum := true; o_phys := 8 |} in
  get_res p = Ok (1 / 8) /\ run p conv is_test ONE_PASS [[1]] (quantized (1 / 8) [4%Z]) = Ok [1] /\ run p conv is_test BIT_WISE [[1]] (quantized (1 / 8) [4%Z]) = Ok [0].
Proof.
  intros p. assert (Er : get_res p = Ok (1 / 8)). { unfold get_res, norm_res. cbn [o_res p]. rewrite (proj2 (Rltb_true 1 8)) by lra. rewrite (proj2 (Rltb_true 0 (1 / 8))) by lra. reflexivity. }
  assert (Q : quantized (1 / 8) [4%Z] = [1]) by (unfold quantized; cbn [map]; f_equal; lra). split; [exact Er|]. assert (D0 : (if is_test then o_drop p else 0) = 0) by (destruct is_test; reflexivity).
  assert (M : forall U t x, matmul_ir p conv 0 U t [[1]] x = Ok (matvec [[1]] x)) by (intros; unfold matmul_ir; rewrite Er; cbn [bind]; now rewrite (proj2 (Reqb_true 0 0) eq_refl)).
  split.
  - unfold run, compute_mv, prepare_inputs. change (get_res (with_mode ONE_PASS p)) with (get_res p). change (o_drop (with_mode ONE_PASS p)) with (o_drop p). rewrite Er, D0, Q. change (o_mode (with_mode ONE_PASS p)) with ONE_PASS. cbn [bind]. rewrite matmul_mode, M. cbn [bind]. f_equal. cbn. f_equal. lra.
  - unfold run, compute_mv, prepare_inputs. change (get_res (with_mode BIT_WISE p)) with (get_res p). change (o_drop (with_mode BIT_WISE p)) with (o_drop p). rewrite Er, D0. change (o_mode (with_mode BIT_WISE p)) with BIT_WISE. cbn [bind]. rewrite (int_of_quantized (1 / 8) [4%Z] ltac:(lra)).
    assert (Nb : n_bits (1 / 8) = 3%Z) by (unfold n_bits; replace (1 / (1 / 8) + 2) with (IZR 10) by (cbn; lra); rewrite floorZ_IZR; reflexivity). rewrite Nb. replace (Z.to_nat (3 - 1)) with 2%nat by reflexivity. assert (B1 : map (fun v => fmodR v 2 * (2 * (1 / 8))) (map IZR [4%Z]) = [0]). { cbn [map]. pose proof (fmod_int 1 4) as X. rewrite pow_1 in X. rewrite X. f_equal. change (Z.rem 4 (2 ^ Z.of_nat 1)) with 0%Z. lra. } assert (B2 : map (upper 2) (map IZR [4%Z]) = map IZR [2%Z]) by (cbn [map]; pose proof (upper_int 1 4) as X; rewrite pow_1 in X; rewrite X; reflexivity).
    assert (B3 : map (fun v => fmodR v 2 * (2 * (1 / 8))) (map IZR [2%Z]) = [0]). { cbn [map]. pose proof (fmod_int 1 2) as X. rewrite pow_1 in X. rewrite X. f_equal. change (Z.rem 2 (2 ^ Z.of_nat 1)) with 0%Z. lra. }
    cbn [bits]. unfold vec in *. rewrite B1, B2, B3. rewrite bit_passes_mode. cbn [bit_passes]. rewrite !M. cbn [bind]. f_equal. cbn. f_equal. lra.
Qed.

Print Assumptions C163_without_drop.
Print Assumptions C163_with_drop.
Print Assumptions C163_with_drop_nontrivial.
Print Assumptions C163_split_exact.
Print Assumptions C163_split_refused.
Print Assumptions C163_bit_wise_refuted.
