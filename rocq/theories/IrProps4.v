(** * C163: one pass, split and bit-wise operation *)
From Verif Require Import Prelude MvmModel ConvModel IrModel IrSpec IrProofs IrProofs2 IrProofs3 IrProps2 IrProps3.
Local Open Scope R_scope.

(** the same configuration in another mode *)
Definition with_mode (m : mvt) (p : irp) : irp :=
  {| o_ext := o_ext p; o_mode := m; o_res := o_res p; o_bound := o_bound p; o_drop := o_drop p; o_rs := o_rs p; o_segs := o_segs p; o_tscale := o_tscale p; o_vread := o_vread p;
     o_shift := o_shift p; o_adc := o_adc p; o_freq := o_freq p; o_isum := o_isum p; o_phys := o_phys p |}.
Lemma matmul_mode m p conv drop U tmax W x : matmul_ir (with_mode m p) conv drop U tmax W x = matmul_ir p conv drop U tmax W x.
Proof.
  unfold matmul_ir. change (get_res (with_mode m p)) with (get_res p). destruct (get_res p) as [r|e]; [|reflexivity]. cbn [bind]. change (o_segs (with_mode m p)) with (o_segs p). change (o_phys (with_mode m p)) with (o_phys p). change (o_bound (with_mode m p)) with (o_bound p). destruct (conv (map (pad_sym (o_phys p) (length x)) W)) as [pairs ratio].
  assert (E : forall l acc, mvm_pairs (with_mode m p) U tmax (pad_sym (o_phys p) (length x) x) l acc = mvm_pairs p U tmax (pad_sym (o_phys p) (length x) x) l acc); [|rewrite E; reflexivity].
  induction l as [|(f & gp & gm) l IH]; intros acc; [reflexivity|]. cbn [mvm_pairs]. change (mvm_pair (with_mode m p) U tmax (pad_sym (o_phys p) (length x) x) gp gm) with (mvm_pair p U tmax (pad_sym (o_phys p) (length x) x) gp gm). destruct (mvm_pair p U tmax (pad_sym (o_phys p) (length x) x) gp gm); cbn [bind]; [apply IH | reflexivity].
Qed.

(** ** Integers *)
Lemma trunc_quot a b : (0 < b)%Z -> truncZ (IZR a / IZR b) = Z.quot a b.
Proof.
  intros Pb. assert (Pr : 0 < IZR b) by (apply IZR_lt; exact Pb).
  assert (F : forall k, (0 <= k)%Z -> floorZ (IZR k / IZR b) = (k / b)%Z). { intros k Pk. apply floorZ_unique. pose proof (Z.div_mod k b ltac:(lia)) as D. pose proof (Z.mod_pos_bound k b Pb) as M. set (q := (k / b)%Z) in *. set (m := (k mod b)%Z) in *. rewrite D, plus_IZR, mult_IZR. replace ((IZR b * IZR q + IZR m) / IZR b) with (IZR q + IZR m / IZR b) by (field; lra). assert (0 <= IZR m / IZR b < 1); [|lra]. split; [apply Rmult_le_pos; [apply IZR_le; lia | left; apply Rinv_0_lt_compat; exact Pr]|]. apply Rmult_lt_reg_r with (IZR b); [exact Pr|]. replace (IZR m / IZR b * IZR b) with (IZR m) by (field; lra). rewrite Rmult_1_l. apply IZR_lt. lia. }
  unfold truncZ. destruct (Rle_dec 0 (IZR a / IZR b)) as [H|H].
  - assert (Pa : (0 <= a)%Z). { apply le_IZR. apply Rmult_le_reg_r with (/ IZR b); [now apply Rinv_0_lt_compat|]. unfold Rdiv in H. lra. } rewrite F by exact Pa. symmetry. apply Z.quot_div_nonneg; lia.
  - assert (Pa : (a < 0)%Z). { apply Z.lt_nge. intros C. apply H. apply Rmult_le_pos; [now apply IZR_le | left; now apply Rinv_0_lt_compat]. }
    replace (- (IZR a / IZR b)) with (IZR (- a) / IZR b) by (rewrite opp_IZR; field; lra). rewrite F by lia. rewrite <- (Z.opp_involutive a) at 2. rewrite Z.quot_opp_l by lia. f_equal. symmetry. apply Z.quot_div_nonneg; lia.
Qed.
Lemma pow2_IZR s : 2 ^ s = IZR (2 ^ Z.of_nat s).
Proof. rewrite <- pow_IZR. reflexivity. Qed.
Lemma pow2_pos s : (0 < 2 ^ Z.of_nat s)%Z.
Proof. apply Z.pow_pos_nonneg; lia. Qed.
Lemma upper_int s k : upper (2 ^ s) (IZR k) = IZR (Z.quot k (2 ^ Z.of_nat s)).
Proof. unfold upper. rewrite pow2_IZR. f_equal. apply trunc_quot, pow2_pos. Qed.
Lemma fmod_int s k : fmodR (IZR k) (2 ^ s) = IZR (Z.rem k (2 ^ Z.of_nat s)).
Proof. unfold fmodR. rewrite pow2_IZR, trunc_quot by apply pow2_pos. rewrite <- mult_IZR, <- minus_IZR. f_equal. pose proof (Z.quot_rem k (2 ^ Z.of_nat s) ltac:(pose proof (pow2_pos s); lia)). lia. Qed.
Lemma whole_n r nb : 1 / r + 2 = 2 ^ nb -> n_bits r = Z.of_nat nb /\ whole_bits r = true.
Proof. intros E. assert (N : n_bits r = Z.of_nat nb) by (unfold n_bits; rewrite E, pow2_IZR, floorZ_IZR; apply Z.log2_pow2; lia). split; [exact N|]. unfold whole_bits. rewrite N, E, pow2_IZR. now apply Reqb_true. Qed.
Lemma int_of_quantized r z : 0 < r -> map (fun v => v / (2 * r)) (quantized r z) = map IZR z.
Proof. intros P. unfold quantized. rewrite map_map. apply map_ext. intros k. field. lra. Qed.
Lemma rem_bound k m : (0 < m)%Z -> (Z.abs (Z.rem k m) <= m - 1)%Z.
Proof. intros P. pose proof (Z.rem_bound_abs k m ltac:(lia)). lia. Qed.
Lemma quot_bound k m a : (0 < m)%Z -> (Z.abs k <= m * (a + 1) - 1)%Z -> (Z.abs (Z.quot k m) <= a)%Z.
Proof. intros P B. rewrite <- Z.quot_abs by lia. rewrite (Z.abs_eq m) by lia. rewrite Z.quot_div_nonneg by lia. assert (Z.abs k / m < a + 1)%Z by (apply Z.div_lt_upper_bound; lia). lia. Qed.

(** ** The passes *)
Section Linear.
Variables (p : irp) (conv : converter) (drop r : R) (W : mat) (d n : nat) (co : nat -> nat -> R) (off : nat -> nat -> R).
Definition linear_at (U : nat) (tmax : R) : Prop := forall z, length z = n -> Forall (fun k => (Z.abs k <= Z.of_nat (U - 1))%Z) z -> exists y,
  matmul_ir p conv drop U tmax W (quantized r z) = Ok y /\ length y = d /\ forall j, (j < d)%nat -> nth j y 0 = isum n (fun i => co j i * (IZR (nth i z 0%Z) * (2 * r))) + off U j.
Lemma nth_mapZ (f : Z -> Z) z i : f 0%Z = 0%Z -> nth i (map f z) 0%Z = f (nth i z 0%Z).
Proof. intros E. rewrite <- E at 1. apply map_nth. Qed.
Lemma bits_linear : 0 < r -> linear_at 2 (2 * r) -> forall m z i acc, length z = n -> length acc = d -> exists y,
  bit_passes p conv drop r (fun _ v => v) W i (bits m r (map IZR z)) acc = Ok y /\ length y = d /\
  forall j, (j < d)%nat -> nth j y 0 = nth j acc 0 + 2 ^ i * (isum n (fun i => co j i * (IZR (nth i z 0%Z - 2 ^ Z.of_nat m * Z.quot (nth i z 0%Z) (2 ^ Z.of_nat m)) * (2 * r))) + (2 ^ m - 1) * off 2%nat j).
Proof.
  intros Pr H. induction m as [|m IH]; intros z i acc Lz La.
  - exists acc. split; [reflexivity|]. split; [exact La|]. intros j Lj. rewrite isum_zero; [cbn; lra|]. intros k _. change (2 ^ Z.of_nat 0)%Z with 1%Z. rewrite Z.quot_1_r. replace (nth k z 0 - 1 * nth k z 0)%Z with 0%Z by lia. ring.
  - cbn [bits bit_passes]. rewrite !map_map. assert (E1 : map (fun k => fmodR (IZR k) 2 * (2 * r)) z = quantized r (map (fun k => Z.rem k 2) z)). { unfold quantized. rewrite map_map. apply map_ext. intros k. pose proof (fmod_int 1 k) as X. rewrite pow_1 in X. rewrite X. reflexivity. }
    rewrite E1. assert (E2 : map (fun k => upper 2 (IZR k)) z = map IZR (map (fun k => Z.quot k 2) z)). { rewrite map_map. apply map_ext. intros k. pose proof (upper_int 1 k) as X. rewrite pow_1 in X. exact X. } unfold vec in *. rewrite E2.
    destruct (H (map (fun k => Z.rem k 2) z)) as (y1 & M1 & L1 & V1); [now rewrite map_length | rewrite Forall_map, Forall_forall; intros k _; pose proof (rem_bound k 2 ltac:(lia)); cbn; lia|]. rewrite M1. cbn [bind].
    destruct (IH (map (fun k => Z.quot k 2) z) (S i) (map2 (fun a b => a + 2 ^ i * b) acc y1)) as (y & M2 & L2 & V2); [now rewrite map_length | rewrite map2_length; unfold vec in *; lia|]. exists y. split; [exact M2|]. split; [exact L2|]. intros j Lj. rewrite V2 by exact Lj. rewrite (nth_map2' (fun a b => a + 2 ^ i * b) acc y1 0 0) by (unfold vec in *; lia). rewrite V1 by exact Lj.
    rewrite (isum_ext n (fun i0 => co j i0 * (IZR (nth i0 z 0%Z - 2 ^ Z.of_nat (S m) * Z.quot (nth i0 z 0%Z) (2 ^ Z.of_nat (S m))) * (2 * r))) (fun i0 => co j i0 * (IZR (nth i0 (map (fun k => Z.rem k 2) z) 0%Z) * (2 * r)) + 2 * (co j i0 * (IZR (nth i0 (map (fun k => Z.quot k 2) z) 0%Z - 2 ^ Z.of_nat m * Z.quot (nth i0 (map (fun k => Z.quot k 2) z) 0%Z) (2 ^ Z.of_nat m)) * (2 * r))))).
    + rewrite isum_plus, isum_scale. cbn [pow]. ring.
    + intros i0 _. rewrite !nth_mapZ by reflexivity. set (k := nth i0 z 0%Z). rewrite Nat2Z.inj_succ, Z.pow_succ_r by lia. pose proof (pow2_pos m). rewrite <- (Z.quot_quot k 2 (2 ^ Z.of_nat m)) by lia. pose proof (Z.quot_rem k 2 ltac:(lia)) as Q. set (q := Z.quot k 2) in *. rewrite Q at 1. rewrite !minus_IZR, !plus_IZR, !mult_IZR. ring.
Qed.
Lemma split_linear s Ul tl Um tm z : 0 < r -> linear_at Ul tl -> linear_at Um tm -> length z = n ->
  Forall (fun k => (Z.abs (Z.rem k (2 ^ Z.of_nat s)) <= Z.of_nat (Ul - 1))%Z) z -> Forall (fun k => (Z.abs (Z.quot k (2 ^ Z.of_nat s)) <= Z.of_nat (Um - 1))%Z) z -> exists yl ym,
  matmul_ir p conv drop Ul tl W (map (fun v => fmodR v (2 ^ s) * (2 * r)) (map IZR z)) = Ok yl /\ matmul_ir p conv drop Um tm W (map (fun v => upper (2 ^ s) v * (2 * r)) (map IZR z)) = Ok ym /\
  let y := map2 (fun a b => a + 2 ^ s * b) yl ym in length y = d /\ forall j, (j < d)%nat -> nth j y 0 = isum n (fun i => co j i * (IZR (nth i z 0%Z) * (2 * r))) + (off Ul j + 2 ^ s * off Um j).
Proof.
  intros Pr Hl Hm Lz Fl Fm. rewrite !map_map. assert (E1 : map (fun k => fmodR (IZR k) (2 ^ s) * (2 * r)) z = quantized r (map (fun k => Z.rem k (2 ^ Z.of_nat s)) z)) by (unfold quantized; rewrite map_map; apply map_ext; intros k; now rewrite fmod_int). assert (E2 : map (fun k => upper (2 ^ s) (IZR k) * (2 * r)) z = quantized r (map (fun k => Z.quot k (2 ^ Z.of_nat s)) z)) by (unfold quantized; rewrite map_map; apply map_ext; intros k; now rewrite upper_int). unfold vec in *. rewrite E1, E2.
  destruct (Hl (map (fun k => Z.rem k (2 ^ Z.of_nat s)) z)) as (yl & M1 & L1 & V1); [now rewrite map_length | now rewrite Forall_map|]. destruct (Hm (map (fun k => Z.quot k (2 ^ Z.of_nat s)) z)) as (ym & M2 & L2 & V2); [now rewrite map_length | now rewrite Forall_map|]. exists yl, ym. split; [exact M1|]. split; [exact M2|]. cbv zeta. split; [rewrite map2_length; unfold vec in *; lia|]. intros j Lj. rewrite (nth_map2' (fun a b => a + 2 ^ s * b) yl ym 0 0) by (unfold vec in *; lia). rewrite V1, V2 by exact Lj. pose proof (pow2_pos s).
  rewrite (isum_ext n (fun i => co j i * (IZR (nth i z 0%Z) * (2 * r))) (fun i => co j i * (IZR (nth i (map (fun k => Z.rem k (2 ^ Z.of_nat s)) z) 0%Z) * (2 * r)) + 2 ^ s * (co j i * (IZR (nth i (map (fun k => Z.quot k (2 ^ Z.of_nat s)) z) 0%Z) * (2 * r))))).
  - rewrite isum_plus, isum_scale. ring.
  - intros i _. rewrite !nth_mapZ by (try (apply Z.rem_0_l; lia); apply Z.quot_0_l; lia). set (k := nth i z 0%Z). pose proof (Z.quot_rem k (2 ^ Z.of_nat s) ltac:(lia)) as Q. rewrite Q at 1. rewrite plus_IZR, mult_IZR, pow2_IZR. ring.
Qed.
End Linear.

(** the outputs of one configuration, in a mode, without effects of the periphery on the outputs *)
Definition run (p : irp) (conv : converter) (is_test : bool) (m : mvt) (W : mat) (x : vec) : res vec := compute_mv (with_mode m p) conv is_test (fun _ v => v) W x.

Lemma bit_passes_mode m p conv drop r fin W : forall xs i acc, bit_passes (with_mode m p) conv drop r fin W i xs acc = bit_passes p conv drop r fin W i xs acc.
Proof. induction xs as [|x xs IH]; intros i acc; [reflexivity|]. cbn [bit_passes]. rewrite matmul_mode. destruct (matmul_ir p conv drop 2 (2 * r) W x); cbn [bind]; [apply IH | reflexivity]. Qed.
Lemma get_res_pos p r : get_res p = Ok r -> 0 < r.
Proof. unfold get_res. destruct (Rltb 0 (norm_res (o_res p))) eqn:E; [intros X; injection X as <-; now apply Rltb_true | discriminate]. Qed.
(** all modes, from linearity at the numbers of time steps they use *)
Lemma modes_linear p conv (te : bool) W d n r nb co off : o_bound p = 1 -> o_tscale p = 1 -> get_res p = Ok r -> 1 / r + 2 = 2 ^ nb -> (o_shift p < nb)%nat -> (2 <= nb)%nat ->
  let drop := if te then o_drop p else 0 in
  length W = d -> linear_at p conv drop r W d n co off (2 ^ (nb - 1)) 1 -> linear_at p conv drop r W d n co off (2 ^ o_shift p) (2 * r * (2 ^ o_shift p - 1)) ->
  linear_at p conv drop r W d n co off (2 ^ (nb - 1 - o_shift p)) (2 * r * (INR (2 ^ (nb - 1 - o_shift p)) - 1)) -> linear_at p conv drop r W d n co off 2 (2 * r) ->
  forall z, length z = n -> Forall (fun k => (Z.abs k <= 2 ^ Z.of_nat (nb - 1) - 1)%Z) z ->
  exists y1 y2 y3, run p conv te ONE_PASS W (quantized r z) = Ok y1 /\ run p conv te SPLIT_MODE W (quantized r z) = Ok y2 /\ run p conv te BIT_WISE W (quantized r z) = Ok y3 /\
  length y1 = d /\ length y2 = d /\ length y3 = d /\ forall j, (j < d)%nat -> let s := isum n (fun i => co j i * (IZR (nth i z 0%Z) * (2 * r))) in
    nth j y1 0 = s + off (2 ^ (nb - 1))%nat j /\ nth j y2 0 = s + (off (2 ^ o_shift p)%nat j + 2 ^ o_shift p * off (2 ^ (nb - 1 - o_shift p))%nat j) /\ nth j y3 0 = s + (2 ^ (nb - 1) - 1) * off 2%nat j.
Proof.
  intros Eb Et Er En Ls L2 drop LW H1 Hl Hm Hb z Lz Fz. pose proof (get_res_pos p r Er) as Pr. destruct (whole_n r nb En) as [Nb Wb]. set (s := o_shift p) in *. assert (ZN : forall a, Z.of_nat (2 ^ a) = (2 ^ Z.of_nat a)%Z) by (intros a; rewrite Nat2Z.inj_pow; reflexivity).
  assert (ZP : forall a, (Z.of_nat (2 ^ a - 1) = 2 ^ Z.of_nat a - 1)%Z) by (intros a; rewrite Nat2Z.inj_sub by (apply Nat.neq_0_lt_0, Nat.pow_nonzero; lia); rewrite ZN; reflexivity).
  assert (PP : (2 ^ Z.of_nat (nb - 1) = 2 ^ Z.of_nat s * 2 ^ Z.of_nat (nb - 1 - s))%Z) by (rewrite <- Z.pow_add_r by lia; f_equal; lia).
  destruct (H1 z Lz) as (y1 & M1 & D1 & V1). { eapply Forall_impl; [|exact Fz]. intros k B. cbn beta in B |- *. rewrite ZP. exact B. }
  destruct (split_linear p conv drop r W d n co off s _ _ _ _ z Pr Hl Hm Lz) as (yl & ym & Ml & Mm & D2 & V2).
  { rewrite Forall_forall. intros k _. rewrite ZP. apply rem_bound, pow2_pos. }
  { eapply Forall_impl; [|exact Fz]. intros k B. cbn beta in B |- *. rewrite ZP. apply quot_bound; [apply pow2_pos|]. replace (2 ^ Z.of_nat (nb - 1 - s) - 1 + 1)%Z with (2 ^ Z.of_nat (nb - 1 - s))%Z by lia. rewrite <- PP. exact B. }
  destruct (bits_linear p conv drop r W d n co off Pr Hb (nb - 1) z 0 (map (fun _ => 0) W) Lz ltac:(now rewrite map_length)) as (y3 & M3 & D3 & V3).
  exists y1, (map2 (fun a b => a + 2 ^ s * b) yl ym), y3.
  assert (Rb : o_bound p / r + 2 = 2 ^ nb) by (rewrite Eb; exact En). unfold run, compute_mv, prepare_inputs. change (o_drop (with_mode ONE_PASS p)) with (o_drop p). change (o_drop (with_mode SPLIT_MODE p)) with (o_drop p). change (o_drop (with_mode BIT_WISE p)) with (o_drop p). fold drop.
  change (get_res (with_mode ONE_PASS p)) with (get_res p). change (get_res (with_mode SPLIT_MODE p)) with (get_res p). change (get_res (with_mode BIT_WISE p)) with (get_res p). rewrite Er. cbn [bind]. change (o_mode (with_mode ONE_PASS p)) with ONE_PASS. change (o_mode (with_mode SPLIT_MODE p)) with SPLIT_MODE. change (o_mode (with_mode BIT_WISE p)) with BIT_WISE. cbv iota.
  change (o_shift (with_mode SPLIT_MODE p)) with s. change (o_bound (with_mode ONE_PASS p)) with (o_bound p). change (o_bound (with_mode SPLIT_MODE p)) with (o_bound p). change (o_tscale (with_mode ONE_PASS p)) with (o_tscale p). change (o_tscale (with_mode SPLIT_MODE p)) with (o_tscale p). rewrite Rb, Et, Nb, Wb.
  assert (S2 : (2 ^ nb = 2 * 2 ^ (nb - 1))) by (replace nb with (S (nb - 1)) at 1 by lia; reflexivity). assert (IN : forall a, INR (2 ^ a) = 2 ^ a) by (intros a; rewrite INR_IZR_INZ, ZN, pow2_IZR; reflexivity).
  split; [|split; [|split; [|split; [exact D1 | split; [exact D2 | split; [exact D3|]]]]]].
  - cbn [bind]. rewrite (truncZ_nat (2 ^ (nb - 1))) by (rewrite IN, S2; field). rewrite matmul_mode, M1. reflexivity.
  - replace (Z.of_nat s <? Z.of_nat nb)%Z with true by (symmetry; apply Z.ltb_lt; lia). cbn [negb bind]. rewrite (int_of_quantized r z Pr). rewrite !matmul_mode. rewrite (truncZ_nat (2 ^ s)) by (rewrite IN; ring). rewrite Ml. cbn [bind]. rewrite (pow2_IZR nb), floorZ_IZR, Z.log2_pow2 by lia. replace (Z.to_nat (Z.of_nat nb - Z.of_nat s - 1)) with (nb - 1 - s)%nat by lia. rewrite (truncZ_nat (2 ^ (nb - 1 - s))) by ring. rewrite Mm. reflexivity.
  - cbn [bind]. rewrite (int_of_quantized r z Pr). replace (Z.to_nat (Z.of_nat nb - 1)) with (nb - 1)%nat by lia. rewrite bit_passes_mode. destruct (bits (nb - 1) r (map IZR z)); exact M3.
  - intros j Lj. cbv zeta. split; [now apply V1|]. split; [now apply V2|]. rewrite V3 by exact Lj. replace (nth j (map (fun _ : list R => 0) W) 0) with 0 by (clear; revert j; induction W as [|w W' IH]; intros [|j]; cbn; auto). rewrite pow_O. rewrite Rplus_0_l, Rmult_1_l. f_equal. apply isum_ext. intros i _. f_equal. f_equal. f_equal. assert (Bz : (Z.abs (nth i z 0%Z) <= 2 ^ Z.of_nat (nb - 1) - 1)%Z). { destruct (Nat.lt_ge_cases i (length z)) as [Li|Li]; [rewrite Forall_forall in Fz; now apply Fz, nth_In|]. rewrite nth_overflow by exact Li. pose proof (pow2_pos (nb - 1)). cbn. lia. } assert (Q : (Z.quot (nth i z 0) (2 ^ Z.of_nat (nb - 1)) = 0)%Z) by (apply Z.quot_small_iff; [pose proof (pow2_pos (nb - 1)); lia | pose proof (pow2_pos (nb - 1)); lia]). rewrite Q. lia.
Qed.
