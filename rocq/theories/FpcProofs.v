(** * Precision cast: bits *)
From Verif Require Import Prelude FpcModel FpcSpec.
Local Open Scope Z_scope.

Lemma land_field x k w : 0 <= k -> 0 <= w -> Z.land x (Z.shiftl (Z.ones w) k) = (x / 2 ^ k) mod 2 ^ w * 2 ^ k.
Proof.
  intros K W. rewrite <- Z.land_ones by exact W. rewrite <- Z.shiftr_div_pow2 by exact K. rewrite <- Z.shiftl_mul_pow2 by exact K. apply Z.bits_inj'. intros n N. rewrite Z.land_spec. destruct (Z.lt_ge_cases n k) as [L|L].
  - rewrite !Z.shiftl_spec_low by exact L. apply Bool.andb_false_r.
  - rewrite !Z.shiftl_spec by lia. rewrite Z.land_spec, Z.shiftr_spec by lia. f_equal. f_equal. lia.
Qed.
Lemma lor_add a b : Z.land a b = 0 -> Z.lor a b = a + b.
Proof. intros H. rewrite <- Z.lxor_lor by exact H. symmetry. now apply Z.add_nocarry_lxor. Qed.
Lemma disjoint_low a b k : 0 <= k -> a mod 2 ^ k = 0 -> 0 <= b < 2 ^ k -> Z.lor a b = a + b.
Proof.
  intros K A B. apply lor_add. assert (Ea : a = Z.shiftl (a / 2 ^ k) k) by (rewrite Z.shiftl_mul_pow2 by exact K; pose proof (Z.div_mod a (2 ^ k) ltac:(lia)); lia). assert (Eb : b = Z.land b (Z.ones k)) by (rewrite Z.land_ones by exact K; symmetry; now apply Z.mod_small). rewrite Ea, Eb. apply Z.bits_inj'. intros n N. rewrite Z.bits_0, !Z.land_spec. destruct (Z.lt_ge_cases n k) as [L|L].
  - now rewrite Z.shiftl_spec_low by exact L.
  - rewrite (Z.ones_spec_high k n) by lia. rewrite !Bool.andb_false_r. reflexivity.
Qed.

(** a pattern from sign, exponent and mantissa *)
Definition pat (s e m : Z) : Z := s * 2 ^ 31 + e * 2 ^ 23 + m.
Definition fields (s e m : Z) : Prop := 0 <= s < 2 /\ 0 <= e < 256 /\ 0 <= m < 2 ^ 23.
Lemma pat_of x : bits32 x -> exists s e m, fields s e m /\ x = pat s e m /\ x mod 2 ^ 31 = e * 2 ^ 23 + m /\ negative x = (s =? 1).
Proof.
  intros B. unfold bits32 in B. set (a := x mod 2 ^ 31). pose proof (Z.div_mod x (2 ^ 31) ltac:(lia)) as D. pose proof (Z.mod_pos_bound x (2 ^ 31) ltac:(lia)) as A. fold a in D, A. pose proof (Z.div_mod a (2 ^ 23) ltac:(lia)) as D2. pose proof (Z.mod_pos_bound a (2 ^ 23) ltac:(lia)) as M. exists (x / 2 ^ 31), (a / 2 ^ 23), (a mod 2 ^ 23).
  assert (S : 0 <= x / 2 ^ 31 < 2) by (split; [apply Z.div_pos; lia | apply Z.div_lt_upper_bound; lia]). assert (E : 0 <= a / 2 ^ 23 < 256) by (split; [apply Z.div_pos; lia | apply Z.div_lt_upper_bound; lia]).
  split; [repeat split; lia|]. split; [unfold pat; lia|]. split; [lia|]. unfold negative. destruct (Z.leb_spec (2 ^ 31) x) as [H|H]; symmetry; [apply Z.eqb_eq | apply Z.eqb_neq]; lia.
Qed.
Lemma pat_mod s e m : fields s e m -> pat s e m mod 2 ^ 31 = e * 2 ^ 23 + m.
Proof. intros (S & E & M). unfold pat. replace (s * 2 ^ 31 + e * 2 ^ 23 + m) with (e * 2 ^ 23 + m + s * 2 ^ 31) by lia. rewrite Z.mod_add by lia. apply Z.mod_small. lia. Qed.
Lemma pat_neg s e m : fields s e m -> negative (pat s e m) = (s =? 1).
Proof. intros (S & E & M). unfold negative, pat. destruct (Z.eqb_spec s 1) as [->|N]; [apply Z.leb_le | apply Z.leb_gt]; lia. Qed.
Lemma pat_range s e m : fields s e m -> bits32 (pat s e m).
Proof. intros (S & E & M). unfold bits32, pat. lia. Qed.

Lemma land_exp s e m : fields s e m -> Z.land (pat s e m) 2139095040 = e * 2 ^ 23.
Proof.
  intros (S & E & M). change 2139095040 with (Z.shiftl (Z.ones 8) 23). rewrite land_field by lia. f_equal. unfold pat. replace (s * 2 ^ 31 + e * 2 ^ 23 + m) with (m + (s * 2 ^ 8 + e) * 2 ^ 23) by lia. rewrite Z.div_add by lia. rewrite (Z.div_small m) by lia. replace (0 + (s * 2 ^ 8 + e)) with (e + s * 2 ^ 8) by lia. rewrite Z.mod_add by lia. apply Z.mod_small. lia.
Qed.
Lemma land_high s e m : fields s e m -> Z.land (pat s e m) 4286578688 = pat s e 0.
Proof.
  intros (S & E & M). change 4286578688 with (Z.shiftl (Z.ones 9) 23). rewrite land_field by lia. unfold pat. replace (s * 2 ^ 31 + e * 2 ^ 23 + m) with (m + (s * 2 ^ 8 + e) * 2 ^ 23) by lia. rewrite Z.div_add by lia. rewrite (Z.div_small m) by lia. rewrite Z.mod_small by lia. lia.
Qed.
Lemma land_signmant s e m : fields s e m -> Z.land (pat s e m) (u32_not 2139095040) = pat s 0 m.
Proof.
  intros (S & E & M). change (u32_not 2139095040) with (Z.lor (Z.shiftl (Z.ones 1) 31) (Z.ones 23)). rewrite Z.land_lor_distr_r. rewrite land_field by lia. rewrite Z.land_ones by lia. assert (A : (pat s e m / 2 ^ 31) mod 2 ^ 1 = s). { unfold pat. replace (s * 2 ^ 31 + e * 2 ^ 23 + m) with (e * 2 ^ 23 + m + s * 2 ^ 31) by lia. rewrite Z.div_add by lia. rewrite (Z.div_small (e * 2 ^ 23 + m)) by lia. rewrite Z.mod_small by lia. lia. } rewrite A.
  assert (B : pat s e m mod 2 ^ 23 = m). { unfold pat. replace (s * 2 ^ 31 + e * 2 ^ 23 + m) with (m + (s * 2 ^ 8 + e) * 2 ^ 23) by lia. rewrite Z.mod_add by lia. apply Z.mod_small. lia. } rewrite B. rewrite (disjoint_low _ _ 23); [unfold pat; lia | lia | | lia]. replace (s * 2 ^ 31) with (s * 2 ^ 8 * 2 ^ 23) by lia. apply Z.mod_mul. lia.
Qed.
Lemma lor_exp s e m : fields s e m -> Z.land (Z.lor (pat s e m) 2139095040) 4286578688 = pat s 255 0.
Proof.
  intros F. pose proof F as (S & E & M). rewrite Z.land_lor_distr_l. rewrite (land_high s e m F). change (Z.land 2139095040 4286578688) with (Z.shiftl 255 23).
  replace (pat s e 0) with (Z.shiftl (s * 2 ^ 8 + e) 23) by (rewrite Z.shiftl_mul_pow2 by lia; unfold pat; lia). rewrite <- Z.shiftl_lor. rewrite Z.shiftl_mul_pow2 by lia. assert (A : Z.lor (s * 2 ^ 8 + e) 255 = s * 2 ^ 8 + 255). { rewrite <- (disjoint_low (s * 2 ^ 8) e 8); [|lia | apply Z.mod_mul; lia | lia]. rewrite <- Z.lor_assoc. assert (X : Z.lor e 255 = 255). { change 255 with (Z.ones 8). apply Z.bits_inj'. intros n N. rewrite Z.lor_spec. destruct (Z.lt_ge_cases n 8) as [L|L]; [rewrite Z.ones_spec_low by lia; apply Bool.orb_true_r|]. rewrite Z.ones_spec_high by lia. rewrite Bool.orb_false_r. replace e with (e mod 2 ^ 8) by (apply Z.mod_small; lia). apply Z.mod_pow2_bits_high. lia. } rewrite X. apply (disjoint_low _ _ 8); [lia | apply Z.mod_mul; lia | lia]. } rewrite A. unfold pat. lia.
Qed.
Lemma lor_sat s m c : fields s 0 m -> 0 <= c < 256 -> Z.lor (c * 2 ^ 23) (pat s 0 m) = pat s c m.
Proof.
  intros (S & _ & M) C. unfold pat. replace (s * 2 ^ 31 + 0 * 2 ^ 23 + m) with (s * 2 ^ 31 + m) by lia. rewrite <- (disjoint_low (s * 2 ^ 31) m 31); [|lia | apply Z.mod_mul; lia | lia]. rewrite Z.lor_assoc, (Z.lor_comm (c * 2 ^ 23)). rewrite (disjoint_low (s * 2 ^ 31) (c * 2 ^ 23) 31); [|lia | apply Z.mod_mul; lia | lia]. apply (disjoint_low _ _ 23); [lia | | lia]. replace (s * 2 ^ 31 + c * 2 ^ 23) with ((s * 2 ^ 8 + c) * 2 ^ 23) by lia. apply Z.mod_mul. lia.
Qed.

(** ** Rounding *)
Definition unit_of (ML : Z) : Z := 2 ^ (23 - ML).
Lemma unit_facts ML : 0 <= ML <= 22 -> 2 <= unit_of ML /\ unit_of ML * 2 ^ ML = 2 ^ 23 /\ 2 * not_needed ML = unit_of ML /\ 1 <= not_needed ML.
Proof.
  intros L. unfold unit_of, not_needed. rewrite Z.shiftl_mul_pow2 by lia. rewrite Z.mul_1_l. split; [change 2 with (2 ^ 1) at 1; apply Z.pow_le_mono_r; lia|]. split; [rewrite <- Z.pow_add_r by lia; f_equal; lia|]. split; [replace (23 - ML) with (Z.succ (22 - ML)) by lia; rewrite Z.pow_succ_r by lia; reflexivity|]. pose proof (Z.pow_pos_nonneg 2 (22 - ML)). lia.
Qed.
Lemma land_bit x k : 0 <= k -> Z.land x (2 ^ k) = if (2 ^ k <=? x mod 2 ^ (k + 1)) then 2 ^ k else 0.
Proof.
  intros K. replace (2 ^ k) with (Z.shiftl (Z.ones 1) k) at 1 by (rewrite Z.shiftl_mul_pow2 by exact K; change (Z.ones 1) with 1; lia). rewrite land_field by lia. pose proof (Z.pow_pos_nonneg 2 k ltac:(lia) K) as P. rewrite Z.pow_add_r by lia. change (2 ^ 1) with 2. rewrite Z.rem_mul_r by lia. pose proof (Z.mod_pos_bound x (2 ^ k) P) as M. pose proof (Z.mod_pos_bound (x / 2 ^ k) 2 ltac:(lia)) as B. destruct (Z.leb_spec (2 ^ k) (x mod 2 ^ k + 2 ^ k * ((x / 2 ^ k) mod 2))) as [H|H]; assert (C : (x / 2 ^ k) mod 2 = 0 \/ (x / 2 ^ k) mod 2 = 1) by lia; destruct C as [C|C]; rewrite C in *; lia.
Qed.
Lemma land_valid ML x : 0 <= ML <= 22 -> bits32 x -> Z.land x (valid_msk ML) = x - x mod unit_of ML.
Proof.
  intros L B. destruct (unit_facts ML L) as (U1 & U2 & U3 & U4). unfold valid_msk. rewrite Z.shiftl_mul_pow2 by lia. change (2 ^ 1) with 2. replace (not_needed ML * 2) with (unit_of ML) by lia. assert (E : u32_not (unit_of ML - 1) = Z.shiftl (Z.ones (9 + ML)) (23 - ML)). { unfold u32_not. rewrite Z.shiftl_mul_pow2 by lia. fold (unit_of ML). rewrite Z.ones_equiv. replace (Z.pred (2 ^ (9 + ML)) * unit_of ML) with (2 ^ (9 + ML) * unit_of ML - unit_of ML) by lia. unfold unit_of at 2. rewrite <- Z.pow_add_r by lia. replace (9 + ML + (23 - ML)) with 32 by lia. lia. }
  rewrite E, land_field by lia. fold (unit_of ML). unfold bits32 in B. rewrite (Z.mod_small (x / unit_of ML)). - pose proof (Z.div_mod x (unit_of ML) ltac:(lia)). lia.
  - split; [apply Z.div_pos; lia|]. apply Z.div_lt_upper_bound; [lia|]. unfold unit_of. rewrite <- Z.pow_add_r by lia. replace (23 - ML + (9 + ML)) with 32 by lia. lia.
Qed.
(** the magnitude, rounded to a multiple of the unit, half way upwards *)
Definition round_mag (ML a : Z) : Z := unit_of ML * ((a + not_needed ML) / unit_of ML).
Lemma round_mag_spec ML a : 0 <= ML <= 22 -> round_mag ML a = a - a mod unit_of ML + (if not_needed ML <=? a mod unit_of ML then unit_of ML else 0).
Proof.
  intros L. destruct (unit_facts ML L) as (U1 & U2 & U3 & U4). unfold round_mag. pose proof (Z.div_mod a (unit_of ML) ltac:(lia)) as D. pose proof (Z.mod_pos_bound a (unit_of ML) ltac:(lia)) as M. set (q := a / unit_of ML) in *. set (t := a mod unit_of ML) in *. rewrite D. replace (unit_of ML * q + t + not_needed ML) with (t + not_needed ML + q * unit_of ML) by lia. rewrite Z.div_add by lia. destruct (Z.leb_spec (not_needed ML) t) as [H|H].
  - replace ((t + not_needed ML) / unit_of ML) with 1; [lia|]. apply Z.div_unique with (t + not_needed ML - unit_of ML); lia.
  - rewrite (Z.div_small (t + not_needed ML)) by lia. lia.
Qed.
Lemma mod_mod_unit ML a : 0 <= ML <= 22 -> forall s e m, a = pat s e m -> a mod unit_of ML = m mod unit_of ML.
Proof.
  intros L s e m ->. destruct (unit_facts ML L) as (U1 & U2 & _). unfold pat. replace (s * 2 ^ 31 + e * 2 ^ 23 + m) with (m + ((s * 2 ^ 8 + e) * 2 ^ ML) * unit_of ML); [apply Z.mod_add; lia|]. replace ((s * 2 ^ 8 + e) * 2 ^ ML * unit_of ML) with ((s * 2 ^ 8 + e) * (unit_of ML * 2 ^ ML)) by ring. rewrite U2. lia.
Qed.
Lemma rounded_spec ML s e m : 0 <= ML <= 22 -> fields s e m ->
  rounded ML (pat s e m) = if e =? 255 then pat s 255 0 else s * 2 ^ 31 + round_mag ML (e * 2 ^ 23 + m).
Proof.
  intros L F. pose proof F as (S & E & M). destruct (unit_facts ML L) as (U1 & U2 & U3 & U4). unfold rounded. rewrite (Z.land_comm 2139095040), (land_exp s e m F). rewrite land_valid by (try exact L; now apply pat_range).
  pose proof (mod_mod_unit ML _ L s e m eq_refl) as Q. pose proof (mod_mod_unit ML (e * 2 ^ 23 + m) L 0 e m ltac:(unfold pat; lia)) as Q2. pose proof (Z.mod_pos_bound m (unit_of ML) ltac:(lia)) as T.
  assert (Mm : m mod unit_of ML <= m) by (apply Z.mod_le; lia). destruct (Z.eqb_spec e 255) as [->|N].
  - replace (255 * 2 ^ 23 =? 2139095040) with true by reflexivity. rewrite Q. replace (pat s 255 m - m mod unit_of ML) with (pat s 255 (m - m mod unit_of ML)) by (unfold pat; lia). apply land_high. repeat split; lia.
  - replace (e * 2 ^ 23 =? 2139095040) with false by (symmetry; apply Z.eqb_neq; lia). rewrite round_mag_spec by exact L. rewrite Q, Q2.
    assert (Up : u32 (Z.shiftl (Z.land (pat s e m) (not_needed ML)) 1) = if not_needed ML <=? m mod unit_of ML then unit_of ML else 0).
    { assert (En : not_needed ML = 2 ^ (22 - ML)) by (unfold not_needed; rewrite Z.shiftl_mul_pow2 by lia; lia). rewrite En at 1. rewrite land_bit by lia. replace (22 - ML + 1) with (23 - ML) by lia. fold (unit_of ML). rewrite Q, <- En. unfold u32. assert (Ub : unit_of ML <= 2 ^ 23) by (unfold unit_of; apply Z.pow_le_mono_r; lia). destruct (not_needed ML <=? m mod unit_of ML); rewrite Z.shiftl_mul_pow2 by lia; change (2 ^ 1) with 2; [replace (not_needed ML * 2) with (unit_of ML) by lia|]; apply Z.mod_small; lia. }
    rewrite Up. unfold u32. assert (Hb : m - m mod unit_of ML + unit_of ML <= 2 ^ 23). { assert (X : m - m mod unit_of ML = unit_of ML * (m / unit_of ML)) by (pose proof (Z.div_mod m (unit_of ML) ltac:(lia)); lia). rewrite X. assert (m / unit_of ML < 2 ^ ML) by (apply Z.div_lt_upper_bound; lia). replace (unit_of ML * (m / unit_of ML) + unit_of ML) with (unit_of ML * (m / unit_of ML + 1)) by ring. rewrite <- U2. apply Z.mul_le_mono_nonneg_l; lia. }
    rewrite Z.mod_small; [unfold pat; lia|]. unfold pat. destruct (not_needed ML <=? m mod unit_of ML); lia.
Qed.
(** it stays below infinity, or is exactly infinity *)
Lemma round_mag_range ML a : 0 <= ML <= 22 -> 0 <= a < 255 * 2 ^ 23 -> 0 <= round_mag ML a <= 255 * 2 ^ 23.
Proof.
  intros L A. destruct (unit_facts ML L) as (U1 & U2 & U3 & U4). unfold round_mag. assert (0 <= (a + not_needed ML) / unit_of ML) by (apply Z.div_pos; lia). split; [nia|]. assert (D : (a + not_needed ML) / unit_of ML < 255 * 2 ^ ML + 1). { apply Z.div_lt_upper_bound; [lia|]. replace (unit_of ML * (255 * 2 ^ ML + 1)) with (255 * (unit_of ML * 2 ^ ML) + unit_of ML) by ring. rewrite U2. lia. } apply Z.le_trans with (unit_of ML * (255 * 2 ^ ML)); [apply Z.mul_le_mono_nonneg_l; lia|]. replace (unit_of ML * (255 * 2 ^ ML)) with (255 * (unit_of ML * 2 ^ ML)) by ring. rewrite U2. lia.
Qed.
