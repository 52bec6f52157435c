(** * Precision cast: values *)
From Verif Require Import Prelude FpcModel FpcSpec FpcProofs.
Local Open Scope R_scope.

Lemma p2_pos z : 0 < p2 z.
Proof. unfold p2. apply powerRZ_lt. lra. Qed.
Lemma p2_add a b : p2 (a + b) = p2 a * p2 b.
Proof. unfold p2. apply powerRZ_add. lra. Qed.
Lemma p2_IZR k : (0 <= k)%Z -> p2 k = IZR (2 ^ k).
Proof. intros K. unfold p2. rewrite <- (Z2Nat.id k K). rewrite <- pow_powerRZ. apply pow_IZR. Qed.
Lemma p2_succ z : p2 (z + 1) = 2 * p2 z.
Proof. rewrite p2_add. assert (H : p2 1 = 2) by (unfold p2; apply powerRZ_1). rewrite H. ring. Qed.

(** ** Magnitudes are linear on each (closed) binade *)
Definition slope (e : Z) : R := if (e =? 0)%Z then p2 (-149) else p2 (e - 150).
Definition base (e : Z) : R := if (e =? 0)%Z then 0 else p2 (e - 127).
Lemma slope_pos e : 0 < slope e.
Proof. unfold slope. destruct (e =? 0)%Z; apply p2_pos. Qed.
Lemma base_succ e : (0 <= e)%Z -> base (e + 1) = base e + IZR (2 ^ 23) * slope e.
Proof.
  intros E. unfold base, slope. replace (e + 1 =? 0)%Z with false by (symmetry; apply Z.eqb_neq; lia). rewrite <- p2_IZR by lia. destruct (Z.eqb_spec e 0) as [->|N].
  - rewrite <- p2_add. rewrite Rplus_0_l. f_equal.
  - rewrite <- p2_add. replace (e + 1 - 127)%Z with (e - 127 + 1)%Z by lia. rewrite p2_succ. replace (23 + (e - 150))%Z with (e - 127)%Z by lia. ring.
Qed.
Lemma mag_binade e t : (0 <= e)%Z -> (0 <= t <= 2 ^ 23)%Z -> magnitude (e * 2 ^ 23 + t) = base e + IZR t * slope e.
Proof.
  intros E T. assert (I : forall e t, (0 <= e)%Z -> (0 <= t < 2 ^ 23)%Z -> magnitude (e * 2 ^ 23 + t) = base e + IZR t * slope e).
  { clear. intros e t E T. unfold magnitude, base, slope. replace ((e * 2 ^ 23 + t) / 2 ^ 23)%Z with e by (apply Z.div_unique with t; lia). replace ((e * 2 ^ 23 + t) mod 2 ^ 23)%Z with t by (apply Z.mod_unique with e; lia). destruct (Z.eqb_spec e 0) as [->|N]; [lra|]. rewrite plus_IZR, <- (p2_IZR 23) by lia. rewrite Rmult_plus_distr_r, <- p2_add. f_equal. f_equal. lia. }
  destruct (Z.eq_dec t (2 ^ 23)) as [->|N]; [|apply I; lia]. replace (e * 2 ^ 23 + 2 ^ 23)%Z with ((e + 1) * 2 ^ 23 + 0)%Z by lia. rewrite I by lia. rewrite base_succ by exact E. lra.
Qed.
Lemma base_mono e f : (0 <= e <= f)%Z -> base e <= base f.
Proof.
  intros [E L]. replace f with (e + Z.of_nat (Z.to_nat (f - e)))%Z by lia. generalize (Z.to_nat (f - e)) as n. induction n as [|n IH]; [rewrite Z.add_0_r; lra|]. rewrite Nat2Z.inj_succ. replace (e + Z.succ (Z.of_nat n))%Z with (e + Z.of_nat n + 1)%Z by lia. rewrite base_succ by lia. pose proof (slope_pos (e + Z.of_nat n)). assert (0 < IZR (2 ^ 23)) by (apply IZR_lt; lia). nra.
Qed.
Lemma binade a : (0 <= a)%Z -> exists e t, a = (e * 2 ^ 23 + t)%Z /\ (0 <= e)%Z /\ (0 <= t < 2 ^ 23)%Z.
Proof. intros A. exists (a / 2 ^ 23)%Z, (a mod 2 ^ 23)%Z. pose proof (Z.div_mod a (2 ^ 23) ltac:(lia)). pose proof (Z.mod_pos_bound a (2 ^ 23) ltac:(lia)). pose proof (Z.div_pos a (2 ^ 23) A ltac:(lia)). lia. Qed.
Lemma mag_lt a b : (0 <= a < b)%Z -> magnitude a < magnitude b.
Proof.
  intros [A L]. destruct (binade a A) as (e & t & Ea & E & T). destruct (binade b ltac:(lia)) as (f & u & Eb & F & U). rewrite Ea, Eb, !mag_binade by lia. pose proof (slope_pos e) as Se. pose proof (slope_pos f) as Sf. assert (Ef : (e <= f)%Z) by lia. assert (IZR t < IZR (2 ^ 23)) by (apply IZR_lt; lia). assert (0 <= IZR u) by (apply IZR_le; lia). destruct (Z.eq_dec e f) as [<-|N].
  - assert (IZR t < IZR u) by (apply IZR_lt; lia). nra.
  - pose proof (base_mono (e + 1) f ltac:(lia)) as B. rewrite base_succ in B by exact E. nra.
Qed.
Lemma mag_le a b : (0 <= a <= b)%Z -> magnitude a <= magnitude b.
Proof. intros [A L]. destruct (Z.eq_dec a b) as [->|N]; [lra|]. left. apply mag_lt. lia. Qed.
Lemma mag_0 : magnitude 0 = 0.
Proof. unfold magnitude. cbn [Z.div Z.modulo]. cbn. lra. Qed.
Lemma mag_nonneg a : (0 <= a)%Z -> 0 <= magnitude a.
Proof. intros A. rewrite <- mag_0. apply mag_le. lia. Qed.
Lemma mag_lt_iff a b : (0 <= a)%Z -> (0 <= b)%Z -> (magnitude a < magnitude b <-> (a < b)%Z).
Proof. intros A B. split; [|intros; now apply mag_lt]. intros H. destruct (Z.lt_ge_cases a b) as [L|L]; [exact L|]. pose proof (mag_le b a ltac:(lia)). lra. Qed.

(** ** Rounding to the nearest multiple *)
Definition units (ML : Z) (b : Z) : Prop := (0 <= b)%Z /\ (b mod unit_of ML = 0)%Z.
Lemma round_units ML a : (0 <= ML <= 22)%Z -> (0 <= a)%Z -> units ML (round_mag ML a).
Proof. intros L A. destruct (unit_facts ML L) as (U1 & U2 & U3 & U4). split; [unfold round_mag; assert (0 <= (a + not_needed ML) / unit_of ML)%Z by (apply Z.div_pos; lia); nia|]. unfold round_mag. rewrite Z.mul_comm. apply Z.mod_mul. lia. Qed.
Lemma round_nearest ML a b : (0 <= ML <= 22)%Z -> (0 <= a)%Z -> units ML b ->
  Rabs (magnitude a - magnitude (round_mag ML a)) <= Rabs (magnitude a - magnitude b) /\
  (Rabs (magnitude a - magnitude b) = Rabs (magnitude a - magnitude (round_mag ML a)) -> (b <= round_mag ML a)%Z).
Proof.
  intros L A [Pb Mb]. destruct (unit_facts ML L) as (U1 & U2 & U3 & U4). set (q := unit_of ML) in *. destruct (binade a A) as (e & t & Ea & E & T).
  pose proof (Z.div_mod t q ltac:(lia)) as D. pose proof (Z.mod_pos_bound t q ltac:(lia)) as Mt. set (r := (t mod q)%Z) in *. set (k := (t / q)%Z) in *.
  assert (K : (0 <= k /\ q * k + q <= 2 ^ 23)%Z). { split; [apply Z.div_pos; lia|]. assert (k < 2 ^ ML)%Z by (apply Z.div_lt_upper_bound; lia). replace (q * k + q)%Z with (q * (k + 1))%Z by ring. rewrite <- U2. apply Z.mul_le_mono_nonneg_l; lia. }
  assert (Mod : (a mod q = r)%Z) by (exact (mod_mod_unit ML a L 0 e t ltac:(unfold pat; lia))). assert (Rm : round_mag ML a = (a - r + (if (not_needed ML <=? r)%Z then q else 0))%Z) by (rewrite (round_mag_spec ML a L); fold q; now rewrite Mod).
  pose proof (slope_pos e) as Se. set (lo := (e * 2 ^ 23 + q * k)%Z). set (hi := (lo + q)%Z). assert (Elo : (a - r = lo)%Z) by (unfold lo; lia).
  assert (Vlo : magnitude lo = base e + IZR (q * k) * slope e) by (unfold lo; apply mag_binade; lia). assert (Vhi : magnitude hi = base e + IZR (q * k + q) * slope e) by (unfold hi, lo; rewrite <- Z.add_assoc; apply mag_binade; lia). assert (Va : magnitude a = base e + IZR (q * k + r) * slope e) by (rewrite Ea; rewrite mag_binade by lia; do 3 f_equal; lia).
  assert (Dl : magnitude a - magnitude lo = IZR r * slope e) by (rewrite Va, Vlo, plus_IZR; ring). assert (Dh : magnitude hi - magnitude a = IZR (q - r) * slope e) by (rewrite Va, Vhi, !plus_IZR, minus_IZR; ring).
  assert (Side : (b <= lo \/ hi <= b)%Z). { assert (Mlo : (lo mod q = 0)%Z). { unfold lo. rewrite <- U2. replace (e * (q * 2 ^ ML) + q * k)%Z with ((e * 2 ^ ML + k) * q)%Z by ring. apply Z.mod_mul. lia. } assert (Xb : b = (q * (b / q))%Z) by (pose proof (Z.div_mod b q ltac:(lia)); lia). assert (Xl : lo = (q * (lo / q))%Z) by (pose proof (Z.div_mod lo q ltac:(lia)); lia). destruct (Z.le_gt_cases (b / q) (lo / q)) as [H|H]; [left; rewrite Xb, Xl; apply Z.mul_le_mono_nonneg_l; lia|]. right. unfold hi. rewrite Xb, Xl at 1. replace (q * (lo / q) + q)%Z with (q * (lo / q + 1))%Z by ring. apply Z.mul_le_mono_nonneg_l; lia. }
  assert (Pr : 0 <= IZR r) by (apply IZR_le; lia). assert (Pq : 0 <= IZR (q - r)) by (apply IZR_le; lia). assert (Pl : (0 <= lo)%Z) by (unfold lo; nia).
  assert (Bd : (b <= lo)%Z /\ IZR r * slope e <= Rabs (magnitude a - magnitude b) \/ (hi <= b)%Z /\ IZR (q - r) * slope e <= Rabs (magnitude a - magnitude b) /\ ((hi < b)%Z -> IZR (q - r) * slope e < Rabs (magnitude a - magnitude b))).
  { destruct Side as [H|H].
    - left. split; [exact H|]. pose proof (mag_le b lo ltac:(lia)). rewrite Rabs_right; [lra|]. assert (0 <= IZR r * slope e) by (apply Rmult_le_pos; lra). lra.
    - right. split; [exact H|]. pose proof (mag_le hi b ltac:(lia)). assert (0 <= IZR (q - r) * slope e) by (apply Rmult_le_pos; lra). rewrite Rabs_left1 by lra. split; [lra|]. intros HL. pose proof (mag_lt hi b ltac:(lia)). lra. }
  rewrite Rm, Elo. destruct (Z.leb_spec (not_needed ML) r) as [H|H].
  - fold hi. rewrite (Rabs_left1 (magnitude a - magnitude hi)) by (assert (0 <= IZR (q - r) * slope e) by (apply Rmult_le_pos; lra); lra). replace (- (magnitude a - magnitude hi)) with (IZR (q - r) * slope e) by lra. assert (Qr : IZR (q - r) <= IZR r) by (apply IZR_le; lia). assert (IZR (q - r) * slope e <= IZR r * slope e) by (apply Rmult_le_compat_r; lra). destruct Bd as [[B1 B2]|(B1 & B2 & B3)]; (split; [lra|]); intros Eq; [unfold hi; lia|]. destruct (Z.eq_dec hi b) as [Eh|N]; [lia|]. specialize (B3 ltac:(lia)). lra.
  - rewrite Z.add_0_r. rewrite (Rabs_right (magnitude a - magnitude lo)) by (assert (0 <= IZR r * slope e) by (apply Rmult_le_pos; lra); lra). rewrite Dl. assert (Qr : IZR r < IZR (q - r)) by (apply IZR_lt; lia). assert (IZR r * slope e < IZR (q - r) * slope e) by (apply Rmult_lt_compat_r; lra). destruct Bd as [[B1 B2]|(B1 & B2 & B3)]; (split; [lra|]); intros Eq; [lia|]. exfalso. lra.
Qed.
Lemma round_below ML a B : (0 <= ML <= 22)%Z -> units ML B -> ((round_mag ML a < B)%Z <-> (a < B - not_needed ML)%Z).
Proof.
  intros L [PB MB]. destruct (unit_facts ML L) as (U1 & U2 & U3 & U4). unfold round_mag. assert (X : B = (unit_of ML * (B / unit_of ML))%Z) by (pose proof (Z.div_mod B (unit_of ML) ltac:(lia)); lia). set (k := (B / unit_of ML)%Z) in *. rewrite X. split; intros H.
  - assert ((a + not_needed ML) / unit_of ML < k)%Z by nia. pose proof (Z.div_mod (a + not_needed ML) (unit_of ML) ltac:(lia)). pose proof (Z.mod_pos_bound (a + not_needed ML) (unit_of ML) ltac:(lia)). nia.
  - apply Z.mul_lt_mono_pos_l; [lia|]. apply Z.div_lt_upper_bound; lia.
Qed.
Lemma units_binade ML e k : (0 <= ML <= 22)%Z -> (0 <= e)%Z -> (0 <= k)%Z -> units ML (e * 2 ^ 23 + k * unit_of ML).
Proof. intros L E K. destruct (unit_facts ML L) as (U1 & U2 & _). split; [nia|]. rewrite <- U2. replace (e * (unit_of ML * 2 ^ ML) + k * unit_of ML)%Z with ((e * 2 ^ ML + k) * unit_of ML)%Z by ring. apply Z.mod_mul. lia. Qed.
Lemma units_split ML b : (0 <= ML <= 22)%Z -> units ML b -> exists e k, b = (e * 2 ^ 23 + k * unit_of ML)%Z /\ (0 <= e)%Z /\ (0 <= k < 2 ^ ML)%Z.
Proof.
  intros L [P M]. destruct (unit_facts ML L) as (U1 & U2 & _). destruct (binade b P) as (e & t & E & Pe & T). exists e, (t / unit_of ML)%Z. pose proof (mod_mod_unit ML b L 0 e t ltac:(unfold pat; lia)) as Q. pose proof (Z.div_mod t (unit_of ML) ltac:(lia)) as D. split; [lia|]. split; [exact Pe|]. split; [apply Z.div_pos; lia | apply Z.div_lt_upper_bound; lia].
Qed.
(** the values of multiples of the unit *)
Lemma units_value ML e k : (0 <= ML <= 22)%Z -> (0 <= e)%Z -> (0 <= k < 2 ^ ML)%Z -> magnitude (e * 2 ^ 23 + k * unit_of ML) = if (e =? 0)%Z then IZR k * p2 (-126 - ML) else IZR (2 ^ ML + k) * p2 (e - 127 - ML).
Proof.
  intros L E K. destruct (unit_facts ML L) as (U1 & U2 & _). rewrite mag_binade by nia. rewrite mult_IZR. assert (Eu : IZR (unit_of ML) = p2 (23 - ML)) by (unfold unit_of; now rewrite p2_IZR by lia). rewrite Eu. unfold base, slope. destruct (e =? 0)%Z.
  - rewrite Rplus_0_l, Rmult_assoc, <- p2_add. f_equal. f_equal. lia.
  - rewrite plus_IZR, <- (p2_IZR ML) by lia. rewrite Rmult_plus_distr_r, <- p2_add, Rmult_assoc, <- p2_add. f_equal; [f_equal; lia|]. f_equal. f_equal. lia.
Qed.
