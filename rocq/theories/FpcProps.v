(** * Precision cast: nearest numbers of the format *)
From Verif Require Import Prelude FpcModel FpcSpec FpcProofs FpcProofs2.
Local Open Scope Z_scope.

(** ** The cast as a function of the magnitude *)
Definition mag1 (ML a : Z) : Z := if 255 * 2 ^ 23 <=? a then 255 * 2 ^ 23 else round_mag ML a.
Definition lo_b (EL : Z) : Z := (128 - bias EL) * 2 ^ 23.
Definition hi_b (EL : Z) : Z := (127 + 2 ^ (EL - 1)) * 2 ^ 23.
Lemma mag1_range ML a : 0 <= ML <= 22 -> 0 <= a -> 0 <= mag1 ML a <= 255 * 2 ^ 23.
Proof. intros L A. unfold mag1. destruct (Z.leb_spec (255 * 2 ^ 23) a); [lia|]. apply round_mag_range; lia. Qed.
Lemma rounded_mag ML s a : 0 <= ML <= 22 -> 0 <= s < 2 -> 0 <= a < 2 ^ 31 -> rounded ML (s * 2 ^ 31 + a) = s * 2 ^ 31 + mag1 ML a.
Proof.
  intros L S A. pose proof (Z.div_mod a (2 ^ 23) ltac:(lia)) as D. pose proof (Z.mod_pos_bound a (2 ^ 23) ltac:(lia)) as M. assert (E : 0 <= a / 2 ^ 23 < 256) by (split; [apply Z.div_pos; lia | apply Z.div_lt_upper_bound; lia]). assert (F : fields s (a / 2 ^ 23) (a mod 2 ^ 23)) by (repeat split; lia).
  replace (s * 2 ^ 31 + a) with (pat s (a / 2 ^ 23) (a mod 2 ^ 23)) by (unfold pat; lia). rewrite (rounded_spec ML _ _ _ L F). unfold mag1. destruct (Z.eqb_spec (a / 2 ^ 23) 255) as [H|H].
  - replace (255 * 2 ^ 23 <=? a) with true by (symmetry; apply Z.leb_le; lia). unfold pat. lia.
  - replace (255 * 2 ^ 23 <=? a) with false by (symmetry; apply Z.leb_gt; lia). do 2 f_equal. lia.
Qed.
Lemma el_facts EL : 2 <= EL <= 8 -> bias EL = 2 ^ (EL - 1) - 1 /\ 2 <= 2 ^ (EL - 1) <= 128 /\ sat_el EL = 2 * 2 ^ (EL - 1) - 1 /\ bias_el EL = bias EL /\ 2 ^ EL = 2 * 2 ^ (EL - 1).
Proof.
  intros L. assert (P : 2 ^ EL = 2 * 2 ^ (EL - 1)) by (replace EL with (Z.succ (EL - 1)) at 1 by lia; apply Z.pow_succ_r; lia). split; [reflexivity|]. split; [split; [change 2 with (2 ^ 1) at 1 | change 128 with (2 ^ 7)]; apply Z.pow_le_mono_r; lia|]. unfold sat_el, bias_el. rewrite !Z.shiftl_mul_pow2 by lia. split; [lia|]. split; [unfold bias; lia | exact P].
Qed.
Definition mag2 (EL ML : Z) (a : Z) : Z :=
  let b := mag1 ML a in if b <? lo_b EL then 0 else if hi_b EL <=? b then 255 * 2 ^ 23 else b.
Lemma body_sat EL ML s a : 2 <= EL <= 8 -> 0 <= ML <= 22 -> 0 <= s < 2 -> 0 <= a < 2 ^ 31 ->
  fp_body EL ML true (s * 2 ^ 31 + a) = if mag1 ML a <? lo_b EL then 0 else s * 2 ^ 31 + mag2 EL ML a.
Proof.
  intros LE L S A. unfold fp_body. rewrite (rounded_mag ML s a L S A). pose proof (mag1_range ML a L ltac:(lia)) as B. unfold mag2. set (b := mag1 ML a) in *. destruct (el_facts EL LE) as (B1 & B2 & B3 & B4 & B5). rewrite B3, B4, B1. unfold lo_b, hi_b. rewrite B1.
  pose proof (Z.div_mod b (2 ^ 23) ltac:(lia)) as D. pose proof (Z.mod_pos_bound b (2 ^ 23) ltac:(lia)) as M. assert (E : 0 <= b / 2 ^ 23 < 256) by (split; [apply Z.div_pos; lia | apply Z.div_lt_upper_bound; lia]). assert (F : fields s (b / 2 ^ 23) (b mod 2 ^ 23)) by (repeat split; lia). assert (P : s * 2 ^ 31 + b = pat s (b / 2 ^ 23) (b mod 2 ^ 23)) by (unfold pat; lia). rewrite P. rewrite (land_exp _ _ _ F). rewrite (lor_exp _ _ _ F). rewrite Z.shiftr_div_pow2 by lia. rewrite Z.div_mul by lia. set (e := b / 2 ^ 23) in *. set (m := b mod 2 ^ 23) in *. set (P7 := 2 ^ (EL - 1)) in *.
  destruct (Z.leb_spec (e - 127 + (P7 - 1)) 0) as [H|H].
  - replace (b <? (128 - (P7 - 1)) * 2 ^ 23) with true by (symmetry; apply Z.ltb_lt; lia). reflexivity.
  - replace (b <? (128 - (P7 - 1)) * 2 ^ 23) with false by (symmetry; apply Z.ltb_ge; lia). destruct (Z.leb_spec (2 * P7 - 1) (e - 127 + (P7 - 1))) as [G|G].
    + replace ((127 + P7) * 2 ^ 23 <=? b) with true by (symmetry; apply Z.leb_le; lia). unfold pat. lia.
    + replace ((127 + P7) * 2 ^ 23 <=? b) with false by (symmetry; apply Z.leb_gt; lia). unfold pat. lia.
Qed.
(** without saturation the exponent is replaced and the mantissa kept *)
Lemma body_clip EL ML s a : 2 <= EL <= 8 -> 0 <= ML <= 22 -> 0 <= s < 2 -> 0 <= a < 2 ^ 31 ->
  fp_body EL ML false (s * 2 ^ 31 + a) = if mag1 ML a <? lo_b EL then 0 else if hi_b EL <=? mag1 ML a then s * 2 ^ 31 + hi_b EL + mag1 ML a mod 2 ^ 23 else s * 2 ^ 31 + mag1 ML a.
Proof.
  intros LE L S A. unfold fp_body. rewrite (rounded_mag ML s a L S A). pose proof (mag1_range ML a L ltac:(lia)) as B. set (b := mag1 ML a) in *. destruct (el_facts EL LE) as (B1 & B2 & B3 & B4 & B5). unfold sat_exp. rewrite B3, B4, B1. unfold lo_b, hi_b. rewrite B1.
  pose proof (Z.div_mod b (2 ^ 23) ltac:(lia)) as D. pose proof (Z.mod_pos_bound b (2 ^ 23) ltac:(lia)) as M. assert (E : 0 <= b / 2 ^ 23 < 256) by (split; [apply Z.div_pos; lia | apply Z.div_lt_upper_bound; lia]). assert (F : fields s (b / 2 ^ 23) (b mod 2 ^ 23)) by (repeat split; lia). assert (P : s * 2 ^ 31 + b = pat s (b / 2 ^ 23) (b mod 2 ^ 23)) by (unfold pat; lia). rewrite P. rewrite (land_exp _ _ _ F), (land_signmant _ _ _ F). rewrite Z.shiftr_div_pow2 by lia. rewrite Z.div_mul by lia. rewrite Z.shiftl_mul_pow2 by lia. set (e := b / 2 ^ 23) in *. set (m := b mod 2 ^ 23) in *. set (P7 := 2 ^ (EL - 1)) in *.
  replace (2 * P7 - 1 + 127 - (P7 - 1)) with (127 + P7) by lia. unfold u32. rewrite Z.mod_small by lia. rewrite lor_sat by (try (repeat split); lia).
  destruct (Z.leb_spec (e - 127 + (P7 - 1)) 0) as [H|H].
  - replace (b <? (128 - (P7 - 1)) * 2 ^ 23) with true by (symmetry; apply Z.ltb_lt; lia). reflexivity.
  - replace (b <? (128 - (P7 - 1)) * 2 ^ 23) with false by (symmetry; apply Z.ltb_ge; lia). destruct (Z.leb_spec (2 * P7 - 1) (e - 127 + (P7 - 1))) as [G|G].
    + replace ((127 + P7) * 2 ^ 23 <=? b) with true by (symmetry; apply Z.leb_le; lia). unfold pat. lia.
    + replace ((127 + P7) * 2 ^ 23 <=? b) with false by (symmetry; apply Z.leb_gt; lia). unfold pat. lia.
Qed.
Lemma bits_split x : bits32 x -> exists s a, x = s * 2 ^ 31 + a /\ 0 <= s < 2 /\ 0 <= a < 2 ^ 31 /\ x mod 2 ^ 31 = a /\ negative x = (s =? 1).
Proof. intros B. destruct (pat_of x B) as (s & e & m & (S & E & M) & X & A & N). exists s, (e * 2 ^ 23 + m). rewrite X. unfold pat. repeat split; try lia; [rewrite <- A, X; reflexivity | rewrite <- N, X; reflexivity]. Qed.
Lemma join_neg s b : 0 <= s < 2 -> 0 <= b < 2 ^ 31 -> negative (s * 2 ^ 31 + b) = (s =? 1) /\ (s * 2 ^ 31 + b) mod 2 ^ 31 = b.
Proof. intros S B. split; [unfold negative; destruct (Z.eqb_spec s 1) as [->|N]; [apply Z.leb_le | apply Z.leb_gt]; lia|]. rewrite Z.add_comm, Z.mod_add by lia. apply Z.mod_small. lia. Qed.
Definition sg (s : Z) : R := if s =? 1 then (-1)%R else 1%R.
Definition ordv (s b : Z) : fval := if b =? 255 * 2 ^ 23 then FInf (s =? 1) else FNum (sg s * magnitude b).
Lemma fvalue_join s b : 0 <= s < 2 -> 0 <= b <= 255 * 2 ^ 23 -> fvalue (s * 2 ^ 31 + b) = ordv s b.
Proof.
  intros S B. destruct (join_neg s b S ltac:(lia)) as [N M]. unfold fvalue, ordv, sg. rewrite N, M. destruct (Z.eqb_spec b (255 * 2 ^ 23)) as [->|H].
  - rewrite Z.ltb_irrefl. reflexivity.
  - replace (b <? 255 * 2 ^ 23) with true by (symmetry; apply Z.ltb_lt; lia). reflexivity.
Qed.
Lemma fvalue_num x v : bits32 x -> fvalue x = FNum v -> exists s a, x = s * 2 ^ 31 + a /\ 0 <= s < 2 /\ 0 <= a < 255 * 2 ^ 23 /\ v = (sg s * magnitude a)%R /\ negative x = (s =? 1).
Proof.
  intros B V. destruct (bits_split x B) as (s & a & X & S & A & M & N). exists s, a. unfold fvalue in V. rewrite M, N in V. destruct (Z.ltb_spec a (255 * 2 ^ 23)) as [H|H].
  - injection V as V. repeat split; try lia; [symmetry; exact V | exact N].
  - destruct (a =? 255 * 2 ^ 23); discriminate V.
Qed.

(** ** The formats, as magnitudes *)
Local Open Scope R_scope.
Lemma sg_abs s r : 0 <= r -> Rabs (sg s * r) = r.
Proof. intros P. unfold sg. destruct (s =? 1)%Z; [rewrite Rabs_left1; lra | rewrite Rabs_right; lra]. Qed.
Lemma sg_diff s a b : Rabs (sg s * a - sg s * b) = Rabs (a - b).
Proof. unfold sg. destruct (s =? 1)%Z; [replace (-1 * a - -1 * b) with (- (a - b)) by lra; apply Rabs_Ropp | f_equal; lra]. Qed.
Lemma fmt_iff EL ML u : (2 <= EL <= 8)%Z -> (0 <= ML <= 22)%Z ->
  (in_format EL ML u <-> u = 0 \/ exists b, units ML b /\ (lo_b EL <= b < hi_b EL)%Z /\ Rabs u = magnitude b).
Proof.
  intros LE L. destruct (el_facts EL LE) as (B1 & B2 & B3 & B4 & B5). destruct (unit_facts ML L) as (U1 & U2 & _). unfold in_format, lo_b, hi_b. rewrite B1, B5. set (P7 := (2 ^ (EL - 1))%Z) in *. split; (intros [Z|H]; [left; exact Z|]); right.
  - destruct H as (E & k & HE & K & V). exists ((E + 127 - (P7 - 1)) * 2 ^ 23 + k * unit_of ML)%Z. assert (0 <= k * unit_of ML < 2 ^ 23)%Z by (rewrite <- U2; nia). split; [apply units_binade; lia|]. split; [lia|]. rewrite V, units_value by lia. replace (E + 127 - (P7 - 1) =? 0)%Z with false by (symmetry; apply Z.eqb_neq; lia). f_equal. f_equal. lia.
  - destruct H as (b & U & R & V). destruct (units_split ML b L U) as (e & k & X & Pe & K). assert (0 <= k * unit_of ML < 2 ^ 23)%Z by (rewrite <- U2; nia). exists (e - 127 + (P7 - 1))%Z, k. split; [lia|]. split; [exact K|]. rewrite V, X, units_value by lia. replace (e =? 0)%Z with false by (symmetry; apply Z.eqb_neq; lia). f_equal. f_equal. lia.
Qed.
Lemma fmt_sub_iff ML u : (0 <= ML <= 22)%Z -> (in_format_sub 8 ML u <-> exists b, units ML b /\ (b < 255 * 2 ^ 23)%Z /\ Rabs u = magnitude b).
Proof.
  intros L. destruct (unit_facts ML L) as (U1 & U2 & _). unfold in_format_sub. rewrite fmt_iff by lia. change (lo_b 8) with (1 * 2 ^ 23)%Z. change (hi_b 8) with (255 * 2 ^ 23)%Z. change (bias 8) with 127%Z. split.
  - intros [[->|(b & U & R & V)]|(k & K & V)].
    + exists 0%Z. split; [split; [lia | apply Z.mod_0_l; lia]|]. split; [lia|]. rewrite Rabs_R0, mag_0. reflexivity.
    + exists b. split; [exact U|]. split; [lia | exact V].
    + exists (0 * 2 ^ 23 + k * unit_of ML)%Z. assert (0 <= k * unit_of ML < 2 ^ 23)%Z by (rewrite <- U2; nia). split; [apply units_binade; lia|]. split; [lia|]. rewrite V, units_value by lia. cbn [Z.eqb]. f_equal.
  - intros (b & U & R & V). destruct (units_split ML b L U) as (e & k & X & Pe & K). assert (0 <= k * unit_of ML < 2 ^ 23)%Z by (rewrite <- U2; nia). destruct (Z.eq_dec e 0) as [->|N].
    + right. exists k. split; [exact K|]. rewrite V, X, units_value by lia. cbn [Z.eqb]. f_equal.
    + left. right. exists b. split; [exact U|]. split; [lia | exact V].
Qed.
Lemma bound_mag ML e : (0 <= ML <= 22)%Z -> (1 <= e)%Z -> magnitude ((e + 1) * 2 ^ 23 - not_needed ML) = p2 (e - 126) - p2 (e - 128 - ML).
Proof.
  intros L E. destruct (unit_facts ML L) as (U1 & U2 & U3 & U4). assert (X : (not_needed ML <= 2 ^ 23)%Z) by (unfold not_needed; rewrite Z.shiftl_mul_pow2, Z.mul_1_l by lia; apply Z.pow_le_mono_r; lia). replace ((e + 1) * 2 ^ 23 - not_needed ML)%Z with (e * 2 ^ 23 + (2 ^ 23 - not_needed ML))%Z by lia. rewrite mag_binade by lia. unfold base, slope. replace (e =? 0)%Z with false by (symmetry; apply Z.eqb_neq; lia). rewrite minus_IZR. assert (Nn : IZR (not_needed ML) = p2 (22 - ML)) by (unfold not_needed; rewrite Z.shiftl_mul_pow2, Z.mul_1_l by lia; symmetry; apply p2_IZR; lia). rewrite Nn, <- (p2_IZR 23) by lia. rewrite Rmult_minus_distr_r, <- !p2_add. replace (23 + (e - 150))%Z with (e - 127)%Z by lia. replace (22 - ML + (e - 150))%Z with (e - 128 - ML)%Z by lia. replace (e - 126)%Z with (e - 127 + 1)%Z by lia. rewrite p2_succ. ring.
Qed.
Lemma flush_mag EL ML : (2 <= EL <= 7)%Z -> (0 <= ML <= 22)%Z -> flush_below EL ML = magnitude (lo_b EL - not_needed ML).
Proof.
  intros LE L. destruct (el_facts EL ltac:(lia)) as (B1 & B2 & B3 & B4 & B5). assert (2 ^ (EL - 1) <= 2 ^ 6)%Z by (apply Z.pow_le_mono_r; lia). unfold lo_b. replace (128 - bias EL)%Z with (127 - bias EL + 1)%Z by lia. rewrite bound_mag by lia. unfold flush_below, fmt_min. f_equal; f_equal; lia.
Qed.
Lemma overflow_mag EL ML : (2 <= EL <= 8)%Z -> (0 <= ML <= 22)%Z -> overflow_from EL ML = magnitude (hi_b EL - not_needed ML).
Proof.
  intros LE L. destruct (el_facts EL ltac:(lia)) as (B1 & B2 & B3 & B4 & B5). unfold hi_b. replace (127 + 2 ^ (EL - 1))%Z with (126 + 2 ^ (EL - 1) + 1)%Z by lia. rewrite bound_mag by lia. unfold overflow_from, fmt_max. rewrite B1, B5. set (P7 := (2 ^ (EL - 1))%Z) in *. replace (2 * P7 - 2 - (P7 - 1) - ML)%Z with (P7 - 1 - ML)%Z by lia. rewrite minus_IZR, <- p2_IZR by lia. replace (126 + P7 - 126)%Z with (ML + 1 + (P7 - 1 - ML))%Z by lia. rewrite (p2_add (ML + 1) (P7 - 1 - ML)). replace (P7 - 1 - ML)%Z with (126 + P7 - 128 - ML + 1)%Z by lia. rewrite !p2_succ. field.
Qed.
Lemma lo_units EL ML : (2 <= EL <= 8)%Z -> (0 <= ML <= 22)%Z -> units ML (lo_b EL) /\ units ML (hi_b EL) /\ (2 ^ 23 <= lo_b EL)%Z /\ (lo_b EL < hi_b EL <= 255 * 2 ^ 23)%Z.
Proof.
  intros LE L. destruct (el_facts EL LE) as (B1 & B2 & _). split; [|split]; [unfold lo_b | unfold hi_b|].
  - replace ((128 - bias EL) * 2 ^ 23)%Z with ((128 - bias EL) * 2 ^ 23 + 0 * unit_of ML)%Z by lia. apply units_binade; lia.
  - replace ((127 + 2 ^ (EL - 1)) * 2 ^ 23)%Z with ((127 + 2 ^ (EL - 1)) * 2 ^ 23 + 0 * unit_of ML)%Z by lia. apply units_binade; lia.
  - unfold lo_b, hi_b. lia.
Qed.

(** C166: with saturation and fewer than 8 bits of exponent, a number goes to the nearest number of the format (of
    two nearest, to the one farther from zero); half of one step beyond the largest one it is infinite, and half of
    the (finer) step below the smallest one it is zero. *)
Theorem C166_nearest EL ML x v : (2 <= EL <= 7)%Z -> (3 <= ML <= 22)%Z -> bits32 x -> fvalue x = FNum v ->
  exists y, fp_op EL ML true [x] = Ok [y] /\
    (Rabs v < flush_below EL ML -> fvalue y = FNum 0) /\
    (overflow_from EL ML <= Rabs v -> fvalue y = FInf (negative x)) /\
    (flush_below EL ML <= Rabs v < overflow_from EL ML -> exists w, fvalue y = FNum w /\ nearest_away (in_format EL ML) v w).
Proof.
  intros LE L B V. assert (L0 : (0 <= ML <= 22)%Z) by lia. exists (fp_cast EL ML true x). split.
  { unfold fp_op. replace (3 <=? ML)%Z with true by (symmetry; apply Z.leb_le; lia). replace (ML <=? 22)%Z with true by (symmetry; apply Z.leb_le; lia). replace (2 <=? EL)%Z with true by (symmetry; apply Z.leb_le; lia). replace (EL <=? 8)%Z with true by (symmetry; apply Z.leb_le; lia). reflexivity. }
  unfold fp_cast. replace (EL =? 8)%Z with false by (symmetry; apply Z.eqb_neq; lia). cbn [andb]. destruct (fvalue_num x v B V) as (s & a & X & S & A & Ev & N). rewrite X. rewrite body_sat by lia. rewrite <- X, N.
  assert (Av : Rabs v = magnitude a) by (rewrite Ev; apply sg_abs; apply mag_nonneg; lia). rewrite Av. destruct (lo_units EL ML ltac:(lia) L0) as (Ul & Uh & Pl & Hl). destruct (unit_facts ML L0) as (U1 & U2 & U3 & U4). assert (Nn : (not_needed ML <= 2 ^ 22)%Z) by (unfold not_needed; rewrite Z.shiftl_mul_pow2, Z.mul_1_l by lia; apply Z.pow_le_mono_r; lia).
  rewrite flush_mag, overflow_mag by lia. pose proof (round_below ML a (lo_b EL) L0 Ul) as Rl. pose proof (round_below ML a (hi_b EL) L0 Uh) as Rh. assert (M1 : mag1 ML a = round_mag ML a) by (unfold mag1; destruct (Z.leb_spec (255 * 2 ^ 23) a); [lia | reflexivity]). unfold mag2. rewrite M1. pose proof (round_mag_range ML a L0 A) as Rr. split; [|split].
  - intros H. apply mag_lt_iff in H; [|lia|lia]. apply Rl in H. apply Z.ltb_lt in H. rewrite H. change 0%Z with (0 * 2 ^ 31 + 0)%Z. rewrite fvalue_join by lia. unfold ordv. cbn [Z.eqb]. rewrite mag_0, Rmult_0_r. reflexivity.
  - intros H. assert (G : (hi_b EL <= round_mag ML a)%Z). { apply Z.nlt_ge. intros Q. apply Rh in Q. apply (mag_lt_iff a) in Q; [lra|lia|lia]. } replace (round_mag ML a <? lo_b EL)%Z with false by (symmetry; apply Z.ltb_ge; lia). replace (hi_b EL <=? round_mag ML a)%Z with true by (symmetry; apply Z.leb_le; lia). rewrite fvalue_join by lia. reflexivity.
  - intros [H1 H2]. assert (G1 : (lo_b EL <= round_mag ML a)%Z). { apply Z.nlt_ge. intros Q. apply Rl in Q. apply (mag_lt_iff a) in Q; [lra|lia|lia]. } apply mag_lt_iff in H2; [|lia|lia]. apply Rh in H2. replace (round_mag ML a <? lo_b EL)%Z with false by (symmetry; apply Z.ltb_ge; lia). replace (hi_b EL <=? round_mag ML a)%Z with false by (symmetry; apply Z.leb_gt; lia). rewrite fvalue_join by lia. exists (sg s * magnitude (round_mag ML a)). split; [unfold ordv; replace (round_mag ML a =? 255 * 2 ^ 23)%Z with false by (symmetry; apply Z.eqb_neq; lia); reflexivity|].
    assert (P : 0 <= magnitude (round_mag ML a)) by (apply mag_nonneg; lia). assert (Ur := round_units ML a L0 ltac:(lia)).
    assert (K : forall u, in_format EL ML u -> exists b, units ML b /\ Rabs u = magnitude b). { intros u HU. apply fmt_iff in HU; [|lia|lia]. destruct HU as [->|(b & Ub & _ & Vb)]; [|exists b; split; assumption]. exists 0%Z. split; [split; [lia | apply Z.mod_0_l; lia]|]. rewrite Rabs_R0, mag_0. reflexivity. }
    assert (Dist : forall u b, units ML b -> Rabs u = magnitude b -> Rabs (magnitude a - magnitude b) <= Rabs (v - u)). { intros u b _ Vb. rewrite <- Av, <- Vb. apply Rabs_triang_inv2. }
    split; [apply fmt_iff; [lia|lia|]; right; exists (round_mag ML a); split; [exact Ur|]; split; [lia | apply sg_abs; exact P]|]. rewrite Ev, sg_diff. rewrite <- Ev. split.
    + intros u HU. destruct (K u HU) as (b & Ub & Vb). pose proof (Dist u b Ub Vb). destruct (round_nearest ML a b L0 ltac:(lia) Ub) as [Q _]. lra.
    + intros u HU Eq. destruct (K u HU) as (b & Ub & Vb). pose proof (Dist u b Ub Vb). destruct (round_nearest ML a b L0 ltac:(lia) Ub) as [Q1 Q2]. rewrite sg_abs by exact P. rewrite Vb. apply mag_le. split; [apply Ub|]. apply Q2. lra.
Qed.
(** ... and with 8 bits of exponent (the default) also small numbers go to the nearest one. *)
Theorem C166_nearest_8 ML x v : (3 <= ML <= 22)%Z -> bits32 x -> fvalue x = FNum v ->
  exists y, fp_op 8 ML true [x] = Ok [y] /\
    (overflow_from 8 ML <= Rabs v -> fvalue y = FInf (negative x)) /\
    (Rabs v < overflow_from 8 ML -> exists w, fvalue y = FNum w /\ nearest_away (in_format_sub 8 ML) v w).
Proof.
  intros L B V. assert (L0 : (0 <= ML <= 22)%Z) by lia. exists (fp_cast 8 ML true x). split.
  { unfold fp_op. replace (3 <=? ML)%Z with true by (symmetry; apply Z.leb_le; lia). replace (ML <=? 22)%Z with true by (symmetry; apply Z.leb_le; lia). reflexivity. }
  unfold fp_cast. cbn [Z.eqb Pos.eqb andb]. destruct (fvalue_num x v B V) as (s & a & X & S & A & Ev & N). rewrite X. rewrite rounded_mag by lia. rewrite <- X, N.
  assert (Av : Rabs v = magnitude a) by (rewrite Ev; apply sg_abs; apply mag_nonneg; lia). rewrite Av. destruct (lo_units 8 ML ltac:(lia) L0) as (_ & Uh & _ & Hl). destruct (unit_facts ML L0) as (U1 & U2 & U3 & U4). assert (Nn : (not_needed ML <= 2 ^ 22)%Z) by (unfold not_needed; rewrite Z.shiftl_mul_pow2, Z.mul_1_l by lia; apply Z.pow_le_mono_r; lia). change (hi_b 8) with (255 * 2 ^ 23)%Z in *.
  rewrite overflow_mag by lia. change (hi_b 8) with (255 * 2 ^ 23)%Z. pose proof (round_below ML a (255 * 2 ^ 23)%Z L0 Uh) as Rh. assert (M1 : mag1 ML a = round_mag ML a) by (unfold mag1; destruct (Z.leb_spec (255 * 2 ^ 23) a); [lia | reflexivity]). rewrite M1. pose proof (round_mag_range ML a L0 A) as Rr. rewrite fvalue_join by lia. split.
  - intros H. assert (G : (255 * 2 ^ 23 <= round_mag ML a)%Z). { apply Z.nlt_ge. intros Q. apply Rh in Q. apply (mag_lt_iff a) in Q; [lra|lia|lia]. } unfold ordv. replace (round_mag ML a =? 255 * 2 ^ 23)%Z with true by (symmetry; apply Z.eqb_eq; lia). reflexivity.
  - intros H2. apply mag_lt_iff in H2; [|lia|lia]. apply Rh in H2. exists (sg s * magnitude (round_mag ML a)). split; [unfold ordv; replace (round_mag ML a =? 255 * 2 ^ 23)%Z with false by (symmetry; apply Z.eqb_neq; lia); reflexivity|].
    assert (P : 0 <= magnitude (round_mag ML a)) by (apply mag_nonneg; lia). assert (Ur := round_units ML a L0 ltac:(lia)).
    assert (K : forall u, in_format_sub 8 ML u -> exists b, units ML b /\ Rabs u = magnitude b). { intros u HU. apply fmt_sub_iff in HU; [|lia]. destruct HU as (b & Ub & _ & Vb). exists b; split; assumption. }
    assert (Dist : forall u b, units ML b -> Rabs u = magnitude b -> Rabs (magnitude a - magnitude b) <= Rabs (v - u)). { intros u b _ Vb. rewrite <- Av, <- Vb. apply Rabs_triang_inv2. }
    split; [apply fmt_sub_iff; [lia|]; exists (round_mag ML a); split; [exact Ur|]; split; [lia | apply sg_abs; exact P]|]. rewrite Ev, sg_diff. rewrite <- Ev. split.
    + intros u HU. destruct (K u HU) as (b & Ub & Vb). pose proof (Dist u b Ub Vb). destruct (round_nearest ML a b L0 ltac:(lia) Ub) as [Q _]. lra.
    + intros u HU Eq. destruct (K u HU) as (b & Ub & Vb). pose proof (Dist u b Ub Vb). destruct (round_nearest ML a b L0 ltac:(lia) Ub) as [Q1 Q2]. rewrite sg_abs by exact P. rewrite Vb. apply mag_le. split; [apply Ub|]. apply Q2. lra.
Qed.

(** half precision (5 bits of exponent, 10 of mantissa): 65503 and 65519 go to the largest number 65504, 65520 to
    infinity; 1 + 2^-11 is half way between two numbers and goes away from zero *)
Lemma p2_neg k : (0 <= k)%Z -> p2 (- k) = / IZR (2 ^ k).
Proof. intros K. apply (Rmult_eq_reg_r (p2 k)); [|pose proof (p2_pos k); lra]. rewrite <- p2_add. replace (- k + k)%Z with 0%Z by lia. assert (0 < 2 ^ k)%Z by (apply Z.pow_pos_nonneg; lia). rewrite (p2_IZR k K). rewrite Rinv_l by (apply not_0_IZR; lia). reflexivity. Qed.
Example C166_nontrivial : fp_op 5 10 true [1199562496; 1199566592; 1199566848; 1065357312; 3212840960]%Z = Ok [1199562752; 1199562752; 2139095040; 1065361408; 3212845056]%Z /\
  fvalue 1065357312 = FNum (1 + / 2048) /\ fvalue 1065361408 = FNum (1 + / 1024).
Proof.
  split; [reflexivity|]. assert (Q : p2 (-23) = / 8388608) by (change (-23)%Z with (- (23))%Z; rewrite p2_neg by lia; reflexivity). split.
  - change (FNum (1 * (IZR 8392704 * p2 (-23))) = FNum (1 + / 2048)). f_equal. rewrite Q. lra.
  - change (FNum (1 * (IZR 8396800 * p2 (-23))) = FNum (1 + / 1024)). f_equal. rewrite Q. lra.
Qed.

Print Assumptions C166_nearest.
Print Assumptions C166_nearest_8.
