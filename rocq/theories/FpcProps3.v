(** * Precision cast: special values, overflow without saturation, interface *)
From Verif Require Import Prelude FpcModel FpcSpec FpcProofs FpcProofs2 FpcProps FpcProps2.
Local Open Scope R_scope.

(** ** C168: special values, and what happens instead of saturation *)
Lemma op_ok EL ML sat x : (2 <= EL <= 8)%Z -> (3 <= ML <= 22)%Z -> fp_op EL ML sat [x] = Ok [fp_cast EL ML sat x].
Proof.
  intros LE L. unfold fp_op. replace (3 <=? ML)%Z with true by (symmetry; apply Z.leb_le; lia). replace (ML <=? 22)%Z with true by (symmetry; apply Z.leb_le; lia). replace (2 <=? EL)%Z with true by (symmetry; apply Z.leb_le; lia). replace (EL <=? 8)%Z with true by (symmetry; apply Z.leb_le; lia). reflexivity.
Qed.
Lemma not_num x : bits32 x -> (forall v, fvalue x <> FNum v) -> exists s a, x = (s * 2 ^ 31 + a)%Z /\ (0 <= s < 2)%Z /\ (255 * 2 ^ 23 <= a < 2 ^ 31)%Z /\ negative x = (s =? 1)%Z.
Proof.
  intros B V. destruct (bits_split x B) as (s & a & X & S & A & M & N). exists s, a. split; [exact X|]. split; [exact S|]. split; [|exact N]. split; [|lia]. apply Z.nlt_ge. intros K. unfold fvalue in V. rewrite M in V. replace (a <? 255 * 2 ^ 23)%Z with true in V by (symmetry; apply Z.ltb_lt; lia). now apply (V ((if negative x then -1 else 1) * magnitude a)).
Qed.
(** saturating, not-a-number becomes infinity, like infinity *)
Theorem C168_special EL ML x : (2 <= EL <= 8)%Z -> (3 <= ML <= 22)%Z -> bits32 x -> (fvalue x = FNan \/ exists s, fvalue x = FInf s) ->
  exists y, fp_op EL ML true [x] = Ok [y] /\ fvalue y = FInf (negative x).
Proof.
  intros LE L B V. destruct (not_num x B) as (s & a & X & S & A & N). { intros v E. rewrite E in V. destruct V as [V|[s V]]; discriminate. } eexists. split; [apply op_ok; assumption|]. rewrite N, X. rewrite cast_value by lia. destruct (lo_units EL ML LE ltac:(lia)) as (_ & _ & Pl & Hl). assert (M : mag3 EL ML true a = (255 * 2 ^ 23)%Z). { unfold mag3, mag1. replace (255 * 2 ^ 23 <=? a)%Z with true by (symmetry; apply Z.leb_le; lia). destruct ((EL =? 8)%Z && true)%bool; [reflexivity|]. replace (255 * 2 ^ 23 <? lo_b EL)%Z with false by (symmetry; apply Z.ltb_ge; lia). replace (hi_b EL <=? 255 * 2 ^ 23)%Z with true by (symmetry; apply Z.leb_le; lia). reflexivity. } rewrite M. reflexivity.
Qed.
(** not saturating, both become a finite number that is beyond the largest number of the format *)
Theorem C168_special_finite EL ML x : (2 <= EL <= 7)%Z -> (3 <= ML <= 22)%Z -> bits32 x -> (fvalue x = FNan \/ exists s, fvalue x = FInf s) ->
  exists y, fp_op EL ML false [x] = Ok [y] /\ fvalue y = FNum (sgn x * p2 (2 ^ (EL - 1))) /\ fmt_max EL ML < p2 (2 ^ (EL - 1)).
Proof.
  intros LE L B V. destruct (not_num x B) as (s & a & X & S & A & N). { intros v E. rewrite E in V. destruct V as [V|[s V]]; discriminate. } eexists. split; [apply op_ok; lia|]. destruct (lo_units EL ML ltac:(lia) ltac:(lia)) as (_ & _ & Pl & Hl). destruct (el_facts EL ltac:(lia)) as (B1 & B2 & B3 & B4 & B5). assert (P6 : (2 ^ (EL - 1) <= 2 ^ 6)%Z) by (apply Z.pow_le_mono_r; lia). split.
  - unfold sgn. rewrite N, X. rewrite cast_value by lia. assert (M : mag3 EL ML false a = hi_b EL). { unfold mag3, mag1. replace (255 * 2 ^ 23 <=? a)%Z with true by (symmetry; apply Z.leb_le; lia). rewrite Bool.andb_false_r. replace (255 * 2 ^ 23 <? lo_b EL)%Z with false by (symmetry; apply Z.ltb_ge; lia). replace (hi_b EL <=? 255 * 2 ^ 23)%Z with true by (symmetry; apply Z.leb_le; lia). change ((255 * 2 ^ 23) mod 2 ^ 23)%Z with 0%Z. lia. } rewrite M. unfold ordv. replace (hi_b EL =? 255 * 2 ^ 23)%Z with false by (symmetry; apply Z.eqb_neq; unfold hi_b; lia). f_equal. unfold sg. f_equal. unfold hi_b. replace ((127 + 2 ^ (EL - 1)) * 2 ^ 23)%Z with ((127 + 2 ^ (EL - 1)) * 2 ^ 23 + 0)%Z by lia. rewrite mag_binade by lia. unfold base. replace (127 + 2 ^ (EL - 1) =? 0)%Z with false by (symmetry; apply Z.eqb_neq; lia). rewrite Rmult_0_l, Rplus_0_r. f_equal. lia.
  - unfold fmt_max. rewrite B1, B5, minus_IZR, <- p2_IZR by lia. set (P7 := (2 ^ (EL - 1))%Z) in *. replace (2 * P7 - 2 - (P7 - 1) - ML)%Z with (P7 - 1 - ML)%Z by lia. rewrite Rmult_minus_distr_r, <- p2_add. replace (ML + 1 + (P7 - 1 - ML))%Z with P7 by lia. pose proof (p2_pos (P7 - 1 - ML)). lra.
Qed.
(** below the overflow both settings agree *)
Theorem C168_agree EL ML x v : (2 <= EL <= 7)%Z -> (3 <= ML <= 22)%Z -> bits32 x -> fvalue x = FNum v -> Rabs v < overflow_from EL ML ->
  fp_op EL ML false [x] = fp_op EL ML true [x].
Proof.
  intros LE L B V O. rewrite !op_ok by lia. destruct (fvalue_num x v B V) as (s & a & X & S & A & Ev & N). rewrite X, !cast_bits by lia. assert (Av : Rabs v = magnitude a) by (rewrite Ev; apply sg_abs; apply mag_nonneg; lia). destruct (lo_units EL ML ltac:(lia) ltac:(lia)) as (Ul & Uh & Pl & Hl). destruct (unit_facts ML ltac:(lia)) as (U1 & U2 & U3 & U4). assert (Nn : (not_needed ML <= 2 ^ 22)%Z) by (unfold not_needed; rewrite Z.shiftl_mul_pow2, Z.mul_1_l by lia; apply Z.pow_le_mono_r; lia).
  rewrite Av, overflow_mag in O by lia. apply mag_lt_iff in O; [|lia|lia]. apply (round_below ML a (hi_b EL) ltac:(lia) Uh) in O. assert (M1 : mag1 ML a = round_mag ML a) by (unfold mag1; destruct (Z.leb_spec (255 * 2 ^ 23) a); [lia | reflexivity]). unfold flushed, mag3. rewrite M1. replace (EL =? 8)%Z with false by (symmetry; apply Z.eqb_neq; lia). cbn [andb negb]. replace (hi_b EL <=? round_mag ML a)%Z with false by (symmetry; apply Z.leb_gt; lia). reflexivity.
Qed.
(** from there on, the result without saturation is a number of the binade above the largest number of the format *)
Theorem C168_beyond EL ML x v : (2 <= EL <= 7)%Z -> (3 <= ML <= 22)%Z -> bits32 x -> fvalue x = FNum v -> overflow_from EL ML <= Rabs v ->
  exists y w, fp_op EL ML false [x] = Ok [y] /\ fvalue y = FNum (sgn x * w) /\ p2 (2 ^ (EL - 1)) <= w < 2 * p2 (2 ^ (EL - 1)) /\ ~ in_format EL ML w.
Proof.
  intros LE L B V O. destruct (fvalue_num x v B V) as (s & a & X & S & A & Ev & N). assert (Av : Rabs v = magnitude a) by (rewrite Ev; apply sg_abs; apply mag_nonneg; lia). destruct (lo_units EL ML ltac:(lia) ltac:(lia)) as (Ul & Uh & Pl & Hl). destruct (unit_facts ML ltac:(lia)) as (U1 & U2 & U3 & U4). assert (Nn : (not_needed ML <= 2 ^ 22)%Z) by (unfold not_needed; rewrite Z.shiftl_mul_pow2, Z.mul_1_l by lia; apply Z.pow_le_mono_r; lia). destruct (el_facts EL ltac:(lia)) as (B1 & B2 & B3 & B4 & B5). assert (P6 : (2 ^ (EL - 1) <= 2 ^ 6)%Z) by (apply Z.pow_le_mono_r; lia).
  rewrite Av, overflow_mag in O by lia. assert (G : (hi_b EL <= round_mag ML a)%Z). { apply Z.nlt_ge. intros Q. apply (round_below ML a (hi_b EL) ltac:(lia) Uh) in Q. apply (mag_lt_iff a) in Q; [lra|lia|lia]. }
  assert (M1 : mag1 ML a = round_mag ML a) by (unfold mag1; destruct (Z.leb_spec (255 * 2 ^ 23) a); [lia | reflexivity]). set (t := (round_mag ML a mod 2 ^ 23)%Z). assert (T : (0 <= t < 2 ^ 23)%Z) by (apply Z.mod_pos_bound; lia). assert (M3 : mag3 EL ML false a = (hi_b EL + t)%Z). { unfold mag3. rewrite M1, Bool.andb_false_r. replace (round_mag ML a <? lo_b EL)%Z with false by (symmetry; apply Z.ltb_ge; lia). replace (hi_b EL <=? round_mag ML a)%Z with true by (symmetry; apply Z.leb_le; lia). reflexivity. }
  exists (fp_cast EL ML false x), (magnitude (hi_b EL + t)). split; [apply op_ok; lia|]. split; [|split].
  - unfold sgn. rewrite N, X, cast_value by lia. rewrite M3. unfold ordv. replace (hi_b EL + t =? 255 * 2 ^ 23)%Z with false by (symmetry; apply Z.eqb_neq; unfold hi_b; lia). reflexivity.
  - assert (Eb : base (127 + 2 ^ (EL - 1)) = p2 (2 ^ (EL - 1))) by (unfold base; replace (127 + 2 ^ (EL - 1) =? 0)%Z with false by (symmetry; apply Z.eqb_neq; lia); f_equal; lia). assert (Eb1 : base (127 + 2 ^ (EL - 1) + 1) = 2 * p2 (2 ^ (EL - 1))) by (unfold base; replace (127 + 2 ^ (EL - 1) + 1 =? 0)%Z with false by (symmetry; apply Z.eqb_neq; lia); rewrite <- p2_succ; f_equal; lia). rewrite base_succ in Eb1 by lia. unfold hi_b. rewrite mag_binade by lia. rewrite Eb in *. pose proof (slope_pos (127 + 2 ^ (EL - 1))). assert (0 <= IZR t < IZR (2 ^ 23)) by (split; [apply IZR_le | apply IZR_lt]; lia). nra.
  - intros F. apply fmt_iff in F; [|lia|lia]. assert (P : 0 < magnitude (hi_b EL + t)) by (rewrite <- mag_0; apply mag_lt; lia). destruct F as [F|(b & Ub & Rb & Vb)]; [lra|]. rewrite Rabs_right in Vb by lra. pose proof (mag_lt b (hi_b EL + t) ltac:(destruct Ub; lia)). lra.
Qed.
Lemma value_at s e m v : (0 <= s < 2)%Z -> (1 <= e < 255)%Z -> (0 <= m < 2 ^ 23)%Z -> v = sg s * (IZR (2 ^ 23 + m) * p2 (e - 150)) -> fvalue (s * 2 ^ 31 + (e * 2 ^ 23 + m)) = FNum v.
Proof.
  intros S E M ->. rewrite fvalue_join by lia. unfold ordv. replace (e * 2 ^ 23 + m =? 255 * 2 ^ 23)%Z with false by (symmetry; apply Z.eqb_neq; lia). f_equal. f_equal. unfold magnitude. replace ((e * 2 ^ 23 + m) / 2 ^ 23)%Z with e by (apply Z.div_unique with m; lia). replace ((e * 2 ^ 23 + m) mod 2 ^ 23)%Z with m by (apply Z.mod_unique with e; lia). replace (e =? 0)%Z with false by (symmetry; apply Z.eqb_neq; lia). reflexivity.
Qed.
(** The documentation promises clipping if [saturate_to_inf] is off.  With 5 bits of exponent and 10 of mantissa the
    largest number is 65504; yet 98304 is kept, and the larger 131072 becomes 65536. *)
Theorem C168_clipping_refuted : exists x1 x2 y1 y2, bits32 x1 /\ bits32 x2 /\ fvalue x1 = FNum 98304 /\ fvalue x2 = FNum 131072 /\ fmt_max 5 10 = 65504 /\
  fp_op 5 10 false [x1; x2] = Ok [y1; y2] /\ fvalue y1 = FNum 98304 /\ fvalue y2 = FNum 65536.
Proof.
  exists 1203765248%Z, 1207959552%Z, 1203765248%Z, 1199570944%Z. split; [unfold bits32; lia|]. split; [unfold bits32; lia|].
  assert (Q7 : p2 (-7) = / 128) by (change (-7)%Z with (- (7))%Z; rewrite p2_neg by lia; reflexivity). assert (Q6 : p2 (-6) = / 64) by (change (-6)%Z with (- (6))%Z; rewrite p2_neg by lia; reflexivity). split; [|split; [|split; [|split; [reflexivity|split]]]].
  - apply (value_at 0 143 4194304); [lia|lia|lia|]. change (143 - 150)%Z with (-7)%Z. rewrite Q7. change (sg 0) with 1. change (2 ^ 23 + 4194304)%Z with 12582912%Z. lra.
  - apply (value_at 0 144 0); [lia|lia|lia|]. change (144 - 150)%Z with (-6)%Z. rewrite Q6. change (sg 0) with 1. change (2 ^ 23 + 0)%Z with 8388608%Z. lra.
  - unfold fmt_max. change (2 ^ (10 + 1) - 1)%Z with 2047%Z. change (2 ^ 5 - 2 - bias 5 - 10)%Z with 5%Z. rewrite p2_IZR by lia. change (2 ^ 5)%Z with 32%Z. lra.
  - apply (value_at 0 143 4194304); [lia|lia|lia|]. change (143 - 150)%Z with (-7)%Z. rewrite Q7. change (sg 0) with 1. change (2 ^ 23 + 4194304)%Z with 12582912%Z. lra.
  - apply (value_at 0 143 0); [lia|lia|lia|]. change (143 - 150)%Z with (-7)%Z. rewrite Q7. change (sg 0) with 1. change (2 ^ 23 + 0)%Z with 8388608%Z. lra.
Qed.
(** With less than 8 bits of exponent, numbers next to the smallest one are not sent to the nearest number: 0.9 times
    the smallest number becomes zero.  With 8 bits, the same numbers below the overflow have different casts with and
    without saturation: 2^-127 is kept only with it. *)
Theorem C168_small_refuted : exists x y, bits32 x /\ fp_op 4 3 true [x] = Ok [y] /\ (exists v, fvalue x = FNum v /\ 9 / 10 * fmt_min 4 < v < fmt_min 4) /\ fvalue y = FNum 0 /\ in_format 4 3 (fmt_min 4).
Proof.
  exists 1013972992%Z, 0%Z. split; [unfold bits32; lia|]. split; [reflexivity|]. split; [|split].
  - exists (sg 0 * (IZR (2 ^ 23 + 7340032) * p2 (120 - 150))). split; [apply (value_at 0 120 7340032); try lia; reflexivity|]. change (sg 0) with 1. unfold fmt_min. assert (Q6 : p2 (1 - bias 4) = / 64) by (change (1 - bias 4)%Z with (- (6))%Z; rewrite p2_neg by lia; reflexivity). assert (Q30 : p2 (120 - 150) = / 1073741824) by (change (120 - 150)%Z with (- (30))%Z; rewrite p2_neg by lia; reflexivity). rewrite Q6, Q30. change (2 ^ 23 + 7340032)%Z with 15728640%Z. lra.
  - change 0%Z with (0 * 2 ^ 31 + 0)%Z. rewrite fvalue_join by lia. apply ordv_0.
  - right. exists 1%Z, 0%Z. split; [lia|]. split; [lia|]. unfold fmt_min. rewrite Rabs_right by (left; apply p2_pos). change (2 ^ 3 + 0)%Z with 8%Z. assert (Q6 : p2 (1 - bias 4) = / 64) by (change (1 - bias 4)%Z with (- (6))%Z; rewrite p2_neg by lia; reflexivity). assert (Q9 : p2 (1 - bias 4 - 3) = / 512) by (change (1 - bias 4 - 3)%Z with (- (9))%Z; rewrite p2_neg by lia; reflexivity). rewrite Q6, Q9. lra.
Qed.
Theorem C168_settings_differ : exists x v, bits32 x /\ fvalue x = FNum v /\ Rabs v < overflow_from 8 7 /\ fp_op 8 7 true [x] = Ok [x] /\ fp_op 8 7 false [x] = Ok [0%Z] /\ 0 < v.
Proof.
  exists 4194304%Z, (p2 (-127)). split; [unfold bits32; lia|]. assert (V : magnitude 4194304 = p2 (-127)) by (unfold magnitude; change (4194304 / 2 ^ 23)%Z with 0%Z; change (4194304 mod 2 ^ 23)%Z with (2 ^ 22)%Z; cbn [Z.eqb]; rewrite <- p2_IZR, <- p2_add by lia; reflexivity). split; [|split; [|split; [reflexivity|split; [reflexivity|apply p2_pos]]]].
  - change 4194304%Z with (0 * 2 ^ 31 + 4194304)%Z. rewrite fvalue_join by lia. unfold ordv. change (4194304 =? 255 * 2 ^ 23)%Z with false. cbv iota. rewrite V. f_equal. change (sg 0) with 1. lra.
  - rewrite Rabs_right by (left; apply p2_pos). rewrite <- V, overflow_mag by lia. apply mag_lt. unfold hi_b. change (not_needed 7) with (2 ^ 15)%Z. lia.
Qed.
Example C168_nontrivial : fp_op 5 10 true [2143289344; 4290772992]%Z = Ok [2139095040; 4286578688]%Z /\ fvalue 2143289344 = FNan /\ fp_op 5 10 false [2143289344; 2139095040]%Z = Ok [1199570944; 1199570944]%Z.
Proof. repeat split. Qed.

(** ** C169: the interface *)
(** the cast is entry by entry, and defined for 2 to 8 bits of exponent and 3 to 22 bits of mantissa; everything
    else is refused, whatever the input *)
Theorem C169_range EL ML sat xs : (exists ys, fp_op EL ML sat xs = Ok ys) <-> (2 <= EL <= 8)%Z /\ (3 <= ML <= 22)%Z.
Proof.
  unfold fp_op. split.
  - intros [ys H]. destruct (Z.leb_spec 3 ML); destruct (Z.leb_spec ML 22); cbn [andb] in *; try discriminate. destruct (Z.leb_spec 2 EL); destruct (Z.leb_spec EL 8); cbn [andb] in *; try discriminate. lia.
  - intros [LE L]. replace (3 <=? ML)%Z with true by (symmetry; apply Z.leb_le; lia). replace (ML <=? 22)%Z with true by (symmetry; apply Z.leb_le; lia). replace (2 <=? EL)%Z with true by (symmetry; apply Z.leb_le; lia). replace (EL <=? 8)%Z with true by (symmetry; apply Z.leb_le; lia). cbn [andb]. eexists; reflexivity.
Qed.
Theorem C169_entrywise EL ML sat xs ys : fp_op EL ML sat xs = Ok ys -> length ys = length xs /\ forall i x, nth_error xs i = Some x -> exists y, nth_error ys i = Some y /\ fp_op EL ML sat [x] = Ok [y].
Proof.
  unfold fp_op. destruct ((3 <=? ML) && (ML <=? 22))%Z%bool; [|discriminate]. destruct ((2 <=? EL) && (EL <=? 8))%Z%bool; [|discriminate]. intros E. injection E as <-. split; [apply map_length|]. intros i x H. exists (fp_cast EL ML sat x). split; [|reflexivity]. now apply map_nth_error.
Qed.
(** Training through the module: the gradient should pass unchanged, but autograd refuses the single gradient
    returned for the four inputs of the function. *)
Theorem C169_backward_refuted grad : fp_backward 4 grad = Raise RuntimeError.
Proof. reflexivity. Qed.
Example C169_nontrivial : fp_op 8 23 true [1%Z] = Raise RuntimeError /\ fp_op 8 7 true [1065353216; 0]%Z = Ok [1065353216; 0]%Z.
Proof. split; reflexivity. Qed.

Print Assumptions C168_special.
Print Assumptions C168_special_finite.
Print Assumptions C168_agree.
Print Assumptions C168_beyond.
Print Assumptions C168_clipping_refuted.
Print Assumptions C168_small_refuted.
Print Assumptions C168_settings_differ.
Print Assumptions C169_range.
Print Assumptions C169_entrywise.
Print Assumptions C169_backward_refuted.
