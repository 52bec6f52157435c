(** * Precision cast: shape of the map, special values, overflow without saturation *)
From Verif Require Import Prelude FpcModel FpcSpec FpcProofs FpcProofs2 FpcProps.
Local Open Scope Z_scope.

Definition mag3 (EL ML : Z) (sat : bool) (a : Z) : Z :=
  let b := mag1 ML a in
  if ((EL =? 8) && sat)%bool then b
  else if b <? lo_b EL then 0 else if hi_b EL <=? b then (if sat then 255 * 2 ^ 23 else hi_b EL + b mod 2 ^ 23) else b.
Definition flushed (EL ML : Z) (sat : bool) (a : Z) : bool := (negb ((EL =? 8) && sat) && (mag1 ML a <? lo_b EL))%bool.
Lemma mag3_range EL ML sat a : 2 <= EL <= 8 -> 0 <= ML <= 22 -> 0 <= a -> 0 <= mag3 EL ML sat a <= 255 * 2 ^ 23.
Proof.
  intros LE L A. pose proof (mag1_range ML a L A) as B. destruct (el_facts EL LE) as (B1 & B2 & _). unfold mag3. set (b := mag1 ML a) in *. destruct ((EL =? 8) && sat)%bool; [lia|]. destruct (b <? lo_b EL); [lia|]. destruct (Z.leb_spec (hi_b EL) b) as [H|H]; [|lia]. destruct sat; [lia|]. unfold hi_b in *. pose proof (Z.mod_pos_bound b (2 ^ 23) ltac:(lia)). destruct (Z.eq_dec (2 ^ (EL - 1)) 128) as [E|N]; [|lia]. rewrite E in *. assert (b = 255 * 2 ^ 23) by lia. subst b. rewrite H1. rewrite Z.mod_mul; lia.
Qed.
Lemma cast_bits EL ML sat s a : 2 <= EL <= 8 -> 0 <= ML <= 22 -> 0 <= s < 2 -> 0 <= a < 2 ^ 31 ->
  fp_cast EL ML sat (s * 2 ^ 31 + a) = if flushed EL ML sat a then 0 else s * 2 ^ 31 + mag3 EL ML sat a.
Proof.
  intros LE L S A. unfold fp_cast, flushed, mag3. destruct ((EL =? 8) && sat)%bool; cbn [negb andb]; [apply rounded_mag; assumption|]. destruct sat.
  - rewrite body_sat by assumption. unfold mag2. destruct (mag1 ML a <? lo_b EL); reflexivity.
  - rewrite body_clip by assumption. destruct (mag1 ML a <? lo_b EL); [reflexivity|]. destruct (hi_b EL <=? mag1 ML a); lia.
Qed.
Lemma ordv_0 s : ordv s 0 = FNum 0%R.
Proof. unfold ordv. change (0 =? 255 * 2 ^ 23) with false. cbv iota. rewrite mag_0, Rmult_0_r. reflexivity. Qed.
Lemma cast_value EL ML sat s a : 2 <= EL <= 8 -> 0 <= ML <= 22 -> 0 <= s < 2 -> 0 <= a < 2 ^ 31 ->
  fvalue (fp_cast EL ML sat (s * 2 ^ 31 + a)) = ordv s (mag3 EL ML sat a).
Proof.
  intros LE L S A. rewrite cast_bits by assumption. destruct (flushed EL ML sat a) eqn:F.
  - assert (M : mag3 EL ML sat a = 0). { unfold flushed in F. unfold mag3. apply Bool.andb_true_iff in F. destruct F as [F1 F2]. apply Bool.negb_true_iff in F1. rewrite F1, F2. reflexivity. } rewrite M, ordv_0. change 0 with (0 * 2 ^ 31 + 0). rewrite fvalue_join by lia. apply ordv_0.
  - apply fvalue_join; [exact S|]. apply mag3_range; lia.
Qed.
Lemma op_one EL ML sat x y : fp_op EL ML sat [x] = Ok [y] -> 2 <= EL <= 8 /\ 3 <= ML <= 22 /\ y = fp_cast EL ML sat x.
Proof.
  unfold fp_op. destruct (Z.leb_spec 3 ML); destruct (Z.leb_spec ML 22); cbn [andb]; try discriminate. destruct (Z.leb_spec 2 EL); destruct (Z.leb_spec EL 8); cbn [andb]; try discriminate. intros E. injection E as E. split; [lia|]. split; [lia|]. symmetry. exact E.
Qed.

(** ** C167: the shape of the cast *)
(** the cast of [- x] is minus the cast of [x]; saturating or not *)
Theorem C167_odd EL ML sat x y y' : bits32 x -> fp_op EL ML sat [x] = Ok [y] -> fp_op EL ML sat [flip_sign x] = Ok [y'] -> fvalue y' = fneg (fvalue y).
Proof.
  intros B H H'. destruct (op_one _ _ _ _ _ H) as (LE & L & ->). destruct (op_one _ _ _ _ _ H') as (_ & _ & ->). destruct (bits_split x B) as (s & a & X & S & A & _). assert (F : flip_sign x = (1 - s) * 2 ^ 31 + a). { unfold flip_sign. rewrite X. assert (C : s = 0 \/ s = 1) by lia. destruct C as [-> | ->]; [rewrite Z.mod_small; lia|]. replace (1 * 2 ^ 31 + a + 2 ^ 31) with (a + 1 * 2 ^ 32) by lia. rewrite Z.mod_add by lia. rewrite Z.mod_small; lia. }
  rewrite F, X, !cast_value by lia. unfold ordv. assert (C : s = 0 \/ s = 1) by lia. destruct (mag3 EL ML sat a =? 255 * 2 ^ 23); destruct C as [-> | ->]; cbn [fneg]; try reflexivity; f_equal; unfold sg; cbn [Z.eqb Z.sub Z.opp Z.add Z.pos_sub Pos.eqb]; lra.
Qed.
Lemma mag1_mono ML a a' : 0 <= ML <= 22 -> 0 <= a <= a' -> mag1 ML a <= mag1 ML a'.
Proof.
  intros L A. destruct (unit_facts ML L) as (U1 & U2 & U3 & U4). unfold mag1. destruct (Z.leb_spec (255 * 2 ^ 23) a) as [H|H]; destruct (Z.leb_spec (255 * 2 ^ 23) a') as [H'|H']; try lia; [apply round_mag_range; lia|]. unfold round_mag. apply Z.mul_le_mono_nonneg_l; [lia|]. apply Z.div_le_mono; lia.
Qed.
Lemma mag3_mono EL ML a a' : 2 <= EL <= 8 -> 0 <= ML <= 22 -> 0 <= a <= a' -> mag3 EL ML true a <= mag3 EL ML true a'.
Proof.
  intros LE L A. pose proof (mag1_mono ML a a' L A) as M. pose proof (mag1_range ML a L ltac:(lia)). pose proof (mag1_range ML a' L ltac:(lia)). destruct (lo_units EL ML LE L) as (_ & _ & Pl & Hl). unfold mag3. destruct ((EL =? 8) && true)%bool; [exact M|]. destruct (Z.ltb_spec (mag1 ML a) (lo_b EL)); destruct (Z.ltb_spec (mag1 ML a') (lo_b EL)); destruct (Z.leb_spec (hi_b EL) (mag1 ML a)); destruct (Z.leb_spec (hi_b EL) (mag1 ML a')); lia.
Qed.
Definition signed (s a : Z) : Z := if s =? 1 then - a else a.
Lemma fle_ordv s a s' a' : 0 <= a <= 255 * 2 ^ 23 -> 0 <= a' <= 255 * 2 ^ 23 -> (fle (ordv s a) (ordv s' a') <-> signed s a <= signed s' a').
Proof.
  intros A A'. assert (Pa := mag_nonneg a ltac:(lia)). assert (Pa' := mag_nonneg a' ltac:(lia)). assert (Q : forall b c, 0 <= b -> 0 <= c -> ((magnitude b <= magnitude c)%R <-> b <= c)). { intros b c Hb Hc. split; [|intros; apply mag_le; lia]. intros H. apply Z.nlt_ge. intros K. apply (mag_lt_iff c b) in K; [lra|lia|lia]. }
  assert (Za : (magnitude a <= 0)%R <-> a <= 0) by (rewrite <- mag_0; apply Q; lia). assert (Za' : (magnitude a' <= 0)%R <-> a' <= 0) by (rewrite <- mag_0; apply Q; lia). pose proof (Q a a' ltac:(lia) ltac:(lia)) as Q1. pose proof (Q a' a ltac:(lia) ltac:(lia)) as Q2. assert (Z0 : a = 0 -> magnitude a = 0%R) by (intros ->; apply mag_0). assert (Z0' : a' = 0 -> magnitude a' = 0%R) by (intros ->; apply mag_0).
  unfold ordv, signed, sg. destruct (Z.eqb_spec a (255 * 2 ^ 23)) as [E|E]; destruct (Z.eqb_spec a' (255 * 2 ^ 23)) as [E'|E']; destruct (s =? 1); destruct (s' =? 1); cbn [fle]; try (split; [intros; try tauto; lia | intros; try exact I; lia]).
  - split; intros H; [cut (a' <= a); [lia|]; apply Q2; lra | cut (magnitude a' <= magnitude a)%R; [lra|]; apply Q2; lia].
  - split; intros H; [lia | lra].
  - split; intros H; [assert (magnitude a <= 0)%R by lra; assert (magnitude a' <= 0)%R by lra; apply Za in H0; apply Za' in H1; lia | assert (H0 : a = 0) by lia; assert (H1 : a' = 0) by lia; rewrite (Z0 H0), (Z0' H1); lra].
  - split; intros H; [apply Q1; lra | apply Q1 in H; lra].
Qed.
(** with saturation larger numbers have larger casts *)
Theorem C167_monotone EL ML x x' y y' : bits32 x -> bits32 x' -> fp_op EL ML true [x] = Ok [y] -> fp_op EL ML true [x'] = Ok [y'] ->
  fle (fvalue x) (fvalue x') -> fle (fvalue y) (fvalue y').
Proof.
  intros B B' H H' Le. destruct (op_one _ _ _ _ _ H) as (LE & L & ->). destruct (op_one _ _ _ _ _ H') as (_ & _ & ->). destruct (bits_split x B) as (s & a & X & S & A & M & N). destruct (bits_split x' B') as (s' & a' & X' & S' & A' & M' & N').
  assert (Ra : a <= 255 * 2 ^ 23). { apply Z.nlt_ge. intros K. unfold fvalue at 1 in Le. rewrite M in Le. replace (a <? 255 * 2 ^ 23) with false in Le by (symmetry; apply Z.ltb_ge; lia). replace (a =? 255 * 2 ^ 23) with false in Le by (symmetry; apply Z.eqb_neq; lia). exact Le. }
  assert (Ra' : a' <= 255 * 2 ^ 23). { apply Z.nlt_ge. intros K. assert (F : fvalue x' = FNan). { unfold fvalue. rewrite M'. replace (a' <? 255 * 2 ^ 23) with false by (symmetry; apply Z.ltb_ge; lia). replace (a' =? 255 * 2 ^ 23) with false by (symmetry; apply Z.eqb_neq; lia). reflexivity. } rewrite F in Le. destruct (fvalue x) as [|[]|]; exact Le. }
  rewrite X, X' in Le. rewrite !fvalue_join in Le by lia. apply fle_ordv in Le; [|lia|lia]. rewrite X, X', !cast_value by lia. pose proof (mag3_range EL ML true a LE ltac:(lia) ltac:(lia)) as G. pose proof (mag3_range EL ML true a' LE ltac:(lia) ltac:(lia)) as G'. apply fle_ordv; [exact G | exact G' |].
  assert (G0 : mag3 EL ML true 0 = 0). { destruct (lo_units EL ML LE ltac:(lia)) as (_ & _ & Pl & Hl). assert (E : mag1 ML 0 = 0). { unfold mag1. change (255 * 2 ^ 23 <=? 0) with false. cbv iota. rewrite round_mag_spec by lia. destruct (unit_facts ML ltac:(lia)) as (U1 & U2 & U3 & U4). rewrite Z.mod_0_l by lia. replace (not_needed ML <=? 0) with false by (symmetry; apply Z.leb_gt; lia). reflexivity. } unfold mag3. rewrite E. destruct ((EL =? 8) && true)%bool; [reflexivity|]. replace (0 <? lo_b EL) with true by (symmetry; apply Z.ltb_lt; lia). reflexivity. }
  unfold signed in *. destruct (s =? 1); destruct (s' =? 1).
  - pose proof (mag3_mono EL ML a' a LE ltac:(lia) ltac:(lia)). lia.
  - lia.
  - assert (a = 0) by lia. assert (a' = 0) by lia. subst a a'. rewrite H0, H1, G0. lia.
  - pose proof (mag3_mono EL ML a a' LE ltac:(lia) ltac:(lia)). lia.
Qed.
Lemma mag1_units ML b : 0 <= ML <= 22 -> units ML b -> b <= 255 * 2 ^ 23 -> mag1 ML b = b.
Proof.
  intros L [P M] R. destruct (unit_facts ML L) as (U1 & U2 & U3 & U4). unfold mag1. destruct (Z.leb_spec (255 * 2 ^ 23) b); [lia|]. rewrite round_mag_spec by exact L. rewrite M. replace (not_needed ML <=? 0) with false by (symmetry; apply Z.leb_gt; lia). lia.
Qed.
Lemma mag1_is_units ML a : 0 <= ML <= 22 -> 0 <= a -> units ML (mag1 ML a).
Proof.
  intros L A. unfold mag1. destruct (255 * 2 ^ 23 <=? a); [|now apply round_units]. replace (255 * 2 ^ 23) with (255 * 2 ^ 23 + 0 * unit_of ML) by lia. apply units_binade; lia.
Qed.
Lemma cast_idem EL ML sat x : 2 <= EL <= 8 -> 3 <= ML <= 22 -> bits32 x -> fp_cast EL ML sat (fp_cast EL ML sat x) = fp_cast EL ML sat x.
Proof.
  intros LE L B. assert (L0 : 0 <= ML <= 22) by lia. destruct (bits_split x B) as (s & a & X & S & A & _). rewrite X, cast_bits by lia. destruct (lo_units EL ML LE L0) as (Ul & Uh & Pl & Hl). destruct (flushed EL ML sat a) eqn:F.
  - change 0 with (0 * 2 ^ 31 + 0) at 1. rewrite cast_bits by lia. assert (E : mag1 ML 0 = 0) by (apply mag1_units; [lia| |lia]; split; [lia | apply Z.mod_0_l; destruct (unit_facts ML L0); lia]). unfold flushed in *. apply Bool.andb_true_iff in F. destruct F as [F1 F2]. rewrite F1, E. replace (0 <? lo_b EL) with true by (symmetry; apply Z.ltb_lt; lia). reflexivity.
  - pose proof (mag3_range EL ML sat a LE L0 ltac:(lia)) as G. rewrite cast_bits by lia. pose proof (mag1_is_units ML a L0 ltac:(lia)) as Ub. pose proof (mag1_range ML a L0 ltac:(lia)) as Rb. unfold flushed in *. unfold mag3 in *. set (b := mag1 ML a) in *. destruct ((EL =? 8) && sat)%bool eqn:E8; cbn [negb andb] in *.
    + rewrite mag1_units by (try exact Ub; lia). reflexivity.
    + rewrite F in *. destruct (Z.leb_spec (hi_b EL) b) as [H|H].
      * assert (Ug : units ML (if sat then 255 * 2 ^ 23 else hi_b EL + b mod 2 ^ 23)). { destruct sat; [replace (255 * 2 ^ 23) with (255 * 2 ^ 23 + 0 * unit_of ML) by lia; apply units_binade; lia|]. destruct (units_split ML b L0 Ub) as (e & k & Eb & Pe & K). destruct (unit_facts ML L0) as (U1 & U2 & _). assert (0 <= k * unit_of ML < 2 ^ 23) by (rewrite <- U2; nia). replace (b mod 2 ^ 23) with (k * unit_of ML) by (apply Z.mod_unique with e; lia). destruct (el_facts EL LE) as (_ & B2 & _). unfold hi_b. apply units_binade; lia. }
        set (g := if sat then 255 * 2 ^ 23 else hi_b EL + b mod 2 ^ 23) in *. assert (Hg : hi_b EL <= g) by (unfold g; destruct sat; [lia|]; pose proof (Z.mod_pos_bound b (2 ^ 23) ltac:(lia)); lia). rewrite mag1_units by (try exact Ug; lia). replace (g <? lo_b EL) with false by (symmetry; apply Z.ltb_ge; lia). replace (hi_b EL <=? g) with true by (symmetry; apply Z.leb_le; lia). unfold g. destruct sat; [reflexivity|]. f_equal. f_equal. destruct (el_facts EL LE) as (_ & B2 & _). unfold hi_b. rewrite Z.add_comm, Z.mod_add by lia. apply Z.mod_mod. lia.
      * rewrite mag1_units by (try exact Ub; lia). rewrite F. replace (hi_b EL <=? b) with false by (symmetry; apply Z.leb_gt; lia). reflexivity.
Qed.
(** the cast leaves numbers alone that have been cast *)
Theorem C167_idempotent EL ML sat xs ys : Forall bits32 xs -> fp_op EL ML sat xs = Ok ys -> fp_op EL ML sat ys = Ok ys.
Proof.
  intros B H. unfold fp_op in *. destruct (Z.leb_spec 3 ML); destruct (Z.leb_spec ML 22); cbn [andb] in *; try discriminate. destruct (Z.leb_spec 2 EL); destruct (Z.leb_spec EL 8); cbn [andb] in *; try discriminate. injection H as <-. f_equal. rewrite map_map. apply map_ext_in. intros x I. rewrite Forall_forall in B. apply cast_idem; [lia|lia|auto].
Qed.
Example C167_nontrivial : fp_op 4 3 true [1065353300; 3221225000]%Z = Ok [1065353216; 3221225472]%Z /\ flip_sign 1065353300 = 3212836948%Z /\ fp_op 4 3 true [3212836948]%Z = Ok [3212836864]%Z.
Proof. repeat split. Qed.

Print Assumptions C167_odd.
Print Assumptions C167_monotone.
Print Assumptions C167_idempotent.
