From Verif Require Import Prelude Rand CuModel CuSpec CuProofs CuProofs2 CuProofs3 CuProofs5 CuTrModel.
From Coq Require Import NArith Permutation Lia Lra.

Lemma thread_words_bit c K Kc q t : (forall j, N.testbit c (N.of_nat j) = true -> (j < K)%nat) -> (K <= 31)%nat -> (t < 32)%nat ->
  ((exists w, In (q, w) (thread_words c K Kc) /\ N.testbit w (N.of_nat t) = true)
   <-> (Kc <= 32 * q + t)%nat /\ N.testbit c (N.of_nat (32 * q + t - Kc)) = true).
Proof.
  intros OV HK Ht. pose proof (Nat.div_mod Kc 32 ltac:(lia)) as DM. pose proof (Nat.mod_upper_bound Kc 32 ltac:(lia)) as MB.
  pose proof (Nat.div_mod (Kc + K) 32 ltac:(lia)) as DM2. pose proof (Nat.mod_upper_bound (Kc + K) 32 ltac:(lia)) as MB2.
  unfold thread_words.
  set (s := (Kc / 32)%nat) in *. set (r := (Kc mod 32)%nat) in *. set (s2 := ((Kc + K) / 32)%nat) in *. set (r2 := ((Kc + K) mod 32)%nat) in *.
  split.
  - intros (w & [E | E] & B).
    + pose proof (f_equal fst E) as E1; pose proof (f_equal snd E) as E2; cbn [fst snd] in E1, E2; clear E. subst w q.
      rewrite w32_nat, shiftl_nat in B. rewrite !andb_true_iff in B. destruct B as (_ & L & B). apply Nat.leb_le in L. split; [lia |].
      replace (32 * s + t - Kc)%nat with (t - r)%nat by lia. exact B.
    + destruct (Nat.eqb_spec s s2); [contradiction |]. destruct E as [E | []].
      pose proof (f_equal fst E) as E1; pose proof (f_equal snd E) as E2; cbn [fst snd] in E1, E2; clear E. subst w q.
      rewrite N.shiftr_spec in B by lia. assert (s2 = S s) by lia.
      split; [lia |]. replace (N.of_nat t + (32 - N.of_nat r))%N with (N.of_nat (32 * s2 + t - Kc)) in B by lia. exact B.
  - intros [L B]. pose proof (OV _ B) as O. destruct (Nat.eq_dec q s) as [-> | Q].
    + eexists; split; [left; reflexivity |]. rewrite w32_nat, shiftl_nat.
      destruct (Nat.ltb_spec t 32); [| lia]. destruct (Nat.leb_spec r t); [| lia]. cbn [andb].
      replace (t - r)%nat with (32 * s + t - Kc)%nat by lia. exact B.
    + assert (q = S s) by lia. assert (s2 = q) by lia. destruct (Nat.eqb_spec s s2); [lia |].
      eexists; split; [right; left; f_equal; assumption |]. rewrite N.shiftr_spec by lia.
      replace (N.of_nat t + (32 - N.of_nat r))%N with (N.of_nat (32 * q + t - Kc)) by lia. exact B.
Qed.

Section Tr.
Context (Ks : nat -> nat) (T BL m : nat) (v : nat -> option (bool * list bool)).
Context (HT : (0 < T)%nat) (HT32 : (T mod 32 = 0)%nat) (HB : (0 < BL <= 31)%nat) (HW : forall b, (b < m)%nat -> slots BL (v b)).
Definition cnt_word (o : option (bool * list bool)) : N := match o with Some (neg, h) => hd 0%N (counts32 neg h BL 1) | None => 0%N end.
Let cnt b := cnt_word (v b).
Let sign b := fst (train BL (v b)).
Let slot b j := nth j (snd (train BL (v b))) false.

Lemma cnt_c b j : (b < m)%nat -> N.testbit (N.shiftr (cnt b) 1) (N.of_nat j) = slot b j.
Proof.
  intros Hb. pose proof (HW b Hb) as W. unfold cnt, cnt_word, slot, train. rewrite N.shiftr_spec by lia. destruct (v b) as [[neg h] |]; cbn [snd].
  - cbn [slots] in W. unfold counts32. cbn [hd Nat.sub]. rewrite Nat.min_0_r. change (0 <? 0)%nat with false. cbv iota.
    rewrite N.lor_spec, ballot_bit, firstn_all2 by lia.
    destruct (N.leb_spec 1 (N.of_nat j + 1)); [| lia]. cbn [andb].
    replace (N.to_nat (N.of_nat j + 1 - 1)) with j by lia.
    assert (E : N.testbit (if neg then 1%N else 0%N) (N.of_nat j + 1) = false).
    { destruct neg; [| apply N.bits_0]. change 1%N with (N.ones 1) at 1. apply N.ones_spec_high. lia. }
    rewrite E. reflexivity.
  - rewrite N.bits_0, nth_repeat_false. reflexivity.
Qed.
Lemma cnt_sign b : (b < m)%nat -> N.testbit (cnt b) 0 = sign b.
Proof.
  intros Hb. unfold cnt, cnt_word, sign, train. destruct (v b) as [[neg h] |]; cbn [fst].
  - unfold counts32. cbn [hd]. rewrite N.lor_spec, ballot_bit. change (1 <=? 0)%N with false. cbn [andb]. rewrite orb_false_r. destruct neg; reflexivity.
  - apply N.bits_0.
Qed.
Lemma slot_lt b j : (b < m)%nat -> slot b j = true -> (j < BL)%nat.
Proof.
  intros Hb H. unfold slot in H. assert (L : length (snd (train BL (v b))) = BL).
  { pose proof (HW b Hb) as W. unfold train. destruct (v b) as [[neg h] |]; cbn [snd]; [exact W | apply repeat_length]. }
  destruct (Nat.lt_ge_cases j BL); [assumption |]. rewrite nth_overflow in H by lia. discriminate.
Qed.

(** a shared word of block [r] *)
Lemma shared_bit (C : nat -> N) r base q t :
  (forall b j, (b < m)%nat -> N.testbit (C b) (N.of_nat j) = true -> (j < BL)%nat) -> (t < 32)%nat -> base = (r * T * BL)%nat ->
  (N.testbit (fold_left atomic_or (flat_map (fun b => thread_words (C b) BL (b * BL - base + 0)%nat) (filter (fun b => (b <? m)%nat) (seq (r * T) T)))
     (fun i => if (i =? 0)%nat then 0%N else 0%N) q) (N.of_nat t) = true
   <-> let P := (base + 32 * q + t)%nat in (P / BL < m)%nat /\ (P / BL < r * T + T)%nat /\ N.testbit (C (P / BL)%nat) (N.of_nat (P mod BL)) = true).
Proof.
  intros OV Ht Eb. cbv zeta. rewrite run64_bit. set (P := (base + 32 * q + t)%nat).
  pose proof (Nat.div_mod P BL ltac:(lia)) as DM. pose proof (Nat.mod_upper_bound P BL ltac:(lia)) as MB.
  assert (Z : N.testbit (if (q =? 0)%nat then 0%N else 0%N) (N.of_nat t) = false) by (destruct (q =? 0)%nat; apply N.bits_0).
  rewrite Z. split.
  - intros [? | (w & I & B)]; [discriminate |]. apply in_flat_map in I. destruct I as (b & Ib & I). apply filter_In in Ib. destruct Ib as [Ib Lb].
    apply in_seq in Ib. apply Nat.ltb_lt in Lb.
    assert (GE : (base <= b * BL)%nat) by (subst base; apply Nat.mul_le_mono_r; lia).
    destruct (proj1 (thread_words_bit (C b) BL (b * BL - base + 0) q t (fun j => OV b j Lb) ltac:(lia) Ht)) as [L X]; [exists w; auto |].
    pose proof (OV b _ Lb X) as LT.
    assert (Q : (P / BL = b /\ P mod BL = 32 * q + t - (b * BL - base + 0))%nat).
    { assert (E : (P = BL * b + (32 * q + t - (b * BL - base + 0)))%nat) by (unfold P; lia).
      split; [symmetry; eapply Nat.div_unique; [| exact E]; lia | symmetry; eapply Nat.mod_unique; [| exact E]; lia]. }
    destruct Q as [-> ->]. repeat split; [lia | lia | exact X].
  - intros (L1 & L2 & X). right. set (b := (P / BL)%nat) in *.
    assert (GB : (r * T <= b)%nat).
    { apply Nat.div_le_lower_bound; [lia |]. unfold P. lia. }
    assert (GE : (base <= b * BL)%nat) by (subst base; apply Nat.mul_le_mono_r; lia).
    destruct (proj2 (thread_words_bit (C b) BL (b * BL - base + 0) q t (fun j => OV b j L1) ltac:(lia) Ht)) as (w & I & B).
    { split; [unfold P in *; lia |]. replace (32 * q + t - (b * BL - base + 0))%nat with (P mod BL) by (unfold P in *; lia). exact X. }
    exists w. split; [| exact B]. apply in_flat_map. exists b. split; [| exact I]. apply filter_In. split; [apply in_seq; lia | apply Nat.ltb_lt; exact L1].
Qed.

(** what the word at [Q] has to be *)
Definition right (Q : nat) (w : N) : Prop := forall t, (t < 32)%nat ->
  let P := (32 * Q + t)%nat in
  N.testbit w (N.of_nat t) = ((P <? m * BL)%nat && slot (P / BL) (P mod BL))%bool
  /\ N.testbit w (N.of_nat (32 + t)) = ((P <? m * BL)%nat && sign (P / BL)%nat)%bool.

Definition good_state (r : nat) (s : tstate) : Prop :=
  s = {| t_total := (r * T * BL / 32)%nat; t_agg := (r * T * BL)%nat; t_left := 0; t_c := 0; t_neg := 0 |}.
Lemma TB32 : exists u, (T * BL = 32 * u)%nat /\ forall r, (r * T * BL = 32 * (r * u))%nat.
Proof.
  pose proof (Nat.div_mod T 32 ltac:(lia)) as DM. rewrite HT32 in DM. exists (T / 32 * BL)%nat.
  assert (E : (T * BL = 32 * (T / 32 * BL))%nat) by (rewrite DM at 1; lia).
  split; [exact E |]. intros r. rewrite <- Nat.mul_assoc, E. lia.
Qed.
Lemma block_ok r s : good_state r s -> (r * T < m)%nat ->
  (block_aggregate false Ks T BL m r = Nat.min (T * BL) ((m - r * T) * BL)) ->
  (forall Q w, In (Q, w) (fst (tr_block false Ks T BL m cnt r s)) -> right Q w)
  /\ (forall Q, (r * T * BL <= 32 * Q < Nat.min (r * T * BL + T * BL) (m * BL))%nat -> exists w, In (Q, w) (fst (tr_block false Ks T BL m cnt r s)))
  /\ ((S r * T < m)%nat -> good_state (S r) (snd (tr_block false Ks T BL m cnt r s))).
Proof.
  intros G Lr EA. destruct TB32 as (u & EU & ER). pose proof (ER r) as ERr. pose proof (ER (S r)) as ESr.
  assert (DIV : (r * T * BL / 32 = r * u)%nat) by (rewrite ERr, Nat.mul_comm; apply Nat.div_mul; lia).
  assert (DIV2 : (S r * T * BL / 32 = S r * u)%nat) by (rewrite ESr, Nat.mul_comm; apply Nat.div_mul; lia).
  assert (Smul : (S r * T * BL = r * T * BL + T * BL)%nat) by (cbn; lia).
  assert (MM : (m * BL = r * T * BL + (m - r * T) * BL)%nat) by (rewrite <- Nat.mul_add_distr_r; f_equal; lia).
  unfold good_state in G. subst s. unfold tr_block, tr_kc, get_K. cbn [t_total t_agg t_left t_c t_neg]. cbv zeta. rewrite EA, !Nat.add_0_r. rewrite DIV.
  set (agg := Nat.min (T * BL) ((m - r * T) * BL)) in *.
  assert (FULL : (S r * T < m)%nat -> agg = (T * BL)%nat).
  { intros H. unfold agg. apply Nat.min_l. apply Nat.mul_le_mono_r. cbn in H. lia. }
  assert (DA : ((r * T * BL + agg) mod 32 = agg mod 32)%nat).
  { rewrite ERr. replace (32 * (r * u) + agg)%nat with (agg + (r * u) * 32)%nat by lia. apply Nat.mod_add. lia. }
  rewrite DA. pose proof (Nat.div_mod agg 32 ltac:(lia)) as DM. pose proof (Nat.mod_upper_bound agg 32 ltac:(lia)) as MB.
  cbn [fst snd]. split; [| split].
  - intros Q w I t Ht P. apply in_map_iff in I. destruct I as (q & E & I). apply in_seq in I.
    pose proof (f_equal fst E) as E1; pose proof (f_equal snd E) as E2; cbn [fst snd] in E1, E2; clear E.
    assert (EP : (P = r * T * BL + 32 * q + t)%nat) by (unfold P; lia).
    pose proof (Nat.div_mod P BL ltac:(lia)) as DMP. pose proof (Nat.mod_upper_bound P BL ltac:(lia)) as MBP.
    assert (PM : (P < m * BL)%nat <-> (P / BL < m)%nat).
    { split; intros H. - apply Nat.div_lt_upper_bound; lia.
      - apply Nat.lt_le_trans with (S (P / BL) * BL)%nat; [rewrite Nat.mul_succ_l; lia | apply Nat.mul_le_mono_r; lia]. }
    assert (PT : (P / BL < m)%nat -> (P / BL < r * T + T)%nat).
    { intros H. destruct (Nat.leb_spec m (r * T + T)) as [L | L]; [lia |]. cbn [andb negb] in I. rewrite FULL in * by (cbn; lia).
      apply Nat.div_lt_upper_bound; [lia |]. replace (BL * (r * T + T))%nat with (r * T * BL + T * BL)%nat by lia.
      assert ((T * BL / 32 = u)%nat) by (rewrite EU, Nat.mul_comm; apply Nat.div_mul; lia). lia. }
    rewrite <- E2. split.
    + rewrite N.lor_comm, low_bit by assumption. apply Bool.eq_iff_eq_true.
      rewrite (shared_bit (fun b => N.shiftr (cnt b) 1) r (r * T * BL) q t); [| intros b j Hb Hj; rewrite cnt_c in Hj by assumption; eapply slot_lt; eassumption | assumption | reflexivity].
      cbv zeta. rewrite <- EP, andb_true_iff, Nat.ltb_lt. split.
      * intros (L1 & L2 & X). rewrite cnt_c in X by assumption. tauto.
      * intros (L1 & X). apply PM in L1. rewrite cnt_c by assumption. tauto.
    + rewrite N.lor_comm, high_bit.
      match goal with |- (?a || ?b)%bool = _ => assert (Z : a = false) end.
      { apply Bool.not_true_is_false. intros X. apply run64_bit in X. destruct X as [X | (w' & I1 & I2)].
        - destruct (q =? 0)%nat; rewrite N.bits_0 in X; discriminate.
        - apply in_flat_map in I1. destruct I1 as (b & Ib & I1). apply filter_In in Ib. destruct Ib as [_ Lb]. apply Nat.ltb_lt in Lb.
          unfold thread_words in I1. destruct I1 as [I1 | I1].
          + apply (f_equal snd) in I1. cbn [snd] in I1. rewrite <- I1, w32_nat in I2. destruct (Nat.ltb_spec (32 + t) 32); [lia | discriminate].
          + destruct (_ =? _)%nat; [contradiction |]. destruct I1 as [I1 | []]. apply (f_equal snd) in I1. cbn [snd] in I1. rewrite <- I1, N.shiftr_spec in I2 by lia.
            match type of I2 with N.testbit _ ?a = true => replace a with (N.of_nat (N.to_nat a)) in I2 by lia end.
            rewrite cnt_c in I2 by assumption. apply slot_lt in I2; [| assumption].
            pose proof (Nat.mod_upper_bound (b * BL - r * T * BL) 32 ltac:(lia)). lia. }
      rewrite Z. cbn [orb]. apply Bool.eq_iff_eq_true.
      rewrite (shared_bit (fun b => if N.testbit (cnt b) 0 then N.shiftr (N.ones 32) (32 - N.of_nat BL) else 0%N) r (r * T * BL) q t); [| | assumption | reflexivity].
      * cbv zeta. rewrite <- EP, andb_true_iff, Nat.ltb_lt, negword_nat by lia. split.
        -- intros (L1 & L2 & X). rewrite cnt_sign in X by assumption. apply andb_true_iff in X. tauto.
        -- intros (L1 & X). apply PM in L1. rewrite cnt_sign, X by assumption. destruct (Nat.ltb_spec (P mod BL) BL); [| lia]. tauto.
      * intros b j Hb Hj. rewrite negword_nat in Hj by lia. apply andb_true_iff in Hj. destruct Hj as [_ Hj]. apply Nat.ltb_lt in Hj. exact Hj.
  - intros Q HQ. eexists. apply in_map_iff. exists (Q - r * u)%nat. split; [f_equal; lia |]. apply in_seq. split; [lia |].
    destruct (Nat.leb_spec m (r * T + T)) as [L | L]; cbn [andb negb].
    + destruct (Nat.ltb_spec 0 (agg mod 32)); lia.
    + rewrite FULL in * by (cbn; lia). lia.
  - intros L. pose proof (FULL L) as F. rewrite F in *. assert (MZ : (T * BL mod 32 = 0)%nat) by (rewrite EU, Nat.mul_comm; apply Nat.mod_mul; lia).
    rewrite MZ. change (0 <? 0)%nat with false. rewrite !andb_false_r. cbn [andb]. unfold good_state. f_equal; lia.
Qed.

Lemma blocks_ok : forall n r s, good_state r s -> ((r + n) * T < m + T)%nat ->
  (forall r', (r <= r' < r + n)%nat -> block_aggregate false Ks T BL m r' = Nat.min (T * BL) ((m - r' * T) * BL)) ->
  (forall Q w, In (Q, w) (tr_blocks false Ks T BL m cnt n r s) -> right Q w)
  /\ (forall Q, (r * T * BL <= 32 * Q < Nat.min ((r + n) * T * BL) (m * BL))%nat -> exists w, In (Q, w) (tr_blocks false Ks T BL m cnt n r s)).
Proof.
  induction n as [| n IH]; intros r s G L HA; cbn [tr_blocks].
  - split; [intros ? ? [] |]. intros Q HQ. rewrite Nat.add_0_r in HQ. lia.
  - assert (MON : (S r * T <= (r + S n) * T)%nat) by (apply Nat.mul_le_mono_r; lia).
    destruct (block_ok r s G ltac:(cbn in MON; lia) (HA r ltac:(lia))) as (B1 & B2 & B3). cbv zeta.
    destruct n as [| n'].
    + cbn [tr_blocks]. rewrite app_nil_r. split; [exact B1 |]. intros Q HQ. apply B2.
      replace ((r + 1) * T * BL)%nat with (r * T * BL + T * BL)%nat in HQ by lia. exact HQ.
    + assert (MON2 : (S (S r) * T <= (r + S (S n')) * T)%nat) by (apply Nat.mul_le_mono_r; lia).
      assert (LS : (S r * T < m)%nat) by (cbn in *; lia).
      destruct (IH (S r) _ (B3 LS)) as [I1 I2].
      * replace (S r + S n')%nat with (r + S (S n'))%nat by lia. exact L.
      * intros r' Hr. apply HA. lia.
      * split.
        -- intros Q w I. apply in_app_iff in I. destruct I as [I | I]; [apply B1 | apply I1]; exact I.
        -- intros Q HQ. destruct (Nat.lt_ge_cases (32 * Q) (S r * T * BL)) as [C | C].
           ++ destruct (B2 Q) as [w I]; [replace (r * T * BL + T * BL)%nat with (S r * T * BL)%nat by (cbn; lia); lia |].
              exists w. apply in_app_iff. left. exact I.
           ++ destruct (I2 Q) as [w I]; [replace (S r + S n')%nat with (r + S (S n'))%nat by lia; lia |]. exists w. apply in_app_iff. right. exact I.
Qed.
Lemma good_init : good_state 0 {| t_total := 0; t_agg := 0; t_left := 0; t_c := 0; t_neg := 0 |}.
Proof. reflexivity. Qed.

Lemma translate_ok : (m mod T <> 0)%nat ->
  (forall Q, (Q < (m * BL + 31) / 32)%nat -> exists w, In (Q, w) (translate false Ks T BL m cnt)) /\
  (forall Q w, In (Q, w) (translate false Ks T BL m cnt) -> right Q w).
Proof.
  intros NZ. pose proof (Nat.div_mod m T ltac:(lia)) as DM. pose proof (Nat.mod_upper_bound m T ltac:(lia)) as MB.
  assert (N : ((m + T - 1) / T = S (m / T))%nat).
  { symmetry. apply (Nat.div_unique _ _ _ (m mod T - 1)); [lia |]. rewrite Nat.mul_succ_r. lia. }
  unfold translate. rewrite N.
  assert (HA : forall r', (0 <= r' < 0 + S (m / T))%nat -> block_aggregate false Ks T BL m r' = Nat.min (T * BL) ((m - r' * T) * BL)).
  { intros r' Hr. unfold block_aggregate. destruct (Nat.leb_spec m (T + r' * T)) as [L | L].
    - assert (r' = m / T)%nat.
      { destruct (Nat.lt_ge_cases r' (m / T)) as [C | C]; [| lia]. assert (S r' * T <= m / T * T)%nat by (apply Nat.mul_le_mono_r; lia). cbn in *. lia. }
      subst r'. replace (m - m / T * T)%nat with (m mod T) by lia. symmetry. apply Nat.min_r. apply Nat.mul_le_mono_r. lia.
    - symmetry. apply Nat.min_l. apply Nat.mul_le_mono_r. lia. }
  destruct (blocks_ok (S (m / T)) 0 _ good_init) as [B1 B2].
  - cbn. lia.
  - exact HA.
  - split; [| exact B1]. intros Q HQ. apply B2. split; [cbn; lia |].
    assert (C : (m * BL <= (0 + S (m / T)) * T * BL)%nat) by (apply Nat.mul_le_mono_r; cbn; lia).
    rewrite Nat.min_r by exact C.
    pose proof (Nat.div_mod (m * BL + 31) 32 ltac:(lia)). pose proof (Nat.mod_upper_bound (m * BL + 31) 32 ltac:(lia)). lia.
Qed.
End Tr.
