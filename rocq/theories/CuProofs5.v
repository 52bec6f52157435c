From Verif Require Import Prelude Rand CuModel CuSpec CuProofs CuProofs2 CuProofs3.
From Coq Require Import NArith Permutation Lia Lra.

(** ** the 64 bit buffers *)
Lemma run64_bit ops a k : forall m0,
  (N.testbit (fold_left atomic_or ops m0 a) k = true <-> N.testbit (m0 a) k = true \/ exists w, In (a, w) ops /\ N.testbit w k = true).
Proof.
  induction ops as [| [a' w'] ops IH]; intros m0; cbn [fold_left].
  - split; [left; assumption | intros [H | (w & [] & _)]; assumption].
  - rewrite IH. unfold atomic_or at 1. cbn [fst snd]. destruct (Nat.eqb_spec a a') as [-> | E].
    + rewrite N.lor_spec, orb_true_iff. split.
      * intros [[H | H] | (w & H1 & H2)]; [left; assumption | right; exists w'; split; [left; reflexivity | assumption] | right; exists w; split; [right; assumption | assumption]].
      * intros [H | (w & [H1 | H1] & H2)]; [left; left; assumption | inversion H1; subst; left; right; assumption | right; exists w; auto].
    + split.
      * intros [H | (w & H1 & H2)]; [left; assumption | right; exists w; split; [right; assumption | assumption]].
      * intros [H | (w & [H1 | H1] & H2)]; [left; assumption | inversion H1; congruence | right; exists w; auto].
Qed.
Lemma low_bit a b t : (t < 32)%nat -> N.testbit (N.lor a (N.shiftl b 32)) (N.of_nat t) = N.testbit a (N.of_nat t).
Proof. intros H. rewrite N.lor_spec, N.shiftl_spec_low by lia. apply orb_false_r. Qed.
Lemma high_bit a b t : N.testbit (N.lor a (N.shiftl b 32)) (N.of_nat (32 + t)) = (N.testbit a (N.of_nat (32 + t)) || N.testbit b (N.of_nat t))%bool.
Proof. rewrite N.lor_spec, N.shiftl_spec_high' by lia. do 2 f_equal. lia. Qed.
Lemma shiftl_nat x r t : N.testbit (N.shiftl x (N.of_nat r)) (N.of_nat t) = ((r <=? t)%nat && N.testbit x (N.of_nat (t - r)))%bool.
Proof.
  destruct (Nat.leb_spec r t); cbn [andb].
  - rewrite N.shiftl_spec_high' by lia. f_equal. lia.
  - apply N.shiftl_spec_low. lia.
Qed.
Lemma w32_nat x t : N.testbit (w32 x) (N.of_nat t) = ((t <? 32)%nat && N.testbit x (N.of_nat t))%bool.
Proof. rewrite w32_bit. destruct (N.ltb_spec (N.of_nat t) 32), (Nat.ltb_spec t 32); try lia; reflexivity. Qed.
Lemma ballot_nat h t : N.testbit (ballot 0 h) (N.of_nat t) = nth t h false.
Proof. rewrite ballot_bit. destruct (N.leb_spec 0 (N.of_nat t)); [| lia]. cbn [andb]. f_equal. lia. Qed.
Lemma negword_nat (negative : bool) K t : (K <= 32)%nat ->
  N.testbit (if negative then N.shiftr (N.ones 32) (32 - N.of_nat K) else 0%N) (N.of_nat t) = (negative && (t <? K)%nat)%bool.
Proof.
  intros H. destruct negative; cbn [andb]; [| apply N.bits_0].
  rewrite N.shiftr_spec by lia. destruct (Nat.ltb_spec t K).
  - apply N.ones_spec_low. lia.
  - apply N.ones_spec_high. lia.
Qed.

Lemma counts64_low neg h K Kc base q t : length h = K -> (K <= 32)%nat -> (t < 32)%nat ->
  ((exists w, In ((base + q)%nat, w) (counts64 neg h K Kc (base + Kc / 32)) /\ N.testbit w (N.of_nat t) = true)
   <-> (Kc <= 32 * q + t)%nat /\ nth (32 * q + t - Kc) h false = true).
Proof.
  intros Hl HK Ht. pose proof (Nat.div_mod Kc 32 ltac:(lia)) as DM. pose proof (Nat.mod_upper_bound Kc 32 ltac:(lia)) as MB.
  set (s := (Kc / 32)%nat) in *. set (r := (Kc mod 32)%nat) in *.
  assert (OV : forall j, nth j h false = true -> (j < K)%nat).
  { intros j H. destruct (Nat.lt_ge_cases j (length h)); [lia |]. rewrite nth_overflow in H by assumption. discriminate. }
  unfold counts64. fold r. split.
  - intros (w & [E | E] & B).
    + pose proof (f_equal fst E) as E1; pose proof (f_equal snd E) as E2; cbn [fst snd] in E1, E2; clear E. assert (q = s) by lia. subst w q. rewrite low_bit, w32_nat, shiftl_nat, ballot_nat in B by assumption.
      rewrite !andb_true_iff in B. destruct B as (_ & L & B). apply Nat.leb_le in L. split; [lia |].
      replace (32 * s + t - Kc)%nat with (t - r)%nat by lia. exact B.
    + destruct (Nat.ltb_spec 32 (r + K)); [| contradiction]. destruct E as [E | []]. pose proof (f_equal fst E) as E1; pose proof (f_equal snd E) as E2; cbn [fst snd] in E1, E2; clear E.
      assert (q = S s) by lia. subst w q. rewrite low_bit, N.shiftr_spec in B by lia.
      split; [lia |]. replace (32 * S s + t - Kc)%nat with (t + 32 - r)%nat by lia.
      replace (N.of_nat t + (32 - N.of_nat r))%N with (N.of_nat (t + 32 - r)) in B by lia. rewrite ballot_nat in B. exact B.
  - intros [L B]. pose proof (OV _ B) as O.
    destruct (Nat.eq_dec q s) as [-> | Q].
    + eexists; split; [left; reflexivity |]. rewrite low_bit, w32_nat, shiftl_nat, ballot_nat by assumption.
      destruct (Nat.ltb_spec t 32); [| lia]. destruct (Nat.leb_spec r t); [| lia]. cbn [andb].
      replace (t - r)%nat with (32 * s + t - Kc)%nat by lia. exact B.
    + assert (q = S s) by lia. subst q. destruct (Nat.ltb_spec 32 (r + K)); [| lia].
      eexists; split; [right; left; f_equal; lia |]. rewrite low_bit, N.shiftr_spec by lia.
      replace (N.of_nat t + (32 - N.of_nat r))%N with (N.of_nat (32 * S s + t - Kc)) by lia. rewrite ballot_nat. exact B.
Qed.
Lemma counts64_high neg h K Kc base q t : length h = K -> (K <= 32)%nat -> (t < 32)%nat ->
  ((exists w, In ((base + q)%nat, w) (counts64 neg h K Kc (base + Kc / 32)) /\ N.testbit w (N.of_nat (32 + t)) = true)
   <-> (Kc <= 32 * q + t < Kc + K)%nat /\ neg = true).
Proof.
  intros Hl HK Ht. pose proof (Nat.div_mod Kc 32 ltac:(lia)) as DM. pose proof (Nat.mod_upper_bound Kc 32 ltac:(lia)) as MB.
  set (s := (Kc / 32)%nat) in *. set (r := (Kc mod 32)%nat) in *.
  unfold counts64. fold r. split.
  - intros (w & [E | E] & B).
    + pose proof (f_equal fst E) as E1; pose proof (f_equal snd E) as E2; cbn [fst snd] in E1, E2; clear E. assert (q = s) by lia. subst w q. rewrite high_bit, !w32_nat, !shiftl_nat, negword_nat in B by assumption.
      destruct (Nat.ltb_spec (32 + t) 32); [lia |]. cbn [andb orb] in B.
      rewrite !andb_true_iff in B. destruct B as (_ & L & B1 & B2). apply Nat.leb_le in L. apply Nat.ltb_lt in B2. split; [lia | assumption].
    + destruct (Nat.ltb_spec 32 (r + K)); [| contradiction]. destruct E as [E | []]. pose proof (f_equal fst E) as E1; pose proof (f_equal snd E) as E2; cbn [fst snd] in E1, E2; clear E.
      assert (q = S s) by lia. subst w q. rewrite high_bit, !N.shiftr_spec in B by lia.
      replace (N.of_nat (32 + t) + (32 - N.of_nat r))%N with (N.of_nat (64 + t - r)) in B by lia.
      replace (N.of_nat t + (32 - N.of_nat r))%N with (N.of_nat (32 + t - r)) in B by lia.
      rewrite ballot_nat, nth_overflow in B by lia. rewrite negword_nat in B by assumption. cbn [orb] in B.
      rewrite andb_true_iff in B. destruct B as [B1 B2]. apply Nat.ltb_lt in B2. split; [lia | assumption].
  - intros [L B]. subst neg. destruct (Nat.eq_dec q s) as [-> | Q].
    + eexists; split; [left; reflexivity |]. rewrite high_bit, !w32_nat, !shiftl_nat, (negword_nat true) by assumption.
      destruct (Nat.ltb_spec t 32); [| lia]. destruct (Nat.leb_spec r t); [| lia]. destruct (Nat.ltb_spec (t - r) K); [| lia].
      cbn [andb]. apply orb_true_r.
    + assert (q = S s) by lia. subst q. destruct (Nat.ltb_spec 32 (r + K)); [| lia].
      eexists; split; [right; left; f_equal; lia |]. rewrite high_bit, !N.shiftr_spec by lia.
      replace (N.of_nat t + (32 - N.of_nat r))%N with (N.of_nat (32 + t - r)) by lia.
      rewrite <- (N.shiftr_spec (N.ones 32)) by lia. rewrite (negword_nat true) by assumption. destruct (Nat.ltb_spec (32 + t - r) K); [| lia].
      apply orb_true_r.
Qed.

(** ** start bits *)
Lemma kc_ext f g b : (forall a, (a < b)%nat -> f a = g a) -> kc_values f b = kc_values g b.
Proof. induction b; cbn; intros H; [reflexivity |]. rewrite IHb, H by auto. reflexivity. Qed.
Lemma get_Kc_ok ublm Ks BL b : get_Kc ublm Ks BL b = kc_values (get_K ublm Ks BL) b.
Proof. unfold get_Kc, get_K. destruct ublm; [reflexivity |]. induction b; cbn in *; lia. Qed.
Lemma get_nB_ok ublm Ks BL m : get_nB ublm Ks BL m = ((kc_values (get_K ublm Ks BL) m + 31) / 32)%nat.
Proof. unfold get_nB. destruct ublm; [reflexivity |]. f_equal. f_equal. pose proof (get_Kc_ok false Ks BL m). cbn [get_Kc] in H. unfold get_Kc in H. rewrite <- H. reflexivity. Qed.
Lemma kc_mono f a b : (a <= b)%nat -> (kc_values f a <= kc_values f b)%nat.
Proof. induction 1; cbn; lia. Qed.
Lemma kc_step f a b : (a < b)%nat -> (kc_values f a + f a <= kc_values f b)%nat.
Proof. intros H. apply (kc_mono f (S a) b) in H. exact H. Qed.
Lemma kc_unique f a b P : (kc_values f a <= P < kc_values f a + f a)%nat -> (kc_values f b <= P < kc_values f b + f b)%nat -> a = b.
Proof.
  intros H1 H2. destruct (Nat.lt_trichotomy a b) as [L | [L | L]]; [| assumption |]; apply (kc_step f) in L; lia.
Qed.

Section Stream.
Context (ublm : bool) (Ks : nat -> nat) (BL m sz : nat) (tr : bool) (v : nat -> nat -> tval) (ops : list (nat * N)) (i : nat).
Let K := get_K ublm Ks BL.
Let nB := get_nB ublm Ks BL m.
Context (HK : forall b, (b < m)%nat -> (K b <= 32)%nat) (HW : forall b i, (b < m)%nat -> (i < sz)%nat -> wf_tv (K b) (v b i)).
Context (HP : Permutation ops (flat_map (ops64 ublm Ks BL m sz tr v) (seq 0 (m * sz)))) (Hi : (i < sz)%nat).

Lemma ops64_bits q k (C : nat -> bool * list bool -> Prop) : (q < nB)%nat ->
  (forall b neg h, (b < m)%nat -> v b i = Some (neg, h) -> (0 < K b)%nat ->
     ((exists w, In ((i * nB + q)%nat, w) (counts64 neg h (K b) (kc_values K b) (i * nB + kc_values K b / 32)) /\ N.testbit w k = true) <-> C b (neg, h))) ->
  (N.testbit (run64 ops (i * nB + q)%nat) k = true <-> exists b neg h, (b < m)%nat /\ (0 < K b)%nat /\ v b i = Some (neg, h) /\ C b (neg, h)).
Proof.
  intros Hq HC. unfold run64. rewrite run64_bit. rewrite N.bits_0. split.
  - intros [H | (w & H1 & H2)]; [discriminate |].
    apply (Permutation_in _ HP) in H1. apply in_flat_map in H1. destruct H1 as (idx & L & H1). apply in_seq in L.
    pose proof (batch_value_lt tr idx sz m ltac:(lia)) as [Lb Li].
    unfold ops64 in H1. set (b := batch_idx tr idx sz m) in *. set (i' := value_idx tr idx sz m) in *.
    destruct (v b i') as [[neg h] |] eqn:V; [| contradiction]. fold (K b) in H1. destruct (Nat.eqb_spec (K b) 0) as [| NZ]; [contradiction |].
    rewrite get_Kc_ok in H1. fold K nB in H1.
    assert (AD : counts_idx64 tr idx sz m (kc_values K b) nB = (i' * nB + kc_values K b / 32)%nat) by (unfold counts_idx64, i', value_idx; destruct tr; reflexivity).
    rewrite AD in H1.
    assert (i' = i).
    { pose proof (kc_step K b m Lb) as ST. pose proof (get_nB_ok ublm Ks BL m) as NB. fold K nB in NB.
      pose proof (Nat.div_mod (kc_values K m + 31) 32 ltac:(lia)). pose proof (Nat.mod_upper_bound (kc_values K m + 31) 32 ltac:(lia)).
      pose proof (Nat.div_mod (kc_values K b) 32 ltac:(lia)). pose proof (Nat.mod_upper_bound (kc_values K b) 32 ltac:(lia)).
      unfold counts64 in H1. destruct H1 as [E | E].
      - apply (f_equal fst) in E. cbn [fst] in E.
        assert (E2 : (nB * i' + kc_values K b / 32 = nB * i + q)%nat) by lia.
        apply Nat.div_mod_unique in E2; [tauto | lia | assumption].
      - destruct (Nat.ltb_spec 32 (kc_values K b mod 32 + K b)); [| contradiction]. destruct E as [E | []].
        apply (f_equal fst) in E. cbn [fst] in E.
        assert (E2 : (nB * i' + S (kc_values K b / 32) = nB * i + q)%nat) by lia.
        apply Nat.div_mod_unique in E2; [tauto | lia | assumption]. }
    rewrite H in V, H1. exists b, neg, h. repeat split; try assumption; [lia |]. apply HC; try assumption; [lia |]. exists w. auto.
  - intros (b & neg & h & Lb & NZ & V & c). right. apply HC in c; try assumption. destruct c as (w & H1 & H2). exists w. split; [| exact H2].
    apply (Permutation_in _ (Permutation_sym HP)). apply in_flat_map.
    destruct (batch_value_surj tr b i sz m Lb Hi) as (idx & Lx & Eb & Ei). exists idx. split; [apply in_seq; lia |].
    unfold ops64. rewrite Eb, Ei, V. fold (K b). destruct (Nat.eqb_spec (K b) 0); [lia |].
    rewrite get_Kc_ok. fold K nB.
    replace (counts_idx64 tr idx sz m (kc_values K b) nB) with (i * nB + kc_values K b / 32)%nat by (rewrite <- Ei; unfold counts_idx64, value_idx; destruct tr; reflexivity).
    exact H1.
Qed.
Lemma stream_low q t b : (q < nB)%nat -> (t < 32)%nat -> (b < m)%nat -> (kc_values K b <= 32 * q + t < kc_values K b + K b)%nat ->
  N.testbit (run64 ops (i * nB + q)%nat) (N.of_nat t) = nth (32 * q + t - kc_values K b) (snd (norm (K b) (v b i))) false.
Proof.
  intros Hq Ht Hb Hs. apply Bool.eq_iff_eq_true.
  rewrite (ops64_bits q (N.of_nat t) (fun b nh => (kc_values K b <= 32 * q + t)%nat /\ nth (32 * q + t - kc_values K b) (snd nh) false = true) Hq).
  - unfold norm. destruct (Nat.eqb_spec (K b) 0); [lia |]. split.
    + intros (b' & neg & h & Lb & NZ & V & L & B). cbn [snd] in B.
      pose proof (HW b' i Lb Hi) as W. rewrite V in W. cbn in W.
      assert ((32 * q + t - kc_values K b' < length h)%nat).
      { destruct (Nat.lt_ge_cases (32 * q + t - kc_values K b') (length h)); [assumption |]. rewrite nth_overflow in B by assumption. discriminate. }
      assert (b = b') by (apply (kc_unique K b b' (32 * q + t)); lia). subst b'. rewrite V. exact B.
    + intros B. destruct (v b i) as [[neg h] |] eqn:V; cbn [train snd] in B.
      * exists b, neg, h. cbn [snd]. repeat split; try assumption; lia.
      * rewrite nth_repeat_false in B. discriminate.
  - intros b' neg h Lb V NZ. pose proof (HW b' i Lb Hi) as W. rewrite V in W. apply counts64_low; [exact W | apply HK; assumption | assumption].
Qed.
Lemma stream_high q t b : (q < nB)%nat -> (t < 32)%nat -> (b < m)%nat -> (kc_values K b <= 32 * q + t < kc_values K b + K b)%nat ->
  N.testbit (run64 ops (i * nB + q)%nat) (N.of_nat (32 + t)) = fst (norm (K b) (v b i)).
Proof.
  intros Hq Ht Hb Hs. apply Bool.eq_iff_eq_true.
  rewrite (ops64_bits q (N.of_nat (32 + t)) (fun b nh => (kc_values K b <= 32 * q + t < kc_values K b + K b)%nat /\ fst nh = true) Hq).
  - unfold norm. destruct (Nat.eqb_spec (K b) 0); [lia |]. split.
    + intros (b' & neg & h & Lb & NZ & V & L & B). assert (b = b') by (apply (kc_unique K b b' (32 * q + t)); lia). subst b'. rewrite V. exact B.
    + intros B. destruct (v b i) as [[neg h] |] eqn:V; cbn [train fst] in B; [| discriminate].
      exists b, neg, h. repeat split; try assumption; lia.
  - intros b' neg h Lb V NZ. pose proof (HW b' i Lb Hi) as W. rewrite V in W. apply counts64_high; [exact W | apply HK; assumption | assumption].
Qed.
Lemma stream_end q t : (q < nB)%nat -> (t < 32)%nat -> (kc_values K m <= 32 * q + t)%nat -> N.testbit (run64 ops (i * nB + q)%nat) (N.of_nat t) = false.
Proof.
  intros Hq Ht He. apply Bool.not_true_is_false. intros T. revert T.
  rewrite (ops64_bits q (N.of_nat t) (fun b nh => (kc_values K b <= 32 * q + t)%nat /\ nth (32 * q + t - kc_values K b) (snd nh) false = true) Hq).
  - intros (b & neg & h & Lb & NZ & V & L & B). cbn [snd] in B.
    pose proof (HW b i Lb Hi) as W. rewrite V in W. cbn in W.
    rewrite nth_overflow in B by (pose proof (kc_step K b m Lb); lia). discriminate.
  - intros b' neg h Lb V NZ. pose proof (HW b' i Lb Hi) as W. rewrite V in W. apply counts64_low; [exact W | apply HK; assumption | assumption].
Qed.
End Stream.
