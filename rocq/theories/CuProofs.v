From Verif Require Import Prelude Rand CuModel CuSpec.
From Coq Require Import NArith Permutation Lia Lra.

(** ** counting *)
Lemma filter_ext_seq f g a n : (forall k, (a <= k < a + n)%nat -> f k = g k) -> filter f (seq a n) = filter g (seq a n).
Proof.
  intros H. apply filter_ext_in. intros k Hk. apply in_seq in Hk. apply H. lia.
Qed.
Lemma filter_none {A} (f : A -> bool) l : (forall a, In a l -> f a = false) -> filter f l = [].
Proof.
  induction l as [| a l IH]; intros H; cbn; [reflexivity |].
  rewrite (H a (or_introl eq_refl)). apply IH. intros; apply H; right; assumption.
Qed.
Lemma map_filter_seq_shift {A} (g : nat -> A) f s n :
  map g (filter f (seq s n)) = map (fun k => g (s + k)%nat) (filter (fun k => f (s + k)%nat) (seq 0 n)).
Proof.
  revert s; induction n as [| n IH]; intros s; cbn; [reflexivity |].
  assert (E : seq 1 n = map S (seq 0 n)) by (symmetry; apply seq_shift).
  rewrite E, Nat.add_0_r.
  assert (IH' : map (fun k => g (s + k)%nat) (filter (fun k => f (s + k)%nat) (map S (seq 0 n))) = map g (filter f (seq (S s) n))).
  { rewrite IH. clear. induction (seq 0 n) as [| a l IHl]; cbn; [reflexivity |].
    replace (s + S a)%nat with (S (s + a)) by lia.
    destruct (f (S (s + a))); cbn; rewrite IHl; [| reflexivity].
    replace (s + S a)%nat with (S (s + a)) by lia. reflexivity. }
  destruct (f s); cbn; rewrite IH', ?Nat.add_0_r; reflexivity.
Qed.
Lemma map_const_repeat {A B} (c : B) (l : list A) : map (fun _ => c) l = repeat c (length l).
Proof. induction l; cbn; congruence. Qed.
Lemma length_filter_shift f s n : length (filter f (seq s n)) = length (filter (fun k => f (s + k)%nat) (seq 0 n)).
Proof.
  rewrite <- (map_length (fun k => k) (filter f (seq s n))), map_filter_seq_shift, map_length. reflexivity.
Qed.
(** words side by side *)
Lemma flat_words {A} (g : nat -> A) f n :
  flat_map (fun q => map (fun t => g (32 * q + t)%nat) (filter (fun t => f (32 * q + t)%nat) (seq 0 32))) (seq 0 n)
  = map g (filter f (seq 0 (32 * n))).
Proof.
  induction n as [| n IH]; [reflexivity |].
  rewrite (seq_S n 0), flat_map_app, IH. cbn [flat_map Nat.add]. rewrite app_nil_r.
  replace (32 * S n)%nat with (32 * n + 32)%nat by lia.
  rewrite seq_app, filter_app, map_app. f_equal.
  cbn [Nat.add]. rewrite (map_filter_seq_shift g f (32 * n) 32). reflexivity.
Qed.
Lemma sum_nat_words f n :
  sum_nat (map (fun q => length (filter (fun t => f (32 * q + t)%nat) (seq 0 32))) (seq 0 n)) = length (filter f (seq 0 (32 * n))).
Proof.
  rewrite <- (map_length (fun k => k) (filter f (seq 0 (32 * n)))), <- flat_words.
  generalize (seq 0 32). intros l32.
  induction (seq 0 n) as [| q l IH]; [reflexivity |].
  cbn [map flat_map]. rewrite app_length, map_length. rewrite <- IH. reflexivity.
Qed.

(** ** words *)
Lemma w32_bit x t : N.testbit (w32 x) t = ((t <? 32)%N && N.testbit x t)%bool.
Proof.
  unfold w32. rewrite N.land_spec. destruct (N.ltb_spec t 32).
  - rewrite N.ones_spec_low by assumption. cbn. apply andb_true_r.
  - rewrite N.ones_spec_high by assumption. apply andb_false_r.
Qed.
Lemma not32_bit x t : N.testbit (not32 x) t = ((t <? 32)%N && negb (N.testbit x t))%bool.
Proof.
  unfold not32. rewrite N.ldiff_spec. destruct (N.ltb_spec t 32).
  - rewrite N.ones_spec_low by assumption. reflexivity.
  - rewrite N.ones_spec_high by assumption. reflexivity.
Qed.
Lemma ballot_bit hits j k : N.testbit (ballot j hits) k = ((j <=? k)%N && nth (N.to_nat (k - j)) hits false)%bool.
Proof.
  revert j; induction hits as [| h r IH]; intros j; cbn [ballot].
  - rewrite N.bits_0. destruct (N.to_nat (k - j)); cbn; rewrite andb_false_r; reflexivity.
  - rewrite N.lor_spec, IH. destruct (N.leb_spec j k) as [L | L]; cbn [andb].
    + destruct (N.eq_dec k j) as [-> | E].
      * replace (j - j)%N with 0%N by lia. cbn [N.to_nat nth].
        destruct (N.leb_spec (j + 1) j); [lia |]. cbn [andb]. rewrite orb_false_r.
        destruct h; [| apply N.bits_0]. rewrite N.shiftl_spec_high' by lia. replace (j - j)%N with 0%N by lia. reflexivity.
      * destruct (N.leb_spec (j + 1) k); [| lia]. cbn [andb].
        replace (N.to_nat (k - j)) with (S (N.to_nat (k - (j + 1)))) by lia. cbn [nth].
        destruct h; [| rewrite N.bits_0; reflexivity].
        rewrite N.shiftl_spec_high' by lia. rewrite N.bits_above_log2; [reflexivity |]. cbn. lia.
    + destruct (N.leb_spec (j + 1) k); [lia |]. cbn [andb]. rewrite orb_false_r.
      destruct h; [| apply N.bits_0]. rewrite N.shiftl_spec_low by assumption. reflexivity.
Qed.
Lemma nth_skipn' {A} n (l : list A) k d : nth k (skipn n l) d = nth (n + k) l d.
Proof. revert l; induction n as [| n IH]; intros l; cbn; [reflexivity |]. destruct l; cbn; [destruct k; reflexivity | apply IH]. Qed.
Lemma nth_firstn' {A} n (l : list A) k d : nth k (firstn n l) d = if (k <? n)%nat then nth k l d else d.
Proof.
  revert l k; induction n as [| n IH]; intros l k.
  - destruct k; reflexivity.
  - destruct l as [| a l]; [destruct k; cbn [firstn nth]; destruct (_ <? S n)%nat; reflexivity |].
    destruct k; [reflexivity |]. cbn [firstn nth]. rewrite IH. reflexivity.
Qed.

Lemma more_words_bit n : forall i K hits q t,
  (1 <= i)%nat -> length hits = (K + 1 - 32 * i)%nat -> (t < 32)%nat -> (q < n)%nat ->
  N.testbit (nth q (more_words i (K / 32) K hits n) 0%N) (N.of_nat t) = nth (32 * q + t) hits false.
Proof.
  induction n as [| n IH]; intros i K hits q t Hi Hl Ht Hq; [lia |].
  cbn [more_words]. pose proof (Nat.div_mod K 32 ltac:(lia)) as DM. pose proof (Nat.mod_upper_bound K 32 ltac:(lia)) as MB.
  destruct (Nat.ltb_spec (K / 32) i) as [L | L].
  - assert (hits = []) by (destruct hits; [reflexivity | cbn in Hl; lia]). subst hits.
    destruct q; cbn [nth].
    + rewrite N.bits_0. destruct (32 * 0 + t)%nat; reflexivity.
    + rewrite IH by (cbn; lia). destruct (32 * q + t)%nat, (32 * S q + t)%nat; reflexivity.
  - destruct (Nat.eqb_spec i (K / 32)) as [E | E].
    + assert (Hl' : length hits = (K mod 32 + 1)%nat) by lia.
      destruct q; cbn [nth].
      * rewrite ballot_bit, firstn_all2 by lia. replace (N.to_nat (N.of_nat t - 0)) with t by lia.
        replace (32 * 0 + t)%nat with t by lia. destruct (N.leb_spec 0 (N.of_nat t)); [reflexivity | lia].
      * rewrite IH; try lia; [| rewrite skipn_length; lia].
        rewrite nth_skipn'. rewrite !nth_overflow by lia. reflexivity.
    + destruct q; cbn [nth].
      * rewrite ballot_bit. replace (N.to_nat (N.of_nat t - 0)) with t by lia. destruct (N.leb_spec 0 (N.of_nat t)); [cbn [andb] | lia].
        rewrite nth_firstn'. change (31 + 1)%nat with 32%nat. destruct (Nat.ltb_spec t 32); [| lia].
        replace (32 * 0 + t)%nat with t by lia. reflexivity.
      * rewrite IH; try lia; [| rewrite skipn_length; lia].
        rewrite nth_skipn'. f_equal. lia.
Qed.
Lemma counts32_bit negative hits K BL i t :
  length hits = K -> (K <= BL)%nat -> (i < (BL + 1 + 31) / 32)%nat -> (t < 32)%nat ->
  N.testbit (nth i (counts32 negative hits K ((BL + 1 + 31) / 32)) 0%N) (N.of_nat t)
  = if ((i =? 0) && (t =? 0))%nat%bool then negative else nth (32 * i + t - 1) hits false.
Proof.
  intros Hl HK Hi Ht. unfold counts32.
  assert (EB : ((BL + 1 + 31) / 32 = BL / 32 + 1)%nat).
  { replace (BL + 1 + 31)%nat with (BL + 1 * 32)%nat by lia. rewrite Nat.div_add by lia. reflexivity. }
  assert (EL : Nat.min (K / 32) ((BL + 1 + 31) / 32 - 1) = (K / 32)%nat).
  { rewrite EB. pose proof (Nat.div_le_mono K BL 32 ltac:(lia) HK). lia. }
  rewrite EL. pose proof (Nat.div_mod K 32 ltac:(lia)) as DM. pose proof (Nat.mod_upper_bound K 32 ltac:(lia)) as MB.
  destruct i as [| i]; cbn [nth].
  - rewrite N.lor_spec, ballot_bit. destruct t as [| t]; cbn [Nat.eqb andb].
    + cbn. rewrite orb_false_r. destruct negative; reflexivity.
    + replace (N.testbit (if negative then 1%N else 0%N) (N.of_nat (S t))) with false.
      2:{ destruct negative; [| rewrite N.bits_0; reflexivity]. symmetry. apply N.bits_above_log2. cbn. lia. }
      destruct (N.leb_spec 1 (N.of_nat (S t))); [| lia]. cbn [orb andb].
      replace (N.to_nat (N.of_nat (S t) - 1)) with t by lia.
      replace (32 * 0 + S t - 1)%nat with t by lia.
      destruct (Nat.ltb_spec 0 (K / 32)).
      * rewrite nth_firstn'. destruct (Nat.ltb_spec t 31); [reflexivity | lia].
      * rewrite firstn_all2 by lia. reflexivity.
  - cbn [Nat.eqb andb]. rewrite more_words_bit; try lia.
    + rewrite nth_skipn'. destruct (Nat.ltb_spec 0 (K / 32)).
      * f_equal. lia.
      * rewrite !nth_overflow by lia. reflexivity.
    + rewrite skipn_length. destruct (Nat.ltb_spec 0 (K / 32)); lia.
Qed.
