(** * The translation of the pulse trains into the packed order *)
From Verif Require Import Prelude Rand CuModel CuSpec CuProofs3 CuProofs5 CuTrModel CuTrProofs.
From Coq Require Import NArith Permutation Lia Lra.

(** C210: the kernel writes every packed word, and bit [t] of word [Q] is the slot of the sample
    that falls on place [32 Q + t] of the row of all trains (bit [32 + t]: its sign), if the
    batch does not fill the last block *)
Theorem C210_translate : forall Ks T BL m v, (0 < T)%nat -> (T mod 32 = 0)%nat -> (0 < BL <= 31)%nat -> (m mod T <> 0)%nat ->
  (forall b, (b < m)%nat -> slots BL (v b)) ->
  let out := translate false Ks T BL m (fun b => match v b with Some (neg, h) => hd 0%N (counts32 neg h BL 1) | None => 0%N end) in
  (forall Q, (Q < (m * BL + 31) / 32)%nat -> exists w, In (Q, w) out) /\
  (forall Q w t, In (Q, w) out -> (t < 32)%nat ->
     let P := (32 * Q + t)%nat in
     N.testbit w (N.of_nat t) = ((P <? m * BL)%nat && nth (P mod BL) (snd (train BL (v (P / BL)%nat))) false)%bool
     /\ N.testbit w (N.of_nat (32 + t)) = ((P <? m * BL)%nat && fst (train BL (v (P / BL)%nat)))%bool).
Proof.
  intros Ks T BL m v HT H32 HB NZ HW out. destruct (translate_ok Ks T BL m v HT H32 HB HW NZ) as [A B].
  split; [exact A |]. intros Q w t I Ht. exact (B Q w I t Ht).
Qed.
Example C210_nontrivial :
  let v := fun b => if (b =? 33)%nat then Some (true, [true; false; true]) else if (b =? 0)%nat then None else Some (false, [false; true; false]) in
  (34 mod 32 <> 0)%nat /\ (forall b, (b < 34)%nat -> slots 3 (v b))
  /\ nth 3 (translate false (fun _ => 0%nat) 32 3 34 (fun b => match v b with Some (neg, h) => hd 0%N (counts32 neg h 3 1) | None => 0%N end)) (0%nat, 0%N) = (3%nat, 240518168618)%N
  /\ (240518168618 = 42 + 2 ^ 32 * 56)%N.
Proof.
  split; [discriminate |]. split; [intros b _; unfold slots; destruct (b =? 33)%nat; [reflexivity |]; destruct (b =? 0)%nat; [exact I | reflexivity] |].
  split; vm_compute; reflexivity.
Qed.

(** if the batch is a multiple of the threads of a block, no word of the last block is written:
    the pulses of its [T] samples are lost *)
Theorem C210_lost_refuted : forall Ks T BL k cnt, (0 < T)%nat -> (T mod 32 = 0)%nat ->
  forall Q w, In (Q, w) (translate false Ks T BL (S k * T) cnt) -> (32 * Q < k * T * BL)%nat.
Proof.
  intros Ks T BL k cnt HT H32.
  assert (EU : exists u, forall r, (r * T * BL = 32 * (r * u))%nat).
  { pose proof (Nat.div_mod T 32 ltac:(lia)) as DM. rewrite H32 in DM. exists (T / 32 * BL)%nat. intros r. rewrite DM at 1. lia. }
  destruct EU as [u ER].
  assert (MONO : forall a b, (a <= b)%nat -> (a * T <= b * T)%nat) by (intros; apply Nat.mul_le_mono_r; assumption).
  assert (DIV : forall r, (r * T * BL / 32 = r * u)%nat) by (intros r; rewrite ER, Nat.mul_comm; apply Nat.div_mul; lia).
  assert (TU : (T * BL = 32 * u)%nat) by (specialize (ER 1%nat); lia).
  assert (G : forall n r s, (r + n = S k)%nat -> good_state T BL r s -> forall Q w, In (Q, w) (tr_blocks false Ks T BL (S k * T) cnt n r s) -> (32 * Q < k * T * BL)%nat).
  { induction n as [| n IH]; intros r s E G Q w I; [destruct I |]. cbn [tr_blocks] in I. unfold good_state in G. subst s.
    destruct (Nat.eq_dec r k) as [-> | NE].
    - assert (n = 0)%nat by lia. subst n. cbn [tr_blocks] in I. rewrite app_nil_r in I.
      unfold tr_block, tr_kc, get_K in I. cbn [t_total t_agg t_left t_c t_neg fst] in I. cbv zeta in I.
      assert (BA : (block_aggregate false Ks T BL (S k * T) k = 0)%nat).
      { unfold block_aggregate. destruct (Nat.leb_spec (S k * T) (T + k * T)); [| cbn in *; lia]. rewrite Nat.mod_mul by lia. reflexivity. }
      rewrite BA in I. cbn [Nat.add] in I.
      assert (Z : ((k * T * BL + 0) mod 32 = 0)%nat) by (rewrite Nat.add_0_r, ER, Nat.mul_comm; apply Nat.mod_mul; lia).
      rewrite Z in I. change (0 <? 0)%nat with false in I. rewrite andb_false_r in I. change (0 / 32)%nat with 0%nat in I. destruct I.
    - assert (LK : (S r * T <= k * T)%nat) by (apply MONO; lia).
      assert (BA : (block_aggregate false Ks T BL (S k * T) r = T * BL)%nat).
      { unfold block_aggregate. destruct (Nat.leb_spec (S k * T) (T + r * T)); [cbn in *; lia | reflexivity]. }
      assert (LL : (S k * T <=? r * T + T)%nat = false) by (apply Nat.leb_gt; cbn in *; lia).
      apply in_app_iff in I. destruct I as [I | I].
      + unfold tr_block, tr_kc, get_K in I. cbn [t_total t_agg t_left t_c t_neg fst] in I. cbv zeta in I. rewrite BA, LL in I. cbn [andb] in I.
        apply in_map_iff in I. destruct I as (i & EQ & I). apply in_seq in I. apply (f_equal fst) in EQ. cbn [fst] in EQ. subst Q.
        rewrite Nat.add_0_r, TU, (Nat.mul_comm 32), Nat.div_mul in I by lia. rewrite DIV, ER.
        assert (S r * u <= k * u)%nat by (apply Nat.mul_le_mono_r; lia). cbn in *. lia.
      + eapply IH; [| | exact I]; [lia |]. unfold tr_block, tr_kc, get_K, good_state. cbn [t_total t_agg t_left t_c t_neg snd]. cbv zeta. rewrite BA, LL.
        rewrite Nat.add_0_r, DIV. replace (r * T * BL + T * BL)%nat with (S r * T * BL)%nat by (cbn; lia).
        assert (Z : (S r * T * BL mod 32 = 0)%nat) by (rewrite ER, Nat.mul_comm; apply Nat.mod_mul; lia).
        rewrite Z, TU, (Nat.mul_comm 32), Nat.div_mul by lia. change (0 <? 0)%nat with false. rewrite !andb_false_r. cbn [andb].
        f_equal. rewrite DIV. cbn. lia. }
  intros Q w I. unfold translate in I. apply G in I; [exact I | | reflexivity].
  rewrite Nat.add_0_l. replace (S k * T + T - 1)%nat with (T - 1 + S k * T)%nat by lia.
  rewrite Nat.div_add, Nat.div_small by lia. reflexivity.
Qed.
(** a batch of 512 samples with the 512 threads of the kernel: nothing is written, where there
    are 16 words per slot of the trains *)
Example C210_lost_nontrivial : forall BL cnt, translate false (fun _ => 0%nat) 512 BL (1 * 512) cnt = [] /\ ((512 * BL + 31) / 32 = 16 * BL)%nat.
Proof.
  intros BL cnt. split.
  - destruct (translate false (fun _ => 0%nat) 512 BL (1 * 512) cnt) as [| [Q w] l] eqn:E; [reflexivity |].
    pose proof (C210_lost_refuted (fun _ => 0%nat) 512 BL 0 cnt ltac:(lia) eq_refl Q w) as H. rewrite E in H. specialize (H (or_introl eq_refl)). cbn in H. lia.
  - symmetry. apply (Nat.div_unique _ _ _ 31); lia.
Qed.

(** with bit line management the bits of a block that do not fill a word are lost: in a batch of
    more than [T] samples the word that holds the last [kc_values Ks T mod 32] slots of the first
    block, and the words after it, do not depend on the samples of the first block *)
Theorem C210_leftover_refuted : forall T BL m Ks cnt cnt', (0 < T < m)%nat -> (32 <= kc_values Ks T)%nat ->
  (forall b, (T <= b)%nat -> cnt b = cnt' b) ->
  forall Q w, (kc_values Ks T / 32 <= Q)%nat -> In (Q, w) (translate true Ks T BL m cnt) -> In (Q, w) (translate true Ks T BL m cnt').
Proof.
  intros T BL m Ks cnt cnt' HT H32 HC.
  assert (SAME : forall n r s, (0 < r)%nat -> tr_blocks true Ks T BL m cnt n r s = tr_blocks true Ks T BL m cnt' n r s).
  { assert (B : forall r s, (0 < r)%nat -> tr_block true Ks T BL m cnt r s = tr_block true Ks T BL m cnt' r s).
    { intros r s Hr. unfold tr_block.
      assert (GE : (T <= r * T)%nat) by (replace T with (1 * T)%nat at 1 by lia; apply Nat.mul_le_mono_r; lia).
      rewrite (flat_map_ext_in (fun b => thread_words (N.shiftr (cnt b) 1) _ _) (fun b => thread_words (N.shiftr (cnt' b) 1) (get_K true Ks BL b) (tr_kc true Ks T BL m r (t_agg s) b + t_left s))).
      2: { intros b Hb. apply filter_In in Hb. destruct Hb as [Hb _]. apply in_seq in Hb. rewrite (HC b) by lia. reflexivity. }
      rewrite (flat_map_ext_in (fun b => thread_words (if N.testbit (cnt b) 0 then _ else 0%N) _ _)
                 (fun b => thread_words (if N.testbit (cnt' b) 0 then N.shiftr (N.ones 32) (32 - N.of_nat (get_K true Ks BL b)) else 0%N) (get_K true Ks BL b) (tr_kc true Ks T BL m r (t_agg s) b + t_left s))).
      2: { intros b Hb. apply filter_In in Hb. destruct Hb as [Hb _]. apply in_seq in Hb. rewrite (HC b) by lia. reflexivity. }
      reflexivity. }
    induction n as [| n IH]; intros r s Hr; cbn [tr_blocks]; [reflexivity |]. rewrite B by assumption. f_equal. apply IH. lia. }
  assert (KB : kc_block Ks T m 0 T = kc_values Ks T).
  { unfold kc_block. apply kc_ext. intros a Ha. cbn [Nat.mul Nat.add]. destruct (Nat.ltb_spec a m); [reflexivity | lia]. }
  intros Q w HQ I. unfold translate in *. destruct ((m + T - 1) / T)%nat as [| n]; [destruct I |]. cbn [tr_blocks] in *.
  assert (NB : (kc_values Ks T / 32 <> 0)%nat) by (intros Z; apply Nat.div_small_iff in Z; lia).
  assert (ST : snd (tr_block true Ks T BL m cnt 0 {| t_total := 0; t_agg := 0; t_left := 0; t_c := 0; t_neg := 0 |})
             = snd (tr_block true Ks T BL m cnt' 0 {| t_total := 0; t_agg := 0; t_left := 0; t_c := 0; t_neg := 0 |})).
  { unfold tr_block, block_aggregate. cbn [t_total t_agg t_left t_c t_neg snd]. cbv zeta. rewrite KB, Nat.add_0_r.
    destruct (Nat.eqb_spec (kc_values Ks T / 32) 0); [contradiction |]. rewrite !andb_false_r. reflexivity. }
  apply in_app_iff in I. destruct I as [I | I].
  - unfold tr_block, block_aggregate in I. cbn [t_total t_agg t_left t_c t_neg fst] in I. cbv zeta in I. rewrite KB, Nat.add_0_r in I.
    destruct (Nat.leb_spec m (0 * T + T)); [lia |]. cbn [andb] in I.
    apply in_map_iff in I. destruct I as (i & E & I). apply in_seq in I. apply (f_equal fst) in E. cbn [fst] in E. lia.
  - apply in_app_iff. right. rewrite <- ST, <- SAME by lia. exact I.
Qed.
(** 32 trains of two slots and then one of three make 67 slots: with [T = 33] the slots of the
    last sample of the first block are on places 64, 65 and 66, and word 2 comes out without them *)
Example C210_leftover_nontrivial :
  let Ks := fun b => if (b =? 32)%nat then 3%nat else 2%nat in
  let cnt := fun fire b => if (b =? 32)%nat then (if fire : bool then 15%N else 0%N) else 0%N in
  kc_values Ks 33 = 67%nat /\ nth 2 (translate true Ks 33 3 40 (cnt true)) (0%nat, 7%N) = (2%nat, 0%N)
  /\ nth 2 (translate true Ks 40 3 40 (cnt true)) (0%nat, 0%N) = (2%nat, 30064771079%N) /\ (30064771079 = 7 + 2 ^ 32 * 7)%N.
Proof. cbv zeta. repeat split; vm_compute; reflexivity. Qed.

Print Assumptions C210_leftover_refuted.
Print Assumptions C210_translate.
Print Assumptions C210_lost_refuted.
