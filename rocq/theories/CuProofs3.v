From Verif Require Import Prelude Rand CuModel CuSpec CuProofs CuProofs2.
From Coq Require Import NArith Permutation Lia Lra.

(** ** the 32 bit buffers *)
Lemma batch_value_lt tr idx sz m : (idx < m * sz)%nat -> (batch_idx tr idx sz m < m /\ value_idx tr idx sz m < sz)%nat.
Proof.
  intros H. assert (sz <> 0 /\ m <> 0)%nat as [S M] by (split; intros ->; lia). unfold batch_idx, value_idx. destruct tr; split.
  - apply Nat.mod_upper_bound; assumption.
  - apply Nat.div_lt_upper_bound; lia.
  - apply Nat.div_lt_upper_bound; lia.
  - apply Nat.mod_upper_bound; assumption.
Qed.
Lemma batch_value_surj tr b i sz m : (b < m)%nat -> (i < sz)%nat -> exists idx, (idx < m * sz)%nat /\ batch_idx tr idx sz m = b /\ value_idx tr idx sz m = i.
Proof.
  intros Hb Hi. destruct tr; unfold batch_idx, value_idx.
  - exists (b + i * m)%nat. split; [nia |]. split.
    + rewrite Nat.mod_add by lia. apply Nat.mod_small; assumption.
    + rewrite Nat.div_add by lia. rewrite Nat.div_small by assumption. reflexivity.
  - exists (i + b * sz)%nat. split; [nia |]. split.
    + rewrite Nat.div_add by lia. rewrite Nat.div_small by assumption. reflexivity.
    + rewrite Nat.mod_add by lia. apply Nat.mod_small; assumption.
Qed.
Lemma counts_idx_load tr out idx sz m off : (idx < m * sz)%nat ->
  counts_idx32 tr out idx sz m off = idx_to_load out (batch_idx tr idx sz m) (value_idx tr idx sz m) sz m off.
Proof.
  intros H. assert (sz <> 0 /\ m <> 0)%nat as [S M] by (split; intros ->; lia).
  unfold counts_idx32, idx_to_load, batch_idx, value_idx. destruct tr, out.
  - replace (idx mod m + idx / m * m)%nat with idx; [reflexivity |]. rewrite (Nat.div_mod idx m M) at 1. lia.
  - lia.
  - cbv zeta. rewrite (Nat.mul_comm m). reflexivity.
  - lia.
Qed.
Lemma addr_inj out b i k b' i' k' sz m nK :
  (b < m)%nat -> (i < sz)%nat -> (k < nK)%nat -> (b' < m)%nat -> (i' < sz)%nat -> (k' < nK)%nat ->
  (idx_to_load out b i sz m (sz * nK) + k * sz = idx_to_load out b' i' sz m (sz * nK) + k' * sz)%nat -> b = b' /\ i = i' /\ k = k'.
Proof.
  intros Hb Hi Hk Hb' Hi' Hk' E. unfold idx_to_load in E. destruct out; cbv zeta in E.
  - set (a := (b + i * m)%nat) in *. set (a' := (b' + i' * m)%nat) in *.
    pose proof (Nat.mod_upper_bound a sz ltac:(lia)). pose proof (Nat.mod_upper_bound a' sz ltac:(lia)).
    assert (E2 : (sz * (a / sz * nK + k) + a mod sz = sz * (a' / sz * nK + k') + a' mod sz)%nat) by lia.
    apply Nat.div_mod_unique in E2; [| assumption | assumption]. destruct E2 as [E3 E4].
    assert (E5 : (nK * (a / sz) + k = nK * (a' / sz) + k')%nat) by lia.
    apply Nat.div_mod_unique in E5; [| assumption | assumption]. destruct E5 as [E6 E7].
    assert (EA : a = a') by (rewrite (Nat.div_mod a sz), (Nat.div_mod a' sz) by lia; congruence).
    assert (E8 : (m * i + b = m * i' + b')%nat) by (unfold a, a' in EA; lia).
    apply Nat.div_mod_unique in E8; [| assumption | assumption]. intuition.
  - assert (E2 : (sz * (nK * b + k) + i = sz * (nK * b' + k') + i')%nat) by lia.
    apply Nat.div_mod_unique in E2; [| assumption | assumption]. destruct E2 as [E3 E4].
    apply Nat.div_mod_unique in E3; [| assumption | assumption]. intuition.
Qed.

Lemma run32_in ops a v m0 : (forall v', In (a, v') ops -> v' = v) ->
  fold_left store ops m0 a = if existsb (fun op => fst op =? a)%nat ops then v else m0 a.
Proof.
  revert m0; induction ops as [| [a' v'] ops IH]; intros m0 H; [reflexivity |].
  cbn [fold_left existsb fst]. rewrite IH by (intros; apply H; right; assumption).
  unfold store at 1. cbn [fst snd]. rewrite (Nat.eqb_sym a a').
  destruct (Nat.eqb_spec a' a) as [-> | E]; cbn [orb].
  - rewrite (H v' (or_introl eq_refl)). destruct (existsb _ _); reflexivity.
  - reflexivity.
Qed.
Lemma combine_seq_in {A} (l : list A) s n k v (d : A) : In (k, v) (combine (seq s n) l) -> (s <= k < s + n)%nat /\ (k - s < length l)%nat /\ v = nth (k - s) l d.
Proof.
  revert l s; induction n as [| n IH]; intros l s H; [contradiction |].
  destruct l as [| a l]; [contradiction |]. cbn in H. destruct H as [H | H].
  - inversion H; subst. replace (k - k)%nat with 0%nat by lia. cbn. split; [lia |]. split; [lia | reflexivity].
  - apply IH in H. destruct H as (H1 & H2 & H3). replace (k - s)%nat with (S (k - S s)) by lia. cbn. split; [lia |]. split; [lia | assumption].
Qed.
Lemma in_combine_seq {A} (l : list A) s n i d : (i < n)%nat -> (i < length l)%nat -> In ((s + i)%nat, nth i l d) (combine (seq s n) l).
Proof.
  revert l s i; induction n as [| n IH]; intros l s i Hi Hl; [lia |].
  destruct l as [| a l]; [cbn in Hl; lia |]. destruct i; cbn.
  - left. rewrite Nat.add_0_r. reflexivity.
  - right. rewrite <- Nat.add_succ_comm. apply IH; [lia | cbn in Hl; lia].
Qed.
Lemma more_words_length n : forall i loc K h, length (more_words i loc K h n) = n.
Proof. induction n as [| n IHn]; intros i loc K h; [reflexivity |]. cbn [more_words]. destruct (loc <? i)%nat; cbn [length]; rewrite IHn; reflexivity. Qed.
Lemma nK_pos BL : (0 < (BL + 1 + 31) / 32)%nat.
Proof. apply Nat.div_str_pos. lia. Qed.
Lemma counts32_length neg h K nK : (0 < nK)%nat -> length (counts32 neg h K nK) = nK.
Proof. intros. unfold counts32. cbn [length]. rewrite more_words_length. lia. Qed.

Lemma ops32_in ublm Ks BL m sz tr out v idx a w : (idx < m * sz)%nat ->
  In (a, w) (ops32 ublm Ks BL m sz tr out v idx) ->
  exists k, (k < (BL + 1 + 31) / 32)%nat
    /\ a = (idx_to_load out (batch_idx tr idx sz m) (value_idx tr idx sz m) sz m (sz * ((BL + 1 + 31) / 32)) + k * sz)%nat
    /\ w = word32 BL (get_K ublm Ks BL (batch_idx tr idx sz m)) (v (batch_idx tr idx sz m) (value_idx tr idx sz m)) k.
Proof.
  intros Hi H. unfold ops32 in H. unfold word32.
  set (b := batch_idx tr idx sz m) in *. set (i := value_idx tr idx sz m) in *.
  destruct (v b i) as [[neg h] |]; [| contradiction].
  destruct (Nat.eqb_spec (get_K ublm Ks BL b) 0); [contradiction |].
  apply in_map_iff in H. destruct H as ([k wk] & E & Hin). cbn [fst snd] in E. inversion E; subst.
  apply (combine_seq_in _ _ _ _ _ 0%N) in Hin. destruct Hin as (H1 & H2 & H3).
  exists k. split; [lia |]. split.
  - rewrite counts_idx_load by assumption. rewrite (Nat.mul_comm sz). reflexivity.
  - rewrite H3. replace (k - 0)%nat with k by lia. reflexivity.
Qed.
Lemma run32_word ublm Ks BL m sz tr out v ops b i k :
  Permutation ops (flat_map (ops32 ublm Ks BL m sz tr out v) (seq 0 (m * sz))) ->
  (b < m)%nat -> (i < sz)%nat -> (k < (BL + 1 + 31) / 32)%nat ->
  run32 ops (idx_to_load out b i sz m (sz * ((BL + 1 + 31) / 32)) + k * sz)%nat = word32 BL (get_K ublm Ks BL b) (v b i) k.
Proof.
  intros P Hb Hi Hk. set (nK := ((BL + 1 + 31) / 32)%nat) in *. set (a := (_ + k * sz)%nat).
  assert (U : forall v', In (a, v') ops -> v' = word32 BL (get_K ublm Ks BL b) (v b i) k).
  { intros v' Hv. apply (Permutation_in _ P) in Hv. apply in_flat_map in Hv. destruct Hv as (idx & H1 & H2).
    apply in_seq in H1. apply ops32_in in H2; [| lia]. destruct H2 as (k' & L & E & ->). fold nK in L, E.
    pose proof (batch_value_lt tr idx sz m ltac:(lia)) as [Lb Li].
    unfold a in E. apply addr_inj in E; try assumption. destruct E as (-> & -> & ->). reflexivity. }
  unfold run32. rewrite (run32_in _ _ _ _ U).
  destruct (existsb _ ops) eqn:X; [reflexivity |].
  destruct (batch_value_surj tr b i sz m Hb Hi) as (idx & Li & Eb & Ei).
  unfold word32. destruct (v b i) as [[neg h] |] eqn:V; [| reflexivity].
  destruct (Nat.eqb_spec (get_K ublm Ks BL b) 0); [reflexivity |]. exfalso.
  assert (existsb (fun op : nat * N => (fst op =? a)%nat) ops = true); [| congruence].
  apply existsb_exists. exists (a, nth k (counts32 neg h (get_K ublm Ks BL b) nK) 0%N). split; [| apply Nat.eqb_refl].
  apply (Permutation_in _ (Permutation_sym P)). apply in_flat_map. exists idx. split; [apply in_seq; lia |].
  unfold ops32. rewrite Eb, Ei, V. destruct (Nat.eqb_spec (get_K ublm Ks BL b) 0); [contradiction |].
  fold nK. apply in_map_iff. exists (k, nth k (counts32 neg h (get_K ublm Ks BL b) nK) 0%N). split.
  - cbn [fst snd]. f_equal. unfold a. rewrite counts_idx_load by lia. rewrite Eb, Ei, (Nat.mul_comm nK). reflexivity.
  - apply (in_combine_seq _ 0); [assumption |]. rewrite counts32_length by lia. assumption.
Qed.

Lemma flat_map_ext_in {A B} (f g : A -> list B) l : (forall a, In a l -> f a = g a) -> flat_map f l = flat_map g l.
Proof. induction l as [| a l IH]; cbn; intros H; [reflexivity |]. rewrite (H a), IH; auto. Qed.
Lemma kept_app os a b : kept os (a ++ b) = kept os a ++ kept os b.
Proof. unfold kept. destruct (os =? 0)%Z; [reflexivity |]. destruct (os =? 1)%Z; rewrite filter_app, ?map_app; reflexivity. Qed.
Lemma kept_nil os : kept os [] = [].
Proof. unfold kept. destruct (os =? 0)%Z; [reflexivity |]. destruct (os =? 1)%Z; reflexivity. Qed.
Lemma kept_flat {A} os (f : A -> list bool) l : kept os (flat_map f l) = flat_map (fun a => kept os (f a)) l.
Proof. induction l; cbn; [apply kept_nil |]. rewrite kept_app, IHl. reflexivity. Qed.
Lemma flat_map_map' {A B C} (f : B -> list C) (g : A -> B) l : flat_map f (map g l) = flat_map (fun a => f (g a)) l.
Proof. induction l; cbn; congruence. Qed.

Lemma loads32_pulses os ublm Ks BL m xsz dsz trx trd ox od vx vd opsx opsd xi di :
  (os = 0 \/ os = 1 \/ os = -1)%Z -> (xi < xsz)%nat -> (di < dsz)%nat ->
  (forall b, (b < m)%nat -> get_K ublm Ks BL b <= BL)%nat ->
  (forall b, (b < m)%nat -> wf_tv (get_K ublm Ks BL b) (vx b xi) /\ wf_tv (get_K ublm Ks BL b) (vd b di)) ->
  Permutation opsx (flat_map (ops32 ublm Ks BL m xsz trx ox vx) (seq 0 (m * xsz))) ->
  Permutation opsd (flat_map (ops32 ublm Ks BL m dsz trd od vd) (seq 0 (m * dsz))) ->
  flat_map lp (loads32 os BL m xsz dsz ox od (run32 opsx) (run32 opsd) xi di)
  = kept os (all_pulses (get_K ublm Ks BL) (fun b => vx b xi) (fun b => vd b di) m).
Proof.
  intros Ho Hx Hd HK HW Px Pd. unfold loads32, all_pulses. rewrite kept_flat, flat_map_map'.
  apply flat_map_ext_in. intros b Hb. apply in_seq in Hb.
  destruct (HW b ltac:(lia)) as [Wx Wd]. specialize (HK b ltac:(lia)). set (K := get_K ublm Ks BL b) in *.
  set (F := fun v j => if (j =? 0)%nat then fst (norm K v) else nth (j - 1) (snd (norm K v)) false).
  assert (NB : ((BL + 1 + 31) / 32 = BL / 32 + 1)%nat).
  { replace (BL + 1 + 31)%nat with (BL + 1 * 32)%nat by lia. rewrite Nat.div_add by lia. reflexivity. }
  pose proof (Nat.div_mod BL 32 ltac:(lia)). pose proof (Nat.mod_upper_bound BL 32 ltac:(lia)).
  assert (BIT : forall v i t, wf_tv K v -> (i < (BL + 1 + 31) / 32)%nat -> (t < 32)%nat -> N.testbit (word32 BL K v i) (N.of_nat t) = F v (32 * i + t)%nat).
  { intros v i t W Hi Ht. rewrite word32_bit by assumption. unfold F.
    destruct (Nat.eqb_spec i 0), (Nat.eqb_spec t 0), (Nat.eqb_spec (32 * i + t) 0); cbn [andb]; try lia; reflexivity. }
  rewrite (lp_getn32 os _ K _ _ (F (vx b xi)) (F (vd b di))); try assumption.
  - rewrite pulses_norm. unfold F at 1 2. cbn [Nat.eqb]. f_equal. f_equal. apply filter_ext. intros k.
    unfold F. cbn [Nat.eqb]. replace (S k - 1)%nat with k by lia. reflexivity.
  - apply nK_pos.
  - lia.
  - intros i t Hi Ht. rewrite (run32_word ublm Ks BL m xsz trx ox vx) by (assumption || lia). apply BIT; assumption.
  - intros i t Hi Ht. rewrite (run32_word ublm Ks BL m dsz trd od vd) by (assumption || lia). apply BIT; assumption.
  - intros k Hk. unfold F. cbn [Nat.eqb]. apply nth_overflow. rewrite norm_length by assumption. lia.
Qed.
