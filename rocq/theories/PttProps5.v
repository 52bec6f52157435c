(** * The automatic scale of the Python transfer tile (C152) *)
From Verif Require Import Prelude PulseModel PulseProofs PttModel PttSpec PttProofs PttProps PttProps2 PttProps3.
Local Open Scope R_scope.

Lemma tau_range c m : momentum_ok c -> (0 < m)%nat -> 0 < (1 - c_amom c) / INR m <= 1.
Proof.
  intros [A B] M. assert (P : 1 <= INR m) by (apply (le_INR 1); lia). split; [apply Rdiv_lt_0_compat; lra|].
  apply Rmult_le_reg_r with (INR m); [lra|]. unfold Rdiv. rewrite Rmult_assoc, Rinv_l by lra. lra.
Qed.
(** with inputs of the same largest size [a] in all batches, the mean after [n] updates is
    [a (1 - (1 - tau)^n)]: it starts at zero *)
Theorem C152_mean : forall c m a n, Nat.iter n (fun mx => ema c m mx a) 0 = a * (1 - (1 - (1 - c_amom c) / INR m) ^ n).
Proof. intros c m a n. induction n as [|n IH]; [cbn; ring|]. change (Nat.iter (S n) (fun mx => ema c m mx a) 0) with (ema c m (Nat.iter n (fun mx => ema c m mx a) 0) a). setoid_rewrite IH. unfold ema. cbn [pow]. ring. Qed.
(** The rate of the first update: with the documented mean the largest update would have
    [fast_lr * desired_bl] granularities; it is larger by [1 / tau^2] *)
Theorem C152_first_refuted : forall c v xs ds, supported c -> c_auto c = true -> momentum_ok c -> (0 < length xs)%nat -> 0 < maxf (c_x c) xs -> 0 < maxf (c_d c) ds -> let tau := (1 - c_amom c) / INR (length xs) in
  s_A (o_s (update c v p_init xs ds)) = v_fast v 0 (c_fast c * (c_bl c * c_dwA c) / (maxf (c_x c) xs * maxf (c_d c) ds) / (tau * tau)) (o_x (update c v p_init xs ds)) ds (s_A p_init).
Proof.
  intros c v xs ds Sp Au Mo L X D tau. pose proof (tau_range c (length xs) Mo L) as [T0 _]. fold tau in T0.
  assert (Lr : lra_of c p_init xs ds = c_fast c * (c_bl c * c_dwA c) / (maxf (c_x c) xs * maxf (c_d c) ds) / (tau * tau)).
  { unfold lra_of, new_mx, new_md, fast_rate. rewrite Au. unfold ema. fold tau. cbn [p_init s_mx s_md]. replace ((1 - tau) * 0 + tau * maxf (c_x c) xs) with (tau * maxf (c_x c) xs) by ring. replace ((1 - tau) * 0 + tau * maxf (c_d c) ds) with (tau * maxf (c_d c) ds) by ring.
    rewrite (proj2 (Rltb_true 0 (tau * _))) by now apply Rmult_lt_0_compat. rewrite (proj2 (Rltb_true 0 (tau * _))) by now apply Rmult_lt_0_compat. cbn [andb]. field. repeat split; lra. }
  assert (H : s_A (o_s (update c v p_init xs ds)) = v_fast v 0 (lra_of c p_init xs ds) (chop p_init xs) ds (s_A p_init) /\ o_x (update c v p_init xs ds) = chop p_init xs).
  { rewrite (update_eq c v p_init xs ds Sp). cbv zeta. destruct (_ =? _)%nat; [split; reflexivity|]. destruct (_ <? _)%nat; [split; reflexivity|]. destruct (_ <=? _)%nat; [split; reflexivity|].
    destruct (transfer c v _ _ _) as [s2 e] eqn:Et. cbn [o_s o_x]. split; [|reflexivity]. unfold transfer in Et. destruct (read_rate _ _ _ _); [|injection Et as <- _; reflexivity]. cbv zeta in Et. destruct (c_x c <=? _)%nat; injection Et as <- _; reflexivity. }
  destruct H as [-> ->]. now rewrite Lr.
Qed.

(** ** The update of the fast crossbar does not depend on the magnitudes *)
Record scaled (c : pcfg) (a b : R) (s s' : pst) : Prop := {
  sc_A : forall i j, (i < c_d c)%nat -> (j < c_x c)%nat -> s_A s' i j = s_A s i j;
  sc_W : forall i j, (i < c_d c)%nat -> (j < c_x c)%nat -> s_W s' i j = s_W s i j;
  sc_H : forall k o, (k < t_in c)%nat -> (o < t_out c)%nat -> s_H s' k o = s_H s k o;
  sc_P : forall k o, (k < t_in c)%nat -> (o < t_out c)%nat -> s_P s' k o = s_P s k o;
  sc_F : forall k o, (k < t_in c)%nat -> (o < t_out c)%nat -> s_F s' k o = s_F s k o;
  sc_c : forall k, s_c s' k = s_c s k;
  sc_cnt : s_cnt s' = s_cnt s; sc_idx : s_idx s' = s_idx s; sc_chop : s_chop s' = s_chop s;
  sc_mx : s_mx s' = a * s_mx s; sc_md : s_md s' = b * s_md s; sc_mx0 : 0 <= s_mx s; sc_md0 : 0 <= s_md s;
  sc_lr : s_lr s' = s_lr s; sc_clk : s_clk s' = s_clk s }.
Lemma scaled_refl c a b s : s_mx s = 0 -> s_md s = 0 -> scaled c a b s s.
Proof. intros X D. split; auto; try (rewrite X || rewrite D; lra); rewrite ?X, ?D; lra. Qed.
Lemma maxf_scale n a xs : 0 <= a -> maxf n (map (smul a) xs) = a * maxf n xs.
Proof.
  intros Ha. unfold maxf. rewrite map_map. induction xs as [|x xs IH]; [cbn; ring|]. cbn [map].
  change (maxabs_mat (map (smul a x) (seq 0 n) :: map (fun y => map (smul a y) (seq 0 n)) xs)) with (Rmax (maxabs (map (smul a x) (seq 0 n))) (maxabs_mat (map (fun y => map (smul a y) (seq 0 n)) xs))).
  change (maxabs_mat (map x (seq 0 n) :: map (fun y => map y (seq 0 n)) xs)) with (Rmax (maxabs (map x (seq 0 n))) (maxabs_mat (map (fun y => map y (seq 0 n)) xs))). rewrite IH.
  assert (V : forall l, maxabs (map (smul a x) l) = a * maxabs (map x l)).
  { induction l as [|j l IHl]; [cbn; ring|]. cbn [map]. change (maxabs (smul a x j :: map (smul a x) l)) with (Rmax (Rabs (smul a x j)) (maxabs (map (smul a x) l))). change (maxabs (x j :: map x l)) with (Rmax (Rabs (x j)) (maxabs (map x l))).
    rewrite IHl. unfold smul. rewrite Rabs_mult, (Rabs_right a) by lra. now rewrite <- RmaxRmult by exact Ha. }
  rewrite V. now rewrite <- RmaxRmult by exact Ha.
Qed.
Lemma maxf_zero n xs : maxf n xs = 0 -> forall x j, In x xs -> (j < n)%nat -> x j = 0.
Proof.
  intros Z x j Hx Hj. assert (H : Rabs (x j) <= maxf n xs). { apply (maxabs_mat_ub _ (map x (seq 0 n))); [apply in_map with (f := fun y => map y (seq 0 n)); exact Hx | apply in_map, in_seq; lia]. }
  rewrite Z in H. pose proof (Rabs_pos (x j)). mm.
Qed.
Lemma sum_zero (xs ds : list fvec) i j : (forall x, In x xs -> x j = 0) \/ (forall d, In d ds -> d i = 0) -> sumR (map2 (fun (x d : fvec) => d i * x j) xs ds) = 0.
Proof.
  revert ds. induction xs as [|x xs IH]; intros [|d ds] H; cbn [map2 sumR]; auto. rewrite IH.
  - destruct H as [H|H]; [rewrite (H x) by now left | rewrite (H d) by now left]; ring.
  - destruct H as [H|H]; [left | right]; intros; apply H; now right.
Qed.
Lemma ema_scale c m a mx v : ema c m (a * mx) (a * v) = a * ema c m mx v.
Proof. unfold ema. ring. Qed.
Lemma ema_nonneg c m mx v : momentum_ok c -> (0 < m)%nat -> 0 <= mx -> 0 <= v -> 0 <= ema c m mx v /\ (ema c m mx v = 0 -> v = 0).
Proof.
  intros Mo M A B. pose proof (tau_range c m Mo M) as [T0 T1]. unfold ema. cbv zeta. set (t := (1 - c_amom c) / INR m) in *. clearbody t. assert (X : 0 <= (1 - t) * mx) by (apply Rmult_le_pos; lra). assert (Y : 0 <= t * v) by (apply Rmult_le_pos; lra). split; [lra|].
  intros E. assert (t * v = 0) by lra. apply Rmult_integral in H. destruct H; lra.
Qed.
Lemma acc_scaled c v a b s s' xs ds : exact_fast c v -> c_auto c = true -> momentum_ok c -> 0 < a -> 0 < b -> (0 < length xs)%nat -> scaled c a b s s' ->
  scaled c a b (acc c v s xs ds) (acc c v s' (map (smul a) xs) (map (smul b) ds)).
Proof.
  intros (Ef & _) Au Mo Ha Hb L Sc. set (xs' := map (smul a) xs). set (ds' := map (smul b) ds).
  assert (Lx : length xs' = length xs) by (unfold xs'; apply map_length).
  assert (Mx : new_mx c s' xs' = a * new_mx c s xs). { unfold new_mx. rewrite Au, Lx, (sc_mx _ _ _ _ _ Sc). unfold xs'. rewrite maxf_scale by lra. apply ema_scale. }
  assert (Md : new_md c s' (length xs') ds' = b * new_md c s (length xs) ds). { unfold new_md. rewrite Au, Lx, (sc_md _ _ _ _ _ Sc). unfold ds'. rewrite maxf_scale by lra. apply ema_scale. }
  destruct (ema_nonneg c (length xs) (s_mx s) (maxf (c_x c) xs) Mo L (sc_mx0 _ _ _ _ _ Sc) (maxf_nonneg _ _)) as [X0 X1]. destruct (ema_nonneg c (length xs) (s_md s) (maxf (c_d c) ds) Mo L (sc_md0 _ _ _ _ _ Sc) (maxf_nonneg _ _)) as [D0 D1].
  assert (NX : new_mx c s xs = ema c (length xs) (s_mx s) (maxf (c_x c) xs)) by (unfold new_mx; now rewrite Au). assert (ND : new_md c s (length xs) ds = ema c (length xs) (s_md s) (maxf (c_d c) ds)) by (unfold new_md; now rewrite Au).
  rewrite <- NX in X0, X1. rewrite <- ND in D0, D1.
  split; cbn [acc accumulate s_A s_W s_H s_P s_F s_c s_cnt s_idx s_chop s_mx s_md s_lr s_clk].
  - intros i j Hi Hj. rewrite !Ef. unfold ideal_update. rewrite (sc_A _ _ _ _ _ Sc i j Hi Hj). f_equal.
    assert (S1 : sumR (map2 (fun (x d : fvec) => d i * x j) (chop s' xs') ds') = a * b * sumR (map2 (fun (x d : fvec) => d i * x j) (chop s xs) ds)).
    { unfold chop, xs', ds'. clear -Sc. revert ds. induction xs as [|x xs IH]; intros [|d ds]; cbn [map map2 sumR]; try ring. rewrite IH, (sc_c _ _ _ _ _ Sc). unfold smul. ring. }
    rewrite S1. unfold lra_of at 1. rewrite Mx, Md. unfold lra_of. unfold fast_rate. rewrite Au. cbv zeta. set (g := c_fast c * (c_bl c * c_dwA c)). set (mx := new_mx c s xs) in *. set (md := new_md c s (length xs) ds) in *.
    destruct (Rle_lt_or_eq_dec 0 mx X0) as [Px|Px]; [destruct (Rle_lt_or_eq_dec 0 md D0) as [Pd|Pd]|].
    + rewrite !(proj2 (Rltb_true 0 (_ * _))) by now apply Rmult_lt_0_compat. rewrite (proj2 (Rltb_true 0 mx) Px), (proj2 (Rltb_true 0 md) Pd). cbn [andb]. field. repeat split; lra.
    + rewrite (sum_zero (chop s xs) ds i j); [ring|]. right. intros d Hd. apply (maxf_zero (c_d c) ds); auto.
    + rewrite (sum_zero (chop s xs) ds i j); [ring|]. left. intros x Hx. unfold chop in Hx. apply in_map_iff in Hx. destruct Hx as (y & <- & Hy). rewrite (maxf_zero (c_x c) xs (X1 (eq_sym Px)) y j Hy Hj). ring.
  - exact (sc_W _ _ _ _ _ Sc).
  - exact (sc_H _ _ _ _ _ Sc).
  - exact (sc_P _ _ _ _ _ Sc).
  - exact (sc_F _ _ _ _ _ Sc).
  - exact (sc_c _ _ _ _ _ Sc).
  - rewrite !chop_length, Lx, (sc_cnt _ _ _ _ _ Sc). reflexivity.
  - exact (sc_idx _ _ _ _ _ Sc).
  - exact (sc_chop _ _ _ _ _ Sc).
  - exact Mx.
  - exact Md.
  - exact X0.
  - exact D0.
  - exact (sc_lr _ _ _ _ _ Sc).
  - now rewrite (sc_clk _ _ _ _ _ Sc).
Qed.
Lemma existsb_ext_in {A} (f g : A -> bool) l : (forall x, In x l -> f x = g x) -> existsb f l = existsb g l.
Proof. intros H. induction l as [|x l IH]; cbn; [reflexivity|]. rewrite (H x) by now left. rewrite IH; [reflexivity|]. intros; apply H; now right. Qed.
Lemma transfer_scaled c v a b te lra lra' s s' t : c_correct c = false -> exact_fast c v -> exact_slow v -> (0 < t_in c)%nat -> scaled c a b s s' -> transfer c v te lra s = (t, None) -> exists t', transfer c v te lra' s' = (t', None) /\ scaled c a b t t'.
Proof.
  intros Cg Ex Es T Sc E. assert (N : next_k c s' = next_k c s) by (unfold next_k; now rewrite (sc_idx _ _ _ _ _ Sc)).
  assert (Kl : (next_k c s < t_in c)%nat) by (apply Nat.mod_upper_bound; lia).
  assert (Rr : read_rate c te (s_lr s') lra' = read_rate c te (s_lr s) lra) by (unfold read_rate; rewrite Cg, (sc_lr _ _ _ _ _ Sc); reflexivity).
  assert (Su : exists t', transfer c v te lra' s' = (t', None)).
  { unfold transfer in *. rewrite Rr. destruct (read_rate c te (s_lr s) lra); [|discriminate]. cbv zeta in *. fold (next_k c s) in E. fold (next_k c s'). rewrite N. destruct (c_x c <=? next_k c s)%nat; [discriminate | eauto]. }
  destruct Su as (t' & E'). exists t'. split; [exact E'|].
  destruct (transfer_fields _ _ _ _ _ _ E) as (_ & A1 & A2 & A3 & A4 & A5 & A6 & A7 & _ & A8 & A9 & A10 & A11 & A12 & A13).
  destruct (transfer_fields _ _ _ _ _ _ E') as (_ & B1 & B2 & B3 & B4 & B5 & B6 & B7 & _ & B8 & B9 & B10 & B11 & B12 & B13).
  assert (Rt : rate_of c te (s_lr s') lra' = rate_of c te (s_lr s) lra) by (unfold rate_of; now rewrite Cg, (sc_lr _ _ _ _ _ Sc)).
  rewrite N, Rt in *. set (lrh := rate_of c te (s_lr s) lra) in *.
  assert (Om : forall o, (o < t_out c)%nat -> omega_of c v s' o = omega_of c v s o).
  { intros o Ho. destruct (cover c (next_k c s) o) as (i & j & Ei & Eo). rewrite <- Eo. rewrite (omega_exact c v s Ex T i j Ei). rewrite (omega_exact c v s' Ex T i j) by congruence.
    apply (sc_A _ _ _ _ _ Sc); unfold slice_of, entry_of, t_in, t_out in *; destruct (c_cols c); lia. }
  assert (Hh : forall o, (o < t_out c)%nat -> h_of c v lrh s' o = h_of c v lrh s o).
  { intros o Ho. unfold h_of. rewrite N, (sc_H _ _ _ _ _ Sc _ _ Kl Ho), (sc_c _ _ _ _ _ Sc), (Om o Ho). unfold ref_of. rewrite N. destruct (c_tail c); [rewrite (sc_F _ _ _ _ _ Sc _ _ Kl Ho); reflexivity | reflexivity]. }
  assert (Cc : cc_of c s' = cc_of c s) by (unfold cc_of; now rewrite N, (sc_chop _ _ _ _ _ Sc)).
  assert (Sw : sw_of c v s' = sw_of c v s) by (unfold sw_of; now rewrite Cc, (sc_clk _ _ _ _ _ Sc)).
  assert (Pp : forall k o, (k < t_in c)%nat -> (o < t_out c)%nat -> s_P t' k o = s_P t k o).
  { intros k o Hk Ho. rewrite B12, A12. destruct (c_tail c) as [tl|]; [|now apply (sc_P _ _ _ _ _ Sc)]. cbv zeta. unfold put. destruct (k =? next_k c s)%nat; [|now apply (sc_P _ _ _ _ _ Sc)]. now rewrite (Om o Ho), (sc_P _ _ _ _ _ Sc _ _ Kl Ho). }
  split.
  - intros i j Hi Hj. rewrite B1, A1. now apply (sc_A _ _ _ _ _ Sc).
  - intros i j Hi Hj. rewrite B11, A11. cbv zeta. rewrite (existsb_ext_in _ (fun o => negb (truncZ (h_of c v lrh s o) =? 0)%Z)) by (intros o Ho; apply in_seq in Ho; now rewrite Hh by lia).
    destruct (existsb _ _); [|now apply (sc_W _ _ _ _ _ Sc)]. rewrite !Es. assert (Hd : c_cols c = true -> h_of c v lrh s' i = h_of c v lrh s i) by (intros Q; apply Hh; unfold t_out; now rewrite Q). assert (Hx : c_cols c = false -> h_of c v lrh s' j = h_of c v lrh s j) by (intros Q; apply Hh; unfold t_out; now rewrite Q).
    destruct (c_cols c); rewrite !ideal_one; [rewrite Hd by reflexivity | rewrite Hx by reflexivity]; rewrite (sc_W _ _ _ _ _ Sc i j Hi Hj); reflexivity.
  - intros k o Hk Ho. rewrite B10, A10. unfold put. destruct (k =? next_k c s)%nat; [|now apply (sc_H _ _ _ _ _ Sc)]. now rewrite (Hh o Ho).
  - exact Pp.
  - intros k o Hk Ho. rewrite B13, A13, Sw. destruct (c_tail c) as [tl|]; [|now apply (sc_F _ _ _ _ _ Sc)]. destruct (sw_of c v s); [|now apply (sc_F _ _ _ _ _ Sc)]. unfold put. destruct (k =? next_k c s)%nat; [now apply Pp | now apply (sc_F _ _ _ _ _ Sc)].
  - intros k. rewrite B9, A9, Sw. destruct (sw_of c v s); [|apply (sc_c _ _ _ _ _ Sc)]. unfold put. rewrite !(sc_c _ _ _ _ _ Sc). reflexivity.
  - rewrite B2, A2. apply (sc_cnt _ _ _ _ _ Sc).
  - rewrite B3, A3. reflexivity.
  - rewrite B4, A4. exact Cc.
  - rewrite B5, A5. apply (sc_mx _ _ _ _ _ Sc).
  - rewrite B6, A6. apply (sc_md _ _ _ _ _ Sc).
  - rewrite A5. apply (sc_mx0 _ _ _ _ _ Sc).
  - rewrite A6. apply (sc_md0 _ _ _ _ _ Sc).
  - rewrite B7, A7. apply (sc_lr _ _ _ _ _ Sc).
  - rewrite B8, A8, (sc_clk _ _ _ _ _ Sc). reflexivity.
Qed.
(** With [auto_scale] (and without [correct_gradient_magnitudes]), on exact crossbars, the training
    does not depend on the magnitude of the inputs and of the errors: the same history with all
    inputs multiplied by [a > 0] and all errors by [b > 0] gives the same fast and slow weights,
    buffers and choppers. *)
Theorem C152_invariant : forall c v a b h t, supported c -> exact_fast c v -> exact_slow v -> (0 < t_in c)%nat -> c_auto c = true -> c_correct c = false -> momentum_ok c -> 0 < a -> 0 < b -> batches (fun m => (0 < m)%nat) h ->
  run c v p_init h = Ok t -> exists t', run c v p_init (map (scale_ev a b) h) = Ok t' /\
    (forall i j, (i < c_d c)%nat -> (j < c_x c)%nat -> s_A t' i j = s_A t i j /\ s_W t' i j = s_W t i j) /\ (forall k o, (k < t_in c)%nat -> (o < t_out c)%nat -> s_H t' k o = s_H t k o) /\ (forall k, s_c t' k = s_c t k) /\
    s_mx t' = a * s_mx t /\ s_md t' = b * s_md t.
Proof.
  intros c v a b h t Sp Ex Es T Au Cg Mo Ha Hb Hm E.
  assert (X : forall h s s' t, batches (fun m => (0 < m)%nat) h -> scaled c a b s s' -> run c v s h = Ok t -> exists t', run c v s' (map (scale_ev a b) h) = Ok t' /\ scaled c a b t t').
  { clear h t Hm E. induction h as [|e h IH]; intros s s' t Hm Sc E; [injection E as <-; exists s'; split; [reflexivity | exact Sc]|]. inversion Hm as [|? ? He Hm']; subst.
    cbn [run map] in *. destruct (step c v s e) as [s1|] eqn:E1; [|discriminate]. cbn [bind] in E.
    assert (X : exists s1', step c v s' (scale_ev a b e) = Ok s1' /\ scaled c a b s1 s1').
    { destruct (step_cases _ _ _ _ _ Sp E1) as [(l & -> & ->) | (xs & ds & -> & T0 & Hc)].
      - exists (set_lr l s'). split; [reflexivity|]. destruct l; [|exact Sc]. split; try (exact (sc_A _ _ _ _ _ Sc)); try (exact (sc_W _ _ _ _ _ Sc)); try (exact (sc_H _ _ _ _ _ Sc)); try (exact (sc_P _ _ _ _ _ Sc)); try (exact (sc_F _ _ _ _ _ Sc)); try (exact (sc_c _ _ _ _ _ Sc)); try (exact (sc_cnt _ _ _ _ _ Sc)); try (exact (sc_idx _ _ _ _ _ Sc)); try (exact (sc_chop _ _ _ _ _ Sc)); try (exact (sc_mx _ _ _ _ _ Sc)); try (exact (sc_md _ _ _ _ _ Sc)); try (exact (sc_mx0 _ _ _ _ _ Sc)); try (exact (sc_md0 _ _ _ _ _ Sc)); try (exact (sc_clk _ _ _ _ _ Sc)); reflexivity.
      - cbn [scale_ev step]. set (xs' := map (smul a) xs). set (ds' := map (smul b) ds). assert (Lx : length xs' = length xs) by (unfold xs'; apply map_length).
        pose proof (acc_scaled c v a b s s' xs ds Ex Au Mo Ha Hb He Sc) as Sa. fold xs' ds' in Sa.
        rewrite (update_eq c v s' xs' ds' Sp). cbv zeta in *. rewrite Lx. replace (t_every c (length xs) =? 0)%nat with false by (symmetry; apply Nat.eqb_neq; lia).
        assert (Rr : rest_of s' (t_every c (length xs)) (length xs) = rest_of s (t_every c (length xs)) (length xs)) by (unfold rest_of; now rewrite (sc_cnt _ _ _ _ _ Sc)). rewrite Rr. destruct Hc as [[Lt ->] | [[Ge Lt] Et]].
        + replace (_ <? _)%nat with true by (symmetry; now apply Nat.ltb_lt). cbn [o_e o_s]. eauto.
        + replace (rest_of s (t_every c (length xs)) (length xs) <? t_every c (length xs))%nat with false by (symmetry; now apply Nat.ltb_ge). replace (2 * _ <=? _)%nat with false by (symmetry; now apply Nat.leb_gt).
          destruct (transfer_scaled c v a b _ _ (lra_of c s' xs' ds') _ _ _ Cg Ex Es T Sa Et) as (t' & Et' & Sh'). rewrite Et'. cbn [o_e o_s]. eauto. }
    destruct X as (s1' & E2 & Sh1). rewrite E2. cbn [bind]. exact (IH s1 s1' t Hm' Sh1 E). }
  destruct (X h p_init p_init t Hm (scaled_refl c a b p_init eq_refl eq_refl) E) as (t' & E' & Sc). exists t'. split; [exact E'|]. split; [intros i j Hi Hj; split; [apply (sc_A _ _ _ _ _ Sc) | apply (sc_W _ _ _ _ _ Sc)]; assumption|]. split; [exact (sc_H _ _ _ _ _ Sc)|]. split; [exact (sc_c _ _ _ _ _ Sc)|]. split; [exact (sc_mx _ _ _ _ _ Sc) | exact (sc_md _ _ _ _ _ Sc)].
Qed.
Definition cfg3 : pcfg :=
  {| c_x := 3; c_d := 2; c_every := 1; c_units := false; c_nreads := 1; c_auto := true; c_amom := 99 / 100; c_fast := 1; c_bl := 31;
     c_gran := 1; c_again := 0; c_correct := false; c_prob := 1 / 2; c_random := true; c_cols := true;
     c_forget := true; c_mom := 0; c_tail := Some 5; c_cacc := false; c_step := 1; c_dwA := 1; c_dwC := 1 |}.
(** inputs twice, errors a third as large *)
Example C152_nontrivial : let h := repeat (Up [fun j => INR j] [fun _ => 1]) 4 in let v := ideal cfg3 (fun n => if Nat.even n then 0 else 1) in
  exists t t', run cfg3 v p_init h = Ok t /\ run cfg3 v p_init (map (scale_ev 2 (1 / 3)) h) = Ok t' /\ s_W t' 1%nat 2%nat = s_W t 1%nat 2%nat /\ length (reads t) = 4%nat.
Proof.
  intros h v. assert (Sp : supported cfg3) by (unfold supported; cbn; repeat split; auto; lra). assert (Rg : regular cfg3) by (unfold regular; cbn; repeat split; try lra; congruence).
  assert (T : forall m, t_every cfg3 m = 1%nat) by (intros; apply every_int; [cbn; lra | reflexivity]).
  destruct (C148_schedule cfg3 v 1 h Sp Rg) as (t & E & _ & L & _); [cbn; lia | lia | apply Forall_forall; intros e He; apply repeat_spec in He; subst e; cbn [length]; rewrite T; lia |].
  destruct (C152_invariant cfg3 v 2 (1 / 3) h t) as (t' & E' & W & _); [exact Sp | repeat split | repeat split | cbn; lia | reflexivity | reflexivity | split; cbn; lra | lra | lra | apply Forall_forall; intros e He; apply repeat_spec in He; subst e; cbn; lia | exact E |].
  exists t, t'. split; [exact E|]. split; [exact E'|]. split; [apply W; cbn; lia|]. rewrite L. reflexivity.
Qed.

Print Assumptions C152_mean.
Print Assumptions C152_first_refuted.
Print Assumptions C152_invariant.
