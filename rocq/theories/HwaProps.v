(** * Clipping (C84, C85) *)
From Verif Require Import Prelude Rand CompModel PeriModel HwaModel HwaSpec HwaProofs.

(** C84: clipping at a fixed value *)
Theorem C84_fixed : forall p d x w, shape d x w -> wc_type p = CFixed ->
  (0 <= wc_fix p -> clipped_at d x (wc_fix p) w (clip_weights p w)) /\ (wc_fix p < 0 -> clip_weights p w = w).
Proof.
  intros p d x w S T. unfold clip_weights, device_clip. rewrite T. split; intros H.
  - rewrite (proj2 (Rleb_true _ _) H). now apply clip_mat_spec.
  - now rewrite (proj2 (Rleb_false _ _) H).
Qed.
Lemma clipper_spec p d x w c : shape d x w -> clip_value p w = c -> (0 < c -> clipped_at d x c w (clipper_apply p w)) /\ (c <= 0 -> clipper_apply p w = w).
Proof.
  intros S E. unfold clipper_apply. rewrite E. split; intros H.
  - rewrite (proj2 (Rltb_true _ _) H). apply clip_mat_spec; auto. lra.
  - now rewrite (proj2 (Rltb_false _ _) H).
Qed.
Lemma absmax_rows w ms : Forall2 is_absmax w ms -> ms = map maxabs w.
Proof. induction 1 as [|r m w ms H F IH]; [reflexivity|]. apply is_absmax_maxabs in H as [_ ->]. cbn. now rewrite IH. Qed.
Lemma mean_pos w : 0 <= sumR (map maxabs w) / INR (length w).
Proof.
  destruct w as [|r w]; [cbn; unfold Rdiv; rewrite Rmult_0_l; lra|]. apply Rmult_le_pos.
  - apply sumR_map_nonneg. intros; apply maxabs_nonneg.
  - left. apply Rinv_0_lt_compat, lt_0_INR. cbn; lia.
Qed.
Lemma avg_value p w ms : wc_type p = CAvgMax -> Forall2 is_absmax w ms -> clip_value p w = limited (wc_fix p) (sumR ms / INR (length w)).
Proof.
  intros T F. rewrite (absmax_rows _ _ F). unfold clip_value. rewrite T. cbv zeta. rewrite limited_eq. rewrite Rabs_pos_eq; [reflexivity | apply mean_pos].
Qed.
(** C84: clipping at the average of the channels' absolute maxima *)
Theorem C84_average : forall p d x w ms c, shape d x w -> (0 < d)%nat -> wc_type p = CAvgMax -> Forall2 is_absmax w ms -> is_mean ms c ->
  (0 < c -> clipped_at d x (limited (wc_fix p) c) w (clip_weights p w)) /\ (c <= 0 -> clip_weights p w = w).
Proof.
  intros p d x w ms c S D T F E. assert (V : clip_value p w = limited (wc_fix p) c).
  { rewrite (avg_value p w ms T F). assert (Lm : length ms = length w) by (rewrite (absmax_rows _ _ F); apply map_length). destruct S as [Lw _]. assert (Q : sumR ms / INR (length w) = c); [|apply f_equal; exact Q]. unfold is_mean in E. rewrite <- E, Lm, Lw. field. apply not_0_INR. lia. }
  unfold clip_weights. rewrite T. destruct (clipper_spec p d x w _ S V) as [A B]. split; intros H.
  - apply A. unfold limited. destruct (Rlt_dec 0 (wc_fix p)); mm.
  - apply B. unfold limited. destruct (Rlt_dec 0 (wc_fix p)); mm.
Qed.
(** C84: clipping at a number of standard deviations *)
Lemma std_is_std w : (2 <= length (concat w))%nat -> is_std (concat w) (cl_std w).
Proof.
  intros L. assert (N : INR (length (concat w)) <> 0) by (apply not_0_INR; lia). assert (2 <= INR (length (concat w))) by (change 2 with (INR 2); apply le_INR; lia).
  exists (cl_mean w). split; [unfold is_mean, cl_mean; field; auto|]. unfold cl_std. cbv zeta. set (n := INR (length (concat w))) in *. split; [apply sqrt_pos|].
  rewrite sqrt_sqrt.
  - rewrite (map_ext _ (fun v => / (n - 1) * ((v - cl_mean w) * (v - cl_mean w)))) by (intros; unfold Rdiv; ring). rewrite sumR_scal. field. lra.
  - apply sumR_map_nonneg. intros a _. apply Rmult_le_pos; [apply Rle_0_sqr | left; apply Rinv_0_lt_compat; lra].
Qed.
Lemma is_mean_unique l a b : l <> [] -> is_mean l a -> is_mean l b -> a = b.
Proof. intros N A B. unfold is_mean in *. assert (INR (length l) <> 0) by (apply not_0_INR; destruct l; [congruence | cbn; lia]). apply (Rmult_eq_reg_r (INR (length l))); congruence. Qed.
Lemma is_std_unique l a b : (2 <= length l)%nat -> is_std l a -> is_std l b -> a = b.
Proof.
  intros L (m & M & A & E) (m' & M' & B & E'). assert (m' = m) as -> by (apply (is_mean_unique l); auto; intros ->; cbn in L; lia). assert (2 <= INR (length l)) by (change 2 with (INR 2); apply le_INR; lia).
  assert (a * a = b * b). { apply (Rmult_eq_reg_r (INR (length l) - 1)); lra. } apply Rsqr_inj; auto.
Qed.
Theorem C84_gaussian : forall p d x w s, shape d x w -> (2 <= length (concat w))%nat -> wc_type p = CGauss -> 0 < wc_sigma p -> is_std (concat w) s ->
  (0 < s -> clipped_at d x (limited (wc_fix p) (s * wc_sigma p)) w (clip_weights p w)) /\ (s = 0 -> clip_weights p w = w).
Proof.
  intros p d x w s S L T Sg H. assert (E : cl_std w = s) by (apply (is_std_unique (concat w)); auto; now apply std_is_std).
  assert (V : clip_value p w = limited (wc_fix p) (s * wc_sigma p)) by (unfold clip_value; rewrite T; cbv zeta; now rewrite limited_eq, E).
  unfold clip_weights. rewrite T. destruct (clipper_spec p d x w _ S V) as [A B]. split; intros Hs.
  - apply A. pose proof (Rmult_lt_0_compat _ _ Hs Sg). unfold limited. destruct (Rlt_dec 0 (wc_fix p)); mm.
  - apply B. subst s. rewrite Hs, Rmult_0_l. unfold limited. destruct (Rlt_dec 0 (wc_fix p)); mm.
Qed.
(** C84: clipping a clipped matrix again at the same value changes nothing; the order of two
    weights is kept *)
Theorem C84_idempotent : forall d x c w w' w'', shape d x w -> 0 <= c -> clipped_at d x c w w' -> clipped_at d x c w' w'' -> w'' = w'.
Proof.
  intros d x c w w' w'' S C H1 H2. apply clipped_at_eq in H1; auto. subst w'. apply clipped_at_eq in H2; auto; [|now apply shape_map]. subst w''.
  unfold clip_mat. rewrite map_map. apply map_ext. intros r. rewrite map_map. apply map_ext. intros v. mm.
Qed.
Theorem C84_order : forall d x c w w' i j k l, shape d x w -> 0 <= c -> clipped_at d x c w w' -> (i < d)%nat -> (k < d)%nat -> (j < x)%nat -> (l < x)%nat ->
  ent w i j <= ent w k l -> ent w' i j <= ent w' k l /\ Rabs (ent w' i j) <= c /\ Rabs (ent w' i j) <= Rabs (ent w i j).
Proof.
  intros d x c w w' i j k l S C H Hi Hk Hj Hl O. apply clipped_at_eq in H; auto. subst w'. unfold clip_mat. rewrite !(ent_map _ _ d x) by auto. split; [|split]; mm.
Qed.
(** C84: clipping at the average of the channel maxima leaves the weights alone exactly if all
    channels have the same maximum; else it goes on shrinking them step by step *)
Lemma sum_all_ge (l : vec) c : (forall v, In v l -> v <= c) -> sumR l = c * INR (length l) -> forall v, In v l -> v = c.
Proof.
  induction l as [|a l IH]; [contradiction|]. intros U E v Hv. cbn [length sumR] in E. rewrite S_INR in E.
  assert (Sl : sumR l <= c * INR (length l)).
  { clear E IH Hv. assert (U' : forall v, In v l -> v <= c) by (intros; apply U; now right). clear U. induction l as [|b l IH2]; [cbn; lra|]. cbn [length sumR]. rewrite S_INR. pose proof (U' b (or_introl eq_refl)). assert (sumR l <= c * INR (length l)) by (apply IH2; intros; apply U'; now right). lra. }
  assert (Ua : a <= c) by (apply U; now left). assert (a = c) by lra. destruct Hv as [<- | Hv]; auto. apply IH; auto; [intros; apply U; now right | lra].
Qed.
Lemma sum_all_same (l : vec) c : (forall v, In v l -> v = c) -> sumR l = c * INR (length l).
Proof. induction l as [|a l IH]; intros H; [cbn; lra|]. cbn [length sumR]. rewrite S_INR, IH by (intros; apply H; now right). rewrite (H a (or_introl eq_refl)). lra. Qed.
Lemma sum_zero (l : vec) : (forall v, In v l -> 0 <= v) -> sumR l = 0 -> forall v, In v l -> v = 0.
Proof.
  assert (N : forall l : vec, (forall v, In v l -> 0 <= v) -> 0 <= sumR l).
  { clear l. induction l as [|a l IH]; intros P; cbn [sumR]; [lra|]. pose proof (P a (or_introl eq_refl)). assert (0 <= sumR l) by (apply IH; intros; apply P; now right). lra. }
  induction l as [|a l IH]; [contradiction|]. intros P E v Hv. cbn [sumR] in E. pose proof (P a (or_introl eq_refl)). assert (Pl : forall v, In v l -> 0 <= v) by (intros; apply P; now right). pose proof (N l Pl).
  destruct Hv as [<- | Hv]; [lra|]. apply IH; auto. lra.
Qed.
Theorem C84_average_fixpoint : forall p d x w ms, shape d x w -> (0 < d)%nat -> wc_type p = CAvgMax -> wc_fix p <= 0 -> Forall2 is_absmax w ms ->
  clip_weights p w = w <-> (exists c, forall m, In m ms -> m = c).
Proof.
  intros p d x w ms S D T Fx F. assert (N : INR d <> 0) by (apply not_0_INR; lia). assert (Lm : length ms = d) by (rewrite (absmax_rows _ _ F), map_length; now destruct S).
  set (c := sumR ms / INR d). assert (E : is_mean ms c) by (unfold is_mean, c; rewrite Lm; field; auto).
  assert (Lc : limited (wc_fix p) c = c) by (unfold limited; destruct (Rlt_dec 0 (wc_fix p)); lra).
  assert (C0 : 0 <= c). { unfold c. rewrite (absmax_rows _ _ F). destruct S as [<- _]. apply mean_pos. }
  destruct (C84_average p d x w ms c S D T F E) as [A B]. rewrite Lc in A. split.
  - intros W. exists c. apply sum_all_ge; [|unfold is_mean in E; rewrite <- E; reflexivity].
    intros m Hm. destruct (Rle_lt_dec m c) as [L | L]; auto. exfalso. assert (C1 : 0 < c).
    { destruct (Rlt_dec 0 c) as [ | Nc]; auto. exfalso. assert (c = 0) as Ec by lra. unfold is_mean in E. rewrite Ec, Rmult_0_l in E. assert (P : forall v, In v ms -> 0 <= v) by (intros v Hv; rewrite (absmax_rows _ _ F) in Hv; apply in_map_iff in Hv as (r & <- & _); apply maxabs_nonneg).
      rewrite (sum_zero ms P (eq_sym E) m Hm) in L. lra. }
    specialize (A C1). rewrite W in A. rewrite (absmax_rows _ _ F) in Hm. apply in_map_iff in Hm as (r & Em & Hr). assert (Hne : r <> []).
    { intros ->. cbn in Em. lra. }
    destruct (maxabs_attained r Hne) as (v & Hv & Ev). apply (In_nth _ _ []) in Hr as (i & Hi & Er). apply (In_nth _ _ 0) in Hv as (j & Hj & Evj). assert (Hid : (i < d)%nat) by (destruct S; lia).
    assert (Hjx : (j < x)%nat) by (rewrite <- Er in Hj; now rewrite (shape_row d x) in Hj by auto).
    destruct A as [_ A]. destruct (A i j Hid Hjx) as (_ & A1 & A2). assert (V : ent w i j = v) by (unfold ent; now rewrite Er). rewrite V in *. destruct (Rabs_cases v) as [[? Hva] | [? Hva]]; rewrite Hva in Ev; [assert (v = c) by (apply A1; lra) | assert (v = - c) by (apply A2; lra)]; lra.
  - intros (c0 & H). assert (c = c0). { unfold c. rewrite (sum_all_same ms c0 H), Lm. field; auto. } subst c0.
    destruct (Rle_lt_dec c 0) as [L | L]; [now apply B|]. specialize (A L). apply (C84_idempotent d x c w w); auto.
    + split; auto. intros i j Hi Hj. assert (U : Rabs (ent w i j) <= c).
      { assert (In (maxabs (nth i w [])) ms) as Hm by (rewrite (absmax_rows _ _ F); apply in_map, nth_In; destruct S; lia). rewrite <- (H _ Hm). apply maxabs_upper. apply nth_In. now rewrite (shape_row d x). }
      repeat split; intros; mm.
Qed.
Theorem C84_nontrivial : exists p w, shape 2 1 w /\ wc_type p = CAvgMax /\ Forall2 is_absmax w [1; 3] /\ is_mean [1; 3] 2 /\ clip_weights p w = [[1]; [-2]].
Proof.
  exists {| wc_type := CAvgMax; wc_fix := -1; wc_sigma := 5/2 |}, [[1]; [-3]]. assert (F : Forall2 is_absmax [[1]; [-3]] [1; 3]).
  { constructor; [|constructor; [|constructor]]; (split; [intros v [<- | []]; mm | eexists; split; [now left|]; mm]). }
  assert (S : shape 2 1 [[1]; [-3]]) by (split; [reflexivity | repeat constructor]). assert (E : is_mean [1; 3] 2) by (unfold is_mean; cbn; lra).
  split; [exact S|]. split; [reflexivity|]. split; [exact F|]. split; [exact E|].
  destruct (C84_average {| wc_type := CAvgMax; wc_fix := -1; wc_sigma := 5/2 |} 2 1 _ _ 2 S ltac:(lia) eq_refl F E) as [A _]. specialize (A ltac:(lra)).
  assert (L : limited (-1) 2 = 2) by (unfold limited; destruct (Rlt_dec 0 (-1)); lra). cbn [wc_fix] in A. rewrite L in A. apply clipped_at_eq in A; auto; [|lra]. rewrite A. unfold clip_mat. cbn [map]. repeat f_equal; mm.
Qed.

(** C85: the clipping of the torch tile agrees with that of the simulator tile when the
    threshold is positive *)
Theorem C85_agree : forall p d x w, shape d x w -> (2 <= length (concat w))%nat ->
  (wc_type p = CFixed /\ 0 <= wc_fix p) \/ (wc_type p = CGauss /\ 0 < wc_sigma p /\ 0 < cl_std w) -> torch_clip p w = Ok (clip_weights p w).
Proof.
  intros p d x w S L [(T & H) | (T & Sg & St)]; unfold torch_clip, clip_weights; rewrite T.
  - unfold device_clip. now rewrite (proj2 (Rleb_true _ _) H).
  - unfold clipper_apply, clip_value. rewrite T. cbv zeta. rewrite limited_eq. pose proof (Rmult_lt_0_compat _ _ St Sg). assert (P : 0 < limited (wc_fix p) (cl_std w * wc_sigma p)) by (unfold limited; destruct (Rlt_dec 0 (wc_fix p)); mm).
    rewrite (proj2 (Rltb_true _ _) P). do 2 f_equal. unfold limited, Rltb. destruct (Rlt_dec 0 (wc_fix p)); [apply Rmin_comm | reflexivity].
Qed.
(** The default fixed value is negative: the simulator tile then does not clip, the torch tile
    replaces every weight by that value. *)
Theorem C85_negative_refuted : forall p d x w, shape d x w -> wc_type p = CFixed -> wc_fix p < 0 ->
  clip_weights p w = w /\ exists w', torch_clip p w = Ok w' /\ forall i j, (i < d)%nat -> (j < x)%nat -> ent w' i j = wc_fix p.
Proof.
  intros p d x w S T H. split; [now apply (C84_fixed p d x w S T)|]. unfold torch_clip. rewrite T. eexists. split; [reflexivity|]. intros i j Hi Hj. unfold clip_mat. rewrite (ent_map _ _ d x) by auto. mm.
Qed.
(** When all weights are equal the standard deviation is 0: the simulator tile does not clip,
    the torch tile sets all weights to 0. *)
Lemma const_std w c : (forall v, In v (concat w) -> v = c) -> concat w <> [] -> cl_std w = 0.
Proof.
  intros H N. assert (M : cl_mean w = c). { unfold cl_mean. rewrite (sum_all_same _ _ H). field. apply not_0_INR. destruct (concat w); [congruence | cbn; lia]. }
  unfold cl_std. cbv zeta. rewrite M. rewrite (map_ext_in _ (fun _ => 0)) by (intros v Hv; rewrite (H v Hv); unfold Rdiv; rewrite Rminus_eq_0; ring). rewrite sumR_const, Rmult_0_r. apply sqrt_0.
Qed.
Theorem C85_constant_refuted : forall p d x w c, shape d x w -> (2 <= length (concat w))%nat -> wc_type p = CGauss -> wc_fix p <= 0 ->
  (forall i j, (i < d)%nat -> (j < x)%nat -> ent w i j = c) ->
  clip_weights p w = w /\ exists w', torch_clip p w = Ok w' /\ forall i j, (i < d)%nat -> (j < x)%nat -> ent w' i j = 0.
Proof.
  intros p d x w c S L T Fx H. assert (E : cl_std w = 0). { apply (const_std w c); [|intros E; rewrite E in L; cbn in L; lia]. intros v Hv. apply (in_ent d x) in Hv as (i & j & Hi & Hj & ->); auto. }
  assert (Z : Rltb 0 (wc_fix p) = false) by (apply Rltb_false; lra). split.
  - unfold clip_weights. rewrite T. unfold clipper_apply, clip_value. rewrite T. cbv zeta. rewrite Z, E, Rmult_0_l. now rewrite (proj2 (Rltb_false 0 0) ltac:(lra)).
  - unfold torch_clip. rewrite T. cbv zeta. rewrite Z, E, Rmult_0_l. eexists. split; [reflexivity|]. intros i j Hi Hj. unfold clip_mat. rewrite (ent_map _ _ d x) by auto. mm.
Qed.
Theorem C85_unsupported : forall p w, wc_type p = CAvgMax -> torch_clip p w = Raise NotImplementedError.
Proof. intros p w T. unfold torch_clip. now rewrite T. Qed.

Print Assumptions C84_fixed.
Print Assumptions C84_average.
Print Assumptions C84_gaussian.
Print Assumptions C84_idempotent.
Print Assumptions C84_order.
Print Assumptions C84_average_fixpoint.
Print Assumptions C84_nontrivial.
Print Assumptions C85_agree.
Print Assumptions C85_negative_refuted.
Print Assumptions C85_constant_refuted.
Print Assumptions C85_unsupported.
