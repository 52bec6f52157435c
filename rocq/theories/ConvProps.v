(** * Conductance converters: the theorems *)
From Verif Require Import Prelude PeriModel PeriSpec ConvModel ConvProofs.

(** C28: single pair: converting to conductances and back is the identity, conductances
    are within [[g_min, g_max]], one device of each pair is at [g_min], and the range is
    used completely (the largest weight is at [g_max]). *)
Theorem C28_single_pair : forall g_max g_min c w, sp_new g_max g_min = Ok c ->
  exists gp gm ratio, sp_to c w = ([gp; gm], ratio)
  /\ sp_back c [gp; gm] ratio = Ok w
  /\ (forall v, In v gp \/ In v gm -> g_min <= v <= g_max)
  /\ (forall i, (i < length w)%nat -> nth i gp 0 = g_min \/ nth i gm 0 = g_min)
  /\ (zero_clip <= maxabs w -> In g_max gp \/ In g_max gm).
Proof.
  intros gmax gmin c w H. unfold sp_new in H. apply check_g_ok in H as [Hg H]. injection H as <-.
  unfold sp_to. cbn [sp_gmax sp_gmin]. set (ratio := (gmax - gmin) / Rmax (maxabs w) zero_clip).
  pose proof zero_clip_pos as Zc. pose proof (Rmax_r (maxabs w) zero_clip) as Zr.
  assert (Rp : 0 < ratio) by (apply Rdiv_lt_0_compat; lra).
  assert (P : forall v, In v w -> let s := v * ratio in
     let gp := clampR 0 gmax s + gmin in let gm := clampR 0 gmax (- s) + gmin in
     (gp - gmin) - (gm - gmin) = s /\ gmin <= gp <= gmax /\ gmin <= gm <= gmax /\ (gp = gmin \/ gm = gmin)).
  { intros v Hv s. apply sp_point; auto. apply scaled_bound; auto; lra. }
  rewrite !map_map. eexists _, _, _. split; [reflexivity|]. split; [|split; [|split]].
  - simpl. f_equal. rewrite map2_map. rewrite <- (map_id w) at 2. apply map_ext_in. intros v Hv.
    destruct (P v Hv) as [E _]. cbn zeta in E. rewrite E. field. lra.
  - intros v [Hv|Hv]; apply in_map_iff in Hv as [x [<- Hx]]; apply P; auto.
  - intros i Hi.
    rewrite (nth_indep _ 0 ((fun v => clampR 0 gmax (v * ratio) + gmin) 0)) by (rewrite map_length; auto).
    rewrite (map_nth (fun v => clampR 0 gmax (v * ratio) + gmin)).
    rewrite (nth_indep (map (fun v => clampR 0 gmax (- (v * ratio)) + gmin) w) 0 ((fun v => clampR 0 gmax (- (v * ratio)) + gmin) 0)) by (rewrite map_length; auto).
    rewrite (map_nth (fun v => clampR 0 gmax (- (v * ratio)) + gmin)). apply P. now apply nth_In.
  - intros Hm. destruct (maxabs_attained w) as [x [Hx Ex]].
    { intros ->. simpl in Hm. lra. }
    assert (E : Rabs x * ratio = gmax - gmin).
    { unfold ratio. rewrite Rmax_left by auto. rewrite Ex. field. lra. }
    destruct (Rabs_cases x) as [[A B]|[A B]]; rewrite B in E; [left|right]; apply in_map_iff; exists x; (split; auto).
    + rewrite E. unfold clampR. mm.
    + replace (- (x * ratio)) with (- x * ratio) by ring. rewrite E. unfold clampR. mm.
Qed.
Example C28_nonvacuous : exists c, sp_new 25 0 = Ok c.
Proof. unfold sp_new, check_g. repeat rcase; try lra. eauto. Qed.

(** C29: N pairs with positive significances: identity, ranges, and a more significant
    pair is used only when the less significant one is exhausted. *)
Theorem C29_n_pairs : forall f g_max g_min c w, np_new f g_max g_min = Ok c -> Forall (fun x => 0 < x) f ->
  exists g ratio, np_to c w = Ok (g, ratio) /\ length g = (2 * length f)%nat
  /\ (w <> [] -> np_back c g ratio = Ok w)
  /\ (forall s v, In s g -> In v s -> g_min <= v <= g_max)
  /\ (forall k i, (k < length f)%nat -> (i < length w)%nat ->
        nth i (nth (2 * k) g []) 0 = g_min \/ nth i (nth (2 * k + 1) g []) 0 = g_min)
  /\ (forall k i, (S k < length f)%nat -> (i < length w)%nat ->
        (g_min < nth i (nth (2 * S k) g []) 0 -> nth i (nth (2 * k) g []) 0 = g_max)
        /\ (g_min < nth i (nth (2 * S k + 1) g []) 0 -> nth i (nth (2 * k + 1) g []) 0 = g_max)).
Proof.
  intros f gmax gmin c w H F. unfold np_new in H. destruct f as [|f0 fr] eqn:Ef; [discriminate|]. rewrite <- Ef in *.
  assert (Fn : f <> []) by (rewrite Ef; discriminate). clear Ef f0 fr.
  destruct (Rltb (maxlist f) 0); [discriminate|]. apply check_g_ok in H as [Hg H]. injection H as <-.
  unfold np_to. cbn [np_f np_gmax np_gmin].
  assert (Ez : existsb (fun f => Reqb f 0) f = false).
  { clear -F. induction F; simpl; auto. rewrite IHF, orb_false_r. apply Reqb_false. lra. }
  rewrite Ez. set (c := {| np_f := f; np_gmax := gmax; np_gmin := gmin |}).
  set (G := gmax - gmin). assert (HG : 0 < G) by (unfold G; lra).
  pose proof (sumf_pos G f HG F Fn) as Sp. set (S0 := sumR (map (fun x => x * G) f)) in *.
  set (ratio := S0 / Rmax (maxabs w) zero_clip). pose proof zero_clip_pos as Zc. pose proof (Rmax_r (maxabs w) zero_clip) as Zr.
  assert (Rp : 0 < ratio) by (apply Rdiv_lt_0_compat; lra).
  assert (Hw : forall v, In v (map (Rmult ratio) w) -> Rabs v <= S0).
  { intros v Hv. apply in_map_iff in Hv as [x [<- Hx]]. rewrite Rmult_comm. apply scaled_bound; auto; lra. }
  assert (Lw : length (map (Rmult ratio) w) = length w) by apply map_length.
  exists (np_loop c (map (Rmult ratio) w) f 0), ratio. split; [reflexivity|].
  split; [apply np_loop_length|]. set (wu := map (Rmult ratio) w) in *.
  assert (Range : forall x lower y, gmin <= np_dev c x lower y <= gmax) by (intros; apply clampR_range; simpl; lra).
  split; [|split; [|split]].
  - intros Wn. unfold np_back. rewrite np_loop_length. replace (Nat.odd (2 * length f)) with false by (symmetry; rewrite Nat.odd_mul; reflexivity).
    destruct (np_loop c wu f 0) as [|g0 gs] eqn:E. { apply (f_equal (@length _)) in E. rewrite np_loop_length in E. destruct f; simpl in *; [congruence|lia]. }
    assert (E0 : map (fun _ : R => 0) g0 = map (fun _ => 0) wu).
    { destruct f as [|f1 fs]; [congruence|]. simpl in E. injection E as <- _. rewrite map_map. reflexivity. }
    rewrite <- E. rewrite (proj2 (Reqb_false _ _)) by lra. f_equal. rewrite E0. cbn [np_f c].
    rewrite (np_sum c wu ltac:(simpl; lra)) by auto.
    rewrite map_map. unfold wu. rewrite map_map. rewrite <- (map_id w) at 2. apply map_ext_in. intros v Hv.
    cbn [np_gmax np_gmin c]. fold G. rewrite !used_val by auto. fold S0.
    assert (B : Rabs (ratio * v) <= S0) by (apply Hw; now apply in_map).
    assert (X : 0 + (Rmin (Rmax (Rmax (ratio * v) 0 - 0) 0) S0 - Rmin (Rmax (Rmax (- (ratio * v)) 0 - 0) 0) S0) = ratio * v).
    { revert B. generalize (ratio * v). intros y B. mm. }
    rewrite X. field. lra.
  - intros s v Hs Hv. assert (Gen : forall fs lower, In s (np_loop c wu fs lower) -> gmin <= v <= gmax).
    { induction fs as [|f1 fs IH]; intros lower Hin; simpl in Hin; [easy|]. destruct Hin as [<- | [<- | Hin]]; [| |eauto];
        apply in_map_iff in Hv as [y [<- _]]; apply Range. }
    eapply Gen; eauto.
  - intros k i Hk Hi. destruct (np_loop_nth c wu f 0 k Hk) as [A B]. cbn [np_gmax np_gmin c] in A, B. fold G in A, B.
    rewrite A, B. set (lower := 0 + sumR _).
    assert (Lp : 0 <= lower).
    { unfold lower. rewrite Rplus_0_l. clear -F HG. revert f F. induction k; intros f F; [simpl; lra|]. destruct F; simpl; [lra|].
      pose proof (IHk _ F). pose proof (Rmult_lt_0_compat _ _ H HG). lra. }
    set (fk := nth k f 0). assert (Fk : 0 < fk). { unfold fk. rewrite Forall_forall in F. apply F. now apply nth_In. }
    rewrite (nth_indep _ 0 (np_dev c fk lower 0)) by (rewrite map_length, Lw; auto). rewrite (map_nth (np_dev c fk lower)).
    rewrite (nth_indep (map (fun v => np_dev c fk lower (- v)) wu) 0 ((fun v => np_dev c fk lower (- v)) 0)) by (rewrite map_length, Lw; auto).
    rewrite (map_nth (fun v => np_dev c fk lower (- v))).
    set (x := nth i wu 0). destruct (Rle_dec x 0); [left|right]; unfold np_dev; cbn [np_gmin np_gmax c].
    + rewrite Rmax_right by lra. assert ((0 - lower) / fk <= 0).
      { unfold Rdiv. rewrite <- (Rmult_0_l (/ fk)). apply Rmult_le_compat_r; [apply Rlt_le, Rinv_0_lt_compat; auto|lra]. }
      unfold clampR. mm.
    + rewrite Rmax_right by lra. assert ((0 - lower) / fk <= 0).
      { unfold Rdiv. rewrite <- (Rmult_0_l (/ fk)). apply Rmult_le_compat_r; [apply Rlt_le, Rinv_0_lt_compat; auto|lra]. }
      unfold clampR. mm.
  - intros k i Hk Hi.
    destruct (np_loop_nth c wu f 0 (S k) Hk) as [A1 B1]. destruct (np_loop_nth c wu f 0 k ltac:(lia)) as [A0 B0].
    cbn [np_gmax np_gmin c] in A0, B0, A1, B1. fold G in A0, B0, A1, B1. rewrite A0, B0, A1, B1.
    assert (Es : sumR (map (fun f => f * G) (firstn (S k) f)) = sumR (map (fun f => f * G) (firstn k f)) + nth k f 0 * G).
    { clear -Hk. revert f Hk. induction k; intros [|a f] Hk; simpl in Hk; try lia; [simpl; lra|].
      change (firstn (S (S k)) (a :: f)) with (a :: firstn (S k) f). change (firstn (S k) (a :: f)) with (a :: firstn k f).
      cbn [map sumR nth]. rewrite IHk by lia. ring. }
    rewrite Es. set (lower := 0 + sumR (map (fun f => f * G) (firstn k f))). 
    set (fk := nth k f 0). set (fk1 := nth (S k) f 0).
    assert (Fk : 0 < fk). { unfold fk. rewrite Forall_forall in F. apply F, nth_In. lia. }
    assert (Fk1 : 0 < fk1). { unfold fk1. rewrite Forall_forall in F. apply F, nth_In. lia. }
    assert (Key : forall y, gmin < np_dev c fk1 (0 + (sumR (map (fun f => f * G) (firstn k f)) + fk * G)) y -> np_dev c fk lower y = gmax).
    { intros y Hy. unfold np_dev in *. cbn [np_gmin np_gmax c] in *. set (z := Rmax y 0) in *.
      assert (Z1 : 0 < (z - (0 + (sumR (map (fun f => f * G) (firstn k f)) + fk * G))) / fk1).
      { revert Hy. unfold clampR. set (q := _ / fk1). mm. }
      assert (Z2 : 0 < z - (0 + (sumR (map (fun f => f * G) (firstn k f)) + fk * G))).
      { apply Rmult_lt_compat_r with (r := fk1) in Z1; auto. unfold Rdiv in Z1. rewrite Rmult_assoc, Rinv_l, Rmult_1_r, Rmult_0_l in Z1 by lra. exact Z1. }
      assert (Z3 : G < (z - lower) / fk).
      { apply Rmult_lt_reg_r with fk; auto. unfold Rdiv. rewrite Rmult_assoc, Rinv_l by lra. unfold lower. lra. }
      unfold clampR. set (q := (z - lower) / fk) in *. unfold G in Z3. mm. }
    split; intros Hy.
    + rewrite (nth_indep _ 0 (np_dev c fk lower 0)) by (rewrite map_length, Lw; auto). rewrite (map_nth (np_dev c fk lower)).
      apply Key. rewrite (nth_indep _ 0 (np_dev c fk1 (0 + (sumR (map (fun f => f * G) (firstn k f)) + fk * G)) 0)) in Hy by (rewrite map_length, Lw; auto).
      rewrite (map_nth (np_dev c fk1 _)) in Hy. exact Hy.
    + rewrite (nth_indep _ 0 ((fun v => np_dev c fk lower (- v)) 0)) by (rewrite map_length, Lw; auto). rewrite (map_nth (fun v => np_dev c fk lower (- v))).
      apply Key. rewrite (nth_indep _ 0 ((fun v => np_dev c fk1 (0 + (sumR (map (fun f => f * G) (firstn k f)) + fk * G)) (- v)) 0)) in Hy by (rewrite map_length, Lw; auto).
      rewrite (map_nth (fun v => np_dev c fk1 _ (- v))) in Hy. exact Hy.
Qed.
Example C29_nonvacuous : (exists c, dual_new [1; 3] 25 0 = Ok c) /\ Forall (fun x => 0 < x) [1; 3].
Proof.
  split; [|repeat constructor; lra]. unfold dual_new, np_new, check_g, maxlist. simpl. repeat rcase; try lra; eauto.
  exfalso. revert Hlt. mm.
Qed.
(** The constructor is meant to refuse negative significances but checks only the
    largest one; then weights change in the round trip. *)
Theorem C29_negative_factor_refuted :
  ~ (forall f g_max g_min c w, np_new f g_max g_min = Ok c -> w <> [] ->
       exists g ratio, np_to c w = Ok (g, ratio) /\ np_back c g ratio = Ok w).
Proof.
  intros H. set (c := {| np_f := [1; -2]; np_gmax := 1; np_gmin := 0 |}). destruct (H [1; -2] 1 0 c [1]) as (g & r & A & B).
  - unfold np_new, check_g. simpl. replace (Rmax 1 (-2)) with 1 by mm. repeat rcase; try lra. reflexivity.
  - discriminate.
  - unfold np_to in A. cbn [np_f np_gmax np_gmin existsb map sumR fst snd c] in A.
    rewrite (proj2 (Reqb_false 1 0)), (proj2 (Reqb_false (-2) 0)) in A by lra. simpl orb in A. cbv iota in A.
    assert (M : Rmax (maxabs [1]) zero_clip = 1) by (unfold maxabs, zero_clip; simpl; mm).
    rewrite M in A. set (rr := (1 * (1 - 0) + (-2 * (1 - 0) + 0)) / 1) in A.
    assert (Er : rr = -1) by (unfold rr; field). injection A as <- <-. clearbody rr. subst rr.
    fold c in B. unfold np_back in B. cbn in B. rewrite (proj2 (Reqb_false (-1) 0)) in B by lra.
    injection B as B1.
    assert (X1 : np_dev c 1 0 (-1 * 1) = 0) by (unfold np_dev, clampR; simpl; mm).
    assert (X2 : np_dev c 1 0 (- (-1 * 1)) = 1) by (unfold np_dev, clampR; simpl; mm).
    assert (X3 : np_dev c (-2) (0 + 1 * (1 - 0)) (-1 * 1) = 1/2).
    { unfold np_dev, clampR. simpl. replace ((Rmax (-1 * 1) 0 - (0 + 1 * (1 - 0))) / -2) with (1/2 - Rmax (-1 * 1) 0 / 2) by field. mm. }
    assert (X4 : np_dev c (-2) (0 + 1 * (1 - 0)) (- (-1 * 1)) = 0).
    { unfold np_dev, clampR. simpl. replace ((Rmax (- (-1 * 1)) 0 - (0 + 1 * (1 - 0))) / -2) with (1/2 - Rmax (- (-1 * 1)) 0 / 2) by field. mm. }
    rewrite X1, X2, X3, X4 in B1. lra.
Qed.

(** C30: the custom converter is exact for every weight tensor if its conductance table
    represents a linear function of the weight. *)
Lemma maxabs_grid m n : 0 < m -> (1 < n)%nat -> maxabs (grid m n) = m.
Proof.
  intros Hm Hn. apply Rle_antisym.
  - assert (U : forall v, In v (grid m n) -> Rabs v <= m).
    { intros v Hv. unfold grid in Hv. apply in_map_iff in Hv as [k [<- Hk]]. apply in_seq in Hk.
      assert (P : 0 < INR (n - 1)) by (apply lt_0_INR; lia).
      assert (K : 0 <= INR k / INR (n - 1) <= 1).
      { split; [apply Rmult_le_pos; [apply pos_INR|apply Rlt_le, Rinv_0_lt_compat; auto]|].
        apply Rmult_le_reg_r with (INR (n - 1)); auto. unfold Rdiv. rewrite Rmult_assoc, Rinv_l, Rmult_1_r, Rmult_1_l by lra. apply le_INR. lia. }
      replace (2 * m * INR k / INR (n - 1)) with (2 * m * (INR k / INR (n - 1))) by (field; lra).
      set (q := INR k / INR (n - 1)) in *.
      assert (0 <= m * q <= m). { split; [apply Rmult_le_pos; lra|]. rewrite <- (Rmult_1_r m) at 2. apply Rmult_le_compat_l; lra. }
      apply Rabs_le. lra. }
    revert U. generalize (grid m n). intros l. induction l as [|a l IH]; intros U; simpl; [lra|].
    apply Rmax_lub; [apply U; simpl; auto|]. apply IH. intros v Hv. apply U. simpl; auto.
  - destruct (grid_head m n Hn) as [xs ->]. replace m with (Rabs (- m)) at 1 by mm. apply maxabs_ub. simpl; auto.
Qed.
(** the interpolated pairs combine to the interpolation of the combination *)
Lemma interp_const0 xs x : interp xs (map (fun _ => 0) xs) x = 0.
Proof.
  destruct xs as [|x0 xs]; simpl; auto. rcase; auto. clear. revert x0. induction xs as [|x1 xs IH]; intros x0; simpl; auto.
  rcase; [unfold Rdiv; ring|auto].
Qed.
Lemma sum_pairs_interp xs w : forall fs (gs : list vec) (a : vec), Forall (fun g => length g = length xs) gs -> length a = length xs ->
  sum_pairs (map (interp xs a) w) fs (pairs (map (fun g => map (interp xs g) w) gs))
  = map (interp xs (sum_pairs a fs (pairs gs))) w.
Proof.
  intros fs. induction fs as [|f fs IH]; intros gs a Hg Ha.
  - destruct gs as [|g1 [|g2 gs]]; reflexivity.
  - destruct gs as [|g1 [|g2 gs]]; try reflexivity. simpl. inversion Hg as [|? ? H1 H2]; subst. inversion H2 as [|? ? H3 H4]; subst.
    assert (L2 : length (map2 (fun u v => f * (u - v)) g1 g2) = length xs) by (rewrite map2_length; lia).
    rewrite map2_map, vadd_map. rewrite <- IH; auto.
    2: { unfold vadd. rewrite map2_length. lia. }
    f_equal. apply map_ext. intros x.
    assert (E1 : vadd a (map2 (fun u v => f * (u - v)) g1 g2) = map2 (fun u v => u + (- f) * v) (map2 (fun u v => u + f * v) a g1) g2).
    { clear -H1 H3 Ha. revert a g1 g2 Ha H1 H3. induction xs as [|x0 xs IHx]; intros [|a0 a] [|b0 b] [|d0 d]; simpl; intros; try lia; auto.
      unfold vadd in *. simpl. f_equal; [ring|]. apply IHx; lia. }
    rewrite E1. rewrite interp_lin by (rewrite ?map2_length; lia). rewrite interp_lin by lia. ring.
Qed.
Theorem C30_custom_linear : forall f g g_max g_min c m n w,
  cp_new f g g_max g_min false = Ok c -> (1 < n)%nat -> 0 < m -> g <> [] ->
  Forall (fun l => length l = n) g ->
  (forall k, (k < n)%nat -> nth k (cp_us c) 0 = - m + 2 * m * INR k / INR (n - 1)) -> w <> [] ->
  exists cond ratio, cp_to c w = Ok (cond, ratio) /\ cp_back c cond ratio = Ok w.
Proof.
  intros f g gmax gmin c m n w H Hn Hm Gn Lg Us Wn. unfold cp_new in H. destruct (Nat.odd (length g)) eqn:Odd; [discriminate|].
  destruct (Nat.eqb (2 * length f) (length g)) eqn:Lf; [|discriminate]. simpl in H. apply check_g_ok in H as [Hg H]. injection H as <-.
  apply Nat.eqb_eq in Lf.
  set (c := {| cp_f := f; cp_g := g |}) in *. assert (Eg' : exists g0 gr, g = g0 :: gr) by (destruct g; [congruence|eauto]). destruct Eg' as (g0 & gr & Eg).
  assert (L0 : length g0 = n) by (rewrite Eg in Lg; now inversion Lg).
  assert (Lus : length (cp_us c) = n).
  { unfold cp_us. cbn [cp_g cp_f c]. rewrite Eg at 1.
    assert (Gen : forall fs (gs : list vec) (a : vec), Forall (fun l => length l = n) gs -> length a = n -> length (sum_pairs a fs (pairs gs)) = n).
    { clear. intros fs. induction fs as [|f fs IH]; intros gs a Hgs Ha; [simpl; auto|]. destruct gs as [|g1 [|g2 gs]]; simpl; auto.
      inversion Hgs as [|? ? H1 H2]; subst. inversion H2 as [|? ? H3 H4]; subst.
      apply IH; auto. unfold vadd. rewrite !map2_length. lia. }
    apply Gen; auto. rewrite map_length. auto. }
  assert (EU : cp_us c = grid m n).
  { apply nth_ext with 0 0. { rewrite Lus. unfold grid. now rewrite map_length, seq_length. }
    intros k Hk. rewrite Lus in Hk. rewrite Us by auto. unfold grid.
    rewrite (nth_indep _ 0 (- m + 2 * m * INR 0 / INR (n - 1))) by (rewrite map_length, seq_length; auto).
    rewrite (map_nth (fun k => - m + 2 * m * INR k / INR (n - 1)) (seq 0 n) 0%nat). rewrite seq_nth by auto. reflexivity. }
  assert (Fl : forallb (fun l : list R => Nat.eqb (length l) (length g0)) g = true).
  { apply forallb_forall. intros x Hx. rewrite Forall_forall in Lg. apply Nat.eqb_eq. rewrite L0. auto. }
  pose proof zero_clip_pos as Zc. pose proof (Rmax_r (maxabs w) zero_clip) as Zr. set (mw := Rmax (maxabs w) zero_clip) in *.
  set (r := m / mw). assert (Rp : 0 < r) by (apply Rdiv_lt_0_compat; lra).
  assert (T : cp_to c w = Ok (map (fun g2 => map (interp (map (fun v => v / r) (grid m (length g0))) g2) w) g, r)).
  { unfold cp_to. cbn [cp_g c]. rewrite Eg at 1. rewrite Fl. simpl negb. cbv iota. rewrite EU, maxabs_grid by auto. fold mw. fold r.
    rewrite (proj2 (Reqb_false _ _)) by lra. reflexivity. }
  eexists _, _. split; [exact T|].
  unfold cp_back. cbn [cp_f c]. rewrite map_length, Lf, Nat.eqb_refl. simpl negb. cbv iota.
  destruct (map _ g) as [|c0 cr] eqn:Ec. { rewrite Eg in Ec. discriminate. }
  rewrite (proj2 (Reqb_false _ _)) by lra. f_equal. rewrite <- Ec.
  set (xs := map (fun v => v / r) (grid m (length g0))) in *.
  assert (Lx : length xs = n) by (unfold xs, grid; now rewrite !map_length, seq_length).
  assert (E0 : map (fun _ : R => 0) c0 = map (interp xs (map (fun _ => 0) xs)) w).
  { rewrite Eg in Ec. simpl in Ec. injection Ec as <- _. rewrite map_map. apply map_ext. intros x. now rewrite interp_const0. }
  assert (Lg' : Forall (fun l : vec => length l = length xs) g) by (rewrite Lx; exact Lg).
  rewrite E0, sum_pairs_interp by (try exact Lg'; now rewrite map_length).
  assert (E2 : sum_pairs (map (fun _ => 0) xs) f (pairs g) = grid m n).
  { rewrite <- EU. unfold cp_us. cbn [cp_g cp_f c]. rewrite Eg at 2. f_equal.
    assert (Z : forall (a b : vec), length a = length b -> map (fun _ => 0) a = map (fun _ => 0) b).
    { induction a; intros [|y b]; simpl; intros; try lia; auto. f_equal. apply IHa. lia. }
    apply Z. lia. }
  rewrite E2, map_map. rewrite <- (map_id w) at 2. apply map_ext_in. intros v Hv.
  unfold xs. rewrite L0. rewrite interp_grid; auto; [field; lra|].
  replace (m / r) with mw by (unfold r; field; lra). unfold mw. pose proof (maxabs_ub w v Hv). pose proof (Rmax_l (maxabs w) zero_clip). lra.
Qed.
Example C30_nonvacuous : exists c, cp_new [1] [[0; 0; 5]; [5; 0; 0]] 5 0 false = Ok c
  /\ forall k, (k < 3)%nat -> nth k (cp_us c) 0 = - 5 + 2 * 5 * INR k / INR (3 - 1).
Proof.
  unfold cp_new, check_g. simpl. repeat rcase; try lra. eexists. split; [reflexivity|].
  intros [|[|[|k]]] H; simpl; try lra; try lia.
Qed.

(** The constructor's invertibility test does not guarantee this: it checks five points
    only, and accepts tables that change other weights. *)
Ltac evb H := repeat match type of H with
  | context [Rleb ?a ?b] => first [rewrite (proj2 (Rleb_true a b)) in H by lra | rewrite (proj2 (Rleb_false a b)) in H by lra] end.
Ltac evg := repeat match goal with
  | |- context [Rleb ?a ?b] => first [rewrite (proj2 (Rleb_true a b)) by lra | rewrite (proj2 (Rleb_false a b)) by lra] end.
Definition bad_table : cp := {| cp_f := [1]; cp_g := [[0; 0; 0; 4; 2; 5]; [5; 2; 4; 0; 0; 0]] |}.
Lemma bad_us : cp_us bad_table = [0 + 1 * (0 - 5); 0 + 1 * (0 - 2); 0 + 1 * (0 - 4); 0 + 1 * (4 - 0); 0 + 1 * (2 - 0); 0 + 1 * (5 - 0)].
Proof. reflexivity. Qed.
Lemma bad_max : maxabs (cp_us bad_table) = 5.
Proof. rewrite bad_us. unfold maxabs. simpl. mm. Qed.
Lemma bad_grid : map (fun v => v / 5) (grid 5 6) = [-1; -(3/5); -(1/5); 1/5; 3/5; 1].
Proof. unfold grid. simpl. repeat (f_equal; try lra). Qed.
Lemma bad_to w : Rmax (maxabs w) zero_clip = 1 -> cp_to bad_table w =
  Ok ([map (interp [-1; -(3/5); -(1/5); 1/5; 3/5; 1] [0; 0; 0; 4; 2; 5]) w; map (interp [-1; -(3/5); -(1/5); 1/5; 3/5; 1] [5; 2; 4; 0; 0; 0]) w], 5).
Proof.
  intros M. unfold cp_to. cbn [cp_g bad_table]. change (length [0; 0; 0; 4; 2; 5]) with 6%nat. simpl forallb. simpl negb. cbv iota.
  fold bad_table. rewrite bad_max, M. replace (5 / 1) with 5 by lra. rewrite (proj2 (Reqb_false 5 0)) by lra. rewrite bad_grid. reflexivity.
Qed.
Lemma bad_back a b : length a = length b -> a <> [] -> cp_back bad_table [a; b] 5 = Ok (map2 (fun x y => (0 + 1 * (x - y)) / 5) a b).
Proof.
  intros L N. unfold cp_back. simpl. rewrite (proj2 (Reqb_false 5 0)) by lra. f_equal. unfold vadd. clear N.
  revert b L. induction a as [|x a IH]; intros [|y b] L; simpl in *; try lia; auto. f_equal. apply IH. lia.
Qed.
Theorem C30_invertibility_test_refuted :
  ~ (forall f g g_max g_min c w cond ratio w', cp_new f g g_max g_min true = Ok c ->
       cp_to c w = Ok (cond, ratio) -> cp_back c cond ratio = Ok w' -> w' = w).
Proof.
  intros H.
  assert (M : forall w, In 1 w -> (forall v, In v w -> Rabs v <= 1) -> Rmax (maxabs w) zero_clip = 1).
  { intros w H1 Hw. assert (A : maxabs w = 1).
    { apply Rle_antisym.
      - clear H1. induction w as [|a w IH]; simpl; [lra|]. apply Rmax_lub; [apply Hw; simpl; auto|apply IH; intros; apply Hw; simpl; auto].
      - pose proof (maxabs_ub w 1 H1). revert H0. mm. }
    rewrite A. unfold zero_clip. mm. }
  assert (New : cp_new [1] [[0; 0; 0; 4; 2; 5]; [5; 2; 4; 0; 0; 0]] 5 0 true = Ok bad_table).
  { unfold cp_new, check_g. change (Nat.odd _) with false. cbv iota. simpl Nat.eqb. simpl negb. cbv iota.
    rewrite (proj2 (Rltb_false 5 0)), (proj2 (Rltb_false 0 0)), (proj2 (Rleb_false 5 0)) by lra. fold bad_table.
    unfold cp_test. rewrite bad_to. 2: { apply M; simpl; [tauto|]. intros v Hv. repeat (destruct Hv as [<- | Hv]; [mm|]). easy. }
    cbn [bind fst snd]. rewrite bad_back by (try reflexivity; discriminate). cbn [bind].
    unfold test_weights. cbn [map map2 interp interp_seg]. evg.
    unfold allclose. cbn [combine forallb fst snd].
    assert (Close : forall a b, a = b -> Rleb (Rabs (a - b)) (1 / 10 ^ 4 + 1 / 10 ^ 5 * Rabs b) = true).
    { intros a b ->. apply Rleb_true. replace (b - b) with 0 by ring. rewrite Rabs_R0. pose proof (Rabs_pos b).
      assert (0 <= 1 / 10 ^ 5 * Rabs b) by (apply Rmult_le_pos; lra). lra. }
    repeat (rewrite Close by (lra || (field; lra) || field)). reflexivity. }
  assert (Mw : Rmax (maxabs [1; 1/5]) zero_clip = 1).
  { apply M; simpl; [tauto|]. intros v Hv. repeat (destruct Hv as [<- | Hv]; [mm|]). easy. }
  pose proof (bad_to _ Mw) as T. cbn [map] in T.
  match type of T with _ = Ok ([?a; ?b], _) => assert (N : a <> []) by discriminate; pose proof (bad_back a b eq_refl N) as B end.
  pose proof (H _ _ _ _ _ _ _ _ _ New T B) as H0. clear H. rename H0 into H.
  cbn [map map2] in H. injection H as _ H. cbn [interp interp_seg] in H. evb H. field_simplify in H; lra.
Qed.

(** C31: single device: exact unless all weights are equal; the whole range is used. *)
Theorem C31_single_device : forall g_max g_min c w, sp_new g_max g_min = Ok c ->
  (exists a b, In a w /\ In b w /\ a <> b) ->
  exists g p, sd_to c w = Ok (g, p) /\ sd_back c g p = w
  /\ (forall v, In v g -> g_min <= v <= g_max) /\ In g_min g /\ In g_max g.
Proof.
  intros gmax gmin c w H (a & b & Ha & Hb & Ne). unfold sp_new in H. apply check_g_ok in H as [Hg H]. injection H as <-.
  pose proof (minlist_le w a Ha). pose proof (minlist_le w b Hb). pose proof (maxlist_ge w a Ha). pose proof (maxlist_ge w b Hb).
  assert (Wn : w <> []) by (intros ->; easy).
  pose proof (minlist_in w Wn) as Im. pose proof (maxlist_in w Wn) as IM.
  unfold sd_to. cbn [sp_gmax sp_gmin]. set (lo := minlist w) in *. set (hi := maxlist w) in *.
  assert (Lt : lo < hi) by (destruct (Rle_dec hi lo); lra).
  rewrite (proj2 (Reqb_false _ _)) by lra. set (r := (gmax - gmin) / (hi - lo)).
  assert (Rp : 0 < r) by (apply Rdiv_lt_0_compat; lra).
  assert (Eh : (hi - lo) * r = gmax - gmin) by (unfold r; field; lra).
  eexists _, _. split; [reflexivity|]. split; [|split; [|split]].
  - unfold sd_back. cbn [sp_gmin fst snd]. rewrite map_map. rewrite <- (map_id w) at 2. apply map_ext. intros v. field. lra.
  - intros v Hv. apply in_map_iff in Hv as [x [<- Hx]]. assert (lo <= x) by (apply minlist_le; auto). assert (x <= hi) by (apply maxlist_ge; auto).
    assert (0 <= (x - lo) * r) by (apply Rmult_le_pos; lra).
    assert ((x - lo) * r <= (hi - lo) * r) by (apply Rmult_le_compat_r; lra). lra.
  - apply in_map_iff. exists lo. split; auto. ring.
  - apply in_map_iff. exists hi. split; auto. rewrite Eh. ring.
Qed.
(** Constant weights (e.g. the all zero initialization) cannot be converted. *)
Theorem C31_constant_weights_refuted :
  ~ (forall g_max g_min c w, sp_new g_max g_min = Ok c -> w <> [] -> is_ok (sd_to c w)).
Proof.
  intros H. destruct (H 1 0 {| sp_gmax := 1; sp_gmin := 0 |} [0; 0]) as [x E].
  - unfold sp_new, check_g. repeat rcase; try lra. reflexivity.
  - discriminate.
  - unfold sd_to in E. simpl in E. rewrite (proj2 (Reqb_true _ _)) in E by mm. discriminate.
Qed.

(** C32: exporting a layer to Fusion conductances and importing the same data restores
    the weights of all tiles if no row of a tile is constant (other than zero). *)
Definition constant_row (row : vec) : Prop := exists a, a <> 0 /\ Forall (eq a) row /\ row <> [].
Lemma mean_const a (l : vec) : Forall (eq a) l -> l <> [] -> mean l = a.
Proof.
  intros F N. unfold mean.
  assert (S : sumR l = a * INR (length l)).
  { clear N. induction F; [simpl; lra|]. subst. change (sumR (x :: l)) with (x + sumR l). rewrite IHF. cbn [length]. rewrite S_INR. ring. }
  rewrite S. field. apply not_0_INR. destruct l; simpl; congruence.
Qed.
Lemma fus_row g_max w : 0 < g_max -> fus_back_row w (fus_to_row g_max w) = if Reqb (dot (dev w) (dev w)) 0 then map (fun _ => 0) w else w.
Proof.
  intros Hg. unfold fus_back_row, fus_to_row. pose proof fus_clip_pos as Zc. pose proof (Rmax_r (maxabs w) fus_clip) as Zr.
  set (r := g_max / Rmax (maxabs w) fus_clip). assert (Rp : 0 < r) by (apply Rdiv_lt_0_compat; lra).
  assert (X : map2 (fun gv wv => gv * sgnR wv) (map (fun v => clampR 0 g_max (Rabs (v * r))) w) w = map (fun v => v * r) w).
  { rewrite <- (map_id w) at 2. rewrite map2_map. apply map_ext_in. intros v Hv.
    assert (B : Rabs (v * r) <= g_max) by (apply scaled_bound; auto; lra). rewrite clampR_id by (split; [apply Rabs_pos|auto]).
    rewrite Rabs_mult, (Rabs_right r) by lra. unfold sgnR. repeat rcase; [rewrite Rabs_right by lra; ring|rewrite Rabs_left by lra; ring|].
    replace v with 0 by lra. rewrite Rabs_R0. ring. }
  rewrite X, slope_scale by lra. rewrite map_map. rcase.
  - apply map_ext. intros; ring.
  - rewrite <- (map_id w) at 2. apply map_ext. intros; field; lra.
Qed.
Lemma fus_row_keep g_max w : 0 < g_max -> ~ constant_row w -> fus_back_row w (fus_to_row g_max w) = w.
Proof.
  intros Hg Nc. rewrite fus_row by auto. rcase; auto. apply dev_zero in Heq.
  destruct (Req_dec (mean w) 0) as [E|E].
  - rewrite E in Heq. clear -Heq. induction Heq; simpl; subst; auto. f_equal; auto.
  - destruct w as [|a w]; auto. exfalso. apply Nc. exists (mean (a :: w)). repeat split; auto. discriminate.
Qed.
Lemma reshape_flatten : forall (m : mat) c, Forall (fun r => length r = c) m -> reshape (length m) c (flatten m) = m.
Proof.
  intros m c F. induction F as [|r m Hr F IH]; simpl; auto. unfold flatten in *. simpl.
  rewrite firstn_app, skipn_app. replace (c - length r)%nat with 0%nat by lia. rewrite firstn_all2, skipn_all2 by lia. simpl. rewrite app_nil_r. now rewrite IH.
Qed.
Lemma flatten_length : forall (m : mat) c, Forall (fun r => length r = c) m -> length (flatten m) = (length m * c)%nat.
Proof. intros m c F. induction F; simpl; auto. unfold flatten in *. simpl. rewrite app_length, IHF. lia. Qed.
Lemma fus_to_shape g_max (m : mat) c : Forall (fun r => length r = c) m -> Forall (fun r => length r = c) (fus_to g_max m).
Proof. intros F. unfold fus_to. induction F; simpl; constructor; auto. unfold fus_to_row. now rewrite map_length. Qed.
Theorem C32_fusion_roundtrip : forall g_max c tiles sizes, fus_new c = Ok g_max ->
  Forall2 (fun w s => length w = fst s /\ Forall (fun r => length r = snd s /\ ~ constant_row r) w) tiles sizes ->
  fus_import (fst (fus_export g_max tiles)) (snd (fus_export g_max tiles)) sizes 0 = Ok tiles.
Proof.
  intros g_max c tiles sizes Hn F. assert (Hg : 0 < g_max).
  { unfold fus_new in Hn. destruct (Rltb c 10) eqn:A; [discriminate|]. destruct (Rltb 40 c); [discriminate|]. apply Rltb_false in A. injection Hn as <-. lra. }
  unfold fus_export. cbn [fst snd].
  assert (Gen : forall pre, fus_import (pre ++ concat (map (fun w => flatten (fus_to g_max w)) tiles)) tiles sizes (length pre) = Ok tiles).
  { induction F as [|w [r cc] tiles sizes [Hr Hrows] F IH]; intros pre; [reflexivity|]. simpl.
    cbn [fst snd] in *.
    assert (Sh : Forall (fun r => length r = cc) w) by (eapply Forall_impl; [|exact Hrows]; simpl; tauto).
    pose proof (fus_to_shape g_max w cc Sh) as Sh2. assert (Lf : length (flatten (fus_to g_max w)) = (r * cc)%nat) by (rewrite (flatten_length _ cc Sh2); rewrite <- Hr; unfold fus_to; rewrite map_length; auto).
    set (fl := flatten (fus_to g_max w)) in *.
    assert (Es : slice (length pre) (length pre + r * cc) (pre ++ fl ++ concat (map (fun w => flatten (fus_to g_max w)) tiles)) = fl).
    { unfold slice. rewrite skipn_app, skipn_all, Nat.sub_diag. simpl. replace (length pre + r * cc - length pre)%nat with (length fl) by lia.
      rewrite firstn_app, Nat.sub_diag, firstn_all. simpl. now rewrite app_nil_r. }
    rewrite Es, Lf, Nat.eqb_refl.
    specialize (IH (pre ++ fl)). rewrite app_length, Lf, <- app_assoc in IH. rewrite IH. cbn [bind]. f_equal. f_equal.
    unfold fl. replace r with (length (fus_to g_max w)) by (unfold fus_to; rewrite map_length; auto).
    rewrite reshape_flatten by auto.
    clear -Hrows Hg. unfold fus_back, fus_to. induction Hrows as [|x w [_ Hx] H IH]; simpl; auto. rewrite IH. f_equal. now apply fus_row_keep. }
  exact (Gen []).
Qed.
Example C32_nonvacuous : Forall2 (fun w s => length w = fst s /\ Forall (fun r => length r = snd s /\ ~ constant_row r) w) [[[1; 2]; [0; 0]]] [(2, 2)%nat].
Proof.
  repeat constructor; intros [a (N & F & _)]; inversion F as [|? ? E1 F1]; subst; inversion F1; subst; lra.
Qed.
(** A constant row (in particular every row of a tile with one input) is erased. *)
Theorem C32_constant_row_refuted :
  ~ (forall g_max tiles sizes, 10 <= g_max <= 40 ->
       Forall2 (fun w s => length w = fst s /\ Forall (fun r => length r = snd s) w) tiles sizes ->
       fus_import (fst (fus_export g_max tiles)) (snd (fus_export g_max tiles)) sizes 0 = Ok tiles).
Proof.
  intros H. specialize (H 40 [[[1]; [2]]] [(2, 1)%nat] ltac:(lra) ltac:(repeat constructor)).
  unfold fus_export in H. cbn [fst snd map concat flatten fus_to app fus_import] in H.
  assert (L : forall x, length (fus_to_row 40 [x]) = 1%nat) by reflexivity.
  simpl in H. injection H as H _. unfold fus_back_row in H.
  assert (S : forall x y, slope [x] [y] = 0).
  { intros x y. unfold slope, mean. simpl. rewrite (proj2 (Reqb_true _ _)); [reflexivity|]. field. }
  cbn [map2 map] in H. rewrite S in H. lra.
Qed.

(** ... and, tile by tile, writing back the exported matrix leaves the tile as it was,
    for every history of it, if it has no analog bias ... *)
Theorem C32_import_keeps_tile : forall c t, reachable c t -> analog_bias c = false ->
  exists t', fus_set c (fst (get_weights c false t)) t = Ok t' /\ t_w t' = t_w t /\ logical c t' = logical c t.
Proof.
  intros c t _ Ha. unfold fus_set.
  assert (Hw : fst (get_weights c false t) = t_w t) by (unfold get_weights, separate_weights; rewrite Ha; reflexivity).
  rewrite Hw. set (b := if digital_bias c then t_bias t else None).
  assert (Hb : snd (get_weights c true t) = b).
  { unfold get_weights, separate_weights. rewrite Ha. simpl. destruct (get_scales t); reflexivity. }
  rewrite Hb. subst b. unfold set_weights, combine_weights. rewrite Ha. destruct (digital_bias c) eqn:D; [destruct (t_bias t) as [v|] eqn:B|]; cbn [bind fst snd]; eexists; (split; [reflexivity|]); (split; [reflexivity|]).
  - destruct t; simpl in *; subst; reflexivity.
  - destruct t; reflexivity.
  - destruct t; reflexivity.
Qed.
(** ... but an analog bias is multiplied by the digital scales once more. *)
Definition cfg_fus : pcfg :=
  {| c_out := 1; c_in := 2; c_mapping := true; c_omega := 1; c_colwise := false; c_lrcomp := false;
     c_learn_out := false; c_out_colwise := false; c_bias := true; c_digital := false |}.
Theorem C32_analog_bias_refuted :
  ~ (forall c t, reachable c t ->
       exists t', fus_set c (fst (get_weights c false t)) t = Ok t' /\ logical c t' = logical c t).
Proof.
  intros H. set (t0 := ptile_new cfg_fus [[0; 0; 0]] None 1). set (ops := [OpSet [[2; 1]] (Some [1]) true None]).
  destruct (H cfg_fus (fold_left (run cfg_fus) ops t0)) as [t' [E L]].
  - exists [[0; 0; 0]], None, 1, ops. split; [simpl; lia|]. split; [split; simpl; repeat constructor|]. split; [exact I|]. split; [|reflexivity].
    repeat constructor; simpl; eauto.
  - clear H.
    assert (N0 : t0 = {| t_w := [[0;0;0]]; t_ms := MsOwn [1]; t_los := None; t_lrs := 1; t_bias := None; t_ir := None; t_lr := 1 |}).
    { unfold t0, ptile_new, init_mapping_scales, set_mapping_scales; simpl. rcase; [lra|reflexivity]. }
    assert (S1 : fold_left (run cfg_fus) ops t0 = {| t_w := [[/ 2 * 2; / 2 * 1; / 2 * 1]]; t_ms := MsOwn [2]; t_los := None; t_lrs := 1; t_bias := None; t_ir := None; t_lr := 1 |}).
    { rewrite N0. simpl. unfold set_weights, apply_weight_scaling, combine_weights; simpl. rcase; [|lra].
      unfold set_scales, set_mapping_scales, set_learned_out_scales_one, maxabs_mat, maxabs; simpl.
      replace (Rmax (Rmax (Rabs 2) (Rmax (Rabs 1) (Rmax (Rabs 1) 0))) 0 / 1) with 2 by mm. rcase; [lra|]. reflexivity. }
    rewrite S1 in *. unfold fus_set, get_weights, get_scales, ms_val, set_weights, combine_weights in E. simpl in E. injection E as <-.
    unfold logical, get_weights, get_scales, ms_val in L. simpl in L. injection L as L. lra.
Qed.

Print Assumptions C28_single_pair.
Print Assumptions C29_n_pairs.
Print Assumptions C29_negative_factor_refuted.
Print Assumptions C30_custom_linear.
Print Assumptions C30_invertibility_test_refuted.
Print Assumptions C31_single_device.
Print Assumptions C31_constant_weights_refuted.
Print Assumptions C32_fusion_roundtrip.
Print Assumptions C32_constant_row_refuted.
Print Assumptions C32_import_keeps_tile.
Print Assumptions C32_analog_bias_refuted.
