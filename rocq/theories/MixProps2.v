(** * Mixed precision: stochastic rounding is right on average (C79) *)
From Verif Require Import Prelude Rand DevModel DevSpec DevProofs PulseModel PulseSpec PulseProofs PulseProps CompModel CompSpec CompProofs CompProofs3 CompProofs4 TransProofs MixModel MixSpec MixProofs MixProps.

Lemma avg_le l f g : l <> [] -> (forall x, In x l -> f x <= g x) -> avg l f <= avg l g.
Proof.
  intros Nl H. unfold avg. assert (P : 0 < INR (length l)) by (apply lt_0_INR; destruct l; [congruence | cbn; lia]). apply Rmult_le_compat_r; [left; now apply Rinv_0_lt_compat|].
  clear P Nl. induction l as [|a l IH]; cbn [map sumR]; [lra|]. pose proof (H a (or_introl eq_refl)). assert (sumR (map f l) <= sumR (map g l)) by (apply IH; intros; apply H; simpl; auto). lra.
Qed.
(** a single value has probability at most [1 / (N + 1)] *)
Lemma avg_point N a : (0 < N)%nat -> avg (grid N) (fun u => b2R (Reqb u a)) <= 1 / INR (S N).
Proof.
  intros HN. unfold avg. rewrite grid_length. apply Rmult_le_compat_r; [left; apply Rinv_0_lt_compat, lt_0_INR; lia|]. unfold grid. rewrite map_map.
  assert (G : forall l, NoDup l -> sumR (map (fun k => b2R (Reqb (INR k / INR N) a)) l) <= 1).
  { induction l as [|k l IH]; intros ND; cbn [map sumR]; [lra|]. inversion ND; subst. destruct (Reqb (INR k / INR N) a) eqn:E; cbn [b2R]; [|specialize (IH H2); lra].
    apply Reqb_true in E. replace (sumR (map (fun k0 => b2R (Reqb (INR k0 / INR N) a)) l)) with 0; [lra|]. symmetry. clear IH ND H2. induction l as [|j l IH]; cbn [map sumR]; auto. rewrite IH by (intros I; apply H1; now right).
    rewrite (proj2 (Reqb_false (INR j / INR N) a)); [cbn; lra|]. intros F. apply H1. left. apply INR_eq. rewrite <- E in F. apply (f_equal (fun z => z * INR N)) in F. unfold Rdiv in F. assert (INR N <> 0) by (apply not_0_INR; lia). rewrite !Rmult_assoc, !Rinv_l in F by auto. lra. }
  apply G. apply seq_NoDup.
Qed.
Lemma Rabs_le' a b : - b <= a <= b -> Rabs a <= b.
Proof. intros. mm. Qed.
(** one entry with stochastic rounding *)
Lemma sto_step h q u : Rabs q <= IZR h -> 0 <= u <= 1 -> let z := Z.min (Z.max (rhe (q + (u - 1/2))) (- h)) h in let f := floorZ q in let b := 1 - (q - IZR f) in
  Rabs (IZR z - (IZR f + (1 - b2R (Rltb u b)))) <= b2R (Reqb u b) + b2R (Reqb u 0).
Proof.
  intros Hq Hu. cbv zeta. pose proof (floorZ_spec q) as Hf. set (f := floorZ q) in *. pose proof (rhe_err (q + (u - 1/2))) as E. set (r := rhe (q + (u - 1/2))) in *. set (b := 1 - (q - IZR f)).
  assert (E' : q + u - 1 <= IZR r <= q + u) by (revert E; mm). clear E.
  assert (Hfh : (- h <= f <= h)%Z). { split; [|apply le_IZR; revert Hq; mm]. assert (IZR (- h) < IZR (f + 1)) by (rewrite opp_IZR, plus_IZR; revert Hq; mm). apply lt_IZR in H. lia. }
  set (z := Z.min (Z.max r (- h)) h).
  assert (Rr : (f - 1 <= r <= f + 1)%Z). { assert (IZR r < IZR (f + 2)) by (rewrite plus_IZR; lra). assert (IZR (f - 2) < IZR r) by (rewrite minus_IZR; lra). apply lt_IZR in H, H0. lia. }
  assert (Zr : (f - 1 <= z <= f + 1)%Z) by (unfold z; lia).
  destruct (Reqb u b) eqn:Eb; [|destruct (Reqb u 0) eqn:E0].
  - apply Reqb_true in Eb. rewrite (proj2 (Rltb_false u b)) by lra. cbn [b2R]. assert (P0 : 0 <= b2R (Reqb u 0)) by (unfold b2R; destruct (Reqb _ _); lra).
    assert (r = f \/ r = f + 1)%Z. { assert (IZR f <= IZR r) by (unfold b in Eb; lra). apply le_IZR in H. lia. }
    assert (IZR z = IZR f \/ IZR z = IZR f + 1). { destruct H as [-> | H]; [left; f_equal; unfold z; lia|]. unfold z. rewrite H. destruct (Z.eq_dec f h) as [-> | Ne]; [left; f_equal; lia | right; rewrite <- plus_IZR; f_equal; lia]. }
    apply Rabs_le'. destruct H0 as [-> | ->]; lra.
  - apply Reqb_true in E0. subst u. apply Reqb_false in Eb. assert (Hb : 0 < b) by (unfold b; lra). rewrite (proj2 (Rltb_true 0 b)) by lra. cbn [b2R].
    assert (z = f \/ z = f - 1)%Z. { assert (IZR r < IZR (f + 1)) by (rewrite plus_IZR; lra). apply lt_IZR in H. unfold z. lia. }
    apply Rabs_le'. destruct H as [-> | ->]; rewrite ?minus_IZR; lra.
  - apply Reqb_false in Eb, E0. cbn [b2R]. rewrite Rplus_0_l. apply Rabs_le'. destruct (Rltb u b) eqn:L; cbn [b2R].
    + apply Rltb_true in L. assert (z = f). { assert (IZR r < IZR (f + 1)) by (rewrite plus_IZR; unfold b in L; lra). assert (IZR (f - 1) < IZR r) by (rewrite minus_IZR; lra). apply lt_IZR in H, H0. unfold z. lia. } rewrite H. lra.
    + apply Rltb_false in L. assert (Lb : b < u) by lra. assert (r = f + 1)%Z. { assert (IZR f < IZR r) by (unfold b in Lb; lra). apply lt_IZR in H. lia. }
      assert (f < h)%Z. { apply lt_IZR. assert (IZR f < q) by (unfold b in Lb; lra). revert Hq; mm. } replace z with (f + 1)%Z by (unfold z; lia). rewrite plus_IZR. lra.
Qed.
Lemma sto_mean N G nb v a : (0 < N)%nat -> G <> [] -> (2 <= nb)%Z -> Rabs a <= maxabs v ->
  Rabs (expect N G (to_bin true (bin_width nb v) a) (fun k => from_bin nb (bin_width nb v) k) - a) <= 3 * maxabs v / INR (S N).
Proof.
  intros HN HG Hb Ha. pose proof (half_pos nb Hb) as Hh. pose proof (maxabs_pos v) as Pv. assert (PN : 0 < INR (S N)) by (apply lt_0_INR; lia). assert (PI : 0 < / INR (S N)) by now apply Rinv_0_lt_compat.
  assert (Hz : (1 <= half_bins nb)%Z) by (apply le_IZR; exact Hh). set (w := bin_width nb v).
  destruct (Req_dec (maxabs v) 0) as [M0 | M0].
  - assert (a = 0) by (rewrite M0 in Ha; revert Ha; mm). subst a. rewrite (expect_ext _ _ _ _ (fun _ => 0)).
    + rewrite expect_const; auto; [rewrite M0, Rminus_0_r, Rabs_R0; lra|]. unfold to_bin, unif. cbn [bindM]. apply total_unif; intros; apply total_ret.
    + intros k Y. apply to_bin_spec in Y as [_ Y]. rewrite Y by auto. unfold from_bin. replace (Z.min (Z.max 0 (- half_bins nb)) (half_bins nb)) with 0%Z by lia. lra.
  - assert (Ew : w = maxabs v / IZR (half_bins nb)). { unfold w, bin_width. cbv zeta. rewrite (proj2 (Reqb_false _ _)); auto. apply Rgt_not_eq. apply Rdiv_lt_0_compat; lra. }
    assert (Pw : 0 < w) by (rewrite Ew; apply Rdiv_lt_0_compat; lra). assert (Eh : IZR (half_bins nb) * w = maxabs v) by (rewrite Ew; field; lra). set (h := half_bins nb) in *. set (q := a / w).
    assert (Hq : Rabs q <= IZR h). { unfold q, Rdiv. rewrite Rabs_mult, Rabs_inv, (Rabs_right w) by lra. apply (Rmult_le_reg_r w); [lra|]. rewrite Rmult_assoc, Rinv_l, Eh by lra. lra. }
    unfold to_bin, unif. cbn [bindM expect]. fold q. pose proof (floorZ_spec q) as Hf. set (f := floorZ q) in *. set (b := 1 - (q - IZR f)).
    set (Z_ := fun u => IZR (Z.min (Z.max (rhe (q + (u - 1/2))) (- h)) h)).
    assert (E1 : avg (grid N) (fun u => from_bin nb w (rhe (q + (u - 1 / 2)))) = w * avg (grid N) Z_). { rewrite <- avg_scal. apply avg_ext. intros u _. unfold from_bin, Z_. fold h. ring. } rewrite E1.
    assert (Ng : grid N <> []) by (intros X; apply (f_equal (@length R)) in X; rewrite grid_length in X; cbn in X; lia).
    assert (D : Rabs (avg (grid N) Z_ - avg (grid N) (fun u => IZR f + (1 - b2R (Rltb u b)))) <= 2 / INR (S N)).
    { assert (Up : avg (grid N) Z_ <= avg (grid N) (fun u => (IZR f + (1 - b2R (Rltb u b))) + (b2R (Reqb u b) + b2R (Reqb u 0)))). { apply avg_le; auto. intros u Iu. pose proof (sto_step h q u Hq (grid_range N u Iu)) as S. cbv zeta in S. fold f b in S. unfold Z_. revert S. mm. }
      assert (Lo : avg (grid N) (fun u => IZR f + (1 - b2R (Rltb u b))) <= avg (grid N) (fun u => Z_ u + (b2R (Reqb u b) + b2R (Reqb u 0)))). { apply avg_le; auto. intros u Iu. pose proof (sto_step h q u Hq (grid_range N u Iu)) as S. cbv zeta in S. fold f b in S. unfold Z_. revert S. mm. }
      rewrite (avg_plus (grid N) (fun u => IZR f + (1 - b2R (Rltb u b)))) in Up. rewrite (avg_plus (grid N) Z_) in Lo. rewrite (avg_plus (grid N) (fun u => b2R (Reqb u b)) (fun u => b2R (Reqb u 0))) in Up, Lo. pose proof (avg_point N b HN). pose proof (avg_point N 0 HN). apply Rabs_le'. lra. }
    assert (D2 : avg (grid N) (fun u => IZR f + (1 - b2R (Rltb u b))) = IZR f + 1 - prob_below N b).
    { rewrite <- avg_grid_below. rewrite (avg_ext _ _ (fun u => (IZR f + 1) + (-1) * b2R (Rltb u b))) by (intros; ring). rewrite avg_plus, avg_const, avg_scal by auto. ring. }
    rewrite D2 in D. assert (Hb' : 0 <= b <= 1) by (unfold b; lra). pose proof (prob_below_close N b HN Hb') as C.
    replace (w * avg (grid N) Z_ - a) with (w * (avg (grid N) Z_ - q)) by (unfold q; field; lra). rewrite Rabs_mult, (Rabs_right w) by lra.
    assert (T : Rabs (avg (grid N) Z_ - q) <= 3 / INR (S N)). { assert (Eb : q = IZR f + 1 - b) by (unfold b; ring). unfold Rdiv in *. revert D C. rewrite Eb. mm. }
    assert (w <= maxabs v) by (rewrite <- Eh; nra). apply Rle_trans with (w * (3 / INR (S N))); [apply Rmult_le_compat_l; lra|]. unfold Rdiv. nra.
Qed.
Lemma bin_total sto w a : total (to_bin sto w a).
Proof. unfold to_bin, unif. destruct sto; cbn [bindM]; [apply total_unif; intros|]; apply total_ret. Qed.
(** the mean of the quantized value *)
Lemma sto_mean_bound N G nb v a : (0 < N)%nat -> G <> [] -> (2 <= nb)%Z -> Rabs a <= maxabs v ->
  Rabs (expect N G (to_bin true (bin_width nb v) a) (fun k => from_bin nb (bin_width nb v) k)) <= maxabs v.
Proof.
  intros HN HG Hb Ha. pose proof (expect_close N G (to_bin true (bin_width nb v) a) (fun k => from_bin nb (bin_width nb v) k) (fun _ => 0) (maxabs v) HG (bin_total _ _ _)) as H.
  rewrite expect_const, Rminus_0_r in H by (auto; apply bin_total). apply H. intros k Y. rewrite Rminus_0_r. apply (from_bin_spec nb true v a k Hb Ha Y).
Qed.
(** With stochastic rounding of both vectors the digital matrix gets on average the outer product of
    the vectors themselves, up to the resolution of the random numbers *)
Theorem C79_unbiased : forall N G p u lr x d mb n m s i j, (0 < N)%nat -> G <> [] -> (2 <= mp_xb p)%Z -> (2 <= mp_db p)%Z -> mp_stox p = true -> mp_stod p = true -> lr <> 0 ->
  mix_sized n m s -> length x = n -> length d = m -> (i < m)%nat -> (j < n)%nat -> ~ due p mb (x_cnt s) ->
  Rabs (expect N G (mix_update p u lr x d mb s) (fun s' => chi_at s' i j) - (chi_at s i j + lr * nth i d 0 * nth j x 0)) <= Rabs lr * (6 * maxabs x * maxabs d / INR (S N)).
Proof.
  intros N G p u lr x d mb n m s i j HN HG Hx Hd Sx Sd L (Pm & Dc & Dd) Lx Ld Li Lj Nd. unfold mix_update. rewrite (proj2 (Reqb_false _ _) L). rewrite expect_bind. rewrite (not_due _ _ _ Nd).
  rewrite (expect_ext _ _ _ _ (fun r => at_ (fst (fst r)) i j)) by (intros [[chi kx] kd] _; reflexivity).
  unfold outer. cbv zeta. replace (mp_db p <=? 0)%Z with false by lia. replace (mp_xb p <=? 0)%Z with false by lia. replace (mp_xb p =? 1)%Z with false by lia. replace (mp_db p =? 1)%Z with false by lia. cbn [andb orb].
  rewrite expect_bind, Sx, Sd. set (wx := bin_width (mp_xb p) x). set (wd := bin_width (mp_db p) d).
  assert (Tx : total (mapMM (to_bin true wx) x)) by (apply total_mapMM; intros; apply bin_total). assert (Td : total (mapMM (to_bin true wd) d)) by (apply total_mapMM; intros; apply bin_total).
  set (ex := expect N G (to_bin true wx (nth j x 0)) (fun k => from_bin (mp_xb p) wx k)). set (ed := expect N G (to_bin true wd (nth i d 0)) (fun k => from_bin (mp_db p) wd k)).
  assert (Ejx : nth_error x j = Some (nth j x 0)) by (apply nth_error_nth'; lia). assert (Eid : nth_error d i = Some (nth i d 0)) by (apply nth_error_nth'; lia).
  assert (E : expect N G (mapMM (to_bin true wx) x) (fun kxs => expect N G (kds <~ mapMM (to_bin true wd) d ;;
     Ret (map2 (fun k row => if (k =? 0)%Z then row else add_sparse lr (from_bin (mp_db p) wd k) (nonzero (mp_xb p) wx kxs) row) kds (x_chi s), length (nonzero (mp_xb p) wx kxs), length (filter (fun k => negb (k =? 0)%Z) kds))) (fun r => at_ (fst (fst r)) i j))
     = at_ (x_chi s) i j + lr * ed * ex).
  { rewrite (expect_ext _ _ _ _ (fun kxs => at_ (x_chi s) i j + lr * ed * from_bin (mp_xb p) wx (nth j kxs 0%Z))).
    - rewrite expect_plus, expect_const, expect_scal by auto. f_equal. f_equal. apply (expect_marginal N G HG (to_bin true wx) (fun k => from_bin (mp_xb p) wx k) 0%Z x j (nth j x 0)); auto. intros; apply bin_total.
    - intros kxs Yx. rewrite expect_bind. cbn [expect fst]. rewrite (expect_ext _ _ _ _ (fun kds => at_ (x_chi s) i j + (lr * from_bin (mp_xb p) wx (nth j kxs 0%Z)) * from_bin (mp_db p) wd (nth i kds 0%Z))).
      + rewrite expect_plus, expect_const, expect_scal by auto. rewrite (expect_marginal N G HG (to_bin true wd) (fun k => from_bin (mp_db p) wd k) 0%Z d i (nth i d 0)); auto; [fold ed; ring|]. intros; apply bin_total.
      + intros kds Yd. pose proof (mapMM_length _ _ _ Yx) as Lkx. pose proof (mapMM_length _ _ _ Yd) as Lkd. destruct (row_len n m (x_chi s) i Dc Li) as [Lr Lc]. rewrite (at_map2 _ 0%Z) by lia.
        assert (F0 : from_bin (mp_db p) wd 0 = 0). { assert (Hh : (1 <= half_bins (mp_db p))%Z) by (apply le_IZR, half_pos; auto). unfold from_bin. replace (Z.min (Z.max 0 (- half_bins (mp_db p))) (half_bins (mp_db p))) with 0%Z by lia. lra. }
        destruct (Z.eqb_spec (nth i kds 0%Z) 0) as [Ez | Ez].
        * rewrite Ez, F0. unfold at_. lra.
        * destruct (nonzero_fst (mp_xb p) wx kxs) as [N1 N2]. rewrite add_sparse_nth; auto; [|lia | intros a I; specialize (N2 a I); lia]. rewrite nonzero_sum by auto. rewrite (proj2 (Nat.ltb_lt j (length kxs))) by lia. unfold at_. lra. }
  match goal with |- Rabs (?a - _) <= _ => replace a with (at_ (x_chi s) i j + lr * ed * ex) by (symmetry; exact E) end. unfold chi_at. replace (at_ (x_chi s) i j + lr * ed * ex - (at_ (x_chi s) i j + lr * nth i d 0 * nth j x 0)) with (lr * (ed * (ex - nth j x 0) + nth j x 0 * (ed - nth i d 0))) by ring.
  rewrite Rabs_mult. apply Rmult_le_compat_l; [apply Rabs_pos|]. eapply Rle_trans; [apply Rabs_triang|]. rewrite !Rabs_mult.
  pose proof (sto_mean N G (mp_xb p) x (nth j x 0) HN HG Hx (maxabs_ge x j)) as A1. pose proof (sto_mean N G (mp_db p) d (nth i d 0) HN HG Hd (maxabs_ge d i)) as A2. pose proof (sto_mean_bound N G (mp_db p) d (nth i d 0) HN HG Hd (maxabs_ge d i)) as A3.
  fold wx wd in A1, A2, A3. fold ex in A1. fold ed in A2, A3. pose proof (maxabs_ge x j) as A4.
  pose proof (Rmult_le_compat _ _ _ _ (Rabs_pos _) (Rabs_pos _) A3 A1) as B1. pose proof (Rmult_le_compat _ _ _ _ (Rabs_pos _) (Rabs_pos _) A4 A2) as B2. unfold Rdiv in *. lra.
Qed.

Print Assumptions C79_unbiased.
