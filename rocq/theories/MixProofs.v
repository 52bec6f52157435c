(** * Mixed precision: proofs *)
From Verif Require Import Prelude Rand DevModel DevSpec DevProofs PulseModel PulseSpec PulseProofs PulseProps CompModel CompSpec CompProofs CompProofs2 CompProofs3 CompProofs4 QuantProofs TransProofs MixModel MixSpec.

(** ** Quantization *)
Lemma half_pos n : (2 <= n)%Z -> 1 <= IZR (half_bins n).
Proof. intros H. apply IZR_le. unfold half_bins. apply (Z.div_le_mono 2 n 2); lia. Qed.
Lemma rhe_half s : Rabs s <= 1/2 -> rhe s = 0%Z.
Proof.
  intros H. pose proof (rhe_err s) as E. assert (A : Rabs (IZR (rhe s)) <= 1) by (revert E H; mm).
  destruct (Z.eq_dec (rhe s) 0) as [|N]; auto. exfalso.
  assert (S : rhe s = 1%Z \/ rhe s = (-1)%Z). { assert (-1 <= IZR (rhe s) <= 1) as [L U] by (revert A; mm). apply le_IZR in U. change (-1) with (IZR (-1)) in L. apply le_IZR in L. lia. }
  destruct S as [S | S]; rewrite S in E.
  - assert (s = 1/2) by (revert E H; mm). subst s. unfold rhe in S. assert (F : floorZ (1/2) = 0%Z). { pose proof (floorZ_spec (1/2)) as F. assert (-1 < IZR (floorZ (1/2)) < 1) as [F1 F2] by lra. apply lt_IZR in F2. change (-1) with (IZR (-1)) in F1. apply lt_IZR in F1. lia. }
    rewrite F in S. revert S. repeat rcase; simpl; try discriminate; lra.
  - assert (s = -(1/2)) by (revert E H; mm). subst s. rewrite rhe_opp in S. unfold rhe in S. assert (F : floorZ (1/2) = 0%Z). { pose proof (floorZ_spec (1/2)) as F. assert (-1 < IZR (floorZ (1/2)) < 1) as [F1 F2] by lra. apply lt_IZR in F2. change (-1) with (IZR (-1)) in F1. apply lt_IZR in F1. lia. }
    rewrite F in S. revert S. repeat rcase; simpl; try discriminate; lra.
Qed.
Lemma to_bin_spec sto w v k : yields (to_bin sto w v) k -> Rabs (IZR k - v / w) <= (if sto then 1 else 1/2) /\ (v = 0 -> k = 0%Z).
Proof.
  unfold to_bin, unif. intros Y. apply yields_bind in Y as (s & Ys & Y). apply yields_ret in Y. subst k.
  assert (Hs : Rabs s <= if sto then 1/2 else 0).
  { destruct sto; [|apply yields_ret in Ys; subst; rewrite Rabs_R0; lra]. cbn [bindM] in Ys. apply yields_unif in Ys as (u & Hu & Ys). cbn beta in Ys. apply yields_ret in Ys. subst s. mm. }
  pose proof (rhe_err (v / w + s)) as E. split; [destruct sto; revert E Hs; mm|]. intros ->. apply rhe_half. unfold Rdiv. rewrite Rmult_0_l, Rplus_0_l. destruct sto; lra.
Qed.
(** one entry *)
Definition good_q (n : Z) (sto : bool) (v : vec) (a q : R) : Prop :=
  let w := maxabs v / IZR (n / 2) in (exists z, q = IZR z * w) /\ Rabs q <= maxabs v /\ Rabs (q - a) <= (if sto then w else w / 2).
Lemma from_bin_spec n sto v a k : (2 <= n)%Z -> Rabs a <= maxabs v -> yields (to_bin sto (bin_width n v) a) k -> good_q n sto v a (from_bin n (bin_width n v) k) /\ (k = 0%Z -> from_bin n (bin_width n v) k = 0).
Proof.
  intros Hn Ha Y. pose proof (half_pos n Hn) as Hh. destruct (to_bin_spec _ _ _ _ Y) as [E Z0]. pose proof (maxabs_pos v) as P.
  assert (Hz : (1 <= half_bins n)%Z) by (apply le_IZR; exact Hh).
  assert (K0 : k = 0%Z -> from_bin n (bin_width n v) k = 0). { intros ->. unfold from_bin. replace (Z.min (Z.max 0 (- half_bins n)) (half_bins n)) with 0%Z by lia. lra. }
  split; [|exact K0]. unfold good_q. cbv zeta. change (n / 2)%Z with (half_bins n) in *. set (h := half_bins n) in *.
  destruct (Req_dec (maxabs v) 0) as [M0 | M0].
  - rewrite M0 in *. assert (a = 0) by (revert Ha; mm). rewrite (K0 (Z0 H)). subst a. unfold Rdiv. rewrite !Rmult_0_l. split; [exists 0%Z; lra|]. rewrite Rminus_0_r, Rabs_R0. destruct sto; lra.
  - assert (Pw : 0 < maxabs v / IZR h) by (apply Rdiv_lt_0_compat; lra). assert (Ew : bin_width n v = maxabs v / IZR h). { unfold bin_width. fold h. cbv zeta. rewrite (proj2 (Reqb_false _ _)) by lra. reflexivity. }
    rewrite Ew in *. set (w := maxabs v / IZR h) in *. unfold from_bin. fold h. set (z := Z.min (Z.max k (- h)) h). assert (Ez : IZR h * w = maxabs v) by (unfold w; field; lra).
    split; [now exists z|].
    assert (Bz : Rabs (IZR z) <= IZR h). { rewrite <- abs_IZR. apply IZR_le. unfold z. lia. }
    split; [rewrite Rabs_mult, (Rabs_right w) by lra; rewrite <- Ez; apply Rmult_le_compat_r; lra|].
    assert (Bq : Rabs (a / w) <= IZR h). { unfold Rdiv. rewrite Rabs_mult, Rabs_inv, (Rabs_right w) by lra. apply (Rmult_le_reg_r w); [lra|]. rewrite Rmult_assoc, Rinv_l, Ez by lra. lra. }
    assert (C : Rabs (IZR z - a / w) <= Rabs (IZR k - a / w)).
    { unfold z. destruct (Z.le_gt_cases (Z.abs k) h) as [H | H]; [replace (Z.min (Z.max k (- h)) h) with k by lia; lra|].
      destruct (Z.le_gt_cases 0 k) as [Q | Q].
      - replace (Z.min (Z.max k (- h)) h) with h by lia. assert (IZR h < IZR k) by (apply IZR_lt; lia). revert Bq; mm.
      - replace (Z.min (Z.max k (- h)) h) with (- h)%Z by lia. assert (IZR k < IZR (- h)) by (apply IZR_lt; lia). rewrite opp_IZR in *. revert Bq; mm. }
    replace (IZR z * w - a) with ((IZR z - a / w) * w) by (field; lra). rewrite Rabs_mult, (Rabs_right w) by lra.
    destruct sto; nra.
Qed.

(** ** The outer product *)
Lemma row_len n m (w : mat) i : dims w = repeat n m -> (i < m)%nat -> length (nth i w []) = n /\ length w = m.
Proof.
  intros D L. destruct (repeat_dims n m w D) as [F E]. split; [|exact E]. rewrite Forall_forall in F. apply F. apply nth_In. lia.
Qed.
Lemma rows_dims {A} (f : A -> vec -> vec) n : (forall a r, length r = n -> length (f a r) = n) -> forall (d : list A) (chi : mat) m, length d = m -> dims chi = repeat n m -> dims (map2 f d chi) = repeat n m.
Proof.
  intros H. induction d as [|a d IH]; intros [|r chi] m L D; simpl in *; subst m; try discriminate; auto. injection D as Dr D. cbn [repeat]. f_equal; [now apply H | now apply IH].
Qed.
Lemma at_map2 {A} (f : A -> vec -> vec) (da : A) (d : list A) (chi : mat) i j : (i < length d)%nat -> length d = length chi -> at_ (map2 f d chi) i j = nth j (f (nth i d da) (nth i chi [])) 0.
Proof. intros L E. unfold at_. f_equal. apply (nth_map2 f d chi i da [] []); unfold vec in *; lia. Qed.
Lemma ger_spec lr d x chi n m : dims chi = repeat n m -> length d = m -> length x = n ->
  dims (ger lr d x chi) = dims chi /\ forall i j, (i < m)%nat -> (j < n)%nat -> at_ (ger lr d x chi) i j = at_ chi i j + lr * nth i d 0 * nth j x 0.
Proof.
  intros D Ld Lx. split.
  - rewrite D. unfold ger. apply rows_dims; auto. intros a r Lr. rewrite map2_length. lia.
  - intros i j Li Lj. destruct (row_len n m chi i D Li) as [Lr Lc]. unfold ger. rewrite (at_map2 _ 0) by lia. rewrite (nth_map2 _ _ _ _ 0 0) by lia. reflexivity.
Qed.
Lemma add_sparse_length lr q : forall l row, length (add_sparse lr q l row) = length row.
Proof. unfold add_sparse. induction l as [|a l IH]; intros row; simpl; auto. rewrite IH. apply set_nth_length. Qed.
Lemma filter_all_false {A} (f : A -> bool) l : (forall a, In a l -> f a = false) -> filter f l = [].
Proof. induction l as [|a l IH]; simpl; intros H; auto. rewrite H by auto. auto. Qed.
Lemma add_sparse_nth lr q : forall l row j, NoDup (map fst l) -> (j < length row)%nat -> (forall a, In a l -> (fst a < length row)%nat) ->
  nth j (add_sparse lr q l row) 0 = nth j row 0 + lr * q * sumR (map snd (filter (fun a => (fst a =? j)%nat) l)).
Proof.
  induction l as [|a l IH]; intros row j ND L B; cbn [map] in ND.
  - unfold add_sparse. simpl. lra.
  - inversion ND as [|? ? Nin ND']; subst. unfold add_sparse. cbn [fold_left]. fold (add_sparse lr q l). assert (Ba : (fst a < length row)%nat) by (apply B; simpl; auto).
    change (fold_left _ l ?r) with (add_sparse lr q l r). rewrite IH; auto; [|rewrite set_nth_length; auto | intros; rewrite set_nth_length; apply B; simpl; auto].
    rewrite set_nth_nth, (proj2 (Nat.ltb_lt _ _) Ba), Bool.andb_true_r. cbn [filter]. rewrite (Nat.eqb_sym j (fst a)). destruct (Nat.eqb_spec (fst a) j) as [E | E].
    + subst j. rewrite (filter_all_false _ l). { cbn [map sumR]. lra. } intros b Ib. apply Nat.eqb_neq. intros E. apply Nin. rewrite <- E. now apply in_map.
    + reflexivity.
Qed.

Lemma zipi_in {A} (l : list A) : forall i a, In (i, a) (zipi l) -> nth_error l i = Some a.
Proof.
  intros i a H. apply In_nth_error in H as (k & H). rewrite nth_error_zipi in H. destruct (nth_error l k) eqn:E; [|discriminate]. injection H as -> ->. exact E.
Qed.
Lemma zipi_fst {A} (l : list A) : map fst (zipi l) = seq 0 (length l).
Proof. unfold zipi. generalize 0%nat. induction l as [|a l IH]; intros k; simpl; auto. now rewrite IH. Qed.
Lemma NoDup_filter_fst {A} (f : nat * A -> bool) l : NoDup (map fst l) -> NoDup (map fst (filter f l)).
Proof.
  induction l as [|a l IH]; simpl; auto. intros H. inversion H; subst. destruct (f a); auto. simpl. constructor; auto. intros I. apply H2. apply in_map_iff in I as (b & E & I). apply filter_In in I. rewrite <- E. apply in_map. tauto.
Qed.
Lemma nonzero_sum n w ks j : (2 <= n)%Z -> sumR (map snd (filter (fun a => (fst a =? j)%nat) (nonzero n w ks))) = if (j <? length ks)%nat then from_bin n w (nth j ks 0%Z) else 0.
Proof.
  intros Hn. unfold nonzero.
  assert (G : forall (l : list (nat * Z)), NoDup (map fst l) -> sumR (map snd (filter (fun a => (fst a =? j)%nat) (map (fun ik => (fst ik, from_bin n w (snd ik))) (filter (fun ik => negb (snd ik =? 0)%Z) l)))) = match find (fun ik => (fst ik =? j)%nat) l with Some ik => from_bin n w (snd ik) | None => 0 end).
  { induction l as [|a l IH]; cbn [map]; intros ND; [reflexivity|]. inversion ND as [|? ? Nin ND']; subst. specialize (IH ND'). cbn [filter find]. destruct (Nat.eqb_spec (fst a) j) as [E | E].
    - rewrite (filter_all_false _ (map _ (filter _ l))) in IH. 2:{ intros b Ib. apply in_map_iff in Ib as (c & <- & Ib). apply filter_In in Ib as [Ib _]. cbn [fst]. apply Nat.eqb_neq. intros F. apply Nin. rewrite E, <- F. now apply in_map. }
      destruct (Z.eqb_spec (snd a) 0) as [Z0 | Z0]; cbn [negb].
      + rewrite filter_all_false. { cbn [map sumR]. rewrite Z0. unfold from_bin. assert ((1 <= half_bins n)%Z) by (apply le_IZR, half_pos; auto). replace (Z.min (Z.max 0 (- half_bins n)) (half_bins n)) with 0%Z by lia. lra. }
        intros b Ib. apply in_map_iff in Ib as (c & <- & Ib). apply filter_In in Ib as [Ib _]. cbn [fst]. apply Nat.eqb_neq. intros F. apply Nin. rewrite E, <- F. now apply in_map.
      + cbn [map filter fst]. rewrite (proj2 (Nat.eqb_eq _ _) E). rewrite filter_all_false. { cbn [map sumR snd]. lra. }
        intros b Ib. apply in_map_iff in Ib as (c & <- & Ib). apply filter_In in Ib as [Ib _]. cbn [fst]. apply Nat.eqb_neq. intros F. apply Nin. rewrite E, <- F. now apply in_map.
    - destruct (negb (snd a =? 0)%Z); [cbn [map filter fst]; rewrite (proj2 (Nat.eqb_neq _ _) E)|]; exact IH. }
  rewrite G by (rewrite zipi_fst; apply seq_NoDup). destruct (find _ _) as [[i a]|] eqn:F.
  - apply find_some in F as [I E]. apply zipi_in in I. cbn [fst snd] in *. apply Nat.eqb_eq in E. subst i. assert (j < length ks)%nat by (apply nth_error_Some; rewrite I; discriminate). rewrite (proj2 (Nat.ltb_lt _ _) H). now rewrite (nth_error_nth _ _ _ I).
  - destruct (Nat.ltb_spec j (length ks)) as [L | L]; auto. exfalso. destruct (nth_error ks j) as [a|] eqn:E; [|apply nth_error_None in E; lia].
    assert (I : In (j, a) (zipi ks)). { apply nth_error_In with j. rewrite nth_error_zipi, E. reflexivity. } apply (find_none _ _ F) in I. cbn [fst] in I. rewrite Nat.eqb_refl in I. discriminate.
Qed.
Lemma nonzero_fst n w ks : NoDup (map fst (nonzero n w ks)) /\ forall a, In a (nonzero n w ks) -> (fst a < length ks)%nat.
Proof.
  unfold nonzero. split.
  - rewrite map_map. cbn [fst]. apply NoDup_filter_fst. rewrite zipi_fst. apply seq_NoDup.
  - intros a I. apply in_map_iff in I as ([i k] & <- & I). apply filter_In in I as [I _]. apply zipi_in in I. cbn [fst]. apply nth_error_Some. rewrite I. discriminate.
Qed.
(** the values [from_bin] of the rounded entries *)
Lemma bins_quantized n sto v ks : (2 <= n)%Z -> yields (mapMM (to_bin sto (bin_width n v)) v) ks -> quantized n sto v (map (from_bin n (bin_width n v)) ks).
Proof.
  intros Hn Y. pose proof (mapMM_length _ _ _ Y) as L. apply yields_mapMM in Y. split; [now rewrite map_length|]. replace (n <=? 0)%Z with false by lia. cbv zeta. intros k.
  destruct (Nat.lt_ge_cases k (length v)) as [Lk | Lk].
  - assert (Yk : yields (to_bin sto (bin_width n v) (nth k v 0)) (nth k ks 0%Z)).
    { pose proof (F2_nth _ _ _ k Y) as H. destruct (nth_error v k) as [a|] eqn:E; [|apply nth_error_None in E; lia]. destruct (nth_error ks k) as [b|] eqn:E'; [|contradiction]. rewrite (nth_error_nth _ _ _ E), (nth_error_nth _ _ _ E'). exact H. }
    rewrite (nth_indep _ 0 (from_bin n (bin_width n v) 0)) by (rewrite map_length; lia). rewrite map_nth. apply (from_bin_spec n sto v (nth k v 0) (nth k ks 0%Z) Hn (maxabs_ge v k) Yk).
  - rewrite !nth_overflow by (try rewrite map_length; lia). split; [exists 0%Z; lra|]. rewrite Rminus_0_r, Rabs_R0. pose proof (maxabs_pos v). pose proof (half_pos n Hn) as H1. unfold half_bins in H1. assert (0 <= maxabs v / IZR (n / 2)) by (apply Rle_mult_inv_pos; lra). destruct sto; lra.
Qed.
Lemma outer_spec p lr x d chi r n m : bins_ok p -> dims chi = repeat n m -> length x = n -> length d = m -> yields (outer p lr x d chi) r -> accumulated p lr x d chi (fst (fst r)).
Proof.
  intros B D Lx Ld Y. unfold outer in Y. cbv zeta in Y. unfold accumulated. destruct B as [[B1 B2] | [B1 B2]].
  - replace (mp_db p <=? 0)%Z with true in Y by lia. replace (mp_xb p <=? 0)%Z with true in Y by lia. cbn [andb] in Y. apply yields_ret in Y. subst r. cbn [fst].
    exists x, d. unfold quantized. replace (mp_db p <=? 0)%Z with true by lia. replace (mp_xb p <=? 0)%Z with true by lia. do 2 (split; [auto|]). destruct (ger_spec lr d x chi n m D Ld Lx) as [E H]. split; [exact E|]. intros i j Hi Hj. apply H; lia.
  - replace (mp_db p <=? 0)%Z with false in Y by lia. replace (mp_xb p <=? 0)%Z with false in Y by lia. replace (mp_xb p =? 1)%Z with false in Y by lia. replace (mp_db p =? 1)%Z with false in Y by lia. cbn [andb orb] in Y.
    apply yields_bind in Y as (kxs & Yx & Y). apply yields_bind in Y as (kds & Yd & Y). apply yields_ret in Y. subst r. cbn [fst].
    pose proof (mapMM_length _ _ _ Yx) as Lkx. pose proof (mapMM_length _ _ _ Yd) as Lkd.
    exists (map (from_bin (mp_xb p) (bin_width (mp_xb p) x)) kxs), (map (from_bin (mp_db p) (bin_width (mp_db p) d)) kds). split; [now apply bins_quantized|]. split; [now apply bins_quantized|]. split.
    + rewrite D. apply rows_dims; [|lia|exact D]. intros a r Lr. destruct (a =? 0)%Z; auto. now rewrite add_sparse_length.
    + intros i j Li Lj. destruct (row_len n m chi i D ltac:(lia)) as [Lr Lc]. rewrite (at_map2 _ 0%Z) by lia.
      assert (Hh : forall nb, (2 <= nb)%Z -> (1 <= half_bins nb)%Z) by (intros; apply le_IZR, half_pos; auto).
      assert (F0 : forall nb w, (2 <= nb)%Z -> from_bin nb w 0 = 0). { intros nb w Hnb. unfold from_bin. specialize (Hh nb Hnb). replace (Z.min (Z.max 0 (- half_bins nb)) (half_bins nb)) with 0%Z by lia. lra. }
      rewrite (nth_indep (map (from_bin (mp_db p) _) kds) 0 (from_bin (mp_db p) (bin_width (mp_db p) d) 0)) by (rewrite map_length; lia). rewrite map_nth.
      rewrite (nth_indep (map (from_bin (mp_xb p) _) kxs) 0 (from_bin (mp_xb p) (bin_width (mp_xb p) x) 0)) by (rewrite map_length; lia). rewrite map_nth.
      destruct (Z.eqb_spec (nth i kds 0%Z) 0) as [E | E].
      * rewrite E, F0 by auto. unfold at_. lra.
      * destruct (nonzero_fst (mp_xb p) (bin_width (mp_xb p) x) kxs) as [N1 N2]. rewrite add_sparse_nth; auto; [|lia | intros a I; specialize (N2 a I); lia]. rewrite nonzero_sum by auto. rewrite (proj2 (Nat.ltb_lt j (length kxs))) by lia. unfold at_. lra.
Qed.

(** ** The transfer *)
Lemma whole_trunc g v : 0 < g -> whole g v (truncZ (v / g)).
Proof.
  intros G. destruct (truncZ_spec (v / g)) as [T1 T2]. pose proof (truncZ_sign (v / g)) as T3. set (k := truncZ (v / g)) in *. set (q := v / g) in *. assert (E : v = q * g) by (unfold q; field; lra). rewrite E.
  split; [rewrite !Rabs_mult, (Rabs_right g) by lra; apply Rmult_le_compat_r; lra|]. split.
  - replace (q * g - IZR k * g) with ((q - IZR k) * g) by ring. rewrite Rabs_mult, (Rabs_right g) by lra. nra.
  - nra.
Qed.
Definition keeps (s s' : mstate) : Prop :=
  fst (x_part s') = fst (x_part s) /\ x_gran s' = x_gran s /\ x_row s' = x_row s /\ x_cnt s' = x_cnt s /\ x_avg s' = x_avg s /\
  dims (x_chi s') = dims (x_chi s) /\ dims (d_cells (snd (x_part s'))) = dims (d_cells (snd (x_part s))).
Lemma keeps_refl s : keeps s s. Proof. repeat split; auto. Qed.
Lemma keeps_trans a b c : keeps a b -> keeps b c -> keeps a c.
Proof. unfold keeps. intros (A1 & A2 & A3 & A4 & A5 & A6 & A7) (B1 & B2 & B3 & B4 & B5 & B6 & B7). repeat split; congruence. Qed.
Lemma keeps_sized n m s s' : keeps s s' -> mix_sized n m s -> mix_sized n m s'.
Proof. intros (_ & _ & _ & _ & _ & A & B) (P & C & D). split; [exact P|]. split; congruence. Qed.
(** what happens to one entry: [hit] says that its row is transferred *)
Definition entry_moved (p : mpar) (u : upar) (s s' : mstate) (hit : bool) (i j : nat) (c c' : cell) : Prop :=
  if hit then exists k, whole (x_gran s) (chi_at s i j) k /\ chi_at s' i j = chi_at s i j - IZR k * x_gran s /\ written u (fst (x_part s)) (- (mp_lr p * (IZR k * x_gran s))) c c'
  else chi_at s' i j = chi_at s i j /\ c' = c.
Definition transferable (p : mpar) (u : upar) (s : mstate) : Prop := sensible u /\ 0 < m_dwmin (fst (x_part s)) /\ 0 < x_gran s /\ (stochastic u /\ mp_lr p <> 0 \/ 0 < mp_lr p).
Lemma managed_slots u lr g : slots (managed u) lr g = up_BL u.
Proof. unfold slots. cbn. now rewrite Bool.orb_true_r. Qed.
Lemma mix_row_keeps p u s j s' : (j < length (x_chi s))%nat -> yields (mix_row p u s j) s' -> keeps s s'.
Proof.
  intros Lj Y. unfold mix_row in Y. cbv zeta in Y. apply yields_bind in Y as (d & Y & E). apply yields_ret in E. subst s'. unfold keeps, with_chi. cbn [x_part x_chi x_gran x_row x_cnt x_avg fst snd]. do 5 (split; [reflexivity|]). split; [|eapply update_vector_dims; eauto].
  apply (nth_ext _ _ 0%nat 0%nat); [unfold dims; now rewrite !map_length, set_nth_length|]. intros k _. rewrite !dims_nth. pose proof (set_nth_nth (map (fun v => v - IZR (truncZ (v / x_gran s)) * x_gran s) (nth j (x_chi s) [])) [] j (x_chi s) k) as Q. transitivity (length (if ((k =? j) && (j <? length (x_chi s)))%nat%bool then map (fun v => v - IZR (truncZ (v / x_gran s)) * x_gran s) (nth j (x_chi s) []) else nth k (x_chi s) [])); [exact (f_equal (@length R) Q)|]. clear Q. destruct (Nat.eqb_spec k j); cbn [andb]; auto. subst k. destruct (j <? _)%nat; auto. apply map_length.
Qed.
Lemma mix_row_spec p u n m s j s' a b c : mix_sized n m s -> transferable p u s -> (j < m)%nat -> yields (mix_row p u s j) s' -> cell_at (d_cells (snd (x_part s))) a b = Some c ->
  exists c', cell_at (d_cells (snd (x_part s'))) a b = Some c' /\ entry_moved p u s s' (a =? j)%nat a b c c'.
Proof.
  intros (Pm & Dc & Dd) (Hs & Hd & Hg & Hl) Lj Y E. destruct (repeat_dims_cells n m _ a b c Dd E) as [La Lb]. unfold mix_row in Y. cbv zeta in Y. apply yields_bind in Y as (d & Y & Es). apply yields_ret in Es. subst s'.
  destruct (row_len n m (x_chi s) j Dc Lj) as [Lr Lc]. set (g := x_gran s) in *. set (row := nth j (x_chi s) []) in *. set (kz := fun v => truncZ (v / g)).
  assert (Ll : g * mp_lr p <> 0) by (apply Rmult_integral_contrapositive; destruct Hl as [[_ ?] | ?]; lra).
  assert (Hm : sensible (managed u)) by exact Hs. assert (Ht : stochastic (managed u) \/ 0 < g * mp_lr p) by (destruct Hl as [[? _] | ?]; [left; auto | right; apply Rmult_lt_0_compat; auto]).
  destruct (uv_cell (managed u) _ (g * mp_lr p) _ _ _ _ a b c Hm Hd Ll Ht Y E) as (k & c' & E' & Yp & Z & Nk). rewrite managed_slots in Nk. exists c'. cbn [x_part with_chi snd]. split; [exact E'|].
  assert (Eu : nth a (unit_vec (length (x_chi s)) j) 0 = if (a =? j)%nat then 1 else 0). { rewrite unit_nth. rewrite (proj2 (Nat.ltb_lt j (length (x_chi s)))) by lia. now rewrite Bool.andb_true_r. }
  assert (Ev : nth b (map (fun v => IZR (truncZ (v / g))) row) 0 = IZR (kz (nth b row 0))). { rewrite (nth_indep _ 0 ((fun v => IZR (truncZ (v / g))) 0)) by (rewrite map_length; lia). now rewrite (map_nth (fun v => IZR (truncZ (v / g)))). }
  rewrite Eu, Ev in *. unfold entry_moved, chi_at. cbn [x_chi x_gran x_part with_chi]. fold g. unfold at_. rewrite set_nth_nth. destruct (Nat.eqb_spec a j) as [-> | Ne]; cbn [andb].
  - rewrite (proj2 (Nat.ltb_lt j (length (x_chi s)))) by lia. fold row. exists (kz (nth b row 0)). split; [now apply whole_trunc|]. split.
    + rewrite (nth_indep _ 0 ((fun v => v - IZR (truncZ (v / g)) * g) 0)) by (rewrite map_length; lia). rewrite (map_nth (fun v => v - IZR (truncZ (v / g)) * g)). reflexivity.
    + exists k. split; [exact Nk|]. set (K := IZR (kz (nth b row 0))) in *. split.
      * replace (Rltb (- (mp_lr p * (K * g))) 0) with (Rltb 0 (g * mp_lr p * K * 1)); [exact Yp|]. destruct (Rltb (- (mp_lr p * (K * g))) 0) eqn:F; [apply Rltb_true in F; apply Rltb_true; lra | apply Rltb_false in F; apply Rltb_false; lra].
      * intros H0. apply Z. lra.
  - split; [reflexivity|]. apply Z. lra.
Qed.
Lemma entry_moved_step p u s0 s s' h i j c c1 c' : keeps s0 s -> entry_moved p u s0 s h i j c c1 -> entry_moved p u s s' false i j c1 c' -> entry_moved p u s0 s' h i j c c'.
Proof. intros _ H (E & ->). unfold entry_moved in *. rewrite E. exact H. Qed.
Lemma entry_moved_first p u s0 s s' h i j c c1 c' : keeps s0 s -> entry_moved p u s0 s false i j c c1 -> entry_moved p u s s' h i j c1 c' -> entry_moved p u s0 s' h i j c c'.
Proof. intros (K1 & K2 & _) (E & ->) H. unfold entry_moved in *. rewrite E, K1, K2 in H. exact H. Qed.
Lemma transferable_keeps p u s s' : keeps s s' -> transferable p u s -> transferable p u s'.
Proof. intros (A & B & _). unfold transferable. now rewrite A, B. Qed.
Lemma rows_fold_keeps p u m : forall l s s', length (x_chi s) = m -> Forall (fun j => (j < m)%nat) l -> yields (foldMM (mix_row p u) l s) s' -> keeps s s'.
Proof.
  induction l as [|j l IH]; intros s s' L F Y; cbn [foldMM] in Y; [apply yields_ret in Y; subst; apply keeps_refl|]. apply yields_bind in Y as (s1 & Y1 & Y). inversion F; subst. pose proof (mix_row_keeps p u s j s1 ltac:(lia) Y1) as K1. eapply keeps_trans; [exact K1|].
  apply IH; auto; destruct K1 as (_ & _ & _ & _ & _ & K & _); apply (f_equal (@length nat)) in K; unfold dims in K; rewrite !map_length in K; auto.
Qed.
Lemma rows_fold_spec p u n m : forall l s s' a b c, mix_sized n m s -> transferable p u s -> NoDup l -> Forall (fun j => (j < m)%nat) l -> yields (foldMM (mix_row p u) l s) s' -> cell_at (d_cells (snd (x_part s))) a b = Some c ->
  exists c', cell_at (d_cells (snd (x_part s'))) a b = Some c' /\ entry_moved p u s s' (existsb (Nat.eqb a) l) a b c c'.
Proof.
  induction l as [|j l IH]; intros s s' a b c Sz Tr ND F Y E; cbn [foldMM] in Y.
  - apply yields_ret in Y. subst. exists c. split; [exact E|]. cbn. auto.
  - apply yields_bind in Y as (s1 & Y1 & Y). inversion F as [|? ? Lj F']; subst. inversion ND as [|? ? Nin ND']; subst. destruct (mix_row_spec p u n m s j s1 a b c Sz Tr Lj Y1 E) as (c1 & E1 & M1).
    assert (K1 : keeps s s1). { apply (mix_row_keeps p u s j); auto. destruct Sz as (_ & D & _). destruct (row_len n m _ j D Lj) as [_ ->]. exact Lj. }
    destruct (IH s1 s' a b c1 (keeps_sized n m _ _ K1 Sz) (transferable_keeps _ _ _ _ K1 Tr) ND' F' Y E1) as (c' & E' & M'). exists c'. split; [exact E'|]. cbn [existsb]. destruct (Nat.eqb_spec a j) as [-> | Ne]; cbn [orb].
    + assert (X : existsb (Nat.eqb j) l = false). { destruct (existsb _ l) eqn:X; auto. apply existsb_exists in X as (y & Iy & Ey). apply Nat.eqb_eq in Ey. subst y. contradiction. } rewrite X in M'. eapply entry_moved_step; eauto.
    + eapply entry_moved_first; eauto.
Qed.
Lemma nodup_app {A} (l l' : list A) : NoDup l -> NoDup l' -> (forall x, In x l -> In x l' -> False) -> NoDup (l ++ l').
Proof.
  induction l as [|a l IH]; simpl; auto. intros H H' D. inversion H; subst. constructor; [|apply IH; auto; intros; eapply D; eauto]. intros I. apply in_app_or in I as [I | I]; auto. eapply D; eauto.
Qed.
(** the rows of a transfer as a list *)
Definition row_list (m i0 n : nat) : list nat := if (m - i0 <? n)%nat then seq i0 (m - i0) ++ seq 0 (n - (m - i0)) else seq i0 n.
Lemma row_list_spec m i0 n : (i0 < m)%nat -> (n <= m)%nat -> NoDup (row_list m i0 n) /\ Forall (fun j => (j < m)%nat) (row_list m i0 n) /\ forall i, (i < m)%nat -> (existsb (Nat.eqb i) (row_list m i0 n) = true <-> addressed m i0 n i).
Proof.
  intros Hi Hn. unfold row_list. destruct (Nat.ltb_spec (m - i0) n) as [H | H].
  - split; [|split].
    + apply nodup_app; [apply seq_NoDup | apply seq_NoDup |]. intros x I J. apply in_seq in I, J. lia.
    + apply Forall_forall. intros x I. apply in_app_or in I as [I | I]; apply in_seq in I; lia.
    + intros i Li. rewrite existsb_exists. split.
      * intros (x & I & E). apply Nat.eqb_eq in E. subst x. apply in_app_or in I as [I | I]; apply in_seq in I.
        -- exists (i - i0)%nat. split; [lia|]. replace (i0 + (i - i0))%nat with i by lia. symmetry. apply Nat.mod_small. lia.
        -- exists (m - i0 + i)%nat. split; [lia|]. replace (i0 + (m - i0 + i))%nat with (i + 1 * m)%nat by lia. rewrite Nat.mod_add by lia. symmetry. apply Nat.mod_small. lia.
      * intros (k & Lk & ->). exists ((i0 + k) mod m)%nat. split; [|apply Nat.eqb_refl]. apply in_or_app. destruct (Nat.lt_ge_cases (i0 + k) m) as [A | A].
        -- left. rewrite Nat.mod_small by lia. apply in_seq. lia.
        -- right. replace (i0 + k)%nat with ((i0 + k - m) + 1 * m)%nat by lia. rewrite Nat.mod_add by lia. rewrite Nat.mod_small by lia. apply in_seq. lia.
  - split; [apply seq_NoDup|]. split; [apply Forall_forall; intros x I; apply in_seq in I; lia|]. intros i Li. rewrite existsb_exists. split.
    + intros (x & I & E). apply Nat.eqb_eq in E. subst x. apply in_seq in I. exists (i - i0)%nat. split; [lia|]. replace (i0 + (i - i0))%nat with i by lia. symmetry. apply Nat.mod_small. lia.
    + intros (k & Lk & ->). exists ((i0 + k) mod m)%nat. split; [|apply Nat.eqb_refl]. rewrite Nat.mod_small by lia. apply in_seq. lia.
Qed.
Lemma mix_rows_fold p u j n s : mp_lr p <> 0 -> 0 < x_gran s -> mix_rows p u j n s = foldMM (mix_row p u) (seq j n) s.
Proof. intros L G. unfold mix_rows. rewrite (proj2 (Reqb_false _ _) L). rewrite (proj2 (Rleb_false _ _)) by lra. reflexivity. Qed.
(** a transfer that takes place *)
Lemma mix_transfer_fold p u n m s s' : mix_sized n m s -> mp_rows p <> 0%Z -> mp_lr p <> 0 -> 0 < x_gran s -> (x_row s < m)%nat -> yields (mix_transfer p u s) s' ->
  exists start s1, (start < m)%nat /\ ((mp_random p = false \/ n_rows p m = m) -> start = x_row s) /\ yields (foldMM (mix_row p u) (row_list m start (n_rows p m)) s) s1 /\ s' = with_row s1 ((start + n_rows p m) mod m)%nat.
Proof.
  intros (Pm & Dc & Dd) Hr Hl Hg Hx Y. unfold mix_transfer in Y. rewrite (proj2 (Z.eqb_neq _ _) Hr) in Y. rewrite (proj2 (Reqb_false _ _)) in Y by (apply Rabs_no_R0; auto). cbn [orb] in Y. cbv zeta in Y.
  assert (Lc : length (x_chi s) = m) by (destruct (row_len n m _ 0%nat Dc Pm); auto). rewrite Lc in Y. set (N := n_rows p m) in *. apply yields_bind in Y as (i0 & Yi & Y). apply yields_bind in Y as (s1 & Y & E). apply yields_ret in E. subst s'.
  assert (Hi : (i0 < m)%nat /\ (mp_random p = false \/ N = m -> i0 = x_row s)).
  { destruct (mp_random p && (N <? m)%nat)%bool eqn:B.
    - unfold unif in Yi. cbn [bindM] in Yi. apply yields_unif in Yi as (v & Hv & Yi). apply yields_ret in Yi. subst i0. split; [lia|]. apply andb_prop in B as [B1 B2]. apply Nat.ltb_lt in B2. intros [H | H]; [congruence | lia].
    - apply yields_ret in Yi. subst i0. auto. }
  destruct Hi as [Hi Hs]. exists i0, s1. split; [exact Hi|]. split; [exact Hs|]. split; [|reflexivity]. unfold row_list. destruct (m - i0 <? N)%nat eqn:W.
  - apply foldMM_app. apply yields_bind in Y as (a & Ya & Y). rewrite mix_rows_fold in Ya by auto. apply yields_bind. exists a. split; [exact Ya|]. rewrite mix_rows_fold in Y; auto.
    assert (K : keeps s a). { apply (rows_fold_keeps p u m (seq i0 (m - i0))); auto. apply Forall_forall. intros x I. apply in_seq in I. lia. } destruct K as (_ & -> & _). exact Hg.
  - now rewrite mix_rows_fold in Y.
Qed.
