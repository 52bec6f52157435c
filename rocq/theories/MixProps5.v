(** * Mixed precision: transfers are right on average (C81) *)
From Verif Require Import Prelude Rand DevModel DevSpec DevProofs PulseModel PulseSpec PulseProofs PulseProps CompModel CompSpec CompProofs CompProofs3 CompProofs4 CompProps TransProofs MixModel MixSpec MixProofs MixProps MixProps3 MixProps4.

Lemma whole_unique g v a b : 0 < g -> whole g v a -> whole g v b -> a = b.
Proof.
  intros Hg (A1 & A2 & A3) (B1 & B2 & B3). destruct (Rtotal_order v 0) as [H | [H | H]].
  - assert (IZR a <= 0) by nra. assert (IZR b <= 0) by nra. rewrite !Rabs_mult, (Rabs_right g), (Rabs_left v) in A1, B1 by lra. rewrite (Rabs_left1 (IZR a)) in A1 by lra. rewrite (Rabs_left1 (IZR b)) in B1 by lra.
    rewrite Rabs_left1 in A2, B2 by lra. assert (L1 : (a < b + 1)%Z) by (apply lt_IZR; rewrite plus_IZR; nra). assert (L2 : (b < a + 1)%Z) by (apply lt_IZR; rewrite plus_IZR; nra). lia.
  - subst v. rewrite Rabs_R0 in A1, B1. assert (Z : forall k, Rabs (IZR k * g) <= 0 -> k = 0%Z). { intros k H. rewrite Rabs_mult, (Rabs_right g) in H by lra. pose proof (Rabs_pos (IZR k)). assert (E : Rabs (IZR k) = 0) by nra. destruct (Z.eq_dec k 0); auto. exfalso. rewrite Rabs_Zabs in E. apply eq_IZR in E. lia. } rewrite (Z a), (Z b); auto.
  - assert (0 <= IZR a) by nra. assert (0 <= IZR b) by nra. rewrite !Rabs_mult, (Rabs_right g), (Rabs_right v) in A1, B1 by lra. rewrite (Rabs_right (IZR a)) in A1 by lra. rewrite (Rabs_right (IZR b)) in B1 by lra.
    rewrite Rabs_right in A2, B2 by lra. assert (L1 : (a < b + 1)%Z) by (apply lt_IZR; rewrite plus_IZR; nra). assert (L2 : (b < a + 1)%Z) by (apply lt_IZR; rewrite plus_IZR; nra). lia.
Qed.
Definition mix_weight (s : mstate) (i j : nat) : R := weight_at (fst (x_part s)) (snd (x_part s)) i j.
Lemma mix_row_total p u s j : total (mix_row p u s j).
Proof. unfold mix_row. cbv zeta. apply total_bind; [apply update_vector_total | intros; apply total_ret]. Qed.
Lemma maxabs_le v b : 0 <= b -> (forall k, (k < length v)%nat -> Rabs (nth k v 0) <= b) -> maxabs v <= b.
Proof.
  intros Hb H. destruct v as [|a v]; [cbn; exact Hb|]. destruct (maxabs_attained (a :: v)) as (x & I & <-); [discriminate|]. apply (In_nth _ _ 0) in I as (k & L & <-). now apply H.
Qed.
Lemma unit_max m i : (i < m)%nat -> maxabs (unit_vec m i) <= 1.
Proof. intros H. apply maxabs_le; [lra|]. intros k _. rewrite unit_nth. destruct (_ && _)%bool; rewrite ?Rabs_R1, ?Rabs_R0; lra. Qed.
(** the transferred multiples of a row fit into the pulse trains *)
Definition row_fits (p : mpar) (u : upar) (s : mstate) (n i : nat) : Prop := forall j k, (j < n)%nat -> whole (x_gran s) (chi_at s i j) k -> Rabs (mp_lr p * (IZR k * x_gran s)) <= IZR (up_BL u) * m_dwmin (fst (x_part s)).
Lemma mix_row_average N G p u n m s i j c k : let mt := fst (x_part s) in
  (0 < N)%nat -> G <> [] -> mix_sized n m s -> sensible u -> stochastic u -> up_res u <= 0 -> up_gs u = 1 -> 0 < m_dwmin mt -> m_std mt = 0 -> 0 < x_gran s -> mp_lr p <> 0 -> row_fits p u s n i ->
  cell_at (d_cells (snd (x_part s))) i j = Some c -> ideal_cell mt c -> room mt c (IZR (up_BL u) * m_dwmin mt) -> whole (x_gran s) (chi_at s i j) k ->
  Rabs (expect N G (mix_row p u s i) (fun s' => mix_weight s' i j) - (stored mt c - mp_lr p * (IZR k * x_gran s))) <= 2 * IZR (up_BL u) * m_dwmin mt / INR (S N).
Proof.
  intros mt HN HG (Pm & Dc & Dd) Su St Re Gs Dw Sd Hg L Fi Ec Ic Rm Wk. destruct (repeat_dims_cells n m _ i j c Dd Ec) as [Li Lj]. destruct (row_len n m (x_chi s) i Dc Li) as [Lr Lc]. unfold mix_row. cbv zeta. rewrite expect_bind. cbn [expect]. unfold mix_weight. cbn [with_chi x_part fst snd].
  set (g := x_gran s) in *. set (row := nth i (x_chi s) []) in *. set (dw := fun v => IZR (truncZ (v / g))). set (x := map dw row). set (d := unit_vec (length (x_chi s)) i). fold mt.
  assert (Nx : forall b, (b < n)%nat -> nth b x 0 = IZR (truncZ (nth b row 0 / g))). { intros b Hb. unfold x. rewrite (nth_indep _ 0 (dw 0)) by (rewrite map_length; lia). now rewrite (map_nth dw). }
  assert (Bl : 1 <= IZR (up_BL u)) by (destruct Su as [Hb _]; now apply IZR_le in Hb). assert (Gl : g * mp_lr p <> 0) by (apply Rmult_integral_contrapositive; split; [lra | exact L]).
  assert (Mf : max_fits (managed u) (g * mp_lr p) (m_dwmin mt) x d).
  { unfold max_fits. cbn [managed up_BL]. assert (Md : 0 <= maxabs d <= 1) by (split; [apply maxabs_nonneg | apply unit_max; lia]). assert (Px : 0 < Rabs (g * mp_lr p)) by now apply Rabs_pos_lt.
    assert (Mx : maxabs x <= m_dwmin mt * IZR (up_BL u) / Rabs (g * mp_lr p)).
    { apply maxabs_le; [apply Rmult_le_pos; [nra | left; now apply Rinv_0_lt_compat]|]. intros b Hb. assert (Hb1 : (b < n)%nat) by (unfold x in Hb; rewrite map_length in Hb; lia). clear Hb. rename Hb1 into Hb. rewrite Nx by exact Hb. set (K := truncZ (nth b row 0 / g)). apply (Rmult_le_reg_r (Rabs (g * mp_lr p))); [exact Px|]. unfold Rdiv. rewrite Rmult_assoc, Rinv_l by lra. rewrite Rmult_1_r, <- Rabs_mult.
      replace (IZR K * (g * mp_lr p)) with (mp_lr p * (IZR K * g)) by ring. rewrite (Rmult_comm (m_dwmin mt)). exact (Fi b K Hb (whole_trunc g (nth b row 0) Hg)). }
    apply Rle_trans with (Rabs (g * mp_lr p) * (m_dwmin mt * IZR (up_BL u) / Rabs (g * mp_lr p)) * 1); [|right; field; lra]. pose proof (maxabs_nonneg x). apply Rmult_le_compat; try lra; [apply Rmult_le_pos; lra|]. apply Rmult_le_compat_l; lra. }
  pose proof (C61_expected_weight N G (managed u) mt (g * mp_lr p) [(x, d)] (snd (x_part s)) i j c HN HG Su St Re (or_introl eq_refl) Gs Dw Sd Gl (or_intror (or_introl eq_refl)) (Forall_cons (x, d) Mf (Forall_nil _)) Ec Ic) as H.
  cbn [length INR map sumR fst snd] in H. rewrite !Rmult_1_l in H. specialize (H Rm). unfold update_batch in H. cbn [foldMM fst snd] in H. rewrite expect_bind in H. cbn [expect] in H.
  replace (stored mt c - g * mp_lr p * (nth i d 0 * nth j x 0 + 0)) with (stored mt c - mp_lr p * (IZR k * g)) in H; [exact H|].
  rewrite Nx by exact Lj. replace (truncZ (nth j row 0 / g)) with k; [|apply (whole_unique g (nth j row 0)); [exact Hg | exact Wk | now apply whole_trunc]]. unfold d. rewrite unit_nth, Nat.eqb_refl, (proj2 (Nat.ltb_lt i _)) by lia. cbn [andb]. ring.
Qed.
Lemma rows_total p u : forall l s, total (foldMM (mix_row p u) l s).
Proof. intros l s. apply total_foldMM. intros. apply mix_row_total. Qed.
Lemma rows_same p u n m l s s' i j c : mix_sized n m s -> transferable p u s -> NoDup l -> Forall (fun j => (j < m)%nat) l -> ~ List.In i l -> cell_at (d_cells (snd (x_part s))) i j = Some c -> yields (foldMM (mix_row p u) l s) s' ->
  mix_weight s' i j = mix_weight s i j /\ fst (x_part s') = fst (x_part s) /\ x_gran s' = x_gran s /\ cell_at (d_cells (snd (x_part s'))) i j = Some c.
Proof.
  intros Sz Tr ND F Ni Ec Y. destruct (rows_fold_spec p u n m l s s' i j c Sz Tr ND F Y Ec) as (c' & Ec' & M). assert (X : existsb (Nat.eqb i) l = false). { destruct (existsb _ l) eqn:X; auto. apply existsb_exists in X as (y & Iy & Ey). apply Nat.eqb_eq in Ey. subst y. contradiction. } rewrite X in M. destruct M as [_ ->].
  assert (Lc : length (x_chi s) = m) by (destruct Sz as (Pm & D & _); destruct (row_len n m _ 0%nat D Pm); auto). destruct (rows_fold_keeps p u m l s s' Lc F Y) as (K1 & K2 & _). unfold mix_weight, weight_at. rewrite K1, Ec, Ec'. auto.
Qed.
Lemma rows_average N G p u n m l s i j c k : let mt := fst (x_part s) in
  (0 < N)%nat -> G <> [] -> mix_sized n m s -> sensible u -> stochastic u -> up_res u <= 0 -> up_gs u = 1 -> 0 < m_dwmin mt -> m_std mt = 0 -> 0 < x_gran s -> mp_lr p <> 0 -> row_fits p u s n i ->
  NoDup l -> Forall (fun j => (j < m)%nat) l -> List.In i l ->
  cell_at (d_cells (snd (x_part s))) i j = Some c -> ideal_cell mt c -> room mt c (IZR (up_BL u) * m_dwmin mt) -> whole (x_gran s) (chi_at s i j) k ->
  Rabs (expect N G (foldMM (mix_row p u) l s) (fun s' => mix_weight s' i j) - (stored mt c - mp_lr p * (IZR k * x_gran s))) <= 2 * IZR (up_BL u) * m_dwmin mt / INR (S N).
Proof.
  intros mt HN HG Sz Su St Re Gs Dw Sd Hg L Fi ND F Ii Ec Ic Rm Wk. unfold mt in *. clear mt. set (e := 2 * IZR (up_BL u) * m_dwmin (fst (x_part s)) / INR (S N)). set (tgt := stored (fst (x_part s)) c - mp_lr p * (IZR k * x_gran s)).
  assert (Tr : transferable p u s) by (repeat split; auto; apply Su). assert (Lc : length (x_chi s) = m) by (destruct Sz as (Pm & D & _); destruct (row_len n m _ 0%nat D Pm); auto).
  revert s Sz Dw Sd Hg Fi Ec Ic Rm Wk Tr Lc e tgt. induction l as [|a l IH]; intros s Sz Dw Sd Hg Fi Ec Ic Rm Wk Tr Lc e tgt; [destruct Ii|]. inversion ND as [|? ? Nin ND']; subst. inversion F as [|? ? Fa F']; subst. cbn [foldMM]. rewrite expect_bind.
  assert (K : forall s1, yields (mix_row p u s a) s1 -> keeps s s1) by (intros s1 Y1; eapply mix_row_keeps; [|exact Y1]; exact Fa).
  destruct (Nat.eq_dec a i) as [-> | Ne].
  - rewrite (expect_ext _ _ _ _ (fun s1 => mix_weight s1 i j)).
    + apply (mix_row_average N G p u n (length (x_chi s)) s i j c k); auto.
    + intros s1 Y1. specialize (K s1 Y1). pose proof (keeps_sized n _ _ _ K Sz) as Sz1. pose proof (transferable_keeps _ _ _ _ K Tr) as Tr1.
      destruct (mix_row_spec p u n _ s i s1 i j c Sz Tr Fa Y1 Ec) as (c1 & Ec1 & _). rewrite (expect_ext _ _ _ _ (fun _ => mix_weight s1 i j)); [apply expect_const; [exact HG | apply rows_total]|]. intros s2 Y2. destruct (rows_same p u n _ l s1 s2 i j c1 Sz1 Tr1 ND' F' Nin Ec1 Y2) as [E _]. exact E.
  - destruct Ii as [-> | Ii]; [contradiction|]. rewrite <- (expect_const N G (mix_row p u s a) tgt HG (mix_row_total p u s a)) at 1. apply expect_close; [exact HG | apply mix_row_total|].
    intros s1 Y1. specialize (K s1 Y1). pose proof (keeps_sized n _ _ _ K Sz) as Sz1. pose proof (transferable_keeps _ _ _ _ K Tr) as Tr1. destruct (mix_row_spec p u n _ s a s1 i j c Sz Tr Fa Y1 Ec) as (c1 & Ec1 & M1). rewrite (proj2 (Nat.eqb_neq i a) (not_eq_sym Ne)) in M1. destruct M1 as [Ch ->].
    assert (Lc1 : length (x_chi s1) = length (x_chi s)). { destruct K as (_ & _ & _ & _ & _ & D & _). apply (f_equal (@length nat)) in D. unfold dims in D. now rewrite !map_length in D. }
    assert (Fi1 : row_fits p u s1 n i). { intros b kk Hb Wb. destruct K as (K1 & K2 & _). rewrite K1, K2 in *. apply (Fi b kk Hb). destruct (cell_at (d_cells (snd (x_part s))) i b) as [cb|] eqn:Eb.
      - destruct (mix_row_spec p u n _ s a s1 i b cb Sz Tr Fa Y1 Eb) as (? & _ & M1). rewrite (proj2 (Nat.eqb_neq i a) (not_eq_sym Ne)) in M1. destruct M1 as [Chb _]. now rewrite <- Chb.
      - exfalso. apply cell_at_dims in Eb. destruct Sz as (_ & _ & Dd). destruct (repeat_dims_cells n _ _ i j c Dd Ec) as [Li _]. rewrite Dd in Eb. rewrite (nth_indep _ 0%nat n) in Eb by (rewrite repeat_length; exact Li). rewrite nth_repeat in Eb. lia. }
    unfold tgt, e. destruct K as (K1 & K2 & _). rewrite <- K1, <- K2. apply IH; auto; rewrite ?K1, ?K2, ?Ch, ?Lc1; auto.
Qed.
(** The average change of a weight in an update that is due is minus [transfer_lr] times the whole
    multiples of the granularity in the digital matrix (vectors without quantization; ideal devices
    with constant step; up to the resolution of the random numbers). *)
Theorem C81_average : forall N G p u lr x d mb n m s i j c k kr, let mt := fst (x_part s) in let chi i j := chi_at s i j + lr * nth i d 0 * nth j x 0 in
  (0 < N)%nat -> G <> [] -> (mp_xb p <= 0)%Z -> (mp_db p <= 0)%Z -> lr <> 0 -> mix_good n m s -> length x = n -> length d = m -> due p mb (x_cnt s) -> mp_rows p <> 0%Z -> mp_random p = false -> transfer_rows p m kr -> addressed m (x_row s) kr i ->
  sensible u -> stochastic u -> up_res u <= 0 -> up_gs u = 1 -> 0 < m_dwmin mt -> m_std mt = 0 -> mp_lr p <> 0 ->
  (forall b z, (b < n)%nat -> whole (x_gran s) (chi i b) z -> Rabs (mp_lr p * (IZR z * x_gran s)) <= IZR (up_BL u) * m_dwmin mt) ->
  cell_at (d_cells (snd (x_part s))) i j = Some c -> ideal_cell mt c -> room mt c (IZR (up_BL u) * m_dwmin mt) -> whole (x_gran s) (chi i j) k ->
  Rabs (expect N G (mix_update p u lr x d mb s) (fun s' => mix_weight s' i j) - (stored mt c - mp_lr p * (IZR k * x_gran s))) <= 2 * IZR (up_BL u) * m_dwmin mt / INR (S N).
Proof.
  intros N G p u lr x d mb n m s i j c k kr mt chi HN HG Xb Db L (Sz & Hr & Hg) Lx Ld Du R0 Rn Kr Ad Su St Re Gs Dw Sd L0 Fi Ec Ic Rm Wk. assert (Sz0 := Sz). destruct Sz as (Pm & Dc & Dd). destruct (repeat_dims_cells n m _ i j c Dd Ec) as [Li Lj].
  unfold mix_update. rewrite (proj2 (Reqb_false _ _) L). rewrite expect_bind. unfold outer. cbv zeta. replace (mp_db p <=? 0)%Z with true by lia. replace (mp_xb p <=? 0)%Z with true by lia. cbn [andb expect]. rewrite (proj2 (due_iff p mb _) Du). rewrite expect_bind. cbn [expect].
  set (mid := with_chi s (x_part s) (ger lr d x (x_chi s))). destruct (ger_spec lr d x (x_chi s) n m Dc Ld Lx) as [Dg Hgr]. assert (Szm : mix_sized n m mid) by (split; [exact Pm | split; [cbn [mid with_chi x_chi]; rewrite Dg; exact Dc | exact Dd]]).
  assert (Em : forall b, (b < n)%nat -> chi_at mid i b = chi i b) by (intros b Hb; unfold chi, chi_at; apply Hgr; auto).
  assert (Lc : length (x_chi mid) = m) by (destruct Szm as (_ & D & _); destruct (row_len n m _ 0%nat D Pm); auto).
  change (fun a => mix_weight _ i j) with (fun a => mix_weight a i j). unfold mix_transfer. rewrite (proj2 (Z.eqb_neq _ _) R0), (proj2 (Reqb_false _ _)) by (apply Rabs_no_R0; exact L0). cbn [orb]. cbv zeta. rewrite Rn, Lc. cbn [andb bindM]. change (x_row mid) with (x_row s).
  assert (Nk : n_rows p m = kr) by (unfold transfer_rows, n_rows in *; destruct (_ <? _)%Z; now rewrite Kr). rewrite Nk. assert (Km : (kr <= m)%nat) by (unfold transfer_rows in Kr; destruct (_ <? _)%Z; lia). destruct (row_list_spec m (x_row s) kr Hr Km) as (ND & F & Al).
  set (rows := if (m - x_row s <? kr)%nat then _ else _).
  assert (Er : forall f, expect N G (s1 <~ rows ;; Ret (with_row s1 ((x_row s + kr) mod m))) f = expect N G (foldMM (mix_row p u) (row_list m (x_row s) kr) mid) (fun z => f (with_row z ((x_row s + kr) mod m)))).
  { intros f. rewrite expect_bind. cbn [expect]. unfold rows, row_list. destruct (_ <? _)%nat; [|now rewrite mix_rows_fold]. rewrite expect_bind, mix_rows_fold by auto.
    assert (Fa : forall l l' z h, expect N G (foldMM (mix_row p u) (l ++ l') z) h = expect N G (foldMM (mix_row p u) l z) (fun a => expect N G (foldMM (mix_row p u) l' a) h)). { induction l as [|b l IH]; intros l' z h; [reflexivity|]. cbn [app foldMM]. rewrite !expect_bind. apply expect_ext. intros a _. apply IH. }
    rewrite Fa. apply expect_ext. intros a Ya. rewrite mix_rows_fold; [reflexivity | exact L0|]. destruct (rows_fold_keeps p u m (seq (x_row s) (m - x_row s)) mid a Lc) as (_ & E & _); [apply Forall_forall; intros q I; apply in_seq in I; lia | exact Ya|]. rewrite E. exact Hg. }
  rewrite Er. change (fun z => mix_weight (with_row z _) i j) with (fun z => mix_weight z i j).
  apply (rows_average N G p u n m _ mid i j c k); auto.
  - intros b z Hb Wz. apply (Fi b z Hb). rewrite <- Em by exact Hb. exact Wz.
  - specialize (proj2 (Al i Li) Ad) as X. apply existsb_exists in X as (y & Iy & Ey). apply Nat.eqb_eq in Ey. now subst y.
  - rewrite Em by exact Lj. exact Wk.
Qed.

Print Assumptions C81_average.
