(** * Mixed precision: all rows are transferred in turn (C81) *)
From Verif Require Import Prelude Rand DevModel DevSpec DevProofs PulseModel PulseSpec PulseProofs PulseProps CompModel CompSpec CompProofs CompProofs3 CompProofs4 CompProps TransProofs MixModel MixSpec MixProofs MixProps MixProps3.

Lemma is_due_iff p mb cnt : is_due p mb cnt = true <-> due p mb cnt.
Proof.
  unfold is_due, due. rewrite Bool.andb_true_iff, Z.ltb_lt, existsb_exists. set (e := (mp_every p * Z.of_nat mb)%Z). split.
  - intros (H & k & I & E). apply in_seq in I. apply Z.eqb_eq in E. split; [exact H|]. split; [nia|]. eexists. exact E.
  - intros (H & C & k & E). split; [exact H|]. exists (Z.to_nat k). assert (0 < k)%Z by nia. split; [apply in_seq; nia|]. apply Z.eqb_eq. rewrite Z2Nat.id by lia. exact E.
Qed.
Lemma is_due_false p mb cnt : is_due p mb cnt = false -> ~ due p mb cnt.
Proof. intros H D. apply is_due_iff in D. congruence. Qed.
(** a due update, for all bins *)
Lemma due_update p u lr x d mb n m s s' : lr <> 0 -> mix_good n m s -> length x = n -> length d = m -> sensible u -> 0 < m_dwmin (fst (x_part s)) -> stochastic u /\ mp_lr p <> 0 \/ 0 < mp_lr p -> mp_rows p <> 0%Z -> mp_random p = false ->
  due p mb (x_cnt s) -> yields (mix_update p u lr x d mb s) s' ->
  x_row s' = ((x_row s + n_rows p m) mod m)%nat /\ forall i j, (i < m)%nat -> (j < n)%nat -> addressed m (x_row s) (n_rows p m) i -> Rabs (chi_at s' i j) < x_gran s.
Proof.
  intros L (Sz & Hr & Hg) Lx Ld Su Dw Hl R0 Rn Du Y. destruct Sz as (Pm & Dc & Dd). destruct (mix_update_split _ _ _ _ _ _ _ _ L Y) as (chi & kx & kd & s1 & Yo & Yt & _ & E). specialize (Yt Du).
  pose proof (outer_dims _ _ _ _ _ _ n m Dc Lx Ld Yo) as D1. cbn [fst] in *. set (mid := with_chi s (x_part s) chi) in *.
  assert (Szm : mix_sized n m mid) by (split; [exact Pm | split; [exact D1 | exact Dd]]). assert (L0 : mp_lr p <> 0) by (destruct Hl as [[_ H] | H]; lra).
  destruct (mix_transfer_fold p u n m mid s1 Szm R0 L0 Hg Hr Yt) as (i0 & s2 & Hi & Hs & Yf & E1). specialize (Hs (or_introl Rn)). change (x_row mid) with (x_row s) in Hs. subst i0.
  assert (Nm : (n_rows p m <= m)%nat) by (unfold n_rows; destruct (_ <? _)%Z; lia). destruct (row_list_spec m (x_row s) (n_rows p m) Hi Nm) as (ND & F & Ad).
  subst s1 s'. cbn [x_row with_row]. split; [reflexivity|]. intros i j Li Lj A. assert (Tr : transferable p u mid) by (repeat split; auto; apply Su).
  destruct (cell_at (d_cells (snd (x_part mid))) i j) as [c|] eqn:Ec. 2:{ exfalso. apply cell_at_dims in Ec. cbn [mid with_chi x_part] in Ec. rewrite Dd in Ec. rewrite (nth_indep _ 0%nat n) in Ec by (rewrite repeat_length; exact Li). rewrite nth_repeat in Ec. lia. }
  destruct (rows_fold_spec p u n m _ mid s2 i j c Szm Tr ND F Yf Ec) as (c' & Ec' & M). unfold entry_moved in M. rewrite (proj2 (Ad i Li) A) in M. destruct M as (k & (W1 & W2 & W3) & M & _). unfold chi_at in *. cbn [x_chi with_row]. rewrite M. exact W2.
Qed.
(** The rows are transferred in turn: the next row to transfer moves by the number of rows of a
    transfer with every transfer. *)
Theorem C81_position : forall p k n m os s s', mix_good n m s -> 0 < m_dwmin (fst (x_part s)) -> mp_rows p <> 0%Z -> mp_random p = false -> transfer_rows p m k -> Forall (mop_fits n m) os -> Forall (mop_sensible p) os -> mhistory p s os s' ->
  x_row s' = ((x_row s + k * transfers p os (x_cnt s)) mod m)%nat.
Proof.
  intros p k n m os. induction os as [|o os IH]; intros s s' G Dw R0 Rn Kn F1 F2 Y; assert (G0 := G); destruct G as ((Pm & _) & Hr & _); unfold mhistory in Y; cbn [foldMM] in Y.
  - apply yields_ret in Y. subst. cbn [transfers]. rewrite Nat.mul_0_r, Nat.add_0_r. symmetry. apply Nat.mod_small. exact Hr.
  - apply yields_bind in Y as (s1 & Y1 & Y). inversion F1 as [|? ? Fo F1']; subst. inversion F2 as [|? ? So F2']; subst. destruct (mix_do_good p n m s o s1 G0 Fo Y1) as [G1 E1]. rewrite (IH s1 s') by (auto; rewrite E1; exact Dw). cbn [transfers]. destruct (mix_do_rest _ _ _ _ Y1) as [C1 _]. rewrite C1.
    assert (X : x_row s1 = ((x_row s + k * (match o with MUpdate _ lr _ _ mb => if Reqb lr 0 then 0 else if is_due p mb (x_cnt s) then 1 else 0 | MOp _ => 0 end)) mod m)%nat).
    { assert (X0 : x_row s1 = x_row s -> x_row s1 = ((x_row s + k * 0) mod m)%nat) by (intros ->; rewrite Nat.mul_0_r, Nat.add_0_r; symmetry; apply Nat.mod_small; exact Hr). destruct o as [u lr x d mb | o]; cbn [mix_do] in Y1.
      - destruct (Reqb lr 0) eqn:El; [apply X0; unfold mix_update in Y1; rewrite El in Y1; apply yields_ret in Y1; now subst|]. apply Reqb_false in El. destruct (is_due p mb (x_cnt s)) eqn:D.
        + apply is_due_iff in D. destruct Fo as [Lx Ld]. destruct So as [Su Hl]. destruct (due_update p u lr x d mb n m s s1 El G0 Lx Ld Su Dw Hl R0 Rn D Y1) as [X _]. rewrite X, Nat.mul_1_r. unfold transfer_rows, n_rows in *. destruct (_ <? _)%Z; now rewrite Kn.
        + apply X0. apply is_due_false in D. now destruct (C80_not_due _ _ _ _ _ _ _ _ D Y1).
      - apply X0. apply yields_bind in Y1 as (q & _ & Y1). apply yields_ret in Y1. subst s1. destruct o; try reflexivity. contradiction. }
    rewrite X, Nat.add_mod_idemp_l by lia. f_equal. lia.
Qed.
(** So if a history has at least as many row transfers as there are rows, then each row was
    transferred, and only less than one granularity of it was left in the digital matrix. *)
Theorem C81_cover : forall p k n m os s s' i, mix_good n m s -> 0 < m_dwmin (fst (x_part s)) -> mp_rows p <> 0%Z -> mp_random p = false -> transfer_rows p m k -> Forall (mop_fits n m) os -> Forall (mop_sensible p) os -> mhistory p s os s' ->
  (m <= k * transfers p os (x_cnt s))%nat -> (i < m)%nat ->
  exists os1 o os2 s1 s2, os = os1 ++ o :: os2 /\ mhistory p s os1 s1 /\ yields (mix_do p s1 o) s2 /\ mhistory p s2 os2 s' /\ forall j, (j < n)%nat -> Rabs (chi_at s2 i j) < x_gran s.
Proof.
  intros p k n m os s s' i G Dw R0 Rn Kn F1 F2 Y T Li.
  assert (Gen : forall os s dist, mix_good n m s -> 0 < m_dwmin (fst (x_part s)) -> Forall (mop_fits n m) os -> Forall (mop_sensible p) os -> mhistory p s os s' -> (dist < k * transfers p os (x_cnt s))%nat -> (dist < m)%nat -> i = ((x_row s + dist) mod m)%nat ->
    exists os1 o os2 s1 s2, os = os1 ++ o :: os2 /\ mhistory p s os1 s1 /\ yields (mix_do p s1 o) s2 /\ mhistory p s2 os2 s' /\ forall j, (j < n)%nat -> Rabs (chi_at s2 i j) < x_gran s).
  { clear os s G Dw F1 F2 Y T. intros os. induction os as [|o os IH]; intros s dist G Dw F1 F2 Y T Hd Ei; [cbn in T; lia|]. assert (G0 := G). destruct G as ((Pm & _) & Hr & _). unfold mhistory in Y. cbn [foldMM] in Y.
    apply yields_bind in Y as (s1 & Y1 & Y). inversion F1 as [|? ? Fo F1']; subst. inversion F2 as [|? ? So F2']; subst. destruct (mix_do_good p n m s o s1 G0 Fo Y1) as [G1 E1]. destruct (mix_do_rest _ _ _ _ Y1) as [C1 Gr].
    assert (Later : forall dist', (dist' < k * transfers p os (x_cnt s1))%nat -> (dist' < m)%nat -> ((x_row s + dist) mod m = (x_row s1 + dist') mod m)%nat ->
      exists os1 o' os2 s2 s3, o :: os = os1 ++ o' :: os2 /\ mhistory p s os1 s2 /\ yields (mix_do p s2 o') s3 /\ mhistory p s3 os2 s' /\ forall j, (j < n)%nat -> Rabs (chi_at s3 ((x_row s + dist) mod m) j) < x_gran s).
    { intros dist' A B C. destruct (IH s1 dist' G1 ltac:(rewrite E1; exact Dw) F1' F2' Y A B C) as (os1 & o' & os2 & s2 & s3 & Q1 & Q2 & Q3 & Q4 & Q5). exists (o :: os1), o', os2, s2, s3. split; [now rewrite Q1|]. split; [unfold mhistory; cbn [foldMM]; apply yields_bind; exists s1; auto|]. split; [exact Q3|]. split; [exact Q4|]. rewrite <- Gr. exact Q5. }
    cbn [transfers] in T. rewrite <- C1 in T. assert (X0 : x_row s1 = x_row s -> (dist < k * transfers p os (x_cnt s1))%nat -> exists os1 o' os2 s2 s3, o :: os = os1 ++ o' :: os2 /\ mhistory p s os1 s2 /\ yields (mix_do p s2 o') s3 /\ mhistory p s3 os2 s' /\ forall j, (j < n)%nat -> Rabs (chi_at s3 ((x_row s + dist) mod m) j) < x_gran s) by (intros E T0; apply (Later dist); auto; now rewrite E).
    destruct o as [u lr x d mb | o]; cbn [mix_do] in Y1.
    - destruct (Reqb lr 0) eqn:El; [apply X0; [unfold mix_update in Y1; rewrite El in Y1; apply yields_ret in Y1; now subst | exact T]|]. apply Reqb_false in El. destruct (is_due p mb (x_cnt s)) eqn:D.
      + apply is_due_iff in D. destruct Fo as [Lx Ld]. destruct So as [Su Hl]. destruct (due_update p u lr x d mb n m s s1 El G0 Lx Ld Su Dw Hl R0 Rn D Y1) as [X Sm]. assert (Nk : n_rows p m = k) by (unfold transfer_rows, n_rows in *; destruct (_ <? _)%Z; now rewrite Kn). rewrite Nk in *.
        destruct (Nat.lt_ge_cases dist k) as [Hk | Hk].
        * exists [], (MUpdate u lr x d mb), os, s, s1. split; [reflexivity|]. split; [constructor|]. split; [exact Y1|]. split; [exact Y|]. intros j Lj. apply Sm; auto. exists dist. auto.
        * apply (Later (dist - k)%nat); [lia | lia |]. rewrite X, Nat.add_mod_idemp_l by lia. f_equal. lia.
      + apply X0; [|exact T]. apply is_due_false in D. now destruct (C80_not_due _ _ _ _ _ _ _ _ D Y1).
    - apply X0; [|exact T]. apply yields_bind in Y1 as (q & _ & Y1). apply yields_ret in Y1. subst s1. destruct o; try reflexivity. contradiction. }
  destruct G as (Sz & Hr & Hg). apply (Gen os s (if (x_row s <=? i)%nat then i - x_row s else m - x_row s + i)%nat); auto; [now split| | |].
  - destruct (Nat.leb_spec (x_row s) i); lia.
  - destruct (Nat.leb_spec (x_row s) i); lia.
  - destruct (Nat.leb_spec (x_row s) i) as [H | H]; [replace (x_row s + (i - x_row s))%nat with i by lia; symmetry; apply Nat.mod_small; lia|]. replace (x_row s + (m - x_row s + i))%nat with (i + 1 * m)%nat by lia. rewrite Nat.mod_add by lia. symmetry. apply Nat.mod_small. exact Li.
Qed.

Print Assumptions C81_position.
Print Assumptions C81_cover.
