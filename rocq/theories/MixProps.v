(** * Mixed precision: the outer product (C79) and the schedule of the transfers (C80) *)
From Verif Require Import Prelude Rand DevModel DevSpec DevProofs PulseModel PulseSpec PulseProofs PulseProps CompModel CompSpec CompProofs CompProofs3 CompProofs4 TransProofs MixModel MixSpec MixProofs.

Lemma due_iff p mb cnt : mix_due p mb cnt = true <-> due p mb cnt.
Proof.
  unfold mix_due, due. cbv zeta. rewrite !Bool.andb_true_iff, !Z.ltb_lt, Z.eqb_eq. set (e := (mp_every p * Z.of_nat mb)%Z). split.
  - intros [[H1 H2] H3]. split; [exact H1|]. split; [lia|]. apply Z.mod_divide in H3; [|lia]. destruct H3 as [k E]. exists k. exact E.
  - intros (H1 & H2 & k & E). split; [split; [exact H1 | lia]|]. rewrite E. apply Z.mod_mul. lia.
Qed.
Lemma not_due p mb cnt : ~ due p mb cnt -> mix_due p mb cnt = false.
Proof. intros H. destruct (mix_due p mb cnt) eqn:E; auto. exfalso. apply H. now apply due_iff. Qed.
Lemma mix_update_split p u lr x d mb s s' : lr <> 0 -> yields (mix_update p u lr x d mb s) s' -> exists chi kx kd s1,
  yields (outer p lr x d (x_chi s)) (chi, kx, kd) /\ (due p mb (x_cnt s) -> yields (mix_transfer p u (with_chi s (x_part s) chi)) s1) /\ (~ due p mb (x_cnt s) -> s1 = with_chi s (x_part s) chi) /\
  s' = {| x_part := x_part s1; x_chi := x_chi s1; x_gran := x_gran s1; x_row := x_row s1; x_cnt := S (x_cnt s1); x_avg := next_avg p (x_cnt s1) (length x) (length d) kx kd (x_avg s1) |}.
Proof.
  intros L Y. unfold mix_update in Y. rewrite (proj2 (Reqb_false _ _) L) in Y. apply yields_bind in Y as ([[chi kx] kd] & Yo & Y). cbv zeta in Y. apply yields_bind in Y as (s1 & Y1 & Y). apply yields_ret in Y.
  exists chi, kx, kd, s1. split; [exact Yo|]. split; [|split; [|exact Y]].
  - intros H. apply due_iff in H. now rewrite H in Y1.
  - intros H. apply not_due in H. rewrite H in Y1. now apply yields_ret in Y1.
Qed.

(** C79: an update adds the learning rate times the outer product to the digital matrix, and does
    not touch the device unless a transfer is due *)
Theorem C79_outer : forall p u lr x d mb n m s s', bins_ok p -> lr <> 0 -> mix_sized n m s -> length x = n -> length d = m -> ~ due p mb (x_cnt s) ->
  yields (mix_update p u lr x d mb s) s' -> accumulated p lr x d (x_chi s) (x_chi s') /\ x_part s' = x_part s.
Proof.
  intros p u lr x d mb n m s s' B L (Pm & Dc & Dd) Lx Ld Nd Y. destruct (mix_update_split _ _ _ _ _ _ _ _ L Y) as (chi & kx & kd & s1 & Yo & _ & E1 & E). specialize (E1 Nd). subst s1 s'. cbn [x_chi x_part with_chi].
  split; [|reflexivity]. apply (outer_spec p lr x d (x_chi s) (chi, kx, kd) n m); auto.
Qed.
(** the error of quantization *)
Lemma quantized_error nb sto v q k : (nb <= 0)%Z \/ (2 <= nb)%Z -> quantized nb sto v q -> Rabs (nth k q 0 - nth k v 0) <= q_error nb sto v /\ Rabs (nth k q 0) <= maxabs v.
Proof.
  intros Hn [L H]. unfold q_error. destruct (Z.leb_spec nb 0).
  - subst q. rewrite Rminus_eq_0, Rabs_R0. split; [lra | apply maxabs_ge].
  - cbv zeta in *. destruct (H k) as (_ & A & B). auto.
Qed.
Theorem C79_error : forall p lr x d chi chi' i j, bins_ok p -> accumulated p lr x d chi chi' -> (i < length d)%nat -> (j < length x)%nat ->
  Rabs (at_ chi' i j - (at_ chi i j + lr * nth i d 0 * nth j x 0)) <= Rabs lr * (maxabs x * q_error (mp_db p) (mp_stod p) d + maxabs d * q_error (mp_xb p) (mp_stox p) x).
Proof.
  intros p lr x d chi chi' i j B (qx & qd & Qx & Qd & _ & H) Li Lj. rewrite H by auto.
  assert (B1 : (mp_xb p <= 0 \/ 2 <= mp_xb p)%Z /\ (mp_db p <= 0 \/ 2 <= mp_db p)%Z) by (destruct B; lia). destruct B1 as [B1 B2].
  destruct (quantized_error _ _ _ _ j B1 Qx) as [Ex Bx]. destruct (quantized_error _ _ _ _ i B2 Qd) as [Ed Bd].
  replace (at_ chi i j + lr * nth i qd 0 * nth j qx 0 - (at_ chi i j + lr * nth i d 0 * nth j x 0)) with (lr * (nth j qx 0 * (nth i qd 0 - nth i d 0) + nth i d 0 * (nth j qx 0 - nth j x 0))) by ring.
  rewrite Rabs_mult. apply Rmult_le_compat_l; [apply Rabs_pos|]. eapply Rle_trans; [apply Rabs_triang|]. rewrite !Rabs_mult. pose proof (maxabs_ge d i). pose proof (maxabs_ge x j).
  apply Rplus_le_compat; apply Rmult_le_compat; auto using Rabs_pos.
Qed.
(** With only one of the two numbers of bins set, the error vector is lost: all but one row get
    nothing, and that row gets the last entry of d *)
Definition one_bin_par : mpar := {| mp_xb := 0; mp_db := 2; mp_stox := false; mp_stod := false; mp_every := 1; mp_rows := -1; mp_random := false; mp_lr := 1; mp_gran := 1; mp_sparsity := false |}.
Theorem C79_one_side_refuted : forall u q, dims (d_cells (snd q)) = [2; 2]%nat -> exists s s', mix_make one_bin_par q = Ok s /\ yields (mix_update one_bin_par u 1 [3; 5] [1; -1] 1 s) s' /\
  chi_at s' 0 0 = 0 /\ chi_at s' 0 1 = 0 /\ chi_at s' 1 0 = -3 /\ chi_at s' 1 1 = -5.
Proof.
  intros u q D. eexists. eexists. split.
  { unfold mix_make, one_bin_par. cbn [mp_gran]. rewrite (proj2 (Rltb_true 0 1)) by lra. rewrite (proj2 (Rleb_false 1 0)) by lra. reflexivity. }
  assert (Ez : zeros_like (d_cells (snd q)) = [[0; 0]; [0; 0]]).
  { destruct (d_cells (snd q)) as [|r1 [|r2 [|]]]; try discriminate. unfold dims in D. cbn in D. injection D as D1 D2. destruct r1 as [|? [|? [|]]]; try discriminate. destruct r2 as [|? [|? [|]]]; try discriminate. reflexivity. }
  split.
  { unfold mix_update. rewrite (proj2 (Reqb_false 1 0)) by lra. apply yields_bind. eexists. split.
    - unfold outer. cbn [one_bin_par mp_db mp_xb mp_stox mp_stod]. cbv zeta. cbn [Z.leb Z.eqb andb orb Z.compare Pos.eqb]. apply yields_bind. exists [3; 5]. split; [apply yields_mapMM; repeat constructor|].
      assert (W : bin_width 2 [1; -1] = 1). { unfold bin_width, half_bins. change (2 / 2)%Z with 1%Z. assert (E : maxabs [1; -1] / IZR 1 = 1). { unfold maxabs. cbn. rewrite Rabs_R1, (Rabs_left (-1)) by lra. rewrite ?Rmax_left by (rewrite ?Rmax_left by lra; lra). lra. } cbv zeta. rewrite E. rewrite (proj2 (Reqb_false 1 0)) by lra. reflexivity. }
      rewrite W. apply yields_bind. exists [1; -1]. split.
      + apply yields_mapMM. repeat constructor; unfold quant, to_bin; cbn [Z.ltb Z.compare bindM].
        * replace (1 / 1 + 0) with (IZR 1) by lra. rewrite rhe_IZR. apply yields_ret. unfold from_bin, half_bins. change (2 / 2)%Z with 1%Z. cbn [Z.min Z.max Z.opp Z.compare Pos.compare Pos.compare_cont]. lra.
        * replace (-1 / 1 + 0) with (IZR (-1)) by lra. rewrite rhe_IZR. apply yields_ret. unfold from_bin, half_bins. change (2 / 2)%Z with 1%Z. cbn [Z.min Z.max Z.opp Z.compare Pos.compare Pos.compare_cont CompOpp]. lra.
      + cbn [length Nat.leb Nat.sub]. constructor.
    - cbv zeta. unfold mix_due. cbn [x_cnt one_bin_par mp_every Z.of_nat Z.ltb Z.mul Z.compare andb Pos.mul Pos.of_succ_nat]. cbn [bindM]. constructor. }
  unfold chi_at. cbn [x_chi with_chi]. rewrite Ez. cbn. repeat split; ring.
Qed.

Print Assumptions C79_outer.
Print Assumptions C79_error.
Print Assumptions C79_one_side_refuted.
