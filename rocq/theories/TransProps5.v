(** * Chopped transfer: the weight of the tile (C76), automatic scales (C78) *)
From Verif Require Import Prelude Rand DevModel DevSpec DevProofs PulseModel PulseSpec PulseProofs PulseProps CompModel CompSpec CompProofs CompProofs2 CompProofs3 CompProofs4 CompProps CompProps3 CompProps5 CompProps6 TransModel TransSpec TransProofs TransProps TransProofs2 TransProps2 TransProofs3 TransProps3 TransProps4.

Lemma chop_sized_sized n m s : chop_sized n m s -> sized (repeat n m) (k_gam (s_c s)) (length (k_parts (s_c s))) (s_c s).
Proof. intros (W & F & G & P). repeat split; auto. Qed.
Lemma signed_sum_eq t s i j : (0 < length (k_parts (s_c s)))%nat ->
  signed_sum t s i j = weighted_sum (s_c s) i j + nth 0 (k_gam (s_c s)) 0 * (sign_at t s i j - 1) * part_weight (s_c s) 0 i j.
Proof.
  intros P. unfold signed_sum, weighted_sum. destruct (length (k_parts (s_c s))) as [|N]; [lia|]. cbn [seq map sumR Nat.eqb]. rewrite (map_ext_in (fun k => nth k (k_gam (s_c s)) 0 * (if (k =? 0)%nat then sign_at t s i j else 1) * part_weight (s_c s) k i j) (fun k => nth k (k_gam (s_c s)) 0 * part_weight (s_c s) k i j)); [lra|].
  intros k Ik. apply in_seq in Ik. replace (k =? 0)%nat with false by (symmetry; apply Nat.eqb_neq; lia). lra.
Qed.
(** what the code takes for the sign *)
Definition flat_sign (n m : nat) (s : cstate) (i j : nat) : R := if Bool.eqb (flag (s_in s) ((i * n + j) / m)) (flag (s_out s) ((i * n + j) mod m)) then 1 else -1.
Lemma chop_show_at t n m s i j : tp_hidden t = false -> chop_sized n m s -> (i < m)%nat -> (j < n)%nat ->
  tile_weight (s_c (chop_show t s)) i j = weighted_sum (s_c s) i j + nth 0 (k_gam (s_c s)) 0 * (flat_sign n m s i j - 1) * part_weight (s_c s) 0 i j.
Proof.
  intros H C Hi Hj. pose proof (chop_sized_sized _ _ _ C) as Sz. destruct (sized_show (KTransfer t) _ _ _ _ Sz) as [(_ & _ & _ & _ & _ & D) Sh]. unfold shown in Sh. cbn [hidden] in Sh. rewrite H in Sh.
  assert (Gs : k_gam (show (KTransfer t) (s_c s)) = k_gam (s_c s)) by (unfold show; destruct (hidden _); reflexivity). assert (Ps : k_parts (show (KTransfer t) (s_c s)) = k_parts (s_c s)) by (unfold show; destruct (hidden _); reflexivity).
  assert (E0 : at_ (k_w (show (KTransfer t) (s_c s))) i j = weighted_sum (s_c s) i j). { rewrite Sh, Gs, Ps. apply entry_sum. apply C. }
  unfold chop_show. cbv zeta. rewrite H, Gs, Ps. cbn [orb]. destruct (Reqb (nth 0 (k_gam (s_c s)) 0) 0) eqn:Eg.
  - apply Reqb_true in Eg. rewrite Eg. unfold tile_weight. change (k_w (s_c (put_c s (show (KTransfer t) (s_c s))))) with (k_w (show (KTransfer t) (s_c s))). rewrite E0. ring.
  - unfold tile_weight. cbn [s_c put_c s_b with_c b_c k_w with_w]. destruct (dims_lengths _ _ _ i D Hi) as [Lw Lr]. destruct (dims_lengths _ _ _ 0 D ltac:(lia)) as [_ Lr0]. unfold at_ at 1. rewrite (nth_zipi _ _ [] []) by (rewrite Lw; exact Hi). cbn [fst snd].
    rewrite (nth_zipi _ _ 0 0) by (rewrite Lr; exact Hj). cbn [fst snd]. rewrite Lw, Lr0. fold (at_ (k_w (show (KTransfer t) (s_c s))) i j). rewrite E0. reflexivity.
Qed.
Lemma show_same t s : part_at (s_c (chop_show t s)) = part_at (s_c s) /\ k_parts (s_c (chop_show t s)) = k_parts (s_c s) /\ k_gam (s_c (chop_show t s)) = k_gam (s_c s) /\ s_in (chop_show t s) = s_in s /\ s_out (chop_show t s) = s_out s.
Proof. unfold chop_show. cbv zeta. unfold show. destruct (hidden _), (_ || _)%bool; repeat split; reflexivity. Qed.
Lemma signed_sum_show t s i j : signed_sum t (chop_show t s) i j = signed_sum t s i j.
Proof. destruct (show_same t s) as (_ & P & G & I & O). unfold signed_sum, part_weight, sign_at, row_chop, col_chop. rewrite P, G, I, O. reflexivity. Qed.
Lemma chop_update_sized t p count cs lr mb n m s s' : chop_sized n m s -> yields (chop_update t p count cs lr mb s) s' -> exists s1, s' = chop_show t s1 /\ chop_sized n m s1.
Proof.
  intros C Y. unfold chop_update in Y. apply yields_bind in Y as (c1 & Y1 & Y). apply yields_bind in Y as (s1 & Y2 & Y). apply yields_ret in Y. exists s1. split; [exact Y|]. clear Y s'.
  pose proof (chop_sized_sized _ _ _ C) as Sz. set (g := k_gam (s_c s)) in *. set (N := length (k_parts (s_c s))) in *.
  assert (S1 : sized (repeat n m) g N c1) by (refine (yields_foldMM_inv _ (sized (repeat n m) g N) _ _ _ _ Sz Y1); intros; eapply transfer_call_sized; eauto).
  assert (S2 : sized (repeat n m) g N (s_c s1)).
  { unfold transfers_g in Y2. cbv zeta in Y2. refine (yields_foldMM_inv _ (fun z => sized (repeat n m) g N (s_c z)) _ _ _ _ _ Y2).
    - intros z j z' _ Sz' Yz. destruct (_ && _)%bool; [|apply yields_ret in Yz; now subst].
      assert (R : forall to from l i k a b, sized (repeat n m) g N (s_c a) -> yields (chop_read t p count to from l i k a) b -> sized (repeat n m) g N (s_c b)).
      { clear. intros to from l i k a b Sa Yr. destruct (Req_EM_T l 0) as [-> | L].
        - unfold chop_read in Yr. rewrite (proj2 (Reqb_true 0 0) eq_refl) in Yr. apply yields_ret in Yr. now subst.
        - assert (Yr1 : yields (chop_read t p count 1 0 l i 1 a) b).
          { unfold chop_read in *. rewrite (proj2 (Reqb_false l 0) L) in *. destruct (negb (to =? 1)%nat && negb (from =? 1)%nat)%bool; [now apply yields_throw in Yr|]. destruct (k =? 1)%nat; [exact Yr | now apply yields_throw in Yr]. }
          apply chop_read_mid in Yr1 as (Ym & _); [|exact L]. destruct (chop_mid_rest _ _ _ _ _ _ Ym) as (((G' & W' & _ & _ & _ & L') & _ & _) & _ & _). destruct Sa as (G & Nn & Lg & P & F & D). change (b_c (s_b b)) with (s_c b) in *. change (b_c (s_b a)) with (s_c a) in *. split; [congruence|]. split; [congruence|]. split; [exact Lg|]. split; [exact P|]. split; [|now rewrite W'].
          unfold chop_mid in Ym. cbv zeta in Ym. apply yields_bind in Ym as (out & _ & Ym). apply yields_bind in Ym as (c1 & Yc & Ym). apply yields_ret in Ym. unfold s_c. rewrite Ym. cbn [b_c]. destruct (existsb _ _); [|apply yields_ret in Yc; now subst]. eapply write_slice_pdims; [|exact Yc]. exact F. }
      unfold transfer_g in Yz. cbv zeta in Yz. apply yields_bind in Yz as (i0 & _ & Yz). apply yields_bind in Yz as (z1 & Yz & E). apply yields_ret in E. subst z'. assert (Z1 : sized (repeat n m) g N (s_c z1)).
      { destruct (_ <? _)%nat; [apply yields_bind in Yz as (a & Ya & Yz)|]; eapply R; [eapply R; [exact Sz' | exact Ya] | exact Yz | exact Sz' | exact Yz]. }
      destruct Z1 as (G & Nn & Lg & P & F & D). repeat split; assumption.
    - destruct S1 as (G & Nn & Lg & P & F & D). repeat split; assumption. }
  destruct S2 as (G & Nn & Lg & P & F & D). split; [exact D|]. split; [exact F|]. unfold part in *. rewrite G, Nn. auto.
Qed.
(** After every update the weights of a square tile with row transfer are the documented sum ... *)
Theorem C76_rows : forall t p count cs lr mb n s s', tp_hidden t = false -> tp_columns t = false -> chop_sized n n s -> yields (chop_update t p count cs lr mb s) s' ->
  forall i j, (i < n)%nat -> (j < n)%nat -> tile_weight (s_c s') i j = signed_sum t s' i j.
Proof.
  intros t p count cs lr mb n s s' H Co C Y i j Hi Hj. destruct (chop_update_sized _ _ _ _ _ _ _ _ _ _ C Y) as (s1 & -> & C1). rewrite signed_sum_show, (chop_show_at t n n s1 i j H C1 Hi Hj), signed_sum_eq by apply C1.
  do 3 f_equal. f_equal. unfold flat_sign, sign_at, row_chop, col_chop. rewrite Co. rewrite Nat.div_add_l, (Nat.div_small j n Hj), Nat.add_0_r by lia. replace ((i * n + j) mod n)%nat with j; [reflexivity|]. rewrite Nat.add_comm, Nat.mod_add by lia. symmetry. now apply Nat.mod_small.
Qed.
(** ... and in general while all choppers agree; *)
Theorem C76_unchopped : forall t p count cs lr mb n m s s' b, tp_hidden t = false -> chop_sized n m s -> yields (chop_update t p count cs lr mb s) s' ->
  (forall k, (k < Nat.max n m)%nat -> nth k (s_in s') false = b /\ nth k (s_out s') false = b) ->
  forall i j, (i < m)%nat -> (j < n)%nat -> tile_weight (s_c s') i j = signed_sum t s' i j /\ signed_sum t s' i j = weighted_sum (s_c s') i j.
Proof.
  intros t p count cs lr mb n m s s' b H C Y Hb i j Hi Hj. destruct (chop_update_sized _ _ _ _ _ _ _ _ _ _ C Y) as (s1 & -> & C1). destruct (show_same t s1) as (_ & Pp & Gg & I & O). rewrite I, O in Hb.
  assert (Sg : sign_at t s1 i j = 1). { unfold sign_at, row_chop, col_chop. destruct (Hb i ltac:(lia)) as [B1 B2]. destruct (Hb j ltac:(lia)) as [B3 B4]. destruct (tp_columns t); rewrite ?B1, ?B2, ?B3, ?B4; now rewrite Bool.eqb_reflx. }
  assert (D : ((i * n + j) / m < n)%nat) by (apply Nat.div_lt_upper_bound; [lia|]; pose proof (Nat.mul_le_mono_r (S i) m n ltac:(lia)); cbn [Nat.mul] in *; lia). assert (Mo : ((i * n + j) mod m < m)%nat) by (apply Nat.mod_upper_bound; lia).
  assert (Fs : flat_sign n m s1 i j = 1). { unfold flat_sign, flag. rewrite (proj1 (Hb ((i * n + j) / m)%nat ltac:(lia))), (proj2 (Hb ((i * n + j) mod m)%nat ltac:(lia))). now rewrite Bool.eqb_reflx. }
  assert (W : weighted_sum (s_c (chop_show t s1)) i j = weighted_sum (s_c s1) i j) by (unfold weighted_sum, part_weight; rewrite Pp, Gg; reflexivity).
  rewrite signed_sum_show, (chop_show_at t n m s1 i j H C1 Hi Hj), W, signed_sum_eq, Sg, Fs by apply C1. lra.
Qed.

(** but with column transfer, the default, the code takes the signs of other cross points, because
    it reads the weights column by column although they are stored row by row. *)
Definition part2 (a b c d : R) : part := (mt0, {| d_cells := [[cell0 a; cell0 b]; [cell0 c; cell0 d]]; d_now := 0; d_fresh := true |}).
Definition chop2 : cstate :=
  {| s_b := {| b_c := {| k_parts := [part2 0 (1/2) 0 0; part2 0 0 0 0]; k_gam := [1; 1]; k_w := [[0; 1/2]; [0; 0]]; k_idx := 0; k_cnt := 0; k_slices := [0%nat; 0%nat] |}; b_buf := [[[0; 0]; [0; 0]]] |};
     s_in := [true; false]; s_out := [false; false]; s_cnt := 0 |}.
Lemma chop_update_idle t p count lr mb s : tp_every t = [0; 0] -> tp_mb t = false -> 0 <= cp_every p -> length (k_parts (s_c s)) = 2%nat ->
  chop_update t p count [] lr mb s = Ret (chop_show t (put_c s (with_idx (s_c s) 0 (S (k_cnt (s_c s)))))).
Proof.
  intros Ev Mb Ce L. unfold chop_update. cbn [map foldMM bindM]. unfold transfers_g. cbv zeta. change (s_c (put_c s (s_c s))) with (s_c s). rewrite L. cbn [seq foldMM].
  assert (Z : forall c j, chop_every t p c j mb = 0%nat). { intros c j. unfold chop_every. rewrite (proj2 (Rltb_false _ 0)) by lra. unfold transfer_every. rewrite Mb, Ev. destruct j as [|[|j]]; cbn [nth]; [ | |destruct j]; now rewrite ?roundf_0. }
  rewrite Z. cbn [Nat.ltb Nat.leb andb bindM]. rewrite Z. cbn [Nat.ltb Nat.leb andb bindM]. reflexivity.
Qed.
Theorem C76_columns_refuted : let t := tpar_ex [1; 1] false [0; 0] in exists s', tp_columns t = true /\ tp_hidden t = false /\ chop_sized 2 2 chop2 /\ yields (chop_update t (cpar_ex (1/10) true) 1 [] 1 1 chop2) s' /\
  sign_at t s' 0 1 = 1 /\ signed_sum t s' 0 1 = 1/2 /\ tile_weight (s_c s') 0 1 = - (1/2).
Proof.
  cbv zeta. set (t := tpar_ex [1; 1] false [0; 0]). set (s1 := put_c chop2 (with_idx (s_c chop2) 0 (S (k_cnt (s_c chop2))))). exists (chop_show t s1). assert (C : chop_sized 2 2 s1) by (repeat split; try (cbn; lia); repeat constructor).
  split; [reflexivity|]. split; [reflexivity|]. split; [repeat split; try (cbn; lia); repeat constructor|]. split; [rewrite chop_update_idle; [apply yields_ret; reflexivity | reflexivity | reflexivity | cbn; lra | reflexivity]|].
  split. { destruct (show_same t s1) as (_ & _ & _ & I & O). unfold sign_at, row_chop, col_chop. rewrite I, O. reflexivity. }
  rewrite signed_sum_show, (chop_show_at t 2 2 s1 0 1 eq_refl C ltac:(lia) ltac:(lia)). assert (Z : part_weight (s_c s1) 0 0 1 = 1/2) by (cbn; lra). 
  assert (Z1 : part_weight (s_c s1) 1 0 1 = 0) by (cbn; lra).
  split.
  - rewrite signed_sum_eq by (cbn; lia). unfold weighted_sum. change (length (k_parts (s_c s1))) with 2%nat. cbn [seq map sumR]. rewrite Z, Z1. change (sign_at t s1 0 1) with 1. change (nth 0 (k_gam (s_c s1)) 0) with 1. change (nth 1 (k_gam (s_c s1)) 0) with 1. lra.
  - unfold weighted_sum. change (length (k_parts (s_c s1))) with 2%nat. cbn [seq map sumR]. rewrite Z, Z1. change (flat_sign 2 2 s1 0 1) with (-1). change (nth 0 (k_gam (s_c s1)) 0) with 1. change (nth 1 (k_gam (s_c s1)) 0) with 1. lra.
Qed.
(** A fully hidden device shows the last crossbar. *)
Theorem C76_hidden : forall t p count cs lr mb s s', tp_hidden t = true -> yields (chop_update t p count cs lr mb s) s' -> forall i j, tile_weight (s_c s') i j = part_weight (s_c s') (length (k_parts (s_c s')) - 1) i j.
Proof.
  intros t p count cs lr mb s s' H Y i j. unfold chop_update in Y. apply yields_bind in Y as (c1 & _ & Y). apply yields_bind in Y as (s1 & _ & Y). apply yields_ret in Y. subst s'. destruct (show_same t s1) as (_ & P & _). unfold tile_weight, part_weight. rewrite P.
  unfold chop_show. cbv zeta. rewrite H. cbn [orb]. unfold show. cbn [hidden]. rewrite H. cbn [s_c put_c s_b with_c b_c with_w k_w]. rewrite <- last_nth. reflexivity.
Qed.

(** ** Automatic scale (C78) *)
(** the averages of the largest inputs after the updates with largest inputs [vs] (with the mini
    batch sizes) *)
Definition averages (mom : R) (vs : list (R * nat)) (m : R) : R := fold_left (fun m v => auto_scale mom (snd v) m (fst v)) vs m.
(** The averages stay between the smallest and the largest positive inputs. *)
Theorem C78_range : forall mom lo hi vs m, 0 <= mom <= 1 -> 0 < lo -> (m = 0 \/ lo <= m <= hi) -> Forall (fun v => (fst v = 0 \/ lo <= fst v <= hi) /\ (0 < snd v)%nat) vs ->
  (averages mom vs m = 0 /\ m = 0 /\ Forall (fun v => fst v = 0) vs) \/ lo <= averages mom vs m <= hi.
Proof.
  intros mom lo hi vs. induction vs as [|[v mb] vs IH]; intros m Hm Hl H F; [cbn; destruct H; auto|]. inversion F as [|? ? [Hv Hb] F']; subst. cbn [fst snd] in *. unfold averages. cbn [fold_left fst snd]. fold (averages mom vs (auto_scale mom mb m v)).
  assert (A : (auto_scale mom mb m v = 0 /\ m = 0 /\ v = 0) \/ lo <= auto_scale mom mb m v <= hi).
  { unfold auto_scale. destruct (Rleb m 0) eqn:E1; [apply Rleb_true in E1; assert (m = 0) by lra; subst; destruct Hv; auto|]. apply Rleb_false in E1. destruct (Rleb v 0) eqn:E2; [right; lra|]. apply Rleb_false in E2. right.
    assert (Hn : 1 <= INR mb) by (change 1 with (INR 1); apply le_INR; lia). set (tau := (1 - mom) / INR mb). assert (T : 0 <= tau <= 1). { unfold tau. split; [apply Rmult_le_pos; [lra | left; apply Rinv_0_lt_compat; lra] | apply (Rmult_le_reg_r (INR mb)); [lra|]; unfold Rdiv; rewrite Rmult_assoc, Rinv_l by lra; lra]. }
    assert (lo <= m <= hi) by (destruct H; lra). assert (lo <= v <= hi) by (destruct Hv; lra). split; nra. }
  destruct A as [(A & M0 & V0) | A].
  - destruct (IH (auto_scale mom mb m v) Hm Hl (or_introl A) F') as [(B & _ & D) | B]; [left; auto | right; exact B].
  - destruct (IH (auto_scale mom mb m v) Hm Hl (or_intror A) F') as [(_ & B & _) | B]; [lra | right; exact B].
Qed.
(** Constant inputs give their value, and a first input is taken over. *)
Theorem C78_constant : forall mom v n mb, 0 < v -> (0 < mb)%nat -> averages mom (repeat (v, mb) (S n)) 0 = v.
Proof.
  intros mom v n mb V Hb. unfold averages. cbn [repeat fold_left fst snd]. assert (E0 : auto_scale mom mb 0 v = v) by (unfold auto_scale; rewrite (proj2 (Rleb_true 0 0)) by lra; reflexivity). rewrite E0. clear E0. induction n as [|n IH]; [reflexivity|]. cbn [repeat fold_left fst snd].
  replace (auto_scale mom mb v v) with v; [exact IH|]. unfold auto_scale. rewrite !(proj2 (Rleb_false v 0)) by lra. lra.
Qed.
(** the documented learning rate of the fast crossbar *)
Definition final_fast_lr (auto scale_fast : bool) (fast_lr lr mx md BL dw : R) : R :=
  let base := if Rltb 0 fast_lr then (if scale_fast then fast_lr * lr else fast_lr) else lr in
  if auto then base * BL * dw / (mx * md) else base.
Theorem C78_fast_lr : forall auto scale_fast fast_lr lr mx md BL dw, 0 < mx -> 0 < md -> auto = false \/ 0 < fast_lr ->
  count_lr_of auto scale_fast fast_lr lr mx md BL dw = final_fast_lr auto scale_fast fast_lr lr mx md BL dw.
Proof.
  intros auto sf fl lr mx md BL dw X D H. unfold count_lr_of, final_fast_lr. cbv zeta. destruct auto; [|reflexivity]. destruct H as [H | H]; [discriminate|]. rewrite (proj2 (Rltb_true 0 fl) H), (proj2 (Rltb_true 0 mx) X), (proj2 (Rltb_true 0 md) D). cbn [andb]. destruct sf; field; lra.
Qed.
(** So the largest inputs give [fast_lr * desired_BL] pulses of the fast crossbar. *)
Theorem C78_pulses : forall fast_lr lr mx md BL dw, 0 < mx -> 0 < md -> 0 < fast_lr -> 0 < dw -> count_lr_of true false fast_lr lr mx md BL dw * mx * md / dw = fast_lr * BL.
Proof. intros. rewrite C78_fast_lr by auto. unfold final_fast_lr. rewrite (proj2 (Rltb_true 0 fast_lr)) by lra. field. lra. Qed.
(** If [fast_lr] is not set there is no automatic scale, contrary to the documentation. *)
Theorem C78_fast_lr_refuted : count_lr_of true false 0 1 2 2 10 (1/10) = 1 /\ final_fast_lr true false 0 1 2 2 10 (1/10) = 1/4.
Proof. unfold count_lr_of, final_fast_lr. cbv zeta. rewrite (proj2 (Rltb_false 0 0)) by lra. cbn [andb]. lra. Qed.
Example C78_example : Forall (fun v : R * nat => (fst v = 0 \/ 1 <= fst v <= 3) /\ (0 < snd v)%nat) [(2, 1%nat); (0, 4%nat); (3, 2%nat)].
Proof. constructor; [|constructor; [|constructor; [|constructor]]]; cbn [fst snd]; (split; [lra || (left; lra) || (right; lra) | lia]). Qed.
Example C76_example : let t := {| tp_columns := false; tp_reads := 1; tp_every := [0; 0]; tp_mb := false; tp_lrs := [1; 1]; tp_scale := false; tp_reset := 0; tp_random := false; tp_hidden := false; tp_up := up_ex; tp_read := fun w x => Ret (map (fun row => sumR (map2 Rmult row x)) w) |} in
  chop_sized 2 2 chop2 /\ exists s', yields (chop_update t (cpar_ex (1/10) true) 1 [] 1 1 chop2) s' /\ sign_at t s' 0 1 = -1.
Proof.
  cbv zeta. split; [repeat split; try (cbn; lia); repeat constructor|]. eexists. split; [rewrite chop_update_idle; [apply yields_ret; reflexivity | reflexivity | reflexivity | cbn; lra | reflexivity]|].
  match goal with |- sign_at ?t (chop_show ?t ?s) _ _ = _ => destruct (show_same t s) as (_ & _ & _ & I & O); unfold sign_at, row_chop, col_chop; rewrite I, O; reflexivity end.
Qed.

Print Assumptions C76_rows.
Print Assumptions C76_unchopped.
Print Assumptions C76_columns_refuted.
Print Assumptions C76_hidden.
Print Assumptions C78_range.
Print Assumptions C78_constant.
Print Assumptions C78_fast_lr.
Print Assumptions C78_pulses.
Print Assumptions C78_fast_lr_refuted.
