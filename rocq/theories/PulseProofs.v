(** * Pulsed update: proofs *)
From Verif Require Import Prelude Rand DevModel DevSpec DevProofs PulseModel PulseSpec.

Lemma ceilZ_spec x : IZR (ceilZ x) - 1 < x <= IZR (ceilZ x).
Proof. unfold ceilZ. rewrite opp_IZR. pose proof (floorZ_spec (- x)). lra. Qed.
Lemma maxabs_ge v i : Rabs (nth i v 0) <= maxabs v.
Proof.
  revert i. induction v as [|a v IH]; intros [|i]; cbn [nth maxabs fold_right].
  - rewrite Rabs_R0. lra.
  - rewrite Rabs_R0. lra.
  - apply Rmax_l.
  - eapply Rle_trans; [apply IH|]. apply Rmax_r.
Qed.
Lemma maxabs_pos v : 0 <= maxabs v.
Proof. pose proof (maxabs_ge v (length v)) as H. rewrite nth_overflow in H by lia. rewrite Rabs_R0 in H. exact H. Qed.

(** ** Train lengths and factors *)
Section lengths.
Variables (u : upar) (lr g xm dm : R).
Hypotheses (Hs : sensible u) (Hlr : 0 < lr) (Hg : 0 < g) (Hx : 0 < xm) (Hd : 0 < dm).
Let BL1 : 1 <= IZR (up_BL u).
Proof. destruct Hs as [H _]. now apply IZR_le in H. Qed.

Lemma sq_mul a b : 0 <= a -> 0 <= b -> sqrt a * sqrt b = sqrt (a * b).
Proof. intros. now rewrite sqrt_mult. Qed.
Lemma calc_spec BL A B : calc_bl u lr g = Ok (BL, A, B) ->
  A = B /\ 0 < A /\ (1 <= BL)%Z /\
  ((up_fixed u = true \/ up_ublm u = true \/ lr <= g * IZR (up_BL u)) -> BL = up_BL u /\ IZR BL * A * B * g = lr) /\
  (up_fixed u = false -> up_ublm u = false -> g * IZR (up_BL u) < lr -> A = 1 /\ BL = ceilZ (lr / g) /\ lr <= IZR BL * g < lr + g).
Proof.
  unfold calc_bl. rewrite (proj2 (Rltb_false lr 0)), (proj2 (Reqb_false lr 0)) by lra. cbv zeta.
  assert (Q : 0 < lr / (g * IZR (up_BL u))) by (apply Rdiv_lt_0_compat; auto; apply Rmult_lt_0_compat; lra).
  assert (F : IZR (up_BL u) * sqrt (lr / (g * IZR (up_BL u))) * sqrt (lr / (g * IZR (up_BL u))) * g = lr).
  { rewrite (Rmult_assoc (IZR _)), sqrt_sqrt by lra. field. split; lra. }
  assert (N0 : 0 < sqrt (lr / (g * IZR (up_BL u)))) by now apply sqrt_lt_R0.
  destruct Hs as [Hb _].
  destruct (up_fixed u || up_ublm u)%bool eqn:Ef; [|destruct (Rltb (g * IZR (up_BL u)) lr) eqn:El].
  - intros E. injection E as <- <- <-. repeat split; auto; intros; apply orb_prop in Ef; destruct Ef; congruence.
  - intros E. injection E as <- <- <-. apply Rltb_true in El. pose proof (ceilZ_spec (lr / g)) as C.
    assert (1 < IZR (ceilZ (lr / g)) + 0).
    { assert (IZR (up_BL u) < lr / g) by (apply (Rmult_lt_reg_r g); auto; unfold Rdiv; rewrite Rmult_assoc, Rinv_l by lra; lra). lra. }
    assert (1 < ceilZ (lr / g))%Z by (apply lt_IZR; lra).
    rewrite Z.max_l by lia. apply orb_false_elim in Ef as [E1 E2].
    assert (lr / g * g = lr) by (field; lra).
    repeat split; auto; try lra; try lia; intros; try (destruct H2 as [H2 | [H2 | H2]]; congruence || lra); nra.
  - intros E. injection E as <- <- <-. apply Rltb_false in El. apply orb_false_elim in Ef as [E1 E2]. repeat split; auto; try (intros; lra).
Qed.
Lemma um_core A0 dv xv : 0 < A0 -> 0 < dv -> 0 < xv ->
  let A := A0 * sqrt (xv / dv) in let B := A0 * sqrt (dv / xv) in
  0 < A /\ 0 < B /\ A * B = A0 * A0 /\ (B * xv) * (B * xv) = A0 * A0 * (dv * xv) /\ (A * dv) * (A * dv) = A0 * A0 * (dv * xv).
Proof.
  intros HA Hdv Hxv A B. assert (Q1 : 0 < xv / dv) by now apply Rdiv_lt_0_compat. assert (Q2 : 0 < dv / xv) by now apply Rdiv_lt_0_compat.
  pose proof (sqrt_lt_R0 _ Q1). pose proof (sqrt_lt_R0 _ Q2). unfold A, B.
  assert (E1 : sqrt (xv / dv) * sqrt (xv / dv) = xv / dv) by (apply sqrt_sqrt; lra).
  assert (E2 : sqrt (dv / xv) * sqrt (dv / xv) = dv / xv) by (apply sqrt_sqrt; lra).
  assert (E3 : sqrt (xv / dv) * sqrt (dv / xv) = 1).
  { rewrite <- sqrt_mult by lra. replace (xv / dv * (dv / xv)) with 1 by (field; split; lra). apply sqrt_1. }
  repeat split.
  - now apply Rmult_lt_0_compat.
  - now apply Rmult_lt_0_compat.
  - transitivity (A0 * A0 * (sqrt (xv / dv) * sqrt (dv / xv))); [ring | rewrite E3; ring].
  - transitivity (A0 * A0 * (sqrt (dv / xv) * sqrt (dv / xv)) * xv * xv); [ring | rewrite E2; field; lra].
  - transitivity (A0 * A0 * (sqrt (xv / dv) * sqrt (xv / dv)) * dv * dv); [ring | rewrite E1; field; lra].
Qed.
Lemma sq_le_1 a : 0 <= a -> a * a <= 1 -> a <= 1.
Proof. intros. nra. Qed.
Lemma manage_spec BL A B : (up_ublm u = true -> up_um u = true) -> (up_um u = true \/ up_ublm u = true) ->
  manage_bl u xm dm lr g = Ok (BL, A, B) ->
  0 < A /\ 0 < B /\ (1 <= BL)%Z /\
  (up_fixed u = true \/ up_ublm u = true \/ lr <= g * IZR (up_BL u) -> (BL <= up_BL u)%Z /\ IZR BL * A * B * g = lr) /\
  (up_fixed u = false -> up_ublm u = false -> g * IZR (up_BL u) < lr -> BL = ceilZ (lr / g) /\ lr <= IZR BL * A * B * g < lr + g) /\
  B * xm <= 1 /\
  (up_gs u = 1 -> lr * xm * dm <= g * IZR (up_BL u) -> A * dm <= 1).
Proof.
  intros Hi Hm. assert (Um : up_um u = true) by (destruct Hm; auto). unfold manage_bl.
  destruct (calc_bl u lr g) as [[[BL0 A0] B0]|] eqn:Ec; [|discriminate]. cbn [bind].
  apply calc_spec in Ec as (<- & PA0 & PB0 & Fit & Over).
  rewrite (proj2 (Rltb_true 0 lr)), (proj2 (Reqb_false dm 0)), (proj2 (Reqb_false xm 0)) by lra. cbn [orb]. rewrite Um, orb_true_r.
  destruct Hs as [Hb Hgs]. cbv zeta. set (k := lr * xm * (up_gs u * dm) / g). set (dv := up_gs u * dm).
  assert (Pdv : 0 < dv) by (now apply Rmult_lt_0_compat).
  assert (Pk : 0 < k) by (unfold k, Rdiv; repeat apply Rmult_lt_0_compat; auto; now apply Rinv_0_lt_compat).
  assert (Ek : dv * xm = k * g / lr) by (unfold k, dv; field; split; lra).
  set (dv' := if Rltb (IZR (up_BL u)) k then dv * (IZR (up_BL u) / k) else dv). set (m := Rmin k (IZR (up_BL u))).
  assert (Pm : 0 < m) by (unfold m; mm).
  assert (Em : dv' * xm = m * g / lr).
  { unfold dv', m. destruct (Rltb (IZR (up_BL u)) k) eqn:E; [apply Rltb_true in E; rewrite Rmin_right by lra | apply Rltb_false in E; rewrite Rmin_left by lra; auto].
    transitivity (dv * xm * (IZR (up_BL u) / k)); [ring|]. rewrite Ek. field. split; lra. }
  assert (Pdv' : 0 < dv').
  { unfold dv'. destruct (Rltb (IZR (up_BL u)) k); auto. apply Rmult_lt_0_compat; auto. apply Rdiv_lt_0_compat; lra. }
  assert (Nd : up_gs u = 1 -> lr * xm * dm <= g * IZR (up_BL u) -> dv' = dm).
  { intros G1 Hf. unfold dv', dv, k. rewrite G1. rewrite (proj2 (Rltb_false _ _)); [ring|]. apply (Rmult_le_reg_r g); auto. unfold Rdiv. rewrite Rmult_assoc, Rinv_l by lra. lra. }
  set (bl := Z.min (ceilZ k) (up_BL u)). set (a := sqrt (lr / (g * IZR bl))).
  assert (Hbl : m <= IZR bl /\ (1 <= bl)%Z).
  { pose proof (ceilZ_spec k) as C. assert (0 < ceilZ k)%Z by (apply lt_IZR; lra). split; [|unfold bl; lia].
    unfold bl, m. destruct (Z.min_spec (ceilZ k) (up_BL u)) as [[? ->] | [? ->]]; mm. }
  destruct Hbl as [Hbl1 Hbl2]. assert (Hbl3 : 1 <= IZR bl) by now apply IZR_le in Hbl2.
  assert (Qa : 0 < lr / (g * IZR bl)) by (apply Rdiv_lt_0_compat; auto; apply Rmult_lt_0_compat; lra).
  assert (Pa : 0 < a) by now apply sqrt_lt_R0.
  assert (Ea : a * a * g * IZR bl = lr) by (unfold a; rewrite sqrt_sqrt by lra; field; split; lra).
  assert (Main : forall A1 BL1, 0 < A1 -> (1 <= BL1)%Z -> A1 * A1 * g * m <= lr ->
            let A := A1 * sqrt (xm / dv') in let B := A1 * sqrt (dv' / xm) in
            0 < A /\ 0 < B /\ A * B = A1 * A1 /\ B * xm <= 1 /\ (up_gs u = 1 -> lr * xm * dm <= g * IZR (up_BL u) -> A * dm <= 1)).
  { intros A1 BL1' P1 P2 Le. cbv zeta. destruct (um_core A1 dv' xm P1 Pdv' Hx) as (P3 & P4 & E1 & E2 & E3).
    assert (L1 : A1 * A1 * (dv' * xm) <= 1).
    { rewrite Em. apply (Rmult_le_reg_r lr); auto. replace (A1 * A1 * (m * g / lr) * lr) with (A1 * A1 * g * m) by (field; lra). lra. }
    repeat split; auto.
    - apply sq_le_1; [apply Rlt_le, Rmult_lt_0_compat; auto | lra].
    - intros G1 Hf. rewrite <- (Nd G1 Hf). apply sq_le_1; [apply Rlt_le, Rmult_lt_0_compat; auto | lra]. }
  destruct (up_ublm u) eqn:Eu.
  - intros E. injection E as <- <- <-.
    destruct (Main a bl Pa Hbl2) as (P3 & P4 & E1 & L1 & L2).
    { rewrite <- Ea. apply Rmult_le_compat_l; auto. apply Rlt_le. repeat apply Rmult_lt_0_compat; auto. }
    repeat split; auto; try (intros; congruence); try (unfold bl; lia).
    rewrite (Rmult_assoc (IZR bl)), E1. lra.
  - intros E. injection E as <- <- <-.
    destruct (Main A0 BL0 PA0 PB0) as (P3 & P4 & E1 & L1 & L2).
    { destruct (up_fixed u) eqn:Ef; [|destruct (Rle_dec lr (g * IZR (up_BL u))) as [L | L]].
      - destruct Fit as [-> E]; auto. rewrite <- E. unfold m. assert (Rmin k (IZR (up_BL u)) <= IZR (up_BL u)) by apply Rmin_r.
        replace (IZR (up_BL u) * A0 * A0 * g) with (A0 * A0 * g * IZR (up_BL u)) by ring. apply Rmult_le_compat_l; auto. apply Rlt_le. repeat apply Rmult_lt_0_compat; auto.
      - destruct Fit as [-> E]; auto. rewrite <- E. unfold m. assert (Rmin k (IZR (up_BL u)) <= IZR (up_BL u)) by apply Rmin_r.
        replace (IZR (up_BL u) * A0 * A0 * g) with (A0 * A0 * g * IZR (up_BL u)) by ring. apply Rmult_le_compat_l; auto. apply Rlt_le. repeat apply Rmult_lt_0_compat; auto.
      - destruct Over as (-> & _ & _); auto; try lra. assert (g * m <= g * IZR (up_BL u)) by (apply Rmult_le_compat_l; [lra | apply Rmin_r]). lra. }
    repeat split; auto.
    + destruct Fit as [-> _]; auto. lia.
    + destruct Fit as [_ E]; auto. rewrite (Rmult_assoc (IZR BL0)), E1. lra.
    + destruct Over as (_ & E & _); auto.
    + destruct Over as (E & _ & L); auto. rewrite (Rmult_assoc (IZR BL0)), E1, E. lra.
    + destruct Over as (E & _ & L); auto. rewrite (Rmult_assoc (IZR BL0)), E1, E. lra.
Qed.
End lengths.

Lemma bl_ab_ok u x d lr g : 0 <= lr -> exists BL A B, bl_ab u x d lr g = Ok (BL, A, B).
Proof.
  intros H. assert (C : exists BL A B, calc_bl u lr g = Ok (BL, A, B)).
  { unfold calc_bl. rewrite (proj2 (Rltb_false lr 0)) by lra. destruct (Reqb lr 0); [eauto|]. destruct (up_fixed u || up_ublm u)%bool; [cbv zeta; eauto|]. destruct (Rltb _ _); cbv zeta; eauto. }
  destruct C as (BL & A & B & C). unfold bl_ab. destruct (up_ublm u || up_um u)%bool; [|eauto].
  unfold manage_bl. rewrite C. cbn [bind]. destruct (Rltb 0 lr); [|eauto]. destruct (_ || _)%bool; [eauto|]. destruct (up_ublm u || up_um u)%bool; [|eauto].
  cbv zeta. destruct (up_ublm u), (up_um u); eauto.
Qed.
Lemma slots_bound u x d lr g BL A B : sensible u -> 0 < lr -> 0 < g -> bl_ab u x d lr g = Ok (BL, A, B) -> (0 <= BL <= slots u lr g)%Z.
Proof.
  intros Hs Hlr Hg. unfold bl_ab, slots. rewrite (Rabs_right lr) by lra.
  assert (C : forall BL A B, calc_bl u lr g = Ok (BL, A, B) -> (0 <= BL <= if (up_fixed u || up_ublm u)%bool then up_BL u else Z.max (up_BL u) (ceilZ (lr / g)))%Z).
  { intros BL' A' B' E. apply calc_spec in E as (_ & _ & P & F & O); auto. destruct (up_fixed u || up_ublm u)%bool eqn:Ef.
    - assert (Hf : up_fixed u = true \/ up_ublm u = true \/ lr <= g * IZR (up_BL u)) by (apply orb_prop in Ef; tauto). destruct (F Hf). lia.
    - apply orb_false_elim in Ef as [E1 E2]. destruct (Rle_dec lr (g * IZR (up_BL u))) as [L | L].
      + destruct F; auto. lia.
      + destruct O as (_ & -> & _); auto; try lra. lia. }
  destruct (up_ublm u || up_um u)%bool eqn:Em; [|apply C].
  unfold manage_bl. destruct (calc_bl u lr g) as [[[B0 A0] B1]|] eqn:Ec; [|discriminate]. specialize (C _ _ _ eq_refl). cbn [bind]. rewrite (proj2 (Rltb_true 0 lr)) by lra.
  destruct (Reqb (maxabs d) 0) eqn:E1; [cbn [orb]; intros E; injection E as <- <- <-; destruct Hs; destruct (_ || _)%bool; lia|].
  destruct (Reqb (maxabs x) 0) eqn:E2; [cbn [orb]; intros E; injection E as <- <- <-; destruct Hs; destruct (_ || _)%bool; lia|].
  cbn [orb]. apply Reqb_false in E1, E2. pose proof (maxabs_pos x). pose proof (maxabs_pos d). rewrite Em. cbv zeta.
  set (k := lr * maxabs x * (up_gs u * maxabs d) / g).
  assert (Pk : 0 < k) by (destruct Hs; unfold k, Rdiv; repeat apply Rmult_lt_0_compat; auto; try lra; now apply Rinv_0_lt_compat).
  destruct (up_ublm u).
  - assert (0 < ceilZ k)%Z by (apply lt_IZR; pose proof (ceilZ_spec k); lra). rewrite orb_true_r. destruct Hs.
    destruct (up_um u); intros E; injection E as <- <- <-; lia.
  - destruct (up_um u); intros E; injection E as <- <- <-; auto.
Qed.

(** ** Pulses at one cross point *)
Lemma pulses_at_app l1 l2 i j : pulses_at (l1 ++ l2) i j = pulses_at l1 i j ++ pulses_at l2 i j.
Proof. unfold pulses_at. now rewrite filter_app, map_app. Qed.
Lemma pulses_at_flat {A} (f : A -> pulse_list) l i j : pulses_at (flat_map f l) i j = flat_map (fun a => pulses_at (f a) i j) l.
Proof. induction l; [reflexivity|]. cbn [flat_map]. now rewrite pulses_at_app, IHl. Qed.
Lemma pulses_at_cons i' j' b l i j : pulses_at ((i', j', b) :: l) i j = (if ((i' =? i) && (j' =? j))%nat%bool then [b] else []) ++ pulses_at l i j.
Proof. unfold pulses_at. cbn [filter fst snd]. destruct ((i' =? i) && (j' =? j))%nat%bool; reflexivity. Qed.
Lemma pulses_at_row f i' xo i j : NoDup xo -> pulses_at (map (fun j' => (i', j', f j')) xo) i j = if ((i' =? i)%nat && existsb (Nat.eqb j) xo)%bool then [f j] else [].
Proof.
  induction 1 as [|a xo NI ND IH]; cbn [map existsb]; [now rewrite andb_false_r|].
  rewrite pulses_at_cons, IH. destruct (Nat.eqb_spec i' i); cbn [andb app]; [|reflexivity].
  destruct (Nat.eqb_spec a j) as [-> | Ne].
  - rewrite Nat.eqb_refl. cbn [orb]. destruct (existsb (Nat.eqb j) xo) eqn:E; auto. exfalso. apply existsb_exists in E as (z & Hz & E). apply Nat.eqb_eq in E. subst. contradiction.
  - rewrite (proj2 (Nat.eqb_neq j a)) by auto. reflexivity.
Qed.
Lemma pulses_at_block f xo fir i j : NoDup xo -> NoDup fir ->
  pulses_at (flat_map (fun i' => map (fun j' => (i', j', f i' j')) xo) fir) i j = if (existsb (Nat.eqb i) fir && existsb (Nat.eqb j) xo)%bool then [f i j] else [].
Proof.
  intros N1. induction 1 as [|a fir NI ND IH]; [reflexivity|]. cbn [flat_map existsb]. rewrite pulses_at_app, IH, pulses_at_row by auto.
  destruct (Nat.eqb_spec a i) as [-> | Ne].
  - rewrite Nat.eqb_refl. cbn [orb andb]. destruct (existsb (Nat.eqb i) fir) eqn:E; [|cbn [andb]; now rewrite app_nil_r].
    exfalso. apply existsb_exists in E as (z & Hz & E). apply Nat.eqb_eq in E. subst. contradiction.
  - rewrite (proj2 (Nat.eqb_neq i a)) by auto. reflexivity.
Qed.
Lemma firing_nodup ts k : NoDup (firing ts k).
Proof. apply NoDup_filter, seq_NoDup. Qed.
Lemma firing_in ts k j : existsb (Nat.eqb j) (firing ts k) = nth k (nth j ts []) false.
Proof.
  destruct (nth k (nth j ts []) false) eqn:E.
  - apply existsb_exists. exists j. split; [|apply Nat.eqb_refl]. apply filter_In. split; auto. apply in_seq. split; [lia|]. cbn.
    destruct (Nat.lt_ge_cases j (length ts)); auto. rewrite (nth_overflow ts) in E by auto. destruct k; discriminate.
  - destruct (existsb _ _) eqn:X; auto. apply existsb_exists in X as (z & Hz & X). apply Nat.eqb_eq in X. subst z. apply filter_In in Hz as [_ Hz]. congruence.
Qed.
Lemma x_order_nodup t x js : NoDup js -> NoDup (x_order t x js).
Proof.
  intros N. destruct t; cbn [x_order]; auto. induction N as [|a l NI N IH]; cbn [filter app]; [constructor|].
  destruct (is_pos x a); cbn [negb app].
  - constructor; auto. intros H. apply in_app_or in H as [H | H]; apply filter_In in H as [H _]; contradiction.
  - apply NoDup_Add with (a := a) (l := filter (is_pos x) l ++ filter (fun j => negb (is_pos x j)) l); [apply Add_app|].
    split; auto. intros H. apply in_app_or in H as [H | H]; apply filter_In in H as [H _]; contradiction.
Qed.
Lemma x_order_in t x js j : existsb (Nat.eqb j) (x_order t x js) = existsb (Nat.eqb j) js.
Proof.
  destruct t; cbn [x_order]; auto. rewrite existsb_app. induction js as [|a js IH]; [reflexivity|]. cbn [filter existsb]. rewrite <- IH.
  destruct (is_pos x a); cbn [negb existsb]; destruct (Nat.eqb j a); cbn [orb]; auto. rewrite orb_true_r. auto.
Qed.
(** the direction of the pulses at a cross point: down if the signs say so *)
Definition dir (lr_neg : bool) (x d : vec) (i j : nat) : bool :=
  negb (let d_neg := if is_pos d i then lr_neg else negb lr_neg in if is_pos x j then d_neg else negb d_neg).
Lemma slot_at t ln x d xts dts k i j : pulses_at (slot t ln x d xts dts k) i j =
  if (nth k (nth i dts []) false && nth k (nth j xts []) false)%bool then [dir ln x d i j] else [].
Proof.
  unfold slot. rewrite (pulses_at_block (fun i j => dir ln x d i j)); [|apply x_order_nodup, firing_nodup | apply firing_nodup].
  now rewrite x_order_in, !firing_in.
Qed.
Lemma dir_spec lr x d i j : lr <> 0 -> nth i d 0 <> 0 -> nth j x 0 <> 0 -> (dir (Rltb lr 0) x d i j = true <-> 0 < lr * nth j x 0 * nth i d 0).
Proof.
  intros L Di Xj. unfold dir, is_pos. set (xj := nth j x 0) in *. set (di := nth i d 0) in *.
  destruct (Rltb lr 0) eqn:E1; [apply Rltb_true in E1 | apply Rltb_false in E1];
  destruct (Rltb 0 di) eqn:E2; [apply Rltb_true in E2 | apply Rltb_false in E2 | apply Rltb_true in E2 | apply Rltb_false in E2];
  (destruct (Rltb 0 xj) eqn:E3; [apply Rltb_true in E3 | apply Rltb_false in E3]); cbn [negb].
  all: assert (P : 0 < Rabs lr * Rabs xj * Rabs di) by (repeat apply Rmult_lt_0_compat; apply Rabs_pos_lt; auto).
  all: revert P; unfold Rabs; repeat destruct (Rcase_abs _); try lra; intros P; split; intros H; try discriminate; try reflexivity; try nra; exfalso; nra.
Qed.

(** ** The trains *)
Lemma disc_zero r sto q : yields (disc 0 r sto) q -> q = 0.
Proof.
  unfold disc. destruct (Rleb r 0) eqn:Er; [intros Y; now apply yields_ret in Y|]. apply Rleb_false in Er.
  assert (Z : forall u, 0 <= u <= 1 -> rhe (0 / r + (u - 1/2)) = 0%Z).
  { intros u Hu. replace (0 / r + (u - 1/2)) with (u - 1/2) by (field; lra).
    assert (L : (rhe (-1/2) <= rhe (u - 1/2))%Z) by (apply rhe_mono; lra). assert (U : (rhe (u - 1/2) <= rhe (1/2))%Z) by (apply rhe_mono; lra).
    assert (E1 : rhe (1/2) = 0%Z). { unfold rhe. rewrite (floorZ_unique (1/2) 0) by lra. repeat rcase; try lra; auto. }
    assert (E2 : rhe (-1/2) = 0%Z). { replace (-1/2) with (- (1/2)) by lra. now rewrite rhe_opp, E1. }
    lia. }
  destruct sto; intros Y.
  - ysimp. rewrite Z by auto. lra.
  - ysimp. replace (0 / r) with 0 by (field; lra). rewrite (rhe_IZR 0). lra.
Qed.
Lemma train_spec P r sto BL v t : yields (train P r sto BL v) t -> length t = BL /\ (v = 0 -> t = repeat false BL).
Proof.
  unfold train. intros Y. apply yields_bind in Y as (pp & Yp & Y). destruct (Reqb pp 0) eqn:E.
  - apply yields_ret in Y. subst. rewrite repeat_length. auto.
  - split; [apply mapMM_length in Y; now rewrite seq_length in Y|]. intros ->. rewrite Rabs_R0, Rmult_0_l in Yp. apply disc_zero in Yp. subst.
    apply Reqb_false in E. lra.
Qed.
Lemma trains_nth P r sto BL v ts j : yields (trains P r sto BL v) ts -> (j < length v)%nat -> yields (train P r sto BL (nth j v 0)) (nth j ts []).
Proof.
  intros Y L. apply yields_mapMM in Y. revert j L. induction Y as [|a b l l' Hab Y IH]; intros j L; cbn [length] in L; [lia|]. destruct j; cbn [nth]; auto. apply IH. lia.
Qed.
Lemma bits_false_repeat k BL : nth k (repeat false BL) false = false.
Proof. revert k. induction BL; intros [|k]; cbn; auto. Qed.
Lemma trains_zero P r sto BL v ts j k : yields (trains P r sto BL v) ts -> nth j v 0 = 0 -> nth k (nth j ts []) false = false.
Proof.
  intros Y E. destruct (Nat.lt_ge_cases j (length v)) as [L | L].
  - destruct (train_spec _ _ _ _ _ _ (trains_nth _ _ _ _ _ _ j Y L)) as [_ H]. rewrite H by auto. apply bits_false_repeat.
  - apply mapMM_length in Y. rewrite (nth_overflow ts) by lia. destruct k; reflexivity.
Qed.
(** a flat_map of at most one element per slot *)
Lemma flat_single (c : nat -> bool) (b : bool) l : flat_map (fun k => if c k then [b] else []) l = repeat b (length (filter c l)).
Proof. induction l as [|a l IH]; cbn [flat_map filter]; auto. destruct (c a); cbn; now rewrite IH. Qed.
Lemma filter_length_le {A} (f : A -> bool) l : (length (filter f l) <= length l)%nat.
Proof. induction l as [|a l IH]; cbn; auto. destruct (f a); cbn; lia. Qed.
(** all pulses at a cross point have the same direction, there are at most [BL] *)
Lemma sparse_at u lr g x d l i j : lr <> 0 -> sensible u -> 0 < g -> yields (sparse_update u lr g x d) l ->
  exists n, pulses_at l i j = repeat (dir (Rltb lr 0) x d i j) n /\ (Z.of_nat n <= slots u lr g)%Z /\ (nth j x 0 = 0 \/ nth i d 0 = 0 -> n = 0%nat).
Proof.
  intros L Hs Hg Y. unfold sparse_update in Y. assert (PL : 0 < Rabs lr) by now apply Rabs_pos_lt.
  destruct (bl_ab_ok u x d (Rabs lr) g ltac:(lra)) as (BL & A & B & E). rewrite E in Y. cbn [liftR bindM] in Y.
  apply slots_bound in E; auto. unfold slots in *. rewrite Rabs_Rabsolu in E.
  destruct (BL =? 0)%Z eqn:Eb.
  - apply yields_ret in Y. subst. exists 0%nat. repeat split; auto. lia.
  - apply yields_bind in Y as (xts & Yx & Y). apply yields_bind in Y as (dts & Yd & Y). apply yields_ret in Y. subst l.
    exists (length (filter (fun k => (nth k (nth i dts []) false && nth k (nth j xts []) false)%bool) (seq 0 (Z.to_nat BL)))).
    rewrite pulses_at_flat. split; [|split].
    + rewrite <- flat_single. apply flat_map_ext. intros k. apply slot_at.
    + pose proof (filter_length_le (fun k => (nth k (nth i dts []) false && nth k (nth j xts []) false)%bool) (seq 0 (Z.to_nat BL))) as F. rewrite seq_length in F. lia.
    + intros Z. replace (filter _ _) with (@nil nat); auto. symmetry. induction (seq 0 (Z.to_nat BL)) as [|k ks IH]; auto. cbn [filter].
      destruct Z as [Z | Z].
      * rewrite (trains_zero _ _ _ _ _ _ j k Yx Z), andb_false_r. auto.
      * rewrite (trains_zero _ _ _ _ _ _ i k Yd Z). auto.
Qed.

(** ** Dense types *)
Lemma pulses_at_repeat i' j' b n i j : pulses_at (repeat (i', j', b) n) i j = if ((i' =? i) && (j' =? j))%nat%bool then repeat b n else [].
Proof.
  induction n; cbn [repeat]; [destruct (_ && _)%bool; reflexivity|]. rewrite pulses_at_cons, IHn. destruct (_ && _)%bool; reflexivity.
Qed.
Lemma flat_zipi_one {A B} (f : nat -> A -> list B) (l : list A) (da : A) j : f j da = [] -> (forall j' a, j' <> j -> f j' a = []) ->
  forall s, flat_map (fun ja => f (fst ja) (snd ja)) (combine (seq s (length l)) l) = if (s <=? j)%nat then f j (nth (j - s) l da) else [].
Proof.
  intros D O. induction l as [|a l IH]; intros s; cbn [length seq combine flat_map fst snd].
  - destruct (s <=? j)%nat; auto. now rewrite nth_overflow by (cbn; lia).
  - rewrite IH. destruct (Nat.eq_dec s j) as [-> | Ne].
    + rewrite (proj2 (Nat.leb_gt (S j) j)), Nat.leb_refl, Nat.sub_diag by lia. cbn [nth]. apply app_nil_r.
    + rewrite (O s a) by auto. cbn [app]. destruct (Nat.leb_spec (S s) j); destruct (Nat.leb_spec s j); try lia; auto.
      replace (j - s)%nat with (S (j - S s)) by lia. reflexivity.
Qed.
Lemma dense_at cs i j : pulses_at (dense_pulses cs) i j = repeat (0 <? nth j (nth i cs []) 0)%Z (Z.abs_nat (nth j (nth i cs []) 0%Z)).
Proof.
  unfold dense_pulses. rewrite pulses_at_flat. unfold zipi.
  rewrite (flat_zipi_one (fun i' row => pulses_at (flat_map (fun jc => repeat (i', fst jc, (0 <? snd jc)%Z) (Z.abs_nat (snd jc))) (combine (seq 0 (length row)) row)) i j) cs [] i).
  - rewrite Nat.sub_0_r. cbn [Nat.leb]. rewrite pulses_at_flat.
    rewrite (flat_zipi_one (fun j' c => pulses_at (repeat (i, j', (0 <? c)%Z) (Z.abs_nat c)) i j) (nth i cs []) 0%Z j).
    + rewrite Nat.sub_0_r. cbn [Nat.leb]. now rewrite pulses_at_repeat, !Nat.eqb_refl.
    + reflexivity.
    + intros j' c Ne. rewrite pulses_at_repeat, Nat.eqb_refl. cbn [andb]. now rewrite (proj2 (Nat.eqb_neq j' j)).
  - reflexivity.
  - intros i' row Ne. rewrite pulses_at_flat. induction (combine (seq 0 (length row)) row) as [|jc l IH]; auto. cbn [flat_map]. rewrite IH, pulses_at_repeat.
    now rewrite (proj2 (Nat.eqb_neq i' i)).
Qed.
Lemma F2_nth_d {A B} (P : A -> B -> Prop) da db l r : Forall2 P l r -> P da db -> forall i, P (nth i l da) (nth i r db).
Proof. intros H D. induction H; intros [|i]; cbn [nth]; auto. Qed.
Lemma map_map_nth {A B C} (f : A -> B -> C) (dl : list A) (xl : list B) da db dc i j : f da db = dc -> (forall b, f da b = dc) -> (forall a, f a db = dc) ->
  nth j (nth i (map (fun a => map (f a) xl) dl) []) dc = f (nth i dl da) (nth j xl db).
Proof.
  intros E1 E2 E3. destruct (Nat.lt_ge_cases i (length dl)) as [L | L].
  - rewrite nth_indep with (d' := map (f da) xl) by (now rewrite map_length). rewrite (map_nth (fun a => map (f a) xl)).
    destruct (Nat.lt_ge_cases j (length xl)) as [Lj | Lj].
    + rewrite nth_indep with (d' := f (nth i dl da) db) by (now rewrite map_length). now rewrite map_nth.
    + rewrite (nth_overflow xl) by auto. rewrite nth_overflow by (now rewrite map_length). now rewrite E3.
  - rewrite (nth_overflow dl) by auto. rewrite nth_overflow with (n := i) by (now rewrite map_length). rewrite E2. destruct j; reflexivity.
Qed.
Lemma rhe_0 : rhe 0 = 0%Z.
Proof. apply (rhe_IZR 0). Qed.
(** sign and size of the counts of one element *)
Definition sgn_lr (lr v : R) : R := if Rltb lr 0 then - v else v.
Lemma count_mean_spec P r sto BL lr v c : (0 <= BL)%Z -> yields (count_mean P r sto BL lr v) c ->
  (Z.abs c <= BL)%Z /\ (0 <= sgn_lr lr v -> (0 <= c)%Z) /\ (sgn_lr lr v <= 0 -> (c <= 0)%Z).
Proof.
  intros Hb Y. unfold count_mean in Y. fold (sgn_lr lr v) in Y. apply yields_bind in Y as (pp & Yp & Y). apply yields_ret in Y. subst c. cbv zeta.
  destruct (Reqb pp 0) eqn:E; [repeat split; lia|]. set (n := Z.max _ _). assert (0 <= n <= BL)%Z by (unfold n; lia).
  destruct (Rleb 0 (sgn_lr lr v)) eqn:El; [apply Rleb_true in El | apply Rleb_false in El]; repeat split; intros; try lia; try lra.
  assert (Z0 : sgn_lr lr v = 0) by lra. rewrite Z0, Rabs_R0, Rmult_0_l in Yp. apply disc_zero in Yp. apply Reqb_false in E. lra.
Qed.
Lemma det_implicit_spec P r sto lr v c : yields (det_implicit P r sto lr v) c ->
  Rabs c <= 1 /\ (0 <= sgn_lr lr v -> 0 <= c) /\ (sgn_lr lr v <= 0 -> c <= 0).
Proof.
  intros Y. unfold det_implicit in Y. fold (sgn_lr lr v) in Y. cbv zeta in Y. apply yields_bind in Y as (pp & Yp & Y). apply yields_ret in Y. subst c.
  set (q := Rmax (Rmin pp 1) 0). assert (0 <= q <= 1) by (unfold q; mm).
  destruct (Rleb 0 (sgn_lr lr v)) eqn:El; [apply Rleb_true in El | apply Rleb_false in El]; repeat split; intros; try (mm; fail); try lra.
  assert (Z0 : sgn_lr lr v = 0) by lra. rewrite Z0, Rabs_R0, Rmult_0_l in Yp. apply disc_zero in Yp. unfold q. rewrite Yp. mm.
Qed.
Lemma rhe_bound x b : (0 <= b)%Z -> Rabs x <= IZR b -> (Z.abs (rhe x) <= b)%Z.
Proof.
  intros Hb H. assert (L : - IZR b <= x <= IZR b) by (revert H; mm). destruct L as [L1 L2]. apply rhe_mono in L1, L2. rewrite <- opp_IZR, rhe_IZR in L1. rewrite rhe_IZR in L2. lia.
Qed.
Lemma rhe_pos x : 0 <= x -> (0 <= rhe x)%Z.
Proof. intros H. apply rhe_mono in H. now rewrite rhe_0 in H. Qed.
Lemma rhe_neg x : x <= 0 -> (rhe x <= 0)%Z.
Proof. intros H. apply rhe_mono in H. now rewrite rhe_0 in H. Qed.
(** the number of coincidences has at most the size [BL] and the sign of the product *)
Lemma coinc_mean_spec BL dc xc : (0 <= BL)%Z -> (Z.abs dc <= BL)%Z -> (Z.abs xc <= BL)%Z ->
  (Z.abs (coinc_mean BL dc xc) <= BL)%Z /\ (0 <= dc * xc -> 0 <= coinc_mean BL dc xc)%Z /\ (dc * xc <= 0 -> coinc_mean BL dc xc <= 0)%Z.
Proof.
  intros Hb Hd Hx. unfold coinc_mean. destruct (Z.eqb_spec dc 0) as [-> | Ne]; [repeat split; lia|].
  assert (Pb : 0 < IZR BL) by (apply (IZR_lt 0); lia).
  assert (Ad : Rabs (IZR dc / IZR BL) <= 1).
  { unfold Rdiv. rewrite Rabs_mult, Rabs_inv, (Rabs_right (IZR BL)) by lra. apply (Rmult_le_reg_r (IZR BL)); auto. rewrite Rmult_assoc, Rinv_l, Rmult_1_r, Rmult_1_l by lra.
    rewrite <- abs_IZR. now apply IZR_le. }
  assert (Ax : Rabs (IZR xc) <= IZR BL) by (rewrite <- abs_IZR; now apply IZR_le).
  assert (Ep : IZR dc / IZR BL * IZR xc = IZR (dc * xc) / IZR BL) by (rewrite mult_IZR; field; lra).
  repeat split.
  - apply rhe_bound; auto. rewrite Rabs_mult. pose proof (Rabs_pos (IZR dc / IZR BL)). pose proof (Rabs_pos (IZR xc)). nra.
  - intros H. apply rhe_pos. rewrite Ep. apply (IZR_le 0) in H. apply Rmult_le_pos; auto. apply Rlt_le. now apply Rinv_0_lt_compat.
  - intros H. apply rhe_neg. rewrite Ep. apply (IZR_le _ 0) in H. assert (0 < / IZR BL) by now apply Rinv_0_lt_compat. unfold Rdiv. nra.
Qed.
Lemma coinc_det_spec BL dv xv : (0 <= BL)%Z -> Rabs dv <= 1 -> Rabs xv <= 1 ->
  (Z.abs (coinc_det BL dv xv) <= BL)%Z /\ (0 <= dv * xv -> (0 <= coinc_det BL dv xv)%Z) /\ (dv * xv <= 0 -> (coinc_det BL dv xv <= 0)%Z).
Proof.
  intros Hb Hd Hx. unfold coinc_det. destruct (Reqb dv 0) eqn:E; [repeat split; lia|]. assert (Pb : 0 <= IZR BL) by (apply (IZR_le 0); lia).
  repeat split.
  - apply rhe_bound; auto. rewrite !Rabs_mult, (Rabs_right (IZR BL)) by lra. pose proof (Rabs_pos dv). pose proof (Rabs_pos xv).
    assert (Rabs dv * Rabs xv <= 1) by nra. replace (Rabs dv * IZR BL * Rabs xv) with (IZR BL * (Rabs dv * Rabs xv)) by ring. nra.
  - intros H. apply rhe_pos. replace (dv * IZR BL * xv) with (IZR BL * (dv * xv)) by ring. now apply Rmult_le_pos.
  - intros H. apply rhe_neg. replace (dv * IZR BL * xv) with (IZR BL * (dv * xv)) by ring. nra.
Qed.
Lemma sgn_prod lr a b : sgn_lr lr a * sgn_lr lr b = a * b.
Proof. unfold sgn_lr. destruct (Rltb lr 0); ring. Qed.
Lemma zmul_sign (a b : R) (s t : Z) : (0 <= a -> (0 <= s)%Z) -> (a <= 0 -> (s <= 0)%Z) -> (0 <= b -> (0 <= t)%Z) -> (b <= 0 -> (t <= 0)%Z) ->
  (0 <= a * b -> (0 <= s * t)%Z) /\ (a * b <= 0 -> (s * t <= 0)%Z).
Proof.
  intros A1 A2 B1 B2. destruct (Rtotal_order a 0) as [Ha | [Ha | Ha]], (Rtotal_order b 0) as [Hb | [Hb | Hb]].
  all: repeat match goal with H : 0 <= ?a -> _ |- _ => first [specialize (H ltac:(lra)) | clear H] | H : ?a <= 0 -> _ |- _ => first [specialize (H ltac:(lra)) | clear H] end.
  all: split; intros H; nia || (exfalso; nra).
Qed.
Lemma rmul_sign (a b s t : R) : (0 <= a -> 0 <= s) -> (a <= 0 -> s <= 0) -> (0 <= b -> 0 <= t) -> (b <= 0 -> t <= 0) ->
  (0 <= a * b -> 0 <= s * t) /\ (a * b <= 0 -> s * t <= 0).
Proof.
  intros A1 A2 B1 B2. destruct (Rtotal_order a 0) as [Ha | [Ha | Ha]], (Rtotal_order b 0) as [Hb | [Hb | Hb]].
  all: repeat match goal with H : 0 <= ?a -> _ |- _ => first [specialize (H ltac:(lra)) | clear H] | H : ?a <= 0 -> _ |- _ => first [specialize (H ltac:(lra)) | clear H] end.
  all: split; intros H; nra.
Qed.
(** pulses of the dense types at a cross point *)
Lemma dense_update_at u lr g x d l i j : lr <> 0 -> sensible u -> 0 < g -> yields (dense_update u lr g x d) l ->
  exists c : Z, pulses_at l i j = repeat (0 <? c)%Z (Z.abs_nat c) /\ (Z.abs c <= slots u lr g)%Z /\
    (0 <= nth j x 0 * nth i d 0 -> (0 <= c)%Z) /\ (nth j x 0 * nth i d 0 <= 0 -> (c <= 0)%Z).
Proof.
  intros L Hs Hg Y. unfold dense_update in Y. assert (PL : 0 < Rabs lr) by now apply Rabs_pos_lt.
  destruct (bl_ab_ok u x d (Rabs lr) g ltac:(lra)) as (BL & A & B & E). rewrite E in Y. cbn [liftR bindM] in Y.
  apply slots_bound in E; auto. unfold slots in *. rewrite Rabs_Rabsolu in E.
  assert (M : up_type u = MeanCount \/ up_type u <> MeanCount) by (destruct (up_type u); auto; right; discriminate).
  destruct M as [M | M].
  - rewrite M in Y. apply yields_bind in Y as (xc & Yx & Y). apply yields_bind in Y as (dc & Yd & Y). apply yields_ret in Y. subst l.
    exists (coinc_mean BL (nth i dc 0%Z) (nth j xc 0%Z)). rewrite dense_at.
    assert (E0 : forall a, coinc_mean BL a 0 = 0%Z) by (intros a; unfold coinc_mean; destruct (_ =? _)%Z; auto; rewrite Rmult_0_r; apply rhe_0).
    rewrite (map_map_nth (coinc_mean BL) dc xc 0%Z 0%Z 0%Z i j) by auto. split; auto.
    apply yields_mapMM in Yx, Yd.
    assert (Z0 : forall P r sto, yields (count_mean P r sto BL lr 0) 0%Z).
    { intros P r sto. unfold count_mean. assert (Q : forall q, yields (disc (Rabs (if Rltb lr 0 then - 0 else 0) * P) r sto) q -> q = 0).
      { intros q. replace (Rabs (if Rltb lr 0 then - 0 else 0) * P) with 0; [apply disc_zero|]. destruct (Rltb lr 0); rewrite ?Ropp_0, Rabs_R0; ring. }
      assert (T : total (disc (Rabs (if Rltb lr 0 then - 0 else 0) * P) r sto)) by (unfold disc; destruct (Rleb r 0); [apply total_ret|]; destruct sto; [apply total_unif; intros; apply total_ret | apply total_ret]).
      destruct (total_yields _ T) as [q Yq]. pose proof (Q q Yq). subst q. apply yields_bind. exists 0. split; auto. rewrite (proj2 (Reqb_true 0 0)) by auto. constructor. }
    pose proof (F2_nth_d (fun a b => yields (count_mean B (up_res u) (up_sto u) BL lr a) b) 0 0%Z _ _ Yx (Z0 _ _ _) j) as Cx.
    pose proof (F2_nth_d (fun a b => yields (count_mean A (up_res u) (up_sto u) BL lr a) b) 0 0%Z _ _ Yd (Z0 _ _ _) i) as Cd.
    apply count_mean_spec in Cx as (X1 & X2 & X3); [|lia]. apply count_mean_spec in Cd as (D1 & D2 & D3); [|lia].
    destruct (coinc_mean_spec BL _ _ ltac:(lia) D1 X1) as (C1 & C2 & C3). split; [lia|].
    destruct (zmul_sign _ _ _ _ X2 X3 D2 D3) as [S1 S2]. rewrite sgn_prod in S1, S2. split; intros H; [apply C2 | apply C3]; rewrite Z.mul_comm; auto.
  - assert (Y' : yields (xv <~ mapMM (det_implicit B (up_xres u) (up_sto u) lr) x ;; dv <~ mapMM (det_implicit A (up_dres u) (up_sto u) lr) d ;;
        Ret (dense_pulses (map (fun a => map (coinc_det BL a) xv) dv))) l) by (destruct (up_type u); auto; congruence). clear Y.
    apply yields_bind in Y' as (xv & Yx & Y). apply yields_bind in Y as (dv & Yd & Y). apply yields_ret in Y. subst l.
    exists (coinc_det BL (nth i dv 0) (nth j xv 0)). rewrite dense_at.
    assert (E0 : forall a, coinc_det BL a 0 = 0%Z) by (intros a; unfold coinc_det; destruct (Reqb _ _); auto; rewrite Rmult_0_r; apply rhe_0).
    rewrite (map_map_nth (coinc_det BL) dv xv 0 0 0%Z i j); [|apply E0| intros; unfold coinc_det; rewrite (proj2 (Reqb_true 0 0)) by auto; reflexivity | apply E0]. split; auto.
    apply yields_mapMM in Yx, Yd.
    assert (Z0 : forall P r sto, yields (det_implicit P r sto lr 0) 0).
    { intros P r sto. unfold det_implicit. assert (Q : forall q, yields (disc (Rabs (if Rltb lr 0 then - 0 else 0) * P) r sto) q -> q = 0).
      { intros q. replace (Rabs (if Rltb lr 0 then - 0 else 0) * P) with 0; [apply disc_zero|]. destruct (Rltb lr 0); rewrite ?Ropp_0, Rabs_R0; ring. }
      assert (T : total (disc (Rabs (if Rltb lr 0 then - 0 else 0) * P) r sto)) by (unfold disc; destruct (Rleb r 0); [apply total_ret|]; destruct sto; [apply total_unif; intros; apply total_ret | apply total_ret]).
      destruct (total_yields _ T) as [q Yq]. pose proof (Q q Yq). subst q. apply yields_bind. exists 0. split; auto. cbv zeta. apply yields_ret.
      rewrite Rmin_left, Rmax_left by lra. destruct (Rleb _ _); lra. }
    pose proof (F2_nth_d (fun a b => yields (det_implicit B (up_xres u) (up_sto u) lr a) b) 0 0 _ _ Yx (Z0 _ _ _) j) as Cx.
    pose proof (F2_nth_d (fun a b => yields (det_implicit A (up_dres u) (up_sto u) lr a) b) 0 0 _ _ Yd (Z0 _ _ _) i) as Cd.
    apply det_implicit_spec in Cx as (X1 & X2 & X3). apply det_implicit_spec in Cd as (D1 & D2 & D3).
    destruct (coinc_det_spec BL _ _ ltac:(lia) D1 X1) as (C1 & C2 & C3). split; [lia|].
    destruct (rmul_sign _ _ _ _ X2 X3 D2 D3) as [S1 S2]. rewrite sgn_prod in S1, S2. split; intros H; [apply C2 | apply C3]; rewrite Rmult_comm; auto.
Qed.

(** ** Expectations *)
Section expect.
Variables (N : nat) (G : vec).
Hypothesis HG : G <> [].
Lemma expect_marginal {A B} (f : A -> M B) (F : B -> R) db : forall l j a, (forall a, In a l -> total (f a)) -> nth_error l j = Some a ->
  expect N G (mapMM f l) (fun r => F (nth j r db)) = expect N G (f a) F.
Proof.
  induction l as [|a0 l IH]; intros j a T E; [destruct j; discriminate|]. cbn [mapMM]. rewrite expect_bind.
  destruct j as [|j]; cbn [nth_error] in E.
  - injection E as ->. apply expect_ext. intros b _. rewrite expect_bind. cbn [expect nth].
    rewrite expect_const; auto. apply total_mapMM. intros c Hc. apply T. now right.
  - rewrite <- (expect_const N G (f a0) (expect N G (f a) F) HG) by (apply T; now left). apply expect_ext. intros b _. rewrite expect_bind. cbn [expect nth].
    apply IH; auto. intros c Hc. apply T. now right.
Qed.
Lemma expect_sum {A B} (m : M A) (f : B -> A -> R) : total m -> forall ks,
  expect N G m (fun a => sumR (map (fun k => f k a) ks)) = sumR (map (fun k => expect N G m (f k)) ks).
Proof. intros T. induction ks as [|k ks IH]; cbn [map sumR]; [apply expect_const; auto|]. rewrite <- IH. apply (expect_plus N G m (f k)). Qed.
Definition b2R (b : bool) : R := if b then 1 else 0.
Lemma avg_grid_below p : avg (grid N) (fun u => b2R (Rltb u p)) = prob_below N p.
Proof.
  unfold avg, prob_below. rewrite grid_length. f_equal. unfold grid. rewrite map_map.
  induction (seq 0 (S N)) as [|k l IH]; [reflexivity|]. cbn [map sumR filter]. rewrite IH.
  destruct (Rltb (INR k / INR N) p); cbn [b2R length]; [rewrite S_INR|]; lra.
Qed.
Lemma disc_total v r sto : total (disc v r sto).
Proof. unfold disc. destruct (Rleb r 0); [apply total_ret|]. destruct sto; [apply total_unif; intros; apply total_ret | apply total_ret]. Qed.
Lemma train_total P r sto BL v : total (train P r sto BL v).
Proof.
  unfold train. apply total_bind; [apply disc_total|]. intros pp _. destruct (Reqb pp 0); [apply total_ret|]. apply total_mapMM. intros. apply total_unif. intros. apply total_ret.
Qed.
Lemma prob_below_0 : prob_below N 0 = 0.
Proof.
  unfold prob_below. replace (filter _ _) with (@nil nat); [cbn; lra|]. symmetry. induction (seq 0 (S N)) as [|k l IH]; auto. cbn [filter].
  rewrite (proj2 (Rltb_false _ _)); auto. destruct N as [|n]; [unfold Rdiv; change (INR 0) with 0; rewrite Rinv_0; lra|].
  apply Rmult_le_pos; [apply pos_INR | apply Rlt_le, Rinv_0_lt_compat, lt_0_INR; lia].
Qed.
Lemma train_expect P r sto BL v k : r <= 0 -> (k < BL)%nat -> expect N G (train P r sto BL v) (fun t => b2R (nth k t false)) = prob_below N (Rabs v * P).
Proof.
  intros Hr Hk. unfold train, disc. rewrite (proj2 (Rleb_true r 0)) by auto. cbn [bindM].
  destruct (Reqb (Rabs v * P) 0) eqn:E.
  - apply Reqb_true in E. cbn [expect]. rewrite bits_false_repeat, E, prob_below_0. reflexivity.
  - rewrite (expect_marginal (fun _ : nat => Unif (fun u => Ret (Rltb u (Rabs v * P)))) b2R false (seq 0 BL) k k).
    + cbn [expect]. apply avg_grid_below.
    + intros. apply total_unif. intros. apply total_ret.
    + rewrite (nth_error_nth' _ 0%nat) by (now rewrite seq_length). now rewrite seq_nth.
Qed.
Lemma trains_expect P r sto BL v j k : r <= 0 -> (k < BL)%nat -> expect N G (trains P r sto BL v) (fun ts => b2R (nth k (nth j ts []) false)) = prob_below N (Rabs (nth j v 0) * P).
Proof.
  intros Hr Hk. destruct (Nat.lt_ge_cases j (length v)) as [L | L].
  - unfold trains. rewrite (expect_marginal (train P r sto BL) (fun t => b2R (nth k t false)) [] v j (nth j v 0)); [now apply train_expect | intros; apply train_total | now apply nth_error_nth'].
  - rewrite (nth_overflow v), Rabs_R0, Rmult_0_l, prob_below_0 by auto.
    rewrite (expect_ext _ _ _ _ (fun _ => 0)); [apply expect_const; auto; apply total_mapMM; intros; apply train_total|].
    intros ts Y. apply mapMM_length in Y. rewrite (nth_overflow ts) by lia. destruct k; reflexivity.
Qed.
Lemma b2R_and a b : b2R (a && b) = b2R a * b2R b.
Proof. destruct a, b; cbn; lra. Qed.
Lemma length_filter_sum (c : nat -> bool) l : INR (length (filter c l)) = sumR (map (fun k => b2R (c k)) l).
Proof. induction l as [|a l IH]; cbn [filter map sumR]; [reflexivity|]. rewrite <- IH. destruct (c a); cbn [b2R length]; rewrite ?S_INR; lra. Qed.
Lemma sparse_expect u lr g x d i j BL A B : up_res u <= 0 -> bl_ab u x d (Rabs lr) g = Ok (BL, A, B) -> (0 <= BL)%Z ->
  expect N G (sparse_update u lr g x d) (fun l => INR (length (pulses_at l i j))) =
  IZR BL * prob_below N (Rabs (nth i d 0) * A) * prob_below N (Rabs (nth j x 0) * B).
Proof.
  intros Hr E Hb. unfold sparse_update. rewrite E. cbn [liftR bindM]. destruct (Z.eqb_spec BL 0) as [-> | Nz]; [cbn [expect]; unfold pulses_at; cbn; lra|].
  set (n := Z.to_nat BL). assert (En : IZR BL = INR n) by (unfold n; rewrite INR_IZR_INZ; f_equal; lia).
  rewrite expect_bind.
  rewrite (expect_ext _ _ _ _ (fun xts => sumR (map (fun k => prob_below N (Rabs (nth i d 0) * A) * b2R (nth k (nth j xts []) false)) (seq 0 n)))).
  - rewrite expect_sum by (apply total_mapMM; intros; apply train_total).
    rewrite (map_ext_in _ (fun _ => prob_below N (Rabs (nth i d 0) * A) * prob_below N (Rabs (nth j x 0) * B))).
    + rewrite sumR_const, seq_length, En. ring.
    + intros k Hk. apply in_seq in Hk. rewrite expect_scal. f_equal. apply trains_expect; auto; lia.
  - intros xts _. rewrite expect_bind.
    rewrite (expect_ext _ _ _ _ (fun dts => sumR (map (fun k => b2R (nth k (nth j xts []) false) * b2R (nth k (nth i dts []) false)) (seq 0 n)))).
    + rewrite expect_sum by (apply total_mapMM; intros; apply train_total). f_equal. apply map_ext_in. intros k Hk. apply in_seq in Hk.
      rewrite expect_scal. rewrite trains_expect by (auto; lia). ring.
    + intros dts _. cbn [expect]. rewrite pulses_at_flat.
      rewrite (flat_map_ext _ (fun k => if (nth k (nth i dts []) false && nth k (nth j xts []) false)%bool then [dir (Rltb lr 0) x d i j] else [])) by (intros; apply slot_at).
      rewrite flat_single, repeat_length, length_filter_sum. f_equal. apply map_ext. intros k. rewrite b2R_and. ring.
Qed.
(** the probability *)
Lemma filter_prefix (c : nat -> bool) n m : (n <= m)%nat -> (forall k, (k < n)%nat -> c k = true) -> (forall k, (n <= k < m)%nat -> c k = false) -> length (filter c (seq 0 m)) = n.
Proof.
  intros L H1 H2. replace m with (n + (m - n))%nat by lia. rewrite seq_app, filter_app, app_length. cbn [Nat.add].
  assert (A1 : forall l, (forall k, In k l -> c k = true) -> filter c l = l) by (induction l as [|a l IH]; cbn; intros H; auto; rewrite H by auto; f_equal; apply IH; auto).
  assert (A2 : forall l, (forall k, In k l -> c k = false) -> filter c l = []) by (induction l as [|a l IH]; cbn; intros H; auto; rewrite H by auto; apply IH; auto).
  rewrite A1, A2, seq_length; [cbn; lia | |]; intros k Hk; apply in_seq in Hk; [apply H2 | apply H1]; lia.
Qed.
Lemma prob_below_close p : (0 < N)%nat -> 0 <= p <= 1 -> Rabs (prob_below N p - p) <= 1 / INR (S N).
Proof.
  intros HN Hp. assert (PN : 0 < INR N) by now apply lt_0_INR. pose proof (ceilZ_spec (p * INR N)) as C. set (z := ceilZ (p * INR N)) in *.
  assert (Z0 : (0 <= z)%Z) by (apply Z.lt_succ_r, lt_IZR; rewrite succ_IZR; nra).
  assert (Z1 : (z <= Z.of_nat N)%Z) by (apply Z.lt_succ_r, lt_IZR; rewrite succ_IZR, <- INR_IZR_INZ; nra).
  unfold prob_below. rewrite (filter_prefix _ (Z.to_nat z)).
  - assert (En : INR (Z.to_nat z) = IZR z) by (rewrite INR_IZR_INZ; f_equal; lia). rewrite En, S_INR. apply (Rmult_le_reg_r (INR N + 1)); [lra|].
    rewrite <- (Rabs_right (INR N + 1)) at 2 by lra. rewrite <- Rabs_mult. replace ((IZR z / (INR N + 1) - p) * (INR N + 1)) with (IZR z - p * INR N - p) by (field; lra).
    replace (1 / (INR N + 1) * (INR N + 1)) with 1 by (field; lra). mm.
  - lia.
  - intros k Hk. apply Rltb_true. assert (INR k <= IZR z - 1) by (rewrite <- minus_IZR, INR_IZR_INZ; apply IZR_le; lia).
    apply (Rmult_lt_reg_r (INR N)); auto. unfold Rdiv. rewrite Rmult_assoc, Rinv_l by lra. lra.
  - intros k Hk. apply Rltb_false. assert (IZR z <= INR k) by (rewrite INR_IZR_INZ; apply IZR_le; lia).
    apply (Rmult_le_reg_r (INR N)); auto. unfold Rdiv. rewrite Rmult_assoc, Rinv_l by lra. lra.
Qed.
Lemma prob_below_range p : 0 <= prob_below N p <= 1.
Proof.
  unfold prob_below. assert (0 < INR (S N)) by (apply lt_0_INR; lia). pose proof (filter_length_le (fun k => Rltb (INR k / INR N) p) (seq 0 (S N))) as F. rewrite seq_length in F.
  apply le_INR in F. split; [apply Rmult_le_pos; [apply pos_INR | apply Rlt_le, Rinv_0_lt_compat; auto]|].
  apply (Rmult_le_reg_r (INR (S N))); auto. unfold Rdiv. rewrite Rmult_assoc, Rinv_l by lra. lra.
Qed.
End expect.

(** ** The pulses on the device *)
Lemma fold_pulses_at mt l : forall cs cs' i j c, yields (foldMM (pulse_at mt) l cs) cs' -> cell_at cs i j = Some c ->
  exists c', cell_at cs' i j = Some c' /\ yields (foldMM (fun c b => pulse mt b c) (pulses_at l i j) c) c'.
Proof.
  induction l as [|[[i' j'] b] l IH]; intros cs cs' i j c Y E; cbn [foldMM] in Y.
  - apply yields_ret in Y. subst. exists c. split; auto. constructor.
  - apply yields_bind in Y as (cs1 & Y1 & Y). pose proof (pulse_at_at _ _ _ _ _ _ Y1 i j) as P. rewrite E in P.
    destruct (cell_at cs1 i j) as [c1|] eqn:E1; [|contradiction].
    destruct (IH _ _ _ _ _ Y E1) as (c' & Ec & Yc). exists c'. split; auto. rewrite pulses_at_cons, (Nat.eqb_sym i' i), (Nat.eqb_sym j' j).
    destruct (Nat.eqb i i' && Nat.eqb j j')%bool; cbn [app foldMM]; [apply yields_bind; eauto | now subst].
Qed.
Lemma pulse_total mt b c : total (pulse mt b c).
Proof.
  assert (PW : forall w h, total (pulse_w mt (c_rule c) (c_x c) b w h)).
  { intros w h. unfold pulse_w. destruct (c_rule c); try (apply total_gauss; intros; apply total_ret).
    - destruct (Rltb 0 (m_std mt)); [apply total_gauss; intros|]; apply total_ret.
    - apply total_bind; [destruct (Reqb hs_std 0); [apply total_ret | apply total_gauss; intros; apply total_ret]|]. intros h1 _.
      destruct (Rltb h1 (-1)); [|destruct (Rltb 1 h1); [|apply total_ret]]; (apply total_bind; [destruct (Rltb 0 (m_std mt)); [apply total_gauss; intros|]; apply total_ret | intros; apply total_ret]). }
  unfold pulse. destruct (skips _ _); [apply total_ret|]. destruct (impl_wn _); (apply total_bind; [apply PW|]); intros a _; [|apply total_ret].
  destruct (Rltb 0 (scaled_wn mt)); [|apply total_ret]. intros e H. apply throws_wnoise in H as [n H]. inversion H.
Qed.
Lemma upd_nth_total {A} n (f : A -> M A) l : (forall a, total (f a)) -> total (upd_nth n f l).
Proof.
  intros T. unfold upd_nth. revert n. induction l as [|a l IH]; intros [|n]; cbn; try apply total_ret; (apply total_bind; [auto|]); intros; apply total_ret.
Qed.
Lemma do_pulses_total mt dv l : total (do_op mt dv (OPulses l)).
Proof.
  cbn [do_op]. apply total_bind; [|intros; apply total_ret]. apply total_foldMM. intros cs p _. unfold pulse_at. apply upd_nth_total. intros r. apply upd_nth_total. intros. apply pulse_total.
Qed.
Lemma liftR_total {A} (a : A) : total (liftR (Ok a)).
Proof. apply total_ret. Qed.
Lemma sparse_total u lr g x d : total (sparse_update u lr g x d).
Proof.
  unfold sparse_update. destruct (bl_ab_ok u x d (Rabs lr) g (Rabs_pos lr)) as (BL & A & B & ->). cbn [liftR bindM]. destruct (BL =? 0)%Z; [apply total_ret|].
  apply total_bind; [apply total_mapMM; intros; apply train_total|]. intros. apply total_bind; [apply total_mapMM; intros; apply train_total|]. intros. apply total_ret.
Qed.
Lemma expect_close {A} N G (m : M A) f h e : G <> [] -> total m -> (forall a, yields m a -> Rabs (f a - h a) <= e) -> Rabs (expect N G m f - expect N G m h) <= e.
Proof.
  intros HG T H. assert (L : forall m : M A, total m -> forall q, (forall a, yields m a -> q a <= e) -> expect N G m q <= e).
  { clear m T f h H. intros m T q. induction m as [a|k IH|k IH|k IH|ex]; cbn [expect]; intros H.
    - apply H. constructor.
    - assert (B : forall l : vec, (forall u, In u l -> expect N G (k u) q <= e) -> sumR (map (fun u => expect N G (k u) q) l) <= INR (length l) * e).
      { induction l as [|a l IHl]; intros Hl; [cbn; lra|]. cbn [map sumR length]. rewrite S_INR. pose proof (Hl a (or_introl eq_refl)). specialize (IHl (fun u Hu => Hl u (or_intror Hu))). lra. }
      unfold avg. assert (P : 0 < INR (length (grid N))) by (rewrite grid_length; apply lt_0_INR; lia). apply (Rmult_le_reg_r (INR (length (grid N)))); auto.
      unfold Rdiv. rewrite Rmult_assoc, Rinv_l, Rmult_1_r by lra. rewrite Rmult_comm. apply B. intros u Hu. pose proof (grid_range _ _ Hu). apply IH; [|intros; apply H; econstructor; eauto].
      intros x Hx. apply (T x). econstructor; eauto.
    - assert (B : forall l : vec, (forall u, In u l -> expect N G (k u) q <= e) -> sumR (map (fun u => expect N G (k u) q) l) <= INR (length l) * e).
      { induction l as [|a l IHl]; intros Hl; [cbn; lra|]. cbn [map sumR length]. rewrite S_INR. pose proof (Hl a (or_introl eq_refl)). specialize (IHl (fun u Hu => Hl u (or_intror Hu))). lra. }
      unfold avg. assert (P : 0 < INR (length G)) by (apply lt_0_INR; destruct G; [congruence | cbn; lia]). apply (Rmult_le_reg_r (INR (length G))); auto.
      unfold Rdiv. rewrite Rmult_assoc, Rinv_l, Rmult_1_r by lra. rewrite Rmult_comm. apply B. intros u Hu. apply IH; [|intros; apply H; econstructor; eauto].
      intros x Hx. apply (T x). econstructor; eauto.
    - assert (B : forall l : vec, (forall u, In u l -> expect N G (k u) q <= e) -> sumR (map (fun u => expect N G (k u) q) l) <= INR (length l) * e).
      { induction l as [|a l IHl]; intros Hl; [cbn; lra|]. cbn [map sumR length]. rewrite S_INR. pose proof (Hl a (or_introl eq_refl)). specialize (IHl (fun u Hu => Hl u (or_intror Hu))). lra. }
      unfold avg. assert (P : 0 < INR (length G)) by (apply lt_0_INR; destruct G; [congruence | cbn; lia]). apply (Rmult_le_reg_r (INR (length G))); auto.
      unfold Rdiv. rewrite Rmult_assoc, Rinv_l, Rmult_1_r by lra. rewrite Rmult_comm. apply B. intros u Hu. apply IH; [|intros; apply H; econstructor; eauto].
      intros x Hx. apply (T x). econstructor; eauto.
    - exfalso. apply (T ex). constructor. }
  assert (E1 : expect N G m f - expect N G m h = expect N G m (fun a => f a + -1 * h a)) by (rewrite expect_plus, expect_scal; ring).
  apply Rabs_le. split.
  - assert (expect N G m (fun a => h a + -1 * f a) <= e) by (apply L; auto; intros a Y; specialize (H a Y); revert H; mm). rewrite expect_plus, expect_scal in H0. lra.
  - rewrite E1. apply L; auto. intros a Y. specialize (H a Y). revert H. mm.
Qed.
