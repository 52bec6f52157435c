(** * Pulsed update: theorems *)
From Verif Require Import Prelude Rand DevModel DevSpec DevProofs DevProps PulseModel PulseSpec PulseProofs.

(** C59: the pulse trains carry the learning rate: number of slots times the two factors times
    the granularity is the learning rate, with any combination of update management and update
    BL management, if the learning rate fits or the length is fixed ... *)
Theorem C59_scale : forall u x d lr g BL A B, sensible u -> 0 < lr -> 0 < g -> 0 < maxabs x -> 0 < maxabs d -> fits u lr g ->
  bl_ab (init_upar u) x d lr g = Ok (BL, A, B) -> (1 <= BL <= up_BL u)%Z /\ IZR BL * A * B * g = lr.
Proof.
  intros u x d lr g BL A B Hs Hl Hg Hx Hd Hf. unfold fits in Hf. rewrite (Rabs_right lr) in Hf by lra. unfold bl_ab. cbn [init_upar up_ublm up_um].
  destruct (up_ublm u || (up_um u || up_ublm u))%bool eqn:E; intros H.
  - apply manage_spec in H; auto; cbn [init_upar up_ublm up_um]; [|intros ->; now rewrite orb_true_r | destruct (up_ublm u), (up_um u); auto].
    destruct H as (_ & _ & P & F & _). destruct (F Hf). auto with zarith.
  - apply calc_spec in H; auto. destruct H as (_ & _ & P & F & _). destruct (F Hf). cbn in H. split; auto. lia.
Qed.
(** ... otherwise the trains are made longer and overshoot it by less than one step ... *)
Theorem C59_overshoot : forall u x d lr g BL A B, sensible u -> 0 < lr -> 0 < g -> 0 < maxabs x -> 0 < maxabs d -> ~ fits u lr g ->
  bl_ab (init_upar u) x d lr g = Ok (BL, A, B) -> lr <= IZR BL * A * B * g < lr + g.
Proof.
  intros u x d lr g BL A B Hs Hl Hg Hx Hd Hf. unfold fits in Hf. rewrite (Rabs_right lr) in Hf by lra. unfold bl_ab. cbn [init_upar up_ublm up_um].
  assert (F1 : up_fixed u = false) by (destruct (up_fixed u); auto; exfalso; auto).
  assert (F2 : up_ublm u = false) by (destruct (up_ublm u); auto; exfalso; auto).
  assert (F3 : g * IZR (up_BL u) < lr) by (apply Rnot_le_lt; auto).
  destruct (up_ublm u || (up_um u || up_ublm u))%bool eqn:E; intros H.
  - apply manage_spec in H; auto; cbn [init_upar up_ublm up_um]; try (intros E'; rewrite E'; now rewrite orb_true_r); try (destruct (up_ublm u), (up_um u); auto; discriminate).
    destruct H as (_ & _ & P & _ & F & _). destruct (F F1 F2 F3). auto.
  - apply calc_spec in H; auto. destruct H as (Eab & _ & P & _ & F). destruct (F F1 F2 F3) as (-> & _ & L). rewrite <- Eab. lra.
Qed.
(** ... with update management all pulse probabilities of the inputs are at most one, and those
    of the errors if the largest element of the update fits into the train. *)
Theorem C59_probabilities : forall u x d lr g BL A B, sensible u -> 0 < lr -> 0 < g -> up_um u = true \/ up_ublm u = true ->
  bl_ab (init_upar u) x d lr g = Ok (BL, A, B) -> BL <> 0%Z ->
  (forall j, Rabs (nth j x 0) * B <= 1) /\ (up_gs u = 1 -> max_fits u lr g x d -> forall i, Rabs (nth i d 0) * A <= 1).
Proof.
  intros u x d lr g BL A B Hs Hl Hg Hm H Nz. unfold bl_ab in H. cbn [init_upar up_ublm up_um] in H.
  replace (up_ublm u || (up_um u || up_ublm u))%bool with true in H by (destruct Hm as [-> | ->]; now rewrite ?orb_true_r).
  assert (Px : 0 < maxabs x /\ 0 < maxabs d).
  { pose proof (maxabs_pos x). pose proof (maxabs_pos d). unfold manage_bl in H. destruct (calc_bl _ lr g) as [[[? ?] ?]|]; [|discriminate]. cbn [bind] in H.
    rewrite (proj2 (Rltb_true 0 lr)) in H by lra.
    destruct (Reqb (maxabs d) 0) eqn:E1; [cbn [orb] in H; injection H as <- _ _; congruence|].
    destruct (Reqb (maxabs x) 0) eqn:E2; [cbn [orb] in H; injection H as <- _ _; congruence|]. apply Reqb_false in E1, E2. lra. }
  apply manage_spec in H; auto; try tauto; cbn [init_upar up_ublm up_um]; [|intros ->; now rewrite orb_true_r | destruct (up_ublm u), (up_um u); auto; destruct Hm; discriminate].
  destruct H as (PA & PB & _ & _ & _ & X & D). split.
  - intros j. pose proof (maxabs_ge x j). pose proof (Rabs_pos (nth j x 0)). nra.
  - intros G1 Hf i. unfold max_fits in Hf. rewrite (Rabs_right lr) in Hf by lra. specialize (D G1 Hf). pose proof (maxabs_ge d i). pose proof (Rabs_pos (nth i d 0)). nra.
Qed.
Definition ex_upar : upar :=
  {| up_type := StochasticCompressed; up_BL := 31; up_fixed := true; up_ublm := true; up_um := true; up_gs := 1; up_res := 0; up_xres := 0; up_dres := 0; up_sto := false |}.
Example C59_example : sensible ex_upar /\ fits ex_upar (1/10) (1/1000) /\ max_fits ex_upar (1/100) (1/1000) [1; -1/2] [1/3; 1] /\
  ~ fits {| up_type := StochasticCompressed; up_BL := 31; up_fixed := false; up_ublm := false; up_um := true; up_gs := 1; up_res := 0; up_xres := 0; up_dres := 0; up_sto := false |} (1/10) (1/1000).
Proof.
  repeat split; cbn; try lia; try lra.
  - left. reflexivity.
  - unfold max_fits. cbn. rewrite !(Rabs_right (_ / _)) by lra. mm.
  - intros [H | [H | H]]; cbn in H; try discriminate. rewrite Rabs_right in H by lra. lra.
Qed.

(** C60: in every outcome of an update with a learning rate that is not zero, all pulses at a
    cross point have the direction of the gradient (down if [lr x_j d_i] is positive), there are none
    if this product is zero, and at most as many as there are slots; for the stochastic
    types, and for the others if the learning rate is positive ... *)
Theorem C60_direction : forall u x d lr g l i j, sensible u -> 0 < g -> lr <> 0 -> stochastic u \/ 0 < lr -> yields (update_pulses (init_upar u) lr g x d) l ->
  (forall b, In b (pulses_at l i j) -> (b = true <-> 0 < lr * nth j x 0 * nth i d 0)) /\
  (lr * nth j x 0 * nth i d 0 = 0 -> pulses_at l i j = []) /\
  (Z.of_nat (length (pulses_at l i j)) <= slots u lr g)%Z.
Proof.
  intros u x d lr g l i j Hs Hg L T Y. unfold update_pulses in Y. rewrite (proj2 (Reqb_false lr 0)) in Y by auto.
  assert (C : stochastic u \/ (dense u /\ 0 < lr)) by (unfold stochastic, dense in *; destruct (up_type u); tauto).
  destruct C as [C | [C P]].
  - assert (Y' : yields (sparse_update (init_upar u) lr g x d) l) by (destruct C as [C | C]; cbn [init_upar up_type] in Y; rewrite C in Y; exact Y).
    destruct (sparse_at _ _ _ _ _ _ i j L (Hs : sensible (init_upar u)) Hg Y') as (n & E & Hn & Z0). rewrite E, repeat_length.
    assert (Zn : nth j x 0 <> 0 /\ nth i d 0 <> 0 \/ n = 0%nat).
    { destruct (Req_dec (nth j x 0) 0); [auto|]. destruct (Req_dec (nth i d 0) 0); auto. }
    split; [|split; auto].
    + intros b Hb. apply repeat_spec in Hb as Hb'. subst b. destruct Zn as [[Zx Zd] | ->]; [|contradiction]. now apply dir_spec.
    + intros H. destruct Zn as [[Zx Zd] | ->]; auto. exfalso. apply Rmult_integral in H as [H | H]; auto. apply Rmult_integral in H as [H | H]; auto.
  - assert (Y' : yields (dense_update (init_upar u) lr g x d) l) by (destruct C as [C | C]; cbn [init_upar up_type] in Y; rewrite C in Y; exact Y).
    destruct (dense_update_at _ _ _ _ _ _ i j L (Hs : sensible (init_upar u)) Hg Y') as (c & E & Hc & P1 & P2). rewrite E, repeat_length.
    split; [|split].
    + intros b Hb. assert (c <> 0%Z) by (intros ->; contradiction). apply repeat_spec in Hb. subst b.
      destruct (Rle_dec (nth j x 0 * nth i d 0) 0) as [Q | Q].
      * pose proof (P2 Q). split; intros H1; [apply Z.ltb_lt in H1; lia | exfalso; rewrite Rmult_assoc in H1; nra].
      * assert (0 <= c)%Z by (apply P1; lra). split; intros H1; [rewrite Rmult_assoc; apply Rmult_lt_0_compat; lra | apply Z.ltb_lt; lia].
    + intros H. assert (Q : nth j x 0 * nth i d 0 = 0) by (rewrite Rmult_assoc in H; apply Rmult_integral in H as [H | H]; lra).
      replace c with 0%Z; [reflexivity|]. specialize (P1 ltac:(lra)). specialize (P2 ltac:(lra)). lia.
    + change (slots (init_upar u) lr g) with (slots u lr g) in Hc. lia.
Qed.
(** ... a learning rate of zero sends no pulses ... *)
Theorem C60_zero_lr : forall u g x d l, yields (update_pulses u 0 g x d) l -> l = [].
Proof. intros u g x d l. unfold update_pulses. rewrite (proj2 (Reqb_true 0 0)) by auto. intros Y. now apply yields_ret in Y. Qed.
(** ... but with the dense types a negative learning rate gives exactly the pulses of the positive
    one: the sign is applied to both factors of the product. *)
Theorem C60_negative_lr_refuted : forall u x d lr g l, dense u -> lr <> 0 ->
  (yields (update_pulses u (- lr) g x d) l <-> yields (update_pulses u lr g x d) l).
Proof.
  assert (S : forall lr, lr <> 0 -> forall P r sto BL v c, yields (count_mean P r sto BL lr v) c <-> yields (count_mean P r sto BL (- lr) v) (- c)%Z).
  { intros lr L P r sto BL v c.
    assert (W : forall lr c, lr <> 0 -> yields (count_mean P r sto BL lr v) c -> yields (count_mean P r sto BL (- lr) v) (- c)%Z).
    { clear lr L c. intros lr c L Y. unfold count_mean in *. apply yields_bind in Y as (pp & Yp & Y). apply yields_bind. exists pp.
      assert (Eabs : Rabs (if Rltb (- lr) 0 then - v else v) = Rabs (if Rltb lr 0 then - v else v)) by (destruct (Rltb (- lr) 0), (Rltb lr 0); rewrite ?Rabs_Ropp; auto).
      rewrite Eabs. split; auto. apply yields_ret in Y. apply yields_ret. subst c. cbv zeta. destruct (Reqb pp 0) eqn:Ep; auto.
      assert (Nv : v <> 0). { intros ->. apply Reqb_false in Ep. apply Ep. apply (disc_zero r sto). replace (Rabs (if Rltb lr 0 then - 0 else 0) * P) with 0 in Yp; auto. destruct (Rltb lr 0); rewrite ?Ropp_0, Rabs_R0; ring. }
      destruct (Rltb lr 0) eqn:E1, (Rltb (- lr) 0) eqn:E2; try (apply Rltb_true in E1; apply Rltb_true in E2; lra); try (apply Rltb_false in E1; apply Rltb_false in E2; lra);
      destruct (Rleb 0 v) eqn:E3, (Rleb 0 (- v)) eqn:E4; try (apply Rleb_true in E3); try (apply Rleb_true in E4); try (apply Rleb_false in E3); try (apply Rleb_false in E4); try lra; lia. }
    split; intros Y; [now apply W|]. apply W in Y; [|lra]. now rewrite Ropp_involutive, Z.opp_involutive in Y. }
  assert (S2 : forall lr, lr <> 0 -> forall P r sto v c, yields (det_implicit P r sto lr v) c <-> yields (det_implicit P r sto (- lr) v) (- c)).
  { intros lr L P r sto v c.
    assert (W : forall lr c, lr <> 0 -> yields (det_implicit P r sto lr v) c -> yields (det_implicit P r sto (- lr) v) (- c)).
    { clear lr L c. intros lr c L Y. unfold det_implicit in *. cbv zeta in *. apply yields_bind in Y as (pp & Yp & Y). apply yields_bind. exists pp.
      assert (Eabs : Rabs (if Rltb (- lr) 0 then - v else v) = Rabs (if Rltb lr 0 then - v else v)) by (destruct (Rltb (- lr) 0), (Rltb lr 0); rewrite ?Rabs_Ropp; auto).
      rewrite Eabs. split; auto. apply yields_ret in Y. apply yields_ret. subst c.
      destruct (Req_dec v 0) as [-> | Nv].
      - assert (pp = 0) by (apply (disc_zero r sto); replace (Rabs (if Rltb lr 0 then - 0 else 0) * P) with 0 in Yp; auto; destruct (Rltb lr 0); rewrite ?Ropp_0, Rabs_R0; ring). subst pp.
        rewrite Rmin_left, Rmax_left by lra. repeat destruct (Rleb _ _); lra.
      - destruct (Rltb lr 0) eqn:E1, (Rltb (- lr) 0) eqn:E2; try (apply Rltb_true in E1; apply Rltb_true in E2; lra); try (apply Rltb_false in E1; apply Rltb_false in E2; lra);
        destruct (Rleb 0 v) eqn:E3, (Rleb 0 (- v)) eqn:E4; try (apply Rleb_true in E3); try (apply Rleb_true in E4); try (apply Rleb_false in E3); try (apply Rleb_false in E4); try lra. }
    split; intros Y; [now apply W|]. apply W in Y; [|lra]. now rewrite !Ropp_involutive in Y. }
  assert (Main : forall u x d lr g l, dense u -> lr <> 0 -> yields (update_pulses u lr g x d) l -> yields (update_pulses u (- lr) g x d) l).
  { intros u x d lr g l D L. unfold update_pulses. rewrite (proj2 (Reqb_false lr 0)), (proj2 (Reqb_false (- lr) 0)) by lra.
    destruct D as [D | D]; rewrite D; unfold dense_update; rewrite Rabs_Ropp, D; destruct (bl_ab u x d (Rabs lr) g) as [[[BL A] B]|]; cbn [liftR bindM]; auto.
    - intros Y. apply yields_bind in Y as (xc & Yx & Y). apply yields_bind in Y as (dc & Yd & Y). apply yields_ret in Y. subst l.
      apply yields_bind. exists (map Z.opp xc). split.
      { apply yields_mapMM in Yx. apply yields_mapMM. induction Yx; cbn [map]; constructor; auto. now apply (proj1 (S lr L _ _ _ _ _ _)). }
      apply yields_bind. exists (map Z.opp dc). split.
      { apply yields_mapMM in Yd. apply yields_mapMM. induction Yd; cbn [map]; constructor; auto. now apply (proj1 (S lr L _ _ _ _ _ _)). }
      apply yields_ret. f_equal. rewrite map_map. apply map_ext. intros a. rewrite map_map. apply map_ext. intros b. unfold coinc_mean.
      replace (- a =? 0)%Z with (a =? 0)%Z by (destruct (Z.eqb_spec a 0), (Z.eqb_spec (- a) 0); lia). destruct (a =? 0)%Z; auto. f_equal. rewrite !opp_IZR. unfold Rdiv. ring.
    - intros Y. apply yields_bind in Y as (xc & Yx & Y). apply yields_bind in Y as (dc & Yd & Y). apply yields_ret in Y. subst l.
      apply yields_bind. exists (map Ropp xc). split.
      { apply yields_mapMM in Yx. apply yields_mapMM. induction Yx; cbn [map]; constructor; auto. now apply (proj1 (S2 lr L _ _ _ _ _)). }
      apply yields_bind. exists (map Ropp dc). split.
      { apply yields_mapMM in Yd. apply yields_mapMM. induction Yd; cbn [map]; constructor; auto. now apply (proj1 (S2 lr L _ _ _ _ _)). }
      apply yields_ret. f_equal. rewrite map_map. apply map_ext. intros a. rewrite map_map. apply map_ext. intros b. unfold coinc_det.
      replace (Reqb (- a) 0) with (Reqb a 0) by (destruct (Reqb a 0) eqn:E1, (Reqb (- a) 0) eqn:E2; auto; try apply Reqb_true in E1; try apply Reqb_true in E2; try apply Reqb_false in E1; try apply Reqb_false in E2; lra).
      destruct (Reqb a 0); auto. f_equal. ring. }
  intros u x d lr g l D L. split; intros Y; [|now apply Main]. apply Main in Y; auto; [|lra]. now rewrite Ropp_involutive in Y.
Qed.
Example C60_example : dense {| up_type := MeanCount; up_BL := 31; up_fixed := true; up_ublm := false; up_um := false; up_gs := 1; up_res := 0; up_xres := 0; up_dres := 0; up_sto := false |} /\ stochastic ex_upar
  /\ slots ex_upar (1/10) (1/1000) = 31%Z.
Proof. split; [now left|]. split; [now right | reflexivity]. Qed.

(** C61: stochastic pulse trains are (nearly) unbiased: the expected number of pulses at a
    cross point is the number of slots times the two pulse probabilities ... *)
Theorem C61_expected_pulses : forall N G u x d lr g i j BL A B, G <> [] -> sensible u -> stochastic u -> up_res u <= 0 -> lr <> 0 -> 0 < g ->
  bl_ab (init_upar u) x d (Rabs lr) g = Ok (BL, A, B) ->
  expect N G (update_pulses (init_upar u) lr g x d) (fun l => INR (length (pulses_at l i j))) =
  IZR BL * prob_below N (Rabs (nth i d 0) * A) * prob_below N (Rabs (nth j x 0) * B).
Proof.
  intros N G u x d lr g i j BL A B HG Hs Ht Hr L Hg E. unfold update_pulses. rewrite (proj2 (Reqb_false lr 0)) by auto.
  replace (match up_type (init_upar u) with Stochastic | StochasticCompressed => _ | _ => _ end) with (sparse_update (init_upar u) lr g x d) by (destruct Ht as [Ht | Ht]; cbn [init_upar up_type]; now rewrite Ht).
  apply sparse_expect; auto. apply slots_bound in E; auto; [lia|]. now apply Rabs_pos_lt.
Qed.
(** ... a probability [p] is realized up to the resolution of the random numbers ... *)
Theorem C61_probability : forall N p, (0 < N)%nat -> 0 <= p <= 1 -> Rabs (prob_below N p - p) <= 1 / INR (S N).
Proof. intros. now apply prob_below_close. Qed.
(** ... the bits of a train are independent ... *)
Theorem C61_independent : forall N G P r sto v bs, G <> [] -> r <= 0 -> Rabs v * P <> 0 ->
  expect N G (train P r sto (length bs) v) (fun t => if list_eq_dec Bool.bool_dec t bs then 1 else 0) =
  fold_right Rmult 1 (map (fun b : bool => if b then prob_below N (Rabs v * P) else 1 - prob_below N (Rabs v * P)) bs).
Proof.
  intros N G P r sto v bs HG Hr Hp. unfold train, disc. rewrite (proj2 (Rleb_true r 0)) by auto. cbn [bindM]. rewrite (proj2 (Reqb_false _ _)) by auto. set (p := Rabs v * P).
  generalize 0%nat. induction bs as [|b bs IH]; intros k; cbn [length seq mapMM map fold_right].
  - cbn [expect]. destruct (list_eq_dec _ _ _); congruence.
  - cbn [bindM expect]. rewrite <- (IH (S k)). set (m := mapMM _ _).
    assert (Av : forall w, expect N G (bindM m (fun bs0 => Ret (Rltb w p :: bs0))) (fun t => if list_eq_dec Bool.bool_dec t (b :: bs) then 1 else 0) =
       (if Bool.eqb (Rltb w p) b then 1 else 0) * expect N G m (fun t => if list_eq_dec Bool.bool_dec t bs then 1 else 0)).
    { intros w. rewrite expect_bind. rewrite <- expect_scal. apply expect_ext. intros t _. cbn [expect].
      destruct (list_eq_dec _ (Rltb w p :: t) (b :: bs)) as [Q | Q]; destruct (list_eq_dec _ t bs) as [Q' | Q'].
      - injection Q as -> _. rewrite Bool.eqb_reflx. ring.
      - injection Q as _ ->. congruence.
      - destruct (Bool.eqb (Rltb w p) b) eqn:Q2; [apply Bool.eqb_prop in Q2; congruence | ring].
      - ring. }
    rewrite (avg_ext _ _ (fun w => expect N G m (fun t => if list_eq_dec Bool.bool_dec t bs then 1 else 0) * (if Bool.eqb (Rltb w p) b then 1 else 0))).
    2:{ intros w _. rewrite (Av w). ring. }
    rewrite avg_scal, Rmult_comm. f_equal. pose proof (avg_grid_below N p) as Bl. destruct b.
    + rewrite <- Bl. apply avg_ext. intros w _. unfold b2R. destruct (Rltb w p); reflexivity.
    + rewrite <- Bl. rewrite <- (avg_const (grid N) 1) at 1 by apply grid_nonempty.
      replace (avg (grid N) (fun _ => 1) - avg (grid N) (fun u => b2R (Rltb u p))) with (avg (grid N) (fun _ => 1) + -1 * avg (grid N) (fun u => b2R (Rltb u p))) by ring.
      rewrite <- avg_scal, <- avg_plus. apply avg_ext. intros w _. unfold b2R. destruct (Rltb w p); cbn; lra.
Qed.
Lemma slots_fits u lr g : 0 < g -> fits u lr g -> slots u lr g = up_BL u.
Proof.
  intros Hg [H | [H | H]]; unfold slots.
  - now rewrite H.
  - now rewrite H, orb_true_r.
  - destruct (_ || _)%bool; auto. apply Z.max_l. apply Z.lt_succ_r, lt_IZR. rewrite succ_IZR. pose proof (ceilZ_spec (Rabs lr / g)).
    assert (Rabs lr / g <= IZR (up_BL u)) by (apply (Rmult_le_reg_r g); auto; unfold Rdiv; rewrite Rmult_assoc, Rinv_l by lra; lra). lra.
Qed.
(** the expected count in terms of the learning rate *)
Lemma expected_count N G u x d lr g i j : (0 < N)%nat -> G <> [] -> sensible u -> stochastic u -> up_res u <= 0 -> lr <> 0 -> 0 < g -> fits u lr g ->
  up_um u = true \/ up_ublm u = true -> up_gs u = 1 -> max_fits u lr g x d ->
  Rabs (g * expect N G (update_pulses (init_upar u) lr g x d) (fun l => INR (length (pulses_at l i j))) - Rabs (lr * nth j x 0 * nth i d 0)) <= 2 * IZR (up_BL u) * g / INR (S N).
Proof.
  intros HN HG Hs Ht Hr L Hg Hf Hm H1 Hmf. assert (PL : 0 < Rabs lr) by now apply Rabs_pos_lt.
  destruct (bl_ab_ok (init_upar u) x d (Rabs lr) g ltac:(lra)) as (BL & A & B & E).
  rewrite (C61_expected_pulses N G u x d lr g i j BL A B) by auto.
  assert (PS : 0 < INR (S N)) by (apply lt_0_INR; lia). assert (PB : 1 <= IZR (up_BL u)) by (destruct Hs as [Hb _]; now apply IZR_le in Hb).
  assert (Rhs : 0 <= 2 * IZR (up_BL u) * g / INR (S N)) by (apply Rmult_le_pos; [nra | apply Rlt_le; now apply Rinv_0_lt_compat]).
  assert (Hbl : (0 <= BL <= up_BL u)%Z) by (rewrite <- (slots_fits u lr g) by auto; apply slots_bound in E; auto; unfold slots in *; now rewrite Rabs_Rabsolu in E).
  destruct (Z.eq_dec BL 0) as [-> | Nz].
  - assert (Z0 : nth j x 0 * nth i d 0 = 0).
    { unfold bl_ab in E. cbn [init_upar up_ublm up_um] in E. replace (up_ublm u || (up_um u || up_ublm u))%bool with true in E by (destruct Hm as [-> | ->]; now rewrite ?orb_true_r).
      pose proof (maxabs_ge x j). pose proof (maxabs_ge d i). pose proof (Rabs_pos (nth j x 0)). pose proof (Rabs_pos (nth i d 0)).
      destruct (Req_dec (maxabs x) 0) as [Ex | Ex]; [assert (Q : Rabs (nth j x 0) = 0) by lra; destruct (Req_dec (nth j x 0) 0) as [-> | K]; [ring | apply Rabs_no_R0 in K; contradiction]|].
      destruct (Req_dec (maxabs d) 0) as [Ed | Ed]; [assert (Q : Rabs (nth i d 0) = 0) by lra; destruct (Req_dec (nth i d 0) 0) as [-> | K]; [ring | apply Rabs_no_R0 in K; contradiction]|].
      pose proof (maxabs_pos x). pose proof (maxabs_pos d).
      apply manage_spec in E; auto; try lra; cbn [init_upar up_ublm up_um]; [|intros Q; rewrite Q; now rewrite orb_true_r | destruct (up_ublm u), (up_um u); auto; destruct Hm; discriminate].
      destruct E as (_ & _ & K & _). lia. }
    replace (lr * nth j x 0 * nth i d 0) with (lr * (nth j x 0 * nth i d 0)) by ring. rewrite Z0, Rmult_0_r, Rabs_R0.
    rewrite Rmult_0_l, Rmult_0_l, Rmult_0_r, Rminus_0_r, Rabs_R0. exact Rhs.
  - assert (Hmf' : max_fits u (Rabs lr) g x d) by (unfold max_fits; rewrite Rabs_Rabsolu; exact Hmf).
    assert (Hf' : fits u (Rabs lr) g) by (unfold fits; rewrite Rabs_Rabsolu; exact Hf).
    destruct (C59_probabilities u x d (Rabs lr) g BL A B Hs PL Hg Hm E Nz) as [Px Pd]. specialize (Pd H1 Hmf').
    assert (PosAB : 0 < A /\ 0 < B /\ IZR BL * A * B * g = Rabs lr).
    { assert (Pmx : 0 < maxabs x /\ 0 < maxabs d).
      { pose proof (maxabs_pos x). pose proof (maxabs_pos d). unfold bl_ab in E. cbn [init_upar up_ublm up_um] in E.
        replace (up_ublm u || (up_um u || up_ublm u))%bool with true in E by (destruct Hm as [-> | ->]; now rewrite ?orb_true_r).
        unfold manage_bl in E. destruct (calc_bl _ (Rabs lr) g) as [[[? ?] ?]|]; [|discriminate]. cbn [bind] in E. rewrite (proj2 (Rltb_true 0 (Rabs lr))) in E by lra.
        destruct (Reqb (maxabs d) 0) eqn:E1; [cbn [orb] in E; injection E as <- _ _; congruence|].
        destruct (Reqb (maxabs x) 0) eqn:E2; [cbn [orb] in E; injection E as <- _ _; congruence|]. apply Reqb_false in E1, E2. lra. }
      destruct (C59_scale u x d (Rabs lr) g BL A B Hs PL Hg (proj1 Pmx) (proj2 Pmx) Hf' E) as [_ Sc].
      unfold bl_ab in E. cbn [init_upar up_ublm up_um] in E. replace (up_ublm u || (up_um u || up_ublm u))%bool with true in E by (destruct Hm as [-> | ->]; now rewrite ?orb_true_r).
      destruct Pmx. apply manage_spec in E; auto; cbn [init_upar up_ublm up_um]; [tauto | intros Q; rewrite Q; now rewrite orb_true_r | destruct (up_ublm u), (up_um u); auto; destruct Hm; discriminate]. }
    destruct PosAB as (PA & PB' & Sc). set (p := Rabs (nth i d 0) * A). set (q := Rabs (nth j x 0) * B).
    assert (Hp : 0 <= p <= 1) by (split; [apply Rmult_le_pos; [apply Rabs_pos | lra] | apply Pd]).
    assert (Hq : 0 <= q <= 1) by (split; [apply Rmult_le_pos; [apply Rabs_pos | lra] | apply Px]).
    pose proof (prob_below_close N p HN Hp) as Cp. pose proof (prob_below_close N q HN Hq) as Cq. pose proof (prob_below_range N p) as Rp.
    assert (Et : Rabs (lr * nth j x 0 * nth i d 0) = IZR BL * g * (p * q)).
    { rewrite !Rabs_mult, <- Sc. unfold p, q. ring. }
    rewrite Et. set (P := prob_below N p) in *. set (Q := prob_below N q) in *.
    replace (g * (IZR BL * P * Q) - IZR BL * g * (p * q)) with (IZR BL * g * (P * (Q - q) + q * (P - p))) by ring.
    assert (PBL : 0 <= IZR BL) by (apply (IZR_le 0); lia). assert (IZR BL <= IZR (up_BL u)) by (apply IZR_le; lia).
    assert (I1 : 0 < / INR (S N)) by now apply Rinv_0_lt_compat.
    assert (K : Rabs (P * (Q - q) + q * (P - p)) <= 2 / INR (S N)).
    { eapply Rle_trans; [apply Rabs_triang|]. rewrite !Rabs_mult, (Rabs_right P), (Rabs_right q) by lra. unfold Rdiv in *. rewrite Rmult_1_l in *.
      assert (P * Rabs (Q - q) <= 1 * / INR (S N)) by (apply Rmult_le_compat; try lra; apply Rabs_pos). assert (q * Rabs (P - p) <= 1 * / INR (S N)) by (apply Rmult_le_compat; try lra; apply Rabs_pos). lra. }
    rewrite Rabs_mult, Rabs_right by (apply Rle_ge; nra). unfold Rdiv in *.
    replace (2 * IZR (up_BL u) * g * / INR (S N)) with (IZR (up_BL u) * g * (2 * / INR (S N))) by ring.
    apply Rmult_le_compat; [apply Rmult_le_pos; lra | apply Rabs_pos | apply Rmult_le_compat_r; lra | exact K].
Qed.
(** the visible weight at a cross point *)
Definition weight_at (mt : meta) (dv : dev) (i j : nat) : R := match cell_at (d_cells dv) i j with Some c => stored mt c | None => 0 end.
(** one update of an ideal constant step crosspoint away from its bounds *)
Definition ideal_cell (mt : meta) (c : cell) : Prop := accepted mt c /\ c_rule c = RConst /\ x_up (c_x c) = m_dwmin mt /\ x_dn (c_x c) = m_dwmin mt.
Definition room (mt : meta) (c : cell) (r : R) : Prop := x_min (c_x c) + r <= stored mt c <= x_max (c_x c) - r.
Lemma update_on_cell u mt lr x d dv dv' i j c : sensible u -> 0 < m_dwmin mt -> m_std mt = 0 -> lr <> 0 -> stochastic u -> fits u lr (m_dwmin mt) ->
  ideal_cell mt c -> room mt c (IZR (up_BL u) * m_dwmin mt) -> cell_at (d_cells dv) i j = Some c -> forall l, yields (update_pulses (init_upar u) lr (m_dwmin mt) x d) l ->
  yields (do_op mt dv (OPulses l)) dv' ->
  exists c', cell_at (d_cells dv') i j = Some c' /\ ideal_cell mt c' /\ c_x c' = c_x c /\
    stored mt c' = stored mt c - (if Rltb 0 (lr * nth j x 0 * nth i d 0) then 1 else -1) * (m_dwmin mt * INR (length (pulses_at l i j))) /\
    (length (pulses_at l i j) <= Z.to_nat (up_BL u))%nat.
Proof.
  intros Hs Hg Hd L Ht Hf (Ac & Rc & Eu & Ed) Rm E l Yl Y. cbn [do_op] in Y. apply yields_bind in Y as (cs & Yc & Y). apply yields_ret in Y. subst dv'.
  destruct (fold_pulses_at _ _ _ _ _ _ _ Yc E) as (c' & E' & Yp). exists c'. split; auto.
  destruct (C60_direction u x d lr (m_dwmin mt) l i j Hs Hg L (or_introl Ht) Yl) as (D & _ & Nl). rewrite slots_fits in Nl by auto.
  set (n := length (pulses_at l i j)) in *. set (b := Rltb 0 (lr * nth j x 0 * nth i d 0)).
  assert (Eb : pulses_at l i j = repeat b n).
  { unfold n. clear - D. induction (pulses_at l i j) as [|a bs IH]; auto. cbn [length repeat]. f_equal; [|apply IH; intros; apply D; now right].
    specialize (D a (or_introl eq_refl)). unfold b. destruct a; [symmetry; apply Rltb_true; tauto|]. symmetry. apply Rltb_false. apply Rnot_lt_le. intros H. destruct D as [_ D]. specialize (D H). discriminate. }
  rewrite Eb in Yp. fold (pulses mt n b c) in Yp.
  assert (K : c_x c' = c_x c /\ c_rule c' = c_rule c).
  { refine (yields_foldMM_inv _ (fun z => c_x z = c_x c /\ c_rule z = c_rule c) (repeat b n) _ c c' (conj eq_refl eq_refl) Yp). intros z a z' _ [H1 H2] Yz. apply pulse_keeps in Yz. rewrite H1, H2 in Yz. exact Yz. }
  destruct K as [Kx Kr]. assert (Hb1 : 1 <= IZR (up_BL u)) by (destruct Hs as [Hb _]; now apply IZR_le in Hb).
  assert (Wb : x_min (c_x c) <= stored mt c <= x_max (c_x c)) by (unfold room in Rm; nra).
  destruct (C53_constant_step mt n c c' Hd Ac Rc Wb ltac:(lra) ltac:(lra)) as [Up Dn].
  assert (Hn : INR n <= IZR (up_BL u)) by (rewrite INR_IZR_INZ; apply IZR_le; lia). pose proof (pos_INR n).
  assert (Bd : INR n * m_dwmin mt <= IZR (up_BL u) * m_dwmin mt) by (apply Rmult_le_compat_r; lra).
  unfold room in Rm. repeat split; auto; try (rewrite Kx); auto; try congruence; try lia.
  - destruct Ac; auto.
  - intros H'. rewrite Kr. destruct Ac; auto.
  - destruct b; [rewrite (Dn Yp), Ed, Rmax_left by lra; lra | rewrite (Up Yp), Eu, Rmin_left by lra; lra].
Qed.
(** ... and so the expected weight of a constant step device after an update with a batch is
    the weight of stochastic gradient descent, up to the resolution of the random numbers: with
    [N + 1] values the error per sample is at most [2 BL dw_min / (N + 1)], far below one step. *)
Theorem C61_expected_weight : forall N G u mt lr b dv i j c, (0 < N)%nat -> G <> [] -> sensible u -> stochastic u -> up_res u <= 0 ->
  up_um u = true \/ up_ublm u = true -> up_gs u = 1 -> 0 < m_dwmin mt -> m_std mt = 0 -> lr <> 0 -> fits u lr (m_dwmin mt) ->
  Forall (fun xd => max_fits u lr (m_dwmin mt) (fst xd) (snd xd)) b ->
  cell_at (d_cells dv) i j = Some c -> ideal_cell mt c -> room mt c (INR (length b) * (IZR (up_BL u) * m_dwmin mt)) ->
  Rabs (expect N G (update_batch (init_upar u) mt lr b dv) (fun dv' => weight_at mt dv' i j) -
        (stored mt c - lr * sumR (map (fun xd => nth i (snd xd) 0 * nth j (fst xd) 0) b))) <= INR (length b) * (2 * IZR (up_BL u) * m_dwmin mt / INR (S N)).
Proof.
  intros N G u mt lr b dv i j c HN HG Hs Ht Hr Hm H1 Hg Hd L Hf. revert dv c.
  assert (PB : 1 <= IZR (up_BL u)) by (destruct Hs as [Hb _]; now apply IZR_le in Hb).
  set (eps := 2 * IZR (up_BL u) * m_dwmin mt / INR (S N)). set (w1 := IZR (up_BL u) * m_dwmin mt).
  assert (Pw : 0 < w1) by (apply Rmult_lt_0_compat; lra).
  induction b as [|[x d] b IH]; intros dv c Fb E Ic Rm.
  - cbn [update_batch foldMM expect map sumR length INR]. unfold weight_at. rewrite E. rewrite Rmult_0_r, Rminus_0_r, Rminus_eq_0, Rabs_R0. lra.
  - pose proof (Forall_inv Fb) as Fx. pose proof (Forall_inv_tail Fb) as Ft. cbn [fst snd] in Fx.
    assert (El : INR (length ((x, d) :: b)) = INR (length b) + 1) by (cbn [length]; apply S_INR). rewrite El in *. pose proof (pos_INR (length b)) as Pn.
    cbn [map sumR fst snd]. set (tail := sumR (map (fun xd => nth i (snd xd) 0 * nth j (fst xd) 0) b)) in *.
    assert (R1 : room mt c w1) by (unfold room in *; nra).
    assert (Tv : total (update_vector (init_upar u) mt lr x d dv)).
    { unfold update_vector. apply total_bind; [|intros; apply do_pulses_total]. unfold update_pulses. destruct (Reqb lr 0); [apply total_ret|].
      destruct Ht as [Ht | Ht]; cbn [init_upar up_type]; rewrite Ht; apply (sparse_total (init_upar u)). }
    unfold update_batch. cbn [foldMM fst snd]. rewrite expect_bind.
    fold (update_batch (init_upar u) mt lr b).
    assert (St : forall a, yields (update_vector (init_upar u) mt lr x d dv) a -> exists c', cell_at (d_cells a) i j = Some c' /\ ideal_cell mt c' /\ room mt c' (INR (length b) * w1)).
    { intros a Y. apply yields_bind in Y as (l & Yl & Y).
      destruct (update_on_cell u mt lr x d dv a i j c Hs Hg Hd L Ht Hf Ic R1 E l Yl Y) as (c' & E' & Ic' & Kx & Sv & Ln). exists c'. split; auto. split; auto.
      assert (Hn : INR (length (pulses_at l i j)) <= IZR (up_BL u)) by (rewrite INR_IZR_INZ; apply IZR_le; destruct Hs; lia). pose proof (pos_INR (length (pulses_at l i j))) as P0.
      assert (Bd : 0 <= m_dwmin mt * INR (length (pulses_at l i j)) <= w1) by (unfold w1; split; [apply Rmult_le_pos; lra | rewrite Rmult_comm; apply Rmult_le_compat_r; lra]).
      unfold room in *. rewrite Kx, Sv. destruct (Rltb _ _); lra. }
    eapply Rle_trans with (Rabs (expect N G (update_vector (init_upar u) mt lr x d dv) (fun a => expect N G (update_batch (init_upar u) mt lr b a) (fun dv' => weight_at mt dv' i j))
         - expect N G (update_vector (init_upar u) mt lr x d dv) (fun a => weight_at mt a i j + - (lr * tail)))
       + Rabs (expect N G (update_vector (init_upar u) mt lr x d dv) (fun a => weight_at mt a i j + - (lr * tail)) - (stored mt c - lr * (nth i d 0 * nth j x 0 + tail)))).
    { eapply Rle_trans; [|apply Rabs_triang]. right. f_equal. unfold update_batch. ring. }
    assert (B1 : Rabs (expect N G (update_vector (init_upar u) mt lr x d dv) (fun a => expect N G (update_batch (init_upar u) mt lr b a) (fun dv' => weight_at mt dv' i j))
         - expect N G (update_vector (init_upar u) mt lr x d dv) (fun a => weight_at mt a i j + - (lr * tail))) <= INR (length b) * eps).
    { apply expect_close; auto. intros a Y. destruct (St a Y) as (c' & E' & Ic' & Rm'). specialize (IH a c' Ft E' Ic' Rm'). unfold weight_at at 2. rewrite E'. exact IH. }
    assert (B2 : Rabs (expect N G (update_vector (init_upar u) mt lr x d dv) (fun a => weight_at mt a i j + - (lr * tail)) - (stored mt c - lr * (nth i d 0 * nth j x 0 + tail))) <= eps).
    { rewrite expect_plus, (expect_const N G _ (- (lr * tail)) HG Tv).
      unfold update_vector. rewrite expect_bind.
      set (s := if Rltb 0 (lr * nth j x 0 * nth i d 0) then 1 else -1).
      assert (Tp : total (update_pulses (init_upar u) lr (m_dwmin mt) x d)).
      { unfold update_pulses. destruct (Reqb lr 0); [apply total_ret|]. destruct Ht as [Ht | Ht]; cbn [init_upar up_type]; rewrite Ht; apply (sparse_total (init_upar u)). }
      rewrite (expect_ext _ _ _ _ (fun l => stored mt c + (- s * m_dwmin mt) * INR (length (pulses_at l i j)))).
      - rewrite expect_plus, expect_scal, expect_const by auto.
        pose proof (expected_count N G u x d lr (m_dwmin mt) i j HN HG Hs Ht Hr L Hg Hf Hm H1 Fx) as X. fold eps in X.
        match goal with |- context [expect N G (update_pulses _ _ _ _ _) ?h] => set (Ec := expect N G (update_pulses (init_upar u) lr (m_dwmin mt) x d) h) end.
        change (Rabs (m_dwmin mt * Ec - Rabs (lr * nth j x 0 * nth i d 0)) <= eps) in X. assert (Es : s * Rabs (lr * nth j x 0 * nth i d 0) = lr * nth j x 0 * nth i d 0).
        { unfold s. destruct (Rltb 0 _) eqn:Q; [apply Rltb_true in Q; rewrite Rabs_right by lra; ring | apply Rltb_false in Q; rewrite Rabs_left1 by lra; ring]. }
        change (Rabs (stored mt c + - s * m_dwmin mt * Ec + - (lr * tail) - (stored mt c - lr * (nth i d 0 * nth j x 0 + tail))) <= eps).
        replace (stored mt c + - s * m_dwmin mt * Ec + - (lr * tail) - (stored mt c - lr * (nth i d 0 * nth j x 0 + tail))) with (- s * (m_dwmin mt * Ec) + lr * nth j x 0 * nth i d 0) by ring.
        set (X0 := Rabs (lr * nth j x 0 * nth i d 0)) in *.
        replace (- s * (m_dwmin mt * Ec) + lr * nth j x 0 * nth i d 0) with (- s * (m_dwmin mt * Ec - X0)) by lra.
        rewrite Rabs_mult. assert (Rabs (- s) = 1) by (unfold s; destruct (Rltb _ _); rewrite Rabs_Ropp; unfold Rabs; destruct (Rcase_abs _); lra). rewrite H. lra.
      - intros l Yl. rewrite (expect_ext _ _ _ _ (fun _ => stored mt c + (- s * m_dwmin mt) * INR (length (pulses_at l i j)))).
        + apply expect_const; auto. apply do_pulses_total.
        + intros a Ya. destruct (update_on_cell u mt lr x d dv a i j c Hs Hg Hd L Ht Hf Ic R1 E l Yl Ya) as (c' & E' & _ & _ & Sv & _). unfold weight_at. rewrite E', Sv. fold s. ring. }
    lra.
Qed.
Example C61_example : let mt := {| m_dwmin := 1/1000; m_std := 0; m_wn := 0; m_wn_on_set := false; m_rstd := 0 |} in
  let c := at_w (bounds (-1) 1 (1/1000) (1/1000)) RConst (1/4) 0 in
  sensible ex_upar /\ stochastic ex_upar /\ fits ex_upar (1/100) (1/1000) /\ max_fits ex_upar (1/100) (1/1000) [1; -1/2] [1/3; 1] /\
  ideal_cell mt c /\ room mt c (INR 10 * (IZR (up_BL ex_upar) * m_dwmin mt)).
Proof.
  cbn zeta. repeat split; cbn; try lia; try lra; try (rewrite (proj2 (Rltb_false 0 0)) by lra; lra).
  - now right.
  - now left.
  - unfold max_fits. cbn. rewrite !(Rabs_right (_ / _)) by lra. mm.
  - unfold stored. cbn. rewrite (proj2 (Rltb_false 0 0)) by lra. lra.
  - unfold stored. cbn. rewrite (proj2 (Rltb_false 0 0)) by lra. lra.
Qed.

(** C62: the dense types are accurate in every outcome: with update management, a learning rate that
    fits and no discretisation, the net number of pulses at a cross point times the granularity
    differs from the gradient step by at most half a step for DeterministicImplicit and one and a
    half for MeanCount. *)
Lemma net_repeat c : net (repeat (0 <? c)%Z (Z.abs_nat c)) = c.
Proof.
  unfold net, downs, ups. assert (D : forall b n, length (filter (fun b => b) (repeat b n)) = if b then n else 0%nat) by (intros b n; induction n; destruct b; cbn; auto).
  assert (U : forall b n, length (filter negb (repeat b n)) = if b then 0%nat else n) by (intros b n; induction n; destruct b; cbn; auto).
  rewrite D, U. destruct (Z.ltb_spec 0 c); lia.
Qed.
Lemma um_facts u x d lr g BL A B : sensible u -> 0 < lr -> 0 < g -> fits u lr g -> up_um u = true \/ up_ublm u = true -> up_gs u = 1 -> max_fits u lr g x d ->
  bl_ab (init_upar u) x d lr g = Ok (BL, A, B) ->
  (BL = 0%Z /\ forall i j, nth j x 0 * nth i d 0 = 0) \/
  ((0 < BL)%Z /\ 0 < A /\ 0 < B /\ IZR BL * A * B * g = lr /\ (forall j, Rabs (nth j x 0) * B <= 1) /\ (forall i, Rabs (nth i d 0) * A <= 1)).
Proof.
  intros Hs PL Hg Hf Hm H1 Hmf E. pose proof (maxabs_pos x) as P1. pose proof (maxabs_pos d) as P2.
  assert (Zr : forall v k, maxabs v = 0 -> nth k v 0 = 0).
  { intros v k Q. pose proof (maxabs_ge v k). pose proof (Rabs_pos (nth k v 0)). destruct (Req_dec (nth k v 0) 0) as [K | K]; auto. apply Rabs_no_R0 in K. lra. }
  destruct (Z.eq_dec BL 0) as [-> | Nz].
  - left. split; auto. intros i j.
    destruct (Req_dec (maxabs x) 0) as [Ex | Ex]; [rewrite (Zr x j Ex); ring|]. destruct (Req_dec (maxabs d) 0) as [Ed | Ed]; [rewrite (Zr d i Ed); ring|].
    destruct (C59_scale u x d lr g 0 A B Hs PL Hg ltac:(lra) ltac:(lra) Hf E) as [K _]. lia.
  - right. destruct (C59_probabilities u x d lr g BL A B Hs PL Hg Hm E Nz) as [Px Pd]. specialize (Pd H1 Hmf).
    assert (Pmx : 0 < maxabs x /\ 0 < maxabs d).
    { unfold bl_ab in E. cbn [init_upar up_ublm up_um] in E. replace (up_ublm u || (up_um u || up_ublm u))%bool with true in E by (destruct Hm as [-> | ->]; now rewrite ?orb_true_r).
      unfold manage_bl in E. destruct (calc_bl _ lr g) as [[[? ?] ?]|]; [|discriminate]. cbn [bind] in E. rewrite (proj2 (Rltb_true 0 lr)) in E by lra.
      destruct (Reqb (maxabs d) 0) eqn:E1; [cbn [orb] in E; injection E as <- _ _; congruence|].
      destruct (Reqb (maxabs x) 0) eqn:E2; [cbn [orb] in E; injection E as <- _ _; congruence|]. apply Reqb_false in E1, E2. lra. }
    destruct Pmx as [Pm1 Pm2]. destruct (C59_scale u x d lr g BL A B Hs PL Hg Pm1 Pm2 Hf E) as [Hb Sc].
    unfold bl_ab in E. cbn [init_upar up_ublm up_um] in E. replace (up_ublm u || (up_um u || up_ublm u))%bool with true in E by (destruct Hm as [-> | ->]; now rewrite ?orb_true_r).
    apply manage_spec in E; auto; cbn [init_upar up_ublm up_um]; [|intros Q; rewrite Q; now rewrite orb_true_r | destruct (up_ublm u), (up_um u); auto; destruct Hm; discriminate].
    destruct E as (PA & PB & _). repeat split; auto; lia.
Qed.
Lemma dense_product BL A B g lr p q : (0 < BL)%Z -> IZR BL * A * B * g = lr -> 0 < g -> forall (n : Z) e, Rabs (IZR n - IZR BL * (p * A) * (q * B)) <= e -> Rabs (g * IZR n - lr * q * p) <= e * g.
Proof.
  intros Hb Sc Hg n e H. rewrite <- Sc. replace (g * IZR n - IZR BL * A * B * g * q * p) with ((IZR n - IZR BL * (p * A) * (q * B)) * g) by ring.
  rewrite Rabs_mult, (Rabs_right g) by lra. apply Rmult_le_compat_r; lra.
Qed.
(** A resolution of the probabilities adds half of it, in units of the train length, or all of it with
    stochastic rounding. *)
Lemma disc_err v r sto q : yields (disc v r sto) q -> Rabs (q - v) <= Rmax r 0 * (if sto then 1 else 1 / 2).
Proof.
  intros Y. unfold disc in Y. destruct (Rleb r 0) eqn:Er.
  - apply yields_ret in Y. subst q. apply Rleb_true in Er. rewrite Rmax_right, Rminus_eq_0, Rabs_R0 by lra. lra.
  - apply Rleb_false in Er. rewrite Rmax_left by lra. destruct sto.
    + apply yields_unif in Y as (w & Hw & Y). apply yields_ret in Y. subst q. pose proof (rhe_err (v / r + (w - 1 / 2))) as E. set (k := rhe _) in *.
      replace (IZR k * r - v) with ((IZR k - v / r) * r) by (field; lra). rewrite Rabs_mult, (Rabs_right r) by lra.
      assert (Rabs (IZR k - v / r) <= 1) by (revert E; mm). nra.
    + apply yields_ret in Y. subst q. pose proof (rhe_err (v / r)) as E. set (k := rhe _) in *.
      replace (IZR k * r - v) with ((IZR k - v / r) * r) by (field; lra). rewrite Rabs_mult, (Rabs_right r) by lra. nra.
Qed.
Theorem C62_deterministic : forall u x d lr g l i j, sensible u -> up_type u = DeterministicImplicit ->
  0 < lr -> 0 < g -> fits u lr g -> up_um u = true \/ up_ublm u = true -> up_gs u = 1 -> max_fits u lr g x d ->
  yields (update_pulses (init_upar u) lr g x d) l ->
  Rabs (g * IZR (net (pulses_at l i j)) - lr * nth j x 0 * nth i d 0) <=
  (1 / 2 + IZR (up_BL u) * ((Rmax (up_xres u) 0 + Rmax (up_dres u) 0) * (if up_sto u then 1 else 1 / 2))) * g.
Proof.
  intros u x d lr g l i j Hs Ht PL Hg Hf Hm H1 Hmf Y. unfold update_pulses in Y. rewrite (proj2 (Reqb_false lr 0)) in Y by lra. cbn [init_upar up_type] in Y. rewrite Ht in Y.
  unfold dense_update in Y. rewrite (Rabs_right lr) in Y by lra.
  destruct (bl_ab_ok (init_upar u) x d lr g ltac:(lra)) as (BL & A & B & E). rewrite E in Y. cbn [liftR bindM] in Y. cbn [init_upar up_type up_xres up_dres up_sto] in Y. rewrite Ht in Y.
  apply yields_bind in Y as (xv & Yx & Y). apply yields_bind in Y as (dv & Yd & Y). apply yields_ret in Y. subst l. rewrite dense_at.
  assert (E0 : forall a, coinc_det BL a 0 = 0%Z) by (intros a; unfold coinc_det; destruct (Reqb _ _); auto; rewrite Rmult_0_r; apply rhe_0).
  rewrite (map_map_nth (coinc_det BL) dv xv 0 0 0%Z i j); [|apply E0| intros; unfold coinc_det; rewrite (proj2 (Reqb_true 0 0)) by auto; reflexivity | apply E0].
  rewrite net_repeat. apply yields_mapMM in Yx, Yd. set (s := if up_sto u then 1 else 1 / 2). assert (Ps : 0 < s) by (unfold s; destruct (up_sto u); lra).
  assert (V : forall P r v c, 0 <= P -> Rabs v * P <= 1 -> yields (det_implicit P r (up_sto u) lr v) c -> Rabs (c - v * P) <= Rmax r 0 * s).
  { intros P r v c HP L Yc. unfold det_implicit in Yc. rewrite (proj2 (Rltb_false lr 0)) in Yc by lra. cbv zeta in Yc.
    apply yields_bind in Yc as (pp & Yp & Yc). apply disc_err in Yp. fold s in Yp. apply yields_ret in Yc. subst c. pose proof (Rabs_pos v) as Pv.
    assert (0 <= Rabs v * P) by now apply Rmult_le_pos.
    assert (K : Rabs (Rmax (Rmin pp 1) 0 - Rabs v * P) <= Rabs (pp - Rabs v * P)) by mm.
    destruct (Rleb 0 v) eqn:Q; [apply Rleb_true in Q; rewrite (Rabs_right v) in * by lra; lra | apply Rleb_false in Q; rewrite (Rabs_left v) in * by lra].
    rewrite <- Rabs_Ropp. eapply Rle_trans; [|eapply Rle_trans; [apply K | apply Yp]]. right. f_equal. ring. }
  assert (Z0 : forall P r, yields (det_implicit P r (up_sto u) lr 0) 0).
  { intros P r. unfold det_implicit. rewrite (proj2 (Rltb_false lr 0)) by lra. destruct (total_yields _ (disc_total (Rabs 0 * P) r (up_sto u))) as [q Yq].
    cbv zeta. apply yields_bind. exists q. split; auto. rewrite Rabs_R0, Rmult_0_l in Yq. apply disc_zero in Yq. subst q. apply yields_ret.
    rewrite Rmin_left, Rmax_left by lra. destruct (Rleb _ _); lra. }
  pose proof (F2_nth_d (fun a b => yields (det_implicit B (up_xres u) (up_sto u) lr a) b) 0 0 _ _ Yx (Z0 _ _) j) as Cx.
  pose proof (F2_nth_d (fun a b => yields (det_implicit A (up_dres u) (up_sto u) lr a) b) 0 0 _ _ Yd (Z0 _ _) i) as Cd.
  assert (PM : forall r, 0 <= Rmax r 0) by (intros; apply Rmax_r). pose proof (PM (up_xres u)) as PMx. pose proof (PM (up_dres u)) as PMd.
  assert (PBL : 1 <= IZR (up_BL u)) by (destruct Hs as [Hb _]; now apply IZR_le in Hb).
  assert (Pe : 0 <= (Rmax (up_xres u) 0 + Rmax (up_dres u) 0) * s) by (apply Rmult_le_pos; lra).
  destruct (um_facts u x d lr g BL A B Hs PL Hg Hf Hm H1 Hmf E) as [[-> Zp] | (Pb & PA & PB & Sc & Px & Pd)].
  - replace (coinc_det 0 (nth i dv 0) (nth j xv 0)) with 0%Z by (unfold coinc_det; destruct (Reqb _ _); auto; rewrite Rmult_0_r, Rmult_0_l; now rewrite rhe_0).
    rewrite Rmult_assoc, Zp, !Rmult_0_r, Rminus_0_r, Rabs_R0. apply Rmult_le_pos; nra.
  - assert (Dl : Rabs (nth i dv 0) <= 1) by (apply det_implicit_spec in Cd; tauto).
    apply V in Cx; auto; try lra. apply V in Cd; auto; try lra. apply (dense_product BL A B); auto.
    assert (Hb : IZR BL <= IZR (up_BL u)).
    { apply IZR_le. rewrite <- (slots_fits u lr g) by auto. apply slots_bound in E; auto. apply E. }
    set (p := nth i d 0 * A) in *. set (q := nth j x 0 * B) in *. set (p' := nth i dv 0) in *. set (q' := nth j xv 0) in *. apply (IZR_lt 0) in Pb as Pb'.
    assert (Aq : Rabs q <= 1) by (unfold q; rewrite Rabs_mult, (Rabs_right B) by lra; apply Px).
    assert (M : Rabs (IZR (coinc_det BL p' q') - IZR BL * (p' * q')) <= 1 / 2).
    { unfold coinc_det. destruct (Reqb p' 0) eqn:Q; [apply Reqb_true in Q; rewrite Q; rewrite Rmult_0_l, Rmult_0_r, Rminus_0_r, Rabs_R0; lra|].
      replace (IZR BL * (p' * q')) with (p' * IZR BL * q') by ring. apply rhe_err. }
    assert (K : Rabs (p' * q' - p * q) <= (Rmax (up_xres u) 0 + Rmax (up_dres u) 0) * s).
    { replace (p' * q' - p * q) with (p' * (q' - q) + q * (p' - p)) by ring. eapply Rle_trans; [apply Rabs_triang|]. rewrite !Rabs_mult.
      pose proof (Rabs_pos p'). pose proof (Rabs_pos q). pose proof (Rabs_pos (q' - q)). pose proof (Rabs_pos (p' - p)). nra. }
    replace (IZR (coinc_det BL p' q') - IZR BL * p * q) with ((IZR (coinc_det BL p' q') - IZR BL * (p' * q')) + IZR BL * (p' * q' - p * q)) by ring.
    eapply Rle_trans; [apply Rabs_triang|]. rewrite Rabs_mult, (Rabs_right (IZR BL)) by lra.
    apply Rplus_le_compat; auto. apply Rmult_le_compat; try lra; apply Rabs_pos.
Qed.
Theorem C62_mean_count : forall u x d lr g l i j, sensible u -> up_type u = MeanCount -> up_res u <= 0 ->
  0 < lr -> 0 < g -> fits u lr g -> up_um u = true \/ up_ublm u = true -> up_gs u = 1 -> max_fits u lr g x d ->
  yields (update_pulses (init_upar u) lr g x d) l -> Rabs (g * IZR (net (pulses_at l i j)) - lr * nth j x 0 * nth i d 0) <= 3 / 2 * g.
Proof.
  intros u x d lr g l i j Hs Ht Hx PL Hg Hf Hm H1 Hmf Y. unfold update_pulses in Y. rewrite (proj2 (Reqb_false lr 0)) in Y by lra. cbn [init_upar up_type] in Y. rewrite Ht in Y.
  unfold dense_update in Y. rewrite (Rabs_right lr) in Y by lra.
  destruct (bl_ab_ok (init_upar u) x d lr g ltac:(lra)) as (BL & A & B & E). rewrite E in Y. cbn [liftR bindM] in Y. cbn [init_upar up_type up_res up_sto] in Y. rewrite Ht in Y.
  apply yields_bind in Y as (xc & Yx & Y). apply yields_bind in Y as (dc & Yd & Y). apply yields_ret in Y. subst l. rewrite dense_at.
  assert (E0 : forall a, coinc_mean BL a 0 = 0%Z) by (intros a; unfold coinc_mean; destruct (_ =? _)%Z; auto; rewrite Rmult_0_r; apply rhe_0).
  rewrite (map_map_nth (coinc_mean BL) dc xc 0%Z 0%Z 0%Z i j) by auto. rewrite net_repeat. apply yields_mapMM in Yx, Yd.
  assert (V : forall P v c, (0 < BL)%Z -> 0 <= P -> Rabs v * P <= 1 -> yields (count_mean P (up_res u) (up_sto u) BL lr v) c -> Rabs (IZR c - IZR BL * (v * P)) <= 1/2 /\ Rabs (IZR c) <= IZR BL).
  { intros P v c Pb HP L Yc. unfold count_mean in Yc. rewrite (proj2 (Rltb_false lr 0)) in Yc by lra. unfold disc in Yc. rewrite (proj2 (Rleb_true (up_res u) 0)) in Yc by auto. cbn [bindM] in Yc. cbv zeta in Yc.
    apply yields_ret in Yc. apply (IZR_lt 0) in Pb as Pb'. destruct (Reqb (Rabs v * P) 0) eqn:Q.
    - subst c. apply Reqb_true in Q. assert (v * P = 0) by (apply Rmult_integral in Q as [Q | Q]; [destruct (Req_dec v 0) as [-> | K]; [ring | apply Rabs_no_R0 in K; lra] | rewrite Q; ring]).
      rewrite H, Rmult_0_r, Rminus_0_r, Rabs_R0. lra.
    - assert (Q0 : 0 <= Rabs v * P) by (apply Rmult_le_pos; auto; apply Rabs_pos). pose proof (rhe_err (IZR BL * (Rabs v * P))) as Re.
      assert (R0 : (0 <= rhe (IZR BL * (Rabs v * P)) <= BL)%Z) by (split; [apply rhe_pos; nra | rewrite <- (rhe_IZR BL) at 2; apply rhe_mono; nra]).
      rewrite (Z.min_l _ BL), (Z.max_l _ 0%Z) in Yc by lia.
      assert (Ra : Rabs (IZR (rhe (IZR BL * (Rabs v * P)))) <= IZR BL) by (rewrite <- abs_IZR; apply IZR_le; lia).
      destruct (Rleb 0 v) eqn:S; subst c; [apply Rleb_true in S; rewrite (Rabs_right v) in * by lra; split; auto | apply Rleb_false in S].
      rewrite (Rabs_left v) in * by lra. rewrite opp_IZR, Rabs_Ropp. split; auto. rewrite <- Rabs_Ropp. eapply Rle_trans; [|apply Re]. right. f_equal. ring. }
  assert (Z0 : forall P, yields (count_mean P (up_res u) (up_sto u) BL lr 0) 0%Z).
  { intros P. unfold count_mean. rewrite (proj2 (Rltb_false lr 0)) by lra. unfold disc. rewrite (proj2 (Rleb_true (up_res u) 0)) by auto. cbn [bindM]. cbv zeta. apply yields_ret.
    rewrite Rabs_R0, Rmult_0_l. now rewrite (proj2 (Reqb_true 0 0)). }
  pose proof (F2_nth_d (fun a b => yields (count_mean B (up_res u) (up_sto u) BL lr a) b) 0 0%Z _ _ Yx (Z0 _) j) as Cx.
  pose proof (F2_nth_d (fun a b => yields (count_mean A (up_res u) (up_sto u) BL lr a) b) 0 0%Z _ _ Yd (Z0 _) i) as Cd.
  destruct (um_facts u x d lr g BL A B Hs PL Hg Hf Hm H1 Hmf E) as [[-> Zp] | (Pb & PA & PB & Sc & Px & Pd)].
  - apply count_mean_spec in Cd as (D1 & _); [|lia]. replace (nth i dc 0%Z) with 0%Z by lia. cbn [coinc_mean Z.eqb].
    rewrite Rmult_assoc, Zp, !Rmult_0_r, Rminus_0_r, Rabs_R0. lra.
  - apply V in Cx as [Ex Bx]; auto; try lra. apply V in Cd as [Ed Bd]; auto; try lra. apply (dense_product BL A B); auto. apply (IZR_lt 0) in Pb as Pb'.
    set (xn := nth j xc 0%Z) in *. set (dn := nth i dc 0%Z) in *. set (p := nth i d 0 * A) in *. set (q := nth j x 0 * B) in *.
    assert (Aq : Rabs q <= 1) by (unfold q; rewrite Rabs_mult, (Rabs_right B) by lra; apply Px).
    assert (M : Rabs (IZR (coinc_mean BL dn xn) - IZR dn / IZR BL * IZR xn) <= 1/2).
    { unfold coinc_mean. destruct (Z.eqb_spec dn 0) as [-> | _]; [|apply rhe_err]. unfold Rdiv at 1. rewrite !Rmult_0_l, Rminus_0_r, Rabs_R0. lra. }
    assert (K : Rabs (IZR dn / IZR BL * IZR xn - IZR BL * p * q) <= 1).
    { replace (IZR dn / IZR BL * IZR xn - IZR BL * p * q) with (IZR dn / IZR BL * (IZR xn - IZR BL * q) + q * (IZR dn - IZR BL * p)) by (field; lra).
      eapply Rle_trans; [apply Rabs_triang|]. rewrite !Rabs_mult.
      assert (Rabs (IZR dn / IZR BL) <= 1).
      { unfold Rdiv. rewrite Rabs_mult, Rabs_inv, (Rabs_right (IZR BL)) by lra. apply (Rmult_le_reg_r (IZR BL)); auto. rewrite Rmult_assoc, Rinv_l by lra. lra. }
      pose proof (Rabs_pos (IZR dn / IZR BL)). pose proof (Rabs_pos q). pose proof (Rabs_pos (IZR xn - IZR BL * q)). pose proof (Rabs_pos (IZR dn - IZR BL * p)). nra. }
    replace (IZR (coinc_mean BL dn xn) - IZR BL * p * q) with ((IZR (coinc_mean BL dn xn) - IZR dn / IZR BL * IZR xn) + (IZR dn / IZR BL * IZR xn - IZR BL * p * q)) by ring.
    eapply Rle_trans; [apply Rabs_triang|]. lra.
Qed.
Definition ex_dense (t : ptype) : upar := {| up_type := t; up_BL := 31; up_fixed := true; up_ublm := true; up_um := true; up_gs := 1; up_res := 0; up_xres := 0; up_dres := 0; up_sto := false |}.
Example C62_example : forall t, sensible (ex_dense t) /\ fits (ex_dense t) (1/100) (1/1000) /\ max_fits (ex_dense t) (1/100) (1/1000) [1; -1/2] [1/3; 1].
Proof.
  intros t. repeat split; cbn; try lia; try lra; [now left|]. unfold max_fits. cbn. rewrite !(Rabs_right (_ / _)) by lra. mm.
Qed.

(** C63: the resolution of the probabilities: below one it is the step of the grid on which they are
    rounded ... *)
Theorem C63_resolution : forall v r sto q, 0 < r -> yields (disc v r sto) q -> (exists k : Z, q = IZR k * r) /\ Rabs (q - v) <= (if sto then r else r / 2).
Proof.
  intros v r sto q Hr Y. unfold disc in Y. rewrite (proj2 (Rleb_false r 0)) in Y by auto. destruct sto.
  - apply yields_unif in Y as (w & Hw & Y). apply yields_ret in Y. subst q. split; [eauto|]. pose proof (rhe_err (v / r + (w - 1 / 2))) as E. set (k := rhe _) in *.
    replace (IZR k * r - v) with ((IZR k - v / r) * r) by (field; lra). rewrite Rabs_mult, (Rabs_right r) by lra.
    assert (Rabs (IZR k - v / r) <= 1) by (revert E; mm). nra.
  - apply yields_ret in Y. subst q. split; [eauto|]. pose proof (rhe_err (v / r)) as E. set (k := rhe _) in *.
    replace (IZR k * r - v) with ((IZR k - v / r) * r) by (field; lra). rewrite Rabs_mult, (Rabs_right r) by lra. nra.
Qed.
(** ... but given as a number of steps (the documentation says that [res = n] means [1 / n]) the
    conversion is computed and then thrown away: a number of steps above two switches the update off. *)
Theorem C63_number_of_steps_refuted : forall u x d lr g l, sensible u -> 2 < up_res u -> up_sto u = false -> stochastic u -> lr <> 0 -> 0 < g ->
  up_um u = true \/ up_ublm u = true -> up_gs u = 1 -> yields (update_pulses (init_upar u) lr g x d) l -> l = [].
Proof.
  intros u x d lr g l Hs Hn Hst Ht L Hg Hm H1 Y. unfold update_pulses in Y. rewrite (proj2 (Reqb_false lr 0)) in Y by auto.
  assert (Y' : yields (sparse_update (init_upar u) lr g x d) l) by (destruct Ht as [C | C]; cbn [init_upar up_type] in Y; rewrite C in Y; exact Y). clear Y.
  unfold sparse_update in Y'. assert (PL : 0 < Rabs lr) by now apply Rabs_pos_lt.
  destruct (bl_ab_ok (init_upar u) x d (Rabs lr) g ltac:(lra)) as (BL & A & B & E). rewrite E in Y'. cbn [liftR bindM] in Y'.
  destruct (BL =? 0)%Z eqn:Ez; [now apply yields_ret in Y'|]. apply Z.eqb_neq in Ez.
  apply yields_bind in Y' as (xts & Yx & Y). apply yields_bind in Y as (dts & Yd & Y). apply yields_ret in Y. subst l.
  destruct (C59_probabilities u x d (Rabs lr) g BL A B Hs PL Hg Hm E Ez) as [Px _].
  assert (PB : 0 <= B).
  { unfold bl_ab in E. cbn [init_upar up_ublm up_um] in E. replace (up_ublm u || (up_um u || up_ublm u))%bool with true in E by (destruct Hm as [-> | ->]; now rewrite ?orb_true_r).
    unfold manage_bl in E. destruct (calc_bl _ (Rabs lr) g) as [[[? ?] b0]|] eqn:Ec; [|discriminate]. cbn [bind] in E. rewrite (proj2 (Rltb_true 0 (Rabs lr))) in E by lra.
    destruct (_ || _)%bool in E; [injection E as <- _ _; congruence|].
    assert (P0 : 0 <= b0) by (apply calc_spec in Ec; auto; lra).
    cbn [init_upar up_ublm up_um] in E. destruct (up_ublm u), (up_um u); cbn [orb] in E; cbv zeta in E; injection E as <- <- <-; auto; repeat apply Rmult_le_pos; auto; apply sqrt_pos. }
  assert (F : forall k, firing xts k = []).
  { intros k. unfold firing. apply Forall2_length in Yx as Lx || idtac. clear - Yx Px PB Hn Hst.
    assert (All : forall j, nth k (nth j xts []) false = false).
    { intros j. destruct (Nat.lt_ge_cases j (length x)) as [Lj | Lj].
      - apply trains_nth with (j := j) in Yx; auto. unfold train in Yx. cbn [init_upar up_res up_sto] in Yx. rewrite Hst in Yx. set (n := up_res u) in *. unfold disc in Yx. rewrite (proj2 (Rleb_false n 0)) in Yx by lra.
        cbn [bindM] in Yx. specialize (Px j). pose proof (Rabs_pos (nth j x 0)) as P0.
        assert (Q0 : 0 <= Rabs (nth j x 0) * B / n < 1/2).
        { split; [apply Rmult_le_pos; [apply Rmult_le_pos; auto | apply Rlt_le, Rinv_0_lt_compat; lra]|]. apply (Rmult_lt_reg_r n); [lra|]. unfold Rdiv. rewrite Rmult_assoc, Rinv_l by lra. lra. }
        replace (rhe (Rabs (nth j x 0) * B / n)) with 0%Z in Yx.
        2:{ pose proof (rhe_err (Rabs (nth j x 0) * B / n)) as Re. set (y := Rabs (nth j x 0) * B / n) in *. set (m := rhe y) in *. assert (- 1 < IZR m < 1) by (revert Re; mm). assert (-1 < m < 1)%Z by (split; apply lt_IZR; lra). lia. }
        rewrite Rmult_0_l, (proj2 (Reqb_true 0 0)) in Yx by auto. apply yields_ret in Yx. rewrite Yx. apply bits_false_repeat.
      - apply yields_mapMM in Yx. assert (length x = length xts) by (clear - Yx; induction Yx; cbn; auto). rewrite (nth_overflow xts) by lia. destruct k; reflexivity. }
    induction (seq 0 (length xts)) as [|a s IH]; auto. cbn [filter]. rewrite All. exact IH. }
  induction (seq 0 (Z.to_nat BL)) as [|k ks IH]; auto. cbn [flat_map]. rewrite IH. unfold slot. rewrite F.
  assert (Xo : x_order (up_type (init_upar u)) x [] = []) by (unfold x_order; destruct (up_type _); reflexivity). rewrite Xo.
  induction (firing dts k); auto.
Qed.
Example C63_example : let u := {| up_type := StochasticCompressed; up_BL := 31; up_fixed := true; up_ublm := true; up_um := true; up_gs := 1; up_res := 64; up_xres := 0; up_dres := 0; up_sto := false |} in
  sensible u /\ stochastic u /\ 2 < up_res u /\ (1 <= up_BL u)%Z /\ check_res (up_res u) = 1 / 64.
Proof.
  cbn zeta. split; [split; cbn; [lia | lra]|]. split; [right; reflexivity|]. cbn [up_res up_BL]. split; [lra|]. split; [lia|]. unfold check_res. rewrite (proj2 (Rltb_false 64 0)), (proj2 (Rltb_true 1 64)) by lra. reflexivity.
Qed.

Print Assumptions C59_scale.
Print Assumptions C59_overshoot.
Print Assumptions C59_probabilities.
Print Assumptions C60_direction.
Print Assumptions C60_zero_lr.
Print Assumptions C60_negative_lr_refuted.
Print Assumptions C61_expected_pulses.
Print Assumptions C61_probability.
Print Assumptions C61_expected_weight.
Print Assumptions C62_deterministic.
Print Assumptions C62_mean_count.
Print Assumptions C63_resolution.
Print Assumptions C63_number_of_steps_refuted.

Print Assumptions C61_independent.
