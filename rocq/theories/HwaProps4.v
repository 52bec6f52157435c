(** * Modifying the weights for the forward and backward passes (C89, C90) *)
From Verif Require Import Prelude Rand DevModel PulseModel PulseSpec PulseProofs CompModel PeriModel MixProps2 HwaModel HwaSpec HwaProofs HwaProps2 HwaProofs2.

Definition ref_of (p : mpar) (d x : nat) (w : mat) (a : R) : Prop := is_reference (mo_rel p) (mo_lastcol p) (mo_awmax p) d x w a.
Lemma ref_amax p d x w a : shape d x w -> mo_type p <> MCopy -> ref_of p d x w a -> mod_amax p w = a.
Proof. intros S T H. apply (is_reference_unique _ _ _ _ _ _ _ _ (mod_amax_ref p d x w S T) H). Qed.

(** C89: the bias column is kept when asked for, and the size never changes *)
Theorem C89_bias_column : forall p d x w w', shape d x w -> (0 < x)%nat -> yields (modify p w) w' ->
  shape d x w' /\ (mo_lastcol p = true -> forall i, (i < d)%nat -> ent w' i (x - 1) = ent w i (x - 1)).
Proof.
  intros p d x w w' S X Y. destruct (modify_spec p d x w w' S X Y) as [S' H]. split; [exact S'|]. intros L i Hi. specialize (H i (x - 1)%nat Hi ltac:(lia)). unfold keep in H. rewrite L in H. replace (Datatypes.S (x - 1)) with x in H by lia. now rewrite Nat.eqb_refl in H.
Qed.
Lemma disc_round_spec v rs sto r : 0 < rs -> yields (disc_round v rs sto) r -> on_grid rs r /\ Rabs (r - v) <= (if sto then rs else rs / 2).
Proof.
  intros P Y. unfold disc_round in Y. rewrite (proj2 (Rleb_false _ _) P) in Y. destruct sto; ysimp; (split; [eexists; reflexivity|]).
  - pose proof (roundf_err (v / rs + (u - 1/2))) as E. assert (Ev : v = v / rs * rs) by (field; lra). set (q := v / rs) in *. rewrite Ev. set (k := IZR (roundf _)) in *. rewrite <- Rmult_minus_distr_r, Rabs_mult, (Rabs_pos_eq rs) by lra.
    rewrite <- (Rmult_1_l rs) at 2. apply Rmult_le_compat_r; [lra|]. revert E. mm.
  - pose proof (roundf_err (v / rs)) as E. assert (Ev : v = v / rs * rs) by (field; lra). set (q := v / rs) in *. rewrite Ev. set (k := IZR (roundf _)) in *. rewrite <- Rmult_minus_distr_r, Rabs_mult, (Rabs_pos_eq rs) by lra.
    replace (rs / 2) with (1/2 * rs) by field. apply Rmult_le_compat_r; lra.
Qed.
(** C89: discretizing gives multiples of the resolution near the weight *)
Theorem C89_discretize : forall p d x w w' a i j, shape d x w -> mo_type p = MDisc -> 0 < mo_res p -> mo_pdrop p <= 0 -> ref_of p d x w a -> 0 < a -> yields (modify p w) w' ->
  (i < d)%nat -> counted (mo_lastcol p) x j ->
  on_grid (a * mo_res p) (ent w' i j) /\ Rabs (ent w' i j - ent w i j) <= (if mo_sto p then a * mo_res p else a * mo_res p / 2).
Proof.
  intros p d x w w' a i j S T P Pd Rf A Y Hi Hj. destruct (modify_spec p d x w w' S ltac:(destruct Hj; lia) Y) as [_ H]. specialize (H i j Hi (proj1 Hj)). rewrite keep_counted in H by auto. destruct H as (v & Yv & D & _). assert (E : ent w' i j = v) by (destruct D as [ | [F _]]; [auto | lra]). rewrite E. clear D E.
  rewrite (ref_amax p d x w a) in Yv by (auto; congruence). unfold mod_elem in Yv. rewrite T, (proj2 (Rltb_true _ _) P) in Yv. apply yields_bind in Yv as (r & Yr & Yv). apply yields_ret in Yv. subst v. destruct (disc_round_spec _ _ _ _ P Yr) as [[k Ek] B]. split.
  - exists k. rewrite Ek. ring.
  - set (v := ent w i j) in *. replace (a * r - v) with (a * (r - v / a)) by (field; lra). rewrite Rabs_mult, (Rabs_pos_eq a) by lra. destruct (mo_sto p); [|replace (a * mo_res p / 2) with (a * (mo_res p / 2)) by field]; apply Rmult_le_compat_l; lra.
Qed.
(** C89: programming noise keeps the sign of every weight *)
Theorem C89_sign : forall p d x w w' i j, shape d x w -> mo_type p = MProg -> yields (modify p w) w' -> (i < d)%nat -> (j < x)%nat ->
  (0 <= ent w i j -> 0 <= ent w' i j) /\ (ent w i j < 0 -> ent w' i j <= 0).
Proof.
  intros p d x w w' i j S T Y Hi Hj. destruct (modify_spec p d x w w' S ltac:(lia) Y) as [_ H]. specialize (H i j Hi Hj).
  destruct (keep p x j); [rewrite H; split; intros; lra|]. destruct H as (v & Yv & D & _). assert (Gv : (0 <= ent w i j -> 0 <= v) /\ (ent w i j < 0 -> v <= 0)).
  { unfold mod_elem in Yv. rewrite T in Yv. destruct (Rltb 0 (mo_std p) && nonempty (mo_coeffs p)).
    - apply yields_gauss in Yv as (g & Yv). cbv zeta in Yv. apply yields_ret in Yv. subst v. match goal with |- context [Rabs ?e] => pose proof (Rabs_pos e) end. destruct (Rltb (ent w i j) 0) eqn:Q; [apply Rltb_true in Q | apply Rltb_false in Q]; split; intros; lra.
    - apply yields_ret in Yv. subst v. split; intros; lra. }
  destruct D as [-> | [_ ->]]; split; intros; try lra; tauto.
Qed.
(** C89: the DoReFa discretization stays within its clip value plus half a step *)
Lemma tanh_mono x y : x <= y -> tanh x <= tanh y.
Proof.
  intros H. unfold tanh, sinh, cosh. set (X := exp x). set (Y := exp y). set (X' := exp (- x)). set (Y' := exp (- y)). assert (P1 : 0 < X) by apply exp_pos. assert (P2 : 0 < Y) by apply exp_pos. assert (P3 : 0 < X') by apply exp_pos. assert (P4 : 0 < Y') by apply exp_pos.
  assert (L1 : X <= Y) by (unfold X, Y; destruct (Req_dec x y) as [-> | N]; [lra | left; apply exp_increasing; lra]). assert (L2 : Y' <= X') by (unfold X', Y'; destruct (Req_dec x y) as [-> | N]; [lra | left; apply exp_increasing; lra]).
  apply (Rmult_le_reg_r ((X + X') / 2 * ((Y + Y') / 2))); [apply Rmult_lt_0_compat; lra|]. replace ((X - X') / 2 / ((X + X') / 2) * ((X + X') / 2 * ((Y + Y') / 2))) with ((X - X') / 2 * ((Y + Y') / 2)) by (field; lra). replace ((Y - Y') / 2 / ((Y + Y') / 2) * ((X + X') / 2 * ((Y + Y') / 2))) with ((Y - Y') / 2 * ((X + X') / 2)) by (field; lra).
  assert (X * Y' <= Y * X') by (apply Rmult_le_compat; lra). nra.
Qed.
Lemma tanh_opp x : tanh (- x) = - tanh x.
Proof. unfold tanh, sinh, cosh. rewrite Ropp_involutive. assert (0 < exp x) by apply exp_pos. assert (0 < exp (- x)) by apply exp_pos. field. lra. Qed.
Lemma tanh_pos x : 0 < x -> 0 < tanh x.
Proof. intros H. unfold tanh, sinh, cosh. assert (exp (- x) < exp x) by (apply exp_increasing; lra). assert (0 < exp (- x)) by apply exp_pos. apply Rmult_lt_0_compat; [lra | apply Rinv_0_lt_compat; lra]. Qed.
Theorem C89_dorefa : forall p d x w w' a i j, shape d x w -> mo_type p = MDoReFa -> 0 < mo_res p -> mo_pdrop p <= 0 -> ref_of p d x w a -> 0 < a -> yields (modify p w) w' ->
  (i < d)%nat -> counted (mo_lastcol p) x j -> Rabs (ent w i j) <= a ->
  on_grid (mo_res p) (ent w' i j) /\ Rabs (ent w' i j) <= Rabs (mo_dorefa p) + (if mo_sto p then mo_res p else mo_res p / 2).
Proof.
  intros p d x w w' a i j S T P Pd Rf A Y Hi Hj B. destruct (modify_spec p d x w w' S ltac:(destruct Hj; lia) Y) as [_ H]. specialize (H i j Hi (proj1 Hj)). rewrite keep_counted in H by auto. destruct H as (v & Yv & D & _). assert (E : ent w' i j = v) by (destruct D as [ | [F _]]; [auto | lra]). rewrite E. clear D E.
  rewrite (ref_amax p d x w a) in Yv by (auto; congruence). unfold mod_elem in Yv. rewrite T, (proj2 (Rltb_true _ _) P) in Yv. destruct (disc_round_spec _ _ _ _ P Yv) as [Gr Er]. split; [exact Gr|]. set (y := ent w i j) in *. pose proof (tanh_pos a A) as Ta.
  assert (Ty : Rabs (tanh y) <= tanh a). { assert (tanh y <= tanh a) by (apply tanh_mono; revert B; mm). assert (- tanh a <= tanh y) by (rewrite <- tanh_opp; apply tanh_mono; revert B; mm). mm. }
  assert (Bz : Rabs (tanh y * Rabs (mo_dorefa p / tanh a)) <= Rabs (mo_dorefa p)).
  { rewrite Rabs_mult, Rabs_Rabsolu. unfold Rdiv. rewrite Rabs_mult, (Rabs_pos_eq (/ tanh a)) by (left; now apply Rinv_0_lt_compat). pose proof (Rabs_pos (mo_dorefa p)). replace (Rabs (mo_dorefa p)) with (tanh a * (Rabs (mo_dorefa p) * / tanh a)) at 2 by (field; lra). apply Rmult_le_compat_r; auto. apply Rmult_le_pos; auto. left; now apply Rinv_0_lt_compat. }
  set (z := tanh y * _) in *. destruct (mo_sto p); revert Er Bz; generalize (Rabs (mo_dorefa p)); intros q; mm.
Qed.
(** C89: a modifier without noise or resolution changes nothing *)
Definition inert (p : mpar) : Prop := match mo_type p with
  | MDisc | MDoReFa => mo_res p <= 0 | MMult | MAdd | MPoly | MProg => mo_std p <= 0
  | MDrop | MCopy => True | _ => False end.
Theorem C89_inert : forall p d x w w', shape d x w -> (0 < x)%nat -> inert p -> mo_pdrop p <= 0 -> yields (modify p w) w' -> w' = w.
Proof.
  intros p d x w w' S X I Pd Y. destruct (modify_spec p d x w w' S X Y) as [S' H]. apply (mat_ext d x); auto. intros i j Hi Hj. specialize (H i j Hi Hj). destruct (keep p x j); auto. destruct H as (v & Yv & D & _). assert (E : ent w' i j = v) by (destruct D as [ | [F _]]; [auto | lra]). rewrite E. clear D E.
  unfold inert in I. unfold mod_elem in Yv. destruct (mo_type p); try contradiction; try (now apply yields_ret in Yv); rewrite (proj2 (Rltb_false _ _) I) in Yv; cbn [andb] in Yv; now apply yields_ret in Yv.
Qed.
(** C89: drop connect sets weights to 0 and does nothing else *)
Theorem C89_drop : forall p d x w w' i j, shape d x w -> mo_type p = MDrop -> yields (modify p w) w' -> (i < d)%nat -> (j < x)%nat ->
  ent w' i j = ent w i j \/ (0 < mo_pdrop p /\ ent w' i j = 0).
Proof.
  intros p d x w w' i j S T Y Hi Hj. destruct (modify_spec p d x w w' S ltac:(lia) Y) as [_ H]. specialize (H i j Hi Hj). destruct (keep p x j); auto. destruct H as (v & Yv & D & _). unfold mod_elem in Yv. rewrite T in Yv. apply yields_ret in Yv. subst v. exact D.
Qed.
(** C89: what the CPU tile refuses, whatever the weights *)
Theorem C89_refused : forall p w w', (mo_pbs p = true /\ mo_type p <> MCopy) \/ mo_type p = MPcm -> throws (modify p w) RuntimeError /\ ~ yields (modify p w) w'.
Proof.
  intros p w w' H. assert (E : modify p w = Throw RuntimeError).
  { unfold modify. destruct H as [[A B] | A]; [|rewrite A; now destruct (mo_pbs p)]. rewrite A. destruct (mo_type p); try reflexivity. congruence. }
  rewrite E. split; [constructor | intros Y; inversion Y].
Qed.
Lemma mod_elem_total p a v : mo_type p <> MNone -> mo_type p <> MPcm -> total (mod_elem p a v).
Proof.
  intros N1 N2. unfold mod_elem. assert (DR : forall v rs b, total (disc_round v rs b)) by (intros; unfold disc_round; destruct (Rleb _ 0); [apply total_ret|]; destruct b; [apply total_unif; intros|]; apply total_ret). destruct (mo_type p); try congruence; try apply total_ret;
      repeat match goal with |- total (if ?b then _ else _) => destruct b end; try apply total_ret; try (apply total_gauss; intros; apply total_ret); auto; try (apply total_bind; [apply DR | intros; try apply total_ret; apply total_gauss; intros; apply total_ret]).
Qed.
Lemma drop_total pd v : total (drop_elem pd v).
Proof. apply total_unif. intros; apply total_ret. Qed.
Theorem C89_accepted : forall p w, mo_pbs p = false \/ mo_type p = MCopy -> mo_type p <> MNone -> mo_type p <> MPcm -> total (modify p w) /\ exists w', yields (modify p w) w'.
Proof.
  intros p w B N1 N2. assert (T : total (modify p w)); [|split; [exact T | now apply total_yields]]. unfold modify.
  replace (mo_pbs p && negb match mo_type p with MCopy => true | _ => false end) with false by (destruct B as [-> | ->]; [reflexivity | now destruct (mo_pbs p)]). replace (match mo_type p with MNone | MPcm => true | _ => false end) with false by (destruct (mo_type p); congruence).
  apply total_bind; [apply total_mapMM; intros r _; apply total_mapMM; intros v _; now apply mod_elem_total|]. intros w1 _. apply total_bind; [|intros; apply total_ret]. destruct (Rltb 0 (mo_pdrop p)); [|apply total_ret]. apply total_mapMM; intros r _. apply total_mapMM; intros v _. apply drop_total.
Qed.

(** C90: averages *)
Lemma expect_mat N G (f : R -> M R) d x w i j F : G <> [] -> shape d x w -> (i < d)%nat -> (j < x)%nat -> (forall v, total (f v)) ->
  expect N G (mapMM (mapMM f) w) (fun w' => F (ent w' i j)) = expect N G (f (ent w i j)) F.
Proof.
  intros HG S Hi Hj T. unfold ent. rewrite (expect_marginal N G HG (mapMM f) (fun r => F (nth j r 0)) [] w i (nth i w [])).
  - apply expect_marginal; auto. apply nth_error_nth'. now rewrite (shape_row d x).
  - intros r _. apply total_mapMM; auto.
  - apply nth_error_nth'. destruct S; lia.
Qed.
Lemma expect_modify N G p d x w i j F : G <> [] -> shape d x w -> (i < d)%nat -> counted (mo_lastcol p) x j -> mo_pbs p = false \/ mo_type p = MCopy -> mo_type p <> MNone -> mo_type p <> MPcm ->
  expect N G (modify p w) (fun w' => F (ent w' i j)) = expect N G (mod_elem p (mod_amax p w) (ent w i j)) (fun v => if Rltb 0 (mo_pdrop p) then avg (grid N) (fun u => F (if Rltb u (mo_pdrop p) then 0 else v)) else F v).
Proof.
  intros HG S Hi Hj B N1 N2. assert (Hjx : (j < x)%nat) by (now destruct Hj). unfold modify.
  replace (mo_pbs p && negb match mo_type p with MCopy => true | _ => false end) with false by (destruct B as [-> | ->]; [reflexivity | now destruct (mo_pbs p)]). replace (match mo_type p with MNone | MPcm => true | _ => false end) with false by (destruct (mo_type p); congruence).
  rewrite expect_bind. rewrite (expect_ext _ _ _ _ (fun w1 => (fun v => if Rltb 0 (mo_pdrop p) then avg (grid N) (fun u => F (if Rltb u (mo_pdrop p) then 0 else v)) else F v) (ent w1 i j))).
  - rewrite (expect_mat N G _ d x w i j (fun v => if Rltb 0 (mo_pdrop p) then avg (grid N) (fun u => F (if Rltb u (mo_pdrop p) then 0 else v)) else F v)); auto. intros; now apply mod_elem_total.
  - intros w1 Y1. destruct (yields_mat _ d x w w1 S Y1) as [S1 _]. rewrite expect_bind. cbv beta. rewrite (expect_ext _ _ _ _ (fun w2 => F (ent w2 i j))).
    + destruct (Rltb 0 (mo_pdrop p)); [|reflexivity]. rewrite (expect_mat N G _ d x w1 i j F); auto. intros; apply drop_total.
    + intros w2 Y2. cbn [expect]. assert (S2 : shape d x w2) by (destruct (Rltb 0 (mo_pdrop p)); [now destruct (yields_mat _ d x w1 w2 S1 Y2) | apply yields_ret in Y2; now subst]). destruct (finish_ent p d x w w2 S S2 ltac:(lia)) as [_ H]. rewrite H by auto. now rewrite keep_counted.
Qed.
Lemma avg_lin G a b : G <> [] -> avg G (fun g => a + b * g) = a + b * avg G (fun g => g).
Proof. intros H. rewrite (avg_plus G (fun _ => a) (fun g => b * g)), avg_const, avg_scal by auto. reflexivity. Qed.
Lemma standard_mean G : standard G -> avg G (fun g => g) = 0 /\ avg G (fun g => g * g) = 1.
Proof.
  intros (N & S0 & S2). unfold avg. rewrite map_id, S0, S2. assert (INR (length G) <> 0) by (apply not_0_INR; destruct G; [congruence | cbn; lia]). split; [unfold Rdiv; ring | field; auto].
Qed.
Lemma poly_cons c r a : polynomial (c :: r) a = c + a * polynomial r a.
Proof.
  unfold polynomial. cbn [length seq map sumR nth pow]. rewrite Rmult_1_r. f_equal. rewrite <- seq_shift, map_map. rewrite <- sumR_scal. f_equal. apply map_ext. intros k. cbn [nth pow]. ring.
Qed.
Lemma poly_from_eq cs : forall paw a, poly_from paw a cs = paw * a * polynomial cs a.
Proof. induction cs as [|c r IH]; intros paw a; cbn [poly_from]; [unfold polynomial; cbn; ring|]. rewrite IH, poly_cons. ring. Qed.
Lemma poly_sig_eq cs a : poly_sig cs a = polynomial cs a.
Proof. destruct cs as [|c r]; cbn [poly_sig]; [reflexivity|]. rewrite poly_from_eq, poly_cons. ring. Qed.

(** the standard deviation of the noise on a weight [v] of a tile with reference [a] *)
Definition noise_std (p : mpar) (a v : R) : R := match mo_type p with
  | MAdd => mo_std p * a
  | MMult => mo_std p * a * v
  | MPoly => mo_std p * a * polynomial (mo_coeffs p) (Rabs v / a)
  | _ => 0 end.
Theorem C90_noise : forall N G p d x w a i j, standard G -> shape d x w -> (i < d)%nat -> counted (mo_lastcol p) x j -> mo_pbs p = false -> mo_pdrop p <= 0 ->
  mo_type p = MAdd \/ mo_type p = MMult \/ mo_type p = MPoly -> 0 < mo_std p -> mo_coeffs p <> [] -> ref_of p d x w a ->
  expect N G (modify p w) (fun w' => ent w' i j) = ent w i j /\
  expect N G (modify p w) (fun w' => (ent w' i j - ent w i j) * (ent w' i j - ent w i j)) = noise_std p a (ent w i j) * noise_std p a (ent w i j).
Proof.
  intros N G p d x w a i j SG S Hi Hj B Pd T P C Rf. destruct (standard_mean G SG) as [M1 M2]. destruct SG as (HG & _). assert (Em : mod_amax p w = a) by (apply (ref_amax p d x); auto; destruct T as [-> | [-> | ->]]; discriminate).
  assert (N1 : mo_type p <> MNone) by (destruct T as [-> | [-> | ->]]; discriminate). assert (N2 : mo_type p <> MPcm) by (destruct T as [-> | [-> | ->]]; discriminate). set (y := ent w i j).
  assert (Form : mod_elem p a y = Gauss (fun g => Ret (y + noise_std p a y * g))).
  { unfold mod_elem, noise_std. destruct T as [-> | [-> | ->]]; rewrite (proj2 (Rltb_true _ _) P); cbn [andb].
    - reflexivity.
    - replace (y * (mo_std p * a)) with (mo_std p * a * y) by ring. reflexivity.
    - destruct (mo_coeffs p) as [|c r] eqn:Ec; [congruence|]. cbn [nonempty]. rewrite poly_sig_eq. replace (a * (polynomial (c :: r) (Rabs y / a) * mo_std p)) with (mo_std p * a * polynomial (c :: r) (Rabs y / a)) by ring. reflexivity. }
  set (s := noise_std p a y) in *. split.
  - rewrite (expect_modify N G p d x w i j (fun v => v)); auto. fold y. rewrite Em, Form, (proj2 (Rltb_false _ _) Pd). cbn [expect]. rewrite avg_lin by auto. rewrite M1. ring.
  - rewrite (expect_modify N G p d x w i j (fun v => (v - y) * (v - y))); auto. fold y. rewrite Em, Form, (proj2 (Rltb_false _ _) Pd). cbn [expect]. rewrite (avg_ext _ _ (fun g => s * s * (g * g))) by (intros; ring). rewrite avg_scal, M2. ring.
Qed.
(** C90: stochastic rounding is right on average, up to the granularity of the generator *)
Theorem C90_stochastic : forall N G p d x w a i j, (0 < N)%nat -> G <> [] -> shape d x w -> (i < d)%nat -> counted (mo_lastcol p) x j -> mo_pbs p = false -> mo_pdrop p <= 0 ->
  mo_type p = MDisc -> mo_sto p = true -> 0 < mo_res p -> ref_of p d x w a -> 0 < a ->
  Rabs (expect N G (modify p w) (fun w' => ent w' i j) - ent w i j) <= a * mo_res p * (3 / INR (S N)).
Proof.
  intros N G p d x w a i j HN HG S Hi Hj B Pd T St P Rf A. rewrite (expect_modify N G p d x w i j (fun v => v)); auto; try congruence. rewrite (ref_amax p d x w a) by (auto; congruence). set (y := ent w i j). unfold mod_elem. rewrite T, (proj2 (Rltb_true _ _) P), (proj2 (Rltb_false _ _) Pd). rewrite expect_bind. unfold disc_round. rewrite (proj2 (Rleb_false _ _) P), St. cbn [expect].
  rewrite (avg_ext _ _ (fun u => (a * mo_res p) * IZR (roundf (y / a / mo_res p + (u - 1/2))))) by (intros; ring). rewrite avg_scal. pose proof (sto_round_mean N (y / a / mo_res p) HN) as E. set (q := y / a / mo_res p) in *. assert (Ey : y = a * mo_res p * q) by (unfold q; field; lra). rewrite Ey, <- Rmult_minus_distr_l, Rabs_mult, Rabs_pos_eq by (apply Rmult_le_pos; lra). apply Rmult_le_compat_l; auto. apply Rmult_le_pos; lra.
Qed.
(** C90: with drop connect a weight survives with the expected probability *)
Theorem C90_drop : forall N G p d x w i j, G <> [] -> shape d x w -> (i < d)%nat -> counted (mo_lastcol p) x j -> mo_pbs p = false -> 0 < mo_pdrop p -> mo_type p = MDrop ->
  expect N G (modify p w) (fun w' => ent w' i j) = (1 - prob_below N (mo_pdrop p)) * ent w i j.
Proof.
  intros N G p d x w i j HG S Hi Hj B Pd T. rewrite (expect_modify N G p d x w i j (fun v => v)); auto; try congruence. unfold mod_elem. rewrite T, (proj2 (Rltb_true _ _) Pd). cbn [expect]. set (y := ent w i j). rewrite (avg_ext _ _ (fun u => y + (- y) * b2R (Rltb u (mo_pdrop p)))) by (intros u _; unfold b2R; destruct (Rltb u (mo_pdrop p)); ring).
  rewrite (avg_plus _ (fun _ => y)), avg_const, avg_scal, avg_grid_below by apply grid_nonempty. ring.
Qed.
Definition mod_ex : mpar := {| mo_type := MAdd; mo_pbs := false; mo_std := 1/10; mo_res := 0; mo_sto := false; mo_dorefa := 3/5; mo_pdrop := 0; mo_edt := false; mo_rel := true; mo_awmax := 1; mo_lastcol := true; mo_coeffs := [1]; mo_gmax := 25 |}.
Theorem C90_nontrivial : standard [1; -1] /\ shape 1 2 [[2; -5]] /\ counted (mo_lastcol mod_ex) 2 0 /\ ref_of mod_ex 1 2 [[2; -5]] 2 /\ noise_std mod_ex 2 2 = 2/10.
Proof.
  split; [|split; [|split; [|split]]].
  - split; [discriminate|]. cbn. split; lra.
  - split; [reflexivity | repeat constructor].
  - split; [lia | intros; lia].
  - left. split; [lra|]. split; [|exists 0%nat, 0%nat; split; [lia|]; split; [split; [lia | intros; lia]|]; cbn; mm]. intros i j Hi [Hj Hk]. specialize (Hk eq_refl). assert (i = 0%nat) as -> by lia. assert (j = 0%nat) as -> by lia. cbn. mm.
  - unfold noise_std. cbn. lra.
Qed.
Theorem C89_nontrivial : exists w w', shape 1 2 w /\ ref_of (mod_ex) 1 2 w 2 /\ mo_lastcol mod_ex = true /\ yields (modify mod_ex w) w' /\ w' <> w.
Proof.
  exists [[2; -5]]. destruct C90_nontrivial as (_ & S & _ & Rf & _). exists [[2 + 1/10 * 2 * 1; -5]]. split; [exact S|]. split; [exact Rf|]. split; [reflexivity|].
  assert (Em : mod_amax mod_ex [[2; -5]] = 2) by (apply (ref_amax mod_ex 1 2); auto; discriminate). split.
  - unfold modify. rewrite Em. cbn [mod_ex mo_pbs mo_type mo_lastcol mo_pdrop andb]. rewrite (proj2 (Rltb_false 0 0)) by lra. apply yields_bind. exists [[2 + 1/10 * 2 * 1; -5 + 1/10 * 2 * 1]]. split; [|apply yields_bind; eexists; split; [constructor | constructor]].
    assert (Ye : forall v, yields (mod_elem mod_ex 2 v) (v + 1/10 * 2 * 1)) by (intros v; unfold mod_elem; cbn [mod_ex mo_type mo_std]; rewrite (proj2 (Rltb_true 0 (1/10))) by lra; apply yields_gauss; exists 1; constructor).
    apply yields_mapMM. constructor; [|constructor]. apply yields_mapMM. constructor; [apply Ye|]. constructor; [apply Ye | constructor].
  - intros E. injection E as E. lra.
Qed.

Print Assumptions C89_bias_column.
Print Assumptions C89_discretize.
Print Assumptions C89_sign.
Print Assumptions C89_dorefa.
Print Assumptions C89_inert.
Print Assumptions C89_drop.
Print Assumptions C89_refused.
Print Assumptions C89_accepted.
Print Assumptions C90_noise.
Print Assumptions C90_stochastic.
Print Assumptions C90_drop.
Print Assumptions C90_nontrivial.
Print Assumptions C89_nontrivial.
