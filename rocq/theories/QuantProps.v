(** * Quantizers: the theorems *)
From Verif Require Import Prelude ConvModel ConvProofs QuantModel QuantSpec QuantProofs.

(** C45: after [set_quant_range], values within the range are changed by at most half
    a step ... *)
Theorem C45_rounding_error : forall c s mns mxs s' x y i j, q_sane c -> mns <> [] ->
  q_set c s mns mxs = Ok s' -> q_forward c s' x = Ok y -> is_elem x i j ->
  covers c (is_signed c mns) (lim mns i) (lim mxs i) (elem x i j) ->
  Rabs (elem y i j - elem x i j) <= step c (is_signed c mns) (lim mns i) (lim mxs i) / 2.
Proof.
  intros c s mns mxs s' x y i j S Hn H F He Hc. rewrite (q_forward_elem _ _ _ _ _ _ _ _ _ Hn H F He).
  apply q_set_inv in H as (L & _ & Nz & _ & S2 & _); auto.
  destruct (mk_par_ok c (is_signed c mns) (lim mns i) (lim mxs i) S Nz S2) as (E1 & E2 & E3 & E4).
  rewrite q_one_grid, <- E1. apply grid_err; auto. lia.
Qed.
(** ... all results are on a grid of at most 2^bits values that contains zero, zero is
    kept, larger values are not mapped to smaller ones ... *)
Theorem C45_grid : forall c s mns mxs s' x y i, q_sane c -> mns <> [] ->
  q_set c s mns mxs = Ok s' -> q_forward c s' x = Ok y ->
  exists base, (base <= 0 < base + 2 ^ Z.of_nat (qc_bits c))%Z /\ forall j, is_elem x i j ->
   (exists k, (0 <= k < 2 ^ Z.of_nat (qc_bits c))%Z /\ elem y i j = step c (is_signed c mns) (lim mns i) (lim mxs i) * IZR (base + k))
   /\ (elem x i j = 0 -> elem y i j = 0)
   /\ forall j', is_elem x i j' -> elem x i j <= elem x i j' -> elem y i j <= elem y i j'.
Proof.
  intros c s mns mxs s' x y i S Hn H F. set (sg := is_signed c mns).
  pose proof (fun j => q_forward_elem _ _ _ _ _ _ _ i j Hn H F) as El. cbv zeta in El. fold sg in El.
  apply q_set_inv in H as (L & _ & Nz & _ & S2 & _); auto. fold sg in Nz, S2.
  destruct (mk_par_ok c sg (lim mns i) (lim mxs i) S Nz S2) as (E1 & E2 & E3 & E4).
  set (p := mk_par c sg (lim mns i) (lim mxs i)) in *.
  assert (W : (int_max c sg - int_min c sg < 2 ^ Z.of_nat (qc_bits c))%Z).
  { destruct S as [_ Hb]. pose proof (pow2_ge1 (qc_bits c)). clear - H Hb. unfold int_max, int_min. destruct (qc_meth c); [lia|]. destruct sg; [|rewrite !Z.sub_0_r; lia].
    clear H. set (P := (2 ^ (Z.of_nat (qc_bits c) - 1))%Z).
    replace (2 ^ Z.of_nat (qc_bits c))%Z with (2 * 2 ^ (Z.of_nat (qc_bits c) - 1))%Z; [change (2 ^ (Z.of_nat (qc_bits c) - 1))%Z with P; lia|]. unfold P. rewrite <- Z.pow_succ_r by lia. f_equal. lia. }
  exists (int_min c sg - q_zero c p)%Z. split; [lia|]. intros j Hj. rewrite (El j Hj). split; [|split].
  - unfold q_one. rewrite <- E1. exists (to_int c sg p (elem x i j) - int_min c sg)%Z. split; [unfold to_int; lia|]. f_equal. f_equal. lia.
  - intros ->. rewrite q_one_grid. replace 0 with (q_scale c p * IZR 0) at 1 by ring. rewrite grid_fix by (auto; lia). ring.
  - intros j' Hj' Hle. rewrite (El j' Hj'), !q_one_grid. apply grid_mono; auto.
Qed.
(** ... and quantizing twice is the same as quantizing once. *)
Theorem C45_idempotent : forall c s mns mxs s' x y, q_sane c -> mns <> [] ->
  q_set c s mns mxs = Ok s' -> q_forward c s' x = Ok y -> q_forward c s' y = Ok y.
Proof.
  intros c s mns mxs s' x y S Hn H F. destruct (q_forward_rows _ _ _ _ _ _ _ Hn H F) as [L E].
  assert (Ok2 : exists z, q_forward c s' y = Ok z).
  { unfold q_forward in *. destruct (qs_par s') as [ps|]; [|destruct (qc_meth c); [|destruct (qc_pc c)]; discriminate].
    assert (G : forall b, (exists z, q_apply c b ps x = Ok z) -> exists z, q_apply c b ps y = Ok z).
    { intros b. unfold q_apply. rewrite L. destruct ps as [|p [|q r]]; intros [z Hz]; [|eauto|]; destruct (Nat.eqb _ (length x)); try discriminate; simpl; eauto. }
    destruct (qc_meth c), (qs_signed s'); try discriminate; apply G; eauto. }
  destruct Ok2 as [z Hz]. rewrite Hz. f_equal. destruct (q_forward_rows _ _ _ _ _ _ _ Hn H Hz) as [L2 E2].
  apply nth_ext with [] []; auto. intros i Hi. rewrite E2, E by lia. rewrite map_map. apply map_ext. intros v.
  apply q_set_inv in H as (_ & _ & Nz & _ & S2 & _); auto.
  destruct (mk_par_ok c (is_signed c mns) (lim mns i) (lim mxs i) S Nz S2) as (_ & E3 & E4 & _). rewrite !q_one_grid. apply grid_idem; auto. lia.
Qed.
Definition cfg8 (m : qmeth) (pc : bool) : qcfg := {| qc_meth := m; qc_bits := 8; qc_log := false; qc_eps := 1 / 10 ^ 8; qc_pc := pc |}.
Lemma cfg8_sane m pc : q_sane (cfg8 m pc).
Proof. split; simpl; [lra|lia]. Qed.
Example C45_nonvacuous : exists s' y, q_set (cfg8 Asym false) q_new [-1] [2] = Ok s' /\ q_forward (cfg8 Asym false) s' [[1/3; -1]; [0; 5]] = Ok y
  /\ is_elem [[1/3; -1]; [0; 5]] 0 1 /\ covers (cfg8 Asym false) false (-1) 2 (elem [[1/3; -1]; [0; 5]] 0 1).
Proof. eexists _, _. split; [reflexivity|]. split; [reflexivity|]. split; [split; simpl; lia|]. unfold covers, elem; simpl. mm. Qed.
(** A signed symmetric quantizer with one bit has no grid. *)
Theorem C45_one_bit_refuted : forall s mn mx e lg, mn < 0 ->
  q_set {| qc_meth := Sym; qc_bits := 1; qc_log := lg; qc_eps := e; qc_pc := false |} s [mn] [mx] = Raise ArithmeticError.
Proof.
  intros s mn mx e lg H. unfold q_set. simpl. rewrite (proj2 (Rltb_true _ _)); [reflexivity|]. unfold fix_min. mm.
Qed.

(** C46: calibration.  With "allminmax" the range after any number of batches is exactly
    the range of all the data seen, and with "current_minmax" the one of the last batch;
    the data are then quantized with at most half a step of error, none is clipped. *)
Definition extremes (pc : bool) (n : nat) (xs : list mat) (mns mxs : vec) : Prop :=
  length mns = n /\ length mxs = n /\ forall i, (i < n)%nat ->
   in_data pc i xs (nth i mns 0) /\ in_data pc i xs (nth i mxs 0) /\ forall v, in_data pc i xs v -> nth i mns 0 <= v <= nth i mxs 0.
Lemma extremes_one pc n x : fits pc n x -> extremes pc n [x] (batch_min pc x) (batch_max pc x).
Proof.
  intros F. destruct (batch_len pc n x F) as (L1 & L2 & _). split; [auto|]. split; [auto|]. intros i Hi. destruct (batch_lim pc n x i F Hi) as (C & E1 & E2). rewrite E1, E2.
  split; [|split].
  - exists x. split; [simpl; auto|now apply minlist_in].
  - exists x. split; [simpl; auto|now apply maxlist_in].
  - intros v (x' & [<- | []] & Hv). split; [now apply minlist_le|now apply maxlist_ge].
Qed.
Lemma in_data_app pc i xs ys v : in_data pc i (xs ++ ys) v <-> in_data pc i xs v \/ in_data pc i ys v.
Proof.
  unfold in_data. split.
  - intros (x & Hx & Hv). apply in_app_or in Hx as [H|H]; [left|right]; eauto.
  - intros [(x & Hx & Hv)|(x & Hx & Hv)]; exists x; split; auto; apply in_or_app; auto.
Qed.
Lemma extremes_app pc n xs x mns mxs : extremes pc n xs mns mxs -> fits pc n x ->
  extremes pc n (xs ++ [x]) (map2 Rmin mns (batch_min pc x)) (map2 Rmax mxs (batch_max pc x)).
Proof.
  intros (L1 & L2 & E) F. destruct (extremes_one pc n x F) as (L3 & L4 & E'). split; [rewrite map2_length; lia|]. split; [rewrite map2_length; lia|].
  intros i Hi. destruct (E i Hi) as (A & B & C). destruct (E' i Hi) as (A' & B' & C').
  rewrite !(nth_map2 _ _ _ i 0 0) by lia. repeat setoid_rewrite in_data_app. repeat split.
  - destruct (Rmin_cases (nth i mns 0) (nth i (batch_min pc x) 0)) as [[_ ->] | [_ ->]]; auto.
  - destruct (Rmax_cases (nth i mxs 0) (nth i (batch_max pc x) 0)) as [[_ ->] | [_ ->]]; auto.
  - destruct H as [H|H]; [apply C in H|apply C' in H]; mm.
  - destruct H as [H|H]; [apply C in H|apply C' in H]; mm.
Qed.
Definition calibrated (m : qman) (mns mxs : vec) : Prop :=
  m_cur m = Some (mns, mxs) /\ exists q0, q_set (m_cfg m) q0 mns mxs = Ok (m_q m).
Lemma covers_in c mns i mx v : q_sane c -> nth i mns 0 <= v <= mx -> (i < length mns)%nat -> covers c (is_signed c mns) (nth i mns 0) mx v.
Proof.
  intros [He _] H Hi. unfold covers, is_signed. destruct (qc_meth c); [mm|].
  destruct (existsb (fun m => Rltb m 0) mns) eqn:E; [split; mm|].
  assert (N : 0 <= nth i mns 0). { apply Rltb_false. destruct (Rltb (nth i mns 0) 0) eqn:Q; auto. rewrite <- E. symmetry. apply existsb_exists. exists (nth i mns 0). split; [apply nth_In; auto|auto]. }
  split; mm.
Qed.
Lemma new_run c e n : (2 <= qc_bits c)%nat -> forall xs, Forall (fits (qc_pc c) n) xs -> forall m0, man_new c e None = Ok m0 ->
  let m := after m0 xs in good_len n m /\ m_est m = Some e /\ m_state m = EstimateTrain /\ m_train m = true /\ m_cfg m = c
  /\ (xs = [] -> m_cur m = None)
  /\ (xs <> [] -> (exists mns mxs, calibrated m mns mxs) /\ (exists ps, qs_par (m_q m) = Some ps /\ length ps = n) /\ (qc_meth c = Sym -> qs_signed (m_q m) <> None)).
Proof.
  intros Hb. induction xs as [|x xs IH] using rev_ind; intros F m0 H0.
  - injection H0 as <-. cbn. unfold good_len. cbn. repeat split; auto; try discriminate; congruence.
  - apply Forall_app in F as [F1 F2]. pose proof (Forall_inv F2) as Fx. cbn beta in Fx. destruct (IH F1 m0 H0) as (A & B & C & D & E & _ & _).
    unfold after in *. rewrite map_app, fold_left_app. cbn [map fold_left man_step]. set (m := fold_left man_step (map MForward xs) m0) in *. rewrite <- E in Fx.
    destruct (man_forward_ok m e n x B ltac:(unfold estimating; rewrite C; exact D) ltac:(rewrite E; exact Hb) Fx A) as (y & m' & r & Ef & G & P1 & P2 & P3 & P4 & P5 & P6 & P7 & P8 & P9 & P10).
    rewrite Ef. split; [exact G|]. split; [exact P1|]. split; [congruence|]. split; [congruence|]. split; [congruence|].
    split; [intros Q; now destruct xs|]. intros _. split; [|rewrite <- E; auto]. exists (fst r), (snd r). split; [rewrite P6; now destruct r|]. exists (m_q m). rewrite P4. exact P7.
Qed.
Lemma after_snoc m0 xs x : after m0 (xs ++ [x]) = man_step (after m0 xs) (MForward x).
Proof. unfold after. rewrite map_app, fold_left_app. reflexivity. Qed.
Lemma new_cur c e n xs x m0 : (2 <= qc_bits c)%nat -> Forall (fits (qc_pc c) n) (xs ++ [x]) -> man_new c e None = Ok m0 ->
  exists r, estimate e (qc_pc c) (m_cur (after m0 xs)) x = Ok r /\ m_cur (after m0 (xs ++ [x])) = Some r.
Proof.
  intros Hb F H0. apply Forall_app in F as [F1 F2]. pose proof (Forall_inv F2) as Fx. cbn beta in Fx. destruct (new_run c e n Hb xs F1 m0 H0) as (A & B & C & D & E & _ & _).
  rewrite after_snoc. cbn [man_step]. set (m := after m0 xs) in *. rewrite <- E in Fx.
  destruct (man_forward_ok m e n x B ltac:(unfold estimating; rewrite C; exact D) ltac:(rewrite E; exact Hb) Fx A) as (y & m' & r & Ef & _ & _ & _ & _ & _ & P5 & P6 & _).
  rewrite Ef. exists r. rewrite <- E. auto.
Qed.
Lemma allminmax_cur c n : (2 <= qc_bits c)%nat -> forall xs, xs <> [] -> Forall (fits (qc_pc c) n) xs -> forall m0, man_new c AllMinMax None = Ok m0 ->
  exists mns mxs, m_cur (after m0 xs) = Some (mns, mxs) /\ extremes (qc_pc c) n xs mns mxs.
Proof.
  intros Hb. induction xs as [|x xs IH] using rev_ind; intros Hn F m0 H0; [congruence|].
  destruct (new_cur c AllMinMax n xs x m0 Hb F H0) as (r & Er & Ec). rewrite Ec. apply Forall_app in F as [F1 F2]. pose proof (Forall_inv F2) as Fx. cbn beta in Fx.
  destruct (batch_len _ _ _ Fx) as (L1 & L2 & L3). unfold estimate in Er. rewrite L3 in Er.
  destruct xs as [|x0 xs].
  - destruct (new_run c AllMinMax n Hb [] F1 m0 H0) as (_ & _ & _ & _ & _ & Q & _). rewrite Q in Er by auto. injection Er as <-. eexists _, _. split; [reflexivity|]. now apply extremes_one.
  - destruct (IH ltac:(discriminate) F1 m0 H0) as (mns & mxs & E1 & E2). rewrite E1 in Er. destruct E2 as (L4 & L5 & E2).
    rewrite L1, L4, Nat.eqb_refl in Er. injection Er as <-. eexists _, _. split; [reflexivity|]. apply extremes_app; auto. split; auto.
Qed.
Lemma lim_nth l i n : length l = n -> (i < n)%nat -> (n = 1%nat \/ True) -> lim l i = nth i l 0.
Proof. intros L H _. unfold lim. destruct l as [|a [|b r]]; auto. simpl in L. assert (i = 0)%nat by lia. subst; reflexivity. Qed.
Lemma eval_error c n m x mns mxs : q_sane c -> m_cfg m = c -> (exists e, m_est m = Some e) -> m_state m = EstimateTrain -> calibrated m mns mxs -> (1 <= n)%nat ->
  length mns = n -> length mxs = n -> fits (qc_pc c) n x -> (exists ps, qs_par (m_q m) = Some ps /\ length ps = n) -> (qc_meth c = Sym -> qs_signed (m_q m) <> None) ->
  (forall i v, (i < n)%nat -> In v (channel (qc_pc c) i x) -> nth i mns 0 <= v <= nth i mxs 0) ->
  exists y, man_forward (m_with_train m false) x = Ok (y, m_with_train m false) /\ forall i j, is_elem x i j ->
    Rabs (elem y i j - elem x i j) <= step c (is_signed c mns) (lim mns i) (lim mxs i) / 2.
Proof.
  intros S Ec [e Ee] Est [Hc [q0 Hq]] Hn L1 L2 F (ps & Ep & Lp) Sg Hr. rewrite Ec in Hq.
  destruct (q_forward_ok c (m_q m) ps n x Ep Lp Sg F) as [y Ey]. exists y. split.
  { unfold man_forward, m_with_train. cbn. rewrite Ee, Est, Ec, Ey. reflexivity. }
  intros i j Hij. assert (Mn : mns <> []) by (intros ->; simpl in L1; lia). eapply C45_rounding_error; eauto.
  unfold fits in F. destruct (qc_pc c) eqn:Epc.
  - destruct F as [Lx _]. destruct Hij as [Hi Hj]. assert (Hi' : (i < n)%nat) by lia. rewrite !(lim_nth _ i n) by auto. apply covers_in; [auto| |lia].
    apply Hr; auto. unfold channel. apply nth_In; auto.
  - destruct F as [_ ->]. destruct mns as [|a [|b r]]; simpl in L1; try lia. destruct mxs as [|a' [|b' r']]; simpl in L2; try lia. unfold lim.
    change a with (nth 0 [a] 0) at 2. apply covers_in; [auto| |simpl; lia]. apply (Hr 0%nat); auto. unfold channel. destruct Hij as [Hi Hj].
    apply in_concat. exists (nth i x []). split; apply nth_In; auto.
Qed.
Theorem C46_all_minmax : forall c n xs m0, q_sane c -> (2 <= qc_bits c)%nat -> (1 <= n)%nat -> xs <> [] -> Forall (fits (qc_pc c) n) xs ->
  man_new c AllMinMax None = Ok m0 ->
  exists mns mxs, extremes (qc_pc c) n xs mns mxs /\
  forall x, In x xs -> exists y, man_forward (m_with_train (after m0 xs) false) x = Ok (y, m_with_train (after m0 xs) false)
  /\ forall i j, is_elem x i j -> Rabs (elem y i j - elem x i j) <= step c (is_signed c mns) (lim mns i) (lim mxs i) / 2.
Proof.
  intros c n xs m0 S Hb Hn1 Hn F H0. destruct (allminmax_cur c n Hb xs Hn F m0 H0) as (mns & mxs & Ec & Ex). exists mns, mxs. split; auto. intros x Hx.
  destruct (new_run c AllMinMax n Hb xs F m0 H0) as (_ & B & C & D & E & _ & P). destruct (P Hn) as ((a & b & Hcal) & Hps & Hsg).
  assert (a = mns /\ b = mxs) as [-> ->] by (destruct Hcal as [Q _]; split; congruence).
  destruct Ex as (L1 & L2 & Ex). apply (eval_error c n); eauto.
  - rewrite Forall_forall in F. auto.
  - intros i v Hi Hv. apply Ex; auto. exists x; auto.
Qed.
Theorem C46_current_minmax : forall c n xs x m0, q_sane c -> (2 <= qc_bits c)%nat -> (1 <= n)%nat -> Forall (fits (qc_pc c) n) (xs ++ [x]) ->
  man_new c CurrentMinMax None = Ok m0 ->
  exists mns mxs, extremes (qc_pc c) n [x] mns mxs /\
  exists y, man_forward (m_with_train (after m0 (xs ++ [x])) false) x = Ok (y, m_with_train (after m0 (xs ++ [x])) false)
  /\ forall i j, is_elem x i j -> Rabs (elem y i j - elem x i j) <= step c (is_signed c mns) (lim mns i) (lim mxs i) / 2.
Proof.
  intros c n xs x m0 S Hb Hn1 F H0. destruct (new_cur c CurrentMinMax n xs x m0 Hb F H0) as (r & Er & Ec).
  assert (Hn : xs ++ [x] <> []) by (destruct xs; discriminate). destruct (new_run c CurrentMinMax n Hb _ F m0 H0) as (_ & B & C & D & E & _ & P). destruct (P Hn) as ((a & b & Hcal) & Hps & Hsg).
  apply Forall_app in F as [F1 F2]. pose proof (Forall_inv F2) as Fx. cbn beta in Fx. destruct (batch_len _ _ _ Fx) as (L1 & L2 & L3). unfold estimate in Er. rewrite L3 in Er. injection Er as <-.
  pose proof (extremes_one _ _ _ Fx) as Ex. exists (batch_min (qc_pc c) x), (batch_max (qc_pc c) x). split; [exact Ex|].
  assert (a = batch_min (qc_pc c) x /\ b = batch_max (qc_pc c) x) as [-> ->] by (destruct Hcal as [Q _]; split; congruence).
  destruct Ex as (_ & _ & Ex). apply (eval_error c n); eauto. intros i v Hi Hv. apply Ex; auto. exists x. simpl; auto.
Qed.
Example C46_nonvacuous : exists m0, man_new (cfg8 Sym true) AllMinMax None = Ok m0 /\ Forall (fits true 2) [[[1; -2]; [3]]; [[0]; [5; 6]]].
Proof. eexists. split; [reflexivity|]. repeat constructor; simpl; discriminate. Qed.
(** With "running_minmax" the limits stay between the smallest and largest value seen ... *)
Theorem C46_running_hull : forall c n xs m0 mo, (2 <= qc_bits c)%nat -> 0 <= mo <= 1 -> xs <> [] -> Forall (fits (qc_pc c) n) xs ->
  man_new c (RunningMinMax mo) None = Ok m0 ->
  exists mns mxs, m_cur (after m0 xs) = Some (mns, mxs) /\ length mns = n /\ length mxs = n
  /\ forall i lo hi, (i < n)%nat -> (forall v, in_data (qc_pc c) i xs v -> lo <= v <= hi) -> lo <= nth i mns 0 <= nth i mxs 0 /\ nth i mxs 0 <= hi.
Proof.
  intros c n xs m0 mo Hb Hm. induction xs as [|x xs IH] using rev_ind; intros Hn F H0; [congruence|].
  destruct (new_cur c (RunningMinMax mo) n xs x m0 Hb F H0) as (r & Er & Ec). rewrite Ec. apply Forall_app in F as [F1 F2]. pose proof (Forall_inv F2) as Fx. cbn beta in Fx.
  destruct (batch_len _ _ _ Fx) as (L1 & L2 & L3). unfold estimate in Er. rewrite L3 in Er. destruct (extremes_one _ _ _ Fx) as (_ & _ & Ex).
  assert (One : forall i lo hi, (i < n)%nat -> (forall v, in_data (qc_pc c) i [x] v -> lo <= v <= hi) ->
     lo <= nth i (batch_min (qc_pc c) x) 0 <= nth i (batch_max (qc_pc c) x) 0 /\ nth i (batch_max (qc_pc c) x) 0 <= hi).
  { intros i lo hi Hi Hv. destruct (Ex i Hi) as (A & B & C). split; [split; [apply Hv; auto|apply C; auto]|apply Hv; auto]. }
  destruct xs as [|x0 xs].
  - destruct (new_run c (RunningMinMax mo) n Hb [] F1 m0 H0) as (_ & _ & _ & _ & _ & Q & _). rewrite Q in Er by auto. injection Er as <-.
    eexists _, _. split; [reflexivity|]. auto.
  - destruct (IH ltac:(discriminate) F1 H0) as (mns & mxs & E1 & L4 & L5 & E2). rewrite E1 in Er. rewrite L1, L4, Nat.eqb_refl in Er. injection Er as <-.
    eexists _, _. split; [reflexivity|]. cbn. rewrite !map2_length. split; [lia|]. split; [lia|]. intros i lo hi Hi Hv.
    destruct (One i lo hi Hi) as ((A1 & A2) & A3). { intros v Hd. apply Hv. apply (proj2 (in_data_app _ _ (x0 :: xs) [x] _)). auto. }
    destruct (E2 i lo hi Hi) as ((B1 & B2) & B3). { intros v Hd. apply Hv. apply (proj2 (in_data_app _ _ (x0 :: xs) [x] _)). auto. }
    rewrite !(nth_map2 _ _ _ i 0 0) by lia.
    set (a := nth i (batch_min (qc_pc c) x) 0) in *. set (b := nth i (batch_max (qc_pc c) x) 0) in *. set (u := nth i mns 0) in *. set (w := nth i mxs 0) in *.
    assert (K : forall p q p' q', p <= p' -> q <= q' -> (1 - mo) * p + mo * q <= (1 - mo) * p' + mo * q').
    { intros. apply Rplus_le_compat; apply Rmult_le_compat_l; lra. }
    pose proof (K lo lo a u A1 B1). pose proof (K a u b w A2 B2). pose proof (K b w hi hi A3 B3). split; [split|]; lra.
Qed.
(** ... so that data seen during calibration can be clipped. *)
Theorem C46_running_refuted :
  ~ (forall c n xs m0 mo, q_sane c -> (2 <= qc_bits c)%nat -> (1 <= n)%nat -> 0 <= mo <= 1 -> xs <> [] -> Forall (fits (qc_pc c) n) xs ->
     man_new c (RunningMinMax mo) None = Ok m0 ->
     forall x y m', In x xs -> man_forward (m_with_train (after m0 xs) false) x = Ok (y, m') ->
     forall mns mxs, m_cur (after m0 xs) = Some (mns, mxs) ->
     forall i j, is_elem x i j -> Rabs (elem y i j - elem x i j) <= step c (is_signed c mns) (lim mns i) (lim mxs i) / 2).
Proof.
  intros H. set (c := cfg8 Asym false). set (xs := [[[1]]; [[101]]]). assert (F : Forall (fits (qc_pc c) 1) xs) by (repeat constructor; discriminate).
  destruct (new_run c (RunningMinMax (9/10)) 1 ltac:(simpl; lia) xs F _ eq_refl) as (_ & Ee & Est & _ & Ecf & _ & P). destruct (P ltac:(discriminate)) as ((a & b & [Ecur [q0 Hq]]) & (ps & Eps & Lps) & Sg).
  match type of Ecur with m_cur (after ?m xs) = _ => set (m0 := m) in * end. set (m := after m0 xs) in *.
  assert (a = [11] /\ b = [11]) as [-> ->].
  { assert (Q : m_cur m = Some ([(1 - 9/10) * 101 + 9/10 * 1], [(1 - 9/10) * 101 + 9/10 * 1])) by reflexivity.
    rewrite Q in Ecur. injection Ecur as <- <-. split; f_equal; lra. }
  destruct (q_forward_ok c (m_q m) ps 1 [[101]] Eps Lps Sg ltac:(split; [discriminate|reflexivity])) as [y Ey].
  assert (Ef : man_forward (m_with_train m false) [[101]] = Ok (y, m_with_train m false)).
  { clearbody m. unfold man_forward, m_with_train. cbn. rewrite Ee, Est, Ecf, Ey. reflexivity. }
  specialize (H c 1%nat xs m0 (9/10) (cfg8_sane _ _) ltac:(simpl; lia) ltac:(lia) ltac:(lra) ltac:(discriminate) F eq_refl [[101]] y _ ltac:(simpl; auto) Ef [11] [11] Ecur 0%nat 0%nat ltac:(split; simpl; lia)).
  rewrite Ecf in Hq. assert (He : elem y 0 0 = q_one c false (mk_par c false 11 11) 101).
  { apply (q_forward_elem c q0 [11] [11] (m_q m) [[101]] y 0 0 ltac:(discriminate) Hq Ey). split; simpl; lia. }
  destruct (mk_par_ok c false 11 11 (cfg8_sane _ _) (int_max_2 c false ltac:(simpl; lia)) ltac:(auto)) as (E1 & E2 & E3 & _).
  rewrite He, q_one_grid in H. pose proof (grid_range (q_scale c (mk_par c false 11 11)) (int_min c false - q_zero c (mk_par c false 11 11)) (int_max c false - q_zero c (mk_par c false 11 11)) 101 E2 ltac:(lia)) as [_ G].
  assert (Sv : step c false 11 11 = 11 / 255).
  { unfold step, levels_up. change (qc_meth c) with Asym. change (qc_log c) with false. change (qc_bits c) with 8%nat. change (qc_eps c) with (1 / 10 ^ 8). cbv iota zeta.
    replace (Rmin 11 0) with 0 by mm. replace (Rmax 11 (1 / 10 ^ 8)) with 11 by (rewrite Rmax_left; lra).
    replace (2 ^ 8 - 1) with 255 by lra. rewrite Rmax_left; lra. }
  change (lim [11] 0) with 11 in H. change (is_signed c [11]) with false in H. rewrite Sv in *. change (elem [[101]] 0 0) with 101 in H. rewrite E1 in *.
  assert (IZR (int_max c false - q_zero c (mk_par c false 11 11)) <= 255). { apply IZR_le. change (int_max c false) with 255%Z. change (int_min c false) with 0%Z in E3. lia. }
  assert (11 / 255 * IZR (int_max c false - q_zero c (mk_par c false 11 11)) <= 11 / 255 * 255) by (apply Rmult_le_compat_l; lra).
  mm.
Qed.

(** C47: fixed or learned ranges, and ranges in evaluation mode, are never changed by
    using the quantizer. *)
Definition use_op (o : mop) : Prop := match o with MForward _ | MTrain _ => True | _ => False end.
Theorem C47_fixed : forall m ops, (m_state m = Fixed \/ m_state m = Learn) -> Forall use_op ops ->
  let m' := fold_left man_step ops m in m_q m' = m_q m /\ m_cur m' = m_cur m /\ m_state m' = m_state m
  /\ (forall x, man_forward m' x = match man_forward m x with Ok (y, _) => Ok (y, m') | Raise e => Raise e end).
Proof.
  intros m ops Hs F.
  assert (G : let m' := fold_left man_step ops m in m_q m' = m_q m /\ m_cur m' = m_cur m /\ m_state m' = m_state m /\ m_est m' = m_est m /\ m_cfg m' = m_cfg m).
  { cbv zeta. revert m Hs. induction F as [|o ops Ho F IH]; intros m Hs; [auto|]. cbn [fold_left].
    assert (K : m_q (man_step m o) = m_q m /\ m_cur (man_step m o) = m_cur m /\ m_state (man_step m o) = m_state m /\ m_est (man_step m o) = m_est m /\ m_cfg (man_step m o) = m_cfg m).
    { destruct o; try contradiction; [|cbn; auto]. cbn. unfold man_forward. destruct (m_est m) eqn:Ee; [|auto].
      destruct Hs as [Hs | Hs]; rewrite Hs; destruct (q_forward _ _ _); cbn; auto. }
    destruct K as (K1 & K2 & K3 & K4 & K5). destruct (IH (man_step m o)) as (A & B & C & D & E'); [rewrite K3; auto|]. repeat split; congruence. }
  cbv zeta in *. set (m' := fold_left man_step ops m) in *. destruct G as (A & B & C & D & E'). repeat split; auto. intros x.
  unfold man_forward. rewrite A, C, D, E'. destruct (m_est m); [|reflexivity]. destruct Hs as [-> | ->]; destruct (q_forward _ _ _); reflexivity.
Qed.
Theorem C47_eval : forall m xs, m_state m = EstimateTrain -> m_train m = false -> fold_left man_step (map MForward xs) m = m.
Proof.
  intros m xs H1 H2. induction xs as [|x xs IH]; auto. cbn [map fold_left man_step]. unfold man_forward. rewrite H1, H2. destruct (m_est m); [|exact IH].
  destruct (q_forward _ _ _); exact IH.
Qed.
(** Ranges can be fixed only when there are some, and without them the quantizer raises. *)
Theorem C47_uninitialized : forall c e m0 x, man_new c e None = Ok m0 ->
  man_fix m0 = Raise QuantizerNotInitializedError
  /\ (man_forward (m_with_train m0 false) x = Raise QuantizerNotInitializedError \/ man_forward (m_with_train m0 false) x = Raise AssertionError).
Proof.
  intros c e m0 x H. injection H as <-. split; [reflexivity|]. cbn. unfold q_forward. cbn. destruct (qc_meth c), (qc_pc c); auto.
Qed.
Theorem C47_fix_after_batch : forall c e n m0 x, (2 <= qc_bits c)%nat -> man_new c e None = Ok m0 -> fits (qc_pc c) n x ->
  exists m, man_fix (man_step m0 (MForward x)) = Ok m /\ m_state m = Fixed /\ m_q m = m_q (man_step m0 (MForward x)).
Proof.
  intros c e n m0 x Hb H F. destruct (new_run c e n Hb [x] ltac:(auto) m0 H) as (_ & _ & _ & _ & _ & _ & P). destruct (P ltac:(discriminate)) as (_ & (ps & Eps & _) & _).
  unfold after in Eps. cbn [map fold_left] in Eps. unfold man_fix, initialized. rewrite Eps. eexists. split; [reflexivity|]. auto.
Qed.
(** A manager built with a given range can never be used. *)
Theorem C47_given_range_refuted : forall c e r m x, man_new c e (Some r) = Ok m -> man_forward m x = Raise AttributeError.
Proof. intros c e [mn mx] m x H. unfold man_new in H. destruct (q_set _ _ _ _); [|discriminate]. injection H as <-. reflexivity. Qed.

(** C48: with per channel quantization a channel does not influence the others
    (asymmetric quantizer) ... *)
Theorem C48_channels_independent : forall c m0 x1 x2 y1 y2 m1 m2 i, q_sane c -> qc_meth c = Asym -> qc_pc c = true -> man_new c CurrentMinMax None = Ok m0 ->
  man_forward m0 x1 = Ok (y1, m1) -> man_forward m0 x2 = Ok (y2, m2) -> (i < length x1)%nat -> (i < length x2)%nat -> nth i x1 [] = nth i x2 [] ->
  nth i y1 [] = nth i y2 [].
Proof.
  intros c m0 x1 x2 y1 y2 m1 m2 i S Em Hpc H0 F1 F2 Hi1 Hi2 E. injection H0 as <-.
  assert (G : forall x y m, man_forward {| m_cfg := c; m_est := Some CurrentMinMax; m_cur := None; m_q := q_new; m_state := EstimateTrain; m_train := true |} x = Ok (y, m) ->
     (i < length x)%nat -> nth i y [] = map (q_one c false (mk_par c false (minlist (nth i x [])) (maxlist (nth i x [])))) (nth i x [])).
  { clear - Em Hpc. intros x y m F Hi. unfold man_forward in F. cbn [m_est m_state m_train m_cfg m_cur m_q] in F. rewrite Hpc in F. unfold estimate in F.
    destruct (batch_empty true x); [discriminate|]. cbn [bind fst snd] in F.
    destruct (q_set c q_new (batch_min true x) (batch_max true x)) as [q|] eqn:Eq; cbn [bind] in F; [|discriminate].
    destruct (q_forward c q x) as [y'|] eqn:Ey; cbn [bind] in F; [|discriminate]. injection F as <- _.
    assert (Bn : batch_min true x <> []) by (destruct x; simpl in *; [lia|discriminate]).
    destruct (q_forward_rows _ _ _ _ _ _ _ Bn Eq Ey) as [_ R]. rewrite (R i Hi).
    assert (Sg : is_signed c (batch_min true x) = false) by (unfold is_signed; now rewrite Em). rewrite Sg.
    rewrite !(lim_nth _ i (length x)) by (cbn; rewrite ?map_length; auto). unfold batch_min, batch_max.
    rewrite (nth_indep (map minlist x) 0 (minlist [])), (nth_indep (map maxlist x) 0 (maxlist [])) by (rewrite map_length; lia). now rewrite !map_nth. }
  rewrite (G _ _ _ F1 Hi1), (G _ _ _ F2 Hi2), E. reflexivity.
Qed.
(** ... while with the symmetric one a single negative value in another channel halves
    the resolution of a channel without negative values. *)
Lemma rhe_small v : -1/2 < v < 1/2 -> rhe v = 0%Z.
Proof. intros H. pose proof (rhe_err v). assert (-1 < IZR (rhe v) < 1) by (split; mm). destruct H1 as [A B]. apply (lt_IZR (-1)) in A. apply (lt_IZR _ 1) in B. lia. Qed.
Theorem C48_symmetric_refuted :
  ~ (forall c m0 x1 x2 y1 y2 m1 m2 i, q_sane c -> qc_pc c = true -> man_new c CurrentMinMax None = Ok m0 ->
     man_forward m0 x1 = Ok (y1, m1) -> man_forward m0 x2 = Ok (y2, m2) -> (i < length x1)%nat -> (i < length x2)%nat -> nth i x1 [] = nth i x2 [] ->
     nth i y1 [] = nth i y2 []).
Proof.
  intros H. set (c := {| qc_meth := Sym; qc_bits := 2; qc_log := false; qc_eps := 1/10; qc_pc := true |}).
  assert (S : q_sane c) by (split; simpl; [lra|lia]). set (x1 := [[3; 1]; [0]]). set (x2 := [[3; 1]; [-1]]).
  assert (F : forall x, length x = 2%nat -> Forall (fun r : list R => r <> []) x -> exists y m' r, man_forward {| m_cfg := c; m_est := Some CurrentMinMax; m_cur := None; m_q := q_new; m_state := EstimateTrain; m_train := true |} x = Ok (y, m')
     /\ estimate CurrentMinMax true None x = Ok r /\ q_set c q_new (fst r) (snd r) = Ok (m_q m') /\ q_forward c (m_q m') x = Ok y).
  { intros x L Fx. destruct (man_forward_ok {| m_cfg := c; m_est := Some CurrentMinMax; m_cur := None; m_q := q_new; m_state := EstimateTrain; m_train := true |} CurrentMinMax 2 x eq_refl eq_refl ltac:(simpl; lia) (conj L Fx)
      ltac:(split; cbn; intros; discriminate)) as (y & m' & r & Q1 & _ & _ & _ & _ & _ & Q2 & _ & Q3 & Q4 & _). exists y, m', r. auto. }
  destruct (F x1 eq_refl ltac:(repeat constructor; discriminate)) as (y1 & m1 & r1 & A1 & A2 & A3 & A4).
  destruct (F x2 eq_refl ltac:(repeat constructor; discriminate)) as (y2 & m2 & r2 & B1 & B2 & B3 & B4).
  specialize (H c _ x1 x2 y1 y2 m1 m2 0%nat S eq_refl eq_refl A1 B1 ltac:(simpl; lia) ltac:(simpl; lia) eq_refl).
  injection A2 as <-. injection B2 as <-. cbn [fst snd] in *.
  assert (Bn : forall x, length x = 2%nat -> batch_min true x <> []) by (intros [|a x]; simpl; [lia|discriminate]).
  pose proof (q_forward_elem _ _ _ _ _ _ _ 0 1 (Bn x1 eq_refl) A3 A4 ltac:(split; simpl; lia)) as E1.
  pose proof (q_forward_elem _ _ _ _ _ _ _ 0 1 (Bn x2 eq_refl) B3 B4 ltac:(split; simpl; lia)) as E2.
  unfold elem in E1, E2. rewrite H, E2 in E1.
  assert (M1 : batch_min true x1 = [1; 0]) by (cbn; f_equal; mm). assert (M2 : batch_min true x2 = [1; -1]) by (cbn; f_equal; mm).
  replace (Rmax 3 1) with 3 in E1 by mm. rewrite M1, M2 in E1. assert (S1 : is_signed c [1; 0] = false) by (cbn; repeat rcase; try lra; auto). assert (S2 : is_signed c [1; -1] = true) by (cbn; repeat rcase; try lra; auto).
  rewrite S1, S2 in E1. cbn [lim nth x1 x2] in E1.
  destruct (mk_par_ok c false 1 3 S (int_max_2 c false ltac:(simpl; lia)) ltac:(discriminate)) as (P1 & _). destruct (mk_par_ok c true 1 3 S (int_max_2 c true ltac:(simpl; lia)) ltac:(discriminate)) as (P2 & _).
  assert (T1 : step c false 1 3 = 1). { unfold step, c, levels_up. cbn [qc_meth qc_log qc_bits qc_eps Nat.sub]. replace (Rmin 1 0) with 0 by mm. rewrite Rabs_R0. replace (Rmax 0 (Rmax 3 (1/10))) with 3 by mm. simpl. rewrite Rmax_left; lra. }
  assert (T2 : step c true 1 3 = 3). { unfold step, c, levels_up. cbn [qc_meth qc_log qc_bits qc_eps Nat.sub]. replace (Rmin 1 0) with 0 by mm. rewrite Rabs_R0. replace (Rmax 0 (Rmax 3 (1/10))) with 3 by mm. simpl. rewrite Rmax_left; lra. }
  rewrite T1 in P1. rewrite T2 in P2. unfold q_one, to_int in E1. rewrite P1, P2 in E1.
  replace (1 / 1) with (IZR 1) in E1 by field. rewrite rhe_IZR in E1. rewrite (rhe_small (1 / 3)) in E1 by lra. cbn in E1. lra.
Qed.

(** C49: a layer with quantized weights uses in evaluation mode the quantized current
    weights, although it caches them ... *)
Definition fresh_params (h : hij) (w : mat) : Prop :=
  if h_quant h then exists m', man_forward (h_man h) (h_w h) = Ok (w, m') else w = h_w h.
Definition hinv (h : hij) : Prop := m_state (h_man h) <> Estimate /\
  forall w, h_cache h = Some w -> m_train (h_man h) = false /\ h_caching h = true /\ fresh_params h w.
Lemma man_state_inv m o : (match o with MEstimate => False | _ => True end) -> m_state m <> Estimate -> m_state (man_step m o) <> Estimate.
Proof.
  intros Ho H. destruct o; cbn; auto; try contradiction; try discriminate.
  - unfold man_forward. destruct (m_est m); auto. destruct (match m_state m with Estimate => true | _ => _ end).
    + destruct (estimate _ _ _ _); cbn; auto. destruct (q_set _ _ _ _); cbn; auto. destruct (q_forward _ _ _); cbn; auto.
    + destruct (q_forward _ _ _); cbn; auto.
  - unfold man_fix. destruct (initialized _); cbn; auto; discriminate.
  - unfold man_reset. destruct (m_est m); cbn; auto; discriminate.
Qed.
Lemma man_eval_same m x y m' : m_state m <> Estimate -> m_train m = false -> man_forward m x = Ok (y, m') -> m' = m.
Proof.
  intros H1 H2. unfold man_forward. destruct (m_est m); [|discriminate]. rewrite H2.
  destruct (m_state m); try congruence; destruct (q_forward _ _ _); cbn; congruence.
Qed.
Lemma man_forward_keeps m x y m' : man_forward m x = Ok (y, m') -> m_state m' = m_state m /\ m_train m' = m_train m.
Proof.
  unfold man_forward. destruct (m_est m); [|discriminate]. destruct (match m_state m with Estimate => true | _ => _ end).
  - destruct (estimate _ _ _ _); cbn; [|discriminate]. destruct (q_set _ _ _ _); cbn; [|discriminate]. destruct (q_forward _ _ _); cbn; [|discriminate]. intros [= <- <-]. auto.
  - destruct (q_forward _ _ _); cbn; [|discriminate]. intros [= <- <-]. auto.
Qed.
Lemma h_params_inv h w h' : hinv h -> h_params h = Ok (w, h') -> hinv h' /\ fresh_params h w.
Proof.
  intros [I1 I2] H. unfold h_params in H. destruct (m_train (h_man h)) eqn:Et.
  - assert (Hc : h_cache h = None) by (destruct (h_cache h) as [c|] eqn:Q; auto; destruct (I2 c eq_refl); congruence). rewrite Hc in H.
    assert (F : forall (q : bool) (r : mat * qman), (if q then man_forward (h_man h) (h_w h) else Ok (h_w h, h_man h)) = Ok r -> m_state (snd r) <> Estimate).
    { intros [|] [y m'] Q; [|injection Q as <- <-; auto]. apply man_forward_keeps in Q as [Q _]. cbn. congruence. }
    destruct (if h_quant h then man_forward (h_man h) (h_w h) else Ok (h_w h, h_man h)) as [[y m']|] eqn:Ef; cbn in H; [|discriminate].
    rewrite andb_false_r in H. injection H as <- <-. split.
    + split; [apply (F (h_quant h) _ Ef)|]. cbn. discriminate.
    + unfold fresh_params. destruct (h_quant h); [eauto|congruence].
  - destruct (h_cache h) as [cw|] eqn:Ec.
    + injection H as <- <-. split; [split; [exact I1|intros w Hw; rewrite Ec in Hw; destruct (I2 w Hw) as (_ & B & C); auto]|]. apply (I2 cw eq_refl).
    + destruct (if h_quant h then man_forward (h_man h) (h_w h) else Ok (h_w h, h_man h)) as [[y m']|] eqn:Ef; cbn in H; [|discriminate]. injection H as <- <-.
      assert (Em : m' = h_man h) by (destruct (h_quant h); [eapply man_eval_same; eauto|congruence]). subst m'.
      assert (Fr : fresh_params h y) by (unfold fresh_params; destruct (h_quant h); [eauto|congruence]). split; [|exact Fr].
      split; [exact I1|]. cbn. intros w. destruct (h_caching h); cbn; [|discriminate]. intros [= <-]. split; [exact Et|]. split; [auto|exact Fr].
Qed.
Lemma h_step_inv h o : hinv h -> proper h o -> hinv (h_step h o).
Proof.
  intros I P. pose proof I as [I1 I2].
  assert (Nc : m_train (h_man h) = true \/ h_caching h = false -> h_cache h = None).
  { intros Q. destruct (h_cache h) as [c|]; auto. destruct (I2 c eq_refl) as (A & B & _). destruct Q; congruence. }
  destruct o; cbn [h_step].
  - destruct (h_params h) as [[w h']|] eqn:E; [|auto]. eapply h_params_inv; eauto.
  - split; [exact I1|]. cbn. destruct b; [discriminate|]. intros w Hw. destruct (I2 w Hw) as (A & B & C). split; [auto|]. split; [auto|].
    unfold fresh_params in *. cbn. replace (m_with_train (h_man h) false) with (h_man h); [exact C|]. destruct (h_man h); cbn in *. now subst.
  - split; [exact I1|discriminate].
  - split; [exact I1|]. cbn. destruct b; [|discriminate]. intros w Hw. destruct (I2 w Hw) as (A & B & C). auto.
  - split; [exact I1|discriminate].
  - cbn in P. rewrite (Nc P). split; [exact I1|discriminate].
  - assert (Q : (match o with MEstimate | MTrain _ => False | _ => True end) /\ (m_train (h_man h) = true \/ h_caching h = false)) by (destruct o; cbn in P; try contradiction; auto).
    destruct Q as [Q1 Q2]. rewrite (Nc Q2). split; [|discriminate]. apply man_state_inv; auto. destruct o; auto.
Qed.
Theorem C49_cache_transparent : forall c e w h0 ops h, hij_new c e w h0 -> proper_run h0 ops h ->
  forall w' h', h_params h = Ok (w', h') ->
  if h_quant h then exists m', man_forward (h_man h) (h_w h) = Ok (w', m') else w' = h_w h.
Proof.
  intros c e w h0 ops h (m & Hm & ->) R.
  assert (I0 : hinv {| h_w := w; h_man := m; h_quant := false; h_caching := true; h_cache := None |}).
  { injection Hm as <-. split; cbn; discriminate. }
  revert I0 R. generalize {| h_w := w; h_man := m; h_quant := false; h_caching := true; h_cache := None |}. intros h0 I0 R.
  assert (I : hinv h). { induction R; auto. apply IHR. now apply h_step_inv. }
  intros w' h' H. apply (h_params_inv h w' h' I H).
Qed.
Definition hij0 : hij := {| h_w := [[1]]; h_man := {| m_cfg := cfg8 Asym false; m_est := Some CurrentMinMax; m_cur := None; m_q := q_new; m_state := EstimateTrain; m_train := true |};
   h_quant := false; h_caching := true; h_cache := None |}.
Lemma hij0_new : hij_new (cfg8 Asym false) CurrentMinMax [[1]] hij0.
Proof. eexists. split; reflexivity. Qed.
Example C49_nonvacuous : exists h, proper_run hij0 [HQuant true; HSgd [[2]]; HForward; HTrain false; HForward; HForward] h.
Proof. eexists. repeat (apply PRs; [cbn; auto|]). apply PR0. Qed.
(** ... but loading other weights in evaluation mode has no effect. *)
Theorem C49_load_in_eval_refuted :
  ~ (forall c e w h0 ops w' r h', hij_new c e w h0 -> let h := fold_left h_step (ops ++ [HSgd w']) h0 in
     h_quant h = false -> h_params h = Ok (r, h') -> r = w').
Proof.
  intros H. specialize (H _ _ _ hij0 [HTrain false; HForward] [[2]] [[1]] (h_step (h_step (h_step hij0 (HTrain false)) HForward) (HSgd [[2]])) hij0_new eq_refl eq_refl).
  injection H as H. lra.
Qed.

(** C50: the MSE range estimator (grid search) chooses among its candidates one with
    the smallest squared error summed over all batches seen. *)
Fixpoint total_err (c : qcfg) (mn mx : R) (xs : list vec) : R :=
  match xs with [] => 0 | x :: r => (match sq_err c mn mx x with Ok e => e | Raise _ => 0 end) + total_err c mn mx r end.
Lemma sq_err_ok c mn mx x : (2 <= qc_bits c)%nat -> qc_pc c = false -> x <> [] -> exists e, sq_err c mn mx x = Ok e.
Proof.
  intros Hb Hp Hx. unfold sq_err. destruct (q_set_ok c q_new 1 [mn] [mx] Hb eq_refl eq_refl ltac:(auto) ltac:(discriminate)) as (s' & ps & E & Ep & Lp & Sg).
  rewrite E. cbn [bind]. destruct (q_forward_ok c s' ps 1 [x] Ep Lp Sg) as [y Ey].
  { rewrite Hp. split; auto. simpl. now rewrite app_nil_r. }
  eexists. match goal with |- bind ?m _ = _ => change m with (q_forward c s' ([x] : mat)) end. rewrite Ey. cbn [bind]. reflexivity.
Qed.
Lemma argmin_from_spec : forall l k best bv f, (forall i, (i < length l)%nat -> nth i l 0 = f (k + i)%nat) -> bv = f best ->
  let r := argmin_from k best bv l in (r = best \/ (k <= r < k + length l)%nat) /\ f r <= bv /\ forall i, (i < length l)%nat -> f r <= f (k + i)%nat.
Proof.
  induction l as [|v l IH]; intros k best bv f Hf Hb; cbn [argmin_from].
  - cbn. repeat split; auto; try lra. intros; lia.
  - assert (Hv : v = f k) by (rewrite <- (Nat.add_0_r k), <- (Hf 0%nat) by (simpl; lia); reflexivity).
    assert (Hl : forall i, (i < length l)%nat -> nth i l 0 = f (S k + i)%nat) by (intros i Hi; replace (S k + i)%nat with (k + S i)%nat by lia; rewrite <- (Hf (S i)) by (simpl; lia); reflexivity).
    destruct (Rltb v bv) eqn:E.
    + apply Rltb_true in E. destruct (IH (S k) k v f Hl Hv) as (A & B & C). split; [simpl; destruct A; [right|right]; lia|]. split; [lra|].
      intros [|i] Hi; [rewrite Nat.add_0_r, <- Hv; auto|]. replace (k + S i)%nat with (S k + i)%nat by lia. apply C. simpl in Hi. lia.
    + apply Rltb_false in E. destruct (IH (S k) best bv f Hl Hb) as (A & B & C). split; [simpl; destruct A; [left; auto|right; lia]|]. split; [lra|].
      intros [|i] Hi; [rewrite Nat.add_0_r, <- Hv; lra|]. replace (k + S i)%nat with (S k + i)%nat by lia. apply C. simpl in Hi. lia.
Qed.
Lemma argmin_spec l f : l <> [] -> (forall i, (i < length l)%nat -> nth i l 0 = f (S i)) ->
  (1 <= argmin l <= length l)%nat /\ forall k, (1 <= k <= length l)%nat -> f (argmin l) <= f k.
Proof.
  destruct l as [|v l]; [congruence|]. intros _ Hf. unfold argmin.
  destruct (argmin_from_spec l 2 1 v f) as (A & B & C).
  { intros i Hi. change (2 + i)%nat with (S (S i)). rewrite <- (Hf (S i)) by (simpl; lia). reflexivity. } { apply (Hf 0%nat). simpl; lia. }
  split; [simpl; lia|]. intros [|[|k]] Hk; [lia| |].
  - rewrite <- (Hf 0%nat) by (simpl; lia). exact B.
  - apply (C k). simpl in Hk. lia.
Qed.
Lemma mapM_loss (g : nat -> res R) : forall ls k, (forall i, exists e, g i = Ok e) ->
  exists ls', mapM (fun kl : nat * R => e <- g (fst kl) ;; Ok (snd kl + e)) (combine (seq k (length ls)) ls) = Ok ls' /\ length ls' = length ls
  /\ forall i, (i < length ls)%nat -> nth i ls' 0 = nth i ls 0 + match g (k + i)%nat with Ok e => e | Raise _ => 0 end.
Proof.
  induction ls as [|v ls IH]; intros k G; cbn [length seq combine mapM]; [exists []; repeat split; auto; intros; simpl in *; lia|].
  destruct (G k) as [e Ee]. cbn [fst snd]. rewrite Ee. cbn [bind]. destruct (IH (S k) G) as (l' & E & L & N). rewrite E. cbn [bind]. eexists. split; [reflexivity|]. cbn [length]. split; [lia|].
  intros [|i] Hi; [rewrite Nat.add_0_r, Ee; reflexivity|]. cbn [nth]. rewrite N by (simpl in Hi; lia). replace (k + S i)%nat with (S k + i)%nat by lia. reflexivity.
Qed.
Definition mse_inv (c : qcfg) (n : nat) (m : mse) (xs : list vec) : Prop :=
  length (mse_loss m) = n /\ forall k, (1 <= k <= n)%nat -> nth (k - 1) (mse_loss m) 0 = total_err c (fst (mse_thr m n k)) (snd (mse_thr m n k)) xs.
Lemma mse_step_spec c n margin s m0 xs x : (2 <= qc_bits c)%nat -> qc_pc c = false -> x <> [] ->
  match s with None => xs = [] /\ m0 = mse_first n margin x | Some m => m = m0 end -> mse_inv c n m0 xs ->
  exists m' r, mse_step c n margin s x = Ok (m', r) /\ mse_inv c n m' (xs ++ [x]) /\ mse_one m' = mse_one m0 /\ mse_lim m' = mse_lim m0
   /\ r = mse_thr m' n (argmin (mse_loss m')).
Proof.
  intros Hb Hp Hx Hs [L I]. unfold mse_step. destruct x as [|v x]; [congruence|]. set (X := v :: x) in *.
  replace (match s with None => mse_first n margin X | Some m => m end) with m0 by (destruct s as [m|]; [auto|tauto]).
  destruct (mapM_loss (fun k => sq_err c (fst (mse_thr m0 n k)) (snd (mse_thr m0 n k)) X) (mse_loss m0) 1) as (ls & E & Ll & N).
  { intros k. now apply sq_err_ok. }
  rewrite L in E. assert (E' : mapM (fun kl : nat * R => let '(mn, mx) := mse_thr m0 n (fst kl) in e <- sq_err c mn mx X ;; Ok (snd kl + e)) (combine (seq 1 n) (mse_loss m0)) = Ok ls).
  { rewrite <- E. generalize (combine (seq 1 n) (mse_loss m0)). intros l. reflexivity. }
  rewrite E'. cbn [bind]. eexists _, _. split; [reflexivity|]. cbn [mse_one mse_lim mse_loss]. split; [|auto]. split; [cbn; congruence|].
  intros k Hk. cbn [mse_loss]. rewrite N by lia. rewrite I by auto. replace (1 + (k - 1))%nat with k by lia.
  change (mse_thr {| mse_one := mse_one m0; mse_lim := mse_lim m0; mse_loss := ls |} n k) with (mse_thr m0 n k).
  generalize (fst (mse_thr m0 n k)), (snd (mse_thr m0 n k)). intros a b. clear. induction xs as [|y xs IH]; cbn [total_err app]; [lra|]. rewrite <- IH. lra.
Qed.
Theorem C50_mse_minimal : forall c n margin x0 xs, (2 <= qc_bits c)%nat -> qc_pc c = false -> (1 <= n)%nat -> Forall (fun x : vec => x <> []) (x0 :: xs) ->
  let thr k := let p := (Rmax (Rabs (minlist x0)) (maxlist x0) + margin) / INR n * INR k in (if Rleb 0 (minlist x0) then 0 else - p, p) in
  exists m k, mse_run c n margin None (x0 :: xs) = Ok (Some m, Some (thr k)) /\ (1 <= k <= n)%nat
  /\ forall k', (1 <= k' <= n)%nat -> total_err c (fst (thr k)) (snd (thr k)) (x0 :: xs) <= total_err c (fst (thr k')) (snd (thr k')) (x0 :: xs).
Proof.
  intros c n margin x0 xs Hb Hp Hn F thr.
  assert (G : forall ys s m0 done, Forall (fun x : vec => x <> []) ys -> ys <> [] ->
     match s with None => done = [] /\ m0 = mse_first n margin (hd [] ys) | Some m => m = m0 end -> mse_inv c n m0 done ->
     exists m, mse_run c n margin s ys = Ok (Some m, Some (mse_thr m n (argmin (mse_loss m)))) /\ mse_inv c n m (done ++ ys) /\ mse_one m = mse_one m0 /\ mse_lim m = mse_lim m0).
  { clear - Hb Hp. induction ys as [|x ys IH]; intros s m0 done Fy Ny Hs I; [congruence|]. inversion Fy as [|? ? Hx Fy']; subst.
    destruct (mse_step_spec c n margin s m0 done x Hb Hp Hx Hs I) as (m' & r & E & I' & O & Lm & Er).
    destruct ys as [|y ys].
    - cbn [mse_run]. rewrite E. cbn [bind fst snd]. exists m'. rewrite Er. auto.
    - destruct (IH (Some m') m' (done ++ [x]) Fy' ltac:(discriminate) eq_refl I') as (m & E2 & I2 & O2 & L2).
      exists m. change (mse_run c n margin s (x :: y :: ys)) with (m <- mse_step c n margin s x ;; mse_run c n margin (Some (fst m)) (y :: ys)). rewrite E. cbn [bind fst]. rewrite E2.
      rewrite <- app_assoc in I2. repeat split; auto; try congruence; apply I2. }
  destruct (G (x0 :: xs) None (mse_first n margin x0) [] F ltac:(discriminate) (conj eq_refl eq_refl)) as (m & E & I & O & Lm).
  { split; [apply repeat_length|]. intros k Hk. cbn. rewrite nth_repeat. reflexivity. }
  assert (T : forall k, mse_thr m n k = thr k) by (intros k; unfold mse_thr, thr; rewrite O, Lm; reflexivity).
  destruct I as [Ll I]. cbn [app] in I.
  destruct (argmin_spec (mse_loss m) (fun k => total_err c (fst (thr k)) (snd (thr k)) (x0 :: xs))) as [A B].
  { intros Q. rewrite Q in Ll. simpl in Ll. lia. }
  { intros i Hi. rewrite <- (T (S i)), <- I by lia. simpl. now rewrite Nat.sub_0_r. }
  exists m, (argmin (mse_loss m)). rewrite <- T. split; [exact E|]. split; [lia|]. intros k' Hk'. rewrite T. apply B. lia.
Qed.
Example C50_nonvacuous : exists c, (2 <= qc_bits c)%nat /\ qc_pc c = false /\ Forall (fun x : vec => x <> []) [[1; 2]; [3]].
Proof. exists (cfg8 Sym false). repeat constructor; simpl; try lia; discriminate. Qed.

Print Assumptions C45_rounding_error.
Print Assumptions C45_grid.
Print Assumptions C45_idempotent.
Print Assumptions C45_one_bit_refuted.
Print Assumptions C46_all_minmax.
Print Assumptions C46_current_minmax.
Print Assumptions C46_running_hull.
Print Assumptions C46_running_refuted.
Print Assumptions C47_fixed.
Print Assumptions C47_eval.
Print Assumptions C47_uninitialized.
Print Assumptions C47_fix_after_batch.
Print Assumptions C47_given_range_refuted.
Print Assumptions C48_channels_independent.
Print Assumptions C48_symmetric_refuted.
Print Assumptions C49_cache_transparent.
Print Assumptions C49_load_in_eval_refuted.
Print Assumptions C50_mse_minimal.
