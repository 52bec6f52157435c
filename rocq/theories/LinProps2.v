(** * Estimating the weights by reading (C172) *)
From Verif Require Import Prelude ArrayModel PeriModel PeriSpec PeriProofs PeriProofs2 PeriProofs3 PeriProofs4 LinModel LinSpec LinProps.

Lemma dot_sub (a b x : list R) : length a = length b -> dot (map2 Rminus a b) x = dot a x - dot b x.
Proof. revert b x. induction a as [|u a IH]; intros [|v b] x L; try discriminate L; [cbn; lra|]. destruct x as [|y x]; [cbn; lra|]. cbn [map2 dot]. rewrite IH by (injection L; auto). lra. Qed.
Lemma sum_sq_zero {A B} (f : A -> B -> R) : forall (l : list A) (k : list B), length l = length k -> sumR (map2 (fun x y => f x y ^ 2) l k) <= 0 -> forall j dx dy, (j < length l)%nat -> f (nth j l dx) (nth j k dy) = 0.
Proof.
  assert (P : forall (l : list A) (k : list B), 0 <= sumR (map2 (fun x y => f x y ^ 2) l k)). { induction l as [|x l IH]; intros [|y k]; cbn [map2 sumR]; try lra. specialize (IH k). pose proof (pow2_ge_0 (f x y)). lra. }
  induction l as [|x l IH]; intros [|y k] L H j dx dy J; try discriminate L; [cbn in J; lia|]. cbn [map2 sumR] in H. pose proof (pow2_ge_0 (f x y)). pose proof (P l k). destruct j.
  - cbn [nth]. assert (f x y ^ 2 = 0) by lra. assert (f x y * f x y = 0) by (rewrite <- H2; ring). apply Rmult_integral in H3. tauto.
  - cbn [nth]. apply IH; [now injection L | lra | cbn in J; lia].
Qed.
Lemma nth_matvec (G : list (list R)) (x : list R) i : (i < length G)%nat -> nth i (matvec G x) 0 = dot (nth i G []) x.
Proof. intros H. unfold matvec. transitivity (nth i (map (fun r => dot r x) G) (dot [] x)); [apply nth_indep; rewrite map_length; exact H | apply (map_nth (fun r : list R => dot r x))]. Qed.
Lemma residual_exact (X : list (list R)) (G : list (list R)) i : (i < length G)%nat -> residual X (map (matvec G) X) i (nth i G []) = 0.
Proof. intros H. unfold residual. induction X as [|x X IH]; [reflexivity|]. cbn [map map2 sumR]. rewrite (nth_matvec G x i H). fold (map (matvec G) X). rewrite IH. lra. Qed.
Lemma lsq_unique n k (X : list (list R)) (W G : list (list R)) : shape n k G -> spanning k X -> least_squares n k X (map (matvec G) X) W -> W = G.
Proof.
  intros [LG FG] Sp [[LW FW] H]. rewrite Forall_forall in FG, FW. apply (nth_ext _ _ [] []); [transitivity n; [exact LW | symmetry; exact LG]|]. intros i Hi. assert (Hi' : (i < n)%nat) by (eapply Nat.lt_le_trans; [exact Hi | apply Nat.eq_le_incl; exact LW]). assert (Hg : (i < length G)%nat) by (eapply Nat.lt_le_trans; [exact Hi' | apply Nat.eq_le_incl; symmetry; exact LG]).
  assert (Lg : length (nth i G []) = k) by (apply FG, nth_In, Hg). assert (Lw : length (nth i W []) = k) by (apply FW, nth_In, Hi). pose proof (H i (nth i G []) Hi' Lg) as Q. rewrite residual_exact in Q by exact Hg. unfold residual in Q.
  assert (Z : map2 Rminus (nth i W []) (nth i G []) = repeat 0 k). { apply Sp; [rewrite map2_length; lia|]. intros x Hx. rewrite dot_sub by lia. apply (In_nth _ _ []) in Hx. destruct Hx as (j & Hj & <-). pose proof (sum_sq_zero (fun x y => dot (nth i W []) x - nth i y 0) X (map (matvec G) X) ltac:(rewrite map_length; reflexivity) Q j [] [] Hj) as E. cbv beta in E. assert (En : nth j (map (matvec G) X) [] = matvec G (nth j X [])). { transitivity (nth j (map (matvec G) X) (matvec G [])); [apply nth_indep; rewrite map_length; exact Hj | apply (map_nth (matvec G))]. } unfold vec in *. rewrite En, (nth_matvec G _ i Hg) in E. exact E. }
  clear -Z Lg Lw. revert Z Lg Lw. generalize (nth i W []) (nth i G []). intros a b. revert b k. induction a as [|u a IH]; intros b k Z Lb La; destruct k; try discriminate La; destruct b as [|v b]; try discriminate Lb; [reflexivity|]. cbn [map2 repeat] in Z. injection Z as Z1 Z2. f_equal; [lra|]. apply (IH b k Z2); [now injection Lb | now injection La].
Qed.

(** inputs as the solver sees them: with an analog bias a one is appended *)
Definition seen (c : pcfg) (xs : list (list R)) : list (list R) := if analog_bias c then map (fun x : list R => x ++ [1]) xs else xs.
Definition lanes (c : pcfg) : nat := if analog_bias c then Datatypes.S (c_in c) else c_in c.

Lemma bias_kinds c : analog_bias c = true -> digital_bias c = false.
Proof. unfold analog_bias, digital_bias. destruct (c_bias c), (c_digital c); reflexivity || discriminate. Qed.
Lemma vadd_sub (y b : list R) : length y = length b -> map2 Rminus (vadd y b) b = y.
Proof. unfold vadd. revert b. induction y as [|u y IH]; intros [|v b] L; try discriminate L; [reflexivity|]. cbn [map2]. f_equal; [lra|]. apply IH. now injection L. Qed.
Lemma matvec_snoc (w : list (list R)) : forall (b x : list R) k, Forall (fun r => length r = k) w -> length b = length w -> length x = k -> matvec (map2 (fun r v => r ++ [v]) w b) (x ++ [1]) = vadd (matvec w x) b.
Proof.
  unfold vadd. induction w as [|r w IH]; intros [|v b] x k F L Lx; try discriminate L; [reflexivity|]. inversion F as [|? ? F1 F2]; subst. cbn [map2 matvec map]. f_equal; [apply dot_snoc; exact F1|]. apply (IH b x (length x)); auto; now injection L.
Qed.
Lemma snoc_separate (w : list (list R)) : forall b : list R, length b = length w -> map (fun r => removelast r) (map2 (fun r v => r ++ [v]) w b) = w /\ map (fun r => last r 0) (map2 (fun r v => r ++ [v]) w b) = b.
Proof. induction w as [|r w IH]; intros [|v b] L; try discriminate L; [split; reflexivity|]. cbn [map2 map]. destruct (IH b ltac:(now injection L)) as [-> ->]. rewrite removelast_last, last_last. split; reflexivity. Qed.

(** The heart: if the tile computes [W x + b] for the inputs, a least squares fit finds [W] and [b]. *)
Lemma read_core c t lstsq n (xs : list (list R)) w b : wf c t -> shape (c_out c) (c_in c) w ->
  (if analog_bias c then exists v, b = Some v /\ length v = c_out c else b = t_bias t) ->
  Forall (fun x => length x = c_in c) xs -> (forall x, In x xs -> forward c t x = affine_map w b x) ->
  spanning (lanes c) (seen c xs) -> (forall ys, least_squares (c_out c) (lanes c) (seen c xs) ys (lstsq (seen c xs) ys)) ->
  (analog_bias c = true -> length xs = n) ->
  read_weights c t lstsq true n xs = Ok (w, b).
Proof.
  intros Wf S B FX FE Sp LS N. unfold read_weights. destruct S as [Sl Sf]. pose proof (wf_bias _ _ Wf) as WB. fold (seen c xs). unfold lanes in *. destruct (analog_bias c) eqn:A.
  - rewrite (bias_kinds c A) in *. rewrite WB. cbn [andb]. destruct (Nat.eqb_spec (length xs) n) as [_|K]; [|now rewrite N in K by reflexivity]. cbn [negb]. destruct B as (v & -> & Lv). set (G := map2 (fun r v => r ++ [v]) w v).
    assert (Ey : map (forward c t) xs = map (matvec G) (seen c xs)). { unfold seen. rewrite A, map_map. apply map_ext_in. intros x Hx. rewrite FE by exact Hx. unfold affine_map. rewrite Forall_forall in FX. symmetry. apply (matvec_snoc w v x (c_in c)); [exact Sf | transitivity (c_out c); [exact Lv | symmetry; exact Sl] | apply FX, Hx]. }
    assert (SG : shape (c_out c) (Datatypes.S (c_in c)) G). { split; [unfold G; rewrite map2_length; unfold vec in *; lia|]. unfold G. clear -Sf. revert v. induction Sf as [|r w Hr Hw IH]; intros [|y v]; cbn [map2]; constructor; [rewrite app_length; cbn; lia | apply IH]. }
    rewrite Ey, (lsq_unique _ _ _ _ _ SG Sp (LS _)). unfold separate_weights. rewrite A. destruct (snoc_separate w v ltac:(unfold vec in *; lia)) as [E1 E2]. fold G in E1, E2. unfold vec in *. rewrite E1, E2. reflexivity.
  - cbn [andb].
    assert (Ey : match t_bias t with Some b0 => map (fun y : list R => map2 Rminus y b0) (map (forward c t) xs) | None => map (forward c t) xs end = map (matvec w) (seen c xs)). { unfold seen. rewrite A. subst b. destruct (t_bias t) as [v|] eqn:Ev; [rewrite map_map|]; apply map_ext_in; intros x Hx; rewrite FE by exact Hx; unfold affine_map; [|reflexivity]. apply vadd_sub. unfold matvec. rewrite map_length. destruct (digital_bias c); [destruct WB as (v' & E' & L'); injection E' as <-; unfold vec in *; lia | discriminate]. }
    rewrite Ey, (lsq_unique _ _ _ _ _ (conj Sl Sf) Sp (LS _)). unfold separate_weights. rewrite A. destruct (digital_bias c); [now subst b | subst b; now rewrite WB].
Qed.

Lemma unscale_rows n alpha (m : list (list R)) : okl n alpha -> length m = n -> Forall (fun a => a <> 0) alpha -> scale_rows (map Rinv alpha) (scale_rows alpha m) = m.
Proof.
  intros O L F. assert (One : forall a (r : list R), a <> 0 -> map (Rmult (/ a)) (map (Rmult a) r) = r). { intros a r Ha. rewrite map_map. rewrite <- (map_id r) at 2. apply map_ext. intros v. field. exact Ha. }
  unfold scale_rows. destruct alpha as [|a [|a' alpha]].
  - destruct O as [O|O]; [discriminate O|]. cbn in O. destruct m; [reflexivity | cbn in L; lia].
  - cbn [map]. rewrite map_map. rewrite <- (map_id m) at 2. apply map_ext. intros r. inversion F; subst. apply One; assumption.
  - destruct O as [O|O]; [discriminate O|]. change (map2 (fun a0 row => map (Rmult a0) row) (map Rinv (a :: a' :: alpha)) (map2 (fun a0 row => map (Rmult a0) row) (a :: a' :: alpha) m) = m). revert F O L. generalize (a :: a' :: alpha). clear -One. intros l F O L. rewrite <- O in L. clear O n. revert m L. induction F as [|u l Hu Fl IH]; intros [|r m] L; try discriminate L; [reflexivity|]. cbn [map map2]. f_equal; [apply One; exact Hu | apply IH; now injection L].
Qed.
Lemma unbmul n alpha (b : list R) : okl n alpha -> length b = n -> Forall (fun a => a <> 0) alpha -> bmul (map Rinv alpha) (bmul alpha b) = b.
Proof.
  intros O L F. assert (O' : okl n (map Rinv alpha)) by (apply okl_map; exact O). rewrite (bmul_full n alpha b O L). rewrite (bmul_full n (map Rinv alpha)); [|exact O' | rewrite map2_length, (ex_length n alpha O); lia]. assert (Ee : ex n (map Rinv alpha) = map Rinv (ex n alpha)). { destruct alpha as [|a [|a' al]]; [reflexivity | cbn [map ex]; clear; induction n; [reflexivity | cbn [repeat map]; now f_equal] | reflexivity]. } rewrite Ee. assert (Fe : Forall (fun a => a <> 0) (ex n alpha)). { rewrite Forall_forall in *. intros u Hu. apply F. now apply (ex_In n). }
  pose proof (ex_length n alpha O) as Le. rewrite <- Le in L. clear -Fe L. revert b L. induction Fe as [|u l Hu Fl IH]; intros [|v b] L; try discriminate L; [reflexivity|]. cbn [map map2]. f_equal; [field; exact Hu | apply IH; now injection L].
Qed.
Lemma unscaled_get c t : wf c t -> (forall alpha, get_scales t = Some alpha -> Forall (fun a => a <> 0) alpha) ->
  match get_scales t with
  | Some alpha => (scale_rows (map Rinv alpha) (fst (logical c t)), if analog_bias c then option_map (bmul (map Rinv alpha)) (snd (logical c t)) else snd (logical c t))
  | None => logical c t
  end = get_weights c false t.
Proof.
  intros Wf NZ. pose proof (separate_shape c t Wf) as [[Sl Sf] Sb]. pose proof (proj2 (get_scales_oex c t Wf)) as O. unfold logical, get_weights in *. destruct (separate_weights c (t_w t)) as [w b] eqn:Es. cbn [fst snd negb] in *. destruct (get_scales t) as [alpha|] eqn:Eg; cbn [fst snd]; [|reflexivity]. rewrite (unscale_rows (c_out c)) by (auto; apply O; reflexivity). f_equal. destruct (analog_bias c) eqn:A; [|reflexivity]. rewrite (bias_kinds c A). destruct b as [v|]; [|reflexivity]. cbn [option_map]. f_equal. apply (unbmul (c_out c)); auto.
Qed.

(** C172: reading the weights with enough inputs and any least squares solver returns the logical weights and bias,
    or, without [apply_weight_scaling], the values that the tile stores, as [get_weights] does. *)
Theorem C172_read c t lstsq (apply : bool) n (X : list (list R)) : reachable c t ->
  Forall (fun x => length x = c_in c) X ->
  match t_ir t with None => True | Some ir => 0 < ir /\ (forall x v, In x X -> In v x -> Rabs v <= ir) /\ analog_bias c = false end ->
  spanning (lanes c) (seen c X) -> (forall ys, least_squares (c_out c) (lanes c) (seen c X) ys (lstsq (seen c X) ys)) ->
  (analog_bias c = true -> length X = n) -> (apply = false -> forall alpha, get_scales t = Some alpha -> Forall (fun a => a <> 0) alpha) ->
  read_weights c t lstsq apply n X = Ok (get_weights c apply t).
Proof.
  intros Rc FX IR Sp LS N NZ. pose proof (reachable_wf _ _ Rc) as Wf. destruct (get_weights_shape c t Wf) as [S B].
  assert (Bb : if analog_bias c then exists v, snd (logical c t) = Some v /\ length v = c_out c else snd (logical c t) = t_bias t). { unfold logical. destruct (analog_bias c) eqn:A. - destruct (snd (get_weights c true t)) as [v|]; [exists v; split; [reflexivity | apply B] | cbn in B; congruence]. - unfold get_weights, separate_weights. rewrite A. pose proof (wf_bias _ _ Wf) as WB. destruct (digital_bias c) eqn:D; cbn [negb]; destruct (get_scales t); try reflexivity; cbn [snd]; now rewrite WB. }
  assert (C : read_weights c t lstsq true n X = Ok (fst (logical c t), snd (logical c t))). { apply read_core; auto. intros x Hx. rewrite Forall_forall in FX. apply P_forward; auto. destruct (t_ir t); [|exact I]. destruct IR as (I1 & I2 & I3). split; [exact I1|]. split; [intros v Hv; now apply (I2 x) | exact I3]. }
  rewrite <- surjective_pairing in C. destruct apply; [exact C|]. rewrite <- (unscaled_get c t Wf (NZ eq_refl)). unfold read_weights in *. destruct (analog_bias c && negb (length X =? n)%nat)%bool; [discriminate C|]. destruct (separate_weights c _) as [w b]. injection C as C. unfold logical in *. destruct (get_scales t) as [alpha|]; [|now rewrite <- C]. rewrite <- C. cbn [fst snd]. reflexivity.
Qed.
(** With an analog bias and an input range, the bias that is read is the stored one times the input range: that is
    what the forward pass adds, but not what [get_weights] returns. *)
Theorem C172_bias_range c t lstsq n (X : list (list R)) ir v : reachable c t -> t_ir t = Some ir -> 0 < ir -> analog_bias c = true -> snd (logical c t) = Some v ->
  Forall (fun x => length x = c_in c) X -> (forall x u, In x X -> In u x -> Rabs u <= ir) ->
  spanning (lanes c) (seen c X) -> (forall ys, least_squares (c_out c) (lanes c) (seen c X) ys (lstsq (seen c X) ys)) -> length X = n ->
  read_weights c t lstsq true n X = Ok (fst (logical c t), Some (map (Rmult ir) v)).
Proof.
  intros Rc E I1 A Ev FX I2 Sp LS N. pose proof (reachable_wf _ _ Rc) as Wf. destruct (get_weights_shape c t Wf) as [S B]. apply read_core; auto.
  - rewrite A. eexists. split; [reflexivity|]. rewrite map_length. fold (logical c t) in B. rewrite Ev in B. apply B.
  - intros x Hx. rewrite Forall_forall in FX. rewrite (P_forward_bias_ir c t x ir); auto; [|intros u Hu; now apply (I2 x)]. rewrite Ev. reflexivity.
Qed.
(** With an analog bias, own inputs are refused unless their number is [in_size * over_sampling]. *)
Theorem C172_count c t lstsq apply n (X : list (list R)) : analog_bias c = true -> length X <> n -> read_weights c t lstsq apply n X = Raise RuntimeError.
Proof. intros A N. unfold read_weights. rewrite A. cbn [andb]. destruct (Nat.eqb_spec (length X) n); [contradiction|]. reflexivity. Qed.

(** ** Examples *)
Definition cfg_rd (bias : bool) : pcfg := {| c_out := 1; c_in := 1; c_mapping := false; c_omega := 0; c_colwise := false; c_lrcomp := false; c_learn_out := false; c_out_colwise := false; c_bias := bias; c_digital := false |}.
Definition tile_rd (bias : bool) (ir : option R) : ptile := ptile_new (cfg_rd bias) [if bias then [2; 3] else [2]] ir 1.
Lemma tile_rd_reachable bias ir : match ir with None => True | Some v => 0 < v end -> reachable (cfg_rd bias) (tile_rd bias ir).
Proof. intros H. exists [if bias then [2; 3] else [2]], ir, 1, []. split; [cbn; lia|]. split; [destruct bias; split; [reflexivity | repeat constructor | reflexivity | repeat constructor]|]. split; [exact H|]. split; [constructor | reflexivity]. Qed.
Definition solve1 (X Y : list (list R)) : mat := [[nth 0 (nth 0 Y []) 0 / nth 0 (nth 0 X []) 0]].
Definition solve2 (X Y : list (list R)) : mat := [[nth 0 (nth 0 Y []) 0 - nth 0 (nth 1 Y []) 0; nth 0 (nth 1 Y []) 0]].
Lemma sq_nonneg_sum {A B} (f : A -> B -> R) (l : list A) (k : list B) : 0 <= sumR (map2 (fun x y => f x y ^ 2) l k).
Proof. revert k. induction l as [|x l IH]; intros [|y k]; cbn [map2 sumR]; try lra. specialize (IH k). pose proof (pow2_ge_0 (f x y)). lra. Qed.
Lemma solve1_ok a ys : a <> 0 -> least_squares 1 1 [[a]] ys (solve1 [[a]] ys).
Proof.
  intros Ha. split; [split; [reflexivity | repeat constructor]|]. intros i v Hi Lv. assert (i = 0)%nat by lia. subst i. apply Rle_trans with 0; [|apply sq_nonneg_sum]. unfold residual, solve1. destruct ys as [|y ys]; [cbn; lra|]. cbn [map2 sumR nth dot]. right. field. exact Ha.
Qed.
Lemma solve2_ok ys : least_squares 1 2 [[1; 1]; [0; 1]] ys (solve2 [[1; 1]; [0; 1]] ys).
Proof.
  split; [split; [reflexivity | repeat constructor]|]. intros i v Hi Lv. assert (i = 0)%nat by lia. subst i. apply Rle_trans with 0; [|apply sq_nonneg_sum]. unfold residual, solve2. destruct ys as [|y [|y' ys]]; cbn [map2 sumR nth dot]; lra.
Qed.
Lemma span1 a : a <> 0 -> spanning 1 [[a]].
Proof. intros Ha v Lv H. destruct v as [|x [|? ?]]; try discriminate Lv. specialize (H [a] (or_introl eq_refl)). cbn [dot] in H. assert (x * a = 0) by lra. apply Rmult_integral in H0. destruct H0; [now subst | contradiction]. Qed.
Lemma span2 : spanning 2 [[1; 1]; [0; 1]].
Proof.
  intros v Lv H. destruct v as [|x [|y [|? ?]]]; try discriminate Lv. pose proof (H [1; 1] (or_introl eq_refl)) as H1. pose proof (H [0; 1] (or_intror (or_introl eq_refl))) as H2. cbn [dot] in H1, H2. cbn [repeat]. f_equal; [lra | f_equal; lra].
Qed.
Example C172_nontrivial : read_weights (cfg_rd false) (tile_rd false None) solve1 false 0 [[5]] = Ok (get_weights (cfg_rd false) false (tile_rd false None)) /\
  read_weights (cfg_rd true) (tile_rd true (Some 7)) solve2 true 2 [[1]; [0]] = Ok ([[2]], Some [7 * 3]).
Proof.
  split.
  - apply C172_read; [now apply tile_rd_reachable | repeat constructor | exact I | apply span1; lra | intros ys; apply solve1_ok; lra | discriminate | intros _ alpha E; discriminate E].
  - etransitivity; [|reflexivity].
    refine (C172_bias_range (cfg_rd true) (tile_rd true (Some 7)) solve2 2 [[1]; [0]] 7 [3] _ _ _ _ _ _ _ _ _ _); [apply tile_rd_reachable; lra | reflexivity | lra | reflexivity | reflexivity | repeat constructor | | exact span2 | intros ys; apply solve2_ok | reflexivity].
    intros x u [<-|[<-|[]]] [<-|[]]; [rewrite Rabs_R1; lra | rewrite Rabs_R0; lra].
Qed.
(** Inputs beyond the input range are clipped, so that weights are read too small; the default inputs are standard
    normal vectors whatever the input range is. *)
Theorem C172_clip_refuted : exists c t lstsq X w, reachable c t /\ spanning (lanes c) (seen c X) /\ (forall ys, least_squares (c_out c) (lanes c) (seen c X) ys (lstsq (seen c X) ys)) /\
  Forall (fun x => length x = c_in c) X /\ analog_bias c = false /\
  read_weights c t lstsq true 0 X = Ok w /\ w <> get_weights c true t.
Proof.
  exists (cfg_rd false), (tile_rd false (Some 1)), solve1, [[4]]. eexists. split; [apply tile_rd_reachable; lra|]. split; [apply span1; lra|]. split; [intros ys; apply solve1_ok; lra|]. split; [repeat constructor|]. split; [reflexivity|]. split; [reflexivity|]. unfold solve1, tile_rd. cbn. intros E. injection E. intros K. rewrite Rabs_R1 in K. unfold clampR in K. revert K. mm; lra.
Qed.

Print Assumptions C172_read.
Print Assumptions C172_bias_range.
Print Assumptions C172_count.
Print Assumptions C172_clip_refuted.
