From Verif Require Import Prelude PeriModel PeriProofs.

(** *** Optional scale, expanded to full length *)
Definition oex (n : nat) (o : option vec) : vec := match o with Some v => ex n v | None => repeat 1 n end.
Definition ook (n : nat) (o : option vec) : Prop := forall v, o = Some v -> okl n v.

Lemma oex_length n o : ook n o -> length (oex n o) = n.
Proof. intros H; destruct o; simpl; [apply ex_length; auto | apply repeat_length]. Qed.
Lemma map2_ones n v : length v = n -> map2 Rmult (repeat 1 n) v = v.
Proof. intros <-. rewrite map2_repeat_l. rewrite <- (map_id v) at 2. apply map_ext; intros; lra. Qed.
Lemma map2_ones_r n v : length v = n -> map2 Rmult v (repeat 1 n) = v.
Proof. intros <-. rewrite map2_repeat_r. rewrite <- (map_id v) at 2. apply map_ext; intros; lra. Qed.

Lemma get_scales_oex c t : wf c t ->
  oex (c_out c) (get_scales t) = map2 Rmult (oex (c_out c) (ms_val t)) (oex (c_out c) (t_los t))
  /\ ook (c_out c) (get_scales t).
Proof.
  intros W. pose proof (wf_ms _ _ W) as M; pose proof (wf_los _ _ W) as L.
  unfold get_scales. destruct (ms_val t) as [m|] eqn:Em, (t_los t) as [l|] eqn:El; simpl; split.
  - apply bmul_ex; auto.
  - intros v E; injection E as <-. apply bmul_ok; auto.
  - rewrite map2_ones_r; auto. apply ex_length; auto.
  - intros v E; injection E as <-; auto.
  - rewrite map2_ones; auto. apply ex_length; auto.
  - intros v E; injection E as <-; auto.
  - rewrite map2_ones; auto. apply repeat_length.
  - intros v E; discriminate.
Qed.

Definition rows_scaled (v : vec) (m : mat) : mat := map2 (fun a row => map (Rmult a) row) v m.
Lemma rows_scaled_ones n m : length m = n -> rows_scaled (repeat 1 n) m = m.
Proof.
  intros <-. unfold rows_scaled. rewrite map2_repeat_l. rewrite <- (map_id m) at 2.
  apply map_ext; intros r. rewrite <- (map_id r) at 2. apply map_ext; intros; lra.
Qed.

Lemma separate_shape c t : wf c t ->
  shape (c_out c) (c_in c) (fst (separate_weights c (t_w t)))
  /\ match snd (separate_weights c (t_w t)) with Some b => length b = c_out c | None => True end.
Proof.
  intros W. destruct (wf_w _ _ W) as [L F]. unfold separate_weights, xs in *.
  destruct (analog_bias c); simpl; [|split; [split|]; auto].
  split; [split|].
  - now rewrite map_length.
  - apply Forall_forall; intros r Hr. apply in_map_iff in Hr as [r0 [<- H0]].
    rewrite Forall_forall in F. apply F in H0.
    destruct r0 as [|x r0]; [discriminate|].
    assert (E : removelast (x :: r0) ++ [last (x :: r0) 0] = x :: r0) by (symmetry; apply app_removelast_last; discriminate).
    rewrite <- E, app_length in H0. simpl length in H0 at 2. lia.
  - now rewrite map_length.
Qed.

(** closed form of [get_weights true] *)
Lemma get_weights_oex c t : wf c t ->
  get_weights c true t =
   (rows_scaled (oex (c_out c) (get_scales t)) (fst (separate_weights c (t_w t))),
    if digital_bias c then t_bias t
    else option_map (map2 Rmult (oex (c_out c) (get_scales t))) (snd (separate_weights c (t_w t)))).
Proof.
  intros W. destruct (get_scales_oex c t W) as [_ O].
  destruct (separate_shape c t W) as [S B].
  unfold get_weights. destruct (separate_weights c (t_w t)) as [w b] eqn:E. simpl negb; cbv iota. simpl fst in *; simpl snd in *.
  assert (Hb : analog_bias c = false -> b = None).
  { unfold separate_weights in E. intros A; rewrite A in E. congruence. }
  destruct (get_scales t) as [g|] eqn:G; simpl.
  - f_equal.
    + apply scale_rows_ex; [auto | apply S].
    + destruct (analog_bias c) eqn:A.
      * rewrite (analog_not_digital c A). destruct b as [b|]; simpl; auto. f_equal. apply bmul_full; auto.
      * rewrite Hb by auto. destruct (digital_bias c); auto.
  - f_equal.
    + symmetry; apply rows_scaled_ones, S.
    + destruct (digital_bias c); auto. destruct b as [b|]; simpl; auto. f_equal. symmetry. now apply map2_ones.
Qed.

(** ** Round trip when no scaling is applied *)
Lemma set_get_unscaled c t w b o apply :
  wf c t -> shape (c_out c) (c_in c) w -> bias_ok c b ->
  (apply = false \/ c_mapping c = false \/ omega_of c o <= 0) ->
  exists t', set_weights c w b apply o t = Ok t' /\ wf c t'
    /\ get_weights c false t' = (w, if c_bias c then match b with Some v => Some v | None => t_bias t end else None)
    /\ t_ms t' = t_ms t /\ t_los t' = t_los t /\ t_lrs t' = t_lrs t.
Proof.
  intros W Hw Hb Hn.
  destruct (combine_ok c w b Hw Hb) as (cw & Ecw & Scw & Sep).
  set (tb := match b with Some v => if digital_bias c then with_bias t (Some v) else t | None => t end).
  assert (Wb : wf c tb).
  { subst tb. destruct b as [v|]; auto. destruct (digital_bias c) eqn:D; auto.
    destruct W as [W1 W2 W3 W4 W5]; constructor; simpl; auto.
    rewrite D. exists v; split; auto. destruct Hb; auto. }
  assert (Haws : forall s, (if apply then apply_weight_scaling c cw o s else (cw, s)) = (cw, s)).
  { intros s. destruct Hn as [->|[Hm|Ho]]; auto; destruct apply; auto; unfold apply_weight_scaling.
    - rewrite Hm; auto.
    - destruct (c_mapping c); auto; simpl. fold (omega_of c o).
      destruct (Rltb 0 (omega_of c o)) eqn:E; auto. apply Rltb_true in E; lra. }
  assert (Eset : set_weights c w b apply o t = Ok (with_w tb cw)).
  { unfold set_weights. subst tb.
    destruct b as [v|]; [destruct (digital_bias c) eqn:D|]; cbv beta iota zeta.
    - rewrite Ecw; simpl. now rewrite Haws.
    - rewrite Ecw; simpl. now rewrite Haws.
    - assert (E2 : combine_weights c w None = Ok cw) by (destruct (digital_bias c); auto).
      rewrite E2; simpl. now rewrite Haws. }
  exists (with_w tb cw). split; [auto|].
  split; [destruct Wb as [W1 W2 W3 W4 W5]; constructor; auto|].
  split.
  - unfold get_weights. simpl t_w. rewrite Sep. simpl. f_equal. subst tb.
    destruct b as [v|]; simpl in Hb; unfold analog_bias, digital_bias in *.
    + destruct Hb as [Cb _]. rewrite Cb in *. simpl in *. destruct (c_digital c); reflexivity.
    + destruct (c_bias c), (c_digital c); simpl in *; try congruence; reflexivity.
  - subst tb. destruct b; [destruct (digital_bias c)|]; simpl; auto.
Qed.

Lemma get_true_of_unit_scales c t : wf c t ->
  (forall g, get_scales t = Some g -> Forall (eq 1) g) ->
  get_weights c true t = get_weights c false t.
Proof.
  intros W H. rewrite get_weights_oex by auto.
  destruct (separate_shape c t W) as [S B].
  destruct (get_scales_oex c t W) as [_ O].
  assert (E : oex (c_out c) (get_scales t) = repeat 1 (c_out c)).
  { destruct (get_scales t) as [g|]; auto. simpl. specialize (H g eq_refl). specialize (O g eq_refl).
    pose proof (ex_length _ _ O) as L.
    assert (F : Forall (eq 1) (ex (c_out c) g)).
    { apply Forall_forall. intros x Hx. apply ex_In in Hx. rewrite Forall_forall in H; auto. }
    revert L F. generalize (ex (c_out c) g) as u. generalize (c_out c) as n.
    intros n u <- F; induction F; simpl; congruence. }
  rewrite E. unfold get_weights. destruct (separate_weights c (t_w t)) as [w b] eqn:Es. simpl in *.
  f_equal.
  - apply rows_scaled_ones, S.
  - destruct (digital_bias c); auto. destruct b; simpl; auto. f_equal. now apply map2_ones.
Qed.

(** ** The analog weight range *)
Lemma maxabs_scale k r : maxabs (map (Rmult k) r) = Rabs k * maxabs r.
Proof.
  induction r as [|a r IH]; simpl; [lra|]. rewrite IH, Rabs_mult.
  unfold Rmax. pose proof (Rabs_pos k).
  destruct (Rle_dec (Rabs a) (maxabs r)), (Rle_dec (Rabs k * Rabs a) (Rabs k * maxabs r)); auto; try nra.
Qed.
Lemma maxabs_mat_scale k m : maxabs_mat (map (map (Rmult k)) m) = Rabs k * maxabs_mat m.
Proof.
  induction m as [|a m IH]; simpl; [lra|]. rewrite IH, maxabs_scale.
  unfold Rmax. pose proof (Rabs_pos k).
  destruct (Rle_dec (maxabs a) (maxabs_mat m)), (Rle_dec (Rabs k * maxabs a) (Rabs k * maxabs_mat m)); auto; try nra.
Qed.

Lemma unit_scale_max omega m : 0 < omega -> 0 <= m ->
  Rabs (/ (if Reqb (m / omega) 0 then 1 else m / omega)) * m = if Reqb m 0 then 0 else omega.
Proof.
  intros Ho Hm. destruct (Reqb m 0) eqn:E.
  - apply Reqb_true in E; subst. lra.
  - apply Reqb_false in E. assert (0 < m) by lra.
    assert (0 < m / omega) by (apply Rdiv_lt_0_compat; lra).
    rcase; [lra|]. rewrite Rabs_pos_eq; [field; lra|]. left; apply Rinv_0_lt_compat; lra.
Qed.

Lemma scaled_range c cw omega : 0 < omega -> length cw = c_out c ->
  let w' := scale_rows (map Rinv (alphas c cw omega)) cw in
  if c_colwise c
  then map maxabs w' = map (fun r => if Reqb (maxabs r) 0 then 0 else omega) cw
  else maxabs_mat w' = if Reqb (maxabs_mat cw) 0 then 0 else omega.
Proof.
  intros Ho L. unfold alphas. destruct (c_colwise c).
  - assert (O : okl (c_out c) (map Rinv (map (fun a => if Reqb a 0 then 1 else a) (map (fun m => m / omega) (map maxabs cw))))).
    { right. now rewrite !map_length. }
    cbv zeta. rewrite (scale_rows_ex (c_out c)) by auto.
    rewrite !map_map. rewrite map_map in O.
    replace (ex (c_out c) (map (fun x => / (if Reqb (maxabs x / omega) 0 then 1 else maxabs x / omega)) cw))
      with (map (fun x => / (if Reqb (maxabs x / omega) 0 then 1 else maxabs x / omega)) cw).
    2:{ destruct cw as [|r [|r' cw]]; simpl; auto. simpl in L; subst. rewrite <- L; reflexivity. }
    clear L O. induction cw as [|r cw IH]; simpl; auto. f_equal; auto.
    rewrite maxabs_scale. apply unit_scale_max; auto. apply maxabs_nonneg.
  - cbn [map scale_rows]. cbv zeta. rewrite maxabs_mat_scale. apply unit_scale_max; auto.
    apply maxabs_mat_nonneg.
Qed.

(** ** Remapping *)
Lemma get_weights_shape c t : wf c t -> shape (c_out c) (c_in c) (fst (get_weights c true t))
  /\ bias_ok c (snd (get_weights c true t)).
Proof.
  intros W. rewrite get_weights_oex by auto. destruct (separate_shape c t W) as [[S1 S2] B].
  destruct (get_scales_oex c t W) as [_ O]. pose proof (oex_length _ _ O) as OL.
  simpl. split.
  - split.
    + unfold rows_scaled; rewrite map2_length; lia.
    + clear -S2. generalize (oex (c_out c) (get_scales t)). induction S2; intros [|a u]; simpl; constructor; auto.
      now rewrite map_length.
  - pose proof (wf_bias _ _ W) as WB.
    unfold bias_ok, separate_weights, analog_bias, digital_bias in *.
    destruct (c_bias c), (c_digital c); simpl in *; auto.
    + destruct WB as [b [-> Hb]]; auto.
    + split; auto. rewrite map2_length, map_length, OL.
      pose proof (wf_w _ _ W) as [Lw _]. lia.
Qed.

Lemma remap_lemma c t o : wf c t -> c_mapping c = true -> 0 < omega_of c o ->
  exists t', remap_weights c o t = Ok t' /\ wf c t' /\ get_weights c true t' = get_weights c true t.
Proof.
  intros W M Ho. unfold remap_weights.
  destruct (get_weights_shape c t W) as [S B].
  destruct (get_weights c true t) as [w b] eqn:E. simpl in *.
  destruct (set_get_scaled c t w b o W S B M Ho) as (t' & E1 & W' & E2 & _).
  exists t'. split; auto. split; auto. rewrite E2. f_equal.
  assert (Eb : b = snd (get_weights c true t)) by (rewrite E; auto).
  rewrite get_weights_oex in Eb by auto. simpl in Eb.
  pose proof (wf_bias _ _ W) as WB.
  unfold bias_ok, separate_weights, analog_bias, digital_bias in *.
  destruct (c_bias c), (c_digital c); simpl in *; auto; subst; auto.
  destruct (t_bias t); auto.
Qed.

(** ** Forward *)
Definition affine (w : mat) (b : option vec) (x : vec) : vec :=
  match b with Some v => vadd (matvec w x) v | None => matvec w x end.

Lemma clip_input_id ir x : (forall v, In v x -> Rabs v <= Rabs ir) -> clip_input ir x = x.
Proof.
  intros H. unfold clip_input. rewrite <- (map_id x) at 2. apply map_ext_in. intros v Hv.
  apply clampR_id. apply H in Hv. mm.
Qed.
Lemma matvec_scale_in w k x : matvec w (map (Rmult k) x) = map (Rmult k) (matvec w x).
Proof. unfold matvec. rewrite map_map. apply map_ext. intros; apply dot_scale_r. Qed.
Lemma matvec_rows_scaled v m x : matvec (rows_scaled v m) x = map2 Rmult v (matvec m x).
Proof.
  unfold matvec, rows_scaled. rewrite map_map2, map2_map_r. apply map2_ext_in. intros; apply dot_scale_l.
Qed.
Lemma map2_assoc3 a b y : map2 Rmult a (map2 Rmult b y) = map2 Rmult (map2 Rmult b a) y.
Proof.
  revert b y; induction a as [|x a IH]; intros [|z b] [|u y]; cbn [map2]; auto.
  f_equal; [lra | apply IH].
Qed.
Lemma oscale n o y : ook n o -> length y = n ->
  match o with Some v => scale_vec v y | None => y end = map2 Rmult (oex n o) y.
Proof.
  intros O L. destruct o; simpl; [apply scale_vec_ex; auto | symmetry; now apply map2_ones].
Qed.
Lemma dot_snoc r b x : length r = length x -> dot (r ++ [b]) (x ++ [1]) = dot r x + b.
Proof. intros; rewrite dot_app by auto. simpl. lra. Qed.
Lemma matvec_bias m (x : vec) : Forall (fun r => length r = S (length x)) m ->
  matvec m (x ++ [1]) = vadd (matvec (map (fun r => removelast r) m) x) (map (fun r => last r 0) m).
Proof.
  induction 1 as [|r m Hr F IH]; simpl; auto. unfold vadd in *. cbn [map2]. f_equal; auto.
  destruct r as [|a r]; [discriminate|].
  rewrite (app_removelast_last 0 (l := a :: r)) at 1 by discriminate.
  apply dot_snoc.
  assert (E : a :: r = removelast (a :: r) ++ [last (a :: r) 0]) by (apply app_removelast_last; discriminate).
  rewrite E, app_length in Hr. simpl length in Hr at 2. lia.
Qed.
Lemma vmul_vadd a y z : map2 Rmult a (vadd y z) = vadd (map2 Rmult a y) (map2 Rmult a z).
Proof.
  unfold vadd. revert y z; induction a as [|x a IH]; intros [|u y] [|v z]; cbn [map2]; auto.
  f_equal; [lra | apply IH].
Qed.

Lemma forward_lemma c t x :
  wf c t -> length x = c_in c ->
  match t_ir t with
  | None => True
  | Some ir => 0 < ir /\ (forall v, In v x -> Rabs v <= ir) /\ analog_bias c = false
  end ->
  forward c t x = affine (fst (get_weights c true t)) (snd (get_weights c true t)) x.
Proof.
  intros W Lx Hir. rewrite get_weights_oex by auto. simpl fst; simpl snd.
  destruct (get_scales_oex c t W) as [GX GO].
  destruct (separate_shape c t W) as [[S1 S2] SB].
  pose proof (wf_ms _ _ W) as Oms. pose proof (wf_los _ _ W) as Olos.
  destruct (wf_w _ _ W) as [WL WF].
  set (n := c_out c) in *.
  (* joint forward *)
  assert (J : joint_forward c t x = map2 Rmult (oex n (ms_val t)) (tile_forward c (t_w t) x)).
  { unfold joint_forward, pre_forward, post_forward.
    destruct (t_ir t) as [ir|].
    - destruct Hir as (Hi & Hb & A).
      rewrite clip_input_id by (intros; rewrite (Rabs_pos_eq ir) by lra; auto).
      unfold tile_forward. rewrite A.
      replace (map (fun v => v / ir) x) with (map (Rmult (/ ir)) x) by (apply map_ext; intros; unfold Rdiv; lra).
      rewrite matvec_scale_in.
      destruct (ms_val t) as [m|] eqn:Em.
      + rewrite (scale_vec_ex n) by (auto using okl_map; rewrite map_length, matvec_length; auto).
        rewrite ex_map, map2_map_l, map2_map_r. simpl.
        apply map2_ext_in; intros; field; lra.
      + rewrite map_map. simpl. rewrite map2_ones by (now rewrite matvec_length).
        rewrite <- (map_id (matvec (t_w t) x)) at 2. apply map_ext; intros; field; lra.
    - destruct (ms_val t) as [m|] eqn:Em; simpl.
      + apply scale_vec_ex; auto. unfold tile_forward; now rewrite matvec_length.
      + rewrite map2_ones; auto. unfold tile_forward; now rewrite matvec_length. }
  assert (TL : length (tile_forward c (t_w t) x) = n) by (unfold tile_forward; rewrite matvec_length; auto).
  assert (K : (match t_los t with Some l => scale_vec l (joint_forward c t x) | None => joint_forward c t x end)
     = map2 Rmult (oex n (get_scales t)) (tile_forward c (t_w t) x)).
  { rewrite (oscale n); auto.
    - rewrite J, map2_assoc3, GX. reflexivity.
    - rewrite J, map2_length, oex_length; auto. lia. }
  unfold forward. rewrite K. rewrite matvec_rows_scaled || idtac.
  unfold affine.
  pose proof (wf_bias _ _ W) as WB.
  destruct (analog_bias c) eqn:A.
  - rewrite (analog_not_digital c A) in *. rewrite WB. simpl.
    unfold separate_weights, tile_forward; rewrite A; simpl.
    rewrite matvec_rows_scaled. rewrite matvec_bias.
    + apply vmul_vadd.
    + unfold xs in WF; rewrite A in WF. rewrite Lx; auto.
  - unfold separate_weights, tile_forward; rewrite A; simpl. 
    destruct (digital_bias c).
    + destruct WB as [b [-> Hb]]. now rewrite matvec_rows_scaled.
    + rewrite WB. simpl. now rewrite matvec_rows_scaled.
Qed.

(** with an analog bias and an input range the bias is multiplied by the range *)
Lemma forward_analog_bias_ir c t x ir :
  wf c t -> length x = c_in c -> t_ir t = Some ir -> 0 < ir ->
  (forall v, In v x -> Rabs v <= ir) -> analog_bias c = true ->
  forward c t x = affine (fst (get_weights c true t)) (option_map (map (Rmult ir)) (snd (get_weights c true t))) x.
Proof.
  intros W Lx Eir Hi Hb A. rewrite get_weights_oex by auto. simpl fst; simpl snd.
  destruct (get_scales_oex c t W) as [GX GO].
  pose proof (wf_ms _ _ W) as Oms. pose proof (wf_los _ _ W) as Olos.
  destruct (wf_w _ _ W) as [WL WF].
  set (n := c_out c) in *.
  pose proof (wf_bias _ _ W) as WB. rewrite (analog_not_digital c A) in *.
  unfold xs in WF; rewrite A in WF.
  set (y := vadd (matvec (map (fun r => removelast r) (t_w t)) x) (map (Rmult ir) (map (fun r => last r 0) (t_w t)))).
  assert (Ly : length y = n).
  { unfold y, vadd; rewrite map2_length, matvec_length, !map_length; lia. }
  assert (T : map (Rmult ir) (tile_forward c (t_w t) (map (fun v => v / ir) x)) = y).
  { unfold tile_forward; rewrite A. rewrite matvec_bias by (rewrite map_length, Lx; auto).
    replace (map (fun v => v / ir) x) with (map (Rmult (/ ir)) x) by (apply map_ext; intros; unfold Rdiv; lra).
    rewrite matvec_scale_in. unfold y, vadd.
    generalize (map (fun r : list R => last r 0) (t_w t)) as bb.
    generalize (matvec (map (fun r : list R => removelast r) (t_w t)) x) as yy.
    intros yy bb. rewrite map_map2, map2_map_l, map2_map_r.
    apply map2_ext_in; intros; field; lra. }
  assert (J : joint_forward c t x = map2 Rmult (oex n (ms_val t)) y).
  { unfold joint_forward, pre_forward, post_forward. rewrite Eir.
    rewrite clip_input_id by (intros; rewrite (Rabs_pos_eq ir) by lra; auto).
    destruct (ms_val t) as [m|] eqn:Em; simpl.
    - rewrite (scale_vec_ex n); auto using okl_map.
      + rewrite ex_map, map2_map_l, <- T, map2_map_r. apply map2_ext_in; intros; lra.
      + unfold tile_forward; now rewrite matvec_length.
    - rewrite T. now rewrite map2_ones. }
  unfold forward. rewrite (oscale n (t_los t)); auto.
  2:{ rewrite J, map2_length, oex_length; auto. lia. }
  rewrite J, map2_assoc3, <- GX, WB.
  unfold separate_weights; rewrite A; simpl. unfold y, affine. rewrite matvec_rows_scaled, vmul_vadd.
  f_equal. rewrite map_map2, map2_map_r. apply map2_ext_in; intros; lra.
Qed.
