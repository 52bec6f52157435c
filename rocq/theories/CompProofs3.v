(** * Compound devices: refresh of one sided devices *)
From Verif Require Import Prelude Rand DevModel DevSpec DevProofs PulseModel PulseSpec PulseProofs PulseProps CompModel CompSpec CompProofs CompProofs2.

Lemma dot_unit j : forall n a row, length row = n -> sumR (map2 Rmult row (map (fun k => if (k =? j)%nat then 1 else 0) (seq a n))) = if (a <=? j)%nat then nth (j - a) row 0 else 0.
Proof.
  induction n as [|n IH]; intros a [|v row] L; simpl in L; try discriminate.
  - cbn. destruct (a <=? j)%nat; [destruct (j - a)%nat; reflexivity | reflexivity].
  - cbn [seq map map2 sumR]. rewrite IH by lia. destruct (Nat.eqb_spec a j) as [-> | Ne].
    + rewrite Nat.leb_refl, Nat.sub_diag. destruct (Nat.leb_spec (S j) j); [lia|]. cbn. lra.
    + destruct (Nat.leb_spec a j), (Nat.leb_spec (S a) j); try lia; [|lra]. replace (j - a)%nat with (S (j - S a)) by lia. cbn [nth]. lra.
Qed.
Lemma read_unit w n j i : Forall (fun row : vec => length row = n) w -> nth i (map (fun row => sumR (map2 Rmult row (unit_vec n j))) w) 0 = at_ w i j.
Proof.
  intros F. unfold at_. destruct (nth_error w i) as [row|] eqn:E.
  - rewrite (nth_error_nth (map _ w) i 0 (x := sumR (map2 Rmult row (unit_vec n j)))) by (now rewrite nth_error_map, E). rewrite (nth_error_nth _ _ _ E).
    unfold unit_vec. rewrite dot_unit; [cbn; now rewrite Nat.sub_0_r|]. rewrite Forall_forall in F. apply F. eapply nth_error_In; eauto.
  - rewrite (nth_overflow (map _ w)) by (rewrite map_length; now apply nth_error_None). rewrite (nth_overflow w) by now apply nth_error_None. destruct j; reflexivity.
Qed.
Lemma map_seq_nth (f : nat -> R) n i : nth i (map f (seq 0 n)) 0 = if (i <? n)%nat then f i else 0.
Proof.
  destruct (Nat.ltb_spec i n).
  - rewrite (nth_indep _ 0 (f 0%nat)) by (rewrite map_length, seq_length; auto). now rewrite map_nth, seq_nth.
  - apply nth_overflow. rewrite map_length, seq_length. lia.
Qed.
Lemma unit_nth n j k : nth k (unit_vec n j) 0 = if ((k =? j) && (j <? n))%nat%bool then 1 else 0.
Proof.
  unfold unit_vec. rewrite map_seq_nth. destruct (Nat.eqb_spec k j) as [-> | Ne]; cbn [andb]; destruct (_ <? n)%nat; auto.
Qed.
Lemma repeat_dims n m (w : mat) : dims w = repeat n m -> Forall (fun row : vec => length row = n) w /\ length w = m.
Proof.
  revert m. induction w as [|r w IH]; intros [|m] E; simpl in E; try discriminate; [split; auto|]. injection E as E1 E2. destruct (IH m E2). simpl. split; auto.
Qed.
(** one pair of vectors written to a crossbar *)
Lemma all_same_dir (b : bool) (bs : list bool) : (forall a, List.In a bs -> a = b) -> bs = repeat b (length bs).
Proof. induction bs as [|a bs IH]; intros H; simpl; auto. f_equal; [apply H; simpl; auto | apply IH; intros; apply H; simpl; auto]. Qed.
Lemma uv_cell u mt lr x d dv dv' i j c : sensible u -> 0 < m_dwmin mt -> lr <> 0 -> stochastic u \/ 0 < lr -> yields (update_vector (init_upar u) mt lr x d dv) dv' -> cell_at (d_cells dv) i j = Some c ->
  exists n c', cell_at (d_cells dv') i j = Some c' /\ yields (pulses mt n (Rltb 0 (lr * nth j x 0 * nth i d 0)) c) c' /\ (lr * nth j x 0 * nth i d 0 = 0 -> n = 0%nat /\ c' = c) /\ (Z.of_nat n <= slots u lr (m_dwmin mt))%Z.
Proof.
  intros Hs Hg L Ht Y E. unfold update_vector in Y. apply yields_bind in Y as (l & Yl & Y). cbn [do_op] in Y. apply yields_bind in Y as (cs & Y & Ed). apply yields_ret in Ed. subst dv'.
  destruct (fold_pulses_at _ _ _ _ _ _ _ Y E) as (c' & E' & Yp). destruct (C60_direction u x d lr (m_dwmin mt) l i j Hs Hg L Ht Yl) as (D & Z & Nl).
  exists (length (pulses_at l i j)), c'. split; [exact E'|].
  assert (Eb : pulses_at l i j = repeat (Rltb 0 (lr * nth j x 0 * nth i d 0)) (length (pulses_at l i j))).
  { apply all_same_dir. intros a Ia. specialize (D a Ia). destruct a; symmetry; [apply Rltb_true; tauto|]. apply Rltb_false. apply Rnot_lt_le. intros H. destruct D as [_ D]. specialize (D H). discriminate. }
  split; [unfold pulses; rewrite <- Eb; exact Yp|]. split; [|exact Nl]. intros Z0. specialize (Z Z0). rewrite Z in *. split; [reflexivity|]. cbn [foldMM] in Yp. now apply yields_ret in Yp.
Qed.
Lemma uv_dims u mt lr x d dv dv' : yields (update_vector u mt lr x d dv) dv' -> dims (d_cells dv') = dims (d_cells dv).
Proof. apply update_vector_dims. Qed.
(** the reset of some rows of a column *)
Lemma reset_index_spec mt c c' : yields (reset_index mt c) c' -> was_reset mt c c'.
Proof.
  unfold reset_index, was_reset. intros Y. apply yields_bind in Y as (d & Yd & Y). apply yields_ret in Y. exists d. split; [|exact Y]. intros H. destruct (Rltb 0 (m_rstd mt)) eqn:E; [apply Rltb_true in E; lra | now apply yields_ret in Yd].
Qed.
Lemma reset_fold mt j : forall hits cs cs', NoDup hits -> yields (foldMM (fun cs i => upd_nth i (upd_nth j (reset_index mt)) cs) hits cs) cs' -> forall i j',
  match cell_at cs i j', cell_at cs' i j' with
  | Some c, Some c' => if ((j' =? j)%nat && existsb (Nat.eqb i) hits)%bool then was_reset mt c c' else c' = c
  | None, None => True
  | _, _ => False
  end.
Proof.
  induction hits as [|h hits IH]; intros cs cs' ND Y i j'; cbn [foldMM] in Y.
  - apply yields_ret in Y. subst. cbn [existsb]. rewrite Bool.andb_false_r. destruct (cell_at cs i j'); auto.
  - apply yields_bind in Y as (cs1 & Y1 & Y). inversion ND as [|? ? Nh ND']; subst. specialize (IH cs1 cs' ND' Y i j'). cbn [existsb].
    pose proof (upd_nth_at _ _ _ _ Y1 i) as N. unfold cell_at in *. destruct (nth_error cs i) as [row|], (nth_error cs1 i) as [row1|]; try contradiction; auto.
    destruct (Nat.eqb_spec i h) as [-> | Ne]; cbn [orb].
    + pose proof (upd_nth_at _ _ _ _ N j') as N2. assert (Eh : existsb (Nat.eqb h) hits = false).
      { apply Bool.not_true_is_false. intros Ex. apply existsb_exists in Ex as (z & Iz & Ez). apply Nat.eqb_eq in Ez. now subst. }
      rewrite Eh, Bool.andb_false_r in IH. rewrite Bool.andb_true_r. destruct (nth_error row j') as [c|], (nth_error row1 j') as [c1|]; try contradiction; auto.
      destruct (nth_error cs' h) as [row'|]; [destruct (nth_error row' j') as [c'|]|]; auto; subst. destruct (j' =? j)%nat; [now apply reset_index_spec | auto].
    + subst row1. exact IH.
Qed.
Lemma reset_indices_cell j hits p p' i j' c : NoDup hits -> yields (reset_indices j hits p) p' -> cell_at (d_cells (snd p)) i j' = Some c ->
  exists c', cell_at (d_cells (snd p')) i j' = Some c' /\ fst p' = fst p /\ if ((j' =? j)%nat && existsb (Nat.eqb i) hits)%bool then was_reset (fst p) c c' else c' = c.
Proof.
  intros ND Y E. unfold reset_indices in Y. destruct (persist (fst p)); [now apply yields_throw in Y|]. apply yields_bind in Y as (cs & Y & Ed). apply yields_ret in Ed. subst p'. cbn [fst snd d_cells with_cells].
  pose proof (reset_fold _ _ _ _ _ ND Y i j') as H. rewrite E in H. destruct (cell_at cs i j') as [c'|]; [|contradiction]. exists c'. auto.
Qed.
Lemma crit_spec r wp wm : refresh_crit r wp wm = true <-> needs_refresh r wp wm.
Proof.
  unfold refresh_crit, needs_refresh. destruct (Rltb wm wp) eqn:E; [apply Rltb_true in E | apply Rltb_false in E]; rewrite Bool.andb_true_iff, !Rltb_true; split; intros H; [left | destruct H as [H | H] | right | destruct H as [H | H]]; try tauto; try lra.
Qed.
(** what happens to the two cells of a cross point; [true] in [up] means that the written one gets
    up pulses *)
Definition refreshed (r : refr) (up : bool) (mm mp : meta) (cm cp cm' cp' : cell) : Prop :=
  (needs_refresh r (c_w cp) (c_w cm) -> exists cm0 cp0 n, was_reset mm cm cm0 /\ was_reset mp cp cp0 /\
     (c_w cm < c_w cp -> cm' = cm0 /\ yields (pulses mp n (negb up) cp0) cp') /\ (c_w cp = c_w cm -> cp' = cp0 /\ cm' = cm0) /\ (c_w cp < c_w cm -> cp' = cp0 /\ yields (pulses mm n (negb up) cm0) cm')) /\
  (~ needs_refresh r (c_w cp) (c_w cm) -> cm' = cm /\ cp' = cp).
(** a write of [refresh_col]: [P] holds for the direction of the pulses *)
Definition writes_dir (u : upar) (up : bool) : Prop := forall mt x d dv dv' i j c, 0 < m_dwmin mt -> 0 <= nth j x 0 * nth i d 0 -> yields (update_vector (init_upar u) mt (-1) x d dv) dv' -> cell_at (d_cells dv) i j = Some c ->
  exists n c', cell_at (d_cells dv') i j = Some c' /\ yields (pulses mt n (negb up) c) c' /\ (nth j x 0 * nth i d 0 = 0 -> c' = c).
Lemma writes_up u : sensible u -> stochastic u -> writes_dir u true.
Proof.
  intros Hs Ht mt x d dv dv' i j c Hg P Y E. destruct (uv_cell u mt (-1) x d dv dv' i j c Hs Hg ltac:(lra) (or_introl Ht) Y E) as (n & c' & E' & Yp & Z & _). exists n, c'. split; auto.
  assert (F : Rltb 0 (-1 * nth j x 0 * nth i d 0) = false) by (apply Rltb_false; rewrite Rmult_assoc; lra). rewrite F in Yp. split; auto. intros Z0. apply Z. rewrite Rmult_assoc, Z0. lra.
Qed.
Lemma writes_down u : sensible u -> dense u -> writes_dir u false.
Proof.
  intros Hs Ht mt x d dv dv' i j c Hg P Y E.
  assert (Y1 : yields (update_vector (init_upar u) mt 1 x d dv) dv').
  { unfold update_vector in *. apply yields_bind in Y as (l & Yl & Y). apply yields_bind. exists l. split; auto. apply C60_negative_lr_refuted; [destruct Ht as [Ht | Ht]; [left | right]; exact Ht | lra | ]. replace (- (1)) with (-1) by lra. exact Yl. }
  destruct (uv_cell u mt 1 x d dv dv' i j c Hs Hg R1_neq_R0 (or_intror Rlt_0_1) Y1 E) as (n & c' & E' & Yp & Z & _). exists n, c'. split; auto.
  destruct (Rltb 0 (1 * nth j x 0 * nth i d 0)) eqn:F; [split; auto; intros Z0; apply Z; rewrite Rmult_assoc, Z0; lra|]. apply Rltb_false in F. rewrite Rmult_assoc, Rmult_1_l in F. destruct (Z ltac:(rewrite Rmult_assoc; lra)) as [-> ->]. split; [constructor | auto].
Qed.
Definition st_cell (i j : nat) (p : part) : option cell := cell_at (d_cells (snd p)) i j.
Lemma filter_NoDup_seq (f : nat -> bool) n : NoDup (filter f (seq 0 n)).
Proof. apply NoDup_filter, seq_NoDup. Qed.
Lemma existsb_filter_seq (f : nat -> bool) n i : existsb (Nat.eqb i) (filter f (seq 0 n)) = (f i && (i <? n)%nat)%bool.
Proof.
  destruct (f i && (i <? n)%nat)%bool eqn:E.
  - apply existsb_exists. exists i. apply Bool.andb_true_iff in E as [E1 E2]. apply Nat.ltb_lt in E2. split; [apply filter_In; split; auto; apply in_seq; lia | apply Nat.eqb_refl].
  - apply Bool.not_true_is_false. intros Ex. apply existsb_exists in Ex as (z & Iz & Ez). apply Nat.eqb_eq in Ez. subst z. apply filter_In in Iz as [I1 I2]. apply in_seq in I1. rewrite I2 in E. cbn [andb] in E. apply Nat.ltb_ge in E. lia.
Qed.
Lemma cell_row_len cs i j c : cell_at cs i j = Some c -> (i < length cs)%nat.
Proof. unfold cell_at. destruct (nth_error cs i) eqn:E; [|discriminate]. intros _. apply nth_error_Some. congruence. Qed.
Lemma write_branch u up mt (any : bool) x d p p' i j c : writes_dir u up -> mt = fst p -> 0 < m_dwmin mt -> 0 <= nth j x 0 * nth i d 0 ->
  yields (if any then bindM (update_vector (init_upar u) (fst p) (-1) x d (snd p)) (fun d => Ret (fst p, d)) else Ret p) p' -> (any = false -> nth i d 0 = 0) -> cell_at (d_cells (snd p)) i j = Some c ->
  exists n c', cell_at (d_cells (snd p')) i j = Some c' /\ fst p' = fst p /\ yields (pulses mt n (negb up) c) c' /\ (nth j x 0 * nth i d 0 = 0 -> c' = c).
Proof.
  intros W -> Hg P Y A E. destruct any.
  - apply yields_bind in Y as (dv & Y & Ed). apply yields_ret in Ed. subst p'. cbn [fst snd]. destruct (W _ _ _ _ _ _ _ _ Hg P Y E) as (n & c' & E' & Yp & Z). exists n, c'. auto.
  - apply yields_ret in Y. subst p'. exists 0%nat, c. repeat split; auto. constructor.
Qed.
Lemma refresh_col_cell r u up n m st st' j i j' cm cp : ideal_read (rf_read r) -> rf_up r = init_upar u -> writes_dir u up ->
  0 < m_dwmin (fst (fst (fst st))) -> 0 < m_dwmin (fst (snd (fst st))) -> pdims (repeat n m) (fst (fst st)) -> pdims (repeat n m) (snd (fst st)) -> (j < n)%nat ->
  yields (refresh_col r st j) st' -> st_cell i j' (fst (fst st)) = Some cm -> st_cell i j' (snd (fst st)) = Some cp ->
  exists cm' cp', st_cell i j' (fst (fst st')) = Some cm' /\ st_cell i j' (snd (fst st')) = Some cp' /\ fst (fst (fst st')) = fst (fst (fst st)) /\ fst (snd (fst st')) = fst (snd (fst st)) /\
  if (j' =? j)%nat then refreshed r up (fst (fst (fst st))) (fst (snd (fst st))) cm cp cm' cp' else cm' = cm /\ cp' = cp.
Proof.
  destruct st as [[m0 p0] b]. cbn [fst snd]. unfold st_cell. intros IR U WD Gm Gp Dm Dp Lj Y Em Ep. unfold refresh_col in Y.
  assert (Rm : Forall (fun row : vec => length row = n) (vis (snd m0)) /\ length (vis (snd m0)) = m) by (apply repeat_dims; rewrite dims_vis; exact Dm).
  assert (Rp : Forall (fun row : vec => length row = n) (vis (snd p0)) /\ length (vis (snd p0)) = m) by (apply repeat_dims; rewrite dims_vis; exact Dp).
  destruct Rm as [Rm Lm]. destruct Rp as [Rp Lp]. assert (Lp' : length (d_cells (snd p0)) = m) by (unfold vis in Lp; now rewrite map_length in Lp).
  assert (Im : (i < m)%nat) by (rewrite <- Lp'; eapply cell_row_len; eauto).
  assert (X0 : length (nth 0 (d_cells (snd p0)) []) = n). { rewrite <- dims_nth. unfold pdims in Dp. rewrite Dp. destruct m; [lia|]. reflexivity. }
  rewrite X0, Lp' in Y. rewrite !IR in Y. clear X0. cbn [bindM] in Y.
  set (rp := map (fun row => sumR (map2 Rmult row (unit_vec n j))) (vis (snd p0))) in Y. set (rm := map (fun row => sumR (map2 Rmult row (unit_vec n j))) (vis (snd m0))) in Y.
  assert (Vp : forall a, nth a rp 0 = at_ (vis (snd p0)) a j) by (intros a; apply read_unit, Rp). assert (Vm : forall a, nth a rm 0 = at_ (vis (snd m0)) a j) by (intros a; apply read_unit, Rm).
  cbv zeta in Y. set (crit := fun a => refresh_crit r (nth a rp 0) (nth a rm 0)) in Y. set (hits := filter crit (seq 0 m)) in Y. rewrite U in Y.
  set (pv := map (fun a => if (crit a && Rltb (nth a rm 0) (nth a rp 0))%bool then nth a rp 0 - nth a rm 0 else 0) (seq 0 m)) in Y.
  set (mv := map (fun a => if (crit a && negb (Rltb (nth a rm 0) (nth a rp 0)))%bool then nth a rm 0 - nth a rp 0 else 0) (seq 0 m)) in Y.
  apply yields_bind in Y as (p1 & Y1 & Y). apply yields_bind in Y as (m1 & Y2 & Y). apply yields_bind in Y as (p2 & Y3 & Y). apply yields_bind in Y as (m2 & Y4 & Y). apply yields_ret in Y. subst st'. cbn [fst snd].
  assert (ND : NoDup hits) by apply filter_NoDup_seq.
  destruct (reset_indices_cell _ _ _ _ i j' cp ND Y1 Ep) as (cp0 & Ep0 & Mp & Rcp). destruct (reset_indices_cell _ _ _ _ i j' cm ND Y2 Em) as (cm0 & Em0 & Mm & Rcm).
  unfold hits in Rcp, Rcm. rewrite existsb_filter_seq in Rcp, Rcm. rewrite (proj2 (Nat.ltb_lt i m) Im), Bool.andb_true_r in Rcp, Rcm.
  assert (Pv : nth i pv 0 = if (crit i && Rltb (nth i rm 0) (nth i rp 0))%bool then nth i rp 0 - nth i rm 0 else 0) by (unfold pv; rewrite map_seq_nth; now rewrite (proj2 (Nat.ltb_lt i m) Im)).
  assert (Mv : nth i mv 0 = if (crit i && negb (Rltb (nth i rm 0) (nth i rp 0)))%bool then nth i rm 0 - nth i rp 0 else 0) by (unfold mv; rewrite map_seq_nth; now rewrite (proj2 (Nat.ltb_lt i m) Im)).
  assert (Pn : 0 <= nth i pv 0). { rewrite Pv. destruct (crit i); cbn [andb]; [|lra]. destruct (Rltb _ _) eqn:E; [apply Rltb_true in E; lra | lra]. }
  assert (Mn : 0 <= nth i mv 0). { rewrite Mv. destruct (crit i); cbn [andb]; [|lra]. destruct (Rltb _ _) eqn:E; cbn [negb]; [lra | apply Rltb_false in E; lra]. }
  assert (Xn : 0 <= nth j' (unit_vec n j) 0) by (rewrite unit_nth; match goal with |- 0 <= if ?b then _ else _ => destruct b end; lra).
  assert (Ih : crit i = true -> List.In i hits) by (intros C; apply filter_In; split; [apply in_seq; lia | exact C]).
  destruct (write_branch u up (fst p0) _ (unit_vec n j) pv p1 p2 i j' cp0 WD (eq_sym Mp) Gp (Rmult_le_pos _ _ Xn Pn) Y3) as (np & cp' & Ep' & Mp' & Wp & Zp); [|exact Ep0|].
  { intros A. rewrite Pv. destruct (crit i) eqn:C; cbn [andb]; auto. destruct (Rltb (nth i rm 0) (nth i rp 0)) eqn:E; auto. exfalso. assert (X : existsb (fun a => Rltb (nth a rm 0) (nth a rp 0)) hits = true) by (apply existsb_exists; exists i; split; auto). congruence. }
  destruct (write_branch u up (fst m0) _ (unit_vec n j) mv m1 m2 i j' cm0 WD (eq_sym Mm) Gm (Rmult_le_pos _ _ Xn Mn) Y4) as (nm & cm' & Em' & Mm' & Wm & Zm); [|exact Em0|].
  { intros A. rewrite Mv. destruct (crit i) eqn:C; cbn [andb]; auto. destruct (Rltb (nth i rm 0) (nth i rp 0)) eqn:E; cbn [negb]; auto. exfalso. assert (X : existsb (fun a => negb (Rltb (nth a rm 0) (nth a rp 0))) hits = true) by (apply existsb_exists; exists i; split; auto; now rewrite E). congruence. }
  exists cm', cp'. split; [exact Em'|]. split; [exact Ep'|]. split; [congruence|]. split; [congruence|].
  destruct (Nat.eqb_spec j' j) as [-> | Nj]; cbn [andb] in Rcp, Rcm.
  - rewrite unit_nth, Nat.eqb_refl, (proj2 (Nat.ltb_lt j n) Lj) in Zp, Zm. cbn [andb] in Zp, Zm.
    assert (Cw : nth i rp 0 = c_w cp /\ nth i rm 0 = c_w cm) by (rewrite Vp, Vm, !vis_at, Ep, Em; auto). destruct Cw as [Cp Cm].
    assert (Cr : crit i = true <-> needs_refresh r (c_w cp) (c_w cm)) by (unfold crit; rewrite Cp, Cm; apply crit_spec). rewrite Cp, Cm in *. unfold refreshed. split.
    + intros NR. apply Cr in NR. rewrite NR in *. cbn [andb] in *. exists cm0, cp0, (if Rltb (c_w cm) (c_w cp) then np else nm). split; [exact Rcm|]. split; [exact Rcp|]. repeat split.
      * apply Zm. rewrite Mv. rewrite (proj2 (Rltb_true (c_w cm) (c_w cp)) H). cbn [negb]. lra.
      * rewrite (proj2 (Rltb_true (c_w cm) (c_w cp)) H). exact Wp.
      * apply Zp. rewrite Pv. destruct (Rltb (c_w cm) (c_w cp)); lra.
      * apply Zm. rewrite Mv. destruct (Rltb (c_w cm) (c_w cp)); cbn [negb]; lra.
      * apply Zp. rewrite Pv. destruct (Rltb (c_w cm) (c_w cp)) eqn:E; [apply Rltb_true in E|]; lra.
      * destruct (Rltb (c_w cm) (c_w cp)) eqn:E; [apply Rltb_true in E; lra | exact Wm].
    + intros NR. assert (C : crit i = false) by (apply Bool.not_true_is_false; intros C; apply NR, Cr, C). rewrite C in *. cbn [andb] in *. split; [rewrite Zm; auto; rewrite Mv; lra | rewrite Zp; auto; rewrite Pv; lra].
  - rewrite unit_nth in Zp, Zm. destruct (Nat.eqb_spec j' j); [contradiction|]. cbn [andb] in Zp, Zm. split; [rewrite Zm; auto; lra | rewrite Zp; auto; lra].
Qed.
Lemma refresh_fold_cell r u up n m : ideal_read (rf_read r) -> rf_up r = init_upar u -> writes_dir u up -> forall js st st' i j cm cp, NoDup js -> (forall a, List.In a js -> (a < n)%nat) ->
  0 < m_dwmin (fst (fst (fst st))) -> 0 < m_dwmin (fst (snd (fst st))) -> pdims (repeat n m) (fst (fst st)) -> pdims (repeat n m) (snd (fst st)) ->
  yields (foldMM (refresh_col r) js st) st' -> st_cell i j (fst (fst st)) = Some cm -> st_cell i j (snd (fst st)) = Some cp ->
  exists cm' cp', st_cell i j (fst (fst st')) = Some cm' /\ st_cell i j (snd (fst st')) = Some cp' /\
  if existsb (Nat.eqb j) js then refreshed r up (fst (fst (fst st))) (fst (snd (fst st))) cm cp cm' cp' else cm' = cm /\ cp' = cp.
Proof.
  intros IR U WD. induction js as [|a js IH]; intros st st' i j cm cp ND In_ Gm Gp Dm Dp Y Em Ep; cbn [foldMM] in Y.
  - apply yields_ret in Y. subst. exists cm, cp. cbn [existsb]. auto.
  - apply yields_bind in Y as (s1 & Y1 & Y). inversion ND as [|? ? Na ND']; subst. assert (La : (a < n)%nat) by (apply In_; simpl; auto).
    destruct (refresh_col_cell r u up n m st s1 a i j cm cp IR U WD Gm Gp Dm Dp La Y1 Em Ep) as (cm1 & cp1 & Em1 & Ep1 & M1 & M2 & H1). destruct (refresh_col_dims _ _ _ _ _ Dm Dp Y1) as [D1 D2].
    assert (In' : forall b, List.In b js -> (b < n)%nat) by (intros; apply In_; simpl; auto).
    assert (G1 : 0 < m_dwmin (fst (fst (fst s1)))) by now rewrite M1. assert (G2 : 0 < m_dwmin (fst (snd (fst s1)))) by now rewrite M2.
    destruct (IH s1 st' i j cm1 cp1 ND' In' G1 G2 D1 D2 Y Em1 Ep1) as (cm' & cp' & Em' & Ep' & H2). unfold part in *; rewrite M1, M2 in H2.
    exists cm', cp'. split; [exact Em'|]. split; [exact Ep'|]. cbn [existsb]. destruct (Nat.eqb_spec j a) as [-> | Nj]; cbn [orb].
    + assert (Ex : existsb (Nat.eqb a) js = false). { apply Bool.not_true_is_false. intros Ex. apply existsb_exists in Ex as (z & Iz & Ez). apply Nat.eqb_eq in Ez. now subst. }
      rewrite Ex in H2. destruct H2 as [-> ->]. exact H1.
    + destruct H1 as [-> ->]. exact H2.
Qed.

(** Updates never fail *)
Lemma upd_nth_total {A} (f : A -> M A) : (forall a, total (f a)) -> forall n l, total (upd_nth n f l).
Proof.
  intros F. induction n as [|n IH]; intros [|a l]; cbn [upd_nth]; try apply total_ret.
  - apply total_bind; [apply F|]. intros; apply total_ret.
  - apply total_bind; [apply IH|]. intros; apply total_ret.
Qed.
Lemma pulses_op_total mt dv l : total (do_op mt dv (OPulses l)).
Proof.
  cbn [do_op]. apply total_bind; [|intros; apply total_ret]. apply total_foldMM. intros cs p _. unfold pulse_at. apply upd_nth_total. intros r. apply upd_nth_total. intros c. apply pulse_total.
Qed.
Lemma update_pulses_total u lr g x d : total (update_pulses u lr g x d).
Proof.
  unfold update_pulses. destruct (Reqb lr 0); [apply total_ret|].
  assert (S : total (sparse_update u lr g x d)).
  { unfold sparse_update. destruct (bl_ab_ok u x d (Rabs lr) g (Rabs_pos lr)) as (BL & A & B & E). rewrite E. cbn [liftR bindM]. destruct (BL =? 0)%Z; [apply total_ret|].
    apply total_bind; [apply total_mapMM; intros; apply train_total|]. intros xs _. apply total_bind; [apply total_mapMM; intros; apply train_total|]. intros; apply total_ret. }
  assert (Dn : total (dense_update u lr g x d)).
  { unfold dense_update. destruct (bl_ab_ok u x d (Rabs lr) g (Rabs_pos lr)) as (BL & A & B & E). rewrite E. cbn [liftR bindM].
    destruct (up_type u); repeat (apply total_bind; [apply total_mapMM; intros; (apply total_bind; [apply disc_total | intros; apply total_ret]) | intros ? _]); apply total_ret. }
  destruct (up_type u); assumption.
Qed.
Lemma update_vector_total u mt lr x d dv : total (update_vector u mt lr x d dv).
Proof. unfold update_vector. apply total_bind; [apply update_pulses_total|]. intros; apply pulses_op_total. Qed.
Lemma reset_indices_total j hits p : persist (fst p) = false -> total (reset_indices j hits p).
Proof.
  intros E. unfold reset_indices. rewrite E. apply total_bind; [|intros; apply total_ret]. apply total_foldMM. intros cs i _. apply upd_nth_total. intros r. apply upd_nth_total. intros c. unfold reset_index.
  apply total_bind; [|intros; apply total_ret]. destruct (Rltb _ _); [apply total_gauss; intros|]; apply total_ret.
Qed.
Lemma reset_indices_meta j hits p p' : yields (reset_indices j hits p) p' -> fst p' = fst p.
Proof. unfold reset_indices. destruct (persist _); intros Y; [now apply yields_throw in Y|]. apply yields_bind in Y as (cs & _ & Y). apply yields_ret in Y. now subst. Qed.
Lemma refresh_col_total r st j : ideal_read (rf_read r) -> persist (fst (fst (fst st))) = false -> persist (fst (snd (fst st))) = false ->
  total (refresh_col r st j) /\ forall st', yields (refresh_col r st j) st' -> fst (fst (fst st')) = fst (fst (fst st)) /\ fst (snd (fst st')) = fst (snd (fst st)).
Proof.
  destruct st as [[m0 p0] b]. cbn [fst snd]. intros IR Pm Pp. split.
  - unfold refresh_col. rewrite !IR. cbn [bindM]. cbv zeta. apply total_bind; [now apply reset_indices_total|]. intros p1 _. apply total_bind; [now apply reset_indices_total|]. intros m1 _.
    apply total_bind. { destruct (existsb _ _); [|apply total_ret]. apply total_bind; [apply update_vector_total | intros; apply total_ret]. } intros p2 _.
    apply total_bind. { destruct (existsb _ _); [|apply total_ret]. apply total_bind; [apply update_vector_total | intros; apply total_ret]. } intros; apply total_ret.
  - intros st' Y. unfold refresh_col in Y. rewrite !IR in Y. cbn [bindM] in Y. cbv zeta in Y. apply yields_bind in Y as (p1 & Y1 & Y). apply yields_bind in Y as (m1 & Y2 & Y). apply yields_bind in Y as (p2 & Y3 & Y). apply yields_bind in Y as (m2 & Y4 & Y). apply yields_ret in Y. subst st'. cbn [fst snd].
    apply reset_indices_meta in Y1. apply reset_indices_meta in Y2. rewrite <- Y1, <- Y2. split.
    + match type of Y4 with yields (if ?b then _ else _) _ => destruct b end; [apply yields_bind in Y4 as (d & _ & Y4)|]; apply yields_ret in Y4; now subst.
    + match type of Y3 with yields (if ?b then _ else _) _ => destruct b end; [apply yields_bind in Y3 as (d & _ & Y3)|]; apply yields_ret in Y3; now subst.
Qed.
Lemma refresh_fold_total r : ideal_read (rf_read r) -> forall js st, persist (fst (fst (fst st))) = false -> persist (fst (snd (fst st))) = false -> total (foldMM (refresh_col r) js st).
Proof.
  intros IR. induction js as [|j js IH]; intros st Pm Pp; cbn [foldMM]; [apply total_ret|]. destruct (refresh_col_total r st j IR Pm Pp) as [T M]. apply total_bind; [exact T|]. intros s1 Y. destruct (M _ Y) as [E1 E2]. unfold part in *; apply IH; [rewrite E1; exact Pm | rewrite E2; exact Pp].
Qed.
