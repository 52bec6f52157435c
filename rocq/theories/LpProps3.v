(** * C144 (limits), C145 learnable ranges, C146 state dictionaries *)
From Verif Require Import Prelude ConvModel QuantModel QuantSpec QuantProofs QuantProps LpModel LpSpec LpProofs LpProps2.
Local Open Scope nat_scope.

Definition man8 (e : est) : qman := {| m_cfg := cfg8 Asym false; m_est := Some e; m_cur := None; m_q := q_new; m_state := EstimateTrain; m_train := true |}.
Lemma man8_new e : man_new (cfg8 Asym false) e None = Ok (man8 e).
Proof. reflexivity. Qed.
Definition all8 (e : est) : managers := fun _ => man8 e.
Definition x1 (v : R) : mat := [[v]].
Example C144_nontrivial : exists f', calibrate_quant 3 [[(0, x1 1); (1, x1 2)]; [(0, x1 3)]] (all8 AllMinMax) = (f', None)
  /\ data_of 0 (concat [[(0, x1 1); (1, x1 2)]; [(0, x1 3)]]) = [x1 1; x1 3] /\ Forall (fits false 1) [x1 1; x1 3].
Proof. eexists. split; [reflexivity|]. split; [reflexivity|]. repeat constructor; discriminate. Qed.
(** "max_num_batches" is not the largest number of batches: one more is used *)
Theorem C144_more_than_max_refuted : ~ (forall max loader f i, m_cur (fst (calibrate_quant max loader f) i) = m_cur (fst (calibrate_quant max (firstn max loader) f) i)).
Proof. intros H. specialize (H 1 [[(0, x1 1)]; [(0, x1 3)]] (all8 CurrentMinMax) 0). cbn in H. injection H as H1 _. lra. Qed.
(** a quantizer without data in the calibration takes its range from the data of the inference *)
Theorem C144_idle_refuted : ~ (forall max loader f f' i x y m', calibrate_quant max loader f = (f', None) -> man_forward (f' i) x = Ok (y, m') -> m' = f' i).
Proof.
  intros H. destruct (calibrate_quant 1 [[(0, x1 1)]] (all8 CurrentMinMax)) as [f' o] eqn:E. assert (Ho : o = None) by (apply (f_equal snd) in E; exact (eq_sym E)). subst o.
  apply (f_equal fst) in E as Ef. cbn [fst] in Ef. pose proof (fun y m' => H _ _ _ _ 1 (x1 5) y m' E) as H1. rewrite <- Ef in H1. specialize (H1 _ _ eq_refl). discriminate.
Qed.
(** calibrating again with other data: with allminmax the old extremes are kept *)
Theorem C144_recalibration_refuted : ~ (forall max l1 l2 f f1 f2 i mns mxs, calibrate_quant max l1 f = (f1, None) -> calibrate_quant max l2 f1 = (f2, None) -> m_cur (f2 i) = Some (mns, mxs) ->
  extremes (qc_pc (m_cfg (f i))) 1 (data_of i (concat (firstn (max + 1) l2))) mns mxs).
Proof.
  intros H. destruct (calibrate_quant 1 [[(0, x1 9)]] (all8 AllMinMax)) as [f1 o1] eqn:E1. destruct (calibrate_quant 1 [[(0, x1 1)]] f1) as [f2 o2] eqn:E2.
  assert (Ho : o1 = None) by (apply (f_equal snd) in E1; exact (eq_sym E1)). subst o1. apply (f_equal fst) in E1 as Ef. cbn [fst] in Ef.
  assert (Ho : o2 = None) by (apply (f_equal snd) in E2; rewrite <- Ef in E2; exact (eq_sym E2)). subst o2. apply (f_equal fst) in E2 as Eg. rewrite <- Ef in Eg. cbn [fst] in Eg.
  pose proof (fun a b => H _ _ _ _ _ _ 0 a b E1 E2) as H1. rewrite <- Eg in H1. specialize (H1 _ _ eq_refl). destruct H1 as (_ & _ & K). destruct (K 0 ltac:(lia)) as (_ & (x & Hx & Hv) & _).
  cbn in Hx. destruct Hx as [<-|[]]. cbn in Hv. destruct Hv as [Hv|[]]. revert Hv. unfold Rmax. destruct (Rle_dec 9 1); lra.
Qed.

(** ** C145 *)
Definition is_step (o : uop) : bool := match o with UStep _ => true | _ => false end.
Definition is_learn (o : uop) : Prop := match o with ULearn => True | _ => False end.
Definition u_new (m : qman) : tman := {| u_man := m; u_req := false |}.
Definition u_run (u : tman) (ops : list uop) : tman := fold_left tman_step ops u.
Lemma step_req u o : ~ is_learn o -> u_req u = false -> u_req (tman_step u o) = false.
Proof.
  intros N H. destruct o; cbn; auto.
  - unfold tman_forward. destruct (m_est _); [|exact H]. destruct (_ && _ && _); [destruct (estimate _ _ _ _); exact H|]. destruct (man_forward _ _) as [[y m]|]; exact H.
  - exfalso. apply N. exact I.
  - destruct (man_reset _); auto.
  - rewrite H. exact H.
Qed.
(** without learn_ranges, ranges are not changed by an optimizer, whatever it holds *)
Theorem C145_not_learned c e m ops : man_new c e None = Ok m -> Forall (fun o => ~ is_learn o) ops ->
  u_run (u_new m) ops = u_run (u_new m) (filter (fun o => negb (is_step o)) ops).
Proof.
  intros _ F. unfold u_run. assert (H : u_req (u_new m) = false) by reflexivity. revert H. generalize (u_new m). induction ops as [|o r IH]; intros u H; [reflexivity|]. inversion F as [|? ? Fo Fr]; subst.
  cbn [filter]. destruct (is_step o) eqn:S; cbn [negb fold_left].
  - destruct o; try discriminate. cbn [tman_step]. rewrite H. apply IH; assumption.
  - apply IH; [exact Fr|]. apply step_req; assumption.
Qed.
(** ... and without optimizer steps and learn_ranges, it is the manager of C47 *)
Definition to_mop (o : uop) : list mop :=
  match o with UForward _ x => [MForward x] | UTrain b => [MTrain b] | UEstimate => [MEstimate] | UFix => [MFix] | ULearn => [MLearn] | UEstimateTrain => [MEstimateTrain] | UReset => [MReset] | UStep _ => [] end.
Theorem C145_same c e m ops : man_new c e None = Ok m -> Forall (fun o => ~ is_learn o) ops -> u_man (u_run (u_new m) ops) = fold_left man_step (flat_map to_mop ops) m.
Proof.
  intros _ F. unfold u_run. assert (G : forall u, u_req u = false -> u_man (fold_left tman_step ops u) = fold_left man_step (flat_map to_mop ops) (u_man u)); [|apply G; reflexivity].
  induction ops as [|o r IH]; intros u H; [reflexivity|]. inversion F as [|? ? Fo Fr]; subst. cbn [flat_map fold_left]. rewrite fold_left_app, IH; [|exact Fr|apply step_req; assumption]. f_equal.
  destruct o; cbn [tman_step to_mop fold_left man_step]; try reflexivity.
  - unfold tman_forward, man_forward. destruct (m_est (u_man u)) eqn:Ee; [|reflexivity]. rewrite H, andb_false_r. cbn [andb]. rewrite ?Ee.
    destruct (match m_state (u_man u) with Estimate => true | _ => _ end).
    + destruct (estimate _ _ _ _); [|reflexivity]. cbn [bind]. destruct (q_set _ _ _ _); [|reflexivity]. cbn [bind]. destruct (q_forward _ _ _); reflexivity.
    + destruct (q_forward _ _ _); reflexivity.
  - cbn. unfold fix_if, man_fix. destruct (initialized _); reflexivity.
  - exfalso. apply Fo. exact I.
  - destruct (man_reset _); reflexivity.
  - rewrite H. reflexivity.
Qed.
(** after learn_ranges the parameters are those given by the optimizer, and the output is the one of a quantizer with these parameters, in both modes *)
Definition learning_use (o : uop) : Prop := match o with UForward _ _ | UTrain _ | UStep _ => True | _ => False end.
(** the parameters after some steps *)
Definition stepped (ps : list qpar) (ops : list uop) : list qpar := fold_left (fun p o => match o with UStep q => if length q =? length p then q else p | _ => p end) ops ps.
Theorem C145_learned u ps ops : qs_par (m_q (u_man u)) = Some ps -> Forall learning_use ops ->
  let u' := u_run u (ULearn :: ops) in let q' := {| qs_par := Some (stepped ps ops); qs_signed := qs_signed (m_q (u_man u)) |} in
  m_q (u_man u') = q' /\ m_state (u_man u') = Learn
  /\ forall e, m_est (u_man u) = Some e -> forall g x, tman_forward g u' x = match q_forward (m_cfg (u_man u)) q' x with Ok y => Ok (y, u') | Raise e => Raise e end.
Proof.
  intros Hp F u' q'. subst u' q'. unfold u_run. cbn [fold_left tman_step]. unfold initialized. rewrite Hp.
  assert (G : forall v qs, m_state (u_man v) = Learn -> u_req v = true -> qs_par (m_q (u_man v)) = Some qs -> let v' := fold_left tman_step ops v in
    m_q (u_man v') = {| qs_par := Some (stepped qs ops); qs_signed := qs_signed (m_q (u_man v)) |} /\ m_state (u_man v') = Learn /\ m_est (u_man v') = m_est (u_man v) /\ m_cfg (u_man v') = m_cfg (u_man v)).
  { clear u ps Hp. induction ops as [|o r IH]; intros v qs St Rq Hq; cbn [fold_left stepped].
    - repeat split; try assumption. destruct (m_q (u_man v)) as [a b]. cbn in *. subst. reflexivity.
    - inversion F as [|? ? Fo Fr]; subst. specialize (IH Fr). destruct o; try contradiction; cbn [tman_step].
      + assert (E : match tman_forward grad v x with Ok (_, u') => u' | Raise _ => v end = v).
        { unfold tman_forward. destruct (m_est (u_man v)) eqn:Ee; [|reflexivity]. rewrite St. cbn [andb]. unfold man_forward. rewrite Ee, St. destruct (q_forward _ _ _); [|reflexivity]. cbn. destruct v. reflexivity. }
        rewrite E. apply IH; assumption.
      + apply (IH {| u_man := m_with_train (u_man v) b; u_req := u_req v |} qs); assumption.
      + rewrite Rq. rewrite Hq. unfold stepped. cbn [fold_left]. fold (stepped (if length ps =? length qs then ps else qs) r). rewrite (Nat.eqb_sym (length qs)). destruct (length ps =? length qs).
        * apply (IH {| u_man := m_with_q (u_man v) {| qs_par := Some ps; qs_signed := qs_signed (m_q (u_man v)) |}; u_req := true |} ps); auto.
        * apply (IH {| u_man := m_with_q (u_man v) {| qs_par := Some qs; qs_signed := qs_signed (m_q (u_man v)) |}; u_req := true |} qs); auto. }
  specialize (G {| u_man := m_with_state (u_man u) Learn; u_req := true |} ps eq_refl eq_refl Hp). cbv zeta in G. cbn [u_man m_with_state m_q m_est m_cfg] in G. destruct G as (G1 & G2 & G3 & G4).
  split; [exact G1|]. split; [exact G2|]. intros e He g x. unfold tman_forward, man_forward. rewrite G3, He, G2. cbn [andb]. rewrite G4, G1. destruct (q_forward _ _ _); [|reflexivity]. cbn. f_equal. f_equal. destruct (fold_left tman_step ops _). reflexivity.
Qed.
(** learn_ranges has no effect on a quantizer that has not seen data *)
Theorem C145_learn_uninitialized c e m : man_new c e None = Ok m -> u_run (u_new m) [ULearn] = u_new m.
Proof. intros [= <-]. reflexivity. Qed.
Definition u8 : tman := u_run (u_new (man8 AllMinMax)) [UForward true (x1 1)].
Definition par2 : qpar := {| qp_delta := 2%R; qp_zf := 0%R |}.
Example C145_nontrivial : exists p, qs_par (m_q (u_man u8)) = Some [p] /\ stepped [p] [UForward true (x1 1); UStep [par2]] = [par2].
Proof. eexists. split; reflexivity. Qed.
(** fix_ranges does not stop the learning *)
Theorem C145_fix_refuted : ~ (forall c e m ops ps, man_new c e None = Ok m -> let u := u_run (u_new m) (ops ++ [UFix]) in m_state (u_man u) = Fixed -> m_q (u_man (tman_step u (UStep ps))) = m_q (u_man u)).
Proof.
  intros H. specialize (H (cfg8 Asym false) AllMinMax _ [UForward true (x1 1); ULearn] [par2] eq_refl eq_refl).
  apply (f_equal (fun q => match qs_par q with Some [p] => qp_delta p | _ => 0%R end)) in H. cbn in H. unfold fix_min, fix_max, Rmin, Rmax in H. cbn in H. repeat match type of H with context [Rle_dec ?a ?b] => destruct (Rle_dec a b) end; lra.
Qed.
(** after learn_ranges, going back to estimation fails as long as gradients are recorded, until the ranges are reset *)
Theorem C145_estimate_refuted u x : initialized (m_q (u_man u)) = true -> m_est (u_man u) <> None -> batch_empty (qc_pc (m_cfg (u_man u))) x = false ->
  let u' := u_run u [ULearn; UEstimate] in exists er, tman_forward true u' x = Raise er.
Proof.
  intros Hi He Hx u'. subst u'. unfold u_run. cbn [fold_left tman_step]. rewrite Hi. unfold tman_forward. cbn [u_man u_req m_with_state m_est m_state m_cfg m_cur]. destruct (m_est (u_man u)) as [e|]; [|contradiction]. cbn [andb orb].
  destruct (estimate _ _ _ _) as [r|er]; eauto.
Qed.
Theorem C145_reset u ops m : man_reset (u_man (u_run u ops)) = Ok m -> u_run u (ops ++ [UReset]) = {| u_man := m; u_req := false |} /\ initialized (m_q m) = false /\ m_state m = EstimateTrain /\ m_cur m = None.
Proof.
  intros E. unfold u_run in *. rewrite fold_left_app. cbn [fold_left tman_step]. rewrite E. split; [reflexivity|]. unfold man_reset in E. destruct (m_est _); [|discriminate]. injection E as <-. repeat split.
Qed.

(** ** C146 *)
(** loading a saved manager into a newly made one: the same outputs in evaluation mode, if the saved one was not put into the state that always estimates *)
Theorem C146_roundtrip c e m0 m : man_new c e None = Ok m0 -> m_cfg m = c -> m_est m = Some e -> m_state m <> Estimate ->
  exists m', man_load false m0 (man_dict m) = Ok m' /\ forall x, man_forward (m_with_train m' false) x = match man_forward (m_with_train m false) x with Ok (y, _) => Ok (y, m_with_train m' false) | Raise er => Raise er end.
Proof.
  intros New Hc He Hs. injection New as <-. unfold man_load, man_dict. cbn [qs_signed m_q m_cur q_new z_signed z_cur z_par]. exists {| m_cfg := c; m_est := Some e; m_cur := m_cur m; m_q := m_q m; m_state := EstimateTrain; m_train := true |}.
  assert (Q : {| qs_par := qs_par (m_q m); qs_signed := qs_signed (m_q m) |} = m_q m) by (destruct (m_q m); reflexivity).
  split; [rewrite Q; destruct (qs_signed (m_q m)), (m_cur m); reflexivity|]. intros x. unfold man_forward. cbn [m_est m_state m_train m_with_train m_cfg m_q m_cur]. rewrite He, Hc.
  destruct (m_state m); try contradiction; destruct (q_forward _ _ _); reflexivity.
Qed.
(** a manager in its initial state of estimation is restored exactly: training can be continued *)
Theorem C146_resume c e m0 m : man_new c e None = Ok m0 -> m_cfg m = c -> m_est m = Some e -> m_state m = EstimateTrain -> m_train m = true -> man_load false m0 (man_dict m) = Ok m.
Proof.
  intros New Hc He Hs Ht. injection New as <-. destruct m as [c' e' cur q s t]. cbn in *. subst. unfold man_load, man_dict. cbn. destruct q as [p sg]. cbn. destruct sg, cur; reflexivity.
Qed.
Example C146_nontrivial : exists m0 m, man_new (cfg8 Asym false) AllMinMax None = Ok m0 /\ m = fold_left man_step [MForward (x1 1); MFix] m0 /\ m_cfg m = cfg8 Asym false /\ m_est m = Some AllMinMax /\ m_state m = Fixed /\ initialized (m_q m) = true.
Proof. eexists _, _. split; [reflexivity|]. split; [reflexivity|]. repeat split. Qed.
(** that the ranges are fixed is not saved: the loaded manager changes them in training mode *)
Theorem C146_fixed_refuted : ~ (forall c e m0 m m' x y m1, man_new c e None = Ok m0 -> m_cfg m = c -> m_est m = Some e -> m_state m = Fixed -> man_load false m0 (man_dict m) = Ok m' -> man_forward m' x = Ok (y, m1) -> m_cur m1 = m_cur m').
Proof.
  intros H. pose (m := fold_left man_step [MForward (x1 1); MFix] (man8 CurrentMinMax)).
  specialize (H (cfg8 Asym false) CurrentMinMax (man8 CurrentMinMax) m _ (x1 3) _ _ eq_refl eq_refl eq_refl eq_refl eq_refl eq_refl). cbn in H. injection H as H1 _. lra.
Qed.
(** a dictionary cannot be loaded into a manager whose ranges are learned, not even its own *)
Theorem C146_learned_refuted u m : initialized (m_q (u_man u)) = true -> let u' := u_run u [ULearn] in man_load (u_req u') (u_man u') (man_dict m) = Raise RuntimeError.
Proof. intros H. cbn. rewrite H. reflexivity. Qed.

Print Assumptions C144_more_than_max_refuted.
Print Assumptions C144_idle_refuted.
Print Assumptions C144_recalibration_refuted.
Print Assumptions C145_not_learned.
Print Assumptions C145_same.
Print Assumptions C145_learned.
Print Assumptions C145_learn_uninitialized.
Print Assumptions C145_fix_refuted.
Print Assumptions C145_estimate_refuted.
Print Assumptions C145_reset.
Print Assumptions C146_roundtrip.
Print Assumptions C146_resume.
Print Assumptions C146_fixed_refuted.
Print Assumptions C146_learned_refuted.
