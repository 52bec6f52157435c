(** * C144: calibrate_quantization_ranges *)
From Verif Require Import Prelude ConvModel QuantModel QuantSpec QuantProofs QuantProps LpModel LpSpec LpProofs.
Local Open Scope nat_scope.

(** the data that quantizer [i] was given in some calls *)
Definition data_of (i : nat) (l : list qcall) : list mat := map snd (filter (fun a : qcall => fst a =? i) l).
(** successive calls of one quantizer *)
Fixpoint feed (m : qman) (xs : list mat) : res qman := match xs with [] => Ok m | x :: r => p <- man_forward m x ;; feed (snd p) r end.

Lemma run_calls_feed l : forall f f', run_calls l f = (f', None) -> forall i, feed (f i) (data_of i l) = Ok (f' i).
Proof.
  induction l as [|[j x] r IH]; intros f f' E i; cbn in E; [injection E as <-; reflexivity|]. destruct (man_forward (f j) x) as [[y m]|e] eqn:Em; [|discriminate]. specialize (IH _ _ E i). unfold data_of. cbn [filter fst]. unfold mupd in IH.
  rewrite Nat.eqb_sym in IH. destruct (j =? i) eqn:Ej; [apply Nat.eqb_eq in Ej; subst; cbn [map snd feed]; rewrite Em; exact IH|exact IH].
Qed.
Lemma feed_app m xs ys : feed m (xs ++ ys) = (m1 <- feed m xs ;; feed m1 ys).
Proof. revert m. induction xs as [|x r IH]; intros m; [reflexivity|]. cbn. destruct (man_forward m x) as [[y m1]|e]; [apply IH|reflexivity]. Qed.
Lemma data_app i a b : data_of i (a ++ b) = data_of i a ++ data_of i b.
Proof. unfold data_of. rewrite filter_app, map_app. reflexivity. Qed.
Lemma run_batches_feed max l : forall k f f', run_batches max k l f = (f', None) -> forall i, feed (f i) (data_of i (concat (firstn (max + 1 - k) l))) = Ok (f' i).
Proof.
  induction l as [|b r IH]; intros k f f' E i; cbn [run_batches] in E; [injection E as <-; rewrite firstn_nil; reflexivity|]. destruct (Nat.lt_ge_cases max k) as [L|L].
  - assert (E' : (f, @None exn) = (f', None)) by (destruct (max <? k) eqn:M; [exact E|apply Nat.ltb_ge in M; lia]). injection E' as <-. replace (max + 1 - k) with 0 by lia. reflexivity.
  - assert (M : (max <? k) = false) by (apply Nat.ltb_ge; lia). try rewrite M in E. destruct (run_calls b f) as [f1 [e|]] eqn:Eb; [discriminate|]. replace (max + 1 - k) with (S (max + 1 - (k + 1))) by lia. cbn [firstn concat]. rewrite data_app, feed_app, (run_calls_feed _ _ _ Eb). cbn [bind]. apply IH. exact E.
Qed.
Lemma feed_keeps xs : forall m m', feed m xs = Ok m' -> m_state m' = m_state m /\ m_train m' = m_train m /\ m_cfg m' = m_cfg m /\ m_est m' = m_est m.
Proof.
  induction xs as [|x r IH]; intros m m' E; cbn in E; [injection E as <-; auto|]. destruct (man_forward m x) as [[y m1]|e] eqn:Em; [|discriminate]. cbn [bind snd] in E. apply IH in E. destruct (man_forward_keeps _ _ _ _ Em) as [K1 K2].
  assert (K3 : m_cfg m1 = m_cfg m /\ m_est m1 = m_est m).
  { unfold man_forward in Em. destruct (m_est m) eqn:Ee; [|discriminate]. destruct (match m_state m with Estimate => true | _ => _ end).
    - destruct (estimate _ _ _ _); [|discriminate]. cbn [bind] in Em. destruct (q_set _ _ _ _); [|discriminate]. cbn [bind] in Em. destruct (q_forward _ _ _); [|discriminate]. injection Em as _ <-. auto.
    - destruct (q_forward _ _ _); [|discriminate]. injection Em as _ <-. auto. }
  destruct E as (E1 & E2 & E3 & E4), K3 as [K3 K4]. repeat split; congruence.
Qed.
Lemma est_init m x y m' : m_state m = Estimate -> man_forward m x = Ok (y, m') -> initialized (m_q m') = true.
Proof.
  intros St E. unfold man_forward in E. destruct (m_est m); [|discriminate]. rewrite St in E. destruct (estimate _ _ _ _) as [r|]; [|discriminate]. cbn [bind] in E. destruct (q_set _ _ _ _) as [q|] eqn:Eq; [|discriminate]. cbn [bind] in E. destruct (q_forward _ _ _); [|discriminate]. injection E as _ <-.
  cbn. unfold q_set in Eq. destruct (negb _); [discriminate|]. destruct (_ && _); [discriminate|]. cbv zeta in Eq. destruct (Z.eqb _ 0); [discriminate|]. destruct (q_copy _ _) as [ps|]; [|discriminate]. injection Eq as <-. reflexivity.
Qed.
Lemma feed_init xs : forall m m', m_state m = Estimate -> feed m xs = Ok m' -> xs <> [] \/ initialized (m_q m) = true -> initialized (m_q m') = true.
Proof.
  induction xs as [|x r IH]; intros m m' St E H; cbn in E; [injection E as <-; destruct H; [contradiction|assumption]|]. destruct (man_forward m x) as [[y m1]|e] eqn:Em; [|discriminate]. cbn [bind snd] in E.
  pose proof (est_init _ _ _ _ St Em). destruct (man_forward_keeps _ _ _ _ Em) as [K1 _]. eapply IH; [|exact E|right; assumption]. congruence.
Qed.
(** which batches are used, and the state afterwards: quantizers that got data, or had ranges before, are fixed; the others still estimate *)
Theorem C144_state max loader f f' : calibrate_quant max loader f = (f', None) -> forall i, let xs := data_of i (concat (firstn (max + 1) loader)) in
  m_train (f' i) = false /\ (xs <> [] \/ initialized (m_q (f i)) = true -> m_state (f' i) = Fixed) /\ (xs = [] -> m_q (f' i) = m_q (f i) /\ (initialized (m_q (f i)) = false -> m_state (f' i) = Estimate)).
Proof.
  intros E i xs. unfold calibrate_quant in E. destruct (run_batches max 0 loader _) as [g [e|]] eqn:Er; [discriminate|]. injection E as <-. pose proof (run_batches_feed _ _ _ _ _ Er i) as F. cbv beta in F. rewrite Nat.sub_0_r in F. fold xs in F.
  destruct (feed_keeps _ _ _ F) as (K1 & K2 & _). cbn in K1, K2. unfold fix_if. split; [destruct (initialized _); exact K2|]. split.
  - intros H. rewrite (feed_init xs (m_with_train (m_with_state (f i) Estimate) false) (g i) eq_refl F H). reflexivity.
  - intros H. rewrite H in F. cbn in F. injection F as <-. cbn. split; [destruct (initialized _); reflexivity|]. intros ->. reflexivity.
Qed.
(** if it fails, all quantizers are left estimating, in evaluation mode *)
Theorem C144_failure max loader f f' e : calibrate_quant max loader f = (f', Some e) -> forall i, m_state (f' i) = Estimate /\ m_train (f' i) = false.
Proof.
  unfold calibrate_quant. set (g := fun i => m_with_train (m_with_state (f i) Estimate) false). assert (G : forall i, m_state (g i) = Estimate /\ m_train (g i) = false) by (intros i; split; reflexivity). generalize 0. revert G. generalize g. clear g.
  assert (C : forall b g, (forall i, m_state (g i) = Estimate /\ m_train (g i) = false) -> forall i, m_state (fst (run_calls b g) i) = Estimate /\ m_train (fst (run_calls b g) i) = false).
  { induction b as [|[j x] r IH]; intros g G i; cbn; [apply G|]. destruct (man_forward (g j) x) as [[y m]|er] eqn:Em; [|apply G]. apply IH. intros k. unfold mupd. destruct (k =? j); [|apply G]. destruct (man_forward_keeps _ _ _ _ Em) as [-> ->]. apply G. }
  induction loader as [|b r IH]; intros g G k; cbn [run_batches]; [intros Q; inversion Q|]. destruct (max <? k); [intros Q; inversion Q|]. pose proof (C b g G) as Cb. destruct (run_calls b g) as [f1 [er|]] eqn:Eb; cbn in Cb.
  - intros [= <- <-]. exact Cb.
  - apply IH. exact Cb.
Qed.
(** only the first max_num_batches + 1 batches matter ... *)
Theorem C144_batches max loader f : calibrate_quant max loader f = calibrate_quant max (firstn (max + 1) loader) f.
Proof.
  unfold calibrate_quant. replace (run_batches max 0 (firstn (max + 1) loader)) with (run_batches max 0 (firstn (max + 1 - 0) loader)) by (f_equal; f_equal; lia).
  assert (G : forall k g, run_batches max k (firstn (max + 1 - k) loader) g = run_batches max k loader g); [|rewrite G; reflexivity].
  induction loader as [|b r IH]; intros k g; [rewrite firstn_nil; reflexivity|]. destruct (Nat.lt_ge_cases max k) as [L|L].
  - replace (max + 1 - k) with 0 by lia. cbn [firstn run_batches]. apply Nat.ltb_lt in L. rewrite L. reflexivity.
  - replace (max + 1 - k) with (S (max + 1 - (k + 1))) by lia. cbn [firstn run_batches]. destruct (max <? k); [reflexivity|]. destruct (run_calls b g) as [f1 [er|]]; [reflexivity|apply IH].
Qed.
(** two managers that differ in state and mode only, both estimating *)
Definition alike (a b : qman) : Prop := m_cfg a = m_cfg b /\ m_est a = m_est b /\ m_cur a = m_cur b /\ m_q a = m_q b.
Definition estimates (m : qman) : Prop := m_state m = Estimate \/ m_state m = EstimateTrain /\ m_train m = true.
Lemma alike_forward a b x y a' : alike a b -> estimates a -> estimates b -> man_forward a x = Ok (y, a') -> exists b', man_forward b x = Ok (y, b') /\ alike a' b' /\ estimates b'.
Proof.
  intros (A1 & A2 & A3 & A4) Ea Eb E. unfold man_forward in *. rewrite <- A2. destruct (m_est a) as [e|] eqn:Ee; [|discriminate].
  replace (match m_state a with Estimate => true | EstimateTrain => m_train a | _ => false end) with true in E by (destruct Ea as [->|[-> ->]]; reflexivity).
  replace (match m_state b with Estimate => true | EstimateTrain => m_train b | _ => false end) with true by (destruct Eb as [->|[-> ->]]; reflexivity).
  rewrite <- A1, <- A3, <- A4. destruct (estimate _ _ _ _) as [r|]; [|discriminate]. cbn [bind] in *. destruct (q_set _ _ _ _) as [q|]; [|discriminate]. cbn [bind] in *. destruct (q_forward _ _ _) as [z|]; [|discriminate]. cbn [bind] in *. injection E as <- <-.
  eexists. split; [reflexivity|]. split; [repeat split; assumption|exact Eb].
Qed.
Lemma alike_feed xs : forall a b a', alike a b -> estimates a -> estimates b -> feed a xs = Ok a' -> alike a' (after b xs).
Proof.
  induction xs as [|x r IH]; intros a b a' A Ea Eb E; cbn in E; [injection E as <-; exact A|]. destruct (man_forward a x) as [[y a1]|] eqn:Em; [|discriminate]. cbn [bind snd] in E. destruct (alike_forward _ _ _ _ _ A Ea Eb Em) as (b1 & E1 & A1 & Eb1).
  unfold after. cbn [map fold_left man_step]. rewrite E1. apply (IH a1 b1 a' A1); [|exact Eb1|exact E]. destruct (man_forward_keeps _ _ _ _ Em) as [K1 K2]. unfold estimates. rewrite K1, K2. exact Ea.
Qed.
(** with allminmax, a new quantizer that is calibrated has afterwards exactly the range of the data it saw, and reproduces these data with at most half a step of error *)
Theorem C144_all_minmax max loader f f' i c n : calibrate_quant max loader f = (f', None) -> man_new c AllMinMax None = Ok (f i) -> q_sane c -> 2 <= qc_bits c -> 1 <= n ->
  let xs := data_of i (concat (firstn (max + 1) loader)) in xs <> [] -> Forall (fits (qc_pc c) n) xs ->
  exists mns mxs, extremes (qc_pc c) n xs mns mxs /\ forall x, List.In x xs -> exists y, man_forward (f' i) x = Ok (y, f' i)
  /\ forall a b, is_elem x a b -> (Rabs (elem y a b - elem x a b) <= step c (is_signed c mns) (lim mns a) (lim mxs a) / 2)%R.
Proof.
  intros E New Sn Hb Hn xs Nx Fx. destruct (C46_all_minmax c n xs (f i) Sn Hb Hn Nx Fx New) as (mns & mxs & Ex & K). exists mns, mxs. split; [exact Ex|]. intros x Hx. destruct (K x Hx) as (y & Ey & Err). exists y. split; [|exact Err].
  destruct (C144_state max loader f f' E i) as (T1 & S1 & _). specialize (S1 (or_introl Nx)). unfold calibrate_quant in E. destruct (run_batches max 0 loader _) as [g [e|]] eqn:Er; [discriminate|]. injection E as <-. cbv beta in *.
  pose proof (run_batches_feed _ _ _ _ _ Er i) as F. cbv beta in F. rewrite Nat.sub_0_r in F. fold xs in F. injection New as New.
  assert (A : alike (g i) (after (f i) xs)).
  { eapply alike_feed; [| | |exact F]; [repeat split|left; reflexivity|right; rewrite <- New; split; reflexivity]. }
  destruct A as (A1 & A2 & A3 & A4). unfold man_forward in *. cbn [m_est m_state m_train m_cfg m_q m_with_train] in Ey. unfold fix_if in *. destruct (initialized (m_q (g i))); [|exfalso; apply Nat.neq_succ_0 with 0; cbn in S1; destruct (feed_keeps _ _ _ F) as (K1 & _); cbn in K1; congruence].
  cbn [m_est m_state m_with_state m_cfg m_q]. rewrite A2, A1, A4. destruct (m_est (after (f i) xs)); [|discriminate].
  replace (match m_state (after (f i) xs) with Estimate => true | _ => false end) with false in Ey.
  - destruct (q_forward _ _ _); [|discriminate]. injection Ey as <-. reflexivity.
  - destruct (new_run c AllMinMax n Hb xs Fx (f i) ltac:(rewrite <- New; reflexivity)) as (_ & _ & St & _). rewrite St. reflexivity.
Qed.

Print Assumptions C144_state.
Print Assumptions C144_failure.
Print Assumptions C144_batches.
Print Assumptions C144_all_minmax.
