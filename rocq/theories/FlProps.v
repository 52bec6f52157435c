(** * C188-C190: the passes, the update and the decay of the floating point tile *)
From Verif Require Import Prelude CnnModel CnnProofs FlModel FlSpec FlProofs.
From Coq Require Import Lra.
Local Open Scope nat_scope.

Lemma set_vec tr tr' n k : set_feature tr (tensor_shape tr' [] n) k = tensor_shape tr [] k.
Proof. destruct tr, tr'; reflexivity. Qed.
Lemma set_ok xt dt batch n k : xt = dt \/ batch = [] -> set_feature dt (tensor_shape xt batch n) k = tensor_shape dt batch k.
Proof. intros [-> | ->]; [apply set_shape|apply set_vec]. Qed.
Lemma fwd_binding t batch X bias xt dt : 0 < inputs (f_xs t) bias ->
  forward_binding t (tensor_shape xt batch (inputs (f_xs t) bias)) X bias xt dt = Ok (set_feature dt (tensor_shape xt batch (inputs (f_xs t) bias)) (f_ds t), forward t X bias (elements batch) xt dt).
Proof.
  intros H. unfold forward_binding. destruct (tensor_shape xt batch (inputs (f_xs t) bias)) as [|a l] eqn:E; [destruct (shape_ne _ _ _ E)|]. rewrite <- E. cbv zeta. rewrite feature_shape, prod_shape, Nat.div_mul by lia. rewrite cols_inputs, Nat.eqb_refl. reflexivity.
Qed.
Lemma bwd_binding t batch D bias dt xt : 0 < f_ds t ->
  backward_binding t (tensor_shape dt batch (f_ds t)) D bias dt xt = Ok (set_feature xt (tensor_shape dt batch (f_ds t)) (inputs (f_xs t) bias), backward t D bias (elements batch) dt xt).
Proof.
  intros H. unfold backward_binding. destruct (tensor_shape dt batch (f_ds t)) as [|a l] eqn:E; [destruct (shape_ne _ _ _ E)|]. rewrite <- E. cbv zeta. rewrite feature_shape, prod_shape, Nat.div_mul by lia. rewrite cols_inputs, Nat.eqb_refl. reflexivity.
Qed.
(** the forward pass applies the weights to each sample (with an additional input of 1 for the bias), and returns a tensor
    with the same samples; both flags equal, or one sample only *)
Theorem C188_forward t batch X bias xt dt : 0 < inputs (f_xs t) bias -> xt = dt \/ batch = [] ->
  exists out, forward_binding t (tensor_shape xt batch (inputs (f_xs t) bias)) X bias xt dt = Ok (tensor_shape dt batch (f_ds t), out) /\ length out = elements (tensor_shape dt batch (f_ds t)) /\
    forall s o, s < elements batch -> o < f_ds t -> sample dt (f_ds t) (elements batch) out s o = (f_fa t * Sum (f_xs t) (fun i => weight t o i * input (f_xs t) bias xt (elements batch) X s i))%R.
Proof.
  intros H Hb. exists (forward t X bias (elements batch) xt dt). rewrite fwd_binding, set_ok by assumption. split; [reflexivity|]. change (elements (tensor_shape dt batch (f_ds t))) with (prod (tensor_shape dt batch (f_ds t))). rewrite prod_shape, forward_len. split; [reflexivity|].
  intros s o Hs Ho. apply forward_at; try assumption. unfold inputs in H. destruct bias; lia.
Qed.
(** the backward pass applies the transposed weights without the column of the bias *)
Theorem C188_backward t batch D bias dt xt : 0 < f_ds t -> xt = dt \/ batch = [] ->
  exists out, backward_binding t (tensor_shape dt batch (f_ds t)) D bias dt xt = Ok (tensor_shape xt batch (inputs (f_xs t) bias), out) /\ length out = elements (tensor_shape xt batch (inputs (f_xs t) bias)) /\
    forall s i, s < elements batch -> i < inputs (f_xs t) bias -> sample xt (inputs (f_xs t) bias) (elements batch) out s i = (f_ba t * Sum (f_ds t) (fun o => weight t o i * sample dt (f_ds t) (elements batch) D s o))%R.
Proof.
  intros H Hb. exists (backward t D bias (elements batch) dt xt). rewrite bwd_binding, set_ok by first [assumption | destruct Hb; [left; congruence | right; assumption]]. split; [reflexivity|]. change (elements (tensor_shape xt batch (inputs (f_xs t) bias))) with (prod (tensor_shape xt batch (inputs (f_xs t) bias))). rewrite prod_shape, backward_len. split; [reflexivity|].
  intros s o Hs Ho. apply backward_at; assumption.
Qed.
(** the number of features is checked *)
Theorem C188_refused t batch n X bias xt dt : (n <> inputs (f_xs t) bias -> forward_binding t (tensor_shape xt batch n) X bias xt dt = Raise RuntimeError) /\ (n <> f_ds t -> backward_binding t (tensor_shape dt batch n) X bias dt xt = Raise RuntimeError) /\
  forward_binding t [] X bias xt dt = Raise RuntimeError /\ backward_binding t [] X bias dt xt = Raise RuntimeError.
Proof.
  split; [|split; [|split; reflexivity]].
  - intros H. unfold forward_binding. destruct (tensor_shape xt batch n) as [|a l] eqn:E; [reflexivity|]. rewrite <- E. cbv zeta. rewrite feature_shape, cols_inputs. destruct (Nat.eqb_spec n (inputs (f_xs t) bias)); [contradiction|reflexivity].
  - intros H. unfold backward_binding. destruct (tensor_shape dt batch n) as [|a l] eqn:E; [reflexivity|]. rewrite <- E. cbv zeta. rewrite feature_shape. destruct (Nat.eqb_spec n (f_ds t)); [contradiction|reflexivity].
Qed.
(** but with only one of the flags, the tensor that is returned does not have the documented shape, and more numbers are
    written than it has room for as soon as there are more samples than features *)
Theorem C188_mixed_refuted t n X bias xt dt : xt <> dt -> 0 < inputs (f_xs t) bias -> n <> inputs (f_xs t) bias ->
  exists sh out, forward_binding t (tensor_shape xt [n] (inputs (f_xs t) bias)) X bias xt dt = Ok (sh, out) /\ sh <> tensor_shape dt [n] (f_ds t) /\ sh = tensor_shape dt [inputs (f_xs t) bias] (f_ds t) /\
    length out = n * f_ds t /\ (inputs (f_xs t) bias < n -> 0 < f_ds t -> elements sh < length out).
Proof.
  intros Hf H Hn. eexists _, _. split; [apply fwd_binding; assumption|]. rewrite forward_len. change (elements [n]) with (n * 1). rewrite Nat.mul_1_r. split; [|split; [|split; [reflexivity|]]].
  - destruct xt, dt; try congruence; cbn; intros E; injection E; intros; congruence.
  - destruct xt, dt; try congruence; reflexivity.
  - intros H1 H2. destruct xt, dt; try congruence; cbn; nia.
Qed.
Theorem C188_nontrivial : exists t X out, f_xs t = 3 /\ f_ds t = 1 /\ forward_binding t [2; 2] X true false false = Ok ([2; 1], out) /\ out = [ (1 * 5 + 2 * 6 + 3)%R ; (1 * 7 + 2 * 8 + 3)%R ].
Proof.
  exists {| f_xs := 3; f_ds := 1; f_w := [1; 2; 3]%R; f_lr := 1%R; f_fa := 1%R; f_ba := 1%R; f_delta := None |}, [5; 6; 7; 8]%R. eexists. split; [reflexivity|]. split; [reflexivity|]. split; [reflexivity|].
  unfold forward, forward_matrix, gemm, grid, Sum, el, tab, make_bias. cbn. f_equal; [lra|f_equal; lra].
Qed.

(** ** Update *)
Lemma upd_binding t bx bd X D bias xt dt : f_lr t <> 0%R -> 0 < inputs (f_xs t) bias -> 0 < f_ds t -> elements bx = elements bd ->
  update_binding t (tensor_shape xt bx (inputs (f_xs t) bias)) X (tensor_shape dt bd (f_ds t)) D bias xt dt = Ok (update t X D bias (elements bx) xt dt).
Proof.
  intros Hl H H' He. unfold update_binding. replace (Reqb (f_lr t) 0) with false by (symmetry; apply Reqb_false; exact Hl).
  destruct (tensor_shape xt bx (inputs (f_xs t) bias)) as [|a l] eqn:E; [destruct (shape_ne _ _ _ E)|]. destruct (tensor_shape dt bd (f_ds t)) as [|a' l'] eqn:E'; [destruct (shape_ne _ _ _ E')|]. rewrite <- E, <- E'. cbv zeta. rewrite !feature_shape, !prod_shape, !Nat.div_mul by lia. rewrite cols_inputs, !Nat.eqb_refl. cbn [negb]. rewrite He, Nat.eqb_refl. reflexivity.
Qed.
Lemma update_at t X D bias m xt dt : 0 < f_xs t ->
  exists v, update t X D bias m xt dt = put_up t v /\ length v = f_ds t * f_xs t /\ forall o i, o < f_ds t -> i < f_xs t -> el v (o * f_xs t + i) = (up_beta t * el (up_weights t) (o * f_xs t + i) - alpha_lr t * outer t bias xt dt m X D o i)%R.
Proof.
  intros H.
  assert (M : forall Y m' xt' dt', (forall s i, s < m' -> i < f_xs t -> sample xt' (f_xs t) m' Y s i = input (f_xs t) bias xt' m' X s i) ->
    exists v, update_matrix t Y D m' xt' dt' = put_up t v /\ length v = f_ds t * f_xs t /\ forall o i, o < f_ds t -> i < f_xs t -> el v (o * f_xs t + i) = (up_beta t * el (up_weights t) (o * f_xs t + i) - alpha_lr t * outer t bias xt' dt' m' X D o i)%R).
  { intros Y m' xt' dt' HY. eexists. split; [reflexivity|]. split; [apply grid_len|]. intros o i Ho Hi. rewrite gemm_at by assumption. unfold outer.
    assert (S : Sum m' (fun k => (el D (if negb dt' then k * (if dt' then m' else f_ds t) + o else o * (if dt' then m' else f_ds t) + k) * el Y (if xt' then i * (if xt' then m' else f_xs t) + k else k * (if xt' then m' else f_xs t) + i))%R) = Sum m' (fun s => (sample dt' (f_ds t) m' D s o * input (f_xs t) bias xt' m' X s i)%R)).
    { apply Sum_ext. intros k Hk. rewrite <- HY by assumption. unfold sample, el. destruct dt', xt'; reflexivity. }
    rewrite S. lra. }
  unfold update. destruct ((m =? 1) && negb xt && negb dt)%bool eqn:E.
  - apply andb_prop in E. destruct E as [E Ed]. apply andb_prop in E. destruct E as [Em Ex]. apply Nat.eqb_eq in Em. destruct xt, dt; try discriminate. subst m.
    assert (V : forall s i, s < 1 -> i < f_xs t -> sample false (f_xs t) 1 (if bias then (tab (f_xs t - 1) (el X) ++ [1%R])%list else X) s i = input (f_xs t) bias false 1 X s i).
    { intros s i Hs Hi. assert (s = 0) by lia. subst s. apply (vec_input (f_xs t) X bias i); assumption. }
    unfold update_vector. destruct (f_delta t) as [d|] eqn:Ed'; [exact (M _ _ _ _ V)|]. eexists. split; [reflexivity|]. split; [apply grid_len|]. intros o i Ho Hi. unfold ger. rewrite grid_el by assumption.
    unfold up_beta. rewrite Ed'. unfold outer, Sum. cbn [seq map sumR]. rewrite <- (V 0 i) by (try lia; assumption). unfold sample at 1 2. cbn [Nat.mul Nat.add]. unfold el. cbn. lra.
  - apply M. intros s i Hs Hi. apply input_eq; assumption.
Qed.
(** an update subtracts the outer products of all samples times the learning rate, and changes nothing else *)
Theorem C189_update t bx bd X D bias xt dt : f_lr t <> 0%R -> f_delta t = None -> 0 < inputs (f_xs t) bias -> 0 < f_ds t -> elements bx = elements bd ->
  exists t', update_binding t (tensor_shape xt bx (inputs (f_xs t) bias)) X (tensor_shape dt bd (f_ds t)) D bias xt dt = Ok t' /\ length (f_w t') = f_ds t * f_xs t /\
    (forall o i, o < f_ds t -> i < f_xs t -> weight t' o i = (weight t o i - f_lr t / f_ba t * outer t bias xt dt (elements bx) X D o i)%R) /\
    f_xs t' = f_xs t /\ f_ds t' = f_ds t /\ f_lr t' = f_lr t /\ f_fa t' = f_fa t /\ f_ba t' = f_ba t /\ f_delta t' = None.
Proof.
  intros Hl Hd H H' He. rewrite upd_binding by assumption. destruct (update_at t X D bias (elements bx) xt dt) as (v & -> & L & V); [unfold inputs in H; destruct bias; lia|].
  eexists. split; [reflexivity|]. unfold put_up. rewrite Hd. cbn [f_xs f_ds f_w f_lr f_fa f_ba f_delta]. split; [exact L|]. split; [|repeat split].
  intros o i Ho Hi. unfold weight. cbn [f_xs f_w]. specialize (V o i Ho Hi). unfold el in V. rewrite V. unfold up_beta, up_weights, alpha_lr. rewrite Hd. lra.
Qed.
(** the gradient of hardware-aware training: the outer products, whatever the learning rate and the contents of the new
    tensor; the tile keeps its weights *)
Theorem C189_gradient t junk bx bd X D bias xt dt : f_lr t <> 0%R -> f_delta t = None -> 0 < inputs (f_xs t) bias -> 0 < f_ds t -> elements bx = elements bd ->
  exists g, weight_grad t junk (tensor_shape xt bx (inputs (f_xs t) bias)) X (tensor_shape dt bd (f_ds t)) D bias xt dt = Ok (g, t) /\ length g = f_ds t * f_xs t /\
    forall o i, o < f_ds t -> i < f_xs t -> nth (o * f_xs t + i) g 0%R = (/ f_ba t * outer t bias xt dt (elements bx) X D o i)%R.
Proof.
  intros Hl Hd H H' He. unfold weight_grad. rewrite (upd_binding (set_delta t (Some junk))) by assumption. destruct (update_at (set_delta t (Some junk)) X D bias (elements bx) xt dt) as (v & -> & L & V); [unfold inputs in H; cbn; destruct bias; lia|].
  cbn [bind]. exists v. unfold put_up, set_delta, up_weights. cbn [f_xs f_ds f_w f_lr f_fa f_ba f_delta]. split; [destruct t; cbn in Hd |- *; subst; reflexivity|]. split; [exact L|].
  intros o i Ho Hi. specialize (V o i Ho Hi). unfold up_beta, up_weights, alpha_lr, set_delta in V. cbn [f_xs f_ds f_w f_lr f_fa f_ba f_delta] in V. unfold el in V. rewrite V. change (outer {| f_xs := f_xs t; f_ds := f_ds t; f_w := f_w t; f_lr := f_lr t; f_fa := f_fa t; f_ba := f_ba t; f_delta := Some junk |} bias xt dt (elements bx) X D o i) with (outer t bias xt dt (elements bx) X D o i). unfold Rdiv. lra.
Qed.
(** tensors that do not fit are refused *)
Theorem C189_refused t bx bd n k X D bias xt dt : f_lr t <> 0%R -> 0 < n -> 0 < k -> n <> inputs (f_xs t) bias \/ k <> f_ds t \/ elements bx <> elements bd ->
  update_binding t (tensor_shape xt bx n) X (tensor_shape dt bd k) D bias xt dt = Raise RuntimeError.
Proof.
  intros Hl Hn Hk H. unfold update_binding. replace (Reqb (f_lr t) 0) with false by (symmetry; apply Reqb_false; exact Hl).
  destruct (tensor_shape xt bx n) as [|a l] eqn:E; [destruct (shape_ne _ _ _ E)|]. destruct (tensor_shape dt bd k) as [|a' l'] eqn:E'; [destruct (shape_ne _ _ _ E')|]. rewrite <- E, <- E'. cbv zeta. rewrite !feature_shape, !prod_shape, !Nat.div_mul by lia. rewrite cols_inputs.
  destruct (Nat.eqb_spec n (inputs (f_xs t) bias)); [|reflexivity]. destruct (Nat.eqb_spec k (f_ds t)); [|reflexivity]. destruct (Nat.eqb_spec (elements bx) (elements bd)); [|reflexivity]. destruct H as [H|[H|H]]; contradiction.
Qed.
(** with a learning rate of 0 an update does nothing and checks nothing *)
Theorem C189_zero t shx X shd D bias xt dt : f_lr t = 0%R -> update_binding t shx X shd D bias xt dt = Ok t.
Proof. intros H. unfold update_binding. rewrite H. replace (Reqb 0 0) with true by (symmetry; apply Reqb_true; reflexivity). reflexivity. Qed.
(** so the gradient of hardware-aware training is then whatever was in the memory *)
Theorem C189_zero_refuted t junk shx X shd D bias xt dt : f_lr t = 0%R -> f_delta t = None -> weight_grad t junk shx X shd D bias xt dt = Ok (junk, t).
Proof. intros H Hd. unfold weight_grad. rewrite C189_zero by exact H. cbn. f_equal. f_equal. destruct t; cbn in *; subst; reflexivity. Qed.
(** and an optimizer made with learning rate 0 (warm-up) leaves it so, whatever a scheduler does, until the rate is set with
    [set_learning_rate] *)
Theorem C189_warmup_refuted scale t l junk shx X shd D bias xt dt : f_delta t = None -> no_set l ->
  let o := run_opt scale (make_opt scale 0 t) l in weight_grad (o_tile o) junk shx X shd D bias xt dt = Ok (junk, o_tile o).
Proof.
  intros Hd Hl o. assert (K : forall l o, no_set l -> o_tile (run_opt scale o l) = o_tile o). { clear. induction l as [|e l IH]; intros o H; [reflexivity|]. inversion H; subst. cbn. rewrite IH by assumption. destruct e; [reflexivity|contradiction|reflexivity]. }
  subst o. rewrite K by exact Hl. apply C189_zero_refuted; [cbn; lra|exact Hd].
Qed.
(** with keywords the flags are exchanged: a call as documented with the inputs transposed is refused, unless the batch has
    as many samples as the layer has inputs *)
Theorem C189_keywords_refuted t m X D bias : f_lr t <> 0%R -> 0 < m -> 0 < f_ds t -> m <> inputs (f_xs t) bias ->
  update_keywords t (tensor_shape true [m] (inputs (f_xs t) bias)) X (tensor_shape false [m] (f_ds t)) D bias true false = Raise RuntimeError.
Proof.
  intros Hl Hm Hd H. unfold update_keywords. change (tensor_shape true [m] (inputs (f_xs t) bias)) with (tensor_shape false [inputs (f_xs t) bias] m). change (tensor_shape false [m] (f_ds t)) with (tensor_shape true [f_ds t] m). apply C189_refused; auto.
Qed.
Theorem C189_keywords t bx bd X D bias x_trans d_trans : f_lr t <> 0%R -> 0 < inputs (f_xs t) bias -> 0 < f_ds t -> elements bx = elements bd ->
  update_keywords t (tensor_shape d_trans bx (inputs (f_xs t) bias)) X (tensor_shape x_trans bd (f_ds t)) D bias x_trans d_trans = Ok (update t X D bias (elements bx) d_trans x_trans).
Proof. intros. unfold update_keywords. apply upd_binding; assumption. Qed.
Theorem C189_nontrivial : exists t X D, f_lr t <> 0%R /\ f_delta t = None /\ 0 < inputs (f_xs t) true /\ outer t true false false 2 X D 0 1 = 4%R /\ outer t true false false 2 X D 0 0 = 11%R.
Proof.
  exists {| f_xs := 2; f_ds := 1; f_w := [1; 2]%R; f_lr := 1%R; f_fa := 1%R; f_ba := 1%R; f_delta := None |}, [2; 3]%R, [1; 3]%R. cbn. split; [lra|]. split; [reflexivity|]. split; [lia|]. unfold outer, Sum. cbn. split; lra.
Qed.

(** ** Decay *)
Lemma decay_len lt a b xs w : length (decay lt a b xs w) = length w.
Proof. unfold decay. destruct (_ && _)%bool; [|reflexivity]. destruct (negb b); [apply map_length|apply tab_length]. Qed.
Lemma decay_at lt a b xs w i : (1 < lt)%R -> (0 < a < lt)%R -> i < length w -> el (decay lt a b xs w) i = ((if (b && (i mod xs =? xs - 1))%bool then 1 else 1 - a / lt) * el w i)%R.
Proof.
  intros H Ha Hi. unfold decay. rewrite (proj2 (Rltb_true 1 lt) H). assert (0 < a / lt < 1)%R. { split; [apply Rdiv_lt_0_compat; lra|]. apply Rmult_lt_reg_r with lt; [lra|]. unfold Rdiv. rewrite Rmult_assoc, Rinv_l by lra. lra. }
  replace (1 - a * (1 / lt))%R with (1 - a / lt)%R by (unfold Rdiv; lra). rewrite (proj2 (Rltb_true 0 _)) by lra. rewrite (proj2 (Rltb_true _ 1)) by lra. cbn [andb]. destruct b; cbn [negb andb].
  - unfold el. rewrite nth_tab by assumption. unfold el. destruct (i mod xs =? xs - 1); lra.
  - unfold el. rewrite (nth_indep _ 0%R ((1 - a / lt) * 0)%R) by (rewrite map_length; assumption). rewrite (map_nth (fun v => ((1 - a / lt) * v)%R)). reflexivity.
Qed.
(** decay multiplies the weights by [1 - alpha / lifetime], without the column of the bias if it is excluded *)
Theorem C190_decay lifetime alpha bnd xs ds w n o i : (1 < lifetime)%R -> (0 < alpha < lifetime)%R -> length w = ds * xs -> o < ds -> i < xs ->
  nth (o * xs + i) (decays n lifetime alpha bnd xs w) 0%R = (if (bnd && (i =? xs - 1))%bool then nth (o * xs + i) w 0 else (1 - alpha / lifetime) ^ n * nth (o * xs + i) w 0)%R.
Proof.
  intros H Ha L Ho Hi. revert w L. induction n as [|n IH]; intros w L; cbn [decays pow]; [destruct (bnd && _)%bool; lra|]. rewrite IH by (rewrite decay_len; assumption). assert (o * xs + i < length w) by (rewrite L; apply flat_lt; assumption).
  change (nth (o * xs + i) (decay lifetime alpha bnd xs w) 0%R) with (el (decay lifetime alpha bnd xs w) (o * xs + i)). rewrite decay_at by assumption. rewrite (proj2 (divmod_flat xs o i Hi)). unfold el. destruct (bnd && (i =? xs - 1))%bool; lra.
Qed.
(** but not for lifetimes up to 1, for large or for negative alphas: then nothing happens *)
Theorem C190_none_refuted lifetime alpha bnd xs w n : (lifetime <= 1 \/ lifetime <= alpha \/ alpha <= 0)%R -> decays n lifetime alpha bnd xs w = w.
Proof.
  intros H. assert (K : decay lifetime alpha bnd xs w = w); [|induction n; cbn; [reflexivity|rewrite K; assumption]].
  unfold decay. destruct (Rltb 1 lifetime) eqn:E; [|replace (1 - alpha * 0)%R with 1%R by lra; rewrite (proj2 (Rltb_false 1 1)) by lra; rewrite andb_false_r; reflexivity].
  apply Rltb_true in E. assert (P : (0 < / lifetime)%R) by (apply Rinv_0_lt_compat; lra). unfold Rdiv. rewrite Rmult_1_l. destruct H as [H|[H|H]]; [lra| |].
  - assert (1 <= alpha * / lifetime)%R by (replace 1%R with (lifetime * / lifetime)%R by (field; lra); apply Rmult_le_compat_r; lra). rewrite (proj2 (Rltb_false 0 _)) by lra. reflexivity.
  - assert (alpha * / lifetime <= 0)%R by nra. rewrite (proj2 (Rltb_false _ 1)) by lra. rewrite andb_false_r. reflexivity.
Qed.
Theorem C190_nontrivial : decays 2 2 1 true 2 [4; 5]%R = [1; 5]%R.
Proof.
  pose proof (C190_decay 2 1 true 2 1 [4; 5]%R 2 0 0). pose proof (C190_decay 2 1 true 2 1 [4; 5]%R 2 0 1).
  destruct (decays 2 2 1 true 2 [4; 5]%R) as [|a [|b [|c l]]] eqn:E; try (exfalso; assert (L : length (decays 2 2 1 true 2 [4; 5]%R) = 2) by (cbn [decays]; rewrite !decay_len; reflexivity); rewrite E in L; discriminate).
  cbn in H, H0. rewrite H by (try lra; lia). rewrite H0 by (try lra; lia). f_equal; lra.
Qed.

Print Assumptions C188_forward.
Print Assumptions C188_backward.
Print Assumptions C188_refused.
Print Assumptions C188_mixed_refuted.
Print Assumptions C188_nontrivial.
Print Assumptions C189_update.
Print Assumptions C189_gradient.
Print Assumptions C189_refused.
Print Assumptions C189_zero.
Print Assumptions C189_zero_refuted.
Print Assumptions C189_warmup_refuted.
Print Assumptions C189_keywords_refuted.
Print Assumptions C189_keywords.
Print Assumptions C189_nontrivial.
Print Assumptions C190_decay.
Print Assumptions C190_none_refuted.
Print Assumptions C190_nontrivial.
