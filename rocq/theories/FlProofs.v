From Verif Require Import Prelude CnnModel CnnProofs FlModel FlSpec.
From Coq Require Import Lra.
Local Open Scope nat_scope.

Lemma grid_len n m f : length (grid n m f) = n * m.
Proof. apply grid_length. Qed.
Lemma grid_el n m f i j : i < n -> j < m -> el (grid n m f) (i * m + j) = f i j.
Proof. intros. unfold el, grid. apply grid_nth; assumption. Qed.
Lemma app1_el n f i v : el (tab n f ++ [v]) i = if i <? n then f i else if i =? n then v else 0%R.
Proof.
  unfold el. destruct (Nat.ltb_spec i n); [rewrite app_nth1 by (rewrite tab_length; assumption); apply nth_tab; assumption|].
  rewrite app_nth2 by (rewrite tab_length; assumption). rewrite tab_length. destruct (Nat.eqb_spec i n) as [-> |]; [rewrite Nat.sub_diag; reflexivity|]. destruct (i - n) as [|[|k]] eqn:E; [lia|reflexivity|reflexivity].
Qed.
Lemma flat_app1 n sz (f : nat -> nat -> R) : flat_map (fun j => (tab sz (f j) ++ [1%R])%list) (seq 0 n) = grid n (S sz) (fun j i => if i =? sz then 1%R else f j i).
Proof.
  unfold grid. apply flat_map_ext_seq. intros j _. unfold tab. rewrite seq_S, map_app. cbn [map]. rewrite Nat.add_0_l, Nat.eqb_refl. f_equal. apply map_ext_in. intros i H. apply in_seq in H. destruct (Nat.eqb_spec i sz); [lia|reflexivity].
Qed.
Lemma nth_rep {A} (x d : A) n i : i < n -> nth i (repeat x n) d = x.
Proof. revert i. induction n; intros [|i] H; try lia; cbn; [reflexivity|]. apply IHn. lia. Qed.
Lemma make_bias_at X size m tr s i : 0 < size -> s < m -> i < size -> sample tr size m (make_bias X size m tr) s i = input size true tr m X s i.
Proof.
  intros H Hs Hi. unfold input, sample, make_bias. destruct tr.
  - assert (L : length (tab (m * (size - 1)) (el X)) = m * (size - 1)) by apply tab_length. destruct (Nat.eqb_spec i (size - 1)) as [-> |].
    + rewrite app_nth2 by nia. rewrite L. replace ((size - 1) * m + s - m * (size - 1)) with s by nia. apply nth_rep. assumption.
    + rewrite app_nth1 by nia. rewrite nth_tab by nia. reflexivity.
  - rewrite (flat_app1 m (size - 1) (fun j i => el X (j * (size - 1) + i))). replace (S (size - 1)) with size by lia. change (nth (s * size + i) ?l 0%R) with (el l (s * size + i)). rewrite grid_el by assumption. destruct (i =? size - 1); reflexivity.
Qed.
Lemma gemm_at ta tb M N K a A lda B ldb b C i j : i < M -> j < N ->
  el (gemm ta tb M N K a A lda B ldb b C) (i * N + j) = (a * Sum K (fun k => el A (if ta then k * lda + i else i * lda + k) * el B (if tb then j * ldb + k else k * ldb + j)) + b * el C (i * N + j))%R.
Proof. intros. unfold gemm. rewrite grid_el by assumption. reflexivity. Qed.
Lemma input_eq t X (bias : bool) m xt s i : 0 < f_xs t -> s < m -> i < f_xs t -> sample xt (f_xs t) m (if bias then make_bias X (f_xs t) m xt else X) s i = input (f_xs t) bias xt m X s i.
Proof. intros. destruct bias; [apply make_bias_at; assumption|reflexivity]. Qed.
(** what a matrix pass computes *)
Lemma forward_matrix_at t X m xt dt s o : s < m -> o < f_ds t ->
  sample dt (f_ds t) m (forward_matrix t X m xt dt) s o = (f_fa t * Sum (f_xs t) (fun i => weight t o i * sample xt (f_xs t) m X s i))%R.
Proof.
  intros Hs Ho. unfold sample, forward_matrix. destruct dt; (match goal with |- nth ?k ?l _ = _ => change (el l k = (f_fa t * Sum (f_xs t) (fun i => weight t o i * nth (if xt then i * m + s else s * f_xs t + i) X 0))%R) end); rewrite gemm_at by assumption; rewrite Rmult_0_l, Rplus_0_r; f_equal; apply Sum_ext; intros i Hi; unfold weight, el; destruct xt; cbn [negb]; try reflexivity; apply Rmult_comm.
Qed.
Lemma backward_matrix_at t D m dt xt s i : s < m -> i < f_xs t ->
  sample xt (f_xs t) m (backward_matrix t D m dt xt) s i = (f_ba t * Sum (f_ds t) (fun o => weight t o i * sample dt (f_ds t) m D s o))%R.
Proof.
  intros Hs Ho. unfold sample, backward_matrix. destruct xt; (match goal with |- nth ?k ?l _ = _ => change (el l k = (f_ba t * Sum (f_ds t) (fun o => weight t o i * nth (if dt then o * m + s else s * f_ds t + o) D 0))%R) end); rewrite gemm_at by assumption; rewrite Rmult_0_l, Rplus_0_r; f_equal; apply Sum_ext; intros o Hi; unfold weight, el; destruct dt; cbn [negb]; try reflexivity; apply Rmult_comm.
Qed.
Lemma vec_input xs X (bias : bool) i : 0 < xs -> i < xs -> el (if bias then (tab (xs - 1) (el X) ++ [1%R])%list else X) i = input xs bias false 1 X 0 i.
Proof.
  intros. unfold input, sample. destruct bias; [|reflexivity]. rewrite app1_el. cbn [Nat.mul Nat.add]. destruct (Nat.ltb_spec i (xs - 1)), (Nat.eqb_spec i (xs - 1)); try lia; reflexivity.
Qed.
Lemma forward_at t X bias m xt dt s o : 0 < f_xs t -> s < m -> o < f_ds t ->
  sample dt (f_ds t) m (forward t X bias m xt dt) s o = (f_fa t * Sum (f_xs t) (fun i => weight t o i * input (f_xs t) bias xt m X s i))%R.
Proof.
  intros H Hs Ho. unfold forward. destruct ((m =? 1) && negb xt && negb dt)%bool eqn:E.
  - apply andb_prop in E. destruct E as [E Ed]. apply andb_prop in E. destruct E as [Em Ex]. apply Nat.eqb_eq in Em. destruct xt, dt; try discriminate. subst m. assert (s = 0) by lia. subst s.
    unfold sample at 1, gemv. cbn [Nat.mul Nat.add]. rewrite nth_tab by assumption. f_equal. apply Sum_ext. intros i Hi. rewrite vec_input by assumption. reflexivity.
  - rewrite forward_matrix_at by assumption. f_equal. apply Sum_ext. intros i Hi. rewrite input_eq by assumption. reflexivity.
Qed.
Lemma forward_len t X bias m xt dt : length (forward t X bias m xt dt) = m * f_ds t.
Proof.
  unfold forward. destruct ((m =? 1) && negb xt && negb dt)%bool eqn:E.
  - apply andb_prop in E. destruct E as [E Ed]. apply andb_prop in E. destruct E as [Em Ex]. apply Nat.eqb_eq in Em. subst m. unfold gemv. rewrite tab_length. lia.
  - unfold forward_matrix. destruct dt; unfold gemm; rewrite grid_len; lia.
Qed.
Lemma backward_len t D bias m dt xt : length (backward t D bias m dt xt) = m * inputs (f_xs t) bias.
Proof.
  unfold backward, inputs. destruct ((m =? 1) && negb xt && negb dt)%bool eqn:E.
  - apply andb_prop in E. destruct E as [E Ed]. apply andb_prop in E. destruct E as [Em Ex]. apply Nat.eqb_eq in Em. subst m. cbv zeta. destruct bias; [rewrite tab_length; lia|]. unfold gemv. rewrite tab_length. lia.
  - cbv zeta. destruct bias; [unfold copy_without_bias; destruct xt; [apply tab_length|apply grid_len]|]. unfold backward_matrix. destruct xt; unfold gemm; rewrite grid_len; lia.
Qed.
Lemma backward_at t D bias m dt xt s i : s < m -> i < inputs (f_xs t) bias ->
  sample xt (inputs (f_xs t) bias) m (backward t D bias m dt xt) s i = (f_ba t * Sum (f_ds t) (fun o => weight t o i * sample dt (f_ds t) m D s o))%R.
Proof.
  intros Hs Hi. assert (Hx : i < f_xs t) by (unfold inputs in Hi; destruct bias; lia). unfold backward. destruct ((m =? 1) && negb xt && negb dt)%bool eqn:E.
  - apply andb_prop in E. destruct E as [E Ed]. apply andb_prop in E. destruct E as [Em Ex]. apply Nat.eqb_eq in Em. destruct xt, dt; try discriminate. subst m. assert (s = 0) by lia. subst s. cbv zeta.
    assert (G : nth i (gemv true (f_ds t) (f_xs t) (f_ba t) (f_w t) (f_xs t) D) 0%R = (f_ba t * Sum (f_ds t) (fun o => weight t o i * sample false (f_ds t) 1 D 0 o))%R). { unfold gemv. rewrite nth_tab by assumption. reflexivity. }
    unfold sample at 1. cbn [Nat.mul Nat.add]. unfold inputs in *. destruct bias; [rewrite nth_tab by assumption|]; exact G.
  - cbv zeta. rewrite <- backward_matrix_at with (xt := xt) by assumption. unfold inputs in *. destruct bias; [|reflexivity]. unfold sample, copy_without_bias. destruct xt.
    + rewrite nth_tab by nia. reflexivity.
    + match goal with |- nth ?k ?l _ = _ => change (el l k = nth (s * f_xs t + i) (backward_matrix t D m dt false) 0%R) end. rewrite grid_el by assumption. reflexivity.
Qed.
Lemma prod_app a b : prod (a ++ b) = prod a * prod b.
Proof. induction a as [|x a IH]; [change (prod b = 1 * prod b); rewrite Nat.mul_1_l; reflexivity|]. change (x * prod (a ++ b) = x * prod a * prod b). rewrite IH. apply Nat.mul_assoc. Qed.
Lemma prod_shape tr batch n : prod (tensor_shape tr batch n) = elements batch * n.
Proof. unfold tensor_shape. change (elements batch) with (prod batch). destruct tr; [change (n * prod batch = prod batch * n); apply Nat.mul_comm|]. rewrite prod_app. cbn. lia. Qed.
Lemma feature_shape tr batch n : feature tr (tensor_shape tr batch n) = n.
Proof. unfold tensor_shape, feature. destruct tr; [reflexivity|]. apply last_last. Qed.
Lemma shape_ne tr batch n : tensor_shape tr batch n <> [].
Proof. unfold tensor_shape. destruct tr; [discriminate|]. destruct batch; discriminate. Qed.
Lemma set_shape tr batch n k : set_feature tr (tensor_shape tr batch n) k = tensor_shape tr batch k.
Proof. unfold set_feature, tensor_shape. destruct tr; [reflexivity|]. rewrite removelast_last. reflexivity. Qed.
Lemma cols_inputs t bias : cols t bias = inputs (f_xs t) bias.
Proof. unfold cols, inputs. destruct bias; lia. Qed.
