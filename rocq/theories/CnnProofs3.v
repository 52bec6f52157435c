(** * Convolution: the indexed backward and update pass for any table *)
From Verif Require Import Prelude Rand CnnModel CnnSpec CnnProofs CnnProofs2 CnnProps CnnProps2.
Local Open Scope nat_scope.

Lemma add_at_spec (out : list R) i v : i < length out ->
  exists out', add_at out i v = Ok out' /\ length out' = length out
    /\ forall q, nth q out' 0%R = (nth q out 0 + if i =? q then v else 0)%R.
Proof.
  intros H. unfold add_at. rewrite (nth_error_nth' out 0%R H). eexists. split; [reflexivity|].
  assert (L1 : length (firstn i out) = i) by (rewrite firstn_length; lia).
  split; [rewrite !app_length, L1, skipn_length; cbn; lia|].
  intros q. destruct (Nat.eqb_spec i q) as [<-|Ne].
  - rewrite app_nth2 by lia. rewrite L1, Nat.sub_diag. reflexivity.
  - rewrite Rplus_0_r. destruct (Nat.lt_ge_cases q i) as [Hq|Hq].
    + rewrite app_nth1 by lia. rewrite <- (firstn_skipn i out) at 2. rewrite app_nth1 by lia. reflexivity.
    + rewrite app_nth2 by lia. rewrite L1. rewrite app_nth2 by (cbn; lia). cbn [length].
      transitivity (nth (q - i - 1) (skipn (i + 1) out) 0%R); [reflexivity|].
      rewrite <- (firstn_skipn (i + 1) out) at 2. rewrite app_nth2; rewrite firstn_length; [|lia].
      f_equal. lia.
Qed.
Lemma scatter_fold (f : res (list R) -> nat -> res (list R)) (tgt : nat -> option nat) (val : nat -> R) n : forall l out,
  length out = n ->
  (forall idx out, List.In idx l -> length out = n -> f (Ok out) idx = match tgt idx with Some q => add_at out q (val idx) | None => Ok out end) ->
  (forall idx q, List.In idx l -> tgt idx = Some q -> q < n) ->
  exists out', fold_left f l (Ok out) = Ok out' /\ length out' = n
    /\ forall q, nth q out' 0%R
       = (nth q out 0 + sumR (map (fun idx => match tgt idx with Some q' => if q' =? q then val idx else 0 | None => 0 end) l))%R.
Proof.
  induction l as [|idx l IH]; intros out Ho Hf Ht.
  - exists out. cbn. repeat split; auto. intros; lra.
  - cbn [fold_left]. rewrite Hf by (auto; left; reflexivity). destruct (tgt idx) as [q0|] eqn:E.
    + destruct (add_at_spec out q0 (val idx)) as (o1 & E1 & L1 & A1).
      { rewrite Ho. eapply Ht; [left; reflexivity|exact E]. }
      rewrite E1. destruct (IH o1) as (o2 & E2 & L2 & A2); [congruence|intros; apply Hf; [right|]; assumption|intros; eapply Ht; [right|]; eassumption|].
      exists o2. split; [exact E2|]. split; [exact L2|]. intros q. rewrite A2, A1. cbn [map sumR]. rewrite E. lra.
    + destruct (IH out) as (o2 & E2 & L2 & A2); [congruence|intros; apply Hf; [right|]; assumption|intros; eapply Ht; [right|]; eassumption|].
      exists o2. split; [exact E2|]. split; [exact L2|]. intros q. rewrite A2. cbn [map sumR]. rewrite E. lra.
Qed.
Lemma inner_Sum (a b : list R) n : length a = n -> length b = n -> inner a b = Sum n (fun i => (nth i a 0 * nth i b 0)%R).
Proof. intros Ha Hb. unfold inner. etransitivity; [apply dot_Sum; congruence|]. rewrite Ha. reflexivity. Qed.

(** a value read by index, without the constant *)
Definition pick0 (j : nat) (x : nat -> R) : R := if j <=? 1 then 0%R else x (j - 2).
Lemma pick_pick0 j x : pick j x = (pick0 j x + pick j (fun _ => 0))%R.
Proof. unfold pick, pick0. destruct (j <=? 1); lra. Qed.

Lemma copy_indexed_output_adjoint t src size m N ims x :
  0 < N -> length src = size * m * N -> table_for t size m ims -> length x = N * ims ->
  exists out, copy_indexed_output t src (N * ims) size m N = Ok out /\ length out = N * ims
    /\ inner out x = Sum size (fun r => Sum N (fun n => Sum m (fun l =>
         (nth (r * (m * N) + (n * m + l)) src 0 * pick0 (nth (r * m + l)%nat t 0%nat) (fun q => nth (n * ims + q)%nat x 0))%R))).
Proof.
  intros HN Hs [Hlen Hent] Hx. unfold copy_indexed_output. cbv zeta.
  assert (EX : N * ims / N = ims) by (rewrite Nat.mul_comm; apply Nat.div_mul; lia). rewrite EX.
  set (ii := fun idx => (idx mod (m * N)) / m * (m * size) + idx mod m + idx / (m * N) * m).
  set (tgt := fun idx => let j := nth (ii idx mod (m * size)) t 0 in if 1 <? j then Some ((j - 2) + ii idx / (m * size) * ims) else None).
  assert (Parts : forall idx, idx < size * m * N -> exists r n l, r < size /\ n < N /\ l < m /\ idx = r * (m * N) + (n * m + l)).
  { intros idx Hidx. assert (Em : m <> 0) by (intros ->; nia). assert (HmN : m * N <> 0) by nia.
    exists (idx / (m * N)), ((idx mod (m * N)) / m), ((idx mod (m * N)) mod m).
    assert (Hrem : idx mod (m * N) < m * N) by (apply Nat.mod_upper_bound; exact HmN).
    repeat split.
    - apply Nat.div_lt_upper_bound; [exact HmN|lia].
    - apply Nat.div_lt_upper_bound; [exact Em|lia].
    - apply Nat.mod_upper_bound; exact Em.
    - rewrite (Nat.mul_comm (_ / m)), <- (Nat.div_mod (idx mod (m * N)) m Em), Nat.mul_comm. apply Nat.div_mod. exact HmN. }
  assert (II : forall r n l, r < size -> n < N -> l < m ->
     ii (r * (m * N) + (n * m + l)) mod (m * size) = r * m + l /\ ii (r * (m * N) + (n * m + l)) / (m * size) = n).
  { intros r n l Hr Hn Hl. exact (idx_parts m n N r l size Hn Hl Hr). }
  match goal with |- context [fold_left ?f _ _] => set (f0 := f) end.
  destruct (scatter_fold f0 tgt (fun idx => nth idx src 0%R) (N * ims) (seq 0 (size * m * N)) (repeat 0%R (N * ims))) as (out & Eo & Lo & Ao).
  - apply repeat_length.
  - intros idx out Hin Ho. apply in_seq in Hin. destruct (Parts idx ltac:(lia)) as (r & n & l & Hr & Hn & Hl & ->).
    destruct (II r n l Hr Hn Hl) as [I1 I2]. unfold f0, tgt. cbn [bind]. fold (ii (r * (m * N) + (n * m + l))). cbv zeta. rewrite I1, I2.
    assert (B : r * m + l < size * m) by (apply flat_lt; assumption).
    rewrite (rd_ok t _ 0) by lia. cbn [bind]. destruct (1 <? nth (r * m + l) t 0); [|reflexivity].
    rewrite (rd_ok src _ 0%R) by lia. reflexivity.
  - intros idx q Hin. apply in_seq in Hin. destruct (Parts idx ltac:(lia)) as (r & n & l & Hr & Hn & Hl & ->).
    destruct (II r n l Hr Hn Hl) as [I1 I2]. unfold tgt. cbv zeta. rewrite I1, I2.
    assert (B : r * m + l < size * m) by (apply flat_lt; assumption). pose proof (Hent _ B) as He.
    destruct (Nat.ltb_spec 1 (nth (r * m + l) t 0)); [|discriminate]. intros [= <-]. nia.
  - exists out. split; [exact Eo|]. split; [exact Lo|]. rewrite (inner_Sum _ _ (N * ims) Lo Hx).
    transitivity (Sum (N * ims) (fun q => Sum (size * m * N) (fun idx =>
       (match tgt idx with Some q' => if q' =? q then nth idx src 0 else 0 | None => 0 end * nth q x 0)%R))).
    { apply Sum_ext. intros q Hq. rewrite Ao. rewrite nth_repeat_lt by lia. rewrite Rplus_0_l. rewrite Sum_scal_r. reflexivity. }
    rewrite Sum_swap. replace (size * m * N) with (size * (N * m)) by lia. rewrite Sum_grid. apply Sum_ext. intros r Hr.
    rewrite Sum_grid. apply Sum_ext2. intros n l Hn Hl.
    replace (r * (N * m) + (n * m + l)) with (r * (m * N) + (n * m + l)) by lia.
    destruct (II r n l Hr Hn Hl) as [I1 I2]. unfold tgt, pick0. cbv zeta. rewrite I1, I2.
    assert (B : r * m + l < size * m) by (apply flat_lt; assumption). pose proof (Hent _ B) as He.
    set (j := nth (r * m + l) t 0) in *. destruct (Nat.ltb_spec 1 j) as [Hj|Hj].
    + destruct (Nat.leb_spec j 1); [lia|].
      transitivity (Sum (N * ims) (fun i => if i =? n * ims + (j - 2) then (nth (r * (m * N) + (n * m + l)) src 0 * nth i x 0)%R else 0%R)).
      { apply Sum_ext. intros i Hi. rewrite (Nat.eqb_sym i), (Nat.add_comm (n * ims)). destruct (_ =? _); lra. }
      apply (Sum_single (N * ims) (n * ims + (j - 2)) (fun i => (nth (r * (m * N) + (n * m + l)) src 0 * nth i x 0)%R)). nia.
    + destruct (Nat.leb_spec j 1); [|lia]. rewrite Sum_0; [lra|]. intros; lra.
Qed.

(** the backward pass is the adjoint of the linear part of the forward pass *)
Lemma backward_matrix_t_at a W xs ds D mb x b : x < xs -> b < mb ->
  nth (x * mb + b) (backward_matrix_t a W xs ds D mb) 0%R = (a * Sum ds (fun o => wat W o x * nth (o * mb + b)%nat D 0))%R.
Proof. intros. unfold backward_matrix_t. rewrite grid_nth by assumption. reflexivity. Qed.
Lemma backward_indexed_adjoint W xs ds t D m N ims x :
  0 < N -> length D = N * ds * m -> table_for t xs m ims -> length x = N * ims ->
  exists out, backward_indexed 1 W xs ds t D (N * ims) m N = Ok out /\ length out = N * ims
    /\ inner out x = Sum N (fun n => Sum ds (fun o => Sum m (fun l =>
         (nth ((n * ds + o) * m + l) D 0 * Sum xs (fun r => wat W o r * pick0 (nth (r * m + l)%nat t 0%nat) (fun q => nth (n * ims + q)%nat x 0)))%R))).
Proof.
  intros HN HD T Hx. unfold backward_indexed. set (d := if N =? 1 then D else permute132 D m ds N).
  assert (Hd : forall n o l, n < N -> o < ds -> l < m -> nth (o * (m * N) + (n * m + l)) d 0%R = nth ((n * ds + o) * m + l) D 0%R).
  { intros n o l Hn Ho Hl. unfold d. destruct (Nat.eqb_spec N 1) as [->|Ne].
    - assert (n = 0) as -> by lia. f_equal. lia.
    - replace (o * (m * N) + (n * m + l)) with ((o * N + n) * m + l) by lia. apply permute132_at; assumption. }
  destruct (copy_indexed_output_adjoint t (backward_matrix_t 1 W xs ds d (m * N)) xs m N ims x HN) as (out & Eo & Lo & Io); try assumption.
  { unfold backward_matrix_t. rewrite grid_length. lia. }
  exists out. split; [exact Eo|]. split; [exact Lo|]. rewrite Io. clear Io.
  rewrite Sum_swap. apply Sum_ext. intros n Hn.
  transitivity (Sum xs (fun r => Sum m (fun l => Sum ds (fun o => (nth ((n * ds + o) * m + l) D 0 * (wat W o r * pick0 (nth (r * m + l)%nat t 0%nat) (fun q => nth (n * ims + q)%nat x 0)))%R)))).
  { apply Sum_ext2. intros r l Hr Hl. rewrite backward_matrix_t_at by nia. rewrite Rmult_1_l, <- Sum_scal_r. apply Sum_ext. intros o Ho.
    rewrite Hd by assumption. lra. }
  transitivity (Sum xs (fun r => Sum ds (fun o => Sum m (fun l => (nth ((n * ds + o) * m + l) D 0 * (wat W o r * pick0 (nth (r * m + l)%nat t 0%nat) (fun q => nth (n * ims + q)%nat x 0)))%R)))).
  { apply Sum_ext. intros r Hr. apply Sum_swap. }
  rewrite Sum_swap. apply Sum_ext. intros o Ho. rewrite Sum_swap. apply Sum_ext. intros l Hl. apply Sum_scal.
Qed.
(** the update pass subtracts the learning rate times the gradient of the inner product with the output *)
Lemma update_indexed_spec lr W xs ds t X D m N ims :
  0 < N -> length X = N * ims -> table_for t xs m ims ->
  exists W', update_indexed lr W xs ds t X D m N = Ok W' /\ shape ds xs W'
    /\ forall o r, o < ds -> r < xs -> wat W' o r
       = (wat W o r - lr * Sum N (fun n => Sum m (fun l =>
            nth ((n * ds + o) * m + l)%nat D 0 * pick (nth (r * m + l) t 0)%nat (fun q => nth (n * ims + q)%nat X 0))))%R.
Proof.
  intros HN HX T. unfold update_indexed. destruct (copy_indexed_input_ok t X xs m N ims HN HX T) as [xt E]. rewrite E. cbn [bind].
  destruct (copy_indexed_input_at t X xs m N ims xt HN HX T E) as [_ At].
  eexists. split; [reflexivity|]. split.
  - split; [apply tab_length|]. apply Forall_forall. intros row Hrow. unfold update_matrix_t, tab in Hrow. apply in_map_iff in Hrow.
    destruct Hrow as (o & <- & _). rewrite map_length, seq_length. reflexivity.
  - intros o r Ho Hr. unfold wat at 1, update_matrix_t. rewrite nth_tab by assumption. rewrite nth_tab by assumption. f_equal. f_equal.
    rewrite (Nat.mul_comm m N), Sum_grid. apply Sum_ext2. intros n l Hn Hl. rewrite <- (Nat.mul_comm m N). rewrite At by assumption. f_equal.
    replace (o * (m * N) + (n * m + l)) with ((o * N + n) * m + l) by lia. apply permute132_at; assumption.
Qed.
