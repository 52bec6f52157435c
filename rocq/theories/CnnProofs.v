(** * Convolution: sums, tensors in memory, the indexed passes for an arbitrary table *)
From Verif Require Import Prelude Rand CnnModel CnnSpec.
Local Open Scope nat_scope.

(** ** Sums *)
Lemma sumR_app (a b : list R) : sumR (a ++ b) = (sumR a + sumR b)%R.
Proof. induction a; cbn; [|rewrite IHa]; lra. Qed.
Lemma Sum_S n f : Sum (S n) f = (Sum n f + f n)%R.
Proof. unfold Sum. rewrite seq_S, map_app, sumR_app. cbn. lra. Qed.
Lemma Sum_ext n f g : (forall i, i < n -> f i = g i) -> Sum n f = Sum n g.
Proof. intros H. unfold Sum. f_equal. apply map_ext_in. intros a Ha. apply in_seq in Ha. apply H. lia. Qed.
Lemma Sum_plus n f g : Sum n (fun i => (f i + g i)%R) = (Sum n f + Sum n g)%R.
Proof. induction n; [cbn; lra|]. rewrite !Sum_S, IHn. lra. Qed.
Lemma Sum_scal n c f : Sum n (fun i => (c * f i)%R) = (c * Sum n f)%R.
Proof. induction n; [cbn; lra|]. rewrite !Sum_S, IHn. lra. Qed.
Lemma Sum_scal_r n c f : Sum n (fun i => (f i * c)%R) = (Sum n f * c)%R.
Proof. induction n; [cbn; lra|]. rewrite !Sum_S, IHn. lra. Qed.
Lemma Sum_0 n f : (forall i, i < n -> f i = 0%R) -> Sum n f = 0%R.
Proof. intros H. induction n; [reflexivity|]. rewrite Sum_S, IHn, H by auto. lra. Qed.
Lemma Sum_swap n m f : Sum n (fun i => Sum m (fun j => f i j)) = Sum m (fun j => Sum n (fun i => f i j)).
Proof.
  induction n; [symmetry; apply Sum_0; reflexivity|]. rewrite Sum_S, IHn, <- Sum_plus.
  apply Sum_ext. intros. rewrite Sum_S. reflexivity.
Qed.
Lemma Sum_app a b f : Sum (a + b) f = (Sum a f + Sum b (fun i => f (a + i)%nat))%R.
Proof.
  induction b; [rewrite Nat.add_0_r; cbn; lra|]. rewrite Nat.add_succ_r, !Sum_S, IHb. lra.
Qed.
Lemma Sum_grid n m f : Sum (n * m) f = Sum n (fun i => Sum m (fun j => f (i * m + j))).
Proof.
  induction n; [reflexivity|]. rewrite Sum_S, <- IHn. replace (S n * m) with (n * m + m) by lia. apply Sum_app.
Qed.
Lemma Sum_single n q f : q < n -> Sum n (fun i => if i =? q then f i else 0%R) = f q.
Proof.
  revert q; induction n; intros q Hq; [lia|]. rewrite Sum_S. destruct (Nat.eq_dec q n) as [->|E].
  - rewrite Nat.eqb_refl, Sum_0; [lra|]. intros i Hi. destruct (Nat.eqb_spec i n); [lia|reflexivity].
  - rewrite IHn by lia. destruct (Nat.eqb_spec n q); [lia|lra].
Qed.

(** ** Tables *)
Lemma tab_length {A} n (f : nat -> A) : length (tab n f) = n.
Proof. unfold tab. rewrite map_length, seq_length. reflexivity. Qed.
Lemma nth_tab {A} n (f : nat -> A) i d : i < n -> nth i (tab n f) d = f i.
Proof.
  intros H. unfold tab. rewrite (nth_indep _ d (f 0)) by (rewrite map_length, seq_length; lia).
  rewrite map_nth, seq_nth by lia. reflexivity.
Qed.
Lemma tab_ext {A} n (f g : nat -> A) : (forall i, i < n -> f i = g i) -> tab n f = tab n g.
Proof. intros H. unfold tab. apply map_ext_in. intros a Ha. apply in_seq in Ha. apply H. lia. Qed.
Lemma tab_app {A} a b (f : nat -> A) : tab (a + b) f = tab a f ++ tab b (fun i => f (a + i)).
Proof.
  unfold tab. rewrite seq_app, map_app. f_equal. cbn [Nat.add].
  replace (seq a b) with (map (Nat.add a) (seq 0 b)).
  - rewrite map_map. reflexivity.
  - clear. revert a. induction b; intros a; [reflexivity|]. cbn. rewrite Nat.add_0_r. f_equal.
    rewrite <- seq_shift, map_map, <- (IHb (S a)). apply map_ext. intros. cbn. lia.
Qed.
Lemma divmod_flat m i j : j < m -> (i * m + j) / m = i /\ (i * m + j) mod m = j.
Proof.
  intros H. split.
  - rewrite Nat.div_add_l, Nat.div_small by lia. lia.
  - rewrite Nat.add_comm, Nat.mod_add, Nat.mod_small by lia. reflexivity.
Qed.
Lemma grid_tab {A} n m (f : nat -> nat -> A) :
  flat_map (fun i => tab m (f i)) (seq 0 n) = tab (n * m) (fun q => f (q / m) (q mod m)).
Proof.
  induction n; [reflexivity|]. rewrite seq_S, flat_map_app, IHn. cbn [flat_map Nat.add]. rewrite app_nil_r.
  replace (S n * m) with (n * m + m) by lia. rewrite tab_app. f_equal. apply tab_ext. intros i Hi.
  destruct (divmod_flat m n i Hi) as [-> ->]. reflexivity.
Qed.
Lemma grid_length {A} n m (f : nat -> nat -> A) : length (flat_map (fun i => tab m (f i)) (seq 0 n)) = n * m.
Proof. rewrite grid_tab. apply tab_length. Qed.
Lemma flat_lt i j n m : i < n -> j < m -> i * m + j < n * m.
Proof. intros. nia. Qed.
Lemma grid_nth {A} n m (f : nat -> nat -> A) i j d : i < n -> j < m ->
  nth (i * m + j) (flat_map (fun i => tab m (f i)) (seq 0 n)) d = f i j.
Proof.
  intros Hi Hj. rewrite grid_tab, nth_tab by (apply flat_lt; assumption).
  destruct (divmod_flat m i j Hj) as [-> ->]. reflexivity.
Qed.
(** three-level grids *)
Lemma flat_map_ext_seq {A} n (f g : nat -> list A) : (forall i, i < n -> f i = g i) ->
  flat_map f (seq 0 n) = flat_map g (seq 0 n).
Proof.
  intros H. rewrite !flat_map_concat_map. f_equal. apply map_ext_in. intros a Ha. apply in_seq in Ha. apply H. lia.
Qed.
Lemma grid3_as2 {A} n m l (f : nat -> nat -> nat -> A) :
  flat_map (fun i => flat_map (fun j => tab l (f i j)) (seq 0 m)) (seq 0 n)
  = flat_map (fun i => tab (m * l) (fun q => f i (q / l) (q mod l))) (seq 0 n).
Proof. apply flat_map_ext_seq. intros. apply grid_tab. Qed.
Lemma grid3_length {A} n m l (f : nat -> nat -> nat -> A) :
  length (flat_map (fun i => flat_map (fun j => tab l (f i j)) (seq 0 m)) (seq 0 n)) = n * m * l.
Proof. rewrite grid3_as2, grid_length. lia. Qed.
Lemma grid3_nth {A} n m l (f : nat -> nat -> nat -> A) i j k d : i < n -> j < m -> k < l ->
  nth ((i * m + j) * l + k) (flat_map (fun i => flat_map (fun j => tab l (f i j)) (seq 0 m)) (seq 0 n)) d = f i j k.
Proof.
  intros Hi Hj Hk. rewrite grid3_as2. replace ((i * m + j) * l + k) with (i * (m * l) + (j * l + k)) by lia.
  rewrite grid_nth by (try apply flat_lt; assumption). destruct (divmod_flat l j k Hk) as [-> ->]. reflexivity.
Qed.

Lemma mapM_ok {A B} (f : A -> res B) (g : A -> B) l : (forall a, List.In a l -> f a = Ok (g a)) -> mapM f l = Ok (map g l).
Proof.
  induction l as [|a l IH]; intros H; [reflexivity|]. cbn [mapM map]. rewrite H by (left; reflexivity). cbn [bind].
  rewrite IH by (intros; apply H; right; assumption). reflexivity.
Qed.
Lemma mapM_seq {B} (f : nat -> res B) (g : nat -> B) n : (forall i, i < n -> f i = Ok (g i)) -> mapM f (seq 0 n) = Ok (tab n g).
Proof. intros H. apply mapM_ok. intros a Ha. apply in_seq in Ha. apply H. lia. Qed.
Lemma rd_ok {A} (l : list A) i d : i < length l -> rd l i = Ok (nth i l d).
Proof. intros H. unfold rd. rewrite (nth_error_nth' l d H). reflexivity. Qed.
Lemma nth_ge0 (l : list R) i : length l <= i -> nth i l 0%R = 0%R.
Proof. apply nth_overflow. Qed.

(** ** copyIndexedInput *)
(** the value an index stands for *)
Definition pick (j : nat) (x : nat -> R) : R := if j <=? 1 then INR j else x (j - 2).
(** a table for [size] inputs and [m] positions, on samples of [ims] elements *)
Definition table_for (t : list nat) (size m ims : nat) : Prop :=
  size * m <= length t /\ forall i, i < size * m -> nth i t 0 < ims + 2.

Lemma idx_parts m n N xd l size : n < N -> l < m -> xd < size ->
  let idx := xd * (m * N) + (n * m + l) in
  let i := (idx mod (m * N)) / m * (m * size) + idx mod m + idx / (m * N) * m in
  i mod (m * size) = xd * m + l /\ i / (m * size) = n.
Proof.
  intros Hn Hl Hx idx i.
  assert (B : n * m + l < m * N) by nia.
  destruct (divmod_flat (m * N) xd (n * m + l) B) as [D1 D2].
  assert (D3 : idx mod m = l).
  { unfold idx. replace (xd * (m * N) + (n * m + l)) with (l + (xd * N + n) * m) by lia.
    rewrite Nat.mod_add, Nat.mod_small by lia. reflexivity. }
  assert (E : i = n * (m * size) + (xd * m + l)).
  { unfold i. fold idx in D1, D2. rewrite D1, D2, D3. destruct (divmod_flat m n l Hl) as [-> _]. lia. }
  rewrite E. assert (B2 : xd * m + l < m * size) by nia. destruct (divmod_flat (m * size) n (xd * m + l) B2); auto.
Qed.

Lemma copy_indexed_input_spec t X size m N ims :
  0 < N -> length X = N * ims -> table_for t size m ims ->
  copy_indexed_input t X size m N
  = Ok (tab (size * m * N) (fun idx => pick (nth ((idx / (m * N)) * m + idx mod m) t 0)
        (fun q => nth (((idx mod (m * N)) / m) * ims + q) X 0%R))).
Proof.
  intros HN HX [Hlen Hent]. unfold copy_indexed_input. cbv zeta. apply mapM_seq. intros idx Hidx.
  assert (Em : m <> 0) by (intros ->; nia).
  assert (EX : length X / N = ims) by (rewrite HX, Nat.mul_comm; apply Nat.div_mul; lia).
  set (xd := idx / (m * N)). set (rem := idx mod (m * N)). set (n := rem / m). set (l := rem mod m).
  assert (HmN : m * N <> 0) by nia.
  assert (Hrem : rem < m * N) by (apply Nat.mod_upper_bound; exact HmN).
  assert (Hrd : rem = n * m + l) by (unfold n, l; rewrite Nat.mul_comm; apply Nat.div_mod; exact Em).
  assert (Hl : l < m) by (apply Nat.mod_upper_bound; exact Em).
  assert (Hn : n < N) by (unfold n; apply Nat.div_lt_upper_bound; lia).
  assert (Hidx2 : idx = xd * (m * N) + (n * m + l)).
  { rewrite <- Hrd. unfold xd, rem. rewrite Nat.mul_comm. apply Nat.div_mod. exact HmN. }
  assert (Hxd : xd < size) by (unfold xd; apply Nat.div_lt_upper_bound; lia).
  pose proof (idx_parts m n N xd l size Hn Hl Hxd) as P. cbv zeta in P. rewrite <- Hidx2 in P. destruct P as [P1 P2].
  assert (Elm : idx mod m = l).
  { rewrite Hidx2. replace (xd * (m * N) + (n * m + l)) with (l + (xd * N + n) * m) by lia.
    rewrite Nat.mod_add, Nat.mod_small by lia. reflexivity. }
  fold rem in P1, P2. fold rem. fold n. fold n in P1, P2. fold xd in P1, P2. rewrite P1, P2, Elm.
  assert (B : xd * m + l < size * m) by (apply flat_lt; assumption).
  rewrite (rd_ok t (xd * m + l) 0) by lia. cbn [bind]. pose proof (Hent _ B) as He. unfold pick.
  destruct (Nat.leb_spec (nth (xd * m + l) t 0) 1); [reflexivity|].
  rewrite EX. rewrite (rd_ok X _ 0%R).
  - f_equal. f_equal. lia.
  - rewrite HX. nia.
Qed.
Lemma copy_indexed_input_at t X size m N ims xt :
  0 < N -> length X = N * ims -> table_for t size m ims -> copy_indexed_input t X size m N = Ok xt ->
  length xt = size * m * N
  /\ forall x n l, x < size -> n < N -> l < m ->
       nth (x * (m * N) + (n * m + l)) xt 0%R = pick (nth (x * m + l) t 0) (fun q => nth (n * ims + q) X 0%R).
Proof.
  intros HN HX T E. rewrite (copy_indexed_input_spec t X size m N ims HN HX T) in E. injection E as <-.
  split; [apply tab_length|]. intros x n l Hx Hn Hl.
  assert (B : n * m + l < m * N) by nia.
  rewrite nth_tab by nia. destruct (divmod_flat (m * N) x (n * m + l) B) as [-> ->].
  destruct (divmod_flat m n l Hl) as [-> _].
  replace ((x * (m * N) + (n * m + l)) mod m) with l; [reflexivity|].
  replace (x * (m * N) + (n * m + l)) with (l + (x * N + n) * m) by lia.
  rewrite Nat.mod_add, Nat.mod_small by lia. reflexivity.
Qed.
Lemma copy_indexed_input_ok t X size m N ims :
  0 < N -> length X = N * ims -> table_for t size m ims -> exists xt, copy_indexed_input t X size m N = Ok xt.
Proof. intros HN HX T. rewrite (copy_indexed_input_spec t X size m N ims HN HX T). eexists; reflexivity. Qed.

(** ** The forward pass for any table *)
Lemma permute132_length x d1 d2 d3 : length (permute132 x d1 d2 d3) = d2 * d3 * d1.
Proof. unfold permute132. apply grid3_length. Qed.
Lemma permute132_at x d1 d2 d3 i j k : i < d2 -> j < d3 -> k < d1 ->
  nth ((i * d3 + j) * d1 + k) (permute132 x d1 d2 d3) 0%R = nth ((j * d2 + i) * d1 + k) x 0%R.
Proof.
  intros. unfold permute132. rewrite grid3_nth by assumption. f_equal. lia.
Qed.
Lemma forward_matrix_t_at a W xs ds X mb o b : o < ds -> b < mb ->
  nth (o * mb + b) (forward_matrix_t a W xs ds X mb) 0%R = (a * Sum xs (fun x => wat W o x * nth (x * mb + b)%nat X 0))%R.
Proof. intros. unfold forward_matrix_t. rewrite grid_nth by assumption. reflexivity. Qed.

Lemma forward_indexed_spec a W xs ds t X m N ims :
  0 < N -> length X = N * ims -> table_for t xs m ims ->
  exists y, forward_indexed a W xs ds t X m N = Ok y /\ length y = N * ds * m
    /\ forall n o l, n < N -> o < ds -> l < m ->
       nth ((n * ds + o) * m + l) y 0%R
       = (a * Sum xs (fun x => wat W o x * pick (nth (x * m + l) t 0)%nat (fun q => nth (n * ims + q)%nat X 0)))%R.
Proof.
  intros HN HX T. destruct (copy_indexed_input_ok t X xs m N ims HN HX T) as [xt E].
  unfold forward_indexed. rewrite E. cbn [bind]. eexists. split; [reflexivity|].
  destruct (copy_indexed_input_at t X xs m N ims xt HN HX T E) as [_ At].
  destruct (Nat.ltb_spec 1 N) as [H1|H1].
  - split; [rewrite permute132_length; lia|]. intros n o l Hn Ho Hl. rewrite permute132_at by assumption.
    replace ((o * N + n) * m + l) with (o * (m * N) + (n * m + l)) by lia.
    rewrite forward_matrix_t_at by nia. f_equal. apply Sum_ext. intros x Hx. rewrite At by assumption. reflexivity.
  - assert (N = 1) as -> by lia. split.
    + unfold forward_matrix_t. rewrite grid_length. lia.
    + intros n o l Hn Ho Hl. assert (n = 0) as -> by lia.
      replace ((0 * ds + o) * m + l) with (o * (m * 1) + (0 * m + l)) by lia.
      rewrite forward_matrix_t_at by nia. f_equal. apply Sum_ext. intros x Hx.
      rewrite (At x 0 l) by lia. reflexivity.
Qed.
