(** * C130: recurrent cells compute the recurrences of torch *)
From Verif Require Import Prelude RnnModel CnnModel CnnProofs RnnSpec RnnProofs.
From Coq Require Import Rtrigo_def.
Local Open Scope nat_scope.

(** a sequence of batches: [T x B x n] *)
Definition sequence (B n : nat) (xs : list mat) : Prop := Forall (shape B n) xs.
(** the inputs of sample [b] *)
Definition sample (xs : list mat) (b : nat) : nat -> nat -> R := fun t => el (nth t xs []) b.
Lemma sequence_nth B n xs t : sequence B n xs -> t < length xs -> nth t xs [] = tab B n (fun b => sample xs b t).
Proof. intros F L. apply tab_el. unfold sequence in F. rewrite Forall_forall in F. apply F, nth_In. exact L. Qed.

Lemma seq_by n k : seq n k = map (fun j => n + j) (seq 0 k).
Proof. revert n. induction k as [|k IH]; intros n; [reflexivity|]. cbn. rewrite Nat.add_0_r. f_equal. rewrite (IH (S n)), <- (seq_shift k 0), map_map. apply map_ext. intros j. lia. Qed.

Section C130.
Context {TS : Type} (n H B : nat).

(** the gates of an LSTM on tables *)
Lemma lstm_gates_tab g c : lstm_gates H (tab B (4 * H) g) (tab B H c) =
  let c' i j := (sigmoid (g i (1 * H + j)%nat) * c i j + sigmoid (g i (0 * H + j)%nat) * tanh (g i (2 * H + j)%nat))%R in
  (tab B H (fun i j => (sigmoid (g i (3 * H + j)%nat) * tanh (c' i j))%R), tab B H c').
Proof. unfold lstm_gates. rewrite !chunk_tab by lia. rewrite !mmap_tab, !mmul_tab, !madd_tab, !mmap_tab, !mmul_tab. reflexivity. Qed.

(** LSTM: for every sequence, batch and initial state, and every time *)
Theorem C130_lstm (Wih Whh : mat) (bih bhh : vec) (s : TS) h0 c0 xs : shape (4 * H) n Wih -> shape (4 * H) H Whh -> length bih = 4 * H -> length bhh = 4 * H ->
  shape B H h0 -> shape B H c0 -> sequence B n xs ->
  let '(os, (hT, cT), _) := run (lstm_cell H (ideal Wih bih) (ideal Whh bhh)) s (h0, c0) xs in
  let at_ b := lstm_at n H Wih Whh bih bhh (sample xs b) (el h0 b) (el c0 b) in
  length os = length xs
  /\ (forall t b j, t < length xs -> b < B -> j < H -> el (nth t os []) b j = fst (at_ b (t + 1)) j)
  /\ (forall b j, b < B -> j < H -> el hT b j = fst (at_ b (length xs)) j /\ el cT b j = snd (at_ b (length xs)) j).
Proof.
  intros S1 S2 L1 L2 Sh Sc F. set (at_ := fun b => lstm_at n H Wih Whh bih bhh (sample xs b) (el h0 b) (el c0 b)).
  pose proof (run_inv (TS := TS) (lstm_cell H (ideal Wih bih) (ideal Whh bhh)) xs
    (fun t hc => hc = (tab B H (fun b => fst (at_ b t)), tab B H (fun b => snd (at_ b t)))) (fun t o => o = tab B H (fun b => fst (at_ b (S t))))) as R.
  assert (St : forall t (s : TS) h, t < length xs -> h = (tab B H (fun b => fst (at_ b t)), tab B H (fun b => snd (at_ b t))) ->
     let '(o, h', _) := lstm_cell H (ideal Wih bih) (ideal Whh bhh) s h (nth t xs []) in
     h' = (tab B H (fun b => fst (at_ b (S t))), tab B H (fun b => snd (at_ b (S t)))) /\ o = tab B H (fun b => fst (at_ b (S t)))).
  { intros t s' h Ht ->. rewrite (sequence_nth B n xs t F Ht). unfold lstm_cell. rewrite (ideal_tab _ _ _ _ _ _ _ S1 L1), (ideal_tab _ _ _ _ _ _ _ S2 L2), madd_tab, lstm_gates_tab. cbv zeta.
    assert (E1 : forall b j, fst (at_ b (S t)) j = (sigmoid (affine Wih bih n (sample xs b t) (3 * H + j)%nat + affine Whh bhh H (fst (at_ b t)) (3 * H + j)%nat) *
        tanh (sigmoid (affine Wih bih n (sample xs b t) (1 * H + j)%nat + affine Whh bhh H (fst (at_ b t)) (1 * H + j)%nat) * snd (at_ b t) j +
              sigmoid (affine Wih bih n (sample xs b t) (0 * H + j)%nat + affine Whh bhh H (fst (at_ b t)) (0 * H + j)%nat) * tanh (affine Wih bih n (sample xs b t) (2 * H + j)%nat + affine Whh bhh H (fst (at_ b t)) (2 * H + j)%nat)))%R).
    { intros b j. unfold at_. cbn [lstm_at]. destruct (lstm_at n H Wih Whh bih bhh (sample xs b) (el h0 b) (el c0 b) t) as [h c]. reflexivity. }
    assert (E2 : forall b j, snd (at_ b (S t)) j = (sigmoid (affine Wih bih n (sample xs b t) (1 * H + j)%nat + affine Whh bhh H (fst (at_ b t)) (1 * H + j)%nat) * snd (at_ b t) j +
              sigmoid (affine Wih bih n (sample xs b t) (0 * H + j)%nat + affine Whh bhh H (fst (at_ b t)) (0 * H + j)%nat) * tanh (affine Wih bih n (sample xs b t) (2 * H + j)%nat + affine Whh bhh H (fst (at_ b t)) (2 * H + j)%nat))%R).
    { intros b j. unfold at_. cbn [lstm_at]. destruct (lstm_at n H Wih Whh bih bhh (sample xs b) (el h0 b) (el c0 b) t) as [h c]. reflexivity. }
    split; [f_equal|]; apply tab_ext; intros b j _ _; rewrite ?E1, ?E2; reflexivity. }
  specialize (R St s (h0, c0)). destruct (run _ s (h0, c0) xs) as [[os [hT cT]] s'].
  destruct R as (R1 & R2 & R3). { f_equal; apply tab_el; assumption. } injection R1 as -> ->.
  split; [exact R2|]. split.
  - intros t b j Ht Hb Hj. rewrite (R3 t Ht), el_tab, Nat.add_1_r by assumption. reflexivity.
  - intros b j Hb Hj. rewrite !el_tab by assumption. split; reflexivity.
Qed.

(** the variant with one combined weight matrix is the same network *)
Lemma affine_app W1 W2 b1 b2 o n1 n2 x y r : shape o n1 W1 -> shape o n2 W2 -> length b1 = o -> length b2 = o -> r < o ->
  affine (map2 (@app R) W1 W2) (vadd b1 b2) (n1 + n2) (fun q => if q <? n1 then x q else y (q - n1)) r = (affine W1 b1 n1 x r + affine W2 b2 n2 y r)%R.
Proof.
  intros [L1 F1] [L2 F2] Lb1 Lb2 Hr. unfold affine.
  assert (N2 : forall {A C D} (f : A -> C -> D) u v k a c d, k < length u -> k < length v -> nth k (map2 f u v) d = f (nth k u a) (nth k v c)).
  { clear. intros A C D f. induction u as [|z u IH]; intros [|w v] k a c d H1 H2; cbn in *; try lia. destruct k; [reflexivity|]. apply IH; lia. }
  unfold vadd. rewrite (N2 _ _ _ Rplus b1 b2 r 0%R 0%R 0%R) by lia.
  assert (E : forall q, el (map2 (@app R) W1 W2) r q = nth q (nth r W1 [] ++ nth r W2 []) 0%R).
  { intros q. unfold el. f_equal. apply N2; [rewrite L1|rewrite L2]; exact Hr. }
  rewrite Sum_app. rewrite Forall_forall in F1, F2.
  assert (Lr : length (nth r W1 []) = n1) by (apply F1, nth_In; rewrite L1; exact Hr).
  rewrite (Sum_ext n1 _ (fun q => (el W1 r q * x q)%R)); [|intros q Hq; rewrite E, app_nth1 by (rewrite Lr; exact Hq); destruct (Nat.ltb_spec q n1); [reflexivity|lia]].
  rewrite (Sum_ext n2 _ (fun q => (el W2 r q * y q)%R)).
  2:{ intros q Hq. rewrite E, app_nth2 by lia. rewrite Lr. replace (n1 + q - n1) with q by lia. destruct (Nat.ltb_spec (n1 + q) n1); [lia|]. replace (n1 + q - n1) with q by lia. reflexivity. }
  ring.
Qed.
Theorem C130_combined (Wih Whh : mat) (bih bhh : vec) (s : TS) h0 c0 xs : shape (4 * H) n Wih -> shape (4 * H) H Whh -> length bih = 4 * H -> length bhh = 4 * H ->
  shape B H h0 -> shape B H c0 -> sequence B n xs ->
  run (lstm_cell_combined H (ideal (map2 (@app R) Wih Whh) (vadd bih bhh))) s (h0, c0) xs = run (lstm_cell H (ideal Wih bih) (ideal Whh bhh)) s (h0, c0) xs.
Proof.
  intros S1 S2 L1 L2 Sh Sc F.
  assert (SW : shape (4 * H) (n + H) (map2 (@app R) Wih Whh)).
  { destruct S1 as [A1 A2], S2 as [B1 B2]. split; [rewrite map2_length, A1, B1; apply Nat.min_id|]. clear - A2 B2. revert Whh B2. induction Wih as [|r W IH]; intros [|q V] B2; cbn; try constructor; inversion A2; inversion B2; subst; [rewrite app_length; congruence|]. apply IH; assumption. }
  assert (Lb : length (vadd bih bhh) = 4 * H) by (unfold vadd; rewrite map2_length, L1, L2; apply Nat.min_id).
  assert (Cat : forall f g, map2 (@app R) (tab B n f) (tab B H g) = tab B (n + H) (fun i q => if q <? n then f i q else g i (q - n))).
  { intros f g. unfold tab. rewrite map2_map_same. apply map_ext. intros i. rewrite seq_app, map_app. f_equal.
    - apply map_ext_in. intros q Hq. apply in_seq in Hq. destruct (Nat.ltb_spec q n); [reflexivity|lia].
    - cbn [Nat.add]. replace (seq n H) with (map (fun j => n + j) (seq 0 H)) by (symmetry; apply seq_by).
      rewrite map_map. apply map_ext. intros j. destruct (Nat.ltb_spec (n + j) n); [lia|]. f_equal. lia. }
  assert (Step : forall (s : TS) h c x, shape B n x -> shape B H h -> shape B H c ->
     lstm_cell_combined H (ideal (map2 (@app R) Wih Whh) (vadd bih bhh)) s (h, c) x = lstm_cell H (ideal Wih bih) (ideal Whh bhh) s (h, c) x
     /\ let '(_, (h', c'), _) := lstm_cell H (ideal Wih bih) (ideal Whh bhh) s (h, c) x in shape B H h' /\ shape B H c').
  { intros s' h c x X1 X2 X3. rewrite (tab_el _ _ _ X1), (tab_el _ _ _ X2), (tab_el _ _ _ X3). unfold lstm_cell, lstm_cell_combined. rewrite Cat.
    rewrite (ideal_tab _ _ _ _ _ _ _ SW Lb), (ideal_tab _ _ _ _ _ _ _ S1 L1), (ideal_tab _ _ _ _ _ _ _ S2 L2), madd_tab.
    match goal with |- (let '(_, _) := lstm_gates H ?a _ in _) = _ /\ _ => assert (E : a = tab B (4 * H) (fun i j => (affine Wih bih n (el x i) j + affine Whh bhh H (el h i) j)%R)) end.
    { apply tab_ext. intros i j Hi Hj. apply affine_app with (o := 4 * H); assumption. }
    rewrite E, lstm_gates_tab. cbv zeta. split; [reflexivity|]. split; apply tab_shape. }
  revert s h0 c0 Sh Sc. unfold sequence in F. induction F as [|x r Fx Fr IH]; intros s h c Sh Sc; [reflexivity|]. cbn [run].
  destruct (Step s h c x Fx Sh Sc) as [E K]. rewrite E. destruct (lstm_cell H (ideal Wih bih) (ideal Whh bhh) s (h, c) x) as [[o [h1 c1]] s1]. destruct K as [K1 K2]. rewrite (IH s1 h1 c1 K1 K2). reflexivity.
Qed.

(** GRU *)
Theorem C130_gru (Wih Whh : mat) (bih bhh : vec) (s : TS) h0 xs : shape (3 * H) n Wih -> shape (3 * H) H Whh -> length bih = 3 * H -> length bhh = 3 * H ->
  shape B H h0 -> sequence B n xs ->
  let '(os, hT, _) := run (gru_cell H (ideal Wih bih) (ideal Whh bhh)) s h0 xs in
  let at_ b := gru_at n H Wih Whh bih bhh (sample xs b) (el h0 b) in
  length os = length xs /\ (forall t b j, t < length xs -> b < B -> j < H -> el (nth t os []) b j = at_ b (t + 1) j)
  /\ (forall b j, b < B -> j < H -> el hT b j = at_ b (length xs) j).
Proof.
  intros S1 S2 L1 L2 Sh F. set (at_ := fun b => gru_at n H Wih Whh bih bhh (sample xs b) (el h0 b)).
  pose proof (run_inv (TS := TS) (gru_cell H (ideal Wih bih) (ideal Whh bhh)) xs (fun t h => h = tab B H (fun b => at_ b t)) (fun t o => o = tab B H (fun b => at_ b (S t)))) as R.
  assert (St : forall t (s : TS) h, t < length xs -> h = tab B H (fun b => at_ b t) -> let '(o, h', _) := gru_cell H (ideal Wih bih) (ideal Whh bhh) s h (nth t xs []) in h' = tab B H (fun b => at_ b (S t)) /\ o = tab B H (fun b => at_ b (S t))).
  { intros t s' h Ht ->. rewrite (sequence_nth B n xs t F Ht). unfold gru_cell. rewrite (ideal_tab _ _ _ _ _ _ _ S1 L1), (ideal_tab _ _ _ _ _ _ _ S2 L2). rewrite !chunk_tab by lia.
    rewrite !madd_tab, !mmap_tab, !mmul_tab, !madd_tab, !mmap_tab, !msub_tab, !mmul_tab, !madd_tab.
    assert (E : tab B H (fun b => at_ b (S t)) = tab B H (fun i j => (tanh (affine Wih bih n (sample xs i t) (2 * H + j)%nat + sigmoid (affine Wih bih n (sample xs i t) (0 * H + j)%nat + affine Whh bhh H (at_ i t) (0 * H + j)%nat) * affine Whh bhh H (at_ i t) (2 * H + j)%nat) +
      sigmoid (affine Wih bih n (sample xs i t) (1 * H + j)%nat + affine Whh bhh H (at_ i t) (1 * H + j)%nat) * (at_ i t j - tanh (affine Wih bih n (sample xs i t) (2 * H + j)%nat + sigmoid (affine Wih bih n (sample xs i t) (0 * H + j)%nat + affine Whh bhh H (at_ i t) (0 * H + j)%nat) * affine Whh bhh H (at_ i t) (2 * H + j)%nat)))%R)).
    { apply tab_ext. intros b j _ _. unfold at_. cbn [gru_at]. ring. }
    split; symmetry; exact E. }
  specialize (R St s h0). destruct (run _ s h0 xs) as [[os hT] s']. destruct R as (-> & R2 & R3). { apply tab_el; assumption. }
  split; [exact R2|]. split.
  - intros t b j Ht Hb Hj. rewrite (R3 t Ht), el_tab, Nat.add_1_r by assumption. reflexivity.
  - intros b j Hb Hj. rewrite el_tab by assumption. reflexivity.
Qed.
(** the vanilla RNN *)
Theorem C130_rnn (Wih Whh : mat) (bih bhh : vec) (s : TS) h0 xs : shape H n Wih -> shape H H Whh -> length bih = H -> length bhh = H ->
  shape B H h0 -> sequence B n xs ->
  let '(os, hT, _) := run (rnn_cell (ideal Wih bih) (ideal Whh bhh)) s h0 xs in
  let at_ b := rnn_at n H Wih Whh bih bhh (sample xs b) (el h0 b) in
  length os = length xs /\ (forall t b j, t < length xs -> b < B -> j < H -> el (nth t os []) b j = at_ b (t + 1) j)
  /\ (forall b j, b < B -> j < H -> el hT b j = at_ b (length xs) j).
Proof.
  intros S1 S2 L1 L2 Sh F. set (at_ := fun b => rnn_at n H Wih Whh bih bhh (sample xs b) (el h0 b)).
  pose proof (run_inv (TS := TS) (rnn_cell (ideal Wih bih) (ideal Whh bhh)) xs (fun t h => h = tab B H (fun b => at_ b t)) (fun t o => o = tab B H (fun b => at_ b (S t)))) as R.
  assert (St : forall t (s : TS) h, t < length xs -> h = tab B H (fun b => at_ b t) -> let '(o, h', _) := rnn_cell (ideal Wih bih) (ideal Whh bhh) s h (nth t xs []) in h' = tab B H (fun b => at_ b (S t)) /\ o = tab B H (fun b => at_ b (S t))).
  { intros t s' h Ht ->. rewrite (sequence_nth B n xs t F Ht). unfold rnn_cell. rewrite (ideal_tab _ _ _ _ _ _ _ S1 L1), (ideal_tab _ _ _ _ _ _ _ S2 L2), madd_tab, mmap_tab. split; reflexivity. }
  specialize (R St s h0). destruct (run _ s h0 xs) as [[os hT] s']. destruct R as (-> & R2 & R3). { apply tab_el; assumption. }
  split; [exact R2|]. split.
  - intros t b j Ht Hb Hj. rewrite (R3 t Ht), el_tab, Nat.add_1_r by assumption. reflexivity.
  - intros b j Hb Hj. rewrite el_tab by assumption. reflexivity.
Qed.
End C130.
Example C130_nontrivial : shape (4 * 1) 2 [[1;2];[3;4];[5;6];[7;8]]%R /\ shape (4 * 1) 1 [[1];[1];[1];[1]]%R /\ sequence 2 2 [[[1;2];[3;4]];[[0;1];[1;1]]]%R /\ shape 2 1 (zeros 2 1).
Proof. repeat split; repeat constructor. Qed.

Print Assumptions C130_lstm.
Print Assumptions C130_combined.
Print Assumptions C130_gru.
Print Assumptions C130_rnn.
