(** * Recurrent networks: lemmas *)
From Verif Require Import Prelude RnnModel CnnModel CnnProofs RnnSpec.
From Coq Require Import Rtrigo_def.
Local Open Scope nat_scope.

(** a matrix given by its elements *)
Definition tab (B H : nat) (f : nat -> nat -> R) : mat := map (fun i => map (f i) (seq 0 H)) (seq 0 B).
Lemma nth_seq_map {A} (f : nat -> A) n k d : k < n -> nth k (map f (seq 0 n)) d = f k.
Proof. intros L. rewrite (nth_indep _ d (f 0)) by (rewrite map_length, seq_length; exact L). rewrite map_nth, seq_nth by exact L. reflexivity. Qed.
Lemma list_tab {A} (l : list A) d : l = map (fun k => nth k l d) (seq 0 (length l)).
Proof.
  apply (nth_ext _ _ d d); [rewrite map_length, seq_length; reflexivity|]. intros k Hk. rewrite nth_seq_map by exact Hk. reflexivity.
Qed.
Lemma tab_el B H m : shape B H m -> m = tab B H (el m).
Proof.
  intros [L F]. unfold tab, el. etransitivity; [apply (list_tab m [])|]. rewrite L. apply map_ext_in. intros i Hi. apply in_seq in Hi.
  rewrite Forall_forall in F. assert (Lr : length (nth i m []) = H) by (apply F, nth_In; lia). etransitivity; [apply (list_tab (nth i m []) 0%R)|]. rewrite Lr. reflexivity.
Qed.
Lemma el_tab B H f i j : i < B -> j < H -> el (tab B H f) i j = f i j.
Proof. intros Hi Hj. unfold el, tab. rewrite nth_seq_map by exact Hi. apply nth_seq_map. exact Hj. Qed.
Lemma tab_shape B H f : shape B H (tab B H f).
Proof. split; [unfold tab; rewrite map_length, seq_length; reflexivity|]. apply Forall_forall. intros r Hr. apply in_map_iff in Hr. destruct Hr as (i & <- & _). rewrite map_length, seq_length. reflexivity. Qed.
Lemma tab_ext B H f g : (forall i j, i < B -> j < H -> f i j = g i j) -> tab B H f = tab B H g.
Proof. intros E. unfold tab. apply map_ext_in. intros i Hi. apply in_seq in Hi. apply map_ext_in. intros j Hj. apply in_seq in Hj. apply E; lia. Qed.
Lemma map2_map_same {A B C D} (f : B -> C -> D) (g : A -> B) (h : A -> C) l : map2 f (map g l) (map h l) = map (fun a => f (g a) (h a)) l.
Proof. induction l as [|a r IH]; [reflexivity|]. cbn. f_equal. exact IH. Qed.
Lemma map2_tab (op : R -> R -> R) B H f g : map2 (map2 op) (tab B H f) (tab B H g) = tab B H (fun i j => op (f i j) (g i j)).
Proof. unfold tab. rewrite map2_map_same. apply map_ext. intros i. apply map2_map_same. Qed.
Lemma madd_tab B H f g : madd (tab B H f) (tab B H g) = tab B H (fun i j => (f i j + g i j)%R).
Proof. exact (map2_tab Rplus B H f g). Qed.
Lemma mmul_tab B H f g : mmul (tab B H f) (tab B H g) = tab B H (fun i j => (f i j * g i j)%R).
Proof. exact (map2_tab Rmult B H f g). Qed.
Lemma msub_tab B H f g : msub (tab B H f) (tab B H g) = tab B H (fun i j => (f i j - g i j)%R).
Proof. exact (map2_tab Rminus B H f g). Qed.
Lemma mmap_tab op B H f : mmap op (tab B H f) = tab B H (fun i j => op (f i j)).
Proof. unfold mmap, tab. rewrite map_map. apply map_ext. intros i. rewrite map_map. reflexivity. Qed.
Lemma slice_tab {A} (f : nat -> A) n a k : a + k <= n -> slice a (a + k) (map f (seq 0 n)) = map (fun j => f (a + j)) (seq 0 k).
Proof.
  intros L. unfold slice. replace (a + k - a) with k by lia. rewrite skipn_map, firstn_map.
  replace n with (a + (k + (n - a - k))) by lia. rewrite seq_app, skipn_app, seq_length, Nat.sub_diag. cbn [skipn]. rewrite skipn_all2 by (rewrite seq_length; lia). cbn [app].
  rewrite seq_app, firstn_app, seq_length, Nat.sub_diag. cbn [firstn]. rewrite app_nil_r, firstn_all2 by (rewrite seq_length; lia).
  cbn [Nat.add]. rewrite <- (map_map (fun j => a + j) f). f_equal. clear. revert a. induction k as [|k IH]; intros a; [reflexivity|]. cbn. rewrite Nat.add_0_r. f_equal.
  rewrite (IH (S a)). rewrite <- (seq_shift k 0), map_map. apply map_ext. intros j. lia.
Qed.
Lemma chunk_tab H k c B f : k < c -> chunk H k (tab B (c * H) f) = tab B H (fun i j => f i (k * H + j)).
Proof.
  intros L. unfold chunk, tab. rewrite map_map. apply map_ext. intros i. apply slice_tab. nia.
Qed.
Lemma dot_Sum (a b : vec) n : length a = n -> length b = n -> dot a b = Sum n (fun q => (nth q a 0 * nth q b 0)%R).
Proof.
  revert b n. induction a as [|v r IH]; intros [|w s] n L1 L2; cbn in *; subst n; try discriminate; [reflexivity|]. injection L2 as L2.
  unfold Sum. cbn. f_equal. rewrite (IH s (length r) eq_refl L2). unfold Sum. rewrite <- seq_shift, map_map. reflexivity.
Qed.
Lemma ideal_tab {TS} (s : TS) W b B n o f : shape o n W -> length b = o ->
  ideal W b s (tab B n f) = (tab B o (fun i r => affine W b n (f i) r), s).
Proof.
  intros [LW FW] Lb. unfold ideal. f_equal. unfold tab. rewrite map_map. apply map_ext. intros i.
  set (x := map (f i) (seq 0 n)). assert (Lx : length x = n) by (unfold x; rewrite map_length, seq_length; reflexivity).
  apply (nth_ext _ _ 0%R 0%R).
  { unfold vadd. rewrite map2_length, matvec_length, map_length, seq_length, LW, Lb. apply Nat.min_id. }
  unfold vadd. rewrite map2_length, matvec_length, LW, Lb, Nat.min_id. intros r Hr. rewrite nth_seq_map by exact Hr.
  assert (N2 : forall (u v : vec) k, k < length u -> k < length v -> nth k (map2 Rplus u v) 0%R = (nth k u 0 + nth k v 0)%R).
  { clear. induction u as [|a u IH]; intros [|c v] k H1 H2; cbn in *; try lia. destruct k; [reflexivity|]. apply IH; lia. }
  rewrite N2 by (rewrite ?matvec_length; lia). unfold affine. f_equal. unfold matvec. assert (Hw : r < length W) by (eapply Nat.lt_le_trans; [exact Hr|apply Nat.eq_le_incl; symmetry; exact LW]). rewrite (nth_indep _ 0%R (dot [] x)) by (rewrite map_length; exact Hw). rewrite (map_nth (fun row => dot row x) W []).
  rewrite Forall_forall in FW. rewrite (dot_Sum _ _ n); [|apply FW, nth_In; exact Hw|exact Lx]. apply Sum_ext. intros q Hq. unfold el, x. rewrite nth_seq_map by exact Hq. reflexivity.
Qed.
Lemma affine_ext W b n f g r : (forall q, q < n -> f q = g q) -> affine W b n f r = affine W b n g r.
Proof. intros E. unfold affine. f_equal. apply Sum_ext. intros q Hq. rewrite E by exact Hq. reflexivity. Qed.

(** ** the loop over time *)
Section Run.
Context {TS X : Type}.
Lemma run_inv (f : cell TS X) (xs : list mat) (P : nat -> X -> Prop) (Q : nat -> mat -> Prop) :
  (forall t s h, t < length xs -> P t h -> let '(o, h', _) := f s h (nth t xs []) in P (S t) h' /\ Q t o) ->
  forall s h, P 0 h -> let '(os, hT, _) := run f s h xs in P (length xs) hT /\ length os = length xs /\ forall t, t < length xs -> Q t (nth t os []).
Proof.
  revert P Q. induction xs as [|x r IH]; intros P Q St s h P0; cbn; [split; [exact P0|split; [reflexivity|intros; lia]]|].
  specialize (St 0 s h ltac:(cbn; lia) P0) as S0. cbn in S0. destruct (f s h x) as [[o h1] s1]. destruct S0 as [P1 Q0].
  specialize (IH (fun t => P (S t)) (fun t => Q (S t))). cbn beta in IH.
  assert (G : forall t s h, t < length r -> P (S t) h -> let '(o, h', _) := f s h (nth t r []) in P (S (S t)) h' /\ Q (S t) o) by (intros t s' h' Ht Pt; apply (St (S t) s' h'); [cbn; lia|exact Pt]).
  specialize (IH G s1 h1 P1). destruct (run f s1 h1 r) as [[os hT] s2]. destruct IH as (I1 & I2 & I3). split; [exact I1|]. split; [cbn; f_equal; exact I2|].
  intros [|t] Ht; [exact Q0|]. cbn. apply I3. cbn in Ht. lia.
Qed.
Lemma run_app (f : cell TS X) s h xs ys :
  run f s h (xs ++ ys) = let '(o1, h1, s1) := run f s h xs in let '(o2, h2, s2) := run f s1 h1 ys in (o1 ++ o2, h2, s2).
Proof.
  revert s h. induction xs as [|x r IH]; intros s h; cbn; [destruct (run f s h ys) as [[? ?] ?]; reflexivity|].
  destruct (f s h x) as [[o h1] s1]. rewrite IH. destruct (run f s1 h1 r) as [[o1 h2] s2]. destruct (run f s2 h2 ys) as [[o2 h3] s3]. reflexivity.
Qed.
Lemma run_length (f : cell TS X) s h xs : length (fst (fst (run f s h xs))) = length xs.
Proof. revert s h. induction xs as [|x r IH]; intros s h; cbn; [reflexivity|]. destruct (f s h x) as [[o h1] s1]. specialize (IH s1 h1). destruct (run f s1 h1 r) as [[os h2] s2]. cbn in *. f_equal. exact IH. Qed.
End Run.
