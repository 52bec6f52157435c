(** * C137: cached quantiles; C138: moving averages *)
From Coq Require Import Permutation Sorted.
From Verif Require Import Prelude CalModel CalSpec CalProofs PeriModel CalProps.
Local Open Scope nat_scope.

(** ** sorting and quantiles *)
Lemma insert_perm v l : Permutation (insert v l) (v :: l).
Proof. induction l as [|a r IH]; cbn; [reflexivity|]. destruct (Rleb v a); [reflexivity|]. rewrite IH. apply perm_swap. Qed.
Lemma sort_perm l : Permutation (sort l) l.
Proof. induction l as [|a r IH]; cbn; [reflexivity|]. etransitivity; [apply insert_perm|]. constructor. exact IH. Qed.
Lemma insert_sorted v l : StronglySorted Rle l -> StronglySorted Rle (insert v l).
Proof.
  intros Hs. induction Hs as [|a r Sr IH Fr]; cbn; [repeat constructor|]. destruct (Rleb v a) eqn:E.
  - apply Rleb_true in E. constructor; [constructor; assumption|]. constructor; [exact E|]. eapply Forall_impl; [|exact Fr]. cbn. intros; lra.
  - apply Rleb_false in E. constructor; [exact IH|]. apply Forall_forall. intros x Hx. apply (Permutation_in _ (insert_perm v r)) in Hx. destruct Hx as [<-|Hx]; [lra|]. rewrite Forall_forall in Fr. auto.
Qed.
Lemma sort_sorted l : StronglySorted Rle (sort l).
Proof. induction l as [|a r IH]; cbn; [constructor|]. apply insert_sorted. exact IH. Qed.
Lemma sorted_unique a : forall b, StronglySorted Rle a -> StronglySorted Rle b -> Permutation a b -> a = b.
Proof.
  induction a as [|x a IH]; intros b Sa Sb P; [apply Permutation_nil in P; subst; reflexivity|]. destruct b as [|y b]; [apply Permutation_sym, Permutation_nil in P; discriminate|].
  inversion Sa as [|? ? Sa' Fa]; inversion Sb as [|? ? Sb' Fb]; subst. rewrite Forall_forall in Fa, Fb.
  assert (x = y).
  { assert (Hx : List.In x (y :: b)) by (apply (Permutation_in _ P); left; reflexivity). assert (Hy : List.In y (x :: a)) by (apply (Permutation_in _ (Permutation_sym P)); left; reflexivity).
    destruct Hx as [->|Hx]; [reflexivity|]. destruct Hy as [->|Hy]; [reflexivity|]. specialize (Fa y Hy). specialize (Fb x Hx). lra. }
  subst y. f_equal. apply IH; [assumption|assumption|]. apply Permutation_cons_inv in P. exact P.
Qed.
Theorem quantile_perm q a b : Permutation a b -> quantile q a = quantile q b.
Proof.
  intros P. unfold quantile. rewrite (Permutation_length P). replace (sort b) with (sort a); [reflexivity|]. apply sorted_unique; [apply sort_sorted|apply sort_sorted|]. rewrite !sort_perm. exact P.
Qed.
Lemma sorted_nth l i j d : StronglySorted Rle l -> i <= j -> j < length l -> (nth i l d <= nth j l d)%R.
Proof.
  intros Hs. revert i j. induction Hs as [|a r Sr IH Fr]; intros i j Hij Hj; [cbn in Hj; lia|]. destruct j as [|j]; [replace i with 0 by lia; cbn; lra|]. cbn in Hj. destruct i as [|i]; cbn.
  - rewrite Forall_forall in Fr. apply Fr. apply nth_In. lia.
  - apply IH; lia.
Qed.
Lemma floor_bounds x : (IZR (floorZ x) <= x < IZR (floorZ x) + 1)%R.
Proof. unfold floorZ. pose proof (base_Int_part x). lra. Qed.
(** the position of the quantile *)
Definition qpos (q : R) (n : nat) : nat := Z.to_nat (floorZ (q * INR (n - 1))).
Lemma qpos_bounds q n : (0 <= q <= 1)%R -> 0 < n -> (INR (qpos q n) <= q * INR (n - 1) < INR (qpos q n) + 1)%R /\ qpos q n <= n - 1.
Proof.
  intros Hq Hn. unfold qpos. pose proof (pos_INR (n - 1)) as Pn. set (p := (q * INR (n - 1))%R). assert (P : (0 <= p <= INR (n - 1))%R) by (unfold p; nra).
  pose proof (floor_bounds p) as F. assert (Z0 : (0 <= floorZ p)%Z). { assert (IZR (-1) < IZR (floorZ p))%R by (cbn; lra). apply lt_IZR in H. lia. }
  rewrite INR_IZR_INZ. rewrite Z2Nat.id by exact Z0. split; [exact F|]. assert (IZR (floorZ p) < IZR (Z.of_nat (n - 1) + 1))%R by (rewrite plus_IZR, <- INR_IZR_INZ; lra). apply lt_IZR in H. lia.
Qed.
Lemma quantile_between q l : (0 <= q <= 1)%R -> l <> [] -> (nth (qpos q (length l)) (sort l) 0 <= quantile q l <= nth (Nat.min (qpos q (length l) + 1) (length l - 1)) (sort l) 0)%R.
Proof.
  intros Hq Hl. assert (Ln : 0 < length l) by (destruct l; [contradiction|cbn; lia]). destruct (qpos_bounds q (length l) Hq Ln) as [[B1 B2] B3]. unfold quantile. fold (qpos q (length l)). set (k := qpos q (length l)) in *.
  assert (Ls : length (sort l) = length l) by (apply Permutation_length, sort_perm).
  destruct (Nat.eq_dec k (length l - 1)) as [->|N].
  - rewrite (nth_overflow (sort l) (n := length l - 1 + 1)) by lia. rewrite Nat.min_r by lia. lra.
  - rewrite Nat.min_l by lia. rewrite (nth_indep (sort l) (nth k (sort l) 0%R) 0%R (n := k + 1)) by lia.
    pose proof (sorted_nth (sort l) k (k + 1) 0%R (sort_sorted l) ltac:(lia) ltac:(lia)) as S1. nra.
Qed.
Lemma count_perm p a b : Permutation a b -> count p a = count p b.
Proof. intros P. unfold count. induction P; cbn; [reflexivity|destruct (p x); cbn; congruence|destruct (p x), (p y); reflexivity|congruence]. Qed.
Lemma sorted_count_above l k m : StronglySorted Rle l -> k < length l -> (nth k l 0 <= m)%R -> count (fun v => Rltb m v) l <= length l - 1 - k.
Proof.
  intros Hs. revert k. induction Hs as [|a r Sr IH Fr]; intros k Lk H; [cbn in Lk; lia|]. cbn in Lk. unfold count in *. cbn [filter].
  assert (Ha : (a <= m)%R). { destruct k as [|k]; [exact H|]. cbn in H. rewrite Forall_forall in Fr. specialize (Fr (nth k r 0%R) ltac:(apply nth_In; lia)). lra. }
  replace (Rltb m a) with false by (symmetry; apply Rltb_false; exact Ha). destruct k as [|k].
  - cbn [length]. rewrite Nat.sub_0_r. replace (S (length r) - 1) with (length r) by lia. clear. induction r as [|b r IH]; cbn; [lia|]. destruct (Rltb m b); cbn; lia.
  - cbn in H. specialize (IH k ltac:(lia) H). cbn [length]. lia.
Qed.
Lemma sorted_count_below l k m : StronglySorted Rle l -> k < length l -> (m <= nth k l 0)%R -> count (fun v => Rltb v m) l <= k.
Proof.
  intros Hs. revert k. induction Hs as [|a r Sr IH Fr]; intros k Lk H; [cbn in Lk; lia|]. cbn in Lk. unfold count in *. cbn [filter]. destruct k as [|k].
  - cbn in H. replace (Rltb a m) with false by (symmetry; apply Rltb_false; exact H). assert (F0 : filter (fun v => Rltb v m) r = []); [|rewrite F0; cbn; lia].
    clear - Fr H. induction Fr as [|b r Hb Fr IH]; [reflexivity|]. cbn. replace (Rltb b m) with false by (symmetry; apply Rltb_false; lra). exact IH.
  - cbn in H. specialize (IH k ltac:(lia) H). destruct (Rltb a m); cbn; lia.
Qed.
(** what the quantile means: at most a fraction 1 - q of the values is larger, at most a fraction q is smaller *)
Theorem C137_quantile q l : (0 <= q <= 1)%R -> l <> [] ->
  (INR (count (fun v => Rltb (quantile q l) v) l) < (1 - q) * INR (length l - 1) + 1)%R
  /\ (INR (count (fun v => Rltb v (quantile q l)) l) <= q * INR (length l - 1) + 1)%R
  /\ (exists v, List.In v l /\ v <= quantile q l)%R /\ (exists v, List.In v l /\ quantile q l <= v)%R.
Proof.
  intros Hq Hl. assert (Ln : 0 < length l) by (destruct l; [contradiction|cbn; lia]). destruct (qpos_bounds q (length l) Hq Ln) as [[B1 B2] B3]. destruct (quantile_between q l Hq Hl) as [Q1 Q2]. set (k := qpos q (length l)) in *.
  assert (Ls : length (sort l) = length l) by (apply Permutation_length, sort_perm).
  repeat split.
  - rewrite <- (count_perm _ _ _ (sort_perm l)). pose proof (sorted_count_above (sort l) k (quantile q l) (sort_sorted l) ltac:(lia) Q1) as C. rewrite Ls in C. apply le_INR in C. rewrite (minus_INR (length l - 1) k) in C by lia. lra.
  - rewrite <- (count_perm _ _ _ (sort_perm l)). pose proof (sorted_count_below (sort l) (Nat.min (k + 1) (length l - 1)) (quantile q l) (sort_sorted l) ltac:(lia) Q2) as C. assert (C2 : count (fun v => Rltb v (quantile q l)) (sort l) <= k + 1) by lia. apply le_INR in C2. rewrite plus_INR in C2. cbn in C2. lra.
  - exists (nth k (sort l) 0%R). split; [|exact Q1]. apply (Permutation_in _ (sort_perm l)). apply nth_In. lia.
  - eexists. split; [|exact Q2]. apply (Permutation_in _ (sort_perm l)). apply nth_In. lia.
Qed.

(** ** the cache *)
Definition shuffles (calls : list call) : Prop := forall i x perm, List.In (i, x, perm) calls -> forall l, Permutation (perm l) l.
Lemma cache_run q ms xs : (forall x perm, List.In (x, perm) xs -> forall l, Permutation (perm l) l) -> forall t e,
  length (e_rows e) <= ms -> e_max e = None -> exists rows rest,
  hook_run CacheQuantile q ms t e xs = Ok (t, {| e_perfect := e_perfect e; e_rows := rows; e_max := None |})
  /\ Permutation (rows ++ rest) (e_rows e ++ nonzero (concat (map fst xs))) /\ length rows = Nat.min ms (length (e_rows e) + length (nonzero (concat (map fst xs)))).
Proof.
  intros Sh. induction xs as [|[x perm] r IH]; intros t e Le Em.
  - exists (e_rows e), []. cbn. split; [destruct e; cbn in *; subst; reflexivity|]. split; [rewrite !app_nil_r; reflexivity|]. lia.
  - cbn [hook_run hook bind fst snd]. assert (Pp := Sh x perm (or_introl eq_refl) (e_rows e ++ nonzero x)).
    destruct (IH ltac:(intros; eapply Sh; right; eassumption) t {| e_perfect := e_perfect e; e_rows := firstn ms (perm (e_rows e ++ nonzero x)); e_max := e_max e |}) as (rows & rest & E & P & L).
    { cbn. apply firstn_le_length. } { exact Em. }
    cbn [e_perfect e_rows e_max] in *. exists rows, (skipn ms (perm (e_rows e ++ nonzero x)) ++ rest). split; [exact E|].
    assert (En : nonzero (concat (map fst ((x, perm) :: r))) = nonzero x ++ nonzero (concat (map fst r))) by (cbn; unfold nonzero; apply filter_app).
    rewrite En. pose proof (Permutation_length Pp) as Lp. rewrite app_length in Lp. split.
    + rewrite Permutation_app_comm, <- app_assoc. rewrite (Permutation_app_comm rest rows), P. rewrite app_assoc. rewrite (Permutation_app_comm (skipn ms _)), firstn_skipn, Pp, <- app_assoc. reflexivity.
    + rewrite L, firstn_length. unfold mat, vec in *. rewrite app_length. lia.
Qed.
Lemma flat_perm a b : Permutation a b -> Permutation (flat a) (flat b).
Proof. intros P. unfold flat. induction P; cbn; [reflexivity|apply Permutation_app_head; assumption|rewrite !app_assoc; apply Permutation_app_tail, Permutation_app_comm|etransitivity; eassumption]. Qed.
Theorem C137_cache_quantile q ms alpha force n calls s : (forall i, i < n -> ready force (s_tile s i)) -> shuffles calls ->
  exists s', calibrate CacheQuantile q ms alpha force true n calls s = (s', None) /\
  forall i, i < n -> exists rows rest, Permutation (rows ++ rest) (nonzero (rows_of i calls)) /\ length rows = Nat.min ms (length (nonzero (rows_of i calls))) /\
    if match concat rows with [] => true | _ => false end then l_range (s_tile s' i) = start_range (s_tile s i)
    else l_range (s_tile s' i) = Some (Rabs (quantile q (concat rows))) /\ k_init (l_cfg (s_tile s' i)) = Rabs (quantile q (concat rows)) /\ k_info (l_cfg (s_tile s' i)) = Some CacheQuantile.
Proof.
  intros Rd Sh.
  assert (C : forall i t e, length (e_rows e) <= ms -> e_max e = None -> exists rows rest, hook_run CacheQuantile q ms t e (mine i calls) = Ok (t, {| e_perfect := e_perfect e; e_rows := rows; e_max := None |})
    /\ Permutation (rows ++ rest) (e_rows e ++ nonzero (rows_of i calls)) /\ length rows = Nat.min ms (length (e_rows e) + length (nonzero (rows_of i calls)))).
  { intros i t e L1 L2. rewrite mine_rows. apply cache_run; [|exact L1|exact L2]. intros x perm Hx. apply mine_in in Hx. eapply Sh. exact Hx. }
  destruct (calibrate_ok CacheQuantile q ms alpha force n calls s) as (s' & E & _ & L & _).
  - discriminate.
  - intros i Hi. apply ready_wf. apply Rd. exact Hi.
  - intros i Hi. destruct (C i (prep CacheQuantile alpha (s_tile s i)) (entry0 (s_tile s i))) as (rows & rest & A & _); [cbn; lia|reflexivity|]. eexists. exact A.
  - exists s'. split; [exact E|]. intros i Hi. destruct (L i Hi) as (t1 & e1 & A & B). destruct (C i (prep CacheQuantile alpha (s_tile s i)) (entry0 (s_tile s i))) as (rows & rest & A' & P & Ln); [cbn; lia|reflexivity|]. rewrite A' in A. injection A as <- <-.
    exists rows, rest. split; [exact P|]. split; [exact Ln|]. rewrite B.
    destruct (ready_wf _ _ (Rd i Hi)) as [W _]. destruct (prep_start CacheQuantile alpha _ W) as (P1 & _ & _). destruct (prep_facts CacheQuantile alpha _ W) as (_ & _ & P2 & _).
    unfold fin. cbn [e_rows e_max e_perfect entry0 unhook with_hooks l_range]. unfold flat. destruct (concat rows) as [|v l] eqn:Ec; [cbn; exact P1|].
    destruct (l_range (prep CacheQuantile alpha (s_tile s i))) as [r1|] eqn:Er; [|contradiction]. cbn. auto.
Qed.
(** with at most max_samples rows the result does not depend on how the data is cut into batches, on its order or on the shuffling *)
Theorem C137_all_cached q ms alpha force n calls s i : (forall i, i < n -> ready force (s_tile s i)) -> shuffles calls -> i < n ->
  length (nonzero (rows_of i calls)) <= ms -> concat (nonzero (rows_of i calls)) <> [] ->
  exists s', calibrate CacheQuantile q ms alpha force true n calls s = (s', None) /\ l_range (s_tile s' i) = Some (Rabs (quantile q (concat (nonzero (rows_of i calls))))).
Proof.
  intros Rd Sh Hi Lm Ne. destruct (C137_cache_quantile q ms alpha force n calls s Rd Sh) as (s' & E & H). exists s'. split; [exact E|]. destruct (H i Hi) as (rows & rest & P & L & K).
  rewrite Nat.min_r in L by exact Lm. assert (rest = []) as -> by (apply Permutation_length in P; rewrite app_length in P; unfold mat, vec in *; destruct rest; [reflexivity|cbn in P; lia]). rewrite app_nil_r in P. apply flat_perm in P. unfold flat in P.
  destruct (concat rows) as [|v l] eqn:Ec; [apply Permutation_nil in P; contradiction|]. destruct K as [K _]. rewrite K. f_equal. f_equal. apply quantile_perm. exact P.
Qed.
(** the quantile is that of the values, not of their magnitudes: with quantile 1 a value of magnitude 10 is clipped to 1 *)
Definition base_cfg : cfg := {| k_prepost := true; k_forward := true; k_enable := false; k_learn := true; k_from_data := 100%Z; k_alpha := 3%R; k_init := 3%R; k_info := None; k_nm := false; k_perfect := false |}.
Definition base_tile : tile := {| l_cfg := base_cfg; l_sim := (false, false); l_range := None; l_idx := 0; l_hooks := 0 |}.
Definition base_state : cstate := {| s_tile := fun _ => base_tile; s_entry := fun _ => None; s_train := true |}.
Lemma base_ready i n : i < n -> ready true (s_tile base_state i).
Proof. intros _. split; [reflexivity|]. split; [discriminate|left; reflexivity]. Qed.
Theorem C137_magnitudes_refuted : exists calls, shuffles calls /\ (exists s', calibrate CacheQuantile 1 1000 None true true 1 calls base_state = (s', None) /\ l_range (s_tile s' 0) = Some 1%R) /\ List.In (-10)%R (values_of 0 calls).
Proof.
  exists [(0, [[-10; 1]%R], fun l => l)]. split; [intros i x perm [[= <- <- <-]|[]] l; reflexivity|]. split; [|left; reflexivity].
  assert (Nz : nonzero (rows_of 0 [(0, [[-10; 1]%R], fun l => l)]) = [[-10; 1]%R]).
  { unfold rows_of. cbn. replace (Reqb (-10) 0) with false by (symmetry; apply Reqb_false; lra). reflexivity. }
  destruct (C137_all_cached 1 1000 None true 1 [(0, [[-10; 1]%R], fun l => l)] base_state 0) as (s' & E & K).
  - intros i Hi. eapply base_ready. exact Hi.
  - intros i x perm [[= <- <- <-]|[]] l. reflexivity.
  - lia.
  - rewrite Nz. cbn. lia.
  - rewrite Nz. discriminate.
  - exists s'. split; [exact E|]. rewrite K, Nz. f_equal. cbn [concat app].
    assert (Hs : sort [-10; 1]%R = [-10; 1]%R) by (cbn; replace (Rleb (-10) 1) with true by (symmetry; apply Rleb_true; lra); reflexivity).
    unfold quantile. rewrite Hs. cbn [length Nat.sub INR]. replace (1 * 1)%R with (IZR 1) by lra. assert (Fl : floorZ (IZR 1) = 1%Z) by (pose proof (floor_bounds (IZR 1)) as [F1 F2]; apply le_IZR in F1; rewrite <- plus_IZR in F2; apply lt_IZR in F2; lia). rewrite Fl. change (Z.to_nat 1) with 1. cbn. rewrite Rabs_right; lra.
Qed.

Print Assumptions C137_quantile.
Print Assumptions C137_cache_quantile.
Print Assumptions C137_all_cached.
Print Assumptions C137_magnitudes_refuted.
