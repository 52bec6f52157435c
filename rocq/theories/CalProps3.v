(** * C138: moving averages; C139-C142: what a calibration leaves behind *)
From Coq Require Import Permutation.
From Verif Require Import Prelude CalModel CalSpec CalProofs PeriModel CalProps CalProps2.
Local Open Scope nat_scope.

(** ** C138: moving averages *)
Lemma mine_batches i calls : batches i calls = map fst (mine i calls).
Proof. unfold batches, mine. rewrite map_map. reflexivity. Qed.
Lemma data_flat x : has_data x -> flat (nonzero x) <> [].
Proof. intros (row & v & H1 & H2 & H3) E. assert (K : List.In v (flat (nonzero x))) by (apply flat_in; exists row; split; [apply nonzero_in; split; [exact H1|exists v; auto]|exact H2]). rewrite E in K. destruct K. Qed.
Lemma average_step r0 k v vs : (0 <= r0)%R -> (0 < v)%R -> Forall (fun w => 0 < w)%R vs ->
  moving_average (Rabs ((r0 * INR k + v) / INR (k + 1))) (k + 1) vs = moving_average r0 k (v :: vs).
Proof.
  intros P0 Pv Fv. assert (Pk : (0 < INR (k + 1))%R) by (apply lt_0_INR; lia). pose proof (pos_INR k). assert (Pa : (0 <= (r0 * INR k + v) / INR (k + 1))%R) by (apply Rmult_le_pos; [nra|left; apply Rinv_0_lt_compat; exact Pk]). rewrite Rabs_right by lra.
  unfold moving_average. destruct vs as [|w vs]; cbn [sumR length]; [f_equal; lra|]. replace (k + S (S (length vs))) with (k + 1 + S (length vs)) by lia. f_equal. field_simplify; [|lra]. lra.
Qed.
Definition moved (t : tile) (r0 : R) (vs : vec) : tile := match vs with [] => t | _ => with_idx (with_range t (Some (moving_average r0 (l_idx t) vs))) (l_idx t + length vs) end.
Definition quantile_value (q : R) (x : mat) : R := if Reqb q 1 then maxabs (flat (nonzero x)) else quantile q (flat (nonzero x)).
Definition std_value (alpha : R) (x : mat) : R := match std (flat (nonzero x)) with Some s => (alpha * s)%R | None => 0%R end.
Lemma pos_filter l : Forall (fun w => 0 < w)%R (filter (Rltb 0) l).
Proof. apply Forall_forall. intros v Hv. apply filter_In in Hv. destruct Hv as [_ Hv]. apply Rltb_true in Hv. exact Hv. Qed.
Lemma Forall_firstn {A} (P : A -> Prop) k l : Forall P l -> Forall P (firstn k l).
Proof. intros F. apply Forall_forall. rewrite Forall_forall in F. intros x Hx. apply F. rewrite <- (firstn_skipn k l). apply in_or_app. left. exact Hx. Qed.
Lemma quantile_run q ms xs : forall t e r0, Forall (fun p : mat * (mat -> mat) => flat (nonzero (fst p)) <> []) xs -> l_range t = Some r0 -> (0 <= r0)%R ->
  hook_run MovingQuantile q ms t e xs = Ok (moved t r0 (filter (Rltb 0) (map (fun p => quantile_value q (fst p)) xs)), e).
Proof.
  induction xs as [|[x perm] r IH]; intros t e r0 F Er P0; [reflexivity|]. inversion F as [|? ? Hx Fr]; subst. cbn [hook_run hook fst map] in *. fold (quantile_value q x).
  destruct (flat (nonzero x)) as [|a l] eqn:Ef; [contradiction|]. cbn [filter]. destruct (Rltb 0 (quantile_value q x)) eqn:Ev.
  - apply Rltb_true in Ev. rewrite Er. cbn [bind fst snd]. rewrite (IH _ _ (Rabs ((r0 * INR (l_idx t) + quantile_value q x) / INR (l_idx t + 1)))); [|exact Fr|reflexivity|apply Rabs_pos].
    f_equal. f_equal. set (vs := filter (Rltb 0) _). assert (Fv : Forall (fun w => 0 < w)%R vs) by apply pos_filter.
    unfold moved at 2. rewrite <- (average_step r0 (l_idx t) (quantile_value q x) vs P0 Ev Fv). destruct vs as [|w vs]; [reflexivity|]. unfold moved, set_range, with_idx, with_range. cbn [l_cfg l_sim l_range l_idx l_hooks length]. f_equal. lia.
  - cbn [bind fst snd]. apply IH; assumption.
Qed.
Lemma std_run q ms xs : forall t e r0, l_range t = Some r0 -> (0 <= r0)%R ->
  hook_run MovingStd q ms t e xs = Ok (moved t r0 (firstn (ms - l_idx t) (filter (Rltb 0) (map (fun p => std_value (k_alpha (l_cfg t)) (fst p)) xs))), e).
Proof.
  induction xs as [|[x perm] r IH]; intros t e r0 Er P0; [rewrite firstn_nil; reflexivity|]. cbn [hook_run hook fst map] in *. fold (std_value (k_alpha (l_cfg t)) x). cbn [filter].
  destruct (Nat.ltb_spec (l_idx t) ms) as [Lt|Ge].
  - destruct (Rltb 0 (std_value (k_alpha (l_cfg t)) x)) eqn:Ev.
    + apply Rltb_true in Ev. rewrite Er. cbn [bind fst snd]. rewrite (IH _ _ (Rabs ((r0 * INR (l_idx t) + std_value (k_alpha (l_cfg t)) x) / INR (l_idx t + 1)))); [|reflexivity|apply Rabs_pos].
      cbn [with_idx set_range with_range l_idx l_cfg]. replace (ms - l_idx t) with (S (ms - (l_idx t + 1))) by lia. cbn [firstn]. f_equal. f_equal. set (vs := firstn _ (filter (Rltb 0) _)).
      assert (Fv : Forall (fun w => 0 < w)%R vs) by (apply Forall_firstn, pos_filter). unfold moved at 2. rewrite <- (average_step r0 (l_idx t) _ vs P0 Ev Fv). destruct vs as [|w vs]; [reflexivity|]. unfold moved, set_range, with_idx, with_range. cbn [l_cfg l_sim l_range l_idx l_hooks length]. f_equal. lia.
    + cbn [bind fst snd]. apply IH; assumption.
  - replace (Rltb 0 0) with false by (symmetry; apply Rltb_false; lra). cbn [bind fst snd]. rewrite (IH t e r0 Er P0). replace (ms - l_idx t) with 0 by lia. rewrite !firstn_O. reflexivity.
Qed.
Lemma Ok_pair {A B} (a c : A) (b d : B) : Ok (a, b) = Ok (c, d) -> a = c /\ b = d.
Proof. intros [= -> ->]. auto. Qed.
Lemma fin_moving ct q t e : e_rows e = [] -> e_max e = None -> fin ct q t e = t.
Proof. intros E1 E2. unfold fin. rewrite E1, E2. reflexivity. Qed.
Lemma moved_facts t r0 vs : l_range t = Some r0 -> l_range (moved t r0 vs) = Some (moving_average r0 (l_idx t) vs) /\ l_idx (moved t r0 vs) = l_idx t + length vs /\ l_cfg (moved t r0 vs) = l_cfg t.
Proof. intros E. destruct vs; cbn; rewrite ?Nat.add_0_r; auto. Qed.
Lemma prep_info (ct : ctype) alpha t : k_init (l_cfg (prep ct alpha t)) = k_init (l_cfg t) /\ k_info (l_cfg (prep ct alpha t)) = k_info (l_cfg t).
Proof. unfold prep. destruct t as [[a b c d f g h i j k] s r ix hk]. cbn. destruct c, j, (caching ct), k; cbn; auto. Qed.
Lemma prep_ne (ct : ctype) (alpha : option R) t : wf t -> start_range t <> None.
Proof. intros W. destruct (prep_facts ct alpha t W) as (_ & _ & P & _). destruct (prep_start ct alpha t W) as (E & _). congruence. Qed.

(** the new input range is the average over the batches of the positive quantiles (with quantile 1: of the largest magnitudes), weighted
    with the values that went into the range before; nothing is recorded in the configuration *)
Theorem C138_moving_quantile q ms alpha force n calls s : (forall i, i < n -> ready force (s_tile s i)) -> (forall i x perm, List.In (i, x, perm) calls -> has_data x) ->
  (forall i r, i < n -> start_range (s_tile s i) = Some r -> (0 <= r)%R) ->
  exists s', calibrate MovingQuantile q ms alpha force true n calls s = (s', None) /\ forall i, i < n -> exists r0, start_range (s_tile s i) = Some r0 /\
    let vs := filter (Rltb 0) (map (fun x => if Reqb q 1 then maxabs (concat x) else quantile q (concat (nonzero x))) (batches i calls)) in
    l_range (s_tile s' i) = Some (moving_average r0 (start_idx (s_tile s i)) vs) /\ l_idx (s_tile s' i) = start_idx (s_tile s i) + length vs
    /\ k_init (l_cfg (s_tile s' i)) = k_init (l_cfg (s_tile s i)) /\ k_info (l_cfg (s_tile s' i)) = k_info (l_cfg (s_tile s i)).
Proof.
  intros Rd Dt P0.
  assert (Nm : forall i, Forall (fun p : mat * (mat -> mat) => flat (nonzero (fst p)) <> []) (mine i calls)) by (intros i; apply Forall_forall; intros [x p] Hx; apply mine_in in Hx; apply data_flat; eapply Dt; exact Hx).
  assert (Hr : forall i, i < n -> exists r0, start_range (s_tile s i) = Some r0 /\ (0 <= r0)%R /\
     hook_run MovingQuantile q ms (prep MovingQuantile alpha (s_tile s i)) (entry0 (s_tile s i)) (mine i calls) = Ok (moved (prep MovingQuantile alpha (s_tile s i)) r0 (filter (Rltb 0) (map (fun p => quantile_value q (fst p)) (mine i calls))), entry0 (s_tile s i))).
  { intros i Hi. destruct (ready_wf _ _ (Rd i Hi)) as [W _]. pose proof (prep_ne MovingQuantile alpha _ W) as Ne. destruct (start_range (s_tile s i)) as [r0|] eqn:Er; [|contradiction]. exists r0. split; [reflexivity|]. split; [eapply P0; eassumption|].
    apply quantile_run; [apply Nm|rewrite (proj1 (prep_start MovingQuantile alpha _ W)); exact Er|eapply P0; eassumption]. }
  destruct (calibrate_ok MovingQuantile q ms alpha force n calls s) as (s' & E & _ & L & _).
  - discriminate.
  - intros i Hi. apply ready_wf. apply Rd. exact Hi.
  - intros i Hi. destruct (Hr i Hi) as (r0 & _ & _ & A). eexists. exact A.
  - exists s'. split; [exact E|]. intros i Hi. destruct (L i Hi) as (t1 & e1 & A & B). destruct (Hr i Hi) as (r0 & Er & Pr & A'). rewrite A' in A. injection A as <- <-. exists r0. split; [exact Er|]. cbv zeta.
    rewrite fin_moving in B by reflexivity. destruct (ready_wf _ _ (Rd i Hi)) as [W _]. destruct (prep_start MovingQuantile alpha _ W) as (P1 & P2 & _). destruct (prep_info MovingQuantile alpha (s_tile s i)) as [I1 I2].
    assert (Ev : map (fun p : mat * (mat -> mat) => quantile_value q (fst p)) (mine i calls) = map (fun x => if Reqb q 1 then maxabs (concat x) else quantile q (concat (nonzero x))) (batches i calls)).
    { rewrite mine_batches, map_map. apply map_ext. intros [x p]. cbn [fst]. unfold quantile_value. rewrite maxabs_flat_nonzero. reflexivity. }
    rewrite Ev in B. rewrite Er in P1. destruct (moved_facts _ _ (filter (Rltb 0) (map (fun x => if Reqb q 1 then maxabs (concat x) else quantile q (concat (nonzero x))) (batches i calls))) P1) as (M1 & M2 & M3).
    rewrite B. cbn [unhook with_hooks l_range l_idx l_cfg]. rewrite M1, M2, M3, P2, I1, I2. auto.
Qed.
(** the same for the standard deviation; at most max_samples values in all are used *)
Theorem C138_moving_std q ms alpha force n calls s : (forall i, i < n -> ready force (s_tile s i)) -> (forall i r, i < n -> start_range (s_tile s i) = Some r -> (0 <= r)%R) ->
  exists s', calibrate MovingStd q ms alpha force true n calls s = (s', None) /\ forall i, i < n -> exists r0, start_range (s_tile s i) = Some r0 /\
    let a := match alpha with Some a => a | None => k_alpha (l_cfg (s_tile s i)) end in
    let vs := firstn (ms - start_idx (s_tile s i)) (filter (Rltb 0) (map (fun x => match std (concat (nonzero x)) with Some d => (a * d)%R | None => 0%R end) (batches i calls))) in
    l_range (s_tile s' i) = Some (moving_average r0 (start_idx (s_tile s i)) vs) /\ l_idx (s_tile s' i) = start_idx (s_tile s i) + length vs
    /\ k_init (l_cfg (s_tile s' i)) = k_init (l_cfg (s_tile s i)) /\ k_info (l_cfg (s_tile s' i)) = k_info (l_cfg (s_tile s i)).
Proof.
  intros Rd P0.
  assert (Hr : forall i, i < n -> exists r0, start_range (s_tile s i) = Some r0 /\ (0 <= r0)%R /\ let t := prep MovingStd alpha (s_tile s i) in
     hook_run MovingStd q ms t (entry0 (s_tile s i)) (mine i calls) = Ok (moved t r0 (firstn (ms - l_idx t) (filter (Rltb 0) (map (fun p => std_value (k_alpha (l_cfg t)) (fst p)) (mine i calls)))), entry0 (s_tile s i))).
  { intros i Hi. destruct (ready_wf _ _ (Rd i Hi)) as [W _]. pose proof (prep_ne MovingStd alpha _ W) as Ne. destruct (start_range (s_tile s i)) as [r0|] eqn:Er; [|contradiction]. exists r0. split; [reflexivity|]. split; [eapply P0; eassumption|].
    cbv zeta. apply std_run; [rewrite (proj1 (prep_start MovingStd alpha _ W)); exact Er|eapply P0; eassumption]. }
  destruct (calibrate_ok MovingStd q ms alpha force n calls s) as (s' & E & _ & L & _).
  - discriminate.
  - intros i Hi. apply ready_wf. apply Rd. exact Hi.
  - intros i Hi. destruct (Hr i Hi) as (r0 & _ & _ & A). eexists. exact A.
  - exists s'. split; [exact E|]. intros i Hi. destruct (L i Hi) as (t1 & e1 & A & B). destruct (Hr i Hi) as (r0 & Er & Pr & A'). cbv zeta in A'. rewrite A' in A. apply Ok_pair in A. destruct A as [<- <-]. exists r0. split; [exact Er|]. cbv zeta.
    rewrite fin_moving in B by reflexivity. destruct (ready_wf _ _ (Rd i Hi)) as [W _]. destruct (prep_start MovingStd alpha _ W) as (P1 & P2 & P3). destruct (prep_info MovingStd alpha (s_tile s i)) as [I1 I2].
    rewrite P3, P2 in B. set (a := match alpha with Some a => a | None => k_alpha (l_cfg (s_tile s i)) end) in *.
    assert (Ev : map (fun p : mat * (mat -> mat) => std_value a (fst p)) (mine i calls) = map (fun x => match std (concat (nonzero x)) with Some d => (a * d)%R | None => 0%R end) (batches i calls)) by (rewrite mine_batches, map_map; reflexivity).
    rewrite Ev in B. rewrite Er in P1. set (vs := firstn _ _) in *. destruct (moved_facts _ _ vs P1) as (M1 & M2 & M3).
    rewrite B. cbn [unhook with_hooks l_range l_idx l_cfg]. rewrite M1, M2, M3, P2, I1, I2. auto.
Qed.
(** for a tile without earlier values it is the plain average *)
Theorem C138_fresh r0 vs : vs <> [] -> moving_average r0 0 vs = (sumR vs / INR (length vs))%R.
Proof. intros N. destruct vs; [contradiction|]. unfold moving_average. f_equal. cbn [INR]. rewrite Rmult_0_r, Rplus_0_l. reflexivity. Qed.

Print Assumptions C138_moving_quantile.
Print Assumptions C138_moving_std.
Print Assumptions C138_fresh.
