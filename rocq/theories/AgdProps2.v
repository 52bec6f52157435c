(** * When the choppers of a dynamic transfer device switch (C156) *)
From Verif Require Import Prelude Rand DevModel PulseModel CompModel TransModel TransSpec TransProofs AgdModel AgdSpec AgdProofs AgdProps.
Local Open Scope R_scope.

Lemma div_S ns q : (0 < ns)%nat -> (S q / ns = if (q mod ns + 1 =? ns)%nat then q / ns + 1 else q / ns)%nat.
Proof.
  intros H. pose proof (Nat.div_mod q ns ltac:(lia)) as D. pose proof (Nat.mod_upper_bound q ns ltac:(lia)) as U. destruct (Nat.eqb_spec (q mod ns + 1) ns) as [E|E].
  - symmetry. apply Nat.div_unique with 0%nat; [lia|]. rewrite Nat.mul_add_distr_l. lia.
  - symmetry. apply Nat.div_unique with (q mod ns + 1)%nat; lia.
Qed.
Lemma n_samples_2 c : (2 <= n_samples c)%nat.
Proof. unfold n_samples, chop_period. destruct (Rltb _ _); lia. Qed.
(** events of ordinary training *)
Lemma ordinary_cases c s e lr cl ev val coin : e = AUp lr cl ev val coin -> lr <> 0 -> let s' := a_step c s e in
  (same_core s s' /\ g_idx s' = g_idx s) \/ (same_core (a_read c lr cl (g_idx s) val coin s) s' /\ g_idx s' = ((g_idx s + 1) mod a_in c)%nat).
Proof.
  intros -> N. cbn [a_step]. destruct (_ && _)%bool; [|left; split; [repeat split | reflexivity]]. right. unfold a_transfer, a_read. rewrite (proj2 (Reqb_false lr 0) N). split; [repeat split | reflexivity].
Qed.
Definition in_turn (c : acfg) (s : ast) : Prop := let n := length (g_log s) in
  g_idx s = (n mod a_in c)%nat /\ g_cnt s = (n / a_in c)%nat /\
  forall k, (k < a_in c)%nat -> g_readsof k (g_log s) = (if (k <? n mod a_in c)%nat then n / a_in c + 1 else n / a_in c)%nat.
Lemma turn_step c s e : (0 < a_in c)%nat -> no_set [e] -> nonzero [e] -> in_turn c s -> in_turn c (a_step c s e).
Proof.
  intros P NS NZ (I1 & I2 & I3). inversion NS as [|? ? NS1 _]; subst. inversion NZ as [|? ? NZ1 _]; subst. destruct e as [lr cl ev val coin|]; [|contradiction].
  destruct (ordinary_cases c s _ lr cl ev val coin eq_refl NZ1) as [[(_ & _ & _ & _ & _ & _ & C7 & C8) Ci] | [(_ & _ & _ & _ & _ & _ & C7 & C8) Ci]].
  { unfold in_turn. rewrite C8, C7, Ci. auto. }
  destruct (a_read_fields c lr cl (g_idx s) val coin s NZ1) as (_ & _ & _ & _ & _ & _ & R7 & R8). rewrite R7 in C7. rewrite R8 in C8. unfold in_turn. rewrite C8, C7, Ci. cbn [length]. set (n := length (g_log s)) in *. rewrite I1, I2.
  pose proof (Nat.mod_upper_bound n (a_in c) ltac:(lia)) as U. pose proof (Nat.div_mod n (a_in c) ltac:(lia)) as D.
  assert (Em : (S n mod a_in c = if (n mod a_in c =? a_in c - 1)%nat then 0 else n mod a_in c + 1)%nat). { destruct (Nat.eqb_spec (n mod a_in c) (a_in c - 1)) as [E|E]; cbv iota; symmetry; [apply Nat.mod_unique with (n / a_in c + 1)%nat | apply Nat.mod_unique with (n / a_in c)%nat]; [lia | rewrite Nat.mul_add_distr_l; lia | lia | lia]. }
  assert (Ed : (S n / a_in c = if (n mod a_in c =? a_in c - 1)%nat then S (n / a_in c) else n / a_in c)%nat). { rewrite div_S by lia. replace (n mod a_in c + 1 =? a_in c)%nat with (n mod a_in c =? a_in c - 1)%nat; [destruct (n mod a_in c =? a_in c - 1)%nat; cbv iota; lia|]. destruct (Nat.eqb_spec (n mod a_in c) (a_in c - 1)), (Nat.eqb_spec (n mod a_in c + 1) (a_in c)); lia. }
  split; [rewrite Em; destruct (Nat.eqb_spec (n mod a_in c) (a_in c - 1)) as [E|E]; [rewrite E; replace (a_in c - 1 + 1)%nat with (a_in c) by lia; apply Nat.mod_same; lia | apply Nat.mod_small; lia]|].
  split; [rewrite Ed; reflexivity|]. intros k Hk. unfold g_readsof. cbn [filter q_k ard_of]. specialize (I3 k Hk). fold n in I3. unfold g_readsof in I3. rewrite Em, Ed.
  destruct (Nat.eqb_spec (n mod a_in c) k) as [E|E]; cbn [length]; rewrite I3; destruct (Nat.eqb_spec (n mod a_in c) (a_in c - 1)); repeat match goal with |- context [(?a <? ?b)%nat] => destruct (Nat.ltb_spec a b) end; lia.
Qed.
Lemma run_turn c : (0 < a_in c)%nat -> forall h, no_set h -> nonzero h -> in_turn c (a_run c a_init h).
Proof.
  intros P h. induction h as [|e h IH] using rev_ind; intros NS NZ.
  - unfold in_turn. cbn [a_run fold_left a_init g_log g_idx g_cnt length]. rewrite Nat.mod_0_l, Nat.div_0_l by lia. repeat split.
  - rewrite a_run_snoc. unfold no_set, nonzero in *. apply Forall_app in NS as [N1 N2], NZ as [Z1 Z2]. apply turn_step; [exact P | exact N2 | exact Z2 | now apply IH].
Qed.
(** Regular choppers in ordinary training (the weights are not set, no learning rate is zero), after
    [n] reads: the slices are read in turn; a slice is switched once in every period of its reads.  So
    whenever all slices have been read equally often, all have been switched equally often: "all
    rows/cols will switch at the same matrix update cycle". *)
Theorem C156_turns : forall c h k, let l := g_log (a_run c a_init h) in (k < a_in c)%nat -> no_set h -> nonzero h -> g_readsof k l = ((length l + (a_in c - 1 - k)) / a_in c)%nat.
Proof.
  intros c h k l Hk NS NZ. destruct (run_turn c ltac:(lia) h NS NZ) as (_ & _ & I). fold l in I. rewrite (I k Hk). set (n := length l). pose proof (Nat.mod_upper_bound n (a_in c) ltac:(lia)) as U. pose proof (Nat.div_mod n (a_in c) ltac:(lia)) as D.
  destruct (Nat.ltb_spec k (n mod a_in c)); [apply Nat.div_unique with (n mod a_in c - 1 - k)%nat | apply Nat.div_unique with (n mod a_in c + (a_in c - 1 - k))%nat]; rewrite ?Nat.mul_add_distr_l; lia.
Qed.
Theorem C156_regular : forall c h k, let s := a_run c a_init h in let l := g_log s in cp_in_random (a_cp c) = false -> (k < a_in c)%nat -> no_set h -> nonzero h ->
  g_switches k l = (g_readsof k l / n_samples c)%nat /\ g_in s k = Nat.odd (g_readsof k l / n_samples c).
Proof.
  intros c h k s l Rn Hk NS NZ. enough (X : g_switches k l = (g_readsof k l / n_samples c)%nat). { split; [exact X|]. rewrite <- X. now destruct (C155_books c h) as (_ & _ & -> & _). }
  unfold l, s. clear l s. induction h as [|e h IH] using rev_ind. { cbn. rewrite Nat.div_0_l; [reflexivity|]. pose proof (n_samples_2 c). lia. }
  unfold no_set, nonzero in *. apply Forall_app in NS as [N1 N2], NZ as [Z1 Z2]. specialize (IH N1 Z1). destruct (run_turn c ltac:(lia) h N1 Z1) as (I1 & I2 & I3). rewrite a_run_snoc. set (s := a_run c a_init h) in *.
  inversion N2 as [|? ? NS1 _]; subst. inversion Z2 as [|? ? NZ1 _]; subst. destruct e as [lr cl ev val coin|]; [|contradiction].
  destruct (ordinary_cases c s _ lr cl ev val coin eq_refl NZ1) as [[(_ & _ & _ & _ & _ & _ & _ & C8) _] | [(_ & _ & _ & _ & _ & _ & _ & C8) _]]; [rewrite C8; exact IH|].
  destruct (a_read_fields c lr cl (g_idx s) val coin s NZ1) as (_ & _ & _ & _ & _ & _ & _ & R8). rewrite R8 in C8. rewrite C8. unfold g_switches, g_readsof in IH |- *. cbn [filter q_k ard_of q_sw]. destruct (Nat.eqb_spec (g_idx s) k) as [E|E]; cbn [andb]; [|exact IH]. unfold switch_of. rewrite Rn, Bool.andb_false_l, Bool.orb_false_r.
  assert (Q : g_cnt s = g_readsof k (g_log s)). { rewrite (I3 k Hk), I2. rewrite <- E, I1. now rewrite Nat.ltb_irrefl. } rewrite Q. unfold g_readsof. cbn [length]. set (q := length (filter (fun r => (q_k r =? k)%nat) (g_log s))) in *. rewrite div_S by (pose proof (n_samples_2 c); lia).
  destruct (q mod n_samples c + 1 =? n_samples c)%nat; cbn [length]; rewrite IH; lia.
Qed.
Corollary C156_together : forall c h k k', let s := a_run c a_init h in cp_in_random (a_cp c) = false -> (k < a_in c)%nat -> (k' < a_in c)%nat -> no_set h -> nonzero h -> (length (g_log s) mod a_in c = 0)%nat -> g_in s k = g_in s k'.
Proof.
  intros c h k k' s Rn Hk Hk' NS NZ E. destruct (C156_regular c h k Rn Hk NS NZ) as [_ A]. destruct (C156_regular c h k' Rn Hk' NS NZ) as [_ B]. fold s in A, B. rewrite A, B. destruct (run_turn c ltac:(lia) h NS NZ) as (_ & _ & I). fold s in I. rewrite (I k Hk), (I k' Hk'), E. reflexivity.
Qed.
(** [in_chop_random]: the regular switches are made as well: if the random numbers are all above the
    probability, the device does exactly what it does with regular choppers *)
Definition regular_cfg (c : acfg) : acfg :=
  let p := a_cp c in
  {| a_cp := {| cp_b := cp_b p; cp_in_prob := cp_in_prob p; cp_in_random := false; cp_out_prob := cp_out_prob p; cp_correct := cp_correct p; cp_auto_gran := cp_auto_gran p; cp_gran := cp_gran p; cp_no_buffer := cp_no_buffer p; cp_every := cp_every p; cp_states := cp_states p |};
     a_in := a_in c; a_out := a_out c; a_tail := a_tail c; a_cap := a_cap c; a_cacc := a_cacc c; a_BL := a_BL c; a_dwA := a_dwA c; a_dwC := a_dwC c |}.
Theorem C156_random_refuted : forall c s h, Forall (fun e => match e with AUp _ _ _ _ coin => cp_in_prob (a_cp c) <= coin | ASet => True end) h -> a_run c s h = a_run (regular_cfg c) s h.
Proof.
  intros c s h. revert s. induction h as [|e h IH]; intros s F; [reflexivity|]. inversion F as [|? ? F1 F2]; subst. unfold a_run in *. cbn [fold_left]. rewrite IH by exact F2. f_equal.
  destruct e as [lr cl ev val coin|]; [|reflexivity]. cbn [a_step]. destruct (_ && _)%bool; [|reflexivity]. unfold a_transfer, a_read. rewrite (proj2 (Rltb_false coin (cp_in_prob (a_cp c)))) by exact F1. rewrite Bool.andb_false_r. destruct (Reqb lr 0); reflexivity.
Qed.
(** ** Examples *)
Definition acfg1 (ins : nat) (tail cap : R) (forget : bool) : acfg :=
  {| a_cp := {| cp_b := {| bp_thres := 1; bp_step := 1; bp_mom := 0; bp_forget := forget |}; cp_in_prob := 1 / 2; cp_in_random := false; cp_out_prob := 0; cp_correct := false; cp_auto_gran := 0; cp_gran := 1; cp_no_buffer := false; cp_every := 1; cp_states := [] |};
     a_in := ins; a_out := 1; a_tail := tail; a_cap := cap; a_cacc := false; a_BL := 1; a_dwA := 1; a_dwC := 1 |}.
Lemma acfg1_ns ins tail cap f : n_samples (acfg1 ins tail cap f) = 2%nat.
Proof.
  unfold n_samples. cbn [acfg1 a_cp cp_in_prob]. rewrite (proj2 (Rltb_true 0 (1 / 2))) by lra. unfold chop_period. cbn [cp_in_prob]. pose proof (PulseProofs.ceilZ_spec (1 / (1 / 2))) as [A B]. replace (1 / (1 / 2)) with 2 in * by lra.
  assert (C : (ceilZ 2 < 3)%Z) by (apply lt_IZR; lra). replace (Z.max (ceilZ 2) 2) with 2%Z by lia. reflexivity.
Qed.
Definition up0 : aev := AUp 1 1 1 (fun _ => 0) 1.
Lemma in_step ins tail cap f s : let c := acfg1 ins tail cap f in let s' := a_step c s up0 in let sw := (g_cnt s mod 2 + 1 =? 2)%nat in
  g_in s' = (if sw then gput (g_in s) (g_idx s) (negb (g_in s (g_idx s))) else g_in s) /\ g_cnt s' = (if (g_idx s =? ins - 1)%nat then S (g_cnt s) else g_cnt s) /\ g_idx s' = ((g_idx s + 1) mod ins)%nat.
Proof.
  intros c s' sw. unfold s', up0. cbn [a_step Nat.ltb Nat.leb andb]. rewrite Nat.mod_1_r. cbn [Nat.eqb]. unfold a_transfer, a_read. rewrite (proj2 (Reqb_false 1 0)) by lra. cbn [g_in g_cnt g_idx a_count]. unfold c. rewrite acfg1_ns. cbn [acfg1 a_in a_cp cp_in_random andb]. rewrite Bool.orb_false_r. repeat split.
Qed.
(** setting the weights in the middle of a pass in which the choppers switch brings the slices out of
    step for good: the slices of that pass are read, and switched, twice *)
Theorem C156_set_refuted : let c := acfg1 2 1 0 true in let s := a_run c a_init (repeat up0 3 ++ [ASet] ++ repeat up0 2) in
  g_idx s = 0%nat /\ g_in s 0%nat = false /\ g_in s 1%nat = true.
Proof.
  intros c s. unfold s, a_run. cbn [repeat app fold_left]. set (s1 := a_step c a_init up0). set (s2 := a_step c s1 up0). set (s3 := a_step c s2 up0). set (s4 := a_step c s3 ASet). set (s5 := a_step c s4 up0). set (s6 := a_step c s5 up0).
  destruct (in_step 2 1 0 true a_init) as (A1 & B1 & D1). fold c s1 in A1, B1, D1. destruct (in_step 2 1 0 true s1) as (A2 & B2 & D2). fold c s2 in A2, B2, D2. destruct (in_step 2 1 0 true s2) as (A3 & B3 & D3). fold c s3 in A3, B3, D3.
  assert (A4 : g_in s4 = g_in s3) by reflexivity. assert (B4 : g_cnt s4 = g_cnt s3) by reflexivity. assert (D4 : g_idx s4 = 0%nat) by reflexivity. destruct (in_step 2 1 0 true s4) as (A5 & B5 & D5). fold c s5 in A5, B5, D5. destruct (in_step 2 1 0 true s5) as (A6 & B6 & D6). fold c s6 in A6, B6, D6.
  clearbody s6. clearbody s5. clearbody s4. clearbody s3. clearbody s2. clearbody s1. cbn in A1, B1, D1.
  rewrite A1, B1, D1 in A2. rewrite B1, D1 in B2. rewrite D1 in D2. cbn in A2, B2, D2. rewrite A2, B2, D2 in A3. rewrite B2, D2 in B3. rewrite D2 in D3. cbn in A3, B3, D3. rewrite A3 in A4. rewrite B3 in B4. rewrite A4, B4, D4 in A5. rewrite B4, D4 in B5. rewrite D4 in D5. cbn in A5, B5, D5. rewrite A5, B5, D5 in A6. rewrite D5 in D6. cbn in A6, D6. rewrite D6, A6. repeat split.
Qed.
Lemma up0_nonzero n : nonzero (repeat up0 n).
Proof. induction n; cbn [repeat]; [apply Forall_nil | apply Forall_cons; [unfold up0; lra | exact IHn]]. Qed.
Lemma up0_no_set n : no_set (repeat up0 n).
Proof. induction n; cbn [repeat]; [apply Forall_nil | apply Forall_cons; [exact I | exact IHn]]. Qed.
Example C156_nontrivial : let c := acfg1 2 1 0 true in let s := a_run c a_init (repeat up0 4) in cp_in_random (a_cp c) = false /\ no_set (repeat up0 4) /\ nonzero (repeat up0 4) /\ length (g_log s) = 4%nat /\ g_in s 0%nat = true /\ g_in s 1%nat = true.
Proof.
  intros c s. split; [reflexivity|]. split; [apply up0_no_set|]. split; [apply up0_nonzero|].
  assert (L : forall s, length (g_log (a_step c s up0)) = S (length (g_log s))). { intros s0. unfold up0. cbn [a_step Nat.ltb Nat.leb andb]. rewrite Nat.mod_1_r. cbn [Nat.eqb]. unfold a_transfer, a_read. rewrite (proj2 (Reqb_false 1 0)) by lra. reflexivity. }
  assert (Ls : length (g_log s) = 4%nat). { unfold s, a_run. cbn [repeat fold_left]. now rewrite !L. } split; [exact Ls|].
  assert (NS : no_set (repeat up0 4)) by apply up0_no_set. assert (NZ : nonzero (repeat up0 4)) by apply up0_nonzero.
  destruct (C156_regular c (repeat up0 4) 0 eq_refl ltac:(cbn; lia) NS NZ) as [_ X0]. destruct (C156_regular c (repeat up0 4) 1 eq_refl ltac:(cbn; lia) NS NZ) as [_ X1]. fold s in X0, X1. rewrite X0, X1. clear X0 X1.
  pose proof (C156_turns c (repeat up0 4) 0 ltac:(cbn; lia) NS NZ) as X0. pose proof (C156_turns c (repeat up0 4) 1 ltac:(cbn; lia) NS NZ) as X1. fold s in X0, X1. rewrite X0, X1, Ls. unfold c. rewrite acfg1_ns. split; reflexivity.
Qed.

Print Assumptions C156_turns.
Print Assumptions C156_regular.
Print Assumptions C156_random_refuted.
Print Assumptions C156_set_refuted.
