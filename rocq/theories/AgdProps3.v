(** * What a dynamic transfer device sends to the slow crossbar (C157) *)
From Verif Require Import Prelude Rand DevModel PulseModel CompModel TransModel TransSpec TransProofs AgdModel AgdSpec AgdProofs AgdProps AgdProps2.
Local Open Scope R_scope.

Lemma a_run_log c s h : exists l, g_log (a_run c s h) = l ++ g_log s.
Proof.
  induction h as [|e h [l E]] using rev_ind; [now exists []|]. rewrite a_run_snoc. destruct (core_cases c (a_run c s h) e) as [(_ & _ & _ & _ & _ & _ & _ & C8) | (lr & cl & ev & val & coin & _ & _ & _ & _ & _ & _ & _ & _ & _ & C8)]; rewrite C8, E; [now exists l|]. now exists (ard_of c lr cl (g_idx (a_run c s h)) val coin (a_run c s h) :: l).
Qed.
Lemma next_kept c w : bp_forget (cp_b (a_cp c)) = false -> IZR (a_BL c) * a_cap c <= 0 -> fst (a_next c w) = w - (1 - bp_mom (cp_b (a_cp c))) * IZR (snd (a_next c w)).
Proof. intros F Cp. unfold a_next. destruct (Rleb 1 (Rabs w)); cbn [fst snd]; [|lra]. rewrite F, (proj2 (Rltb_false 0 _)) by lra. reflexivity. Qed.
Lemma brought_cons k j r l : g_brought k j (r :: l) = (if (q_k r =? k)%nat then q_lr r * q_sign r j * (q_val r j - q_ref r j) else 0) + g_brought k j l.
Proof. reflexivity. Qed.
(** Without [forget_buffer] and without a capacity, from any state: what the reads bring to an entry of
    the buffer is what it has in addition, and (one minus momentum times) the steps made. *)
Theorem C157_conserved : forall c s h, bp_forget (cp_b (a_cp c)) = false -> IZR (a_BL c) * a_cap c <= 0 -> let t := a_run c s h in
  exists l, g_log t = l ++ g_log s /\ forall k j, g_brought k j l = g_H t k j - g_H s k j + (1 - bp_mom (cp_b (a_cp c))) * IZR (g_made k j l).
Proof.
  intros c s h F Cp. induction h as [|e h (l & E & I)] using rev_ind.
  { exists []. split; [reflexivity|]. intros k j. cbn [a_run fold_left g_brought map sumR g_made fold_right]. unfold g_brought. cbn [map]. unfold sumR. cbn [fold_right]. lra. }
  cbv zeta. rewrite a_run_snoc. set (t := a_run c s h) in *. destruct (core_cases c t e) as [(C1 & _ & _ & _ & _ & _ & _ & C8) | (lr & cl & ev & val & coin & _ & _ & C1 & _ & _ & _ & _ & _ & _ & C8)]; [exists l; rewrite C8, C1; auto|].
  set (r := ard_of c lr cl (g_idx t) val coin t) in *. exists (r :: l). split; [rewrite C8, E; reflexivity|]. intros k j. rewrite brought_cons, C1, (I k j). cbn [g_made fold_right]. fold (g_made k j l). unfold r at 1. cbn [q_k ard_of]. change (q_k r) with (g_idx t).
  destruct (Nat.eqb_spec (g_idx t) k) as [<-|Nk]; [|rewrite gput_other by congruence; rewrite Z.add_0_l; lra]. rewrite gput_at, plus_IZR. rewrite next_kept by auto. cbn [r q_lr q_sign q_val q_ref q_steps ard_of]. unfold omega_of. set (q := snd _). lra.
Qed.
(** the passes made are the reads of the last slice, for every history *)
Lemma cnt_reads c h : let s := a_run c a_init h in g_cnt s = g_readsof (a_in c - 1) (g_log s).
Proof.
  cbv zeta. induction h as [|e h IH] using rev_ind; [reflexivity|]. rewrite a_run_snoc. set (s := a_run c a_init h) in *. destruct (core_cases c s e) as [(_ & _ & _ & _ & _ & _ & C7 & C8) | (lr & cl & ev & val & coin & _ & _ & _ & _ & _ & _ & _ & _ & C7 & C8)]; [now rewrite C7, C8|].
  rewrite C7, C8. unfold g_readsof in *. cbn [filter q_k ard_of]. destruct (_ =? _)%nat; cbn [length]; rewrite IH; reflexivity.
Qed.
Lemma next_zero c w : (1 <= a_BL c)%Z -> (snd (a_next c w) <> 0%Z <-> 1 <= Rabs w).
Proof.
  intros B. unfold a_next. destruct (Rleb 1 (Rabs w)) eqn:E; cbn [snd].
  - apply Rleb_true in E. split; [intros _; exact E|]. intros _ Z. destruct (n_steps_spec (a_BL c) w ltac:(lia)) as (_ & _ & _ & H). rewrite Z in H. cbn [Z.abs] in H. rewrite Rabs_R0 in H. specialize (H ltac:(lia)). lra.
  - apply Rleb_false in E. split; [congruence | lra].
Qed.
(** A read sends its steps exactly if there are any and if all slices have been read more than a
    period of times. *)
Theorem C157_when : forall c h later r before, (1 <= a_BL c)%Z -> g_log (a_run c a_init h) = later ++ r :: before ->
  (q_sent r = true <-> (n_samples c < g_readsof (a_in c - 1) before)%nat /\ exists j, (j < a_out c)%nat /\ q_steps r j <> 0%Z).
Proof.
  intros c h later r before B. revert later. induction h as [|e h IH] using rev_ind; intros later E; [destruct later; discriminate|]. rewrite a_run_snoc in E. pose proof (cnt_reads c h) as Q. cbv zeta in Q. set (s := a_run c a_init h) in *.
  destruct (core_cases c s e) as [(_ & _ & _ & _ & _ & _ & _ & C8) | (lr & cl & ev & val & coin & _ & _ & _ & _ & _ & _ & _ & _ & _ & C8)]; rewrite C8 in E; [now apply (IH later)|].
  destruct later as [|r' later]; cbn [app] in E; injection E as E1 E2; [|now apply (IH later)]. subst r before. cbn [q_sent q_steps ard_of]. rewrite Bool.andb_true_iff, Nat.ltb_lt, Q, existsb_exists. split.
  - intros [(j & Ij & Hj) L]. split; [exact L|]. exists j. apply in_seq in Ij. split; [lia|]. apply next_zero; [exact B | now apply Rleb_true].
  - intros [L (j & Lj & Hj)]. split; [|exact L]. exists j. split; [apply in_seq; lia|]. apply Rleb_true. now apply (next_zero c).
Qed.
(** After these passes nothing is lost: what the reads bring is in the buffer or sent. *)
Theorem C157_after : forall c s h, bp_forget (cp_b (a_cp c)) = false -> IZR (a_BL c) * a_cap c <= 0 -> (n_samples c < g_cnt s)%nat -> let t := a_run c s h in
  exists l, g_log t = l ++ g_log s /\ forall k j, (j < a_out c)%nat -> g_brought k j l = g_H t k j - g_H s k j + (1 - bp_mom (cp_b (a_cp c))) * IZR (g_written k j l).
Proof.
  intros c s h F Cp Hc. destruct (C157_conserved c s h F Cp) as (l & E & I). exists l. split; [exact E|]. intros k j Lj. rewrite I. do 2 f_equal.
  enough (X : (n_samples c < g_cnt (a_run c s h))%nat /\ (forall l, g_log (a_run c s h) = l ++ g_log s -> g_made k j l = g_written k j l)) by (f_equal; now apply X). clear l E I.
  induction h as [|e h [I1 I2]] using rev_ind.
  { split; [exact Hc|]. intros l E. cbn [a_run fold_left] in E. assert (L0 : l = []) by (destruct l; [reflexivity | apply (f_equal (@length ard)) in E; rewrite app_length in E; cbn in E; lia]). subst l. reflexivity. }
  rewrite a_run_snoc. set (t := a_run c s h) in *. destruct (core_cases c t e) as [(_ & _ & _ & _ & _ & _ & C7 & C8) | (lr & cl & ev & val & coin & _ & _ & _ & _ & _ & _ & _ & _ & C7 & C8)]; [rewrite C7, C8; auto|]. rewrite C7, C8.
  split; [destruct (_ =? _)%nat; lia|]. intros l E. destruct (a_run_log c s h) as [l0 E0]. fold t in E0. rewrite E0 in E. assert (L : l = ard_of c lr cl (g_idx t) val coin t :: l0) by (apply (app_inv_tail (g_log s)); symmetry; exact E). subst l. cbn [g_made g_written fold_right]. fold (g_made k j l0) (g_written k j l0). rewrite (I2 l0 E0). f_equal.
  cbn [q_k q_sent q_steps ard_of]. destruct (g_idx t =? k)%nat; [|reflexivity]. cbn [andb]. rewrite (proj2 (Nat.ltb_lt _ _) I1), Bool.andb_true_r. destruct (existsb _ _) eqn:Ex; [reflexivity|].
  unfold a_next. destruct (Rleb 1 (Rabs (omega_of c lr cl (g_idx t) val t j))) eqn:Er; [|reflexivity]. exfalso. assert (X : existsb (fun j0 => Rleb 1 (Rabs (omega_of c lr cl (g_idx t) val t j0))) (seq 0 (a_out c)) = true) by (apply existsb_exists; exists j; split; [apply in_seq; lia | exact Er]). congruence.
Qed.
(** with a capacity of the buffer and a momentum between 0 and 1 no entry ever exceeds it (or 1) *)
Theorem C157_bounded : forall c s h B, bp_forget (cp_b (a_cp c)) = false -> 0 < IZR (a_BL c) * a_cap c -> 1 <= B -> IZR (a_BL c) * a_cap c <= B -> (forall k j, Rabs (g_H s k j) <= B) -> forall k j, Rabs (g_H (a_run c s h) k j) <= B.
Proof.
  intros c s h B F Cp B1 B2 I. induction h as [|e h IH] using rev_ind; [exact I|]. rewrite a_run_snoc. set (t := a_run c s h) in *. destruct (core_cases c t e) as [(C1 & _) | (lr & cl & ev & val & coin & _ & _ & C1 & _)]; rewrite C1; [exact IH|].
  intros k j. destruct (Nat.eq_dec k (g_idx t)) as [->|Nk]; [|rewrite gput_other by exact Nk; apply IH]. rewrite gput_at. unfold a_next. destruct (Rleb 1 _) eqn:E; cbn [fst].
  - rewrite F, (proj2 (Rltb_true 0 _)) by exact Cp. apply Rabs_le. set (cap := IZR (a_BL c) * a_cap c) in *. pose proof (clampR_range (- cap) cap (omega_of c lr cl (g_idx t) val t j - (1 - bp_mom (cp_b (a_cp c))) * IZR (n_steps (a_BL c) (omega_of c lr cl (g_idx t) val t j))) ltac:(lra)) as X. unfold clampR in X. lra.
  - apply Rleb_false in E. lra.
Qed.
Theorem C157_forget : forall c s h, bp_forget (cp_b (a_cp c)) = true -> bp_mom (cp_b (a_cp c)) = 0 -> (forall k j, Rabs (g_H s k j) < 1) -> forall k j, Rabs (g_H (a_run c s h) k j) < 1.
Proof.
  intros c s h F M I. induction h as [|e h IH] using rev_ind; [exact I|]. rewrite a_run_snoc. set (t := a_run c s h) in *. destruct (core_cases c t e) as [(C1 & _) | (lr & cl & ev & val & coin & _ & _ & C1 & _)]; rewrite C1; [exact IH|].
  intros k j. destruct (Nat.eq_dec k (g_idx t)) as [->|Nk]; [|rewrite gput_other by exact Nk; apply IH]. rewrite gput_at. unfold a_next. destruct (Rleb 1 _) eqn:E; cbn [fst]; [rewrite F, M, Rmult_0_r, Rabs_R0; lra | apply Rleb_false in E; lra].
Qed.
(** ** What is lost *)
Lemma scale1 ins tail cap f cnt : a_scale (acfg1 ins tail cap f) cnt 1 1 = 1.
Proof. unfold a_scale, lr_scale, chop_gran. cbn [acfg1 a_cp a_cacc cp_correct cp_auto_gran cp_gran a_dwA]. rewrite (proj2 (Rltb_true 0 1)), (proj2 (Rltb_false 0 0)) by lra. rewrite Rabs_R1. field. Qed.
Lemma steps_of (x : R) : 2 <= x -> n_steps 1 x = 1%Z.
Proof. intros H. destruct (n_steps_spec 1 x ltac:(lia)) as (A & B & C & D). set (k := n_steps 1 x) in *. assert (K : k = (-1)%Z \/ k = 0%Z \/ k = 1%Z) by lia. destruct K as [-> | [-> | ->]]; [exfalso; lra | exfalso; cbn [Z.abs] in D; rewrite Rabs_R0, Rabs_right in D by lra; specialize (D ltac:(lia)); lra | reflexivity]. Qed.
Lemma first_read ins tail cap f (x : R) : 2 <= x -> (0 < ins)%nat -> let c := acfg1 ins tail cap f in let s := a_run c a_init [AUp 1 1 1 (fun _ => x) 1] in
  g_H s 0%nat 0%nat = (if f then 0 else if Rltb 0 cap then Rmin (Rmax (x - 1) (- cap)) cap else x - 1) /\ exists r, g_log s = [r] /\ q_k r = 0%nat /\ q_steps r 0%nat = 1%Z /\ q_sent r = false /\ g_brought 0 0 [r] = x.
Proof.
  intros Hx Hi c s. destruct (C155_content c a_init 1 1 1 (fun _ => x) 1 ltac:(cbn; lia) ltac:(lra) ltac:(lia) eq_refl) as (r & L & K & V & _). change (a_step c a_init _) with s in L.
  assert (Er : r = ard_of c 1 1 0 (fun _ => x) 1 a_init). { destruct (core_cases c a_init (AUp 1 1 1 (fun _ => x) 1)) as [(_ & _ & _ & _ & _ & _ & _ & C8) | (lr & cl & ev & val & coin & E & _ & _ & _ & _ & _ & _ & _ & _ & C8)]; change (a_step c a_init _) with s in C8; rewrite L in C8; [discriminate|]. injection E as <- <- <- <- <-. injection C8 as C8. exact C8. }
  assert (Om : omega_of c 1 1 0 (fun _ => x) a_init 0 = x). { unfold omega_of. unfold c at 1. rewrite scale1. unfold sign_of, ref_at. cbn [a_init g_H g_sw g_past g_in g_out Bool.eqb]. lra. }
  assert (Nx : a_next c x = (if f then 0 else if Rltb 0 cap then Rmin (Rmax (x - 1) (- cap)) cap else x - 1, 1%Z)). { unfold a_next. rewrite (proj2 (Rleb_true 1 (Rabs x))) by (rewrite Rabs_right; lra). cbn [c acfg1 a_BL a_cap a_cp cp_b bp_forget bp_mom]. rewrite steps_of by exact Hx. replace (1 * cap) with cap by ring. replace (x - (1 - 0) * 1) with (x - 1) by ring. rewrite Rmult_0_r. reflexivity. }
  split.
  - destruct (core_cases c a_init (AUp 1 1 1 (fun _ => x) 1)) as [(_ & _ & _ & _ & _ & _ & _ & C8) | (lr & cl & ev & val & coin & E & _ & C1 & _)]; [change (a_step c a_init _) with s in C8; rewrite L in C8; discriminate|]. injection E as <- <- <- <- <-. change (a_step c a_init _) with s in C1. rewrite C1. cbn [a_init g_idx]. rewrite gput_at, Om, Nx. reflexivity.
  - exists r. split; [exact L|]. split; [exact K|]. subst r. cbn [q_steps q_sent ard_of]. rewrite Om, Nx. split; [reflexivity|]. split; [unfold c; rewrite acfg1_ns; cbn [a_init g_cnt Nat.ltb Nat.leb]; apply Bool.andb_false_r|].
    unfold g_brought, sumR. cbn [map fold_right q_k ard_of Nat.eqb q_lr q_sign q_val q_ref a_init g_cnt]. unfold c. rewrite scale1. unfold sign_of, ref_at. cbn [a_init g_sw g_past g_in g_out Bool.eqb]. lra.
Qed.
(** "If disabled, then the buffer values are faithfully subtracted by the amount transferred": wrong in
    the first passes: a step is taken from the buffer although nothing is sent *)
Theorem C157_warmup_refuted : let c := acfg1 1 1 0 false in let s := a_run c a_init [AUp 1 1 1 (fun _ => 3) 1] in
  bp_forget (cp_b (a_cp c)) = false /\ g_brought 0 0 (g_log s) = 3 /\ g_H s 0%nat 0%nat = 2 /\ g_written 0 0 (g_log s) = 0%Z.
Proof.
  intros c s. destruct (first_read 1 1 0 false 3 ltac:(lra) ltac:(lia)) as (H & r & L & K & St & Se & B). fold c in H, L. fold s in H, L. split; [reflexivity|]. rewrite L. split; [exact B|]. split; [rewrite H, (proj2 (Rltb_false 0 0)) by lra; lra|]. cbn [g_written fold_right]. rewrite Se, Bool.andb_false_r. reflexivity.
Qed.
(** with a [buffer_cap], what exceeds it is lost *)
Theorem C157_cap_refuted : let c := acfg1 1 1 10 false in let s := a_run c a_init [AUp 1 1 1 (fun _ => 100) 1] in
  g_brought 0 0 (g_log s) = 100 /\ g_H s 0%nat 0%nat = 10 /\ g_made 0 0 (g_log s) = 1%Z.
Proof.
  intros c s. destruct (first_read 1 1 10 false 100 ltac:(lra) ltac:(lia)) as (H & r & L & K & St & Se & B). fold c in H, L. fold s in H, L. rewrite L. split; [exact B|]. split; [rewrite H, (proj2 (Rltb_true 0 10)) by lra; rewrite Rmax_left, Rmin_right by lra; reflexivity|]. cbn [g_made fold_right]. rewrite K, St. reflexivity.
Qed.
Example C157_nontrivial : let c := acfg1 1 1 0 false in bp_forget (cp_b (a_cp c)) = false /\ IZR (a_BL c) * a_cap c <= 0 /\ (1 <= a_BL c)%Z /\ (n_samples c < g_cnt (a_run c a_init (repeat up0 3)))%nat.
Proof.
  intros c. split; [reflexivity|]. split; [cbn; lra|]. split; [cbn; lia|]. unfold c. rewrite acfg1_ns. fold c. unfold a_run. cbn [repeat fold_left]. destruct (in_step 1 1 0 false a_init) as (_ & B1 & D1). fold c in B1, D1. set (s1 := a_step c a_init up0) in *.
  destruct (in_step 1 1 0 false s1) as (_ & B2 & D2). fold c in B2, D2. set (s2 := a_step c s1 up0) in *. destruct (in_step 1 1 0 false s2) as (_ & B3 & _). fold c in B3. set (s3 := a_step c s2 up0) in *. clearbody s3. clearbody s2. clearbody s1. cbn in B1, D1. rewrite D1 in B2, D2. rewrite Nat.mod_1_r in D2. cbn in B2. rewrite D2 in B3. cbn in B3. lia.
Qed.
(** the books after a first read of 3: the mean has moved, the read and its step are recorded *)
Example C155_nontrivial : let c := acfg1 2 1 0 false in let s := a_run c a_init [AUp 1 1 1 (fun _ => 3) 1] in
  (0 <= a_BL c)%Z /\ weight_of c = 1 / 2 /\ g_mean s 0%nat 0%nat = 3 / 2 /\ g_meanof (weight_of c) 0 0 (g_log s) = 3 / 2.
Proof.
  intros c s. assert (W : weight_of c = 1 / 2). { unfold weight_of, c. rewrite acfg1_ns. cbn [acfg1 a_tail INR]. apply Rmin_left. lra. } split; [cbn; lia|]. split; [exact W|]. destruct (C155_books c [AUp 1 1 1 (fun _ => 3) 1]) as (M & _). fold s in M. rewrite M.
  destruct (first_read 2 1 0 false 3 ltac:(lra) ltac:(lia)) as (_ & r & L & K & _ & _ & B). fold c in L. fold s in L. rewrite L. cbn [g_meanof]. rewrite K, W. cbn [Nat.eqb].
  assert (V : q_val r 0%nat = 3). { destruct (C155_content c a_init 1 1 1 (fun _ => 3) 1 ltac:(cbn; lia) ltac:(lra) ltac:(lia) eq_refl) as (r0 & L0 & K0 & V0 & _). change (a_step c a_init _) with s in L0. rewrite L in L0. injection L0 as <-. exact (f_equal (fun f => f 0%nat) V0). }
  rewrite V. split; lra.
Qed.

Print Assumptions C157_conserved.
Print Assumptions C157_when.
Print Assumptions C157_after.
Print Assumptions C157_bounded.
Print Assumptions C157_forget.
Print Assumptions C157_warmup_refuted.
Print Assumptions C157_cap_refuted.
