(** * What the dynamic transfer device keeps account of (C155) *)
From Verif Require Import Prelude Rand DevModel PulseModel CompModel TransModel TransSpec TransProofs AgdModel AgdSpec AgdProofs.
Local Open Scope R_scope.

(** For every history, whatever is read: the running means are those of the reads, the reference for
    the next read of a slice is the mean at its last switch, the chopper of a slice is active after an
    odd number of switches; every read was made with the reference and the sign of that time. *)
Theorem C155_books : forall c h, let s := a_run c a_init h in let b := weight_of c in
  (forall k j, g_mean s k j = g_meanof b k j (g_log s)) /\
  (forall k j, (if g_sw s k then g_mean s k j else g_past s k j) = g_refof b k j (g_log s)) /\
  (forall k, g_in s k = Nat.odd (g_switches k (g_log s))) /\
  forall later r before, g_log s = later ++ r :: before -> forall j, q_sign r j = g_sgn (g_switches (q_k r) before) /\ q_ref r j = g_refof b (q_k r) j before.
Proof.
  intros c h s b. enough (X : (forall j, g_out s j = false) /\ ((forall k j, g_mean s k j = g_meanof b k j (g_log s)) /\
    (forall k j, ref_at s k j = g_refof b k j (g_log s)) /\ (forall k, g_in s k = Nat.odd (g_switches k (g_log s))) /\
    forall later r before, g_log s = later ++ r :: before -> forall j, q_sign r j = g_sgn (g_switches (q_k r) before) /\ q_ref r j = g_refof b (q_k r) j before)).
  { destruct X as (_ & I1 & I2 & I3 & I4). split; [exact I1|]. split; [|split; [exact I3 | exact I4]]. intros k j. rewrite <- I2. unfold ref_at. destruct (g_sw s k); reflexivity. }
  unfold s. apply (a_run_ind c a_init (fun _ s => (forall j, g_out s j = false) /\ (forall k j, g_mean s k j = g_meanof b k j (g_log s)) /\
    (forall k j, ref_at s k j = g_refof b k j (g_log s)) /\ (forall k, g_in s k = Nat.odd (g_switches k (g_log s))) /\
    forall later r before, g_log s = later ++ r :: before -> forall j, q_sign r j = g_sgn (g_switches (q_k r) before) /\ q_ref r j = g_refof b (q_k r) j before)).
  { repeat split; try reflexivity; destruct later; discriminate. }
  clear h s. intros h e. generalize (a_run c a_init h) as s. intros s (I0 & I1 & I2 & I3 & I4).
  destruct (core_cases c s e) as [(_ & C2 & C3 & C4 & C5 & C6 & _ & C8) | (lr & cl & ev & val & coin & -> & N & C1 & C2 & C3 & C4 & C5 & C6 & C7 & C8)].
  - unfold ref_at. rewrite C2, C3, C4, C5, C6, C8. repeat split; auto; now apply (I4 later r before).
  - set (s' := a_step c s _) in *. set (k0 := g_idx s) in *.
    assert (M : forall k j, g_mean s' k j = g_meanof b k j (g_log s')).
    { intros k j. rewrite C2, C8. cbn [g_meanof q_k ard_of q_val]. rewrite (Nat.eqb_sym k0). destruct (Nat.eqb_spec k k0) as [->|Nk]; [|rewrite gput_other by exact Nk; apply I1]. rewrite gput_at, (I1 k0 j). fold b. ring. }
    split; [intros; rewrite C5; apply I0|]. split; [exact M|]. split; [|split].
    + intros k j. unfold ref_at. rewrite C6, C8. cbn [g_refof q_k ard_of q_sw]. rewrite (Nat.eqb_sym k0). destruct (Nat.eqb_spec k k0) as [->|Nk].
      * rewrite gput_at. cbn [andb]. destruct (switch_of c coin s); [rewrite M, C8; reflexivity|]. rewrite C3, gput_at. apply I2.
      * rewrite gput_other by exact Nk. cbn [andb]. rewrite C2, C3, !gput_other by exact Nk. apply I2.
    + intros k. rewrite C4, C8. unfold g_switches. cbn [filter q_k ard_of q_sw]. rewrite (Nat.eqb_sym k0). destruct (switch_of c coin s); [|rewrite Bool.andb_false_r; apply I3]. rewrite Bool.andb_true_r.
      destruct (Nat.eqb_spec k k0) as [->|Nk]; [|rewrite gput_other by exact Nk; apply I3]. cbn [length]. rewrite gput_at, I3, Nat.odd_succ, <- Nat.negb_odd. reflexivity.
    + intros later r before H j. rewrite C8 in H. destruct later as [|r' later]; cbn [app] in H; injection H as H1 H2; [|now apply (I4 later)]. subst r before. cbn [q_sign q_k ard_of q_ref]. split; [|apply I2].
      unfold sign_of. rewrite I0, I3. unfold g_sgn. rewrite <- Nat.negb_odd. destruct (Nat.odd _); reflexivity.
Qed.
(** the means and references stay within bounds (around zero) of what was read *)
Theorem C155_hull : forall c h k j lo hi, let s := a_run c a_init h in 0 <= a_tail c -> lo <= 0 <= hi -> Forall (fun r => q_k r = k -> lo <= q_val r j <= hi) (g_log s) ->
  lo <= g_mean s k j <= hi /\ (forall later r before, g_log s = later ++ r :: before -> q_k r = k -> lo <= q_ref r j <= hi).
Proof.
  intros c h k j lo hi s T B F. destruct (C155_books c h) as (I1 & _ & _ & I4). fold s in I1, I4. set (b := weight_of c) in *.
  assert (W : 0 <= b <= 1). { unfold b, weight_of. split; [apply Rmin_glb; [|lra] | apply Rmin_r]. apply Rmult_le_pos; [exact T|]. destruct (n_samples c) eqn:En; [cbn; rewrite Rinv_0; lra|]. apply Rlt_le, Rinv_0_lt_compat, lt_0_INR. lia. }
  clearbody b. assert (M : forall l, Forall (fun r => q_k r = k -> lo <= q_val r j <= hi) l -> lo <= g_meanof b k j l <= hi).
  { induction l as [|r l IH]; intros Fl; cbn [g_meanof]; [exact B|]. inversion Fl as [|? ? Hr Fl']; subst. specialize (IH Fl'). destruct (Nat.eqb_spec (q_k r) k) as [e|]; [|exact IH]. specialize (Hr e). destruct W as [W1 W2].
    split; [apply Rle_trans with ((1 - b) * lo + b * lo); [lra|] | apply Rle_trans with ((1 - b) * hi + b * hi); [|lra]]; apply Rplus_le_compat; apply Rmult_le_compat_l; lra. }
  split; [rewrite I1; now apply M|]. intros later r before E K. rewrite (proj2 (I4 later r before E j)), K. rewrite E in F. apply Forall_app in F as [_ F]. inversion F as [|? ? _ Fb]; subst. clear E F I4.
  induction before as [|r' l IH]; cbn [g_refof]; [exact B|]. destruct (_ && _)%bool; [now apply M|]. inversion Fb; subst. now apply IH.
Qed.
(** The content of one transfer, from any state: the read of slice [g_idx s] is the next one, its
    factor is the documented one (divided by the number of the sample in the period if
    [experimental_correct_accumulation]); of the new value [h] of an entry of the buffer the whole steps,
    at most [desired_BL], are taken; with [forget_buffer] the momentum times [h] is kept, otherwise the rest
    within the capacity.  Other slices are left alone. *)
Theorem C155_content : forall c s lr cl ev val coin, let s' := a_step c s (AUp lr cl ev val coin) in (0 <= a_BL c)%Z -> lr <> 0 -> (0 < ev)%nat -> (S (g_upd s) mod ev = 0)%nat ->
  exists r, g_log s' = r :: g_log s /\ q_k r = g_idx s /\ q_val r = val /\ g_idx s' = ((g_idx s + 1) mod a_in c)%nat /\
  (a_cacc c = false -> q_lr r = final_transfer_lr (a_cp c) (a_in c) (a_dwA c) (a_dwC c) lr cl) /\
  (forall k j, k <> g_idx s -> g_H s' k j = g_H s k j) /\
  forall j, let h := g_H s (g_idx s) j + q_lr r * q_sign r j * (val j - q_ref r j) in let h' := g_H s' (g_idx s) j in let m := bp_mom (cp_b (a_cp c)) in
    (Rabs h < 1 -> q_steps r j = 0%Z /\ h' = h) /\
    (1 <= Rabs h -> whole_steps (a_BL c) h (q_steps r j) /\
       if bp_forget (cp_b (a_cp c)) then h' = m * h else let rest := h - (1 - m) * IZR (q_steps r j) in let cap := IZR (a_BL c) * a_cap c in
         (cap <= 0 -> h' = rest) /\ (0 < cap -> h' = clampR (- cap) cap rest)).
Proof.
  intros c s lr cl ev val coin s' M N Ev U. assert (Ne : ev <> 0%nat) by lia.
  destruct (a_step_cases c s (AUp lr cl ev val coin)) as [(_ & _ & _ & _ & _ & _ & _ & C8) | (lr' & cl' & ev' & val' & coin' & E & _ & (C1 & _ & _ & _ & _ & _ & _ & C8) & Ci)].
  { exfalso. cbn [a_step] in C8. cbn [a_count g_upd] in C8. rewrite U, (proj2 (Nat.ltb_lt 0 ev) Ev) in C8. cbn [Nat.eqb andb] in C8. unfold a_transfer in C8. cbn [g_log] in C8.
    destruct (a_read_fields c lr cl (g_idx (a_count s)) val coin (a_count s) N) as (_ & _ & _ & _ & _ & _ & _ & L). rewrite L in C8. apply (f_equal (@length ard)) in C8. cbn [length a_count g_log] in C8. lia. }
  injection E as <- <- <- <- <-. destruct (a_read_fields c lr cl (g_idx s) val coin s N) as (H1 & _ & _ & _ & _ & _ & _ & H8). fold s' in C1, C8, Ci. rewrite H8 in C8. rewrite H1 in C1.
  exists (ard_of c lr cl (g_idx s) val coin s). split; [exact C8|]. split; [reflexivity|]. split; [reflexivity|]. split; [exact Ci|]. split; [|split].
  - intros Ac. cbn [q_lr ard_of]. unfold a_scale. rewrite Ac. unfold lr_scale, final_transfer_lr, chop_gran. cbv zeta. set (bg := if Rltb 0 (cp_gran (a_cp c)) then _ else _). destruct (Rltb 0 (cp_auto_gran (a_cp c))).
    + replace (bg * (a_dwA c * cp_auto_gran (a_cp c) / (INR (a_in c) * Rabs (cp_every (a_cp c))))) with (bg * a_dwA c * (cp_auto_gran (a_cp c) / (INR (a_in c) * Rabs (cp_every (a_cp c))))) by (unfold Rdiv; ring). destruct (cp_correct _); [|reflexivity]. unfold Rdiv. ring.
    + rewrite Rmult_1_r. destruct (cp_correct _); [|reflexivity]. unfold Rdiv. ring.
  - intros k j Nk. rewrite C1, gput_other by exact Nk. reflexivity.
  - intros j h h' m. assert (Eo : omega_of c lr cl (g_idx s) val s j = h) by (unfold omega_of, h; cbn [q_lr q_sign q_ref ard_of]; ring).
    unfold h'. rewrite C1, gput_at. cbn [q_steps ard_of]. rewrite Eo. unfold a_next. split; intros Hh.
    + rewrite (proj2 (Rleb_false 1 (Rabs h))) by lra. split; reflexivity.
    + rewrite (proj2 (Rleb_true 1 (Rabs h))) by lra. cbn [fst snd]. split; [now apply n_steps_spec|]. fold m. destruct (bp_forget _); [ring|]. cbv zeta. split; intros Cp.
      * rewrite (proj2 (Rltb_false 0 _)) by lra. reflexivity.
      * rewrite (proj2 (Rltb_true 0 _)) by lra. unfold clampR. rewrite Rmin_comm. mm; lra.
Qed.

Print Assumptions C155_books.
Print Assumptions C155_hull.
Print Assumptions C155_content.
