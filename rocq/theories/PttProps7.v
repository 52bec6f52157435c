(** * AGAD in the Python transfer tile (C154) *)
From Verif Require Import Prelude PulseModel PulseProofs PttModel PttSpec PttProofs PttProps PttProps2 PttProps3 PttProps4.
Local Open Scope R_scope.

Definition agad_weight (c : pcfg) (tail : R) : R := Rmin (tail / INR (c_period c)) 1.
(** For every history and whatever the crossbars return: the past mean is the running mean of what
    was read, the reference is that mean at the last switch, every read was made relative to the
    reference at that time and with the sign of the number of switches before. *)
Theorem C154_agad : forall c v tail h s, supported c -> c_tail c = Some tail -> run c v p_init h = Ok s -> let b := agad_weight c tail in
  (forall k o, s_P s k o = mean b k o (s_log s) /\ s_F s k o = reference b k o (s_log s)) /\ (forall k, s_c s k = sgn (switched k (s_log s))) /\
  forall later r before, s_log s = later ++ r :: before -> r_sign r = sgn (switched (r_k r) before) /\ forall o, r_ref r o = reference b (r_k r) o before.
Proof.
  intros c v tail h s Sp Tl E b. revert h s E.
  apply (run_ind c v p_init (fun _ s => (forall k o, s_P s k o = mean b k o (s_log s) /\ s_F s k o = reference b k o (s_log s)) /\ (forall k, s_c s k = sgn (switched k (s_log s))) /\
    forall later r before, s_log s = later ++ r :: before -> r_sign r = sgn (switched (r_k r) before) /\ forall o, r_ref r o = reference b (r_k r) o before)).
  { split; [intros; split; reflexivity|]. split; [reflexivity|]. intros later r before H; destruct later; discriminate. }
  intros h s e s' _ I E. destruct (step_cases _ _ _ _ _ Sp E) as [(l & _ & ->) | (xs & ds & _ & _ & [[_ ->] | [_ Et]])]; [destruct l; exact I | exact I|].
  destruct I as (I1 & I2 & I3). destruct (transfer_fields _ _ _ _ _ _ Et) as (_ & _ & _ & _ & _ & _ & _ & _ & Lg & _ & Hc & _ & _ & Hp & Hf). rewrite Tl in Hp, Hf. cbv zeta in Hp. fold (agad_weight c tail) in Hp. fold b in Hp. set (s1 := acc c v s xs ds) in *.
  rewrite Lg. change (s_log s1) with (s_log s). set (lrh := rate_of _ _ _ _) in *. set (kk := next_k c s1) in *.
  assert (Mp : forall k o, s_P s' k o = mean b k o (rd_of c v lrh s1 :: s_log s)).
  { intros k o. rewrite Hp. cbn [mean r_k rd_of r_val]. fold kk. unfold put. rewrite (Nat.eqb_sym kk). destruct (Nat.eqb_spec k kk) as [->|N]; [|apply I1]. change (s_P s1 kk o) with (s_P s kk o). now rewrite (proj1 (I1 kk o)). }
  split; [|split].
  - intros k o. split; [apply Mp|]. rewrite Hf. cbn [reference r_k rd_of r_sw]. fold kk. rewrite (Nat.eqb_sym kk). destruct (sw_of c v s1); [|rewrite Bool.andb_false_r; apply I1]. rewrite Bool.andb_true_r. unfold put. destruct (Nat.eqb_spec k kk) as [->|N]; [apply Mp | apply I1].
  - intros k. rewrite Hc. unfold switched. cbn [filter r_k rd_of r_sw]. fold kk. rewrite (Nat.eqb_sym kk). destruct (sw_of c v s1); [|rewrite Bool.andb_false_r; apply I2]. rewrite Bool.andb_true_r. unfold put. destruct (Nat.eqb_spec k kk) as [->|N]; [|apply I2]. cbn [length]. rewrite sgn_S. change (s_c s1 kk) with (s_c s kk). now rewrite I2.
  - intros later r before H. destruct later as [|r' later]; cbn [app] in H; injection H as H1 H2; [|apply (I3 later); exact H2]. subst r before. cbn [r_sign r_k rd_of r_ref]. fold kk. split; [apply I2|]. intros o. unfold ref_of. rewrite Tl. apply I1.
Qed.
(** mean and reference stay within any bounds (around zero) of the values read *)
Theorem C154_hull : forall c v tail h s lo hi k o, supported c -> c_tail c = Some tail -> 0 <= tail -> run c v p_init h = Ok s -> lo <= 0 <= hi -> Forall (fun r => r_k r = k -> lo <= r_val r o <= hi) (reads s) ->
  lo <= s_P s k o <= hi /\ lo <= s_F s k o <= hi.
Proof.
  intros c v tail h s lo hi k o Sp Tl T0 E B F. destruct (C154_agad c v tail h s Sp Tl E) as [I _]. destruct (I k o) as [-> ->].
  assert (W : 0 <= agad_weight c tail <= 1). { unfold agad_weight. split; [apply Rmin_glb; [|lra] | apply Rmin_r]. destruct (Nat.eq_dec (c_period c) 0) as [Z|Z]; [rewrite Z; cbn; unfold Rdiv; rewrite Rinv_0; lra|]. apply Rmult_le_pos; [exact T0|]. apply Rlt_le, Rinv_0_lt_compat, lt_0_INR. lia. }
  set (b := agad_weight c tail) in *. clearbody b. assert (F' : Forall (fun r => r_k r = k -> lo <= r_val r o <= hi) (s_log s)). { unfold reads in F. rewrite <- (rev_involutive (s_log s)). now apply Forall_rev. }
  assert (M : forall l, Forall (fun r => r_k r = k -> lo <= r_val r o <= hi) l -> lo <= mean b k o l <= hi).
  { induction l as [|r l IH]; intros Fl; cbn [mean]; [exact B|]. inversion Fl as [|? ? Hr Fl']; subst. specialize (IH Fl'). destruct (Nat.eqb_spec (r_k r) k) as [e|]; [|exact IH]. specialize (Hr e). destruct W as [W1 W2]. split; [apply Rle_trans with ((1 - b) * lo + b * lo); [lra|] | apply Rle_trans with ((1 - b) * hi + b * hi); [|lra]]; apply Rplus_le_compat; apply Rmult_le_compat_l; lra. }
  split; [now apply M|]. clear E F. revert F'. generalize (s_log s) as l. induction l as [|r l IH]; intros F'; cbn [reference]; [exact B|]. destruct (_ && _)%bool; [now apply M|]. inversion F' as [|? ? Hr Fl]; subst. now apply IH.
Qed.
(** with a [tail_weightening] of at least the period, the reference is the last value read before
    the switch *)
Theorem C154_last : forall c tail k o r l, INR (c_period c) <= tail -> (0 < c_period c)%nat -> r_k r = k -> mean (agad_weight c tail) k o (r :: l) = r_val r o.
Proof.
  intros c tail k o r l H P E. assert (W : agad_weight c tail = 1). { unfold agad_weight. apply Rmin_right. apply lt_0_INR in P. apply Rmult_le_reg_r with (INR (c_period c)); [exact P|]. unfold Rdiv. rewrite Rmult_assoc, Rinv_l by lra. lra. }
  cbn [mean]. rewrite (proj2 (Nat.eqb_eq (r_k r) k) E), W. ring.
Qed.
(** one AGAD read of 5/2 with the reference still zero and a switch afterwards: then the reference
    is 5/2 *)
Example C154_nontrivial : let c := cfg1 false 0 true 1 (Some 1) in exists s r, run c (ideal c (fun _ => 0)) p_init hist1 = Ok s /\ reads s = [r] /\ r_sw r = true /\ r_val r 0%nat = 5 / 2 /\ s_F s 0%nat 0%nat = 5 / 2.
Proof.
  intros c. set (v := ideal c (fun _ => 0)). set (s0 := set_lr (Some 1) p_init). destruct (cfg1_step false 0 true 1 (Some 1) v s0 (fun _ => 1) (fun _ => - (5 / 2))) as (s & E & Et). fold c in E, Et.
  assert (Rt : run c v p_init hist1 = Ok s) by (unfold hist1; cbn [run]; change (step c v p_init (SetLr (Some 1))) with (Ok s0); cbn [bind]; exact (f_equal (fun z => bind z (fun s1 => Ok s1)) E)).
  destruct (transfer_fields _ _ _ _ _ _ Et) as (_ & _ & _ & _ & _ & _ & _ & _ & Lg & _). set (s1 := acc c v s0 _ _) in *. change (s_log s1) with (@nil rd) in Lg. set (r := rd_of c v _ s1) in Lg.
  assert (K : next_k c s1 = 0%nat) by (unfold next_k; cbn [t_in c_cols c cfg1 c_x]; apply Nat.mod_1_r).
  assert (Cp : c_period c = 1%nat). { unfold c_period. cbn [c cfg1 c_prob]. rewrite (proj2 (Rltb_true 0 1)) by lra. replace (1 / 1) with (IZR 1) by lra. now rewrite rhe_IZR. }
  assert (Rs : r_sw r = true). { unfold r. cbn [r_sw rd_of]. unfold sw_of, cc_of. rewrite K. cbn [c cfg1 c_prob c_random]. fold c. rewrite (proj2 (Reqb_false 1 0)) by lra. cbn [negb andb Nat.eqb]. rewrite Cp, Nat.mod_1_r. reflexivity. }
  assert (Rv : r_val r 0%nat = 5 / 2). { unfold r. cbn [r_val rd_of]. assert (Ex : exact_fast c v) by repeat split. pose proof (omega_exact c v s1 Ex ltac:(cbn; lia) 0 0) as X. cbn [slice_of entry_of c cfg1 c_cols] in X. fold c in X. rewrite X by (symmetry; exact K). unfold s1, v. cbn [acc accumulate s_A ideal v_fast]. unfold chop. cbn [map]. rewrite ideal_one. change (lra_of c s0 _ _) with 1. cbn [s0 set_lr p_init s_A s_c]. lra. }
  exists s, r. split; [exact Rt|]. split; [unfold reads; now rewrite Lg|]. split; [exact Rs|]. split; [exact Rv|].
  destruct (C154_agad c v 1 hist1 s (cfg1_supported _ _ _ _ _) eq_refl Rt) as [I _]. destruct (I 0%nat 0%nat) as [_ ->]. rewrite Lg. cbn [reference]. rewrite Rs. replace (r_k r) with 0%nat by (unfold r; cbn [r_k rd_of]; now rewrite K). cbn [Nat.eqb andb].
  rewrite (C154_last c 1); [exact Rv | rewrite Cp; cbn; lra | rewrite Cp; lia | unfold r; cbn [r_k rd_of]; exact K].
Qed.

Print Assumptions C154_agad.
Print Assumptions C154_hull.
Print Assumptions C154_last.
