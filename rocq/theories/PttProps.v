(** * When and what the Python transfer tile transfers (C148) *)
From Verif Require Import Prelude PulseModel PulseProofs PttModel PttSpec PttProofs.
Local Open Scope R_scope.

(** As long as no batch is larger than [transfer_every] (rounded up to samples), every history of
    updates succeeds; of [n] samples, there is one read for each full [transfer_every] samples, and
    the reads go through the columns (rows) one after the other, beginning with number 1. *)
Theorem C148_schedule : forall c v T h, supported c -> regular c -> (0 < t_in c)%nat -> (0 < T)%nat -> batches (fun m => (0 < m <= T)%nat /\ t_every c m = T) h ->
  exists s, run c v p_init h = Ok s /\ s_cnt s = samples h /\ length (reads s) = (samples h / T)%nat /\
            forall i r, nth_error (reads s) i = Some r -> r_k r = ((i + 1) mod t_in c)%nat.
Proof.
  intros c v T h Sp Rg Ti T0. induction h as [|e h IH] using rev_ind; intros Hb.
  - exists p_init. split; [reflexivity|]. split; [reflexivity|]. split; [cbn; symmetry; apply Nat.div_0_l; lia|]. intros [|i] r; discriminate.
  - apply Forall_app in Hb. destruct Hb as [Hb He]. inversion_clear He as [|? ? He' _]. specialize (IH Hb). destruct IH as (s & E & C & L & K).
    assert (Hs : forall s0, run c v p_init h = Ok s0 -> s_idx s0 = (length (s_log s0) mod t_in c)%nat).
    { clear - Sp. intros s0 E. revert h s0 E. apply (run_ind c v p_init (fun _ s0 => s_idx s0 = (length (s_log s0) mod t_in c)%nat)); [cbn [s_idx s_log p_init length]; destruct (t_in c); [reflexivity | symmetry; apply Nat.mod_0_l; lia]|].
      intros h s e s' _ I E. destruct (step_cases _ _ _ _ _ Sp E) as [(l & _ & ->) | (xs & ds & _ & _ & [[_ ->] | [_ Et]])]; [destruct l; exact I | exact I|].
      destruct (transfer_fields _ _ _ _ _ _ Et) as (_ & _ & _ & Ik & _ & _ & _ & _ & Lg & _). rewrite Ik, Lg. unfold next_k. change (s_idx (acc c v s xs ds)) with (s_idx s). change (s_log (acc c v s xs ds)) with (s_log s).
      rewrite I. cbn [length]. destruct (t_in c) as [|n]; [cbn; lia|]. rewrite Nat.add_mod_idemp_l by lia. f_equal. lia. }
    specialize (Hs _ E). rewrite run_snoc, E. cbn [bind]. unfold samples in *. rewrite map_app, sum_nat_app. destruct e as [xs ds | l].
    + destruct He' as [Hm Ht]. cbn [map sum_nat fold_right]. rewrite Nat.add_0_r. set (N := sum_nat _) in *. set (m := length xs) in *.
      cbn [step]. rewrite (update_eq c v s xs ds Sp). cbv zeta. fold m. rewrite Ht. replace (T =? 0)%nat with false by (symmetry; apply Nat.eqb_neq; lia).
      unfold rest_of. rewrite C. pose proof (Nat.mod_upper_bound N T ltac:(lia)) as B. pose proof (Nat.div_mod N T ltac:(lia)) as DM.
      destruct (Nat.ltb_spec (N mod T + m) T) as [Lt|Ge].
      * cbn [o_e o_s]. exists (acc c v s xs ds). split; [reflexivity|]. split; [cbn [s_cnt acc accumulate]; rewrite chop_length, C; reflexivity|]. split; [|exact K].
        change (reads (acc c v s xs ds)) with (reads s). rewrite L. apply Nat.div_unique with (r := (N mod T + m)%nat); lia.
      * replace (2 * T <=? N mod T + m)%nat with false by (symmetry; apply Nat.leb_gt; lia).
        destruct (transfer_succeeds c v T (lra_of c s xs ds) (acc c v s xs ds) Rg Ti T0 (fast_rate_pos _ _ _ Rg)) as (s' & Et). rewrite Et. cbn [o_e o_s]. exists s'. split; [reflexivity|].
        destruct (transfer_fields _ _ _ _ _ _ Et) as (_ & _ & Cn & Ik & _ & _ & _ & _ & Lg & _). split; [rewrite Cn; cbn [s_cnt acc accumulate]; rewrite chop_length, C; reflexivity|].
        change (s_log (acc c v s xs ds)) with (s_log s) in Lg. unfold reads in *. rewrite Lg. cbn [rev]. split.
        { rewrite app_length, L. cbn [length]. apply Nat.div_unique with (r := (N mod T + m - T)%nat); lia. }
        intros i r. destruct (Nat.lt_ge_cases i (length (rev (s_log s)))) as [Hi|Hi]; [rewrite nth_error_app1 by exact Hi; apply K|].
        rewrite nth_error_app2 by exact Hi. destruct (i - length (rev (s_log s)))%nat as [|q] eqn:Ei; [|destruct q; discriminate]. cbn [nth_error]. intros [= <-]. cbn [r_k rd_of]. unfold next_k.
        change (s_idx (acc c v s xs ds)) with (s_idx s). rewrite Hs. rewrite Nat.add_mod_idemp_l by lia. f_equal. rewrite rev_length in *. lia.
    + cbn [map sum_nat fold_right step]. rewrite Nat.add_0_r. exists (set_lr l s). split; [reflexivity|]. destruct l; (split; [exact C|]; split; [exact L | exact K]).
Qed.
(** the rounding of [transfer_every] *)
Theorem C148_every : forall c m, 0 <= c_every c -> let e := if c_units c then INR m * c_every c else c_every c in
  e <= INR (t_every c m) < e + 1.
Proof.
  intros c m P e. unfold t_every. fold e. pose proof (ceilZ_spec e) as [A B].
  assert (E : 0 <= e) by (unfold e; destruct (c_units c); [apply Rmult_le_pos; [apply pos_INR | exact P] | exact P]).
  assert (Z0 : (0 <= ceilZ e)%Z). { apply Z.lt_pred_le. apply lt_IZR. rewrite pred_IZR || (unfold Z.pred; rewrite plus_IZR). lra. }
  rewrite INR_IZR_INZ, Z2Nat.id by exact Z0. lra.
Qed.
(** In one update at most one transfer can be made: if two would be due, the update raises.  The
    fast crossbar has got the gradient and the counter has been increased by then; nothing else has
    changed *)
Theorem C148_too_large : forall c v s xs ds, supported c -> let T := t_every c (length xs) in (0 < T)%nat -> (2 * T <= s_cnt s mod T + length xs)%nat ->
  let o := update c v s xs ds in o_e o = Some ConfigError /\ s_cnt (o_s o) = (s_cnt s + length xs)%nat /\ (exists lra, s_A (o_s o) = v_fast v (s_clk s) lra (o_x o) ds (s_A s)) /\
    s_W (o_s o) = s_W s /\ s_H (o_s o) = s_H s /\ s_log (o_s o) = s_log s.
Proof.
  intros c v s xs ds Sp T T0 G o. unfold o. rewrite (update_eq c v s xs ds Sp). cbv zeta. fold T. replace (T =? 0)%nat with false by (symmetry; apply Nat.eqb_neq; lia).
  unfold rest_of. replace (s_cnt s mod T + length xs <? T)%nat with false by (symmetry; apply Nat.ltb_ge; lia). replace (2 * T <=? s_cnt s mod T + length xs)%nat with true by (symmetry; apply Nat.leb_le; lia).
  cbn [o_e o_s o_x]. split; [reflexivity|]. split; [cbn [acc accumulate s_cnt]; now rewrite chop_length|]. split; [exists (lra_of c s xs ds); reflexivity|]. repeat split.
Qed.
(** with [transfer_every=0] ("no transfer" in the other transfer devices) every update fails, after
    the fast crossbar has been changed *)
Theorem C148_never_refuted : forall c v s xs ds, supported c -> c_every c = 0 ->
  let o := update c v s xs ds in o_e o = Some ZeroDivisionError /\ exists lra, s_A (o_s o) = v_fast v (s_clk s) lra (o_x o) ds (s_A s).
Proof.
  intros c v s xs ds Sp E o. unfold o. rewrite (update_eq c v s xs ds Sp). cbv zeta.
  assert (T : t_every c (length xs) = 0%nat). { unfold t_every. rewrite E, Rmult_0_r. replace (if c_units c then 0 else 0) with 0 by (destruct (c_units c); reflexivity). pose proof (ceilZ_spec 0) as [A B]. assert (ceilZ 0 < 1)%Z by (apply lt_IZR; lra). lia. }
  rewrite T. cbn [Nat.eqb o_e o_s o_x]. split; [reflexivity|]. exists (lra_of c s xs ds). reflexivity.
Qed.
(** settings that are not implemented are refused before anything is changed *)
Theorem C148_unsupported : forall c v s xs ds, ~ supported c -> let o := update c v s xs ds in o_e o = Some ConfigError /\ o_s o = s /\ o_x o = xs.
Proof.
  intros c v s xs ds N o. unfold o, update. destruct (c_nreads c =? 1)%Z eqn:E1; cbn [negb]; [|repeat split]. apply Z.eqb_eq in E1.
  destruct (Rltb (c_every c) 0) eqn:E2; [repeat split|]. apply Rltb_false in E2.
  destruct (c_tail c) eqn:E3; [|exfalso; apply N; repeat split; auto; congruence]. destruct (c_cacc c) eqn:E4; [repeat split|]. exfalso; apply N; repeat split; auto.
Qed.

(** a configuration: 2 outputs, 3 inputs, a transfer every 2 samples *)
Definition cfg0 : pcfg :=
  {| c_x := 3; c_d := 2; c_every := 2; c_units := false; c_nreads := 1; c_auto := false; c_amom := 99 / 100; c_fast := 1; c_bl := 31;
     c_gran := 1; c_again := 0; c_correct := false; c_prob := 0; c_random := false; c_cols := true;
     c_forget := false; c_mom := 0; c_tail := None; c_cacc := false; c_step := 1; c_dwA := 1 / 10; c_dwC := 1 / 10 |}.
Lemma cfg0_supported : supported cfg0.
Proof. unfold supported; cbn. repeat split; auto; lra. Qed.
Lemma cfg0_regular : regular cfg0.
Proof. unfold regular; cbn. repeat split; try lra; congruence. Qed.
Lemma every_int c m n : c_every c = INR n -> c_units c = false -> t_every c m = n.
Proof.
  intros E U. unfold t_every. rewrite U, E. pose proof (ceilZ_spec (INR n)) as [A B]. rewrite INR_IZR_INZ in *.
  assert (Z.of_nat n <= ceilZ (IZR (Z.of_nat n)))%Z by (apply le_IZR; lra). assert (ceilZ (IZR (Z.of_nat n)) < Z.of_nat n + 1)%Z by (apply lt_IZR; rewrite plus_IZR; lra). lia.
Qed.
Lemma cfg0_every m : t_every cfg0 m = 2%nat.
Proof. apply every_int; [cbn; lra | reflexivity]. Qed.
(** five updates with one sample: two reads, of columns 1 and 2 *)
Example C148_nontrivial : exists s, run cfg0 (ideal cfg0 (fun _ => 0)) p_init (repeat (Up [fun _ => 1] [fun _ => 1]) 5) = Ok s /\ map r_k (reads s) = [1; 2]%nat.
Proof.
  destruct (C148_schedule cfg0 (ideal cfg0 (fun _ => 0)) 2 (repeat (Up [fun _ => 1] [fun _ => 1]) 5) cfg0_supported cfg0_regular) as (s & E & _ & L & K); [cbn; lia | lia | |].
  { unfold batches. apply Forall_forall. intros e He. apply repeat_spec in He. subst e. cbn [length]. rewrite cfg0_every. lia. }
  exists s. split; [exact E|]. cbn in L. destruct (reads s) as [|a [|b [|? ?]]]; cbn in L; try lia. cbn. rewrite (K 0%nat a eq_refl), (K 1%nat b eq_refl). reflexivity.
Qed.

Print Assumptions C148_schedule.
Print Assumptions C148_every.
Print Assumptions C148_too_large.
Print Assumptions C148_never_refuted.
Print Assumptions C148_unsupported.
