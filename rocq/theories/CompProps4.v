(** * Compound devices: refresh of one sided devices (C69) *)
From Verif Require Import Prelude Rand DevModel DevSpec DevProofs PulseModel PulseSpec PulseProofs PulseProps CompModel CompSpec CompProofs CompProofs2 CompProofs3 CompProps CompProps2 CompProps3.

(** the update number [n] of a device triggers a refresh *)
Definition refresh_due (r : refr) (mb n : nat) : Prop :=
  (0 < rf_every r)%nat /\ exists q, n = (q * (if rf_mb r then rf_every r * mb else rf_every r))%nat.
Definition conductances (s : comp) (i j : nat) (cm cp : cell) : Prop :=
  cell_at (d_cells (snd (part_at s 0))) i j = Some cm /\ cell_at (d_cells (snd (part_at s 1))) i j = Some cp.
Lemma due_mod r mb n : (0 < mb)%nat -> (refresh_due r mb n <-> (Nat.ltb 0 (rf_every r) && (n mod (if rf_mb r then (rf_every r * mb)%nat else rf_every r) =? 0)%nat)%bool = true).
Proof.
  intros M. unfold refresh_due. rewrite Bool.andb_true_iff, Nat.ltb_lt, Nat.eqb_eq. set (e := if rf_mb r then _ else _). split; intros [H1 H2]; split; auto.
  - destruct H2 as [q ->]. apply Nat.mod_mul. subst e. destruct (rf_mb r); nia.
  - exists (n / e)%nat. rewrite Nat.mul_comm. apply Nat.div_exact; auto. subst e. destruct (rf_mb r); nia.
Qed.
Lemma refresh_cells r u up mb s s' n m i j cm cp : writes_dir u up -> ideal_read (rf_read r) -> rf_up r = init_upar u -> (0 < mb)%nat -> well_formed (KOneSided r) s ->
  dims (k_w s) = repeat n m -> Forall (fun p => 0 < m_dwmin (fst p)) (k_parts s) -> refresh_due r mb (S (k_cnt s)) -> yields (onesided_finish r mb s) s' -> conductances s i j cm cp ->
  exists cm' cp', conductances s' i j cm' cp' /\ refreshed r up (fst (part_at s 0)) (fst (part_at s 1)) cm cp cm' cp'.
Proof.
  intros WD IR U Mb W D G Due Y [Em Ep]. pose proof W as (_ & Lg & F & K). rewrite K in Lg. simpl in Lg.
  unfold onesided_finish in Y. cbv zeta in Y. cbn [k_cnt with_idx k_parts] in Y. apply (due_mod r mb) in Due; auto. rewrite Due in Y.
  destruct (k_parts s) as [|m0 [|p0 [|? ?]]] eqn:EP; simpl in Lg; try lia.
  assert (F0 : pdims (repeat n m) m0 /\ pdims (repeat n m) p0). { inversion F as [|? ? Fm F']; subst. inversion F' as [|? ? Fp F'']; subst. rewrite D in *. split; assumption. } destruct F0 as [Fm Fp].
  inversion G as [|? ? Gm G']; subst. inversion G' as [|? ? Gp G'']; subst.
  apply yields_bind in Y as (st & Y & Ys). unfold part_at in *. rewrite EP in *. cbn [nth] in *.
  assert (Im : (i < m)%nat). { pose proof (cell_row_len _ _ _ _ Ep). assert (L : length (dims (d_cells (snd p0))) = length (repeat n m)) by (f_equal; exact Fp). unfold dims in L. rewrite map_length, repeat_length in L. lia. }
  assert (X0 : length (nth 0 (d_cells (snd p0)) []) = n). { rewrite <- dims_nth. unfold pdims in Fp. rewrite Fp. destruct m; [lia|]. reflexivity. } rewrite X0 in Y.
  assert (Jn : (j < n)%nat). { unfold cell_at in Ep. destruct (nth_error (d_cells (snd p0)) i) as [row|] eqn:Er; [|discriminate]. assert (Lr : length row = n). { rewrite <- (nth_error_nth _ _ [] Er), <- dims_nth. unfold pdims in Fp. rewrite Fp. rewrite nth_error_nth with (x := n) (n := i); [reflexivity|]; apply nth_error_repeat; exact Im. } rewrite <- Lr. apply nth_error_Some. congruence. }
  destruct (refresh_fold_cell r u up n m IR U WD (seq 0 n) (m0, p0, false) st i j cm cp) as (cm' & cp' & E1 & E2 & H); auto.
  - apply seq_NoDup.
  - intros a Ia. apply in_seq in Ia. lia.
  - assert (Ex : existsb (Nat.eqb j) (seq 0 n) = true) by (apply existsb_exists; exists j; split; [apply in_seq; lia | apply Nat.eqb_refl]). rewrite Ex in H. exists cm', cp'.
    destruct st as [[m' p'] done]. cbn [fst snd] in *. apply yields_ret in Ys. subst s'. unfold conductances, part_at. destruct done; cbn [k_parts with_w with_parts with_idx nth]; split; auto.
Qed.
(** At a refresh (every [refresh_every] updates, in units of mini batches if asked for) with ideal
    reads, exactly the pairs of conductances above the thresholds are reset, and then only the one
    that was larger is written, with up pulses; all others are left alone.  Stochastic pulse
    types. *)
Theorem C69_refresh : forall r u mb s s' n m i j cm cp, sensible u -> stochastic u -> rf_up r = init_upar u -> ideal_read (rf_read r) -> (0 < mb)%nat -> well_formed (KOneSided r) s ->
  dims (k_w s) = repeat n m -> Forall (fun p => 0 < m_dwmin (fst p)) (k_parts s) -> refresh_due r mb (S (k_cnt s)) -> yields (onesided_finish r mb s) s' -> conductances s i j cm cp ->
  exists cm' cp', conductances s' i j cm' cp' /\ refreshed r true (fst (part_at s 0)) (fst (part_at s 1)) cm cp cm' cp'.
Proof. intros r u mb s s' n m i j cm cp Hs Ht. intros. eapply refresh_cells; eauto. now apply writes_up. Qed.
(** With the dense pulse types the sign of the learning rate is lost and the larger conductance is
    written with down pulses: the stored difference is not restored *)
Theorem C69_dense_refuted : forall r u mb s s' n m i j cm cp, sensible u -> dense u -> rf_up r = init_upar u -> ideal_read (rf_read r) -> (0 < mb)%nat -> well_formed (KOneSided r) s ->
  dims (k_w s) = repeat n m -> Forall (fun p => 0 < m_dwmin (fst p)) (k_parts s) -> refresh_due r mb (S (k_cnt s)) -> yields (onesided_finish r mb s) s' -> conductances s i j cm cp ->
  exists cm' cp', conductances s' i j cm' cp' /\ refreshed r false (fst (part_at s 0)) (fst (part_at s 1)) cm cp cm' cp'.
Proof. intros r u mb s s' n m i j cm cp Hs Ht. intros. eapply refresh_cells; eauto. now apply writes_down. Qed.
(** Between refreshes nothing but the counter changes *)
Theorem C69_not_due : forall r mb s s', (0 < mb)%nat -> ~ refresh_due r mb (S (k_cnt s)) -> yields (onesided_finish r mb s) s' -> s' = with_idx s (k_idx s) (S (k_cnt s)).
Proof.
  intros r mb s s' Mb ND Y. unfold onesided_finish in Y. cbv zeta in Y. cbn [k_cnt with_idx] in Y. destruct (_ && _)%bool eqn:E; [exfalso; apply ND; apply (due_mod r mb); auto|]. now apply yields_ret in Y.
Qed.
(** A refresh of a device with write noise always fails *)
Theorem C69_write_noise : forall r mb s s' n m, (0 < mb)%nat -> well_formed (KOneSided r) s -> dims (k_w s) = repeat (S n) (S m) -> 0 < m_wn (fst (part_at s 1)) -> ideal_read (rf_read r) ->
  refresh_due r mb (S (k_cnt s)) -> ~ yields (onesided_finish r mb s) s'.
Proof.
  intros r mb s s' n m Mb W D P IR Due Y. pose proof W as (_ & Lg & F & K). rewrite K in Lg. simpl in Lg.
  unfold onesided_finish in Y. cbv zeta in Y. cbn [k_cnt with_idx k_parts] in Y. apply (due_mod r mb) in Due; auto. rewrite Due in Y.
  destruct (k_parts s) as [|m0 [|p0 [|? ?]]] eqn:EP; simpl in Lg; try lia. apply yields_bind in Y as (st & Y & _).
  assert (Fp : pdims (repeat (S n) (S m)) p0). { inversion F as [|? ? Fm F']; subst. inversion F' as [|? ? Fp F'']; subst. rewrite D in *. assumption. }
  assert (X0 : length (nth 0 (d_cells (snd p0)) []) = S n) by (rewrite <- dims_nth; unfold pdims in Fp; rewrite Fp; reflexivity). rewrite X0 in Y. cbn [seq foldMM] in Y.
  apply yields_bind in Y as (s1 & Y & _). unfold refresh_col in Y. rewrite !IR in Y. cbn [bindM] in Y. cbv zeta in Y. apply yields_bind in Y as (p1 & Y & _). unfold reset_indices in Y.
  unfold part_at in P. rewrite EP in P. cbn [nth] in P. assert (E : persist (fst p0) = true) by (unfold persist; apply Rltb_true; exact P). rewrite E in Y. now apply yields_throw in Y.
Qed.
(** ... and without write noise never *)
Theorem C69_total : forall r mb s, well_formed (KOneSided r) s -> ideal_read (rf_read r) -> Forall (fun p => m_wn (fst p) <= 0) (k_parts s) -> total (onesided_finish r mb s).
Proof.
  intros r mb s W IR F. pose proof W as (_ & Lg & _ & K). rewrite K in Lg. simpl in Lg. unfold onesided_finish. cbv zeta. cbn [k_cnt with_idx k_parts]. destruct (_ && _)%bool; [|apply total_ret].
  destruct (k_parts s) as [|m0 [|p0 [|? ?]]] eqn:EP; simpl in Lg; try lia. inversion F as [|? ? Fm F']; subst. inversion F' as [|? ? Fp F'']; subst.
  apply total_bind. { apply refresh_fold_total; auto; unfold persist; now apply Rltb_false. } intros [[m' p'] done] _. apply total_ret.
Qed.
Example C69_example : let s := comp1 [-1; 1] [1/2; 9/10] (4/10) 0 in let r := refr_ex 1 (1/10) (1/2) in
  well_formed (KOneSided r) s /\ refresh_due r 1 (S (k_cnt s)) /\ ideal_read (rf_read r) /\ rf_up r = init_upar up_ex /\ sensible up_ex /\ stochastic up_ex /\ dims (k_w s) = repeat 1%nat 1 /\
  Forall (fun p => 0 < m_dwmin (fst p)) (k_parts s) /\ conductances s 0 0 (cell0 (1/2)) (cell0 (9/10)) /\ needs_refresh r (9/10) (1/2) /\ exists s', yields (onesided_finish r 1 s) s'.
Proof.
  cbv zeta. assert (W : well_formed (KOneSided (refr_ex 1 (1/10) (1/2))) (comp1 [-1; 1] [1/2; 9/10] (4/10) 0)) by (repeat split; try discriminate; repeat constructor).
  split; [exact W|]. split; [split; [simpl; lia | exists 1%nat; reflexivity]|]. split; [intros w x; reflexivity|]. split; [reflexivity|]. split; [split; simpl; [lia | lra]|]. split; [now right|]. split; [reflexivity|].
  split; [repeat constructor; simpl; lra|]. split; [split; reflexivity|]. split; [left; simpl; lra|]. apply total_yields. apply C69_total; [exact W | intros w x; reflexivity | repeat constructor; simpl; lra].
Qed.

Print Assumptions C69_refresh.
Print Assumptions C69_dense_refuted.
Print Assumptions C69_not_due.
Print Assumptions C69_write_noise.
Print Assumptions C69_total.
