(** * Regular choppers of the Python transfer tile (C151) *)
From Verif Require Import Prelude PulseModel PulseProofs PttModel PttSpec PttProofs PttProps PttProps2 PttProps3.
Local Open Scope R_scope.

(** the number of reads of slice [k] among the first [n] reads *)
Definition reads_of (k : nat) (l : list rd) : nat := length (filter (fun r => (r_k r =? k)%nat) l).
(** the sign after [n] switches *)
Definition sgn (n : nat) : R := if Nat.even n then 1 else -1.
Lemma sgn_S n : sgn (S n) = - sgn n.
Proof. unfold sgn. rewrite Nat.even_succ, <- Nat.negb_even. destruct (Nat.even n); cbn [negb]; lra. Qed.

Definition regularly (c : pcfg) : Prop := c_random c = false /\ 0 < c_prob c <= 1.
Lemma period_pos c : regularly c -> (0 < c_period c)%nat.
Proof.
  intros [_ [P Q]]. unfold c_period. rewrite (proj2 (Rltb_true _ _) P). assert (L : 1 <= 1 / c_prob c) by (apply Rmult_le_reg_r with (c_prob c); [exact P|]; unfold Rdiv; rewrite Rmult_assoc, Rinv_l by lra; lra).
  pose proof (rhe_mono 1 (1 / c_prob c) L) as H. pose proof (rhe_IZR 1) as X. lia.
Qed.
(** the number of switches of slice [k] after [q] reads of it, if the period is [P] reads: slices
    other than the first switch at reads 1, 1 + P, 1 + 2 P, ..., the first one at P, 2 P, ... *)
Definition switches (P k q : nat) : nat := if (k =? 0)%nat then (q / P)%nat else ((q + P - 1) / P)%nat.

Lemma div_step q P : (0 < P)%nat -> (S q / P = q / P + (if (S q mod P =? 0)%nat then 1 else 0))%nat.
Proof.
  intros H. pose proof (Nat.div_mod q P ltac:(lia)) as A. pose proof (Nat.mod_upper_bound q P ltac:(lia)) as B. pose proof (Nat.div_mod (S q) P ltac:(lia)) as A'. pose proof (Nat.mod_upper_bound (S q) P ltac:(lia)) as B'.
  destruct (Nat.eqb_spec (S q mod P) 0) as [e|ne].
  - rewrite e in *. assert (q mod P = P - 1)%nat; [|nia]. symmetry. apply (Nat.mod_unique q P (S q / P - 1)); [lia|]. destruct (S q / P)%nat; nia.
  - symmetry. rewrite Nat.add_0_r. apply (Nat.div_unique (S q) P (q / P) (S (q mod P))); [|lia]. destruct (Nat.eq_dec (S (q mod P)) P) as [e|n2]; [exfalso|lia]. apply ne. replace (S q) with ((q / P + 1) * P)%nat by nia. apply Nat.mod_mul; lia.
Qed.
(** counts of the reads of a slice, when the slices are read in turn *)
Lemma inv_reads c v h s : supported c -> (0 < t_in c)%nat -> run c v p_init h = Ok s ->
  s_idx s = (length (s_log s) mod t_in c)%nat /\
  forall k, (k < t_in c)%nat -> reads_of k (s_log s) = ((length (s_log s) + (t_in c - k)) / t_in c - (if (k =? 0)%nat then 1 else 0))%nat.
Proof.
  intros Sp Ti. set (n := t_in c) in *. revert h s. apply (run_ind c v p_init (fun _ s => s_idx s = (length (s_log s) mod n)%nat /\ forall k, (k < n)%nat -> reads_of k (s_log s) = ((length (s_log s) + (n - k)) / n - (if (k =? 0)%nat then 1 else 0))%nat)).
  { split; [cbn; symmetry; apply Nat.mod_0_l; lia|]. intros k Hk. cbn [p_init s_log length reads_of filter]. rewrite Nat.add_0_l. unfold reads_of. cbn [filter length]. destruct (Nat.eqb_spec k 0) as [->|N].
    - rewrite Nat.sub_0_r, Nat.div_same by lia. reflexivity.
    - rewrite Nat.div_small by lia. reflexivity. }
  intros h s e s' _ [I J] E. destruct (step_cases _ _ _ _ _ Sp E) as [(l & _ & ->) | (xs & ds & _ & _ & [[_ ->] | [_ Et]])]; [destruct l; exact (conj I J) | exact (conj I J)|].
  destruct (transfer_fields _ _ _ _ _ _ Et) as (_ & _ & _ & Ik & _ & _ & _ & _ & Lg & _). set (s1 := acc c v s xs ds) in *. rewrite Ik, Lg. change (s_log s1) with (s_log s). cbn [length].
  assert (K : next_k c s1 = (S (length (s_log s)) mod n)%nat). { unfold next_k. fold n. change (s_idx s1) with (s_idx s). rewrite I. rewrite Nat.add_mod_idemp_l by lia. f_equal. lia. }
  split; [exact K|]. intros k Hk. unfold reads_of. cbn [filter r_k rd_of]. rewrite K. fold (reads_of k (s_log s)). set (r := length (s_log s)) in *. specialize (J k Hk). replace (S r + (n - k))%nat with (S (r + (n - k))) by lia. rewrite div_step by lia.
  assert (M : (S (r + (n - k)) mod n =? 0)%nat = (S r mod n =? k)%nat).
  { replace (S (r + (n - k)))%nat with (S r + (n - k))%nat by lia. pose proof (Nat.mod_upper_bound (S r) n ltac:(lia)) as B. rewrite <- Nat.add_mod_idemp_l by lia. set (a := (S r mod n)%nat) in *. clearbody a. apply Bool.eq_iff_eq_true. rewrite !Nat.eqb_eq. split; intros H.
    - destruct (Nat.lt_ge_cases (a + (n - k)) n) as [L|G]; [rewrite Nat.mod_small in H by exact L; lia|]. assert (X : ((a + (n - k)) mod n = a - k)%nat) by (symmetry; apply (Nat.mod_unique _ n 1); lia). lia.
    - rewrite H. replace (k + (n - k))%nat with n by lia. apply Nat.mod_same. lia. }
  rewrite M. assert (G : (k = 0 -> 1 <= (r + (n - k)) / n)%nat). { intros ->. rewrite Nat.sub_0_r. replace (r + n)%nat with (r + 1 * n)%nat by lia. rewrite Nat.div_add by lia. lia. }
  destruct (S r mod n =? k)%nat; cbn [length]; fold (reads_of k (s_log s)); change (length (filter (fun r0 => (r_k r0 =? k)%nat) (s_log s))) with (reads_of k (s_log s)); rewrite J; destruct (Nat.eqb_spec k 0); lia.
Qed.
(** Regular choppers: after every history the sign of a column (row) is that of the number of its
    switches, which is a function of the number of its reads only; after the first switch there is
    one switch in every [round(1 / in_chop_prob)] reads. *)
Theorem C151_switches : forall c v h s, supported c -> regularly c -> (0 < t_in c)%nat -> run c v p_init h = Ok s ->
  forall k, (k < t_in c)%nat -> s_c s k = sgn (switches (c_period c) k (reads_of k (reads s))).
Proof.
  intros c v h s Sp Rg Ti E. pose proof (period_pos c Rg) as Pp. set (P := c_period c) in *. set (n := t_in c) in *.
  assert (X : s_chop s = (reads_of 0 (s_log s) mod P)%nat /\ forall k, (k < n)%nat -> s_c s k = sgn (switches P k (reads_of k (s_log s)))).
  { revert h s E. apply (run_ind c v p_init (fun _ s => s_chop s = (reads_of 0 (s_log s) mod P)%nat /\ forall k, (k < n)%nat -> s_c s k = sgn (switches P k (reads_of k (s_log s))))).
    { unfold reads_of. cbn [p_init s_chop s_log filter length s_c]. split; [symmetry; apply Nat.mod_0_l; lia|]. intros k _. unfold switches. destruct (k =? 0)%nat; rewrite Nat.div_small by lia; reflexivity. }
    intros h s e s' Er [I J] E. destruct (step_cases _ _ _ _ _ Sp E) as [(l & _ & ->) | (xs & ds & _ & _ & [[_ ->] | [_ Et]])]; [destruct l; exact (conj I J) | exact (conj I J)|].
    destruct (inv_reads c v h s Sp Ti Er) as [Ii Ir]. fold n in Ii, Ir.
    destruct (transfer_fields _ _ _ _ _ _ Et) as (_ & _ & _ & Ik & Hcc & _ & _ & _ & Lg & _ & Hc & _). set (s1 := acc c v s xs ds) in *. rewrite Hcc, Hc, Lg. change (s_log s1) with (s_log s). set (r := length (s_log s)) in *.
    assert (K : next_k c s1 = (S r mod n)%nat). { unfold next_k. fold n. change (s_idx s1) with (s_idx s). rewrite Ii. rewrite Nat.add_mod_idemp_l by lia. f_equal. lia. }
    pose proof (Nat.mod_upper_bound (S r) n ltac:(lia)) as B. rewrite <- K in B. set (kk := next_k c s1) in *.
    assert (Rd : forall k a, reads_of k (rd_of c v a s1 :: s_log s) = ((if (kk =? k)%nat then 1 else 0) + reads_of k (s_log s))%nat). { intros k a. unfold reads_of. cbn [filter r_k rd_of]. fold kk. destruct (kk =? k)%nat; reflexivity. }
    rewrite Rd. assert (Pr : Reqb (c_prob c) 0 = false) by (apply Reqb_false; destruct Rg as [_ ?]; lra).
    assert (Cc : cc_of c s1 = if (kk =? 0)%nat then ((reads_of 0 (s_log s) + 1) mod P)%nat else (reads_of 0 (s_log s) mod P)%nat).
    { unfold cc_of. rewrite Pr. destruct Rg as [-> _]. cbn [negb andb]. fold kk P. change (s_chop s1) with (s_chop s). rewrite I. destruct (kk =? 0)%nat; [|reflexivity]. now rewrite Nat.add_mod_idemp_l by lia. }
    assert (Sw : sw_of c v s1 = (cc_of c s1 =? 0)%nat) by (unfold sw_of; rewrite Pr; destruct Rg as [-> _]; reflexivity).
    split. { rewrite Cc. destruct (kk =? 0)%nat; [f_equal; lia | reflexivity]. }
    intros k Hk. rewrite Rd, Sw, Cc. change (s_c s1) with (s_c s). destruct (Nat.eqb_spec kk k) as [ek|ne].
    2:{ match goal with |- (if ?b then _ else _) k = _ => destruct b end; [rewrite put_ne by congruence|]; apply J; exact Hk. }
    assert (Val : forall b : bool, (if b then put (s_c s) kk (- s_c s kk) else s_c s) k = (if b then - s_c s k else s_c s k)) by (intros [|]; [rewrite ek; apply put_eq | reflexivity]). rewrite Val. rewrite (J k Hk). change (1 + reads_of k (s_log s))%nat with (S (reads_of k (s_log s))). set (q := reads_of k (s_log s)) in *.
    destruct (Nat.eqb_spec kk 0) as [k0|k0].
    - assert (Ek : k = 0%nat) by congruence. unfold q in *. rewrite Ek in *. unfold switches. cbn [Nat.eqb]. rewrite Nat.add_1_r. rewrite (div_step (reads_of 0 (s_log s)) P Pp). destruct (S (reads_of 0 (s_log s)) mod P =? 0)%nat; [rewrite Nat.add_1_r, sgn_S; reflexivity | now rewrite Nat.add_0_r].
    - assert (Q : reads_of 0 (s_log s) = q).
      { unfold q. rewrite (Ir 0%nat) by lia. rewrite (Ir k Hk). cbn [Nat.eqb]. replace (k =? 0)%nat with false by (symmetry; apply Nat.eqb_neq; lia). rewrite ek in K. rewrite Nat.sub_0_r. replace (r + n)%nat with (r + 1 * n)%nat by lia. rewrite Nat.div_add by lia.
        pose proof (Nat.div_mod (S r) n ltac:(lia)) as DM. rewrite <- K in DM. set (m := (S r / n)%nat) in *.
        assert (r / n = m)%nat by (symmetry; apply (Nat.div_unique r n m (k - 1)); nia). assert ((r + (n - k)) / n = m)%nat by (symmetry; apply (Nat.div_unique _ n m (n - 1)); nia). lia. }
      rewrite Q. unfold switches. replace (k =? 0)%nat with false by (symmetry; apply Nat.eqb_neq; lia). replace (S q + P - 1)%nat with (S (q + P - 1)) by lia. rewrite (div_step (q + P - 1) P Pp).
      replace (S (q + P - 1)) with (q + 1 * P)%nat by lia. rewrite Nat.mod_add by lia. destruct (q mod P =? 0)%nat; [rewrite Nat.add_1_r, sgn_S; reflexivity | now rewrite Nat.add_0_r]. }
  intros k Hk. unfold reads. replace (reads_of k (rev (s_log s))) with (reads_of k (s_log s)); [apply X; exact Hk|]. unfold reads_of. clear. induction (s_log s) as [|a l IH]; [reflexivity|]. cbn [rev filter]. rewrite filter_app, app_length, <- IH. cbn [filter]. destruct (r_k a =? k)%nat; cbn [length]; lia.
Qed.
(** the number of reads of a slice after [n] reads: the slices are read in turn, beginning with the
    second one *)
Theorem C151_turns : forall c v h s k, supported c -> (0 < t_in c)%nat -> run c v p_init h = Ok s -> (k < t_in c)%nat ->
  reads_of k (reads s) = if (k =? 0)%nat then (length (reads s) / t_in c)%nat else ((length (reads s) + (t_in c - k)) / t_in c)%nat.
Proof.
  intros c v h s k Sp Ti E Hk. destruct (inv_reads c v h s Sp Ti E) as [_ X]. unfold reads. rewrite rev_length. replace (reads_of k (rev (s_log s))) with (reads_of k (s_log s)).
  - rewrite (X k Hk). destruct (Nat.eqb_spec k 0) as [->|N]; [|lia]. rewrite Nat.sub_0_r. replace (length (s_log s) + t_in c)%nat with (length (s_log s) + 1 * t_in c)%nat by lia. rewrite Nat.div_add by lia. lia.
  - unfold reads_of. clear. induction (s_log s) as [|a l IH]; [reflexivity|]. cbn [rev filter]. rewrite filter_app, app_length, <- IH. cbn [filter]. destruct (r_k a =? k)%nat; cbn [length]; lia.
Qed.
(** "All rows/cols will switch at the same matrix update cycle", after a period of reads: wrong for
    the first period.  After one read of each of [n >= 2] columns all but the first have switched *)
Theorem C151_first_refuted : forall c v h s, supported c -> regularly c -> (2 <= t_in c)%nat -> (2 <= c_period c)%nat -> run c v p_init h = Ok s -> length (reads s) = t_in c ->
  s_c s 0%nat = 1 /\ forall k, (0 < k < t_in c)%nat -> s_c s k = -1.
Proof.
  intros c v h s Sp Rg T2 P2 E L. assert (Q : forall k, (k < t_in c)%nat -> reads_of k (reads s) = 1%nat).
  { intros k Hk. rewrite (C151_turns c v h s k Sp ltac:(lia) E Hk), L. destruct (Nat.eqb_spec k 0) as [->|N]; [apply Nat.div_same; lia|]. symmetry. apply (Nat.div_unique _ _ 1 (t_in c - k)); lia. }
  split; [|intros k Hk]; rewrite (C151_switches c v h s Sp Rg) by (try exact E; lia); rewrite Q by lia; unfold switches.
  - cbn [Nat.eqb]. rewrite Nat.div_small by lia. reflexivity.
  - replace (k =? 0)%nat with false by (symmetry; apply Nat.eqb_neq; lia). replace (1 + c_period c - 1)%nat with (c_period c) by lia. rewrite Nat.div_same by lia. reflexivity.
Qed.
(** no switch without [in_chop_prob] *)
Theorem C151_off : forall c v h s, supported c -> c_prob c = 0 -> run c v p_init h = Ok s -> forall k, s_c s k = 1.
Proof.
  intros c v h s Sp P E k. revert h s E. apply (run_ind c v p_init (fun _ s => s_c s k = 1)); [reflexivity|].
  intros h s e s' _ I E. destruct (step_cases _ _ _ _ _ Sp E) as [(l & _ & ->) | (xs & ds & _ & _ & [[_ ->] | [_ Et]])]; [destruct l; exact I | exact I|].
  destruct (transfer_fields _ _ _ _ _ _ Et) as (_ & _ & _ & _ & _ & _ & _ & _ & _ & _ & Hc & _). rewrite Hc. unfold sw_of. rewrite P, (proj2 (Reqb_true 0 0) eq_refl). exact I.
Qed.
(** 2 rows, a switch in every second read: after two reads only the second row has switched *)
Example C151_nontrivial : let c := cfg2 (1 / 2) in exists s, run c (ideal c (fun _ => 0)) p_init (repeat (Up [fun _ => 1] [fun _ => 1]) 2) = Ok s /\ regularly c /\ c_period c = 2%nat /\ s_c s 0%nat = 1 /\ s_c s 1%nat = -1.
Proof.
  intros c. destruct (cfg2_ok (1 / 2)) as [Sp Rg]. fold c in Sp, Rg. assert (T : forall m, t_every c m = 1%nat) by (intros; apply every_int; [cbn; lra | reflexivity]).
  destruct (C148_schedule c (ideal c (fun _ => 0)) 1 (repeat (Up [fun _ => 1] [fun _ => 1]) 2) Sp Rg) as (s & E & _ & L & _); [cbn; lia | lia | |].
  { apply Forall_forall. intros e He. apply repeat_spec in He. subst e. cbn [length]. rewrite T. lia. }
  assert (Rr : regularly c) by (split; [reflexivity | cbn; lra]).
  assert (P : c_period c = 2%nat). { unfold c_period. cbn [c cfg2 c_prob]. rewrite (proj2 (Rltb_true 0 (1 / 2))) by lra. replace (1 / (1 / 2)) with (IZR 2) by lra. now rewrite rhe_IZR. }
  exists s. split; [exact E|]. split; [exact Rr|]. split; [exact P|]. destruct (C151_first_refuted c _ _ s Sp Rr ltac:(cbn; lia) ltac:(lia) E) as [A B]; [rewrite L; reflexivity|]. split; [exact A | apply B; cbn; lia].
Qed.

Print Assumptions C151_switches.
Print Assumptions C151_turns.
Print Assumptions C151_first_refuted.
Print Assumptions C151_off.
