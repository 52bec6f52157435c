(** * How a new dynamic transfer device gets rid of an offset (C158) *)
From Verif Require Import Prelude Rand DevModel PulseModel CompModel TransModel TransSpec TransProofs AgdModel AgdSpec AgdProofs AgdProps AgdProps2 AgdProps3 AgdProps4.
Local Open Scope R_scope.

Definition shifted_read (c : acfg) (O : gmat) (r r' : ard) : Prop :=
  q_k r' = q_k r /\ q_lr r' = q_lr r /\ q_sw r' = q_sw r /\ forall j, (j < a_out c)%nat -> q_sign r' j = q_sign r j /\ q_val r' j = q_val r j + O (q_k r) j.
Definition same_schedule (s s' : ast) : Prop := (forall k, g_in s' k = g_in s k) /\ (forall j, g_out s' j = g_out s j) /\ g_cnt s' = g_cnt s /\ g_idx s' = g_idx s /\ g_upd s' = g_upd s.
Lemma open_run c O : forall h h' s s', same_schedule s s' -> Forall2 (shifted_read c O) (g_log s) (g_log s') -> g_related c O s h h' -> Forall2 (shifted_read c O) (g_log (a_run c s h)) (g_log (a_run c s' h')).
Proof.
  induction h as [|e h IH]; intros h' s s' Sc Fl Rl; destruct h' as [|e' h']; try contradiction; [exact Fl|]. destruct Rl as [Re Rl]. unfold a_run in *. cbn [fold_left].
  enough (X : same_schedule (a_step c s e) (a_step c s' e') /\ Forall2 (shifted_read c O) (g_log (a_step c s e)) (g_log (a_step c s' e'))) by (apply IH; [apply X | apply X | exact Rl]). clear IH Rl.
  destruct Sc as (Si & So & Sc & Sx & Su). destruct e as [lr cl ev val coin|], e' as [lr' cl' ev' val' coin'|]; try contradiction; [|split; [repeat split; auto | exact Fl]]. destruct Re as (-> & -> & -> & -> & Rv).
  cbn [a_step]. change (g_upd (a_count s')) with (S (g_upd s')). change (g_upd (a_count s)) with (S (g_upd s)). rewrite Su. destruct (_ && _)%bool; [|split; [repeat split; auto; cbn [a_count g_upd]; congruence | exact Fl]].
  unfold a_transfer. cbn [same_schedule g_log]. destruct (Req_EM_T lr 0) as [->|N].
  { unfold a_read. rewrite (proj2 (Reqb_true 0 0) eq_refl). split; [|exact Fl]. unfold same_schedule. cbn [g_in g_out g_cnt g_idx g_upd a_count]. rewrite Sx, Su, Sc. auto. }
  unfold same_schedule. cbn [g_in g_out g_cnt g_idx g_upd]. change (g_idx (a_count s')) with (g_idx s'). change (g_idx (a_count s)) with (g_idx s). rewrite Sx.
  destruct (a_read_fields c lr cl (g_idx s) val coin (a_count s) N) as (_ & _ & _ & F4 & F5 & _ & F7 & F8). destruct (a_read_fields c lr cl (g_idx s) val' coin (a_count s') N) as (_ & _ & _ & G4 & G5 & _ & G7 & G8).
  assert (Sm : switch_of c coin (a_count s') = switch_of c coin (a_count s)) by (unfold switch_of; cbn [a_count g_cnt]; now rewrite Sc). rewrite F4, F5, F7, F8, G4, G5, G7, G8, Sm. cbn [a_count g_in g_out g_cnt g_log]. rewrite Sc.
  split.
  - split; [|split; [exact So|]]. + intros k. destruct (switch_of c coin (a_count s)); [|apply Si]. unfold gput. rewrite Si. destruct (k =? g_idx s)%nat; [reflexivity | apply Si].
    + split; [reflexivity|]. split; [reflexivity|]. unfold a_read. rewrite (proj2 (Reqb_false lr 0) N). cbn [g_upd a_count]. congruence.
  - constructor; [|exact Fl]. unfold shifted_read. cbn [ard_of q_k q_lr q_sw q_sign q_val a_count g_cnt]. rewrite Sc, Sm. repeat split; [unfold sign_of; cbn [a_count g_in g_out]; now rewrite Si, So | now apply Rv].
Qed.
Lemma F2_length {A B} (P : A -> B -> Prop) l l' : Forall2 P l l' -> length l = length l'.
Proof. induction 1; cbn [length]; congruence. Qed.
Lemma reads_shifted c O k l l' : Forall2 (shifted_read c O) l l' -> g_readsof k l' = g_readsof k l /\ g_switches k l' = g_switches k l /\ g_old k l' = g_old k l.
Proof.
  unfold g_readsof, g_switches. induction 1 as [|r r' l l' (K & _ & S & _) F (I1 & I2 & I3)]; [repeat split|]. cbn [filter g_old]. rewrite K, S. unfold g_readsof. cbn [filter]. rewrite K. destruct (q_k r =? k)%nat, (q_sw r); cbn [andb length]; rewrite ?I1, ?I2; auto.
Qed.
Lemma mean_shifted c O b k j l l' : (j < a_out c)%nat -> Forall2 (shifted_read c O) l l' -> g_meanof b k j l' = g_meanof b k j l + O k j * (1 - (1 - b) ^ g_readsof k l).
Proof.
  intros Lj. unfold g_readsof. induction 1 as [|r r' l l' (K & _ & _ & V) F IH]; cbn [g_meanof filter length pow]; [lra|]. rewrite K. destruct (Nat.eqb_spec (q_k r) k) as [E|]; [|exact IH]. cbn [length pow]. rewrite IH, (proj2 (V j Lj)), E. ring.
Qed.
Lemma ref_shifted c O b k j l l' : (j < a_out c)%nat -> Forall2 (shifted_read c O) l l' -> g_refof b k j l' = g_refof b k j l + O k j * (1 - (1 - b) ^ g_old k l).
Proof.
  intros Lj F. induction F as [|r r' l l' H F IH]; cbn [g_refof g_old pow]; [lra|]. pose proof H as (K & _ & S & _). rewrite K, S. destruct ((q_k r =? k)%nat && q_sw r)%bool; [|exact IH]. apply (mean_shifted c); [exact Lj | now constructor].
Qed.
(** Two new devices, in the second one everything read is larger by an offset: every read has the same
    sign in both, and of the offset only a part remains in it that shrinks by one minus the weight
    of the mean with each read of the slice before its last switch. *)
Theorem C158_fresh : forall c O h h' later r before, g_related c O a_init h h' -> g_log (a_run c a_init h) = later ++ r :: before ->
  exists later' r' before', g_log (a_run c a_init h') = later' ++ r' :: before' /\ length before' = length before /\ q_k r' = q_k r /\ q_lr r' = q_lr r /\
  forall j, (j < a_out c)%nat -> q_sign r' j = q_sign r j /\ q_val r' j - q_ref r' j = q_val r j - q_ref r j + O (q_k r) j * (1 - weight_of c) ^ g_old (q_k r) before.
Proof.
  intros c O h h' later r before Rl E. assert (F : Forall2 (shifted_read c O) (g_log (a_run c a_init h)) (g_log (a_run c a_init h'))) by (apply open_run; [repeat split | constructor | exact Rl]).
  pose proof F as F0. rewrite E in F0. apply Forall2_app_inv_l in F0 as (later' & l2 & _ & F2 & E'). inversion F2 as [|? r' ? before' Fr Fb]; subst. exists later', r', before'. split; [exact E'|]. split; [symmetry; eapply F2_length; exact Fb|].
  destruct Fr as (K & L & _ & V). split; [exact K|]. split; [exact L|]. intros j Lj. destruct (V j Lj) as [V1 V2]. split; [exact V1|]. destruct (C155_books c h) as (_ & _ & _ & I). destruct (C155_books c h') as (_ & _ & _ & I').
  rewrite (proj2 (I _ _ _ E j)), (proj2 (I' _ _ _ E' j)), K, (ref_shifted c O (weight_of c) (q_k r) j before before' Lj Fb), V2. ring.
Qed.
(** With a [tail_weightening] of at least the period nothing of the offset remains in reads after the
    first switch of the slice. *)
Corollary C158_gone : forall c O h h' later r before, INR (n_samples c) <= a_tail c -> g_related c O a_init h h' -> g_log (a_run c a_init h) = later ++ r :: before -> (0 < g_switches (q_k r) before)%nat ->
  exists later' r' before', g_log (a_run c a_init h') = later' ++ r' :: before' /\ length before' = length before /\ forall j, (j < a_out c)%nat -> q_val r' j - q_ref r' j = q_val r j - q_ref r j.
Proof.
  intros c O h h' later r before T Rl E Sw. destruct (C158_fresh c O h h' later r before Rl E) as (later' & r' & before' & E' & L & _ & _ & V). exists later', r', before'. split; [exact E'|]. split; [exact L|]. intros j Lj. rewrite (proj2 (V j Lj)).
  assert (W : weight_of c = 1). { unfold weight_of. apply Rmin_right. pose proof (n_samples_2 c) as N2. assert (0 < INR (n_samples c)) by (apply lt_0_INR; lia). apply Rmult_le_reg_r with (INR (n_samples c)); [assumption|]. unfold Rdiv. rewrite Rmult_assoc, Rinv_l by lra. lra. }
  assert (P : (0 < g_old (q_k r) before)%nat). { revert Sw. generalize (q_k r) as k. clear. intros k. unfold g_switches. induction before as [|r l IH]; [cbn; lia|]. cbn [filter g_old]. unfold g_readsof. cbn [filter]. destruct (q_k r =? k)%nat eqn:K; cbn [andb]; [|exact IH]. destruct (q_sw r); cbn [length]; [lia | exact IH]. }
  rewrite W. replace (1 - 1) with 0 by lra. rewrite pow_i by exact P. ring.
Qed.
(** ** The whole influence of an offset is bounded *)
Fixpoint periodic (ns : nat) (l : list ard) : Prop :=
  match l with [] => True | r :: l' => q_sw r = (g_readsof (q_k r) l' mod ns + 1 =? ns)%nat /\ periodic ns l' end.
Lemma periodic_counts ns k l : (0 < ns)%nat -> periodic ns l -> g_switches k l = (g_readsof k l / ns)%nat /\ g_old k l = (ns * (g_readsof k l / ns))%nat.
Proof.
  intros P. unfold g_switches. induction l as [|r l IH]; intros H; [cbn; rewrite Nat.div_0_l by lia; lia|]. destruct H as [S H]. destruct (IH H) as [I1 I2]. cbn [filter g_old]. unfold g_readsof in *. cbn [filter]. destruct (Nat.eqb_spec (q_k r) k) as [E|]; cbn [andb]; [|split; [exact I1 | exact I2]]. rewrite S, E. cbn [length]. set (q := length (filter (fun r => (q_k r =? k)%nat) l)) in *. rewrite div_S by exact P.
  pose proof (Nat.div_mod q ns ltac:(lia)) as D. destruct (Nat.eqb_spec (q mod ns + 1) ns) as [Em|]; cbn [length]; [|split; [exact I1 | exact I2]]. split; [lia|]. rewrite Nat.mul_add_distr_l. lia.
Qed.
Lemma run_periodic c h : (0 < a_in c)%nat -> cp_in_random (a_cp c) = false -> no_set h -> nonzero h -> periodic (n_samples c) (g_log (a_run c a_init h)).
Proof.
  intros P Rn. induction h as [|e h IH] using rev_ind; intros NS NZ; [exact I|]. unfold no_set, nonzero in *. apply Forall_app in NS as [N1 N2], NZ as [Z1 Z2]. specialize (IH N1 Z1). destruct (run_turn c P h N1 Z1) as (I1 & I2 & I3). rewrite a_run_snoc. set (s := a_run c a_init h) in *.
  destruct (core_cases c s e) as [(_ & _ & _ & _ & _ & _ & _ & C8) | (lr & cl & ev & val & coin & _ & _ & _ & _ & _ & _ & _ & _ & _ & C8)]; rewrite C8; [exact IH|]. split; [|exact IH]. cbn [q_sw q_k ard_of]. unfold switch_of. rewrite Rn, Bool.andb_false_l, Bool.orb_false_r.
  pose proof (Nat.mod_upper_bound (length (g_log s)) (a_in c) ltac:(lia)) as U. rewrite (I3 (g_idx s)) by (rewrite I1; exact U). rewrite I1 at 1. rewrite Nat.ltb_irrefl, I2. reflexivity.
Qed.
(** the part of the offset that [n] reads of a slice brought *)
Fixpoint influence (b : R) (ns n : nat) : R :=
  match n with 0%nat => 0 | S m => influence b ns m + g_sgn (m / ns) * (1 - b) ^ (ns * (m / ns)) end.
Fixpoint alt_sum (x : R) (p : nat) : R := match p with 0%nat => 0 | S q => 1 - x * alt_sum x q end.
Lemma influence_range b ns n : (0 < ns)%nat -> 0 <= b <= 1 -> 0 <= influence b ns n <= INR ns.
Proof.
  intros P B. set (x := (1 - b) ^ ns). assert (X : 0 <= x <= 1). { unfold x. split; [apply pow_le; lra|]. apply Rle_trans with (1 ^ ns); [apply pow_incr; lra | rewrite pow1; lra]. }
  pose (A := alt_sum x). assert (AS : forall q, A (S q) = 1 - x * A q) by reflexivity. assert (A0 : A 0%nat = 0) by reflexivity. clearbody A.
  assert (A01 : forall p, 0 <= A p <= 1). { induction p as [|p IH]; [lra|]. rewrite AS. nra. }
  assert (Ad : forall p, A (S p) - A p = g_sgn p * x ^ p). { induction p as [|p IH]; [rewrite AS, A0; change (g_sgn 0) with 1; cbn [pow]; lra|]. rewrite g_sgn_S. rewrite (AS (S p)). rewrite (AS p) at 2. replace (1 - x * A (S p) - (1 - x * A p)) with (- x * (A (S p) - A p)) by ring. rewrite IH. cbn [pow]. ring. }
  assert (F : influence b ns n = INR ns * A (n / ns)%nat + INR (n mod ns) * (A (S (n / ns)) - A (n / ns)%nat)).
  { induction n as [|n IH]; [cbn [influence]; rewrite Nat.div_0_l, Nat.mod_0_l by lia; rewrite A0; change (INR 0) with 0; ring|]. cbn [influence]. rewrite IH, pow_mult. fold x. rewrite <- Ad. rewrite div_S by exact P. pose proof (Nat.div_mod n ns ltac:(lia)) as D. pose proof (Nat.mod_upper_bound n ns ltac:(lia)) as U.
    destruct (Nat.eqb_spec (n mod ns + 1) ns) as [E|E].
    - replace (S n mod ns)%nat with 0%nat by (apply Nat.mod_unique with (n / ns + 1)%nat; [lia | rewrite Nat.mul_add_distr_l; lia]). replace (n / ns + 1)%nat with (S (n / ns)) by lia. change (INR 0) with 0. assert (Ei : INR ns = INR (n mod ns) + 1) by (rewrite <- S_INR; f_equal; lia). rewrite Ei. ring.
    - replace (S n mod ns)%nat with (S (n mod ns)) by (apply Nat.mod_unique with (n / ns)%nat; lia). rewrite S_INR. ring. }
  rewrite F. pose proof (A01 (n / ns)%nat) as H1. pose proof (A01 (S (n / ns))) as H2. assert (M : 0 <= INR (n mod ns) <= INR ns). { split; [apply pos_INR|]. apply le_INR. pose proof (Nat.mod_upper_bound n ns ltac:(lia)). lia. }
  set (a := A (n / ns)%nat) in *. set (a' := A (S (n / ns))) in *. set (i := INR (n mod ns)) in *. set (m := INR ns) in *. replace (m * a + i * (a' - a)) with ((m - i) * a + i * a') by ring. split; [apply Rplus_le_le_0_compat; apply Rmult_le_pos; lra|].
  apply Rle_trans with ((m - i) * 1 + i * 1); [apply Rplus_le_compat; apply Rmult_le_compat_l; lra | lra].
Qed.
Lemma brought_influence c O b k j : (j < a_out c)%nat -> forall l l' sc ns, (0 < ns)%nat -> Forall2 (shifted_read c O) l l' -> periodic ns l ->
  Forall (fun r => q_lr r = sc) l -> (forall later r before, l = later ++ r :: before -> q_sign r j = g_sgn (g_switches (q_k r) before) /\ q_ref r j = g_refof b (q_k r) j before) ->
  (forall later r before, l' = later ++ r :: before -> q_sign r j = g_sgn (g_switches (q_k r) before) /\ q_ref r j = g_refof b (q_k r) j before) ->
  g_brought k j l' - g_brought k j l = sc * O k j * influence b ns (g_readsof k l).
Proof.
  intros Lj l l' sc ns P F. induction F as [|r r' l l' H F IH]; intros Pe Fs B1 B2; [unfold g_brought, g_readsof; cbn; ring|]. destruct Pe as [_ Pe]. inversion Fs as [|? ? Es Fs']; subst.
  assert (I : g_brought k j l' - g_brought k j l = q_lr r * O k j * influence b ns (g_readsof k l)). { apply IH; auto; intros later r0 before E; [apply (B1 (r :: later)) | apply (B2 (r' :: later))]; cbn [app]; now rewrite E. }
  rewrite !brought_cons. destruct H as (K & L & _ & V). destruct (V j Lj) as [V1 V2]. rewrite K. unfold g_readsof in *. cbn [filter]. destruct (Nat.eqb_spec (q_k r) k) as [E|]; [|lra]. cbn [length influence]. rewrite L, V1, V2. rewrite (proj2 (B1 [] r l eq_refl)), (proj2 (B2 [] r' l' eq_refl)), K, (ref_shifted c O b (q_k r) j l l' Lj F), (proj1 (B1 [] r l eq_refl)), E.
  destruct (periodic_counts ns k l P Pe) as [-> ->]. unfold g_readsof. set (q := length _) in *. apply Rminus_diag_uniq. replace (g_brought k j l') with (g_brought k j l + q_lr r * O k j * influence b ns q) by lra. ring.
Qed.
(** In ordinary training with regular choppers and a constant factor: however long the history is,
    what an offset adds to all that the reads bring to an entry of the buffer is at most the offset
    times the factor and the period. *)
Theorem C158_total : forall c O h h' k j sc, 0 <= a_tail c -> (0 < a_in c)%nat -> (j < a_out c)%nat -> cp_in_random (a_cp c) = false -> no_set h -> nonzero h -> g_related c O a_init h h' -> let l := g_log (a_run c a_init h) in let l' := g_log (a_run c a_init h') in
  Forall (fun r => q_lr r = sc) l -> Rabs (g_brought k j l' - g_brought k j l) <= Rabs (sc * O k j) * INR (n_samples c).
Proof.
  intros c O h h' k j sc T P Lj Rn NS NZ Rl l l' Fs. assert (F : Forall2 (shifted_read c O) l l') by (apply open_run; [repeat split | constructor | exact Rl]). destruct (C155_books c h) as (_ & _ & _ & B1). destruct (C155_books c h') as (_ & _ & _ & B2). pose proof (n_samples_2 c) as N2.
  assert (W : 0 <= weight_of c <= 1). { unfold weight_of. split; [apply Rmin_glb; [|lra] | apply Rmin_r]. apply Rmult_le_pos; [exact T|]. apply Rlt_le, Rinv_0_lt_compat, lt_0_INR. lia. }
  rewrite (brought_influence c O (weight_of c) k j Lj l l' sc (n_samples c)); auto; [|lia | now apply run_periodic | intros later r before E; exact (B1 later r before E j) | intros later r before E; exact (B2 later r before E j)].
  destruct (influence_range (weight_of c) (n_samples c) (g_readsof k l) ltac:(lia) W) as [I1 I2]. rewrite Rabs_mult, (Rabs_right (influence _ _ _)) by lra. apply Rmult_le_compat_l; [apply Rabs_pos | exact I2].
Qed.
(** four reads of one column of a new device with offset 7: related histories *)
Example C158_nontrivial : let c := acfg1 1 2 0 true in g_related c (fun _ _ => 7) a_init (repeat up0 4) (repeat (AUp 1 1 1 (fun _ => 7) 1) 4) /\ INR (n_samples c) <= a_tail c /\
  Forall (fun r => q_lr r = 1) (g_log (a_run c a_init (repeat up0 4))) /\ g_shifted c (fun _ _ => 7) a_init {| g_H := fun _ _ => 0; g_mean := fun _ _ => 7; g_past := fun _ _ => 7; g_in := fun _ => false; g_out := fun _ => false; g_sw := fun _ => false; g_cnt := 0; g_idx := 0; g_upd := 0; g_log := [] |}.
Proof.
  intros c. split; [cbn [repeat g_related]; unfold up0; repeat split; intros; lra|]. split; [unfold c; rewrite acfg1_ns; cbn; lra|]. split.
  - assert (X : forall n, Forall (fun r => q_lr r = 1) (g_log (a_run c a_init (repeat up0 n)))). { induction n as [|n IH]; [constructor|]. replace (S n) with (n + 1)%nat by lia. rewrite repeat_app. cbn [repeat]. rewrite a_run_snoc. destruct (core_cases c (a_run c a_init (repeat up0 n)) up0) as [(_ & _ & _ & _ & _ & _ & _ & C8) | (lr & cl & ev & val & coin & E & _ & _ & _ & _ & _ & _ & _ & _ & C8)]; rewrite C8; [exact IH|]. injection E as <- <- <- <- <-. constructor; [|exact IH]. cbn [q_lr ard_of]. apply scale1. }
    apply X.
  - unfold g_shifted. cbn. repeat split; intros; try lra; lia.
Qed.

Print Assumptions C158_fresh.
Print Assumptions C158_total.
