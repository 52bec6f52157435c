(** * The buffer of the Python transfer tile (C149) *)
From Verif Require Import Prelude PulseModel PulseProofs PttModel PttSpec PttProofs PttProps.
Local Open Scope R_scope.

Lemma truncZ_small x : Rabs x < 1 -> truncZ x = 0%Z.
Proof. intros H. unfold truncZ. rcase; [apply floorZ_unique; mm|]. replace (floorZ (- x)) with 0%Z; [reflexivity|]. symmetry. apply floorZ_unique. mm. Qed.
Lemma truncZ_zero x : truncZ x = 0%Z -> Rabs x < 1.
Proof. intros E. destruct (truncZ_spec x) as [_ H]. rewrite E in H. now rewrite Rminus_0_r in H. Qed.
Lemma truncZ_pos x z : (0 <= z)%Z -> IZR z <= x < IZR z + 1 -> truncZ x = z.
Proof. intros Hz H. apply IZR_le in Hz. unfold truncZ. rcase; [now apply floorZ_unique | lra]. Qed.

(** Without [forget_buffer]: whatever the crossbars do, what the reads have brought to an entry of
    the buffer is what has been sent to the slow crossbar (less the momentum part) plus what is
    still there. *)
Theorem C149_conserved : forall c v h s, supported c -> c_forget c = false -> run c v p_init h = Ok s ->
  forall k o, brought k o (reads s) = s_H s k o + (1 - c_mom c) * IZR (sent k o (reads s)).
Proof.
  intros c v h s Sp F E k o.
  assert (I : s_H s k o = brought k o (s_log s) - (1 - c_mom c) * IZR (sent k o (s_log s))).
  { revert h s E. apply (run_ind c v p_init (fun _ s => s_H s k o = brought k o (s_log s) - (1 - c_mom c) * IZR (sent k o (s_log s)))).
    { unfold brought, sent. cbn. lra. }
    intros h s e s' _ I E. destruct (step_cases _ _ _ _ _ Sp E) as [(l & _ & ->) | (xs & ds & _ & _ & [[_ ->] | [_ Et]])]; [destruct l; exact I | exact I|].
    destruct (transfer_fields _ _ _ _ _ _ Et) as (_ & _ & _ & _ & _ & _ & _ & _ & Lg & _ & _ & Hh & _). rewrite Hh, Lg, F. unfold brought, sent. cbn [map sumR fold_right]. fold (brought k o (s_log (acc c v s xs ds))) (sent k o (s_log (acc c v s xs ds))).
    set (s1 := acc c v s xs ds) in *. change (s_log s1) with (s_log s). cbn [r_k rd_of r_lr r_sign r_val r_ref r_steps]. unfold put. rewrite (Nat.eqb_sym k).
    destruct (Nat.eqb_spec (next_k c s1) k) as [Ek|N].
    - rewrite plus_IZR. unfold h_of at 1. rewrite Ek. change (s_H s1) with (s_H s). rewrite I. ring.
    - change (s_H s1 k o) with (s_H s k o). rewrite I. rewrite Z.add_0_l. ring. }
  assert (Pm : forall l, brought k o (rev l) = brought k o l /\ sent k o (rev l) = sent k o l).
  { induction l as [|a l [IH1 IH2]]; [split; reflexivity|]. cbn [rev]. unfold brought, sent in *. rewrite map_app, fold_right_app. cbn [map sumR fold_right].
    assert (S1 : forall p q, sumR (p ++ q) = sumR p + sumR q) by (induction p; intros; cbn [app sumR]; [lra | rewrite IHp; lra]). rewrite S1. cbn [sumR]. rewrite IH1. split; [lra|].
    assert (S2 : forall (f : rd -> Z) p z, fold_right (fun r a => (f r + a)%Z) z p = (fold_right (fun r a => (f r + a)%Z) 0%Z p + z)%Z) by (induction p; intros; cbn [fold_right]; [lia | rewrite IHp; lia]).
    rewrite S2, IH2. lia. }
  unfold reads. destruct (Pm (s_log s)) as [-> ->]. rewrite I. lra.
Qed.
(** Without momentum (or with [forget_buffer] and a momentum below one) never a full step is left in
    the buffer *)
Theorem C149_bounded : forall c v h s, supported c -> c_mom c = 0 \/ (c_forget c = true /\ Rabs (c_mom c) < 1) -> run c v p_init h = Ok s -> forall k o, Rabs (s_H s k o) < 1.
Proof.
  intros c v h s Sp M E k o. revert h s E. apply (run_ind c v p_init (fun _ s => Rabs (s_H s k o) < 1)); [cbn; rewrite Rabs_R0; lra|].
  intros h s e s' _ I E. destruct (step_cases _ _ _ _ _ Sp E) as [(l & _ & ->) | (xs & ds & _ & _ & [[_ ->] | [_ Et]])]; [destruct l; exact I | exact I|].
  destruct (transfer_fields _ _ _ _ _ _ Et) as (_ & _ & _ & _ & _ & _ & _ & _ & _ & _ & _ & Hh & _). rewrite Hh. set (s1 := acc c v s xs ds) in *.
  destruct (Nat.eq_dec k (next_k c s1)) as [->|N]; [|rewrite put_ne by exact N; exact I]. rewrite put_eq. set (x := h_of _ _ _ _ o). clearbody x.
  destruct (c_forget c) eqn:F.
  - destruct (truncZ x =? 0)%Z eqn:Tz; [apply Z.eqb_eq in Tz; now apply truncZ_zero|]. destruct M as [->|[_ M]]; [rewrite Rabs_R0; lra | exact M].
  - destruct M as [M|[? _]]; [|discriminate]. rewrite M. destruct (truncZ_spec x) as [_ H]. replace (x - IZR (truncZ x) * (1 - 0)) with (x - IZR (truncZ x)) by ring. exact H.
Qed.
Lemma ideal_one lr (x d : fvec) w i j : ideal_update lr [x] [d] w i j = w i j - lr * (d i * x j).
Proof. unfold ideal_update. cbn. ring. Qed.
(** An exact slow crossbar has got the steps times [step] times its granularity *)
Theorem C149_slow : forall c v h s, supported c -> exact_slow v -> run c v p_init h = Ok s ->
  forall i j, (i < c_d c)%nat -> (j < c_x c)%nat -> s_W s i j = c_step c * c_dwC c * IZR (sent (slice_of c i j) (entry_of c i j) (s_log s)).
Proof.
  intros c v h s Sp Ex E i j Hi Hj. fold (lr_w c). revert h s E. apply (run_ind c v p_init (fun _ s => s_W s i j = lr_w c * IZR (sent (slice_of c i j) (entry_of c i j) (s_log s)))); [unfold sent; cbn; lra|].
  intros h s e s' _ I E. destruct (step_cases _ _ _ _ _ Sp E) as [(l & _ & ->) | (xs & ds & _ & _ & [[_ ->] | [_ Et]])]; [destruct l; exact I | exact I|].
  destruct (transfer_fields _ _ _ _ _ _ Et) as (_ & _ & _ & _ & _ & _ & _ & _ & Lg & _ & _ & _ & Hw & _). rewrite Hw, Lg, !Ex. set (s1 := acc c v s xs ds) in *.
  change (s_log s1) with (s_log s). change (s_W s1) with (s_W s). unfold sent. cbn [fold_right]. fold (sent (slice_of c i j) (entry_of c i j) (s_log s)). rewrite plus_IZR. cbn [r_k r_steps rd_of].
  set (st := fun o => truncZ (h_of c v (rate_of c (t_every c (length xs)) (s_lr s1) (lra_of c s xs ds)) s1 o)). change (truncZ (h_of c v (rate_of c (t_every c (length xs)) (s_lr s1) (lra_of c s xs ds)) s1 (entry_of c i j))) with (st (entry_of c i j)).
  destruct (existsb _ _) eqn:Ee.
  - cbv zeta. assert (X : (if c_cols c then ideal_update (lr_w c) [unitf (next_k c s1)] [fun o => - IZR (st o)] (s_W s) else ideal_update (lr_w c) [fun o => - IZR (st o)] [unitf (next_k c s1)] (s_W s)) i j
      = s_W s i j + lr_w c * (if (next_k c s1 =? slice_of c i j)%nat then IZR (st (entry_of c i j)) else 0)).
    { unfold slice_of, entry_of. destruct (c_cols c); rewrite ideal_one; unfold unitf; rewrite (Nat.eqb_sym (next_k c s1)); destruct (_ =? _)%nat; ring. }
    unfold st in X at 1 2. rewrite X, I. destruct (next_k c s1 =? slice_of c i j)%nat; ring.
  - assert (Z : st (entry_of c i j) = 0%Z).
    { destruct (Z.eqb_spec (st (entry_of c i j)) 0) as [e0|N]; [exact e0|exfalso]. enough (X : existsb (fun o => negb (st o =? 0)%Z) (seq 0 (t_out c)) = true) by (unfold st in X; congruence).
      apply existsb_exists. exists (entry_of c i j). split; [apply in_seq; unfold entry_of, t_out; destruct (c_cols c); lia|]. apply Bool.negb_true_iff, Z.eqb_neq. exact N. }
    rewrite Z, I. destruct (_ =? _)%nat; ring.
Qed.
(** Without [forget_buffer] and without momentum the slow weights have got everything that has been
    read but less than one step *)
Theorem C149_faithful : forall c v h s, supported c -> exact_slow v -> c_forget c = false -> c_mom c = 0 -> 0 < c_step c * c_dwC c -> run c v p_init h = Ok s ->
  forall i j, (i < c_d c)%nat -> (j < c_x c)%nat -> Rabs (s_W s i j - c_step c * c_dwC c * brought (slice_of c i j) (entry_of c i j) (reads s)) < c_step c * c_dwC c.
Proof.
  intros c v h s Sp Ex F M P E i j Hi Hj. rewrite (C149_conserved c v h s Sp F E), M. rewrite (C149_slow c v h s Sp Ex E i j Hi Hj).
  pose proof (C149_bounded c v h s Sp (or_introl M) E (slice_of c i j) (entry_of c i j)) as B. set (w := c_step c * c_dwC c) in *. set (k := slice_of c i j) in *. set (o := entry_of c i j) in *.
  replace (sent k o (reads s)) with (sent k o (s_log s)).
  - replace (w * IZR (sent k o (s_log s)) - w * (s_H s k o + (1 - 0) * IZR (sent k o (s_log s)))) with (- (w * s_H s k o)) by ring. rewrite Rabs_Ropp, Rabs_mult, (Rabs_right w) by lra. apply Rlt_le_trans with (w * 1); [apply Rmult_lt_compat_l; assumption | lra].
  - unfold reads. induction (s_log s) as [|a l IH]; [reflexivity|]. cbn [rev]. unfold sent in *. rewrite fold_right_app. cbn [fold_right].
    assert (S2 : forall (f : rd -> Z) p z, fold_right (fun r a => (f r + a)%Z) z p = (fold_right (fun r a => (f r + a)%Z) 0%Z p + z)%Z) by (induction p; intros; cbn [fold_right]; [lia | rewrite IHp; lia]).
    rewrite (S2 _ (rev l)), <- IH. lia.
Qed.
(** The rate of every read is the documented one, for the learning rate set at that time and the
    rate the fast crossbar was updated with *)
Theorem C149_rate : forall c v s xs ds r, supported c -> let o := update c v s xs ds in o_e o = None -> s_log (o_s o) = r :: s_log s ->
  exists fast, s_A (o_s o) = v_fast v (s_clk s) fast (o_x o) ds (s_A s) /\ r_lr r = documented_rate c (INR (t_every c (length xs))) (s_lr s) fast.
Proof.
  intros c v s xs ds r Sp o Oe Ol. assert (St : step c v s (Up xs ds) = Ok (o_s o)) by (cbn [step]; fold o; now rewrite Oe). assert (Ox : o_x o = chop s xs).
  { unfold o. rewrite (update_eq c v s xs ds Sp). cbv zeta. destruct (_ =? _)%nat; [reflexivity|]. destruct (_ <? _)%nat; [reflexivity|]. destruct (_ <=? _)%nat; [reflexivity|]. now destruct (transfer _ _ _ _ _). }
  destruct (step_cases _ _ _ _ _ Sp St) as [(l & E & _) | (xs' & ds' & E & _ & Hc)]; [discriminate|]. injection E as <- <-. destruct Hc as [[_ Ea] | [_ Et]].
  { exfalso. rewrite Ea in Ol. change (s_log (acc c v s xs ds)) with (s_log s) in Ol. apply (f_equal (@length rd)) in Ol. cbn in Ol. lia. }
  destruct (transfer_fields _ _ _ _ _ _ Et) as (_ & Fa & _ & _ & _ & _ & _ & _ & Lg & _). rewrite Lg in Ol. injection Ol as <-. exists (lra_of c s xs ds). split; [rewrite Fa, Ox; reflexivity|].
  cbn [r_lr rd_of]. change (s_lr (acc c v s xs ds)) with (s_lr s). unfold rate_of, documented_rate, buf_gran. set (g := if Rltb 0 (c_gran c) then _ else _). clearbody g. cbv zeta. set (te := t_every c (length xs)). rewrite mult_INR.
  assert (X : (if Rltb 0 (c_again c) then g * (c_dwA c * c_again c / (INR (t_in c) * INR te)) else g * c_dwA c) = (if Rltb 0 (c_again c) then g * c_dwA c * c_again c / (INR (t_in c) * INR te) else g * c_dwA c)) by (destruct (Rltb 0 (c_again c)); [unfold Rdiv; ring | reflexivity]).
  rewrite X. set (b := if Rltb 0 (c_again c) then _ else _). destruct (c_correct c); [|reflexivity]. unfold Rdiv. ring.
Qed.
(** what stays in the buffer is as documented if the buffer is not forgotten, or if the momentum is
    zero *)
Theorem C149_recursion : forall c v s xs ds r, supported c -> let o := update c v s xs ds in o_e o = None -> s_log (o_s o) = r :: s_log s ->
  c_forget c = false \/ c_mom c = 0 -> forall k e, s_H (o_s o) k e = if (k =? r_k r)%nat then documented_buffer c (s_H s k e + r_lr r * r_sign r * (r_val r e - r_ref r e)) else s_H s k e.
Proof.
  intros c v s xs ds r Sp o Oe Ol M k e. assert (St : step c v s (Up xs ds) = Ok (o_s o)) by (cbn [step]; fold o; now rewrite Oe).
  destruct (step_cases _ _ _ _ _ Sp St) as [(l & E & _) | (xs' & ds' & E & _ & Hc)]; [discriminate|]. injection E as <- <-. destruct Hc as [[_ Ea] | [_ Et]].
  { exfalso. rewrite Ea in Ol. change (s_log (acc c v s xs ds)) with (s_log s) in Ol. apply (f_equal (@length rd)) in Ol. cbn in Ol. lia. }
  destruct (transfer_fields _ _ _ _ _ _ Et) as (_ & _ & _ & _ & _ & _ & _ & _ & Lg & _ & _ & Hh & _). rewrite Lg in Ol. injection Ol as <-. rewrite Hh. cbn [r_k rd_of r_lr r_sign r_val r_ref]. set (s1 := acc c v s xs ds) in *. unfold put.
  destruct (Nat.eqb_spec k (next_k c s1)) as [->|N]; [|reflexivity].
  set (x := h_of _ _ _ _ e). match goal with |- _ = documented_buffer c ?a => change a with x end.
  clearbody x. unfold documented_buffer. destruct (Rltb (Rabs x) 1) eqn:L.
  - apply Rltb_true, truncZ_small in L. rewrite L. cbn [Z.eqb]. destruct (c_forget c); [reflexivity | ring].
  - destruct (Z.eqb_spec (truncZ x) 0) as [Z0|Nz]; [apply truncZ_zero in Z0; apply Rltb_false in L; lra|]. destruct (c_forget c) eqn:F; [destruct M as [M|M]; [discriminate | rewrite M; ring] | ring].
Qed.
(** ** A crossbar with one weight, a transfer at each sample *)
Definition cfg1 (forget : bool) (mom : R) (cols : bool) (prob : R) (tail : option R) : pcfg :=
  {| c_x := 1; c_d := 1; c_every := 1; c_units := false; c_nreads := 1; c_auto := false; c_amom := 99 / 100; c_fast := 1; c_bl := 31;
     c_gran := 1; c_again := 0; c_correct := false; c_prob := prob; c_random := false; c_cols := cols;
     c_forget := forget; c_mom := mom; c_tail := tail; c_cacc := false; c_step := 1; c_dwA := 1; c_dwC := 1 |}.
Lemma cfg1_supported f m co p t : supported (cfg1 f m co p t).
Proof. unfold supported; cbn. repeat split; auto; lra. Qed.
Lemma cfg1_regular f m co p t : regular (cfg1 f m co p t).
Proof. unfold regular; cbn. repeat split; try lra; auto. Qed.
Lemma cfg1_step f m co p t v s x d : let c := cfg1 f m co p t in exists s', step c v s (Up [x] [d]) = Ok s' /\ transfer c v 1 1 (acc c v s [x] [d]) = (s', None).
Proof.
  intros c. assert (T : t_every c 1 = 1%nat) by (apply every_int; [cbn; lra | reflexivity]).
  destruct (transfer_succeeds c v 1 1 (acc c v s [x] [d]) (cfg1_regular _ _ _ _ _)) as (s' & E); [destruct co; cbn; lia | lia | lra |]. exists s'. split; [|exact E].
  cbn [step]. rewrite (update_eq c v s [x] [d] (cfg1_supported _ _ _ _ _)). cbn [length]. cbv zeta. rewrite T. cbn [Nat.eqb]. unfold rest_of. rewrite Nat.mod_1_r. cbn [Nat.add Nat.ltb Nat.leb Nat.mul].
  change (lra_of c s [x] [d]) with 1. rewrite E. reflexivity.
Qed.
Lemma cfg1_rate f m co p t te lr lra : rate_of (cfg1 f m co p t) te lr lra = lr.
Proof. unfold rate_of, buf_gran. cbn. rewrite (proj2 (Rltb_true 0 1)) by lra. rewrite (proj2 (Rltb_false 0 0)) by lra. field. Qed.
(** one read with learning rate 1 of an exact fast weight [a] *)
Lemma cfg1_h f m p v s k x d a : let c := cfg1 f m true p None in (forall n u w i, v_fwd v n u w i = sumf 1 (fun j => w i j * u j)) -> s_A (acc c v s [x] [d]) 0%nat 0%nat = a -> s_c s 0%nat = 1 -> s_lr s = 1 ->
  h_of c v (rate_of c k (s_lr s) 1) (acc c v s [x] [d]) 0%nat = s_H s 0%nat 0%nat + a.
Proof.
  intros c Hv Ha Hc Hl. unfold h_of, omega_of, ref_of. assert (K : next_k c (acc c v s [x] [d]) = 0%nat) by (unfold next_k; cbn [t_in c_cols c cfg1 c_x]; apply Nat.mod_1_r).
  rewrite K. cbn [c c_cols c_tail cfg1]. fold c. rewrite Hv. unfold sumf. cbn [seq map sumR]. change (unitf 0 0%nat) with 1. rewrite Ha. change (s_c (acc c v s [x] [d]) 0%nat) with (s_c s 0%nat). change (s_H (acc c v s [x] [d])) with (s_H s). unfold c at 1. rewrite cfg1_rate, Hc, Hl. ring.
Qed.
Definition hist1 : list ev := [SetLr (Some 1); Up [fun _ => 1] [fun _ => - (5 / 2)]].
Lemma trunc52 : truncZ (5 / 2) = 2%Z.
Proof. apply truncZ_pos; [lia | lra]. Qed.
(** [forget_buffer] with a momentum: the documented content is the momentum times the value, it is
    the momentum instead *)
Theorem C149_forget_refuted : let c := cfg1 true (1 / 2) true 0 None in exists s, run c (ideal c (fun _ => 0)) p_init hist1 = Ok s /\
  documented_buffer c (brought 0 0 (reads s)) = 5 / 4 /\ s_H s 0%nat 0%nat = 1 / 2.
Proof.
  intros c. set (v := ideal c (fun _ => 0)). set (s0 := set_lr (Some 1) p_init). unfold hist1. cbn [run]. change (step c v p_init (SetLr (Some 1))) with (Ok s0). cbn [bind].
  destruct (cfg1_step true (1 / 2) true 0 None v s0 (fun _ => 1) (fun _ => - (5 / 2))) as (s & E & Et). fold c in E, Et. exists s. split; [exact (f_equal (fun z => bind z (fun s1 => Ok s1)) E)|].
  destruct (transfer_fields _ _ _ _ _ _ Et) as (_ & _ & _ & _ & _ & _ & _ & _ & Lg & _ & _ & Hh & _).
  set (s1 := acc c v s0 _ _) in *. assert (K : next_k c s1 = 0%nat) by (unfold next_k; cbn [t_in c_cols c cfg1 c_x]; apply Nat.mod_1_r).
  assert (Ha : s_A s1 0%nat 0%nat = 5 / 2). { unfold s1, v. cbn [acc accumulate s_A ideal v_fast]. unfold chop. cbn [map]. rewrite ideal_one. change (lra_of c s0 _ _) with 1. cbn [s0 set_lr p_init s_A s_c]. lra. }
  assert (Hx : h_of c v (rate_of c 1 (s_lr s1) 1) s1 0%nat = 5 / 2). { change (s_lr s1) with (s_lr s0). unfold s1, c, v. rewrite (cfg1_h _ _ _ _ _ _ _ _ (5 / 2)); [cbn; lra | reflexivity | exact Ha | reflexivity | reflexivity]. }
  split.
  - unfold reads. rewrite Lg. change (s_log s1) with (@nil rd). cbn [rev app]. unfold brought. cbn [map sumR r_k rd_of r_lr r_sign r_val r_ref]. rewrite K. cbn [Nat.eqb].
    assert (X : rate_of c 1 (s_lr s1) 1 * s_c s1 0%nat * (omega_of c v s1 0%nat - ref_of c s1 0%nat) + 0 = 5 / 2). { rewrite <- Hx. unfold h_of. rewrite K. change (s_H s1 0%nat 0%nat) with 0. ring. }
    rewrite X. unfold documented_buffer. replace (Rltb (Rabs (5 / 2)) 1) with false by (symmetry; apply Rltb_false; mm). cbn [c cfg1 c_forget c_mom]. lra.
  - rewrite Hh, K, put_eq. cbn [c cfg1 c_forget c_mom]. fold c. rewrite Hx, trunc52. reflexivity.
Qed.
(** If the slow crossbar makes only a limited number of steps ([desired_bl] of [transfer_update]),
    the rest is lost also without [forget_buffer]: here 5/2 is read, one step is made, and 1/2 is
    left *)
Theorem C149_clip_refuted : let c := cfg1 false 0 true 0 None in let v := {| v_fast := fun _ => ideal_update; v_slow := fun _ => clipped_update 1 1; v_fwd := v_fwd (ideal c (fun _ => 0)); v_bwd := v_bwd (ideal c (fun _ => 0)); v_coin := fun _ => 0 |} in
  exists s, run c v p_init hist1 = Ok s /\ s_W s 0%nat 0%nat = 1 /\ s_H s 0%nat 0%nat = 1 / 2 /\ s_A s 0%nat 0%nat = 5 / 2.
Proof.
  intros c v. set (s0 := set_lr (Some 1) p_init). unfold hist1. cbn [run]. change (step c v p_init (SetLr (Some 1))) with (Ok s0). cbn [bind].
  destruct (cfg1_step false 0 true 0 None v s0 (fun _ => 1) (fun _ => - (5 / 2))) as (s & E & Et). fold c in E, Et. exists s. split; [exact (f_equal (fun z => bind z (fun s1 => Ok s1)) E)|].
  destruct (transfer_fields _ _ _ _ _ _ Et) as (_ & Fa & _ & _ & _ & _ & _ & _ & _ & _ & _ & Hh & Hw & _).
  set (s1 := acc c v s0 _ _) in *. assert (K : next_k c s1 = 0%nat) by (unfold next_k; cbn [t_in c_cols c cfg1 c_x]; apply Nat.mod_1_r).
  assert (Ha : s_A s1 0%nat 0%nat = 5 / 2). { unfold s1, v. cbn [acc accumulate s_A v_fast]. unfold chop. cbn [map]. rewrite ideal_one. change (lra_of c s0 _ _) with 1. cbn [s0 set_lr p_init s_A s_c]. lra. }
  assert (Hx : h_of c v (rate_of c 1 (s_lr s1) 1) s1 0%nat = 5 / 2). { change (s_lr s1) with (s_lr s0). unfold s1, c, v. rewrite (cfg1_h _ _ _ _ _ _ _ _ (5 / 2)); [cbn; lra | reflexivity | exact Ha | reflexivity | reflexivity]. }
  split; [|split; [|now rewrite Fa]].
  - rewrite Hw. cbn [t_out c_cols c cfg1 c_d seq existsb]. fold c. rewrite Hx, trunc52, K. cbn [Z.eqb negb orb]. cbv zeta. cbn [v v_slow]. unfold clipped_update. rewrite ideal_one. fold v. rewrite Hx, trunc52. change (s_W s1 0%nat 0%nat) with 0. change (unitf 0 0%nat) with 1. unfold lr_w. cbn [c_step c_dwC c cfg1]. mm.
  - rewrite Hh, K, put_eq. cbn [c cfg1 c_forget c_mom]. fold c. rewrite Hx, trunc52. lra.
Qed.
(** the same with an exact slow crossbar: two steps and 1/2 left *)
Example C149_nontrivial : let c := cfg1 false 0 true 0 None in exists s, run c (ideal c (fun _ => 0)) p_init hist1 = Ok s /\ sent 0 0 (reads s) = 2%Z /\ brought 0 0 (reads s) = 5 / 2 /\ s_H s 0%nat 0%nat = 1 / 2.
Proof.
  intros c. set (v := ideal c (fun _ => 0)). set (s0 := set_lr (Some 1) p_init). unfold hist1. cbn [run]. change (step c v p_init (SetLr (Some 1))) with (Ok s0). cbn [bind].
  destruct (cfg1_step false 0 true 0 None v s0 (fun _ => 1) (fun _ => - (5 / 2))) as (s & E & Et). fold c in E, Et. exists s. split; [exact (f_equal (fun z => bind z (fun s1 => Ok s1)) E)|].
  destruct (transfer_fields _ _ _ _ _ _ Et) as (_ & _ & _ & _ & _ & _ & _ & _ & Lg & _ & _ & Hh & _).
  set (s1 := acc c v s0 _ _) in *. assert (K : next_k c s1 = 0%nat) by (unfold next_k; cbn [t_in c_cols c cfg1 c_x]; apply Nat.mod_1_r).
  assert (Ha : s_A s1 0%nat 0%nat = 5 / 2). { unfold s1, v. cbn [acc accumulate s_A ideal v_fast]. unfold chop. cbn [map]. rewrite ideal_one. change (lra_of c s0 _ _) with 1. cbn [s0 set_lr p_init s_A s_c]. lra. }
  assert (Hx : h_of c v (rate_of c 1 (s_lr s1) 1) s1 0%nat = 5 / 2). { change (s_lr s1) with (s_lr s0). unfold s1, c, v. rewrite (cfg1_h _ _ _ _ _ _ _ _ (5 / 2)); [cbn; lra | reflexivity | exact Ha | reflexivity | reflexivity]. }
  unfold reads. rewrite Lg. change (s_log s1) with (@nil rd). cbn [rev app]. unfold brought, sent. cbn [map sumR r_k rd_of r_lr r_sign r_val r_ref fold_right r_steps]. rewrite K. cbn [Nat.eqb]. rewrite Hx, trunc52. split; [reflexivity|]. split.
  - rewrite <- Hx. unfold h_of. rewrite K. change (s_H s1 0%nat 0%nat) with 0. ring.
  - rewrite Hh, put_eq. cbn [c cfg1 c_forget c_mom]. fold c. rewrite Hx, trunc52. lra.
Qed.

Print Assumptions C149_conserved.
Print Assumptions C149_bounded.
Print Assumptions C149_slow.
Print Assumptions C149_faithful.
Print Assumptions C149_rate.
Print Assumptions C149_recursion.
Print Assumptions C149_forget_refuted.
Print Assumptions C149_clip_refuted.
