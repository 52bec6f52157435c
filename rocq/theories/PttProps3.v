(** * The choppers of the Python transfer tile (C150) *)
From Verif Require Import Prelude PulseModel PulseProofs PttModel PttSpec PttProofs PttProps PttProps2.
Local Open Scope R_scope.

Lemma sumf_unit n k (f : nat -> R) : (k < n)%nat -> sumf n (fun j => f j * unitf k j) = f k.
Proof.
  unfold sumf. intros H. assert (G : forall a m, (a <= k < a + m)%nat -> sumR (map (fun j => f j * unitf k j) (seq a m)) = f k).
  { intros a m. revert a. induction m as [|m IH]; intros a Ha; [lia|]. cbn [seq map sumR]. unfold unitf at 1. destruct (Nat.eqb_spec a k) as [->|N].
    - replace (sumR (map (fun j => f j * unitf k j) (seq (S k) m))) with 0; [ring|]. clear IH Ha H. assert (Z : forall b, (k < b)%nat -> 0 = sumR (map (fun j => f j * unitf k j) (seq b m))); [|apply Z; lia].
      induction m as [|m IH]; intros b Hb; [reflexivity|]. cbn [seq map sumR]. rewrite <- IH by lia. unfold unitf. replace (b =? k)%nat with false by (symmetry; apply Nat.eqb_neq; lia). ring.
    - rewrite IH by lia. ring. }
  apply G. lia.
Qed.
(** an exact read gives the selected column (row) *)
Lemma omega_exact c v s : exact_fast c v -> (0 < t_in c)%nat -> forall i j, slice_of c i j = next_k c s -> omega_of c v s (entry_of c i j) = s_A s i j.
Proof.
  intros (_ & Fw & Bw) T i j E. pose proof (Nat.mod_upper_bound (s_idx s + 1) (t_in c) ltac:(lia)) as B. fold (next_k c s) in B. unfold omega_of, slice_of, entry_of, t_in in *. destruct (c_cols c).
  - rewrite Fw, sumf_unit by exact B. now rewrite <- E.
  - rewrite Bw. rewrite sumf_unit with (f := fun i => s_A s i j) by exact B. now rewrite <- E.
Qed.
Lemma signs_run c v h s : supported c -> run c v p_init h = Ok s -> forall j, s_c s j = 1 \/ s_c s j = -1.
Proof.
  intros Sp E j. revert h s E. apply (run_ind c v p_init (fun _ s => s_c s j = 1 \/ s_c s j = -1)); [left; reflexivity|].
  intros h s e s' _ I E. destruct (step_cases _ _ _ _ _ Sp E) as [(l & _ & ->) | (xs & ds & _ & _ & [[_ ->] | [_ Et]])]; [destruct l; exact I | exact I|].
  destruct (transfer_fields _ _ _ _ _ _ Et) as (_ & _ & _ & _ & _ & _ & _ & _ & _ & _ & Hc & _). rewrite Hc. destruct (sw_of _ _ _); [|exact I]. set (s1 := acc c v s xs ds) in *. unfold put. destruct (Nat.eqb_spec j (next_k c s1)) as [<-|N]; [|exact I].
  change (s_c s1 j) with (s_c s j). destruct I as [->| ->]; [right | left]; lra.
Qed.
(** Transfer of columns, exact fast crossbar: whatever the signs of the choppers are after any
    history, the update adds the documented gradient to the fast weights seen with their signs, and
    what is read of a column is the column with its sign. *)
Theorem C150_signs : forall c v h s xs ds, supported c -> exact_fast c v -> c_cols c = true -> (0 < c_x c)%nat -> run c v p_init h = Ok s -> let o := update c v s xs ds in o_e o = None ->
  exists fast, (forall i j, s_c s j * s_A (o_s o) i j = s_c s j * s_A s i j - fast * sumR (map2 (fun (x d : fvec) => d i * x j) xs ds)) /\
  forall r, s_log (o_s o) = r :: s_log s -> forall i, r_sign r * r_val r i = s_c s (r_k r) * s_A (o_s o) i (r_k r).
Proof.
  intros c v h s xs ds Sp Ex Co Xp Er o Oe. assert (St : step c v s (Up xs ds) = Ok (o_s o)) by (cbn [step]; fold o; now rewrite Oe). exists (lra_of c s xs ds).
  assert (Acc : forall i j, s_c s j * s_A (acc c v s xs ds) i j = s_c s j * s_A s i j - lra_of c s xs ds * sumR (map2 (fun (x d : fvec) => d i * x j) xs ds)).
  { intros i j. cbn [acc accumulate s_A]. destruct Ex as [-> _]. unfold ideal_update, chop.
    assert (X : forall xs ds, sumR (map2 (fun (x d : fvec) => d i * x j) (map (fun x j => x j * s_c s j) xs) ds) = s_c s j * sumR (map2 (fun (x d : fvec) => d i * x j) xs ds)).
    { induction xs0 as [|x xs0 IH]; intros [|d ds0]; cbn [map map2 sumR]; try ring. rewrite IH. ring. }
    rewrite X. destruct (signs_run c v h s Sp Er j) as [->| ->]; ring. }
  destruct (step_cases _ _ _ _ _ Sp St) as [(l & E & _) | (xs' & ds' & E & _ & Hc)]; [discriminate|]. injection E as <- <-. destruct Hc as [[_ Ea] | [_ Et]].
  - rewrite Ea. split; [exact Acc|]. intros r Ol. exfalso. change (s_log (acc c v s xs ds)) with (s_log s) in Ol. apply (f_equal (@length rd)) in Ol. cbn in Ol. lia.
  - destruct (transfer_fields _ _ _ _ _ _ Et) as (Kx & Fa & _ & _ & _ & _ & _ & _ & Lg & _). rewrite Fa, Lg. split; [exact Acc|]. intros r Ol i. injection Ol as <-. cbn [r_sign r_val r_k rd_of].
    set (s1 := acc c v s xs ds) in *. change (s_c s1) with (s_c s). f_equal. pose proof (omega_exact c v s1 Ex) as X. unfold t_in, slice_of, entry_of in X. rewrite Co in X. exact (X Xp i (next_k c s1) eq_refl).
Qed.

(** ** AGAD: an offset of the fast crossbar does not matter *)
Lemma update_shift O lr xs ds w w' : (forall i j, w' i j = w i j + O i j) -> forall i j, ideal_update lr xs ds w' i j = ideal_update lr xs ds w i j + O i j.
Proof. intros H i j. unfold ideal_update. rewrite H. ring. Qed.
Lemma map2_ext_in {A B C} (f g : A -> B -> C) a b : (forall x y, f x y = g x y) -> map2 f a b = map2 g a b.
Proof. intros H. revert b. induction a; intros [|y b]; cbn; auto. rewrite H. f_equal. apply IHa. Qed.
Lemma sumR_map2_chop (xs ds : list fvec) (p q : fvec) i j : (forall k, p k = q k) -> sumR (map2 (fun (x d : fvec) => d i * x j) (map (fun (x : fvec) j => x j * p j) xs) ds) = sumR (map2 (fun (x d : fvec) => d i * x j) (map (fun (x : fvec) j => x j * q j) xs) ds).
Proof. intros H. revert ds. induction xs as [|x xs IH]; intros [|d ds]; cbn [map map2 sumR]; auto. rewrite IH, H. reflexivity. Qed.
Lemma acc_shift c v O s s' xs ds : exact_fast c v -> shifted c O s s' -> shifted c O (acc c v s xs ds) (acc c v s' xs ds) /\ lra_of c s' xs ds = lra_of c s xs ds.
Proof.
  intros Ex Sh. assert (L : lra_of c s' xs ds = lra_of c s xs ds) by (unfold lra_of, new_mx, new_md; now rewrite (sh_mx _ _ _ _ Sh), (sh_md _ _ _ _ Sh)). split; [|exact L].
  split; cbn [acc accumulate s_A s_W s_H s_P s_F s_c s_cnt s_idx s_chop s_mx s_md s_lr s_clk]; try (exact (sh_P _ _ _ _ Sh)); try (exact (sh_F _ _ _ _ Sh)); try (exact (sh_H _ _ _ _ Sh)); try (exact (sh_W _ _ _ _ Sh)); try (exact (sh_c _ _ _ _ Sh)); try (exact (sh_idx _ _ _ _ Sh)); try (exact (sh_chop _ _ _ _ Sh)); try (exact (sh_lr _ _ _ _ Sh)); try (rewrite (sh_clk _ _ _ _ Sh); reflexivity).
  - intros i j. destruct Ex as [Ef _]. rewrite !Ef, L. unfold ideal_update, chop. rewrite (sh_A _ _ _ _ Sh). pose proof (sumR_map2_chop xs ds (s_c s') (s_c s) i j (sh_c _ _ _ _ Sh)) as X. unfold fvec in *. rewrite X. ring.
  - unfold chop. rewrite !map_length. now rewrite (sh_cnt _ _ _ _ Sh).
  - unfold new_mx. now rewrite (sh_mx _ _ _ _ Sh).
  - unfold new_md. now rewrite (sh_md _ _ _ _ Sh).
Qed.
(** the index of the slices covers all of them *)
Lemma cover c k o : exists i j, slice_of c i j = k /\ entry_of c i j = o.
Proof. unfold slice_of, entry_of. destruct (c_cols c); [exists o, k | exists k, o]; auto. Qed.
Lemma omega_shift c v O s s' : exact_fast c v -> (0 < t_in c)%nat -> shifted c O s s' -> forall i j, slice_of c i j = next_k c s -> omega_of c v s' (entry_of c i j) = omega_of c v s (entry_of c i j) + O i j.
Proof.
  intros Ex T Sh i j E. assert (N : next_k c s' = next_k c s) by (unfold next_k; now rewrite (sh_idx _ _ _ _ Sh)).
  rewrite (omega_exact c v s Ex T i j E). rewrite (omega_exact c v s' Ex T i j) by congruence. apply (sh_A _ _ _ _ Sh).
Qed.
Lemma h_shift c v O lrh s s' : c_tail c <> None -> exact_fast c v -> (0 < t_in c)%nat -> shifted c O s s' -> forall o, h_of c v lrh s' o = h_of c v lrh s o.
Proof.
  intros Tl Ex T Sh o. assert (N : next_k c s' = next_k c s) by (unfold next_k; now rewrite (sh_idx _ _ _ _ Sh)). destruct (cover c (next_k c s) o) as (i & j & Ei & Eo).
  unfold h_of. rewrite N, (sh_H _ _ _ _ Sh), (sh_c _ _ _ _ Sh). rewrite <- Eo. rewrite (omega_shift c v O s s' Ex T Sh i j Ei). unfold ref_of. destruct (c_tail c); [|congruence]. rewrite N, <- Ei. rewrite (sh_F _ _ _ _ Sh). ring.
Qed.
Lemma existsb_ext {A} (f g : A -> bool) l : (forall x, f x = g x) -> existsb f l = existsb g l.
Proof. intros H. induction l; cbn; [reflexivity | now rewrite H, IHl]. Qed.
Lemma transfer_shift c v O te lra s s' t : c_tail c <> None -> exact_fast c v -> exact_slow v -> (0 < t_in c)%nat -> shifted c O s s' -> transfer c v te lra s = (t, None) -> exists t', transfer c v te lra s' = (t', None) /\ shifted c O t t'.
Proof.
  intros Tl Ex Es T Sh E. assert (N : next_k c s' = next_k c s) by (unfold next_k; now rewrite (sh_idx _ _ _ _ Sh)).
  assert (Su : exists t', transfer c v te lra s' = (t', None)).
  { unfold transfer in *. rewrite (sh_lr _ _ _ _ Sh). destruct (read_rate c te (s_lr s) lra); [|discriminate]. cbv zeta in *. fold (next_k c s) in E. fold (next_k c s'). rewrite N. destruct (c_x c <=? next_k c s)%nat; [discriminate | eauto]. }
  destruct Su as (t' & E'). exists t'. split; [exact E'|].
  destruct (transfer_fields _ _ _ _ _ _ E) as (_ & A1 & A2 & A3 & A4 & A5 & A6 & A7 & _ & A8 & A9 & A10 & A11 & A12 & A13).
  destruct (transfer_fields _ _ _ _ _ _ E') as (_ & B1 & B2 & B3 & B4 & B5 & B6 & B7 & _ & B8 & B9 & B10 & B11 & B12 & B13).
  rewrite N, (sh_lr _ _ _ _ Sh) in *. set (lrh := rate_of c te (s_lr s) lra) in *. pose proof (h_shift c v O lrh s s' Tl Ex T Sh) as Hh.
  assert (Cc : cc_of c s' = cc_of c s) by (unfold cc_of; now rewrite N, (sh_chop _ _ _ _ Sh)).
  assert (Sw : sw_of c v s' = sw_of c v s) by (unfold sw_of; now rewrite Cc, (sh_clk _ _ _ _ Sh)).
  assert (Pp : forall i j, s_P t' (slice_of c i j) (entry_of c i j) = s_P t (slice_of c i j) (entry_of c i j) + O i j).
  { intros i j. rewrite B12, A12. destruct (c_tail c) as [tl|]; [|congruence]. cbv zeta. set (b := Rmin _ _). destruct (Nat.eq_dec (slice_of c i j) (next_k c s)) as [e|ne].
    - rewrite e, !put_eq. rewrite (omega_shift c v O s s' Ex T Sh i j e). rewrite <- e. rewrite (sh_P _ _ _ _ Sh). ring.
    - rewrite !put_ne by exact ne. apply (sh_P _ _ _ _ Sh). }
  split.
  - intros i j. rewrite B1, A1. apply (sh_A _ _ _ _ Sh).
  - exact Pp.
  - intros i j. rewrite B13, A13, Sw. destruct (c_tail c) as [tl|]; [|congruence]. destruct (sw_of c v s); [|apply (sh_F _ _ _ _ Sh)].
    destruct (Nat.eq_dec (slice_of c i j) (next_k c s)) as [e|ne]; [rewrite e, !put_eq, <- e; apply Pp | rewrite !put_ne by exact ne; apply (sh_F _ _ _ _ Sh)].
  - intros k o. rewrite B10, A10. unfold put. destruct (k =? next_k c s)%nat; [|apply (sh_H _ _ _ _ Sh)]. now rewrite Hh.
  - intros i j. rewrite B11, A11. cbv zeta. rewrite (existsb_ext _ (fun o => negb (truncZ (h_of c v lrh s o) =? 0)%Z)) by (intros; now rewrite Hh).
    destruct (existsb _ _); [|apply (sh_W _ _ _ _ Sh)]. rewrite !Es. destruct (c_cols c); rewrite !ideal_one, Hh, (sh_W _ _ _ _ Sh); reflexivity.
  - intros k. rewrite B9, A9, Sw. destruct (sw_of c v s); [|apply (sh_c _ _ _ _ Sh)]. unfold put. rewrite !(sh_c _ _ _ _ Sh). reflexivity.
  - rewrite B2, A2. apply (sh_cnt _ _ _ _ Sh).
  - rewrite B3, A3. reflexivity.
  - rewrite B4, A4. exact Cc.
  - rewrite B5, A5. apply (sh_mx _ _ _ _ Sh).
  - rewrite B6, A6. apply (sh_md _ _ _ _ Sh).
  - rewrite B7, A7. first [reflexivity | apply (sh_lr _ _ _ _ Sh)].
  - rewrite B8, A8, (sh_clk _ _ _ _ Sh). reflexivity.
Qed.
(** AGAD on exact crossbars: if the fast weights are shifted by any matrix, and their past means and
    references with them (for instance by setting the hidden parameters), the whole training goes
    on as without the shift: same slow weights, buffers and choppers after every history. *)
Theorem C150_offset : forall c v O h s s' t, supported c -> c_tail c <> None -> exact_fast c v -> exact_slow v -> (0 < t_in c)%nat -> shifted c O s s' -> run c v s h = Ok t ->
  exists t', run c v s' h = Ok t' /\ shifted c O t t'.
Proof.
  intros c v O h. induction h as [|e h IH]; intros s s' t Sp Tl Ex Es T Sh E; [injection E as <-; exists s'; split; [reflexivity | exact Sh]|].
  cbn [run] in *. destruct (step c v s e) as [s1|] eqn:E1; [|discriminate]. cbn [bind] in E.
  assert (X : exists s1', step c v s' e = Ok s1' /\ shifted c O s1 s1').
  { destruct (step_cases _ _ _ _ _ Sp E1) as [(l & -> & ->) | (xs & ds & -> & T0 & Hc)].
    - exists (set_lr l s'). split; [reflexivity|]. destruct l; [|exact Sh]. split; try (exact (sh_A _ _ _ _ Sh)); try (exact (sh_P _ _ _ _ Sh)); try (exact (sh_F _ _ _ _ Sh)); try (exact (sh_H _ _ _ _ Sh)); try (exact (sh_W _ _ _ _ Sh)); try (exact (sh_c _ _ _ _ Sh)); try (exact (sh_cnt _ _ _ _ Sh)); try (exact (sh_idx _ _ _ _ Sh)); try (exact (sh_chop _ _ _ _ Sh)); try (exact (sh_mx _ _ _ _ Sh)); try (exact (sh_md _ _ _ _ Sh)); try (exact (sh_clk _ _ _ _ Sh)); reflexivity.
    - destruct (acc_shift c v O s s' xs ds Ex Sh) as [Sa La]. cbn [step]. rewrite (update_eq c v s' xs ds Sp). cbv zeta in *. replace (t_every c (length xs) =? 0)%nat with false by (symmetry; apply Nat.eqb_neq; lia).
      assert (Rr : rest_of s' (t_every c (length xs)) (length xs) = rest_of s (t_every c (length xs)) (length xs)) by (unfold rest_of; now rewrite (sh_cnt _ _ _ _ Sh)). rewrite Rr. destruct Hc as [[Lt ->] | [[Ge Lt] Et]].
      + replace (_ <? _)%nat with true by (symmetry; now apply Nat.ltb_lt). cbn [o_e o_s]. eauto.
      + replace (rest_of s (t_every c (length xs)) (length xs) <? t_every c (length xs))%nat with false by (symmetry; now apply Nat.ltb_ge). replace (2 * _ <=? _)%nat with false by (symmetry; now apply Nat.leb_gt).
        rewrite La. destruct (transfer_shift c v O _ _ _ _ _ Tl Ex Es T Sa Et) as (t' & Et' & Sh'). rewrite Et'. cbn [o_e o_s]. eauto. }
  destruct X as (s1' & E2 & Sh1). rewrite E2. cbn [bind]. exact (IH s1 s1' t Sp Tl Ex Es T Sh1 E).
Qed.

(** ** Where the choppers go wrong *)
Lemma one_step c v s x d : supported c -> regular c -> (0 < t_in c)%nat -> c_every c = 1 -> c_units c = false ->
  exists s', step c v s (Up [x] [d]) = Ok s' /\ transfer c v 1 (lra_of c s [x] [d]) (acc c v s [x] [d]) = (s', None).
Proof.
  intros Sp Rg Ti Ev Un. assert (T : t_every c 1 = 1%nat) by (apply every_int; [rewrite Ev; reflexivity | exact Un]).
  destruct (transfer_succeeds c v 1 (lra_of c s [x] [d]) (acc c v s [x] [d]) Rg Ti) as (s' & E); [lia | apply fast_rate_pos; exact Rg |]. exists s'. split; [|exact E].
  cbn [step]. rewrite (update_eq c v s [x] [d] Sp). cbn [length]. cbv zeta. rewrite T. cbn [Nat.eqb]. unfold rest_of. rewrite Nat.mod_1_r. cbn [Nat.add Nat.ltb Nat.leb Nat.mul]. rewrite E. reflexivity.
Qed.
(** rows of a 2 x 2 crossbar are transferred, the choppers switch at each read *)
Definition cfg2 (prob : R) : pcfg :=
  {| c_x := 2; c_d := 2; c_every := 1; c_units := false; c_nreads := 1; c_auto := false; c_amom := 99 / 100; c_fast := 1; c_bl := 31;
     c_gran := 1; c_again := 0; c_correct := false; c_prob := prob; c_random := false; c_cols := false;
     c_forget := false; c_mom := 0; c_tail := None; c_cacc := false; c_step := 1; c_dwA := 1; c_dwC := 1 |}.
Lemma cfg2_ok p : supported (cfg2 p) /\ regular (cfg2 p).
Proof. unfold supported, regular; cbn. repeat split; auto; try lra; try lia. Qed.
Lemma cfg2_rate p te lr lra : rate_of (cfg2 p) te lr lra = lr.
Proof. unfold rate_of, buf_gran. cbn. rewrite (proj2 (Rltb_true 0 1)) by lra. rewrite (proj2 (Rltb_false 0 0)) by lra. field. Qed.
Definition x_hist2 : fvec := fun j => if (j =? 1)%nat then 1 else 0.
Definition d_hist2 : fvec := fun i => if (i =? 0)%nat then - (5 / 2) else 0.
Definition hist2 : list ev := [SetLr (Some 1); Up [fun _ => 0] [fun _ => 0]; Up [x_hist2] [d_hist2]].
Lemma rows_example p : p = 0 \/ p = 1 -> exists s, run (cfg2 p) (ideal (cfg2 p) (fun _ => 0)) p_init hist2 = Ok s /\ s_W s 0%nat 1%nat = if Reqb p 0 then 2 else -2.
Proof.
  intros Hp. set (c := cfg2 p). set (v := ideal c (fun _ => 0)). destruct (cfg2_ok p) as [Sp Rg]. fold c in Sp, Rg. set (s0 := set_lr (Some 1) p_init).
  destruct (one_step c v s0 (fun _ => 0) (fun _ => 0) Sp Rg) as (s1 & E1 & T1); [cbn; lia | reflexivity | reflexivity |].
  destruct (one_step c v s1 x_hist2 d_hist2 Sp Rg) as (s2 & E2 & T2); [cbn; lia | reflexivity | reflexivity |].
  exists s2. split.
  { unfold hist2. cbn [run]. change (step c v p_init (SetLr (Some 1))) with (Ok s0). cbn [bind]. transitivity (z <- step c v s1 (Up [x_hist2] [d_hist2]) ;; Ok z); [exact (f_equal (fun z => bind z (fun s => bind (step c v s (Up [x_hist2] [d_hist2])) (fun z => Ok z))) E1)|]. now rewrite E2. }
  destruct (transfer_fields _ _ _ _ _ _ T1) as (_ & A1 & _ & I1 & _ & _ & _ & L1 & _ & _ & C1 & H1 & W1 & _). set (a1 := acc c v s0 _ _) in *.
  assert (K1 : next_k c a1 = 1%nat) by reflexivity. rewrite K1 in *.
  assert (Z1 : forall i j, s_A a1 i j = 0). { intros i j. unfold a1, v. cbn [acc accumulate s_A ideal v_fast]. unfold chop. cbn [map]. rewrite ideal_one. cbn [s0 set_lr p_init s_A s_c]. ring. }
  assert (Hz1 : forall o, h_of c v (rate_of c 1 (s_lr a1) (lra_of c s0 [fun _ => 0] [fun _ => 0])) a1 o = 0).
  { intros o. unfold h_of, omega_of. cbn [c cfg2 c_cols]. fold c. cbn [v v_bwd ideal]. unfold sumf. cbn [c cfg2 c_d seq map sumR]. rewrite !Z1. unfold ref_of. cbn [c cfg2 c_tail]. change (s_H a1 _ o) with 0. ring. }
  assert (T0 : truncZ 0 = 0%Z) by (apply truncZ_small; rewrite Rabs_R0; lra).
  assert (W1' : forall i j, s_W s1 i j = 0). { intros i j. rewrite W1. cbn [t_out c cfg2 c_cols c_x seq existsb]. fold c. rewrite !Hz1, T0. reflexivity. }
  assert (H1' : forall o, s_H s1 0%nat o = 0). { intros o. rewrite H1. rewrite put_ne by lia. reflexivity. }
  assert (Cp : c_period c = 1%nat). { unfold c_period. cbn [c cfg2 c_prob]. destruct Hp as [-> | ->]; [now rewrite (proj2 (Rltb_false 0 0)) by lra|]. rewrite (proj2 (Rltb_true 0 1)) by lra. replace (1 / 1) with (IZR 1) by lra. now rewrite rhe_IZR. }
  assert (C1' : s_c s1 0%nat = 1 /\ s_c s1 1%nat = if Reqb p 0 then 1 else -1).
  { rewrite C1. unfold sw_of, cc_of. rewrite K1. cbn [c cfg2 c_prob c_random]. fold c. destruct (Reqb p 0); [split; reflexivity|]. change (s_chop a1) with 0%nat. cbn [negb andb Nat.eqb]. split; [rewrite put_ne by lia; reflexivity | rewrite put_eq; reflexivity]. }
  destruct C1' as [C10 C11].
  destruct (transfer_fields _ _ _ _ _ _ T2) as (_ & A2 & _ & I2 & _ & _ & _ & L2 & _ & _ & C2 & H2 & W2 & _). set (a2 := acc c v s1 _ _) in *.
  assert (K2 : next_k c a2 = 0%nat). { unfold next_k. change (s_idx a2) with (s_idx s1). rewrite I1. reflexivity. } rewrite K2 in *.
  assert (Z2 : s_A a2 0%nat 1%nat = 5 / 2 * s_c s1 1%nat). { unfold a2, v. cbn [acc accumulate s_A ideal v_fast]. unfold chop. cbn [map]. rewrite ideal_one. change (lra_of c s1 [x_hist2] [d_hist2]) with 1. rewrite A1, Z1. unfold x_hist2, d_hist2. cbn [Nat.eqb]. lra. }
  assert (Hz2 : h_of c v (rate_of c 1 (s_lr a2) (lra_of c s1 [x_hist2] [d_hist2])) a2 1%nat = 5 / 2 * s_c s1 1%nat).
  { unfold h_of. rewrite K2. unfold omega_of. rewrite K2. cbn [c cfg2 c_cols]. fold c. cbn [v v_bwd ideal]. rewrite sumf_unit with (f := fun i => s_A a2 i 1%nat) by (cbn; lia). rewrite Z2. unfold ref_of. cbn [c cfg2 c_tail]. unfold c at 1. rewrite cfg2_rate. change (s_lr a2) with (s_lr s1). rewrite L1. change (s_lr a1) with 1. change (s_H a2) with (s_H s1). change (s_c a2) with (s_c s1). rewrite H1', C10. ring. }
  rewrite W2. replace (existsb _ _) with true.
  - cbv zeta. cbn [c cfg2 c_cols]. fold c. cbn [v v_slow ideal]. fold v. rewrite ideal_one. rewrite Hz2. change (s_W a2) with (s_W s1). rewrite W1'. change (unitf 0 0%nat) with 1. unfold lr_w. cbn [c cfg2 c_step c_dwC]. rewrite C11. destruct (Reqb p 0).
    + replace (5 / 2 * 1) with (5 / 2) by lra. rewrite trunc52. lra.
    + replace (truncZ (5 / 2 * -1)) with (-2)%Z; [lra|]. symmetry. unfold truncZ. rcase; [lra|]. replace (- (5 / 2 * -1)) with (5 / 2) by lra. rewrite (floorZ_unique (5 / 2) 2) by lra. reflexivity.
  - symmetry. apply existsb_exists. exists 1%nat. split; [apply in_seq; cbn; lia|]. rewrite Hz2, C11. apply Bool.negb_true_iff, Z.eqb_neq. intros Z0. apply truncZ_zero in Z0. destruct (Reqb p 0); mm.
Qed.
(** Rows with choppers: the inputs (columns) are multiplied with the signs but the rows are read
    with them; the same history that makes two steps up without choppers makes two steps down with
    choppers *)
Theorem C150_rows_refuted : (exists s, run (cfg2 0) (ideal (cfg2 0) (fun _ => 0)) p_init hist2 = Ok s /\ s_W s 0%nat 1%nat = 2) /\
  (exists s, run (cfg2 1) (ideal (cfg2 1) (fun _ => 0)) p_init hist2 = Ok s /\ s_W s 0%nat 1%nat = -2).
Proof.
  split; [destruct (rows_example 0 (or_introl eq_refl)) as (s & E & W) | destruct (rows_example 1 (or_intror eq_refl)) as (s & E & W)]; exists s; (split; [exact E|]); rewrite W; rcase; lra.
Qed.
(** Rows of a crossbar with more rows than columns: the transfer of the rows without a column of
    the same number fails, also with all choppers off *)
Theorem C150_rows_error_refuted : forall c v s xs ds, supported c -> c_cols c = false -> (0 < c_d c)%nat -> let T := t_every c (length xs) in (0 < T)%nat ->
  (T <= s_cnt s mod T + length xs < 2 * T)%nat -> (c_x c <= (s_idx s + 1) mod c_d c)%nat -> o_e (update c v s xs ds) <> None.
Proof.
  intros c v s xs ds Sp Co Dp T T0 [G L] K. rewrite (update_eq c v s xs ds Sp). cbv zeta. fold T. replace (T =? 0)%nat with false by (symmetry; apply Nat.eqb_neq; lia).
  unfold rest_of. replace (_ <? _)%nat with false by (symmetry; now apply Nat.ltb_ge). replace (2 * T <=? _)%nat with false by (symmetry; now apply Nat.leb_gt).
  unfold transfer. destruct (read_rate _ _ _ _); [|cbn; discriminate]. cbv zeta. unfold t_in. rewrite Co. change (s_idx (acc c v s xs ds)) with (s_idx s). replace (c_x c <=? _)%nat with true by (symmetry; now apply Nat.leb_le). cbn. discriminate.
Qed.
(** The tensor of the inputs that was given to [update] is changed: it is multiplied with the
    signs.  Here the second update with the same tensor sees a different input *)
Theorem C150_inputs : forall c v s xs ds, supported c -> o_x (update c v s xs ds) = map (fun x j => x j * s_c s j) xs.
Proof.
  intros c v s xs ds Sp. rewrite (update_eq c v s xs ds Sp). cbv zeta. destruct (_ =? _)%nat; [reflexivity|]. destruct (_ <? _)%nat; [reflexivity|]. destruct (_ <=? _)%nat; [reflexivity|]. now destruct (transfer _ _ _ _ _).
Qed.
Theorem C150_inputs_refuted : let c := cfg1 false 0 true 1 None in let v := ideal c (fun _ => 0) in exists s x, run c v p_init [Up [fun _ => 0] [fun _ => 0]] = Ok s /\ o_e (update c v s [fun _ => 1] [fun _ => 1]) = None /\ o_x (update c v s [fun _ => 1] [fun _ => 1]) = [x] /\ x 0%nat = -1.
Proof.
  intros c v. destruct (cfg1_step false 0 true 1 None v p_init (fun _ => 0) (fun _ => 0)) as (s & E & Et). fold c in E, Et. exists s. exists (fun j => 1 * s_c s j). split; [exact (f_equal (fun z => bind z (fun s1 => Ok s1)) E)|].
  destruct (cfg1_step false 0 true 1 None v s (fun _ => 1) (fun _ => 1)) as (s2 & E2 & _). fold c in E2. split; [cbn [step] in E2; cbv zeta in E2; destruct (o_e _); [discriminate | reflexivity]|].
  split; [now rewrite C150_inputs by apply cfg1_supported|].
  destruct (transfer_fields _ _ _ _ _ _ Et) as (_ & _ & _ & _ & _ & _ & _ & _ & _ & _ & Hc & _). rewrite Hc. set (s1 := acc _ _ _ _ _) in *. assert (K : next_k c s1 = 0%nat) by (unfold next_k; cbn [t_in c_cols c cfg1 c_x]; apply Nat.mod_1_r).
  unfold sw_of, cc_of. rewrite K. cbn [c cfg1 c_prob c_random]. fold c. rewrite (proj2 (Reqb_false 1 0)) by lra. cbn [negb andb Nat.eqb].
  assert (Cp : c_period c = 1%nat). { unfold c_period. cbn [c cfg1 c_prob]. rewrite (proj2 (Rltb_true 0 1)) by lra. replace (1 / 1) with (IZR 1) by lra. now rewrite rhe_IZR. }
  rewrite Cp, Nat.mod_1_r. cbn [Nat.eqb]. rewrite put_eq. change (s_c s1 0%nat) with 1. lra.
Qed.
(** AGAD with one weight, shifted by 7: same training *)
Example C150_nontrivial : let c := cfg1 false 0 true 1 (Some 1) in let v := ideal c (fun _ => 0) in
  let s' := {| s_A := fun _ _ => 7; s_W := fun _ _ => 0; s_H := fun _ _ => 0; s_P := fun _ _ => 7; s_F := fun _ _ => 7; s_c := fun _ => 1; s_cnt := 0; s_idx := 0; s_chop := 0; s_mx := 0; s_md := 0; s_lr := 1 / 10; s_clk := 0; s_log := [] |} in
  exists t t', run c v p_init hist1 = Ok t /\ run c v s' hist1 = Ok t' /\ s_W t' 0%nat 0%nat = s_W t 0%nat 0%nat /\ s_A t' 0%nat 0%nat = s_A t 0%nat 0%nat + 7.
Proof.
  intros c v s'. set (s0 := set_lr (Some 1) p_init). destruct (cfg1_step false 0 true 1 (Some 1) v s0 (fun _ => 1) (fun _ => - (5 / 2))) as (t & E & _). fold c in E.
  assert (Rt : run c v p_init hist1 = Ok t) by (unfold hist1; cbn [run]; change (step c v p_init (SetLr (Some 1))) with (Ok s0); cbn [bind]; exact (f_equal (fun z => bind z (fun s1 => Ok s1)) E)).
  destruct (C150_offset c v (fun _ _ => 7) hist1 p_init s' t) as (t' & Rt' & Sh); [apply cfg1_supported | discriminate | repeat split | repeat split | cbn; lia | split; intros; cbn; first [lra | reflexivity] | exact Rt |].
  exists t, t'. split; [exact Rt|]. split; [exact Rt'|]. split; [apply (sh_W _ _ _ _ Sh) | apply (sh_A _ _ _ _ Sh)].
Qed.

Print Assumptions C150_signs.
Print Assumptions C150_offset.
Print Assumptions C150_rows_refuted.
Print Assumptions C150_rows_error_refuted.
Print Assumptions C150_inputs.
Print Assumptions C150_inputs_refuted.
