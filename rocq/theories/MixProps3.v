(** * Mixed precision: schedule of the transfers (C80), content of a transfer (C81) *)
From Verif Require Import Prelude Rand DevModel DevSpec DevProofs PulseModel PulseSpec PulseProofs PulseProps CompModel CompSpec CompProofs CompProofs3 CompProofs4 CompProps TransProofs MixModel MixSpec MixProofs MixProps.

Lemma mix_row_rest p u s j s' : yields (mix_row p u s j) s' -> x_cnt s' = x_cnt s /\ x_avg s' = x_avg s /\ x_gran s' = x_gran s /\ x_row s' = x_row s.
Proof. intros Y. unfold mix_row in Y. cbv zeta in Y. apply yields_bind in Y as (d & _ & Y). apply yields_ret in Y. subst. repeat split. Qed.
Lemma mix_rows_rest p u j n s s' : yields (mix_rows p u j n s) s' -> x_cnt s' = x_cnt s /\ x_avg s' = x_avg s /\ x_gran s' = x_gran s /\ x_row s' = x_row s.
Proof.
  unfold mix_rows. destruct (Reqb _ _); [intros Y; apply yields_ret in Y; now subst|]. destruct (Rleb _ _); [intros Y; now apply yields_throw in Y|]. intros Y.
  refine (yields_foldMM_inv _ (fun z => x_cnt z = x_cnt s /\ x_avg z = x_avg s /\ x_gran z = x_gran s /\ x_row z = x_row s) _ _ _ _ _ Y); [|auto]. intros z a z' _ (A & B & C & D) Yz. apply mix_row_rest in Yz as (E & F & G & H). repeat split; congruence.
Qed.
Lemma mix_transfer_rest p u s s' : yields (mix_transfer p u s) s' -> x_cnt s' = x_cnt s /\ x_avg s' = x_avg s /\ x_gran s' = x_gran s.
Proof.
  unfold mix_transfer. destruct (_ || _)%bool; [intros Y; apply yields_ret in Y; now subst|]. cbv zeta. intros Y. apply yields_bind in Y as (i0 & _ & Y). apply yields_bind in Y as (s1 & Y & E). apply yields_ret in E. subst s'. cbn [with_row x_cnt x_avg x_gran].
  destruct (_ <? _)%nat; [apply yields_bind in Y as (a & Ya & Y); apply mix_rows_rest in Ya as (A & B & C & _); apply mix_rows_rest in Y as (D & E & F & _); repeat split; congruence | apply mix_rows_rest in Y as (A & B & C & _); auto].
Qed.
Lemma mix_update_rest p u lr x d mb s s' : yields (mix_update p u lr x d mb s) s' -> x_cnt s' = (if Reqb lr 0 then x_cnt s else S (x_cnt s)) /\ x_gran s' = x_gran s.
Proof.
  intros Y. destruct (Reqb lr 0) eqn:E; [unfold mix_update in Y; rewrite E in Y; apply yields_ret in Y; now subst|]. apply Reqb_false in E. destruct (mix_update_split _ _ _ _ _ _ _ _ E Y) as (chi & kx & kd & s1 & _ & Yt & Yn & ->). cbn [x_cnt x_gran].
  destruct (mix_due p mb (x_cnt s)) eqn:D; [apply due_iff in D; apply mix_transfer_rest in Yt as (A & _ & B); [|exact D]; rewrite A, B; auto|]. assert (Nd : ~ due p mb (x_cnt s)) by (intros H; apply due_iff in H; congruence). rewrite (Yn Nd). auto.
Qed.
Lemma mix_do_rest p s o s' : yields (mix_do p s o) s' -> x_cnt s' = counts o (x_cnt s) /\ x_gran s' = x_gran s.
Proof.
  destruct o as [u lr x d mb | o]; cbn [mix_do counts]; intros Y; [now apply mix_update_rest in Y|]. apply yields_bind in Y as (q & _ & Y). apply yields_ret in Y. subst. destruct o; auto.
Qed.
(** ** C80 *)
(** The device counts the updates with a learning rate since the weights were set. *)
Theorem C80_count : forall p os s s', mhistory p s os s' -> x_cnt s' = updates_since os (x_cnt s).
Proof.
  intros p os. induction os as [|o os IH]; intros s s' Y; unfold mhistory in Y; cbn [foldMM] in Y; [apply yields_ret in Y; now subst|]. apply yields_bind in Y as (s1 & Y1 & Y). apply mix_do_rest in Y1 as [C _]. unfold updates_since. cbn [fold_left]. fold (updates_since os (counts o (x_cnt s))). rewrite <- C. now apply IH.
Qed.
(** An update does not touch the device unless it is due, whatever the bins. *)
Theorem C80_not_due : forall p u lr x d mb s s', ~ due p mb (x_cnt s) -> yields (mix_update p u lr x d mb s) s' -> x_part s' = x_part s /\ x_row s' = x_row s.
Proof.
  intros p u lr x d mb s s' N Y. destruct (Req_EM_T lr 0) as [-> | L]; [unfold mix_update in Y; rewrite (proj2 (Reqb_true 0 0) eq_refl) in Y; apply yields_ret in Y; now subst|]. destruct (mix_update_split _ _ _ _ _ _ _ _ L Y) as (chi & kx & kd & s1 & _ & _ & E & ->). rewrite (E N). auto.
Qed.
(** So after the weights were set the device is left alone for [transfer_every] times batch size
    updates (forever if [transfer_every <= 0]). *)
Definition same_batch (mb : nat) (o : mop) : Prop := match o with MUpdate _ _ _ _ b => b = mb | MOp _ => False end.
Theorem C80_quiet : forall p mb os s s', x_cnt s = 0%nat -> Forall (same_batch mb) os -> (mp_every p <= 0 \/ Z.of_nat (length os) <= mp_every p * Z.of_nat mb)%Z -> mhistory p s os s' -> x_part s' = x_part s.
Proof.
  intros p mb os s s' C F H Y.
  assert (G : forall os s s', Forall (same_batch mb) os -> (mp_every p <= 0 \/ Z.of_nat (x_cnt s + length os) <= mp_every p * Z.of_nat mb)%Z -> mhistory p s os s' -> x_part s' = x_part s).
  { clear. intros os. induction os as [|o os IH]; intros s s' F H Y; unfold mhistory in Y; cbn [foldMM] in Y; [apply yields_ret in Y; now subst|]. apply yields_bind in Y as (s1 & Y1 & Y). inversion F as [|? ? Hb F']; subst. destruct o as [u lr x d b | o]; [|contradiction]. cbn [same_batch] in Hb. subst b. cbn [mix_do] in Y1.
    assert (E : x_part s1 = x_part s). { apply C80_not_due in Y1 as [E _]; [exact E|]. intros (A & B & k & K). destruct H as [H | H]; [nia|]. cbn [length] in H. assert (0 < k)%Z by nia. nia. }
    apply mix_update_rest in Y1 as [C _]. rewrite <- E. apply (IH s1 s' F'); [|exact Y]. destruct H as [H | H]; [now left|]. right. cbn [length] in H. destruct (Reqb lr 0); lia. }
  apply (G os s s' F); [|exact Y]. rewrite C. exact H.
Qed.
(** Not "every n updates": with [transfer_every] 1 the first update of a new device is not
    transferred. *)
Definition every_par : mpar := {| mp_xb := 0; mp_db := 0; mp_stox := false; mp_stod := false; mp_every := 1; mp_rows := -1; mp_random := false; mp_lr := 1; mp_gran := 1/10; mp_sparsity := false |}.
Theorem C80_every_refuted : forall u, exists s s', mix_make every_par (part1 0) = Ok s /\ yields (mix_update every_par u 1 [1] [1] 1 s) s' /\ x_part s' = part1 0 /\ chi_at s' 0 0 = 1 /\ x_gran s' = 1/10.
Proof.
  intros u. eexists. eexists. split. { unfold mix_make. cbn [every_par mp_gran]. rewrite (proj2 (Rltb_true 0 (1/10))), (proj2 (Rleb_false (1/10) 0)) by lra. reflexivity. }
  split. { unfold mix_update. rewrite (proj2 (Reqb_false 1 0)) by lra. unfold outer. cbn. constructor. } cbn. repeat split; lra.
Qed.

(** ** Sizes are kept *)
Lemma outer_dims p lr x d chi r n m : dims chi = repeat n m -> length x = n -> length d = m -> yields (outer p lr x d chi) r -> dims (fst (fst r)) = repeat n m.
Proof.
  intros D Lx Ld Y. unfold outer in Y. cbv zeta in Y. destruct (_ && _)%bool. { apply yields_ret in Y. subst r. cbn [fst]. rewrite <- D. apply (ger_spec lr d x chi n m D Ld Lx). }
  destruct (_ || _)%bool; [now apply yields_throw in Y|]. destruct (_ || _)%bool.
  - apply yields_bind in Y as (qx & Yx & Y). apply yields_bind in Y as (qs & _ & Y). destruct (_ <=? _)%nat; [now apply yields_throw in Y|]. apply yields_ret in Y. subst r. cbn [fst]. rewrite <- D. apply (ger_spec lr _ qx chi n m D).
    + now rewrite set_nth_length, repeat_length.
    + rewrite (mapMM_length _ _ _ Yx). exact Lx.
  - apply yields_bind in Y as (kxs & Yx & Y). apply yields_bind in Y as (kds & Yd & Y). apply yields_ret in Y. subst r. cbn [fst]. apply rows_dims; [|rewrite (mapMM_length _ _ _ Yd); exact Ld|exact D]. intros a r Lr. destruct (a =? 0)%Z; auto. now rewrite add_sparse_length.
Qed.
Definition mix_good (n m : nat) (s : mstate) : Prop := mix_sized n m s /\ (x_row s < m)%nat /\ 0 < x_gran s.
Lemma mix_transfer_good p u n m s s' : mix_good n m s -> yields (mix_transfer p u s) s' -> mix_good n m s'.
Proof.
  intros (Sz & Hr & Hg) Y. destruct (Z.eq_dec (mp_rows p) 0) as [R0 | R0]. { unfold mix_transfer in Y. rewrite (proj2 (Z.eqb_eq _ _) R0) in Y. cbn [orb] in Y. apply yields_ret in Y. subst. now split. }
  destruct (Req_EM_T (mp_lr p) 0) as [L0 | L0]. { unfold mix_transfer in Y. rewrite L0, Rabs_R0, (proj2 (Reqb_true 0 0) eq_refl), Bool.orb_true_r in Y. apply yields_ret in Y. subst. now split. }
  destruct (mix_transfer_fold p u n m s s' Sz R0 L0 Hg Hr Y) as (i0 & s1 & Hi & _ & Yf & ->). assert (Nm : (n_rows p m <= m)%nat) by (unfold n_rows; destruct (_ <? _)%Z; lia). destruct (row_list_spec m i0 (n_rows p m) Hi Nm) as (_ & F & _).
  assert (Lc : length (x_chi s) = m) by (destruct Sz as (Pm & D & _); destruct (row_len n m _ 0%nat D Pm); auto). pose proof (rows_fold_keeps p u m _ s s1 Lc F Yf) as K. split; [|split].
  - pose proof (keeps_sized n m _ _ K Sz) as (A & B & C). split; [exact A|]. split; [exact B | exact C].
  - cbn [with_row x_row]. apply Nat.mod_upper_bound. lia.
  - cbn [with_row x_gran]. destruct K as (_ & -> & _). exact Hg.
Qed.
Lemma mix_do_good p n m s o s' : mix_good n m s -> mop_fits n m o -> yields (mix_do p s o) s' -> mix_good n m s' /\ fst (x_part s') = fst (x_part s).
Proof.
  intros G F Y. assert (G0 := G). destruct G as ((Pm & Dc & Dd) & Hr & Hg). destruct o as [u lr x d mb | o]; cbn [mix_do mop_fits] in *.
  - destruct (Req_EM_T lr 0) as [-> | L]; [unfold mix_update in Y; rewrite (proj2 (Reqb_true 0 0) eq_refl) in Y; apply yields_ret in Y; subst; auto|]. destruct (mix_update_split _ _ _ _ _ _ _ _ L Y) as (chi & kx & kd & s1 & Yo & Yt & Yn & ->). destruct F as [Lx Ld]. pose proof (outer_dims _ _ _ _ _ _ n m Dc Lx Ld Yo) as D1. cbn [fst] in D1.
    assert (G1 : mix_good n m (with_chi s (x_part s) chi)) by (split; [split; [exact Pm | split; [exact D1 | exact Dd]] | split; [exact Hr | exact Hg]]).
    assert (K : mix_good n m s1 /\ fst (x_part s1) = fst (x_part s)).
    { destruct (mix_due p mb (x_cnt s)) eqn:E.
      - apply due_iff in E. specialize (Yt E). split; [eapply mix_transfer_good; eauto|]. clear - Yt. unfold mix_transfer in Yt. destruct (_ || _)%bool; [apply yields_ret in Yt; now subst|]. cbv zeta in Yt. apply yields_bind in Yt as (i0 & _ & Y). apply yields_bind in Y as (s2 & Y & E). apply yields_ret in E. subst s1. cbn [with_row x_part].
        assert (R : forall j k a b, yields (mix_rows p u j k a) b -> fst (x_part b) = fst (x_part a)).
        { clear. intros j k a b. unfold mix_rows. destruct (Reqb _ _); [intros Y; apply yields_ret in Y; now subst|]. destruct (Rleb _ _); [intros Y; now apply yields_throw in Y|]. intros Y. refine (yields_foldMM_inv _ (fun z => fst (x_part z) = fst (x_part a)) _ _ _ _ _ Y); [|reflexivity]. intros z i z' _ E Yz. unfold mix_row in Yz. cbv zeta in Yz. apply yields_bind in Yz as (dd & _ & Yz). apply yields_ret in Yz. subst. exact E. }
        destruct (_ <? _)%nat; [apply yields_bind in Y as (a & Ya & Y); apply R in Ya; apply R in Y; rewrite Y, Ya; reflexivity | now apply R in Y].
      - assert (Nd : ~ due p mb (x_cnt s)) by (intros H; apply due_iff in H; congruence). rewrite (Yn Nd). auto. }
    destruct K as (((A1 & A2 & A3) & B & C) & D). split; [|exact D]. split; [split; [exact A1 | split; [exact A2 | exact A3]] | split; [exact B | exact C]].
  - apply yields_bind in Y as (q & Yq & Y). apply yields_ret in Y. assert (K : pdims (repeat n m) q /\ fst q = fst (x_part s)). { apply (part_op_dims (repeat n m) o (x_part s)); auto; destruct o; auto; exact F. } destruct K as [K1 K2]. unfold pdims in K1.
    assert (Z : dims (zeros_like (x_chi s)) = repeat n m). { unfold zeros_like, dims. rewrite map_map. erewrite map_ext; [exact Dc|]. intros r. apply map_length. }
    subst s'. destruct o; cbn [with_chi x_part]; (split; [|exact K2]); (split; [split; [exact Pm | split; [first [exact Dc | exact Z] | exact K1]] | split; [cbn [x_row with_chi]; first [exact Hr | exact Pm] | exact Hg]]).
Qed.
Lemma mhistory_good p n m : forall os s s', mix_good n m s -> Forall (mop_fits n m) os -> mhistory p s os s' -> mix_good n m s' /\ fst (x_part s') = fst (x_part s) /\ x_gran s' = x_gran s.
Proof.
  induction os as [|o os IH]; intros s s' G F Y; unfold mhistory in Y; cbn [foldMM] in Y; [apply yields_ret in Y; subst; auto|]. apply yields_bind in Y as (s1 & Y1 & Y). inversion F; subst. destruct (mix_do_good p n m s o s1 G ltac:(auto) Y1) as [G1 E1]. destruct (IH s1 s' G1 ltac:(auto) Y) as (A & B & C). apply mix_do_rest in Y1 as [_ E2]. split; [exact A|]. split; congruence.
Qed.

(** ** C81 *)
(** An update that is due adds the outer product and then moves the whole multiples of the
    granularity of the next rows to the device; the rest stays in the digital matrix. *)
Theorem C81_content : forall p u lr x d mb n m s s', bins_ok p -> lr <> 0 -> mix_good n m s -> length x = n -> length d = m -> sensible u -> 0 < m_dwmin (fst (x_part s)) -> stochastic u /\ mp_lr p <> 0 \/ 0 < mp_lr p -> mp_rows p <> 0%Z ->
  due p mb (x_cnt s) -> yields (mix_update p u lr x d mb s) s' ->
  exists mid start k, x_part mid = x_part s /\ x_gran mid = x_gran s /\ accumulated p lr x d (x_chi s) (x_chi mid) /\ transfer_rows p m k /\ (start < m)%nat /\ (mp_random p = false \/ k = m -> start = x_row s) /\
    transferred p u m start k mid s' /\ x_row s' = ((start + k) mod m)%nat.
Proof.
  intros p u lr x d mb n m s s' B L (Sz & Hr & Hg) Lx Ld Su Dw Hl R0 Du Y. assert (Sz0 := Sz). destruct Sz as (Pm & Dc & Dd). destruct (mix_update_split _ _ _ _ _ _ _ _ L Y) as (chi & kx & kd & s1 & Yo & Yt & _ & E). specialize (Yt Du).
  pose proof (outer_spec p lr x d (x_chi s) _ n m B Dc Lx Ld Yo) as A. pose proof (outer_dims _ _ _ _ _ _ n m Dc Lx Ld Yo) as D1. cbn [fst] in *. set (mid := with_chi s (x_part s) chi) in *.
  assert (Szm : mix_sized n m mid) by (split; [exact Pm | split; [exact D1 | exact Dd]]). assert (L0 : mp_lr p <> 0) by (destruct Hl as [[_ H] | H]; lra).
  destruct (mix_transfer_fold p u n m mid s1 Szm R0 L0 Hg Hr Yt) as (i0 & s2 & Hi & Hs & Yf & E1). exists mid, i0, (n_rows p m). do 2 (split; [reflexivity|]). split; [exact A|]. split; [unfold transfer_rows, n_rows; destruct (_ <? _)%Z; reflexivity|]. split; [exact Hi|]. split; [exact Hs|].
  assert (Nm : (n_rows p m <= m)%nat) by (unfold n_rows; destruct (_ <? _)%Z; lia). destruct (row_list_spec m i0 (n_rows p m) Hi Nm) as (ND & F & Ad). assert (Lc : length (x_chi mid) = m) by (destruct (row_len n m _ 0%nat D1 Pm); auto). pose proof (rows_fold_keeps p u m _ mid s2 Lc F Yf) as K.
  subst s1 s'. cbn [x_row with_row]. split; [|reflexivity]. split; [cbn [x_part with_row]; exact (proj1 K)|]. intros i j c Ec. assert (Tr : transferable p u mid) by (repeat split; auto; apply Su).
  destruct (rows_fold_spec p u n m _ mid s2 i j c Szm Tr ND F Yf Ec) as (c' & Ec' & M). exists c'. cbn [x_part with_row]. split; [exact Ec'|]. destruct (repeat_dims_cells n m _ i j c Dd Ec) as [La _]. specialize (Ad i La). unfold entry_moved in M. split; intros H.
  - rewrite (proj2 Ad H) in M. exact M.
  - replace (existsb (Nat.eqb i) (row_list m i0 (n_rows p m))) with false in M by (symmetry; apply Bool.not_true_is_false; tauto). exact M.
Qed.

Print Assumptions C80_count.
Print Assumptions C80_not_due.
Print Assumptions C80_quiet.
Print Assumptions C80_every_refuted.
Print Assumptions C81_content.
