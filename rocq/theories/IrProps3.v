(** * C162: the ideal limit *)
From Verif Require Import Prelude MvmModel ConvModel IrModel IrSpec IrProofs IrProofs2 IrProofs3 IrProps2.
Local Open Scope R_scope.

(** A converter that represents all matrices by conductances *)
Definition faithful (conv : converter) : Prop := forall d n W, is_mat d n W -> represents d n W (fst (conv W)) (snd (conv W)).

(** Any such converter, with any number of pairs: the outputs are linear in the pulse lengths, with coefficients and
    offset that depend on the weights only.  Without wire resistance the coefficients are the weights. *)
Theorem C162_any_converter p conv U tmax W d n r :
  (2 <= U)%nat -> 0 < tmax -> o_drop p <> 0 -> 0 <= o_drop p * o_rs p -> o_adc p = false -> get_res p = Ok r ->
  fits p n -> Nat.even d = true -> is_mat d n W -> faithful conv ->
  exists (co : nat -> nat -> R) (off : nat -> R),
  (o_drop p * o_rs p = 0 -> forall j i, (j < d)%nat -> (i < n)%nat -> co j i = ent W j i) /\
  (o_vread p = 4 / 10 -> forall j, (j < d)%nat -> off j <= 0) /\
  forall z, length z = n -> within_steps U z -> exists y,
    matmul_ir p conv (o_drop p) U tmax W (grid_input U tmax z) = Ok y /\ length y = d /\
    forall j, (j < d)%nat -> nth j y 0 = (isum n (fun i => co j i * pulses (o_isum p) (nth i z 0%Z)) + off j) / (o_bound p / r / 2).
Proof.
  intros LU T Nd Rs NA Er Fi Ev M Fa. pose proof Fi as (F1 & F2 & F3 & F4). destruct (pad_mat (o_phys p) n d W F1 M) as (k1 & k2 & K & P & C & MP & EP & MX). specialize (C p eq_refl Fi). set (N := (k1 + (n + k2))%nat) in *. set (WP := map (pad_sym (o_phys p) n) W) in *.
  destruct (Fa d N WP MP) as (Pr & Fo & Re). destruct (conv WP) as [pairs ratio] eqn:EC. cbn [fst snd] in Pr, Fo, Re. destruct (pairs_linear p U tmax d N LU T Rs NA C Ev pairs Fo) as (co & off & H1 & _ & H3 & H4).
  exists (fun j i => co j (k1 + i)%nat / ratio), (fun j => off j / ratio / (2 / 10)). split; [|split].
  - intros E j i Lj Li. rewrite (H1 E) by (try exact Lj; unfold N; lia). rewrite Re by (try exact Lj; unfold N; lia). unfold WP. rewrite EP by exact Lj. field. lra.
  - intros E j Lj. destruct (H3 E j Lj) as [_ X]. assert (0 < / ratio) by now apply Rinv_0_lt_compat. unfold Rdiv at 1 2. nra.
  - intros z Lz Wz. assert (Lg : length (grid_input U tmax z) = n) by (unfold grid_input; now rewrite map_length).
    destruct (H4 (pad_sym (o_phys p) n (grid_input U tmax z)) (map (fun _ => 0) W)) as (y & E1 & L1 & V1). { rewrite (P _ Lg), !app_length, !repeat_length. unfold vec in *. unfold N. lia. } { rewrite map_length. destruct M. assumption. }
    unfold matmul_ir. rewrite Er. cbn [bind]. replace (Reqb (o_drop p) 0) with false by (symmetry; apply Reqb_false; exact Nd). replace (o_segs p =? 0)%nat with false by (symmetry; apply Nat.eqb_neq; lia). rewrite F3, Nat.eqb_refl. cbn [negb]. unfold vec in *. rewrite Lg. fold WP. rewrite EC. rewrite E1. cbn [bind]. eexists. split; [reflexivity|]. split; [rewrite map_length; exact L1|]. intros j Lj.
    set (h := fun v => v / _ / (2 / 10) / (o_bound p / r / 2)). rewrite (nth_indep (map h _) 0 (h 0)) by (rewrite map_length; unfold vec in *; lia). rewrite map_nth. rewrite V1 by exact Lj.
    replace (nth j (map (fun _ : list R => 0) W) 0) with 0 by (clear; revert j; induction W as [|w W IH]; intros [|j]; cbn; auto).
    rewrite (P _ Lg). unfold N at 1. rewrite (isum_padded k1 k2 (grid_input U tmax z) n (co j) (total_pulse (o_isum p) U tmax)) by (try exact Lg; apply total_zero; assumption).
    assert (S : isum n (fun i => co j (k1 + i)%nat * total_pulse (o_isum p) U tmax (nth i (grid_input U tmax z) 0)) = isum n (fun i => ratio * (co j (k1 + i)%nat / ratio * pulses (o_isum p) (nth i z 0%Z)))). { apply isum_ext. intros i Li. rewrite grid_total by assumption. field. lra. }
    rewrite S, isum_scale. unfold h. apply (f_equal (fun q => q / (o_bound p / r / 2))). field. lra.
Qed.
(** The single pair converter is one. *)
Theorem C162_single_pair c : 0 <= sp_gmin c < sp_gmax c -> faithful (sp_pairs c).
Proof. intros G d n W M. now apply sp_represents. Qed.

(** The inputs of an evaluation in one pass: whole multiples of twice the resolution (what the input quantization
    yields for an input bound of 1), at most 1. *)
Definition quantized (r : R) (z : list Z) : list R := map (fun k => IZR k * (2 * r)) z.
Lemma truncZ_nat k x : x = INR k -> trunc_nat x = k.
Proof. intros ->. unfold trunc_nat. rewrite INR_IZR_INZ. unfold truncZ. destruct (Rle_dec 0 (IZR (Z.of_nat k))) as [H|H]; [|exfalso; apply H, IZR_le; lia]. rewrite floorZ_IZR. apply Nat2Z.id. Qed.

(** One pass over [K] (and one) time steps: [W x] up to attenuation and offset, where by the trapezoidal rule
    (the default) all inputs other than zero count [r], half a step, more. *)
Theorem C162_one_pass p c W d n r K fin :
  o_mode p = ONE_PASS -> o_bound p = 1 -> o_tscale p = 1 -> get_res p = Ok r -> 1 / r = 2 * INR K -> (1 <= K)%nat ->
  o_drop p <> 0 -> 0 <= o_drop p * o_rs p -> o_adc p = false -> fits p n -> Nat.even d = true -> is_mat d n W -> 0 <= sp_gmin c < sp_gmax c ->
  exists (al : nat -> nat -> R) (off : nat -> R),
  (forall j i, (j < d)%nat -> (i < n)%nat -> 0 < al j i <= 1) /\
  (o_drop p * o_rs p = 0 -> forall j i, (j < d)%nat -> (i < n)%nat -> al j i = 1) /\
  (o_vread p = 4 / 10 -> forall j, (j < d)%nat -> - (4 * reg_eps * INR (o_phys p) * Rmax (maxabs (concat W)) zero_clip / (sp_gmax c - sp_gmin c)) <= off j <= 0) /\
  (sp_gmin c = 0 -> o_vread p = 4005 / 10000 -> o_drop p * o_rs p = 0 -> forall j, (j < d)%nat -> off j <= - (25 / 10000) * isum n (fun i => Rabs (ent W j i))) /\
  forall z, length z = n -> Forall (fun k => (Z.abs k <= Z.of_nat K)%Z) z -> exists y,
    compute_mv p (sp_pairs c) true fin W (quantized r z) = Ok (fin 0%nat y) /\ length y = d /\
    forall j, (j < d)%nat -> nth j y 0 = isum n (fun i => al j i * ent W j i * (IZR (nth i z 0%Z) * (2 * r) + (if o_isum p then 0 else IZR (Z.sgn (nth i z 0%Z)) * r))) + off j.
Proof.
  intros Em Eb Et Er EK LK Nd Rs NA Fi Ev M G.
  assert (PK : 1 <= INR K) by (change 1 with (INR 1); apply le_INR; exact LK).
  assert (Pr : 0 < r) by (unfold get_res in Er; destruct (Rltb 0 (norm_res (o_res p))) eqn:E; [injection Er as <-; now apply Rltb_true | discriminate]).
  assert (Rr : 2 * r = / INR K). { assert (1 = 2 * INR K * r) by (rewrite <- EK; field; lra). apply Rmult_eq_reg_r with (INR K); [|lra]. rewrite Rinv_l by lra. lra. }
  destruct (C161_attenuated p c W d n r Nd Rs NA Er Fi Ev M G) as (al & off & A1 & _ & A3 & A4 & A5 & A6).
  exists al, (fun j => off (K + 1)%nat j / INR K). split; [exact A1|]. split; [exact A3|]. split; [|split].
  - intros E j Lj. destruct (A4 E (K + 1)%nat j ltac:(lia) Lj) as [B1 B2]. set (t := reg_eps * INR (o_phys p) * Rmax (maxabs (concat W)) zero_clip / (sp_gmax c - sp_gmin c)) in *. assert (Pt : 0 <= t). { unfold t. pose proof reg_eps_pos. pose proof (pos_INR (o_phys p)). pose proof zero_clip_pos. apply Rmult_le_pos; [|left; apply Rinv_0_lt_compat; lra]. apply Rmult_le_pos; [apply Rmult_le_pos; lra | mm]. }
    replace (2 * reg_eps * INR (K + 1) * INR (o_phys p) * Rmax (maxabs (concat W)) zero_clip / (sp_gmax c - sp_gmin c)) with (2 * INR (K + 1) * t) in B1 by (unfold t; field; lra). replace (4 * reg_eps * INR (o_phys p) * Rmax (maxabs (concat W)) zero_clip / (sp_gmax c - sp_gmin c)) with (4 * t) by (unfold t; field; lra). rewrite plus_INR in B1. cbn [INR] in B1. split.
    + apply Rmult_le_reg_r with (INR K); [lra|]. replace (off (K + 1)%nat j / INR K * INR K) with (off (K + 1)%nat j) by (field; lra). nra.
    + apply Rmult_le_reg_r with (INR K); [lra|]. replace (off (K + 1)%nat j / INR K * INR K) with (off (K + 1)%nat j) by (field; lra). nra.
  - intros G0 E E0 j Lj. destruct (A5 G0 ltac:(lra) (K + 1)%nat j ltac:(lia) Lj) as [_ B]. cbv zeta in B. rewrite E in B. rewrite (isum_ext n _ (fun i => Rabs (ent W j i))) in B by (intros i Li; rewrite (A3 E0) by assumption; ring). set (s := isum n _) in *. assert (Ps : 0 <= s). { unfold s. rewrite <- (isum_zero n (fun _ => 0)) by reflexivity. apply isum_le. intros. apply Rabs_pos. } rewrite plus_INR in B. cbn [INR] in B. apply Rmult_le_reg_r with (INR K); [lra|]. replace (off (K + 1)%nat j / INR K * INR K) with (off (K + 1)%nat j) by (field; lra). nra.
  - intros z Lz Fz. assert (Wz : within_steps (K + 1) z). { unfold within_steps. replace (K + 1 - 1)%nat with K by lia. exact Fz. } destruct (A6 (K + 1)%nat 1 z ltac:(lia) ltac:(lra) Lz Wz) as (y & E1 & L1 & V1).
    assert (Eg : grid_input (K + 1) 1 z = quantized r z). { unfold grid_input, quantized. apply map_ext. intros k. replace (K + 1 - 1)%nat with K by lia. rewrite Rr. field. lra. } rewrite Eg in E1. exists y. split; [|split; [exact L1|]].
    + unfold compute_mv, prepare_inputs. rewrite Er, Em. cbn [bind]. rewrite Eb, Et, EK. rewrite (truncZ_nat (K + 1)) by (rewrite plus_INR; cbn [INR]; lra). rewrite E1. reflexivity.
    + intros j Lj. rewrite V1 by exact Lj. rewrite Eb, EK. replace (2 * INR K / 2) with (INR K) by field. unfold Rdiv at 1. rewrite Rmult_plus_distr_r. f_equal. rewrite Rmult_comm, <- isum_scale. apply isum_ext. intros i Li. unfold pulses. rewrite <- Rr. destruct (o_isum p); field.
Qed.

(** ** Examples *)
Definition ex_p (rs tscale vread : R) (by_sum : bool) : irp :=
  {| o_ext := true; o_mode := ONE_PASS; o_res := 1 / 2; o_bound := 1; o_drop := 1; o_rs := rs; o_segs := 1; o_tscale := tscale; o_vread := vread; o_shift := 0; o_adc := false; o_freq := 1; o_isum := by_sum; o_phys := 1 |}.
Definition ex_c : sp := {| sp_gmax := 25; sp_gmin := 0 |}.
Definition ex_W : mat := [[1]; [- (1)]].
Lemma ex_res rs ts v b : get_res (ex_p rs ts v b) = Ok (1 / 2).
Proof. unfold get_res, norm_res. cbn [o_res ex_p]. rewrite (proj2 (Rltb_false 1 (1 / 2))) by lra. rewrite (proj2 (Rltb_true 0 (1 / 2))) by lra. reflexivity. Qed.
Lemma ex_fits rs ts v b : fits (ex_p rs ts v b) 1.
Proof. unfold fits. cbn. repeat split; try lia; discriminate. Qed.
Lemma ex_mat : is_mat 2 1 ex_W.
Proof. split; [reflexivity | repeat constructor]. Qed.
Lemma ex_eps : reg_eps * 1 * Rmax (maxabs (concat ex_W)) zero_clip / (25 - 0) <= 1 / 10 ^ 6.
Proof. unfold ex_W, maxabs. cbn [concat app fold_right]. rewrite Rabs_Ropp, (Rabs_right 1) by lra. replace (Rmax (Rmax 1 (Rmax 1 0)) zero_clip) with 1 by (unfold zero_clip; mm). unfold reg_eps. lra. Qed.

(** The hypotheses of the theorems above hold for instance here. *)
Theorem C162_one_pass_nontrivial : let p := ex_p 5 1 (4 / 10) true in
  o_mode p = ONE_PASS /\ o_bound p = 1 /\ get_res p = Ok (1 / 2) /\ 1 / (1 / 2) = 2 * INR 1 /\ 0 < o_drop p * o_rs p /\ fits p 1 /\ is_mat 2 1 ex_W /\ 0 <= sp_gmin ex_c < sp_gmax ex_c /\
  Forall (fun k => (Z.abs k <= Z.of_nat 1)%Z) [(-1)%Z].
Proof. cbn zeta. split; [reflexivity|]. split; [reflexivity|]. split; [apply ex_res|]. split; [cbn; lra|]. split; [cbn; lra|]. split; [apply ex_fits|]. split; [apply ex_mat|]. split; [cbn; lra|]. repeat constructor. cbn. lia. Qed.

(** Refuted: without wire resistance the product is the ideal one (input of 1, weight 1, output more than 1.4) *)
Theorem C162_default_integration_refuted : let p := ex_p 0 1 (4 / 10) false in
  exists y, compute_mv p (sp_pairs ex_c) true (fun _ v => v) ex_W [1] = Ok y /\ nth 0 (matvec ex_W [1]) 0 = 1 /\ 14 / 10 < nth 0 y 0.
Proof.
  intros p. destruct (C162_one_pass p ex_c ex_W 2 1 (1 / 2) 1 (fun _ v => v) eq_refl eq_refl eq_refl (ex_res _ _ _ _) ltac:(cbn; lra) ltac:(lia) ltac:(cbn; lra) ltac:(cbn; lra) eq_refl (ex_fits _ _ _ _) eq_refl ex_mat ltac:(cbn; lra)) as (al & off & _ & A2 & A3 & _ & A5).
  destruct (A5 [1%Z] eq_refl ltac:(repeat constructor; cbn; lia)) as (y & E & _ & V). exists y. replace (quantized (1 / 2) [1%Z]) with [1] in E by (unfold quantized; cbn [map]; f_equal; lra). split; [exact E|]. split; [cbn; lra|]. rewrite V by lia. cbn [o_isum p ex_p]. unfold isum. cbn [seq map sumR fold_right nth ex_W ent]. rewrite (A2 ltac:(cbn; lra)) by lia. unfold ent. cbn [nth ex_W Z.sgn].
  destruct (A3 eq_refl 0%nat ltac:(lia)) as [B _]. pose proof ex_eps as EE. cbn [o_phys p ex_p INR sp_gmax sp_gmin ex_c] in B. set (t := Rmax (maxabs (concat ex_W)) zero_clip) in *. replace (4 * reg_eps * 1 * t / (25 - 0)) with (4 * (reg_eps * 1 * t / (25 - 0))) in B by field. lra.
Qed.

(** Refuted: a finer time resolution (ir_drop_time_step_resolution_scale above 1) does not change the product (the output
    is three times the ideal one) *)
Theorem C162_time_resolution_refuted : let p := ex_p 0 2 (4 / 10) true in
  exists y, compute_mv p (sp_pairs ex_c) true (fun _ v => v) ex_W [1] = Ok y /\ nth 0 (matvec ex_W [1]) 0 = 1 /\ 29 / 10 < nth 0 y 0.
Proof.
  intros p. destruct (C161_attenuated p ex_c ex_W 2 1 (1 / 2) ltac:(cbn; lra) ltac:(cbn; lra) eq_refl (ex_res _ _ _ _) (ex_fits _ _ _ _) eq_refl ex_mat ltac:(cbn; lra)) as (al & off & _ & _ & A3 & A4 & _ & A6).
  destruct (A6 4%nat 1 [3%Z] ltac:(lia) ltac:(lra) eq_refl ltac:(repeat constructor; cbn; lia)) as (y & E & _ & V). exists y. replace (grid_input 4 1 [3%Z]) with [1] in E by (unfold grid_input; cbn [map]; f_equal; cbn; lra). split.
  - unfold compute_mv, prepare_inputs. assert (Er : get_res p = Ok (1 / 2)) by apply ex_res. rewrite Er. cbn [bind]. change (o_mode p) with ONE_PASS. change (o_bound p) with 1. change (o_tscale p) with 2. cbn beta iota zeta delta [bind]. rewrite (truncZ_nat 4) by (cbn; lra). rewrite E. reflexivity.
  - split; [cbn; lra|]. rewrite V by lia. cbn [o_isum p ex_p o_bound]. unfold isum. cbn [seq map sumR fold_right nth]. rewrite (A3 ltac:(cbn; lra)) by lia. unfold ent, pulses. cbn [nth ex_W].
    destruct (A4 eq_refl 4%nat 0%nat ltac:(lia) ltac:(lia)) as [B _]. pose proof ex_eps as EE. cbn [o_phys p ex_p sp_gmax sp_gmin ex_c] in B. set (t := Rmax (maxabs (concat ex_W)) zero_clip) in *. replace (INR 4) with 4 in B by (cbn; lra). replace (INR 1) with 1 in B by (cbn; lra). replace (2 * reg_eps * 4 * 1 * t / (25 - 0)) with (8 * (reg_eps * 1 * t / (25 - 0))) in B by field. lra.
Qed.

(** Refuted: an input of zero yields zero.  With the default read voltage and no wire resistance, the output is less than minus
    0.0025 times the sum of the absolute weights *)
Theorem C162_default_read_voltage_refuted : let p := ex_p 0 1 (4005 / 10000) true in
  exists y, compute_mv p (sp_pairs ex_c) true (fun _ v => v) ex_W [0] = Ok y /\ nth 0 y 0 <= - (25 / 10000) /\ nth 1 y 0 <= - (25 / 10000).
Proof.
  intros p. destruct (C162_one_pass p ex_c ex_W 2 1 (1 / 2) 1 (fun _ v => v) eq_refl eq_refl eq_refl (ex_res _ _ _ _) ltac:(cbn; lra) ltac:(lia) ltac:(cbn; lra) ltac:(cbn; lra) eq_refl (ex_fits _ _ _ _) eq_refl ex_mat ltac:(cbn; lra)) as (al & off & _ & A2 & _ & A4 & A5).
  destruct (A5 [0%Z] eq_refl ltac:(repeat constructor; cbn; lia)) as (y & E & _ & V). exists y. replace (quantized (1 / 2) [0%Z]) with [0] in E by (unfold quantized; cbn [map]; f_equal; lra). split; [exact E|].
  assert (Z : forall j, (j < 2)%nat -> nth j y 0 = off j) by (intros j Lj; rewrite V by exact Lj; rewrite isum_zero; [lra|]; intros i Li; destruct i; [cbn; ring | lia]).
  rewrite !Z by lia. pose proof (A4 eq_refl eq_refl ltac:(cbn; lra) 0%nat ltac:(lia)) as B0. pose proof (A4 eq_refl eq_refl ltac:(cbn; lra) 1%nat ltac:(lia)) as B1. unfold isum, ent in B0, B1. cbn [seq map sumR fold_right nth ex_W] in B0, B1. rewrite Rabs_Ropp in B1. rewrite (Rabs_right 1) in B0, B1 by lra. lra.
Qed.

Print Assumptions C162_any_converter.
Print Assumptions C162_single_pair.
Print Assumptions C162_one_pass.
Print Assumptions C162_one_pass_nontrivial.
Print Assumptions C162_default_integration_refuted.
Print Assumptions C162_time_resolution_refuted.
Print Assumptions C162_default_read_voltage_refuted.
