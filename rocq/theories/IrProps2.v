(** * C161, C162: the product with IR drop *)
From Verif Require Import Prelude MvmModel ConvModel IrModel IrSpec IrProofs IrProofs2 IrProofs3.
Local Open Scope R_scope.

(** ** The single pair converter represents the weights *)
Lemma sp_pairs_flat c W : let '(pairs, ratio) := sp_pairs c W in let '(flat, ratio') := sp_to c (concat W) in
  ratio = ratio' /\ exists gp gm, pairs = [(1, (gp, gm))] /\ flat = [concat gp; concat gm].
Proof.
  unfold sp_pairs, sp_to. split; [reflexivity|]. eexists. eexists. split; [reflexivity|]. rewrite !concat_map, !map_map. f_equal; [|f_equal]; f_equal; apply map_ext; intros l; rewrite ?map_map; apply map_ext; intros v; repeat (rewrite ?map_map); f_equal; f_equal; lra.
Qed.
Lemma zero_clip_pos : 0 < zero_clip.
Proof. unfold zero_clip. lra. Qed.
Lemma in_ent (W : mat) j i : (j < length W)%nat -> (i < length (nth j W []))%nat -> In (ent W j i) (concat W).
Proof. intros Lj Li. apply in_concat. exists (nth j W []). split; [now apply nth_In|]. unfold ent. now apply nth_In. Qed.
Lemma mat_row d n W j : is_mat d n W -> (j < d)%nat -> length (nth j W []) = n.
Proof. intros [L F] Lj. rewrite Forall_forall in F. apply F, nth_In. unfold vec in *. lia. Qed.
Lemma ent_map2 (f : R -> R) W j i d n : is_mat d n W -> (j < d)%nat -> (i < n)%nat -> ent (map (map f) W) j i = f (ent W j i).
Proof.
  intros M Lj Li. pose proof (mat_row d n W j M Lj) as Lr. destruct M as [L F]. unfold ent. unfold vec in *.
  replace (nth j (map (map f) W) []) with (map f (nth j W [])) by (symmetry; apply (map_nth (map f) W [] j)).
  rewrite (nth_indep (map f (nth j W [])) 0 (f 0)) by (rewrite map_length; lia). apply map_nth.
Qed.
Lemma is_mat_map2 (f : R -> R) d n W : is_mat d n W -> is_mat d n (map (map f) W).
Proof. intros [L F]. split; [now rewrite map_length|]. rewrite Forall_map. eapply Forall_impl; [|exact F]. intros r Lr. rewrite map_length. exact Lr. Qed.
Lemma sp_represents c d n W : 0 <= sp_gmin c < sp_gmax c -> is_mat d n W -> represents d n W (fst (sp_pairs c W)) (snd (sp_pairs c W)).
Proof.
  intros G M. unfold sp_pairs. cbn [fst snd]. set (mx := Rmax (maxabs (concat W)) zero_clip). assert (Pm : 0 < mx) by (unfold mx; pose proof zero_clip_pos; mm). set (ratio := (sp_gmax c - sp_gmin c) / mx). assert (Pr : 0 < ratio) by (apply Rdiv_lt_0_compat; lra).
  assert (NN : forall f, Forall (Forall (fun g => 0 <= g)) (map (map (fun v => clampR 0 (sp_gmax c) (f v) + sp_gmin c)) W)). { intros f. rewrite Forall_map, Forall_forall. intros r _. rewrite Forall_map, Forall_forall. intros v _. pose proof (clampR_range 0 (sp_gmax c) (f v) ltac:(lra)). lra. }
  split; [exact Pr|]. split.
  - constructor; [|constructor]. split; [lra|]. split; [now apply is_mat_map2|]. split; [now apply is_mat_map2|]. split; apply NN.
  - intros j i Lj Li. cbn [map]. rewrite !(ent_map2 _ W j i d n M Lj Li). set (v := ent W j i).
    assert (B : Rabs (v * ratio) <= sp_gmax c - sp_gmin c). { rewrite Rabs_mult, (Rabs_right ratio) by lra. assert (Rabs v <= mx). { apply Rle_trans with (maxabs (concat W)); [|unfold mx; mm]. apply maxabs_ub, in_ent; [destruct M; unfold vec in *; lia|]. rewrite (mat_row d n W j M Lj). exact Li. } replace (sp_gmax c - sp_gmin c) with (mx * ratio) by (unfold ratio; field; lra). apply Rmult_le_compat_r; lra. }
    cbn. rewrite Rplus_0_r, Rmult_1_l. destruct (Rle_or_lt 0 (v * ratio)) as [H|H].
    + rewrite Rabs_right in B by lra. rewrite (clampR_id 0 _ (v * ratio)) by lra. replace (clampR 0 (sp_gmax c) (- (v * ratio))) with 0 by (unfold clampR; mm). ring.
    + rewrite Rabs_left in B by lra. rewrite (clampR_id 0 _ (- (v * ratio))) by lra. replace (clampR 0 (sp_gmax c) (v * ratio)) with 0 by (unfold clampR; mm). ring.
Qed.

(** ** Padded matrices *)
Lemma pad_mat phys n d W : (0 < n <= phys)%nat -> is_mat d n W -> exists k1 k2, (k1 + (n + k2) <= phys)%nat /\ (forall v : list R, length v = n -> pad_sym phys n v = repeat 0 k1 ++ v ++ repeat 0 k2) /\
  (forall p, o_phys p = phys -> fits p n -> col_ok p (k1 + (n + k2))) /\ is_mat d (k1 + (n + k2)) (map (pad_sym phys n) W) /\ (forall j i, (j < d)%nat -> ent (map (pad_sym phys n) W) j (k1 + i) = ent W j i) /\
  maxabs (concat (map (pad_sym phys n) W)) <= maxabs (concat W).
Proof.
  intros Ln M. destruct (pad_form phys n ltac:(lia)) as (k1 & k2 & P & C). exists k1, k2.
  assert (K : (k1 + (n + k2) <= phys)%nat). { pose proof (P (repeat 0 n) (repeat_length _ _)) as E. apply (f_equal (@length R)) in E. rewrite !app_length, !repeat_length in E. unfold pad_sym in E. replace (n <=? phys)%nat with true in E by (symmetry; apply Nat.leb_le; lia). destruct ((phys - n) / 2 =? 0)%nat; rewrite ?app_length, ?repeat_length in E; [lia|]. assert ((phys - n) / 2 <= phys - n)%nat by (apply Nat.div_le_upper_bound; lia). lia. }
  split; [exact K|]. split; [exact P|]. split; [exact C|]. destruct M as [L F]. split; [|split].
  - split; [now rewrite map_length|]. rewrite Forall_map. eapply Forall_impl; [|exact F]. intros r Lr. rewrite (P r Lr), !app_length, !repeat_length. unfold vec in *. lia.
  - intros j i Lj. unfold ent. unfold vec in *. assert (Lr : length (nth j W []) = n) by (rewrite Forall_forall in F; apply F, nth_In; lia). assert (X : nth j (map (pad_sym phys n) W) (pad_sym phys n []) = repeat 0 k1 ++ nth j W [] ++ repeat 0 k2) by (etransitivity; [apply (map_nth (pad_sym phys n) W [] j) | exact (P _ Lr)]).
    assert (Y : nth j (map (pad_sym phys n) W) [] = nth j (map (pad_sym phys n) W) (pad_sym phys n [])) by (apply nth_indep; rewrite map_length; unfold vec in *; lia). unfold vec in *. rewrite Y, X. apply nth_padded.
  - assert (H : forall x, In x (concat (map (pad_sym phys n) W)) -> Rabs x <= maxabs (concat W)). { intros x I. apply in_concat in I. destruct I as (r & Ir & Ix). apply in_map_iff in Ir. destruct Ir as (w & <- & Iw). rewrite P in Ix by (rewrite Forall_forall in F; now apply F). rewrite !in_app_iff in Ix. destruct Ix as [Ix|[Ix|Ix]]; [apply repeat_spec in Ix; subst; rewrite Rabs_R0; apply maxabs_nonneg | apply maxabs_ub, in_concat; now exists w | apply repeat_spec in Ix; subst; rewrite Rabs_R0; apply maxabs_nonneg]. }
    destruct (concat (map (pad_sym phys n) W)) as [|x0 l0] eqn:E; [apply maxabs_nonneg|]. destruct (maxabs_attained (x0 :: l0)) as (x & Ix & Ex); [discriminate|]. rewrite <- Ex. apply H. exact Ix.
Qed.

(** ** C161 *)
(** With IR drop (evaluation) and inputs on the grid of the time steps, each output is a sum of the products of weight
    and pulse length, each one attenuated by a factor of at most one, plus an offset.  Factors and offset do
    not depend on the inputs, the factors not on the number of time steps; the factors are larger the nearer a row is to the ADC, which is at the end for
    even outputs and at the start for odd ones.  Without wire resistance the factors are 1.  If the read
    voltage is the 0.4 V of the idle inputs, the offset is within a tiny bound of zero; for another one and a
    minimal conductance of zero, the difference of the voltages times the absolute weights is added. *)
Theorem C161_attenuated p c W d n r :
  o_drop p <> 0 -> 0 <= o_drop p * o_rs p -> o_adc p = false -> get_res p = Ok r ->
  fits p n -> Nat.even d = true -> is_mat d n W -> 0 <= sp_gmin c < sp_gmax c ->
  exists (al : nat -> nat -> R) (off : nat -> nat -> R),
  (forall j i, (j < d)%nat -> (i < n)%nat -> 0 < al j i <= 1) /\
  (forall j i i', (j < d)%nat -> (i <= i' < n)%nat -> if Nat.even j then al j i <= al j i' else al j i' <= al j i) /\
  (o_drop p * o_rs p = 0 -> forall j i, (j < d)%nat -> (i < n)%nat -> al j i = 1) /\
  (o_vread p = 4 / 10 -> forall U j, (2 <= U)%nat -> (j < d)%nat -> - (2 * reg_eps * INR U * INR (o_phys p) * Rmax (maxabs (concat W)) zero_clip / (sp_gmax c - sp_gmin c)) <= off U j <= 0) /\
  (sp_gmin c = 0 -> 0 <= o_vread p -> forall U j, (2 <= U)%nat -> (j < d)%nat ->
    let e := off U j + 5 * INR U * (o_vread p - 4 / 10) * isum n (fun i => al j i * Rabs (ent W j i)) in
    - (5 * o_vread p * reg_eps * INR U * INR (o_phys p) * Rmax (maxabs (concat W)) zero_clip / sp_gmax c) <= e <= 0) /\
  forall U tmax z, (2 <= U)%nat -> 0 < tmax -> length z = n -> within_steps U z -> exists y,
    matmul_ir p (sp_pairs c) (o_drop p) U tmax W (grid_input U tmax z) = Ok y /\ length y = d /\
    forall j, (j < d)%nat -> nth j y 0 = (isum n (fun i => al j i * ent W j i * pulses (o_isum p) (nth i z 0%Z)) + off U j) / (o_bound p / r / 2).
Proof.
  intros Nd Rs NA Er Fi Ev M G. pose proof Fi as (F1 & F2 & F3 & F4). destruct (pad_mat (o_phys p) n d W F1 M) as (k1 & k2 & K & P & C & MP & EP & MX). specialize (C p eq_refl Fi). set (N := (k1 + (n + k2))%nat) in *. set (WP := map (pad_sym (o_phys p) n) W) in *.
  set (ratio := (sp_gmax c - sp_gmin c) / Rmax (maxabs (concat WP)) zero_clip).
  set (gp := map (map (fun v => clampR 0 (sp_gmax c) (v * ratio) + sp_gmin c)) WP). set (gm := map (map (fun v => clampR 0 (sp_gmax c) (- (v * ratio)) + sp_gmin c)) WP).
  assert (ES : sp_pairs c WP = ([(1, (gp, gm))], ratio)) by reflexivity.
  destruct (sp_represents c d N WP G MP) as (Pr & Fo & Re). rewrite ES in Pr, Fo, Re. cbn [fst snd] in Pr, Fo, Re. inversion Fo as [|? ? Fq _]; subst. destruct Fq as (_ & [Dp1 Dp2] & [Dm1 Dm2] & Np & Nm).
  assert (Gp : Forall (fun r => length r = N /\ Forall (fun g => 0 <= g) r) gp) by (rewrite Forall_forall in *; intros q I; split; [now apply Dp2 | now apply Np]). assert (Gm : Forall (fun r => length r = N /\ Forall (fun g => 0 <= g) r) gm) by (rewrite Forall_forall in *; intros q I; split; [now apply Dm2 | now apply Nm]).
  destruct (pair_linear p gp gm d N Rs NA C Ev Dp1 Dm1 Gp Gm) as (al & a & A1 & A2 & A3 & A4 & A5).
  set (o1 := fun (U : nat) j => INR U * ((4 / 10 - o_vread p) * isum N (fun i => al j i * (ent gp j i + ent gm j i)) - reg_eps * o_vread p * a j)).
  assert (TINY : forall U j, (2 <= U)%nat -> (j < d)%nat -> 0 < INR U * reg_eps * a j * / ratio <= INR U * reg_eps * INR (o_phys p) * (Rmax (maxabs (concat W)) zero_clip / (sp_gmax c - sp_gmin c))).
  { intros U j LU Lj. destruct (A3 j Lj) as [B1 B2]. pose proof reg_eps_pos as Re0. assert (PU : 0 < INR U) by (apply lt_0_INR; lia). assert (Q : 0 < INR U * reg_eps) by (apply Rmult_lt_0_compat; lra).
    assert (K1 : 0 < INR U * reg_eps * a j <= INR U * reg_eps * INR (o_phys p)). { split; [apply Rmult_lt_0_compat; lra|]. apply Rmult_le_compat_l; [lra|]. apply Rle_trans with (INR N); [exact B2|]. apply le_INR. exact K. }
    set (mw := Rmax (maxabs (concat W)) zero_clip). assert (Pw : 0 < mw) by (unfold mw; pose proof zero_clip_pos; mm). assert (Ri : / ratio <= mw / (sp_gmax c - sp_gmin c)). { unfold ratio. set (mp := Rmax (maxabs (concat WP)) zero_clip). assert (Pp : 0 < mp) by (unfold mp; pose proof zero_clip_pos; mm). replace (/ ((sp_gmax c - sp_gmin c) / mp)) with (mp / (sp_gmax c - sp_gmin c)) by (field; lra). unfold mp, Rdiv. apply Rmult_le_compat_r; [left; apply Rinv_0_lt_compat; lra|]. unfold mw. mm. }
    assert (Pi : 0 < / ratio) by (apply Rinv_0_lt_compat; exact Pr). split; [apply Rmult_lt_0_compat; lra | apply Rmult_le_compat; lra]. }
  exists (fun j i => al j (k1 + i)%nat), (fun U j => o1 U j / ratio / (2 / 10)). split; [intros j i Lj Li; apply A1; unfold N; lia|]. split; [intros j i i' Lj Li; apply A2; unfold N; lia|]. split; [intros E j i Lj Li; apply A4; unfold N; auto; lia|]. split.
  - intros Ev4 U j LU Lj. assert (O1 : o1 U j = - (4 / 10 * (INR U * reg_eps * a j))) by (unfold o1; rewrite Ev4; lra). destruct (TINY U j LU Lj) as [T1 T2]. set (q := INR U * reg_eps * a j * / ratio) in *. replace (o1 U j / ratio / (2 / 10)) with (- (2 * q)) by (rewrite O1; unfold q; field; lra).
    replace (2 * reg_eps * INR U * INR (o_phys p) * Rmax (maxabs (concat W)) zero_clip / (sp_gmax c - sp_gmin c)) with (2 * (INR U * reg_eps * INR (o_phys p) * (Rmax (maxabs (concat W)) zero_clip / (sp_gmax c - sp_gmin c)))) by (field; lra). lra.
  - split.
    { intros G0 Vr U j LU Lj. destruct (TINY U j LU Lj) as [T1 T2]. set (q := INR U * reg_eps * a j * / ratio) in *.
      assert (SA : isum N (fun i => al j i * (ent gp j i + ent gm j i)) = ratio * isum n (fun i => al j (k1 + i)%nat * Rabs (ent W j i))).
      { rewrite (isum_ext N (fun i => al j i * (ent gp j i + ent gm j i)) (fun i => al j i * (ratio * Rabs (nth i (nth j WP []) 0)))).
        - assert (LW : length (nth j W []) = n) by (apply (mat_row d n); assumption). assert (EW : nth j WP [] = repeat 0 k1 ++ nth j W [] ++ repeat 0 k2). { unfold WP. assert (Y : nth j (map (pad_sym (o_phys p) n) W) [] = nth j (map (pad_sym (o_phys p) n) W) (pad_sym (o_phys p) n [])) by (apply nth_indep; rewrite map_length; destruct M; unfold vec in *; lia). etransitivity; [exact Y|]. etransitivity; [apply (map_nth (pad_sym (o_phys p) n) W [] j) | exact (P _ LW)]. } rewrite EW. unfold N. rewrite (isum_padded k1 k2 (nth j W []) n (al j) (fun v => ratio * Rabs v)) by (try exact LW; rewrite Rabs_R0; ring). rewrite <- isum_scale. apply isum_ext. intros i Li. unfold ent. ring.
        - intros i Li. f_equal. unfold gp, gm. rewrite !(ent_map2 _ WP j i d N MP Lj Li). fold (ent WP j i). specialize (Re j i Lj Li). unfold gp, gm in Re. cbn in Re. rewrite !(ent_map2 _ WP j i d N MP Lj Li) in Re. set (v := ent WP j i) in *. rewrite G0 in *. pose proof (clampR_range 0 (sp_gmax c) (v * ratio) ltac:(lra)) as C1. pose proof (clampR_range 0 (sp_gmax c) (- (v * ratio)) ltac:(lra)) as C2. change (nth i (nth j WP []) 0) with v. replace (ratio * Rabs v) with (Rabs (v * ratio)) by (rewrite Rabs_mult, (Rabs_right ratio) by lra; ring). destruct (Rle_or_lt 0 (v * ratio)) as [H|H].
          + rewrite Rabs_right by lra. assert (Z : clampR 0 (sp_gmax c) (- (v * ratio)) = 0) by (unfold clampR; mm). lra.
          + rewrite Rabs_left by lra. assert (Z : clampR 0 (sp_gmax c) (v * ratio) = 0) by (unfold clampR; mm). lra. }
      cbv zeta. set (sa := isum n _) in *. replace (o1 U j / ratio / (2 / 10) + 5 * INR U * (o_vread p - 4 / 10) * sa) with (- (5 * o_vread p * q)) by (unfold o1; rewrite SA; unfold q; field; lra).
      replace (5 * o_vread p * reg_eps * INR U * INR (o_phys p) * Rmax (maxabs (concat W)) zero_clip / sp_gmax c) with (5 * o_vread p * (INR U * reg_eps * INR (o_phys p) * (Rmax (maxabs (concat W)) zero_clip / (sp_gmax c - sp_gmin c)))) by (rewrite G0; field; lra).
      assert (0 <= 5 * o_vread p * q) by (apply Rmult_le_pos; lra). assert (5 * o_vread p * q <= 5 * o_vread p * (INR U * reg_eps * INR (o_phys p) * (Rmax (maxabs (concat W)) zero_clip / (sp_gmax c - sp_gmin c)))) by (apply Rmult_le_compat_l; lra). lra. }
    intros U tmax z LU T Lz Wz. assert (Lg : length (grid_input U tmax z) = n) by (unfold grid_input; now rewrite map_length). destruct (A5 U tmax (pad_sym (o_phys p) n (grid_input U tmax z))) as (y & E1 & L1 & V1); [exact LU | exact T | |]. { rewrite (P _ Lg), !app_length, !repeat_length. unfold vec in *. fold N. unfold N. lia. }
    unfold matmul_ir. rewrite Er. cbn [bind]. replace (Reqb (o_drop p) 0) with false by (symmetry; apply Reqb_false; exact Nd). replace (o_segs p =? 0)%nat with false by (symmetry; apply Nat.eqb_neq; lia). rewrite F3, Nat.eqb_refl. cbn [negb]. unfold vec in *. rewrite Lg. fold WP. rewrite ES. cbn [mvm_pairs]. rewrite E1. cbn [bind]. eexists. split; [reflexivity|].
    assert (Lm : length (map2 (fun a0 b => a0 + 1 * b) (map (fun _ : list R => 0) W) y) = d) by (rewrite map2_length, map_length; destruct M; unfold vec in *; lia). split; [rewrite map_length; exact Lm|]. intros j Lj.
    set (h := fun v => v / _ / (2 / 10) / (o_bound p / r / 2)). rewrite (nth_indep (map h _) 0 (h 0)) by (rewrite map_length; unfold vec in *; lia). rewrite map_nth. rewrite (nth_map2' (fun a0 b => a0 + 1 * b) _ y 0 0); [|rewrite map_length; destruct M; unfold vec in *; lia | unfold vec in *; lia]. rewrite V1 by exact Lj. fold (o1 U j).
    replace (nth j (map (fun _ : list R => 0) W) 0) with 0 by (clear; revert j; induction W as [|w W IH]; intros [|j]; cbn; auto).
    rewrite (P _ Lg). unfold N at 1. rewrite (isum_padded k1 k2 (grid_input U tmax z) n (fun i => al j i * (ent gp j i - ent gm j i)) (total_pulse (o_isum p) U tmax)) by (try exact Lg; apply total_zero; assumption).
    assert (S : isum n (fun i => al j (k1 + i)%nat * (ent gp j (k1 + i) - ent gm j (k1 + i)) * total_pulse (o_isum p) U tmax (nth i (grid_input U tmax z) 0)) = isum n (fun i => ratio * (al j (k1 + i)%nat * ent W j i * pulses (o_isum p) (nth i z 0%Z)))). { apply isum_ext. intros i Li. rewrite grid_total by assumption. specialize (Re j (k1 + i)%nat Lj ltac:(unfold N; lia)). cbn in Re. rewrite Rplus_0_r, Rmult_1_l in Re. rewrite Re. unfold WP. rewrite EP by exact Lj. ring. }
    rewrite S, isum_scale. unfold h. apply (f_equal (fun q => q / (o_bound p / r / 2))). field. lra.
Qed.

Print Assumptions C161_attenuated.
