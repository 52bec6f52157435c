(** * The weight programming optimizer: losses, life, sample of the weights (C178, C179) *)
From Verif Require Import Prelude ConvModel WpoModel.

(** ** C178: the loss *)
(** time-averaged mean squared error, as an explicit double sum *)
Lemma sumR_nonneg (l : list R) : Forall (fun v => 0 <= v) l -> 0 <= sumR l.
Proof. induction 1; cbn [sumR]; lra. Qed.
Lemma sumR_zero (l : list R) : Forall (fun v => 0 <= v) l -> sumR l = 0 -> Forall (fun v => v = 0) l.
Proof. induction 1 as [|v l Hv F IH]; intros S; [constructor|]. cbn [sumR] in S. pose proof (sumR_nonneg l F). constructor; [lra | apply IH; lra]. Qed.
Lemma sumR_le_const (l : list R) b : Forall (fun v => v <= b) l -> sumR l <= INR (length l) * b.
Proof. induction 1 as [|v l Hv F IH]; [cbn; lra|]. cbn [sumR length]. rewrite S_INR. lra. Qed.
Lemma map2_Forall {A B C} (P : C -> Prop) (f : A -> B -> C) : (forall a b, P (f a b)) -> forall l k, Forall P (map2 f l k).
Proof. intros H. induction l as [|a l IH]; intros [|b k]; cbn [map2]; constructor; auto. Qed.
Definition terr (w : list R) (maxw : R) (eff : list R) : R := sumR (map2 (fun a b => (10 * (a - b) / maxw) ^ 2) eff w).
Lemma terr_nonneg w maxw eff : 0 <= terr w maxw eff.
Proof. apply sumR_nonneg, map2_Forall. intros a b. apply pow2_ge_0. Qed.
Lemma terr_zero maxw : maxw <> 0 -> forall w eff, length eff = length w -> terr w maxw eff = 0 -> eff = w.
Proof.
  intros Hm. unfold terr. induction w as [|b w IH]; intros [|a eff] L S; try discriminate L; [reflexivity|]. cbn [map2 sumR] in S. pose proof (pow2_ge_0 (10 * (a - b) / maxw)). pose proof (terr_nonneg w maxw eff) as T. unfold terr in T. f_equal; [|apply IH; [now injection L | lra]]. assert (Z : (10 * (a - b) / maxw) ^ 2 = 0) by lra. apply Rsqr_0_uniq_aux in Z || idtac. destruct (Req_dec (10 * (a - b) / maxw) 0) as [E|E]; [|exfalso; apply (pow_nonzero _ 2 E Z)]. assert (10 * (a - b) = 0) by (replace (10 * (a - b)) with (10 * (a - b) / maxw * maxw) by (field; exact Hm); rewrite E; ring). lra.
Qed.

Theorem C178_loss w maxw effs : maxw <> 0 -> w <> [] -> effs <> [] -> Forall (fun e => length e = length w) effs ->
  0 <= tnmse w maxw effs /\
  (tnmse w maxw effs = 0 <-> Forall (fun e => e = w) effs) /\
  (forall eps, Forall (Forall2 (fun v e => Rabs (e - v) <= eps * Rabs maxw) w) effs -> tnmse w maxw effs <= 100 * eps ^ 2) /\
  (forall c, c <> 0 -> tnmse (map (Rmult c) w) (c * maxw) (map (map (Rmult c)) effs) = tnmse w maxw effs).
Proof.
  intros Hm Nw Ne Le. assert (Pw : 0 < INR (length w)) by (apply lt_0_INR; destruct w; [contradiction | cbn; lia]). assert (Pe : 0 < INR (length effs)) by (apply lt_0_INR; destruct effs; [contradiction | cbn; lia]).
  set (D := INR (length w) * INR (length effs)). assert (PD : 0 < D) by (now apply Rmult_lt_0_compat).
  assert (Fn : Forall (fun v => 0 <= v) (map (terr w maxw) effs)) by (apply Forall_map, Forall_forall; intros; apply terr_nonneg).
  change (tnmse w maxw effs) with (sumR (map (terr w maxw) effs) / D).
  split; [|split; [|split]].
  - apply Rmult_le_pos; [now apply sumR_nonneg | left; now apply Rinv_0_lt_compat].
  - split; intros H.
    + assert (S0 : sumR (map (terr w maxw) effs) = 0) by (replace (sumR (map (terr w maxw) effs)) with (sumR (map (terr w maxw) effs) / D * D) by (field; lra); rewrite H; ring). apply (sumR_zero _ Fn) in S0. rewrite Forall_map in S0. rewrite Forall_forall in *. intros e He. apply (terr_zero maxw Hm); auto.
    + assert (S0 : sumR (map (terr w maxw) effs) = 0). { clear -H. induction H as [|e l -> H IH]; [reflexivity|]. cbn [map sumR]. rewrite IH. assert (T : terr w maxw w = 0). { unfold terr. clear. induction w as [|a w IH]; [reflexivity|]. cbn [map2 sumR]. rewrite IH. unfold Rdiv. rewrite Rminus_diag_eq by reflexivity. ring. } rewrite T. ring. } rewrite S0. unfold Rdiv. ring.
  - intros eps H. assert (B : Forall (fun v => v <= INR (length w) * (100 * eps ^ 2)) (map (terr w maxw) effs)). { apply Forall_map. eapply Forall_impl; [|exact H]. cbv beta. intros e F. unfold terr. assert (L : length (map2 (fun a b => (10 * (a - b) / maxw) ^ 2) e w) = length w /\ Forall (fun v => v <= 100 * eps ^ 2) (map2 (fun a b => (10 * (a - b) / maxw) ^ 2) e w)). { clear -F Hm. induction F as [|b a w e Hab F IH]; [split; [reflexivity | constructor]|]. destruct IH as [I1 I2]. cbn [map2 length]. split; [now rewrite I1|]. constructor; [|exact I2]. assert (Q : Rabs ((a - b) / maxw) <= eps). { unfold Rdiv. rewrite Rabs_mult, Rabs_inv. apply (Rmult_le_reg_r (Rabs maxw)); [now apply Rabs_pos_lt|]. rewrite Rmult_assoc, Rinv_l by (now apply Rabs_no_R0). lra. } replace ((10 * (a - b) / maxw) ^ 2) with (100 * ((a - b) / maxw) ^ 2) by (field; exact Hm). apply Rmult_le_compat_l; [lra|]. rewrite <- (pow2_abs ((a - b) / maxw)). apply pow_incr. split; [apply Rabs_pos | exact Q]. } destruct L as [L1 L2]. rewrite <- L1. now apply sumR_le_const. }
    apply sumR_le_const in B. rewrite map_length in B. apply (Rmult_le_reg_r D); [exact PD|]. replace (sumR (map (terr w maxw) effs) / D * D) with (sumR (map (terr w maxw) effs)) by (field; lra). unfold D. lra.
  - intros c Hc. unfold tnmse. rewrite !map_length. fold D. f_equal. rewrite map_map. f_equal. apply map_ext. intros e. unfold terr. f_equal. revert e. clear -Hc Hm. induction w as [|b w IH]; intros [|a e]; cbn [map map2]; try reflexivity. rewrite IH. f_equal. field. split; assumption.
Qed.

(** the objective is negative exactly when the loss beats the baseline by the margin, and the reported loss is the loss
    of the objective *)
Theorem C178_objective b margin t : 0 < b ->
  (objective b margin t < 0 <-> t < (1 - margin) * b) /\ best_loss b margin (objective b margin t) = t.
Proof.
  intros Hb. unfold objective, best_loss. split; [|field; lra]. assert (E : (t - b) / b + margin = (t - (1 - margin) * b) / b) by (field; lra). rewrite E. split; intros H.
  - apply (Rmult_lt_compat_r b) in H; [|exact Hb]. replace ((t - (1 - margin) * b) / b * b) with (t - (1 - margin) * b) in H by (field; lra). lra.
  - apply (Rmult_lt_reg_r b); [exact Hb|]. replace ((t - (1 - margin) * b) / b * b) with (t - (1 - margin) * b) by (field; lra). lra.
Qed.

(** the converter that is reported with the baseline loss has no influence on it; what is measured is the converter of
    the configuration *)
Theorem C178_baseline {conv mapping : Type} (loss : nat -> conv -> mapping -> R) off (c : conv) (m : mapping) base base' fs iters l : (0 < iters)%nat -> (forall k, (k < iters)%nat -> loss k c (off m) = l) ->
  get_loss_baseline loss (z_new off c m base fs) iters = get_loss_baseline loss (z_new off c m base' fs) iters /\
  get_loss_baseline loss (z_new off c m base fs) iters = l.
Proof.
  intros Hi Hl. split; [reflexivity|]. unfold get_loss_baseline, z_new. cbn [z_conv z_map]. assert (S : sumR (map (fun k => loss k c (off m)) (seq 0 iters)) = INR iters * l). { assert (X : forall n s, (s + n <= iters)%nat -> sumR (map (fun k => loss k c (off m)) (seq s n)) = INR n * l). { induction n as [|n IH]; intros s H; [cbn; lra|]. cbn [seq map sumR]. rewrite IH by lia. rewrite Hl by lia. rewrite S_INR. lra. } apply X. lia. } rewrite S. field. apply not_0_INR. lia.
Qed.
(** after a run the configuration has the mapping that the user gave, the found converter, and the found factors are
    given from then on *)
Theorem C178_run {conv mapping : Type} (loss : nat -> conv -> mapping -> R) off (c : conv) (m : mapping) base fs iters margin best z' fl : run_optimizer loss (z_new off c m base fs) iters margin best = (z', fl) ->
  let '(c', fs', v) := best (z_new off c m base fs) (z_baseline z') in
  z_map z' = m /\ z_conv z' = c' /\ z_factors z' = map Some fs' /\ (v < 0 -> truthy fl = true) /\
  (forall t, 0 < z_baseline z' -> v = objective (z_baseline z') margin t -> z_best z' = t).
Proof.
  unfold run_optimizer. set (b := get_loss_baseline loss _ iters). destruct (best (z_new off c m base fs) b) as [[c' fs'] v] eqn:E. intros H. injection H as <- <-. cbn [z_map z_saved z_new z_baseline z_conv z_factors z_best]. rewrite E. split; [reflexivity|]. split; [reflexivity|]. split; [reflexivity|]. split.
  - intros Hv. unfold success_flag. now rewrite (proj2 (Rltb_true v 0) Hv).
  - intros t Hb ->. now apply C178_objective.
Qed.
(** refuted: the baseline loss is not that of the baseline converter *)
Theorem C178_baseline_refuted : ~ (forall (loss : nat -> bool -> unit -> R) c m base iters, (0 < iters)%nat -> get_loss_baseline loss (z_new (fun m => m) c m base []) iters = sumR (map (fun k => loss k base m) (seq 0 iters)) / INR iters).
Proof. intros H. specialize (H (fun _ c _ => if c then 1 else 0) true tt false 1%nat ltac:(lia)). unfold get_loss_baseline, z_new in H. cbn in H. lra. Qed.
(** refuted: an unsuccessful search reports success, unless its objective is exactly 0 *)
Theorem C178_flag_refuted : ~ (forall v, truthy (success_flag v) = true -> v < 0) /\ (forall v, truthy (success_flag v) = true <-> v <> 0).
Proof.
  assert (T : forall v, truthy (success_flag v) = true <-> v <> 0). { intros v. unfold success_flag. destruct (Rltb v 0) eqn:E; cbn [truthy]; [apply Rltb_true in E; split; [lra | reflexivity]|]. destruct (Reqb v 0) eqn:E2; cbn [negb]; [apply Reqb_true in E2; split; [discriminate | contradiction]|apply Reqb_false in E2; split; [intros _; exact E2 | reflexivity]]. }
  split; [|exact T]. intros H. specialize (H 1 (proj2 (T 1) ltac:(lra))). lra.
Qed.
(** refuted: a second run does not repeat the first one: output scales are on, and factors that were to be optimized are
    fixed *)
Theorem C178_again_refuted : ~ (forall (loss : nat -> unit -> bool -> R) off c m base fs iters margin best z' fl, run_optimizer loss (z_new off c m base fs) iters margin best = (z', fl) ->
  (z_map z' = off m \/ z_factors z' = fs)).
Proof. intros H. destruct (H (fun _ _ _ => 0) (fun _ => false) tt true tt [None] 1%nat 0 (fun _ _ => (tt, [1], 0)) _ _ eq_refl) as [X|X]; cbn in X; discriminate X. Qed.
Theorem C178_nontrivial : tnmse [1; -1] 1 [[1; -1]; [1; - (1 / 2)]] = 25 / 4 /\ objective 8 (1 / 8) (25 / 4) < 0.
Proof. unfold tnmse, objective. cbn [map map2 sumR length INR]. split; [field | lra]. Qed.

(** ** C179: the sample of the weights *)
Definition sorted (s : list R) : Prop := forall i j, (i <= j < length s)%nat -> nth i s 0 <= nth j s 0.
Definition itp (s : list R) (pos : R) : R :=
  let i0 := Z.to_nat (floorZ pos) in
  (1 - (pos - INR i0)) * nth i0 s 0 + (pos - INR i0) * nth (if (i0 <? length s - 1)%nat then Datatypes.S i0 else i0) s 0.
Lemma floor_nat pos : 0 <= pos -> INR (Z.to_nat (floorZ pos)) <= pos < INR (Z.to_nat (floorZ pos)) + 1.
Proof. intros H. pose proof (floorZ_spec pos) as F. assert (0 <= floorZ pos)%Z. { pose proof (floorZ_mono 0 pos H) as M. replace (floorZ 0) with 0%Z in M by (symmetry; apply (floorZ_IZR 0)). exact M. } rewrite INR_IZR_INZ, Z2Nat.id by assumption. exact F. Qed.
Lemma floor_nat_lt pos n : 0 <= pos <= INR n -> (Z.to_nat (floorZ pos) <= n)%nat.
Proof. intros H. pose proof (floor_nat pos ltac:(lra)). apply INR_le. lra. Qed.
Lemma itp_between s pos i0 i1 : sorted s -> s <> [] -> 0 <= pos <= INR (length s - 1) -> i0 = Z.to_nat (floorZ pos) -> i1 = (if (i0 <? length s - 1)%nat then Datatypes.S i0 else i0) -> nth i0 s 0 <= itp s pos <= nth i1 s 0.
Proof.
  intros Ss Ns Hp -> ->. set (i0 := Z.to_nat (floorZ pos)). unfold itp. fold i0. pose proof (floor_nat pos ltac:(lra)) as F. fold i0 in F. pose proof (floor_nat_lt pos (length s - 1) Hp) as L. fold i0 in L. assert (Ls : (0 < length s)%nat) by (destruct s; [contradiction | cbn; lia]). set (i1 := if (i0 <? length s - 1)%nat then Datatypes.S i0 else i0). assert (Hs : nth i0 s 0 <= nth i1 s 0). { apply Ss. unfold i1. destruct (Nat.ltb_spec i0 (length s - 1)); lia. }
  set (a := nth i0 s 0) in *. set (b := nth i1 s 0) in *. set (l := pos - INR i0). assert (0 <= l < 1) by (unfold l; lra). assert (0 <= l * (b - a)) by (apply Rmult_le_pos; lra). assert (l * (b - a) <= 1 * (b - a)) by (apply Rmult_le_compat_r; lra). lra.
Qed.
Lemma itp_mono s p q : sorted s -> s <> [] -> 0 <= p <= q -> q <= INR (length s - 1) -> itp s p <= itp s q.
Proof.
  intros Ss Ns Hpq Hq. assert (Ls : (0 < length s)%nat) by (destruct s; [contradiction | cbn; lia]). pose proof (floorZ_mono p q ltac:(lra)) as M. set (i := Z.to_nat (floorZ p)). set (j := Z.to_nat (floorZ q)). assert (Hij : (i <= j)%nat) by (unfold i, j; lia). pose proof (floor_nat_lt q (length s - 1) ltac:(lra)) as Lj. fold j in Lj.
  destruct (Nat.eq_dec i j) as [E|N].
  - unfold itp. fold i j. rewrite <- E. set (i1 := if (i <? length s - 1)%nat then Datatypes.S i else i). assert (Hs : nth i s 0 <= nth i1 s 0) by (apply Ss; unfold i1; destruct (Nat.ltb_spec i (length s - 1)); lia). assert (0 <= (q - p) * (nth i1 s 0 - nth i s 0)) by (apply Rmult_le_pos; lra). lra.
  - apply Rle_trans with (nth (Datatypes.S i) s 0).
    + eapply itp_between; [exact Ss | exact Ns | lra | reflexivity |]. fold i. destruct (Nat.ltb_spec i (length s - 1)); [reflexivity | lia].
    + apply Rle_trans with (nth j s 0); [apply Ss; lia|]. eapply itp_between; [exact Ss | exact Ns | lra | reflexivity | reflexivity].
Qed.
Lemma itp_nat s k : s <> [] -> itp s (INR k) = nth k s 0.
Proof. intros Ns. unfold itp. replace (floorZ (INR k)) with (Z.of_nat k) by (symmetry; rewrite INR_IZR_INZ; apply floorZ_IZR). rewrite Nat2Z.id. ring. Qed.
Lemma resample_itp s n k : n <> 1%nat -> resample_at s n k = itp s (INR k * (INR (length s - 1) / INR (n - 1))).
Proof. intros H. unfold resample_at. destruct (Nat.eqb_spec n 1); [contradiction | reflexivity]. Qed.

(** C179: weights that are sampled from sorted ones ascend, between the smallest and the largest weight, which are the
    first and the last of them; a sample of the same size is the weights themselves. *)
Theorem C179_sample s n : sorted s -> s <> [] -> (1 < n)%nat ->
  length (resample s n) = n /\ sorted (resample s n) /\ nth 0 (resample s n) 0 = nth 0 s 0 /\ nth (n - 1) (resample s n) 0 = nth (length s - 1) s 0 /\
  Forall (fun v => nth 0 s 0 <= v <= nth (length s - 1) s 0) (resample s n) /\ (n = length s -> resample s n = s).
Proof.
  intros Ss Ns Hn. assert (Ls : (0 < length s)%nat) by (destruct s; [contradiction | cbn; lia]). assert (Ln : length (resample s n) = n) by (unfold resample; now rewrite map_length, seq_length).
  assert (Nt : forall k, (k < n)%nat -> nth k (resample s n) 0 = itp s (INR k * (INR (length s - 1) / INR (n - 1)))). { intros k Hk. unfold resample. rewrite (nth_indep _ 0 (resample_at s n 0)) by (rewrite map_length, seq_length; exact Hk). rewrite (map_nth (resample_at s n)), seq_nth by exact Hk. apply resample_itp. lia. }
  assert (Pn : 0 < INR (n - 1)) by (apply lt_0_INR; lia). assert (P0 : 0 <= INR (length s - 1)) by apply pos_INR. set (q := INR (length s - 1) / INR (n - 1)) in *. assert (Hq : 0 <= q) by (apply Rmult_le_pos; [exact P0 | left; now apply Rinv_0_lt_compat]). assert (Eq : INR (n - 1) * q = INR (length s - 1)) by (unfold q; field; lra).
  assert (So : sorted (resample s n)). { intros i j Hij. rewrite Ln in Hij. rewrite !Nt by lia. apply itp_mono; auto; [split; [apply Rmult_le_pos; [apply pos_INR | exact Hq]|apply Rmult_le_compat_r; [exact Hq | apply le_INR; lia]]|]. rewrite <- Eq. apply Rmult_le_compat_r; [exact Hq | apply le_INR; lia]. }
  assert (F0 : nth 0 (resample s n) 0 = nth 0 s 0) by (rewrite Nt by lia; change (INR 0) with 0; rewrite Rmult_0_l; apply (itp_nat s 0 Ns)).
  assert (Fl : nth (n - 1) (resample s n) 0 = nth (length s - 1) s 0) by (rewrite Nt by lia; rewrite Eq; now apply itp_nat).
  split; [exact Ln|]. split; [exact So|]. split; [exact F0|]. split; [exact Fl|]. split.
  - apply Forall_forall. intros v Hv. apply (In_nth _ _ 0) in Hv. destruct Hv as (k & Hk & <-). rewrite <- F0, <- Fl. split; apply So; lia.
  - intros ->. apply (nth_ext _ _ 0 0); [exact Ln|]. intros k Hk. rewrite Ln in Hk. rewrite Nt by exact Hk. assert (q = 1) by (unfold q; field; lra). rewrite H, Rmult_1_r. now apply itp_nat.
Qed.
Lemma maxabs_sorted s : sorted s -> s <> [] -> maxabs s = Rmax (Rabs (nth 0 s 0)) (Rabs (nth (length s - 1) s 0)).
Proof.
  intros Ss Ns. assert (Ls : (0 < length s)%nat) by (destruct s; [contradiction | cbn; lia]). apply Rle_antisym.
  - destruct (maxabs_attained s Ns) as (v & Hv & <-). apply (In_nth _ _ 0) in Hv. destruct Hv as (k & Hk & <-). pose proof (Ss 0%nat k ltac:(lia)). pose proof (Ss k (length s - 1)%nat ltac:(lia)). unfold Rmax, Rabs. repeat (destruct (Rcase_abs _) || destruct (Rle_dec _ _)); lra.
  - apply Rmax_lub; apply maxabs_ub; apply nth_In; lia.
Qed.
(** hence the weight range, from which the grid of the strategy is made, is that of the given weights *)
Theorem C179_range s n : sorted s -> s <> [] -> (1 < n)%nat -> maxabs (resample s n) = maxabs s.
Proof.
  intros Ss Ns Hn. destruct (C179_sample s n Ss Ns Hn) as (L & So & F0 & Fl & _). rewrite !maxabs_sorted; auto; [|intros E; rewrite E in L; cbn in L; lia]. rewrite L, F0, Fl. reflexivity.
Qed.
(** refuted for one weight: the smallest is taken, and the range is lost *)
Theorem C179_one_refuted : ~ (forall s n, sorted s -> s <> [] -> (0 < n)%nat -> maxabs (resample s n) = maxabs s).
Proof.
  intros H. assert (S : sorted [0; 1]) by (intros [|[|i]] [|[|j]] Hij; cbn in *; try lia; lra). specialize (H [0; 1] 1%nat S ltac:(discriminate) ltac:(lia)). cbn in H. rewrite Rabs_R0, Rabs_R1 in H. revert H. unfold Rmax. repeat destruct (Rle_dec _ _); lra.
Qed.
Theorem C179_nontrivial : sorted [-1; 0; 3] /\ resample [-1; 0; 3] 5 = [-1; - (1 / 2); 0; 3 / 2; 3].
Proof.
  split; [intros [|[|[|i]]] [|[|[|j]]] Hij; cbn in *; try lia; lra|]. unfold resample. cbn [seq map]. rewrite !resample_itp by lia. cbn [length Nat.sub]. assert (I2 : INR 2 = 2) by (cbn; lra). assert (I4 : INR 4 = 4) by (cbn; lra). assert (I3 : INR 3 = 3) by (cbn; lra). rewrite I4, I3, I2.
  assert (Fl : forall p z, IZR z <= p < IZR z + 1 -> Z.to_nat (floorZ p) = Z.to_nat z) by (intros p z Hp; now rewrite (floorZ_unique p z Hp)).
  unfold itp. replace (INR 0) with 0 by reflexivity. replace (INR 1) with 1 by reflexivity. rewrite (Fl (0 * (2 / 4)) 0%Z), (Fl (1 * (2 / 4)) 0%Z), (Fl (2 * (2 / 4)) 1%Z), (Fl (3 * (2 / 4)) 1%Z), (Fl (4 * (2 / 4)) 2%Z) by lra. change (Z.to_nat 0) with 0%nat; change (Z.to_nat 1) with 1%nat; change (Z.to_nat 2) with 2%nat. cbn [length Nat.sub Nat.ltb Nat.leb nth INR]. repeat (apply f_equal2; [lra|]). reflexivity.
Qed.
Print Assumptions C178_loss.
Print Assumptions C178_objective.
Print Assumptions C178_baseline.
Print Assumptions C178_baseline_refuted.
Print Assumptions C178_run.
Print Assumptions C178_flag_refuted.
Print Assumptions C178_again_refuted.
Print Assumptions C179_sample.
Print Assumptions C179_range.
Print Assumptions C179_one_refuted.

Print Assumptions C178_nontrivial.
Print Assumptions C179_nontrivial.
