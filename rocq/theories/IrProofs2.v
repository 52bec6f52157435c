(** * IR drop: columns *)
From Verif Require Import Prelude MvmModel ConvModel IrModel IrSpec IrProofs.
Local Open Scope R_scope.

Definition gnode (tau : R) (g : list cell) : node := concat (map (devices tau) g) ++ leak.
(** rows of one node of the simulated circuit *)
Definition per_node (p : irp) : nat := if o_ext p then 1%nat else (o_phys p / o_segs p)%nat.
(** columns of [n] cells can be computed *)
Definition col_ok (p : irp) (n : nat) : Prop :=
  (0 < n)%nat /\ (0 < o_segs p)%nat /\ (o_phys p / o_segs p * o_segs p = o_phys p)%nat /\ (o_ext p = false -> n = o_phys p).
Lemma chunks_map {A B} (f : A -> B) m : forall fuel l, chunks fuel m (map f l) = map (map f) (chunks fuel m l).
Proof. induction fuel as [|n IH]; intros l; [reflexivity|]. destruct l as [|a l]; [reflexivity|]. cbn [chunks]. set (l0 := a :: l). change (match map f l0 with [] => [] | _ :: _ => firstn m (map f l0) :: chunks n m (skipn m (map f l0)) end = map (map f) (firstn m l0 :: chunks n m (skipn m l0))). cbn [map l0]. fold l0. change (f a :: map f l) with (map f l0). now rewrite firstn_map, skipn_map, IH. Qed.
Lemma chunks_one {A} : forall (l : list A) fuel, (length l <= fuel)%nat -> chunks fuel 1 l = map (fun a => [a]) l.
Proof. induction l as [|a l IH]; intros [|f] L; cbn [length] in L; try lia; try reflexivity. cbn [chunks map]. cbn [firstn skipn]. f_equal. apply IH. lia. Qed.
Lemma micro_pos : 0 < micro.
Proof. unfold micro. apply Rdiv_lt_0_compat; [lra | apply pow_lt; lra]. Qed.
Lemma col_groups p n : col_ok p n -> exists segs, n = (per_node p * segs)%nat /\ (0 < per_node p)%nat /\ (0 < segs)%nat.
Proof.
  intros (P & S & D & E). unfold per_node. destruct (o_ext p); [exists n; lia|]. specialize (E eq_refl). exists (o_segs p). assert (0 < o_phys p / o_segs p)%nat by (destruct (o_phys p / o_segs p)%nat; lia). repeat split; try lia.
Qed.
Lemma thev_groups p U tmax rs cells t : col_ok p (length cells) -> (2 <= U)%nat -> 0 < tmax ->
  thev p U tmax rs cells t = Ok (ladder (micro * rs * INR (per_node p)) (map thv (map (gnode (step_time tmax U t)) (chunks (length cells) (per_node p) cells)))).
Proof.
  intros (P & S & D & E) LU T. unfold thev, per_node. replace (o_segs p =? 0)%nat with false by (symmetry; apply Nat.eqb_neq; lia). rewrite (proj2 (Nat.eqb_eq _ _) D). cbn [negb]. destruct (o_ext p) eqn:X.
  - unfold thev_cpp. rewrite chunks_one by lia. rewrite !map_map. cbn [INR]. rewrite Rmult_1_r. f_equal. f_equal. apply map_ext. intros c. unfold gnode. cbn [map concat]. rewrite app_nil_r. now apply cpp_node_thv.
  - specialize (E eq_refl). set (m := (o_phys p / o_segs p)%nat) in *. assert (0 < m)%nat by (destruct m; lia). rewrite <- D at 1. rewrite thev_py_ok by lia. f_equal. f_equal. rewrite map_map. apply map_ext. intros g. unfold gnode. apply py_node_thv; [exact LU | lra].
Qed.
(** the sign of a pulse of a cell at time [t] *)
Definition pulse_at (t x : R) : R := if Rltb t (Rabs x) then (if Rltb 0 x then 1 else -1) else 0.
Lemma devices_inflow t c v : inflow (devices t c) v = 2 / 10 * (k_p c - k_m c) * pulse_at t (k_x c) + (k_p c + k_m c) * (4 / 10 - v).
Proof. unfold devices, pulse_at, inflow, sumR. destruct (Rltb t _); [destruct (Rltb 0 _)|]; cbn [map fold_right fst snd]; lra. Qed.
Lemma inflow_app a b v : inflow (a ++ b) v = inflow a v + inflow b v.
Proof. unfold inflow. rewrite map_app. apply sumR_app. Qed.
Lemma gnode_inflow t g v : inflow (gnode t g) v = sumR (map (fun c => 2 / 10 * (k_p c - k_m c) * pulse_at t (k_x c) + (k_p c + k_m c) * (4 / 10 - v)) g) - reg_eps * v.
Proof.
  unfold gnode. rewrite inflow_app. replace (inflow leak v) with (- (reg_eps * v)) by (unfold leak, inflow, sumR; cbn; ring). unfold Rminus at 1. f_equal. induction g as [|c g IH]; [reflexivity|]. cbn [map concat]. rewrite inflow_app, IH, sumR_cons, devices_inflow. reflexivity.
Qed.
Lemma gnode_conduct t g : conduct (gnode t g) = sumR (map gsum g) + reg_eps.
Proof.
  unfold gnode. rewrite conduct_app. replace (conduct leak) with reg_eps by (unfold leak, conduct, sumR; cbn; ring). f_equal. induction g as [|c g IH]; [reflexivity|]. cbn [map concat]. rewrite conduct_app, IH, sumR_cons. f_equal. unfold devices, conduct, gsum, sumR. destruct (Rltb t _); [destruct (Rltb 0 _)|]; cbn; lra.
Qed.
(** the factors of the cells from those of the nodes *)
Definition spread (k : nat) (al : list R) : list R := concat (map (fun a => repeat a k) al).
Lemma spread_length k al : length (spread k al) = (k * length al)%nat.
Proof. unfold spread. induction al as [|a al IH]; cbn [map concat length]; [lia|]. rewrite app_length, repeat_length, IH. lia. Qed.
Lemma wsum_repeat a l : wsum (repeat a (length l)) l = a * sumR l.
Proof. unfold wsum. induction l as [|x l IH]; cbn [length repeat map2]; [cbn; lra|]. rewrite !sumR_cons, IH. lra. Qed.
Lemma spread_wsum {A} k (f : A -> R) (e : R) : forall (gs : list (list A)) al, length al = length gs -> Forall (fun g => length g = k) gs ->
  wsum al (map (fun g => sumR (map f g) + e) gs) = wsum (spread k al) (map f (concat gs)) + e * sumR al.
Proof.
  induction gs as [|g gs IH]; intros [|a al] L F; cbn [length] in L; try lia; [unfold wsum; cbn; lra|]. inversion F as [|? ? Fg Fs]; subst. unfold spread. cbn [map concat]. rewrite map_app, wsum_app by (rewrite repeat_length, map_length; lia). replace (length g) with (length (map f g)) by apply map_length. rewrite wsum_repeat. change (concat (map (fun a0 => repeat a0 (length (map f g))) al)) with (spread (length (map f g)) al). rewrite map_length.
  unfold wsum at 1. cbn [map map2]. rewrite !sumR_cons. fold (wsum al (map (fun g0 => sumR (map f g0) + e) gs)). rewrite IH by (try lia; assumption). lra.
Qed.
Lemma nth_spread k : (0 < k)%nat -> forall al i, (i < k * length al)%nat -> nth i (spread k al) 0 = nth (i / k)%nat al 0.
Proof.
  intros P. induction al as [|a al IH]; intros i L; cbn [length] in L; [lia|]. unfold spread. cbn [map concat]. destruct (Nat.lt_ge_cases i k) as [H|H].
  - rewrite app_nth1 by (rewrite repeat_length; exact H). rewrite Nat.div_small by exact H. cbn [nth]. rewrite (nth_indep _ 0 a) by (rewrite repeat_length; exact H). apply nth_repeat.
  - rewrite app_nth2 by (rewrite repeat_length; exact H). rewrite repeat_length. fold (spread k al). rewrite IH by lia. replace (i / k)%nat with (S ((i - k) / k)); [reflexivity|]. replace i with ((i - k) + 1 * k)%nat at 2 by lia. rewrite Nat.div_add by lia. lia.
Qed.
Lemma spread_att k al : (0 < k)%nat -> attenuation al -> attenuation (spread k al).
Proof.
  intros P [F M]. assert (B : forall i, (i < k * length al)%nat -> (i / k < length al)%nat) by (intros i L; apply Nat.div_lt_upper_bound; lia). split.
  - rewrite Forall_forall in *. intros x I. destruct (In_nth _ _ 0 I) as (i & Li & <-). rewrite spread_length in Li. rewrite nth_spread by assumption. apply F, nth_In, B, Li.
  - intros i j [L1 L2]. rewrite spread_length in L2. rewrite !nth_spread by lia. apply M. split; [apply Nat.div_le_mono; lia | now apply B].
Qed.
Lemma att_sum al : attenuation al -> al <> [] -> 0 < sumR al <= INR (length al).
Proof.
  intros [F _] N. assert (X : forall l, Forall (fun a => 0 < a <= 1) l -> 0 <= sumR l <= INR (length l)). { induction 1 as [|a l Ha Fl IH]; [cbn; lra|]. rewrite sumR_cons. cbn [length]. rewrite S_INR. lra. }
  destruct al as [|a al]; [contradiction|]. inversion F as [|? ? Ha Fa]; subst. specialize (X _ Fa). rewrite sumR_cons. cbn [length]. rewrite S_INR. lra.
Qed.
Lemma mapM_all_ok {A B} (f : A -> res B) (g : A -> B) l : (forall a, List.In a l -> f a = Ok (g a)) -> mapM f l = Ok (map g l).
Proof. induction l as [|a l IH]; intros H; [reflexivity|]. cbn [mapM map]. rewrite (H a) by now left. cbn [bind]. rewrite IH by (intros b I; apply H; now right). reflexivity. Qed.
(** ** Integration *)
Lemma last_cons (a b : R) : forall l, last (b :: l) a = last l b.
Proof. intros l. revert a b. induction l as [|c l IH]; intros a b; [reflexivity|]. change (last (b :: c :: l) a) with (last (c :: l) a). now rewrite !IH. Qed.
Lemma trapz_sum a : forall l, trapz (a :: l) = sumR (a :: l) - (a + last l a) / 2.
Proof.
  intros l. revert a. induction l as [|b l IH]; intros a; [cbn; lra|]. change (trapz (a :: b :: l)) with ((a + b) / 2 + trapz (b :: l)). rewrite IH, !sumR_cons, last_cons. lra.
Qed.
(** the currents of all time steps, integrated *)
Definition total_pulse (isum : bool) (U : nat) (tmax x : R) : R :=
  let f t := pulse_at (step_time tmax U t) x in sumR (map f (seq 0 U)) + (if isum then 0 else (f 0%nat - f (U - 1)%nat) / 2).
Lemma last_map_seq (f : nat -> R) n d : (0 < n)%nat -> last (map f (seq 0 n)) d = f (n - 1)%nat.
Proof. intros P. destruct n as [|n]; [lia|]. rewrite seq_S, map_app. cbn [map]. rewrite last_last. f_equal. lia. Qed.
Lemma integrate_seq p (f : nat -> R) U : (0 < U)%nat -> integrate p (map f (seq 0 U)) = Ok (sumR (map f (seq 0 U)) + (if o_isum p then 0 else (f 0%nat - f (U - 1)%nat) / 2)).
Proof.
  intros P. unfold integrate. destruct (o_isum p); [f_equal; lra|]. destruct U as [|n]; [lia|]. cbn [seq map]. f_equal. rewrite trapz_sum, sumR_cons. change (f 0%nat :: map f (seq 1 n)) with (map f (seq 0 (S n))). rewrite last_map_seq by lia. lra.
Qed.
Lemma wsum_sum {A} al (g : nat -> A -> R) : forall l ts, sumR (map (fun t => wsum al (map (g t) l)) ts) = wsum al (map (fun a => sumR (map (fun t => g t a) ts)) l).
Proof.
  intros l ts. induction ts as [|t ts IH]; cbn [map]. - unfold wsum. revert al. induction l as [|a l IHl]; intros [|x al]; cbn [map map2]; try reflexivity. rewrite sumR_cons, <- IHl. cbn. lra.
  - rewrite sumR_cons, IH. unfold wsum. clear IH. revert al. induction l as [|a l IHl]; intros [|x al]; cbn [map map2]; try (cbn; lra). rewrite !sumR_cons, <- IHl. lra.
Qed.
Lemma wsum_lin al {A} (f g : A -> R) k m l : wsum al (map (fun a => k * f a + m * g a) l) = k * wsum al (map f l) + m * wsum al (map g l).
Proof. unfold wsum. revert al. induction l as [|a l IH]; intros [|x al]; cbn [map map2]; try (cbn; lra). rewrite !sumR_cons, IH. lra. Qed.
Lemma sum_lin {A} (f g : A -> R) k m l : sumR (map (fun a => k * f a + m * g a) l) = k * sumR (map f l) + m * sumR (map g l).
Proof. induction l as [|a l IH]; cbn [map]; [cbn; lra|]. rewrite !sumR_cons, IH. lra. Qed.
Lemma sum_const {A} (k : R) (l : list A) : sumR (map (fun _ => k) l) = INR (length l) * k.
Proof. induction l as [|a l IH]; cbn [map]; [cbn; lra|]. rewrite sumR_cons, IH. cbn [length]. rewrite S_INR. lra. Qed.

(** one column, as a function of the inputs *)
Lemma mkcells_length : forall x gp gm, length gp = length x -> length gm = length x -> length (mkcells x gp gm) = length x.
Proof. induction x as [|a x IH]; intros [|b gp] [|c gm] L1 L2; cbn [length] in *; try lia; [reflexivity|]. cbn [mkcells length]. rewrite IH; lia. Qed.
Lemma mkcells_gsum : forall x gp gm, length gp = length x -> length gm = length x -> map gsum (mkcells x gp gm) = map2 Rplus gp gm.
Proof. induction x as [|a x IH]; intros [|b gp] [|c gm] L1 L2; cbn [length] in *; try lia; [reflexivity|]. cbn [mkcells map map2]. rewrite IH by lia. reflexivity. Qed.
Lemma mkcells_diff : forall x gp gm (f : R -> R), length gp = length x -> length gm = length x -> map (fun c => (k_p c - k_m c) * f (k_x c)) (mkcells x gp gm) = map2 Rmult (map2 Rminus gp gm) (map f x).
Proof. induction x as [|a x IH]; intros [|b gp] [|c gm] f L1 L2; cbn [length] in *; try lia; [reflexivity|]. cbn [mkcells map map2]. rewrite IH by lia. reflexivity. Qed.
Lemma column_linear p gp gm : 0 <= o_drop p * o_rs p -> o_adc p = false -> length gm = length gp -> col_ok p (length gp) -> Forall (fun g => 0 <= g) gp -> Forall (fun g => 0 <= g) gm ->
  exists al a, length al = length gp /\ attenuation al /\ 0 < a <= INR (length gp) /\ (o_drop p * o_rs p = 0 -> al = map (fun _ => 1) gp /\ a * INR (per_node p) = INR (length gp)) /\
  forall U tmax x, (2 <= U)%nat -> 0 < tmax -> length x = length gp -> column p U tmax (mkcells x gp gm) =
    Ok (2 / 10 * wsum al (map2 Rmult (map2 Rminus gp gm) (map (total_pulse (o_isum p) U tmax) x)) + INR U * ((4 / 10 - o_vread p) * wsum al (map2 Rplus gp gm) - reg_eps * o_vread p * a)).
Proof.
  intros W NA Lg CO Fp Fm. set (N := length gp) in *. destruct (col_groups p N CO) as (segs & EN & Pk & Ps). set (k := per_node p) in *. set (rw := micro * (o_drop p * o_rs p) * INR k).
  assert (RW : 0 <= rw) by (unfold rw; apply Rmult_le_pos; [apply Rmult_le_pos; [left; apply micro_pos | exact W] | apply pos_INR]).
  set (gs := map (fun l : list R => sumR l + reg_eps) (chunks N k (map2 Rplus gp gm))). assert (L2 : length (map2 Rplus gp gm) = N) by (rewrite map2_length; unfold vec in *; lia). destruct (chunks_length k Pk segs N (map2 Rplus gp gm) ltac:(lia) ltac:(nia)) as (C1 & C2 & C3).
  assert (Ng : gs <> []) by (intros E; apply (f_equal (@length R)) in E; unfold gs in E; rewrite map_length in E; cbn [length] in E; pose proof C1; lia).
  assert (Fg : Forall (fun g => 0 < g) gs). { unfold gs. rewrite Forall_map. rewrite Forall_forall. intros l I. pose proof reg_eps_pos. enough (0 <= sumR l) by lra. assert (F2 : Forall (fun g => 0 <= g) l). { assert (Fa : Forall (fun g => 0 <= g) (map2 Rplus gp gm)). { clear - Fp Fm. revert gm Fm. induction Fp as [|a gp Ha F IH]; intros [|b gm] Fm; cbn [map2]; constructor; inversion Fm; subst; [lra | now apply IH]. } rewrite <- C2 in Fa. rewrite Forall_forall in *. intros y Iy. apply Fa. apply in_concat. now exists l. } clear - F2. induction F2 as [|a l Ha F IH]; [cbn; lra|]. rewrite sumR_cons. lra. }
  destruct (ladder_attenuation rw RW gs Ng Fg) as (al & r & Pr & La & At & Z & H). assert (Lal : length al = segs) by (rewrite La; unfold gs; now rewrite map_length).
  exists (spread k al), (sumR al). split; [rewrite spread_length; lia|]. split; [now apply spread_att|]. assert (Nal : al <> []) by (intros ->; cbn in Lal; lia). destruct (att_sum al At Nal) as [S1 S2]. split.
  { split; [exact S1|]. rewrite Lal in S2. apply Rle_trans with (INR segs); [exact S2|]. apply le_INR. nia. } split.
  { intros E. assert (R0 : rw = 0) by (unfold rw; rewrite E; ring). specialize (Z R0). split. - assert (Q : forall j (l : list R), spread j (map (fun _ : R => 1) l) = repeat 1 (j * length l)). { intros j l. unfold spread. induction l as [|b l IH]; cbn [map concat length]; [now rewrite Nat.mul_0_r|]. rewrite IH, <- repeat_app. f_equal. lia. } rewrite Z, Q. replace (k * length gs)%nat with N by (rewrite <- La, Lal; lia). clear. unfold N. induction gp as [|a gp IH]; [reflexivity|]. cbn [length repeat map]. f_equal. exact IH.
    - rewrite Z, sum_const, <- La, Lal. rewrite EN, mult_INR. ring. }
  intros U tmax x LU T Lx. assert (Lc : length (mkcells x gp gm) = N) by (rewrite mkcells_length; unfold N, vec in *; lia). unfold column.
  set (cells := mkcells x gp gm) in *. set (f := fun t c => 2 / 10 * ((k_p c - k_m c) * pulse_at (step_time tmax U t) (k_x c)) + (4 / 10 - o_vread p) * gsum c).
  assert (It : forall t, bind (thev p U tmax (o_drop p * o_rs p) cells t) (fun vr => Ok ((fst vr - o_vread p) / snd vr)) = Ok (wsum (spread k al) (map (f t) cells) + - (reg_eps * o_vread p) * sumR al)).
  { intros t. rewrite thev_groups by (rewrite ?Lc; assumption). cbn [bind]. fold k. fold rw. f_equal. set (tau := step_time tmax U t). destruct (H (map (gnode tau) (chunks (length cells) k cells))) as [H1 H2].
    { unfold gs. rewrite <- (mkcells_gsum x gp gm) by (unfold vec in *; lia). fold cells. rewrite chunks_map, !map_map, Lc. apply map_ext. intros g. apply gnode_conduct. }
    rewrite H1, H2. rewrite map_map. destruct (chunks_length k Pk segs (length cells) cells ltac:(lia) ltac:(rewrite Lc; nia)) as (D1 & D2 & D3).
    transitivity (wsum (spread k al) (map (f t) (concat (chunks (length cells) k cells))) + - (reg_eps * o_vread p) * sumR al); [|now rewrite D2]. rewrite <- (spread_wsum k (f t) (- (reg_eps * o_vread p))); [|rewrite Lal, D1; reflexivity | exact D3]. f_equal. apply map_ext. intros g. rewrite gnode_inflow. unfold Rminus at 1. f_equal. f_equal. apply map_ext. intros c. unfold f, gsum. fold tau. ring. }
  rewrite (mapM_all_ok _ (fun t => wsum (spread k al) (map (f t) cells) + - (reg_eps * o_vread p) * sumR al)) by (intros; apply It). cbn [bind]. rewrite integrate_seq by lia. cbn [bind]. rewrite NA. f_equal.
  set (as' := spread k al).
  assert (E1 : forall t, wsum as' (map (f t) cells) = 2 / 10 * wsum as' (map (fun c => (k_p c - k_m c) * pulse_at (step_time tmax U t) (k_x c)) cells) + (4 / 10 - o_vread p) * wsum as' (map gsum cells)) by (intros t; unfold f; apply wsum_lin).
  rewrite <- (mkcells_diff x gp gm (total_pulse (o_isum p) U tmax)) by (unfold vec in *; lia). rewrite <- (mkcells_gsum x gp gm) by (unfold vec in *; lia). fold cells.
  rewrite (map_ext _ (fun t => 2 / 10 * wsum as' (map (fun c => (k_p c - k_m c) * pulse_at (step_time tmax U t) (k_x c)) cells) + 1 * ((4 / 10 - o_vread p) * wsum as' (map gsum cells) + - (reg_eps * o_vread p) * sumR al))) by (intros t; rewrite E1; ring).
  rewrite (sum_lin (fun t => wsum as' (map (fun c => (k_p c - k_m c) * pulse_at (step_time tmax U t) (k_x c)) cells)) (fun _ => (4 / 10 - o_vread p) * wsum as' (map gsum cells) + - (reg_eps * o_vread p) * sumR al)). rewrite sum_const, seq_length, wsum_sum. rewrite !E1.
  set (q := fun c => (k_p c - k_m c) * sumR (map (fun t => pulse_at (step_time tmax U t) (k_x c)) (seq 0 U))). set (q0 := fun t c => (k_p c - k_m c) * pulse_at (step_time tmax U t) (k_x c)).
  rewrite (map_ext (fun c => sumR (map (fun t => (k_p c - k_m c) * pulse_at (step_time tmax U t) (k_x c)) (seq 0 U))) q).
  2:{ intros c. unfold q. induction (seq 0 U) as [|t l IH]; cbn [map]; [cbn; ring|]. rewrite !sumR_cons, IH. ring. }
  rewrite (map_ext (fun c => (k_p c - k_m c) * total_pulse (o_isum p) U tmax (k_x c)) (fun c => 1 * q c + (if o_isum p then 0 else 1 / 2) * (1 * q0 0%nat c + -1 * q0 (U - 1)%nat c))).
  2:{ intros c. unfold total_pulse, q, q0. destruct (o_isum p); lra. }
  rewrite (wsum_lin as' q (fun c => 1 * q0 0%nat c + -1 * q0 (U - 1)%nat c)), (wsum_lin as' (q0 0%nat) (q0 (U - 1)%nat)). fold (q0 0%nat) (q0 (U - 1)%nat). destruct (o_isum p); lra.
Qed.
