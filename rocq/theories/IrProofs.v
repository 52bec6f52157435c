(** * IR drop: lemmas *)
From Verif Require Import Prelude MvmModel ConvModel IrModel IrSpec.
Local Open Scope R_scope.

Definition conduct (nd : node) : R := sumR (map fst nd).
Definition drive (nd : node) : R := sumR (map (fun d => fst d * snd d) nd).
Lemma sumR_cons a l : sumR (a :: l) = a + sumR l.
Proof. reflexivity. Qed.
Lemma inflow_lin nd u : inflow nd u = drive nd - conduct nd * u.
Proof. unfold inflow, drive, conduct. induction nd as [|d nd IH]; cbn [map]; [cbn; ring|]. rewrite !sumR_cons, IH. ring. Qed.
Lemma sumR_app l l' : sumR (l ++ l') = sumR l + sumR l'.
Proof. induction l as [|a l IH]; cbn [app]; [cbn; ring|]. rewrite !sumR_cons, IH. ring. Qed.
Lemma conduct_app a b : conduct (a ++ b) = conduct a + conduct b.
Proof. unfold conduct. rewrite map_app. apply sumR_app. Qed.
Lemma drive_app a b : drive (a ++ b) = drive a + drive b.
Proof. unfold drive. rewrite map_app. apply sumR_app. Qed.

(** a node as voltage and resistance *)
Definition thv (nd : node) : R * R := (drive nd / conduct nd, 1 / conduct nd).
Lemma thv_inflow nd u : 0 < conduct nd -> inflow nd u = (fst (thv nd) - u) / snd (thv nd).
Proof. intros P. rewrite inflow_lin. unfold thv. cbn [fst snd]. field. lra. Qed.
Lemma parallel_spec rw vr vr2 : 0 <= rw -> 0 < snd vr -> 0 < snd vr2 ->
  0 < snd (parallel rw vr vr2) /\ forall u, (fst (parallel rw vr vr2) - u) / snd (parallel rw vr vr2) = (fst vr - u) / (snd vr + rw) + (fst vr2 - u) / snd vr2.
Proof.
  intros W P P2. unfold parallel. cbn [fst snd]. destruct vr as [v r], vr2 as [v2 r2]. cbn [fst snd] in *. split; [apply Rdiv_lt_0_compat; [apply Rmult_lt_0_compat|]; lra|]. intros u. field. repeat split; lra.
Qed.
(** the state after the first nodes: what leaves the last of them at voltage [u] *)
Lemma fold_kirchhoff rw (W : 0 <= rw) : forall (l : list node) (n : node), Forall (fun nd => 0 < conduct nd) (n :: l) -> let vr := fold_left (parallel rw) (map thv l) (thv n) in
  0 < snd vr /\ (forall u j, (forall s, (s < S (length l))%nat -> j s = (match s with O => 0 | S s' => j s' end) + inflow (nth s (n :: l) []) (u s)) -> (forall s, (S s < S (length l))%nat -> u s - u (S s) = rw * j s) ->
    j (length l) = (fst vr - u (length l)) / snd vr) /\
  (forall x, exists u j, u (length l) = x /\ (forall s, (s < S (length l))%nat -> j s = (match s with O => 0 | S s' => j s' end) + inflow (nth s (n :: l) []) (u s)) /\ (forall s, (S s < S (length l))%nat -> u s - u (S s) = rw * j s)).
Proof.
  intros l n. induction l as [|m l IH] using rev_ind; intros F.
  - inversion F as [|? ? Fn _]; subst. cbn [map fold_left length]. split; [unfold thv; cbn [snd]; apply Rdiv_lt_0_compat; lra|]. split.
    + intros u j H _. rewrite (H 0%nat) by lia. cbn [nth]. rewrite thv_inflow by exact Fn. lra.
    + intros x. exists (fun _ => x), (fun _ => inflow n x). split; [reflexivity|]. split; [intros s Ls; replace s with 0%nat by lia; cbn [nth]; lra | intros; lia].
  - assert (Fl : Forall (fun nd => 0 < conduct nd) (n :: l)) by (inversion F as [|? ? A B]; subst; apply Forall_app in B as [B _]; now constructor).
    assert (Fm : 0 < conduct m). { inversion F as [|? ? A B]; subst. apply Forall_app in B as [_ B]. now inversion B. }
    destruct (IH Fl) as (P & Q & E). rewrite map_app, fold_left_app. cbn [map fold_left]. set (vr := fold_left (parallel rw) (map thv l) (thv n)) in *. rewrite app_length. cbn [length]. replace (length l + 1)%nat with (S (length l)) by lia.
    destruct (parallel_spec rw vr (thv m) W P ltac:(unfold thv; cbn [snd]; apply Rdiv_lt_0_compat; lra)) as [P' Sp]. split; [exact P'|].
    assert (Nth : forall s, (s < S (length l))%nat -> nth s (n :: l ++ [m]) [] = nth s (n :: l) []) by (intros s Ls; change (n :: l ++ [m]) with ((n :: l) ++ [m]); apply app_nth1; cbn [length]; lia).
    assert (Nm : nth (S (length l)) (n :: l ++ [m]) [] = m) by (cbn [nth]; rewrite app_nth2 by lia; now rewrite Nat.sub_diag).
    split.
    + intros u j H1 H2. assert (J : j (length l) = (fst vr - u (length l)) / snd vr). { apply Q; [intros s Ls; rewrite H1 by lia; now rewrite Nth by lia | intros s Ls; apply H2; lia]. }
      rewrite (H1 (S (length l))) by lia. rewrite Nm, thv_inflow by exact Fm. rewrite Sp. f_equal. pose proof (H2 (length l) ltac:(lia)) as D.
      assert (Eu : u (length l) = u (S (length l)) + rw * j (length l)) by lra. rewrite Eu in J. assert (K : snd vr * j (length l) = fst vr - (u (S (length l)) + rw * j (length l))) by (rewrite J at 1; field; lra). apply Rmult_eq_reg_r with (snd vr + rw); [|lra]. unfold Rdiv. rewrite Rmult_assoc, Rinv_l by lra. lra.
    + intros x. set (jl := (fst vr - x) / (snd vr + rw)). destruct (E (x + rw * jl)) as (u & j & Eu & H1 & H2).
      assert (Jl : j (length l) = jl). { rewrite (Q u j H1 H2), Eu. unfold jl. field. lra. }
      exists (fun s => if (s =? S (length l))%nat then x else u s), (fun s => if (s =? S (length l))%nat then jl + inflow m x else j s).
      split; [now rewrite Nat.eqb_refl|]. split.
      * intros s Ls. destruct (Nat.eqb_spec s (S (length l))) as [->|]; [rewrite Nm; replace (length l =? S (length l))%nat with false by (symmetry; apply Nat.eqb_neq; lia); now rewrite Jl|].
        rewrite Nth by lia. rewrite H1 by lia. destruct s as [|s]; [reflexivity|]. replace (s =? S (length l))%nat with false by (symmetry; apply Nat.eqb_neq; lia). reflexivity.
      * intros s Ls. replace (s =? S (length l))%nat with false by (symmetry; apply Nat.eqb_neq; lia). destruct (Nat.eqb_spec (S s) (S (length l))) as [Es|]; [injection Es as ->; rewrite Eu, Jl; lra | apply H2; lia].
Qed.
Lemma ladder_circuit rw nodes vout : 0 <= rw -> nodes <> [] -> Forall (fun nd => 0 < conduct nd) nodes -> let vr := ladder rw (map thv nodes) in
  0 < snd vr /\ (forall u j, kirchhoff rw nodes vout u j -> j (length nodes - 1)%nat = (fst vr - vout) / snd vr) /\ exists u j, kirchhoff rw nodes vout u j.
Proof.
  intros W N F. destruct nodes as [|n l]; [contradiction|]. destruct (fold_kirchhoff rw W l n F) as (P & Q & E). cbn [map ladder]. set (vr := fold_left (parallel rw) (map thv l) (thv n)) in *. cbn [fst snd]. split; [lra|]. unfold kirchhoff. cbn [length]. rewrite Nat.sub_succ, Nat.sub_0_r. split.
  - intros u j (H1 & H2 & H3). pose proof (Q u j H1 H2) as J. assert (K : snd vr * j (length l) = fst vr - (vout + 1 / 2 * rw * j (length l))) by (replace (vout + 1 / 2 * rw * j (length l)) with (u (length l)) by lra; rewrite J; field; lra).
    apply Rmult_eq_reg_r with (snd vr + 1 / 2 * rw); [|lra]. replace ((fst vr - vout) / (snd vr + 1 / 2 * rw) * (snd vr + 1 / 2 * rw)) with (fst vr - vout) by (field; lra). lra.
  - set (jl := (fst vr - vout) / (snd vr + 1 / 2 * rw)). destruct (E (vout + 1 / 2 * rw * jl)) as (u & j & Eu & H1 & H2). exists u, j. split; [exact H1|]. split; [exact H2|]. rewrite Eu, (Q u j H1 H2), Eu. unfold jl. field. lra.
Qed.

(** ** Cells *)
Lemma reg_eps_pos : 0 < reg_eps.
Proof. unfold reg_eps. apply Rdiv_lt_0_compat; [lra | apply pow_lt; lra]. Qed.
Definition gsum (c : cell) : R := k_p c + k_m c.
Lemma at_devices t c : 0 <= t -> let x := k_x c in
  (6 / 10) * at_pp x t c + (2 / 10) * at_mm x t c + (4 / 10) * at_zz x t c = drive (devices t c) /\ at_pp x t c + at_mm x t c + at_zz x t c = gsum c /\ conduct (devices t c) = gsum c.
Proof.
  intros T x. unfold at_pp, at_mm, at_zz, devices, drive, conduct, gsum. fold x. destruct (Rle_dec (Rabs x) t) as [L|L].
  - rewrite (proj2 (Rleb_true (Rabs x) t) L), (proj2 (Rltb_false t (Rabs x))) by lra. pose proof (Rle_abs x). pose proof (Rle_abs (- x)) as A. rewrite Rabs_Ropp in A. rewrite (proj2 (Rltb_false t x)), (proj2 (Rltb_false x (- t))) by lra. cbn [map fst snd]. unfold sumR. cbn. lra.
  - rewrite (proj2 (Rleb_false (Rabs x) t)), (proj2 (Rltb_true t (Rabs x))) by lra. destruct (Rlt_dec 0 x) as [X|X].
    + rewrite (proj2 (Rltb_true 0 x) X). rewrite Rabs_right in L by lra. rewrite (proj2 (Rltb_true t x)), (proj2 (Rltb_false x (- t))) by lra. cbn [map fst snd]. unfold sumR. cbn. lra.
    + rewrite (proj2 (Rltb_false 0 x)) by lra. rewrite Rabs_left1 in L by lra. rewrite (proj2 (Rltb_false t x)), (proj2 (Rltb_true x (- t))) by lra. cbn [map fst snd]. unfold sumR. cbn. lra.
Qed.
Lemma ltb_scale a b s : 0 < s -> Rltb (a * s) (b * s) = Rltb a b.
Proof. intros S. destruct (Rltb a b) eqn:E; [apply Rltb_true in E; apply Rltb_true, Rmult_lt_compat_r; assumption | apply Rltb_false in E; apply Rltb_false, Rmult_le_compat_r; lra]. Qed.
Lemma leb_scale a b s : 0 < s -> Rleb (a * s) (b * s) = Rleb a b.
Proof. intros S. destruct (Rleb a b) eqn:E; [apply Rleb_true in E; apply Rleb_true, Rmult_le_compat_r; lra | apply Rleb_false in E; apply Rleb_false, Rmult_lt_compat_r; assumption]. Qed.
Lemma scaled_devices t c s : 0 < s -> let x := k_x c * s in at_pp x (t * s) c = at_pp (k_x c) t c /\ at_mm x (t * s) c = at_mm (k_x c) t c /\ at_zz x (t * s) c = at_zz (k_x c) t c.
Proof.
  intros S x. unfold at_pp, at_mm, at_zz, x. rewrite Rabs_mult, (Rabs_right s) by lra. replace (- (t * s)) with (- t * s) by ring. rewrite !ltb_scale, leb_scale by exact S. auto.
Qed.
Lemma cpp_node_thv U tmax t c : (2 <= U)%nat -> 0 < tmax -> cpp_node U tmax t c = thv (devices (step_time tmax U t) c ++ leak).
Proof.
  intros LU T. assert (P : 0 < INR (U - 1)) by (apply lt_0_INR; lia). unfold cpp_node. rewrite (proj2 (Reqb_false tmax 0)) by lra. set (tau := step_time tmax U t). assert (Tn : 0 <= tau) by (unfold tau, step_time; apply Rmult_le_pos; [apply Rmult_le_pos; [apply pos_INR | lra] | left; apply Rinv_0_lt_compat; exact P]).
  assert (S : 0 < INR (U - 1) / tmax) by (apply Rdiv_lt_0_compat; assumption). replace (k_x c / tmax * INR (U - 1)) with (k_x c * (INR (U - 1) / tmax)) by (field; lra). replace (INR t) with (tau * (INR (U - 1) / tmax)) by (unfold tau, step_time; field; lra).
  destruct (scaled_devices tau c _ S) as (A & B & C). rewrite A, B, C. destruct (at_devices tau c Tn) as (D & E & F). unfold thv. rewrite conduct_app, drive_app, D, E, F. unfold leak, conduct, drive, sumR. cbn. rewrite Rmult_0_r, !Rplus_0_r. f_equal. unfold Rdiv. ring.
Qed.
Lemma devices_pos t c : good_cell c -> 0 < conduct (devices t c ++ leak).
Proof.
  intros [A B]. rewrite conduct_app. assert (conduct (devices t c) = gsum c) as ->. { unfold devices, conduct, gsum, sumR. destruct (Rltb t _); [destruct (Rltb 0 _)|]; cbn; lra. } unfold gsum. pose proof reg_eps_pos. unfold leak, conduct, sumR. cbn. lra.
Qed.
Lemma linspace_step tmax U t : (2 <= U)%nat -> linspace0 tmax U t = step_time tmax U t.
Proof. intros L. unfold linspace0, step_time. replace (U =? 1)%nat with false by (symmetry; apply Nat.eqb_neq; lia). unfold Rdiv. ring. Qed.
Lemma step_time_nonneg tmax U t : (2 <= U)%nat -> 0 <= tmax -> 0 <= step_time tmax U t.
Proof. intros L T. unfold step_time. apply Rmult_le_pos; [apply Rmult_le_pos; [apply pos_INR | exact T] | left; apply Rinv_0_lt_compat, lt_0_INR; lia]. Qed.
Lemma py_node_thv tmax U t seg : (2 <= U)%nat -> 0 <= tmax -> py_node tmax U t seg = thv (concat (map (devices (step_time tmax U t)) seg) ++ leak).
Proof.
  intros LU T. unfold py_node. rewrite linspace_step by exact LU. pose proof (step_time_nonneg tmax U t LU T) as Tn. set (tau := step_time tmax U t) in *.
  assert (X : (6 / 10) * sumR (map (fun c => at_pp (k_x c) tau c) seg) + (2 / 10) * sumR (map (fun c => at_mm (k_x c) tau c) seg) + (4 / 10) * sumR (map (fun c => at_zz (k_x c) tau c) seg) = drive (concat (map (devices tau) seg)) /\
    sumR (map (fun c => at_pp (k_x c) tau c) seg) + sumR (map (fun c => at_mm (k_x c) tau c) seg) + sumR (map (fun c => at_zz (k_x c) tau c) seg) = conduct (concat (map (devices tau) seg))).
  { induction seg as [|c seg [I1 I2]]; [cbn; lra|]. cbn [map concat]. rewrite !sumR_cons, drive_app, conduct_app, <- I1, <- I2. destruct (at_devices tau c Tn) as (A & B & C). rewrite <- A, C, <- B. lra. }
  destruct X as [X Y]. unfold thv. rewrite conduct_app, drive_app. rewrite <- X, <- Y. unfold leak, conduct, drive, sumR. cbn [map fold_right fst snd]. rewrite Rmult_0_r, !Rplus_0_r, <- !Rplus_assoc. reflexivity.
Qed.
Lemma chunks_length {A} m : (0 < m)%nat -> forall segs fuel (l : list A), length l = (m * segs)%nat -> (segs <= fuel)%nat -> length (chunks fuel m l) = segs /\ concat (chunks fuel m l) = l /\ Forall (fun s => length s = m) (chunks fuel m l).
Proof.
  intros P. induction segs as [|n IH]; intros fuel l L F.
  - destruct l; [destruct fuel; repeat split; constructor | cbn [length] in L; lia].
  - destruct fuel as [|f]; [lia|]. destruct l as [|a l']; [cbn [length] in L; lia|]. cbn [chunks]. set (l := a :: l') in *. assert (Ls : length (skipn m l) = (m * n)%nat) by (rewrite skipn_length; lia). destruct (IH f (skipn m l) Ls ltac:(lia)) as (I1 & I2 & I3). cbn [length concat]. rewrite I1, I2, firstn_skipn. repeat split; constructor; [apply firstn_length_le; lia | exact I3].
Qed.
Lemma thev_py_ok U tmax rs segs m cells t : (0 < segs)%nat -> (0 < m)%nat -> length cells = (m * segs)%nat ->
  thev_py U tmax rs segs (m * segs) cells t = Ok (ladder (micro * rs * INR m) (map (py_node tmax U t) (chunks (length cells) m cells))).
Proof.
  intros Ps Pm L. unfold thev_py. rewrite Nat.div_mul by lia. replace (segs =? 0)%nat with false by (symmetry; apply Nat.eqb_neq; lia). rewrite Nat.eqb_refl. cbn [negb andb]. replace (length cells mod m)%nat with 0%nat by (rewrite L, Nat.mul_comm, Nat.mod_mul by lia; reflexivity). rewrite Nat.eqb_refl, Bool.orb_true_r.
  destruct (chunks_length m Pm segs (length cells) cells L ltac:(nia)) as (C & _). rewrite map_length, C, Nat.ltb_irrefl. rewrite firstn_all2; [reflexivity | rewrite map_length; lia].
Qed.

(** ** Attenuation *)
Definition wsum (al : list R) (f : list R) : R := sumR (map2 Rmult al f).
Lemma wsum_app a b f g : length a = length f -> wsum (a ++ b) (f ++ g) = wsum a f + wsum b g.
Proof. revert f. unfold wsum. induction a as [|x a IH]; intros [|y f] L; cbn [length] in L; try lia; cbn [app map2]; [cbn; lra|]. rewrite !sumR_cons, IH by lia. lra. Qed.
Lemma wsum_scale s a f : wsum (map (Rmult s) a) f = s * wsum a f.
Proof. revert f. unfold wsum. induction a as [|x a IH]; intros [|y f]; cbn [map map2]; try (cbn; lra). rewrite !sumR_cons, IH. lra. Qed.
(** increasing, above zero and at most one *)
Fixpoint growing (lo : R) (l : list R) : Prop := match l with [] => True | a :: l' => lo <= a <= 1 /\ growing a l' end.
Definition attenuation (al : list R) : Prop := Forall (fun a => 0 < a <= 1) al /\ forall i j, (i <= j < length al)%nat -> nth i al 0 <= nth j al 0.
Lemma att_scale s al : 0 < s <= 1 -> attenuation al -> attenuation (map (Rmult s) al).
Proof.
  intros S [F M]. split; [rewrite Forall_forall in *; intros y I; apply in_map_iff in I as (x & <- & I); specialize (F x I); split; [apply Rmult_lt_0_compat; lra | nra]|].
  intros i j L. rewrite map_length in L. replace 0 with (s * 0) at 1 2 by ring. rewrite !map_nth. apply Rmult_le_compat_l; [lra | now apply M].
Qed.
Lemma att_snoc al : attenuation al -> attenuation (al ++ [1]).
Proof.
  intros [F M]. split; [apply Forall_app; split; [exact F | constructor; [lra | constructor]]|]. intros i j L. rewrite app_length in L. cbn [length] in L. destruct (Nat.eq_dec j (length al)) as [->|].
  - rewrite (app_nth2 _ _ 0 (n := length al)) by lia. rewrite Nat.sub_diag. cbn [nth]. destruct (Nat.eq_dec i (length al)) as [->|]; [rewrite app_nth2, Nat.sub_diag by lia; cbn; lra|]. rewrite app_nth1 by lia. rewrite Forall_forall in F. apply F, nth_In. lia.
  - rewrite !app_nth1 by lia. apply M. lia.
Qed.
Lemma ladder_attenuation rw (W : 0 <= rw) gs : gs <> [] -> Forall (fun g => 0 < g) gs -> exists al r, 0 < r /\ length al = length gs /\ attenuation al /\ (rw = 0 -> al = map (fun _ => 1) gs) /\
  forall nodes, map conduct nodes = gs -> snd (ladder rw (map thv nodes)) = r /\ forall v, (fst (ladder rw (map thv nodes)) - v) / r = wsum al (map (fun nd => inflow nd v) nodes).
Proof.
  intros N F. destruct gs as [|g gs]; [contradiction|]. clear N.
  assert (X : exists al r, 0 < r /\ length al = S (length gs) /\ attenuation al /\ (rw = 0 -> al = map (fun _ => 1) (g :: gs)) /\ forall n l, conduct n = g -> map conduct l = gs -> let vr := fold_left (parallel rw) (map thv l) (thv n) in snd vr = r /\ forall v, (fst vr - v) / r = wsum al (map (fun nd => inflow nd v) (n :: l))).
  { induction gs as [|h gs IH] using rev_ind.
    - inversion F as [|? ? Fg _]; subst. exists [1], (1 / g). split; [apply Rdiv_lt_0_compat; lra|]. split; [reflexivity|]. split; [split; [constructor; [lra | constructor]|]; intros i j L; cbn [length] in L; replace i with 0%nat by lia; replace j with 0%nat by lia; lra|]. split; [reflexivity|]. intros n l En El. apply map_eq_nil in El. subst l. cbn [map fold_left]. rewrite <- En. split; [reflexivity|]. intros v. unfold wsum, sumR. cbn [map map2 fold_right]. rewrite thv_inflow by lra. unfold thv. cbn [snd fst]. lra.
    - assert (Fg : Forall (fun g => 0 < g) (g :: gs)) by (inversion F as [|? ? A B]; subst; apply Forall_app in B as [B _]; now constructor). assert (Fh : 0 < h). { inversion F as [|? ? A B]; subst. apply Forall_app in B as [_ B]. now inversion B. }
      destruct (IH Fg) as (al & r & P & La & At & Z & H). exists (map (Rmult (r / (r + rw))) al ++ [1]), ((r + rw) * (1 / h) / (r + rw + 1 / h)).
      assert (Ph : 0 < 1 / h) by (apply Rdiv_lt_0_compat; lra). assert (Sc : 0 < r / (r + rw) <= 1). { split; [apply Rdiv_lt_0_compat; lra|]. apply Rmult_le_reg_r with (r + rw); [lra|]. unfold Rdiv. rewrite Rmult_assoc, Rinv_l by lra. lra. }
      split; [apply Rdiv_lt_0_compat; [apply Rmult_lt_0_compat|]; lra|]. split; [rewrite !app_length, map_length; cbn [length]; lia|]. split; [now apply att_snoc, att_scale|]. split.
      { intros E. rewrite app_comm_cons, map_app, <- (Z E). f_equal. rewrite E, Rplus_0_r. replace (r / r) with 1 by (field; lra). rewrite map_ext with (g := fun x => x); [apply map_id | intros; lra]. }
      intros n l En El. apply map_eq_app in El as (l1 & l2 & -> & E1 & E2). destruct l2 as [|m [|? ?]]; try discriminate. injection E2 as E2. cbn beta zeta. rewrite map_app, fold_left_app. cbn [map fold_left]. destruct (H n l1 En E1) as [S1 S2]. set (vr := fold_left (parallel rw) (map thv l1) (thv n)) in *.
      assert (Tm : thv m = (fst (thv m), 1 / h)) by (unfold thv; now rewrite E2). destruct (parallel_spec rw vr (thv m) W ltac:(lra) ltac:(rewrite Tm; exact Ph)) as [P' Sp]. assert (Es : snd (parallel rw vr (thv m)) = (r + rw) * (1 / h) / (r + rw + 1 / h)) by (unfold parallel; cbn [snd]; rewrite S1, Tm; reflexivity). split; [exact Es|].
      intros v. rewrite <- Es, Sp. rewrite map_app, app_comm_cons. change (inflow n v :: map (fun nd => inflow nd v) l1) with (map (fun nd => inflow nd v) (n :: l1)). rewrite wsum_app by (rewrite !map_length; cbn [length]; pose proof (f_equal (@length R) E1) as L1; rewrite map_length in L1; lia). rewrite wsum_scale, <- S2, S1. unfold wsum, sumR. cbn [map map2 fold_right]. rewrite thv_inflow by lra. replace (r / (r + rw) * ((fst vr - v) / r)) with ((fst vr - v) / (r + rw)) by (field; lra). lra. }
  destruct X as (al & r & P & La & At & Z & H). exists (map (Rmult (r / (r + 1 / 2 * rw))) al), (r + 1 / 2 * rw). assert (Sc : 0 < r / (r + 1 / 2 * rw) <= 1). { split; [apply Rdiv_lt_0_compat; lra|]. apply Rmult_le_reg_r with (r + 1 / 2 * rw); [lra|]. replace (r / (r + 1 / 2 * rw) * (r + 1 / 2 * rw)) with r by (field; lra). lra. }
  split; [lra|]. split; [rewrite map_length; exact La|]. split; [now apply att_scale|]. split.
  { intros E. rewrite <- (Z E), E, Rmult_0_r, Rplus_0_r. replace (r / r) with 1 by (field; lra). rewrite map_ext with (g := fun x => x); [apply map_id | intros; lra]. }
  intros nodes En. destruct nodes as [|n l]; [discriminate|]. injection En as E1 E2. destruct (H n l E1 E2) as [S1 S2]. cbn [map ladder fst snd]. set (vr := fold_left (parallel rw) (map thv l) (thv n)) in *. rewrite S1. split; [reflexivity|]. intros v. rewrite wsum_scale. change (inflow n v :: map (fun nd => inflow nd v) l) with (map (fun nd => inflow nd v) (n :: l)). rewrite <- S2. field. lra.
Qed.
