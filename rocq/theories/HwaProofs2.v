(** * Facts about the weight modifier *)
From Verif Require Import Prelude Rand DevModel PulseModel PulseSpec PulseProofs CompModel PeriModel MixProps2 HwaModel HwaSpec HwaProofs HwaProps2.

Lemma roundf_err x : Rabs (IZR (roundf x) - x) <= 1/2.
Proof.
  unfold roundf. destruct (Rleb 0 x) eqn:E.
  - pose proof (floorZ_spec (x + 1/2)). mm.
  - pose proof (floorZ_spec (- x + 1/2)). rewrite opp_IZR. mm.
Qed.
(** stochastic rounding *)
Lemma sto_round_step q u : 0 <= u <= 1 -> let f := floorZ q in let b := 1 - (q - IZR f) in
  Rabs (IZR (roundf (q + (u - 1/2))) - (IZR f + (1 - b2R (Rltb u b)))) <= b2R (Reqb u b) + b2R (Reqb u 0).
Proof.
  intros Hu. cbv zeta. pose proof (floorZ_spec q) as Hf. set (f := floorZ q) in *. pose proof (roundf_err (q + (u - 1/2))) as E. set (r := roundf (q + (u - 1/2))) in *. set (b := 1 - (q - IZR f)).
  assert (E' : q + u - 1 <= IZR r <= q + u) by (revert E; mm). clear E.
  assert (Rr : (f - 1 <= r <= f + 1)%Z). { assert (IZR r < IZR (f + 2)) by (rewrite plus_IZR; lra). assert (IZR (f - 2) < IZR r) by (rewrite minus_IZR; lra). apply lt_IZR in H, H0. lia. }
  destruct (Reqb u b) eqn:Eb; [|destruct (Reqb u 0) eqn:E0].
  - apply Reqb_true in Eb. rewrite (proj2 (Rltb_false u b)) by lra. cbn [b2R]. assert (P0 : 0 <= b2R (Reqb u 0)) by (unfold b2R; destruct (Reqb _ _); lra).
    assert (r = f \/ r = f + 1)%Z. { assert (IZR f <= IZR r) by (unfold b in Eb; lra). apply le_IZR in H. lia. } apply Rabs_le'. destruct H as [-> | ->]; rewrite ?plus_IZR; lra.
  - apply Reqb_true in E0. subst u. apply Reqb_false in Eb. assert (Hb : 0 < b) by (unfold b; lra). rewrite (proj2 (Rltb_true 0 b)) by lra. cbn [b2R].
    assert (r = f \/ r = f - 1)%Z. { assert (IZR r < IZR (f + 1)) by (rewrite plus_IZR; lra). apply lt_IZR in H. lia. } apply Rabs_le'. destruct H as [-> | ->]; rewrite ?minus_IZR; lra.
  - apply Reqb_false in Eb, E0. cbn [b2R]. rewrite Rplus_0_l. apply Rabs_le'. destruct (Rltb u b) eqn:L; cbn [b2R].
    + apply Rltb_true in L. assert (r = f). { assert (IZR r < IZR (f + 1)) by (rewrite plus_IZR; unfold b in L; lra). assert (IZR (f - 1) < IZR r) by (rewrite minus_IZR; lra). apply lt_IZR in H, H0. lia. } rewrite H. lra.
    + apply Rltb_false in L. assert (Lb : b < u) by lra. assert (r = f + 1)%Z. { assert (IZR f < IZR r) by (unfold b in Lb; lra). apply lt_IZR in H. lia. } rewrite H, plus_IZR. lra.
Qed.
Lemma sto_round_mean N q : (0 < N)%nat -> Rabs (avg (grid N) (fun u => IZR (roundf (q + (u - 1/2)))) - q) <= 3 / INR (S N).
Proof.
  intros HN. assert (PN : 0 < INR (S N)) by (apply lt_0_INR; lia). assert (PI : 0 < / INR (S N)) by now apply Rinv_0_lt_compat. pose proof (floorZ_spec q) as Hf. set (f := floorZ q) in *. set (b := 1 - (q - IZR f)). set (Z_ := fun u => IZR (roundf (q + (u - 1/2)))).
  pose proof (grid_nonempty N) as Ng. assert (D : Rabs (avg (grid N) Z_ - avg (grid N) (fun u => IZR f + (1 - b2R (Rltb u b)))) <= 2 / INR (S N)).
  { assert (Up : avg (grid N) Z_ <= avg (grid N) (fun u => (IZR f + (1 - b2R (Rltb u b))) + (b2R (Reqb u b) + b2R (Reqb u 0)))). { apply avg_le; auto. intros u Iu. pose proof (sto_round_step q u (grid_range N u Iu)) as S. cbv zeta in S. fold f b in S. unfold Z_. revert S. mm. }
    assert (Lo : avg (grid N) (fun u => IZR f + (1 - b2R (Rltb u b))) <= avg (grid N) (fun u => Z_ u + (b2R (Reqb u b) + b2R (Reqb u 0)))). { apply avg_le; auto. intros u Iu. pose proof (sto_round_step q u (grid_range N u Iu)) as S. cbv zeta in S. fold f b in S. unfold Z_. revert S. mm. }
    rewrite (avg_plus (grid N) (fun u => IZR f + (1 - b2R (Rltb u b)))) in Up. rewrite (avg_plus (grid N) Z_) in Lo. rewrite (avg_plus (grid N) (fun u => b2R (Reqb u b)) (fun u => b2R (Reqb u 0))) in Up, Lo. pose proof (avg_point N b HN). pose proof (avg_point N 0 HN). apply Rabs_le'. lra. }
  assert (D2 : avg (grid N) (fun u => IZR f + (1 - b2R (Rltb u b))) = IZR f + 1 - prob_below N b).
  { rewrite <- avg_grid_below. rewrite (avg_ext _ _ (fun u => (IZR f + 1) + (-1) * b2R (Rltb u b))) by (intros; ring). rewrite avg_plus, avg_const, avg_scal by auto. ring. }
  rewrite D2 in D. assert (Hb' : 0 <= b <= 1) by (unfold b; lra). pose proof (prob_below_close N b HN Hb') as C. assert (Eb : q = IZR f + 1 - b) by (unfold b; ring). unfold Rdiv in *. revert D C. fold Z_. rewrite Eb. mm.
Qed.

(** reference *)
Lemma ent_removelast d x w i j : shape d x w -> (i < d)%nat -> (S j < x)%nat -> ent (map (@removelast R) w) i j = ent w i j.
Proof.
  intros S Hi Hj. unfold ent. pose proof (shape_row _ _ _ _ S Hi) as L. rewrite (nth_indep _ [] (removelast [])) by (rewrite map_length; destruct S; lia). rewrite map_nth. set (r := nth i w []) in *.
  assert (E : r = removelast r ++ [last r 0]) by (apply app_removelast_last; intros ->; cbn in L; lia). rewrite E at 2. rewrite app_nth1; auto. apply (f_equal (@length R)) in E. rewrite app_length in E. cbn in E. lia.
Qed.
Lemma shape_removelast d x w : shape d x w -> shape d (x - 1) (map (@removelast R) w).
Proof.
  intros [L F]. split; [now rewrite map_length|]. apply Forall_forall. intros r Hr. apply in_map_iff in Hr as (r0 & <- & Hr). rewrite Forall_forall in F. apply F in Hr. destruct r0 as [|a r0]; [cbn in *; lia|].
  assert (E : a :: r0 = removelast (a :: r0) ++ [last (a :: r0) 0]) by (apply app_removelast_last; discriminate). apply (f_equal (@length R)) in E. rewrite app_length in E. cbn [length] in E. cbn [length] in Hr. lia.
Qed.
Lemma mod_amax_ref p d x w : shape d x w -> mo_type p <> MCopy -> is_reference (mo_rel p) (mo_lastcol p) (mo_awmax p) d x w (mod_amax p w).
Proof.
  intros S T. unfold is_reference, mod_amax. destruct (mo_rel p); cbn [andb].
  2: reflexivity.
  replace (negb match mo_type p with MCopy => true | _ => false end) with true by (destruct (mo_type p); try reflexivity; congruence). match goal with |- context [maxabs_mat ?q] => set (v := q) end. set (x' := if mo_lastcol p then (x - 1)%nat else x).
  assert (Sv : shape d x' v) by (unfold v, x'; destruct (mo_lastcol p); [now apply shape_removelast | auto]).
  assert (Hc : forall j, counted (mo_lastcol p) x j <-> (j < x')%nat). { intros j. unfold counted, x'. destruct (mo_lastcol p); split; intros; [destruct H; specialize (H0 eq_refl); lia | split; [|intros]; lia | tauto | split; [lia | discriminate]]. }
  assert (He : forall i j, (i < d)%nat -> (j < x')%nat -> ent v i j = ent w i j). { intros i j Hi Hj. unfold v, x' in *. destruct (mo_lastcol p); auto. apply (ent_removelast d x); auto. lia. }
  unfold pos_or_one. rewrite maxabs_mat_concat. destruct (Rltb 0 (maxabs (concat v))) eqn:Q.
  - apply Rltb_true in Q. left. split; [exact Q|]. split.
    + intros i j Hi Hj. apply Hc in Hj; auto. rewrite <- He by auto. apply maxabs_upper. apply (in_ent d x'); eauto.
    + destruct (maxabs_attained (concat v)) as (y & Hy & Ey); [intros E; rewrite E in Q; cbn in Q; lra|]. apply (in_ent d x') in Hy as (i & j & Hi & Hj & ->); auto. exists i, j. split; auto. split; [now apply Hc|]. now rewrite <- He.
  - apply Rltb_false in Q. right. split; [reflexivity|]. intros i j Hi Hj. apply Hc in Hj; auto. rewrite <- He by auto. apply (proj1 (maxabs_zero (concat v))); [pose proof (maxabs_nonneg (concat v)); lra|]. apply (in_ent d x'); eauto.
Qed.
Lemma is_reference_unique rel lc aw d x w a b : is_reference rel lc aw d x w a -> is_reference rel lc aw d x w b -> a = b.
Proof.
  unfold is_reference. destruct rel; [|congruence]. intros [(A0 & A1 & i & j & Hi & Hj & Ea) | (-> & A)] [(B0 & B1 & k & l & Hk & Hl & Eb) | (-> & B)].
  - apply Rle_antisym; [rewrite <- Ea; now apply B1 | rewrite <- Eb; now apply A1].
  - rewrite B in Ea by auto. rewrite Rabs_R0 in Ea. lra.
  - rewrite A in Eb by auto. rewrite Rabs_R0 in Eb. lra.
  - reflexivity.
Qed.
Lemma is_reference_pos lc aw d x w a : is_reference true lc aw d x w a -> 0 < a.
Proof. intros [(A & _) | (-> & _)]; lra. Qed.

(** the modifier entry by entry *)
Lemma yields_mat (f : R -> M R) d x w w' : shape d x w -> yields (mapMM (mapMM f) w) w' -> shape d x w' /\ forall i j, (i < d)%nat -> (j < x)%nat -> yields (f (ent w i j)) (ent w' i j).
Proof.
  intros S Y. apply yields_mapMM in Y. assert (G : forall l l' (P : list R -> list R -> Prop), Forall2 P l l' -> length l' = length l /\ forall i, (i < length l)%nat -> P (nth i l []) (nth i l' [])).
  { intros l l' P F. induction F as [|a b l l' H F [IL IH]]; [split; [auto | cbn; lia]|]. split; [cbn; lia|]. intros [|i] Hi; cbn; auto. apply IH. cbn in Hi. lia. }
  assert (G1 : forall l l' (P : R -> R -> Prop), Forall2 P l l' -> length l' = length l /\ forall i, (i < length l)%nat -> P (nth i l 0) (nth i l' 0)).
  { intros l l' P F. induction F as [|a b l l' H F [IL IH]]; [split; [auto | cbn; lia]|]. split; [cbn; lia|]. intros [|i] Hi; cbn; auto. apply IH. cbn in Hi. lia. }
  destruct (G _ _ _ Y) as [L H]. assert (Lw : length w = d) by (now destruct S).
  assert (Hr : forall i, (i < d)%nat -> length (nth i w' []) = x /\ forall j, (j < x)%nat -> yields (f (nth j (nth i w []) 0)) (nth j (nth i w' []) 0)).
  { intros i Hi. assert (Yi := H i ltac:(lia)). apply yields_mapMM in Yi. destruct (G1 _ _ _ Yi) as [Li Hi']. rewrite (shape_row d x w i S Hi) in Li, Hi'. auto. }
  split.
  - split; [lia|]. apply Forall_forall. intros r Hin. apply (In_nth _ _ []) in Hin as (i & Hi & <-). apply Hr. lia.
  - intros i j Hi Hj. now apply Hr.
Qed.
Lemma nth_lastcol (n o : list R) x j : length n = x -> length o = x -> (0 < x)%nat -> (j < x)%nat -> nth j (removelast n ++ [last o 0]) 0 = if Nat.eqb (S j) x then nth j o 0 else nth j n 0.
Proof.
  intros Ln Lo X Hj. assert (En : n = removelast n ++ [last n 0]) by (apply app_removelast_last; intros ->; cbn in Ln; lia). assert (Eo : o = removelast o ++ [last o 0]) by (apply app_removelast_last; intros ->; cbn in Lo; lia).
  assert (L1 : length (removelast n) = (x - 1)%nat) by (apply (f_equal (@length R)) in En; rewrite app_length in En; cbn in En; lia). assert (L2 : length (removelast o) = (x - 1)%nat) by (apply (f_equal (@length R)) in Eo; rewrite app_length in Eo; cbn in Eo; lia).
  destruct (Nat.eqb_spec (S j) x) as [E | E].
  - rewrite Eo at 2. rewrite !app_nth2 by lia. now rewrite L1, L2.
  - rewrite En at 2. rewrite !app_nth1 by lia. reflexivity.
Qed.
Lemma removelast_length (n : list R) : n <> [] -> S (length (removelast n)) = length n.
Proof. intros H. pose proof (app_removelast_last 0 H) as E. apply (f_equal (@length R)) in E. rewrite app_length in E. cbn in E. lia. Qed.
Definition keep (p : mpar) (x j : nat) : bool := mo_lastcol p && Nat.eqb (S j) x.
Lemma finish_ent p d x (w w2 : mat) : shape d x w -> shape d x w2 -> (0 < x)%nat ->
  let w' := if mo_lastcol p then map2 (fun n o => removelast n ++ [last o 0]) w2 w else w2 in
  shape d x w' /\ forall i j, (i < d)%nat -> (j < x)%nat -> ent w' i j = if keep p x j then ent w i j else ent w2 i j.
Proof.
  intros S S2 X. cbv zeta. unfold keep. destruct (mo_lastcol p); cbn [andb]; [|split; auto]. assert (Lw : length w = d) by (now destruct S). assert (L2 : length w2 = d) by (now destruct S2).
  assert (E : forall i, (i < d)%nat -> nth i (map2 (fun n o => removelast n ++ [last o 0]) w2 w) [] = removelast (nth i w2 []) ++ [last (nth i w []) 0]) by (intros i Hi; now rewrite (nth_map2 _ _ _ [] [] []) by lia).
  split.
  - split; [rewrite map2_length; lia|]. apply Forall_forall. intros r Hr. apply (In_nth _ _ []) in Hr as (i & Hi & <-). rewrite map2_length in Hi. rewrite E by lia. rewrite app_length. cbn [length]. pose proof (shape_row _ _ _ i S2 ltac:(lia)) as Lr. pose proof (removelast_length (nth i w2 [])) as Q. rewrite Lr in Q. assert (nth i w2 [] <> []) by (intros Z; rewrite Z in Lr; cbn in Lr; lia). specialize (Q H). lia.
  - intros i j Hi Hj. unfold ent. rewrite E by auto. apply nth_lastcol; auto; now apply (shape_row d x).
Qed.
Lemma modify_spec p d x w w' : shape d x w -> (0 < x)%nat -> yields (modify p w) w' ->
  shape d x w' /\ forall i j, (i < d)%nat -> (j < x)%nat -> if keep p x j then ent w' i j = ent w i j
    else exists v, yields (mod_elem p (mod_amax p w) (ent w i j)) v /\ (ent w' i j = v \/ (0 < mo_pdrop p /\ ent w' i j = 0)) /\ (1 < mo_pdrop p -> ent w' i j = 0).
Proof.
  intros S X Y. unfold modify in Y. destruct (mo_pbs p && negb match mo_type p with MCopy => true | _ => false end); [ysimp|]. destruct (match mo_type p with MNone | MPcm => true | _ => false end); [ysimp|].
  apply yields_bind in Y as (w1 & Y1 & Y). apply yields_bind in Y as (w2 & Y2 & Y). apply yields_ret in Y. subst w'. destruct (yields_mat _ d x w w1 S Y1) as [S1 H1].
  assert (H2 : shape d x w2 /\ forall i j, (i < d)%nat -> (j < x)%nat -> (ent w2 i j = ent w1 i j \/ (0 < mo_pdrop p /\ ent w2 i j = 0)) /\ (1 < mo_pdrop p -> ent w2 i j = 0)).
  { destruct (Rltb 0 (mo_pdrop p)) eqn:Q.
    - apply Rltb_true in Q. destruct (yields_mat _ d x w1 w2 S1 Y2) as [S2 H2]. split; auto. intros i j Hi Hj. specialize (H2 i j Hi Hj). unfold drop_elem in H2. ysimp. destruct (Rltb u (mo_pdrop p)) eqn:U; rewrite H2; [auto|]. split; auto. intros P. apply Rltb_false in U. lra.
    - apply Rltb_false in Q. apply yields_ret in Y2. subst w2. split; auto. intros i j Hi Hj. split; [auto | lra]. }
  destruct H2 as [S2 H2]. destruct (finish_ent p d x w w2 S S2 X) as [S3 H3]. split; [exact S3|]. intros i j Hi Hj. rewrite H3 by auto. destruct (keep p x j); auto. exists (ent w1 i j). split; [now apply H1 | now apply H2].
Qed.
Lemma keep_counted p x j : counted (mo_lastcol p) x j -> keep p x j = false.
Proof. intros [A B]. unfold keep. destruct (mo_lastcol p); auto. cbn [andb]. apply Nat.eqb_neq. specialize (B eq_refl). lia. Qed.
