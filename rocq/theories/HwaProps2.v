(** * Remapping the weights (C86, C87) *)
From Verif Require Import Prelude Rand CompModel PeriModel HwaModel HwaSpec HwaProofs.

Lemma maxabs_scale r a : 0 < a -> maxabs (map (fun x => x / a) r) = maxabs r / a.
Proof.
  intros A. induction r as [|x r IH]; [cbn; unfold Rdiv; now rewrite Rmult_0_l|]. cbn [map maxabs fold_right]. fold (maxabs r). fold (maxabs (map (fun x => x / a) r)). rewrite IH. unfold Rdiv. rewrite Rabs_mult, (Rabs_pos_eq (/ a)) by (left; now apply Rinv_0_lt_compat).
  rewrite !(Rmult_comm _ (/ a)). apply RmaxRmult. left. now apply Rinv_0_lt_compat.
Qed.
Lemma maxabs_mat_scale w a : 0 < a -> maxabs_mat (map (map (fun x => x / a)) w) = maxabs_mat w / a.
Proof. intros A. rewrite !maxabs_mat_concat, <- concat_map, maxabs_scale; auto. Qed.
Lemma map_id_ext {A} (f : A -> A) l : (forall a, f a = a) -> map f l = l.
Proof. intros H. rewrite <- (map_id l) at 2. now apply map_ext. Qed.
Lemma nth_map_R f (l : vec) i : (i < length l)%nat -> nth i (map f l) 0 = f (nth i l 0).
Proof. intros H. rewrite (nth_indep _ 0 (f 0)) by (now rewrite map_length). apply map_nth. Qed.
Lemma concat_nonempty d x w : shape d x w -> (0 < d)%nat -> (0 < x)%nat -> concat w <> [].
Proof. intros S D X E. assert (In (ent w 0 0) (concat w)) as H by (apply (in_ent d x); auto; exists 0%nat, 0%nat; auto). rewrite E in H. contradiction. Qed.

(** C86: layerwise remapping keeps scale times weight, makes the largest weight the wanted one,
    and multiplies all scales by the same factor *)
Theorem C86_layer : forall p d x w s, shape d x w -> length s = d -> (0 < d)%nat -> (0 < x)%nat -> wr_type p = RmLayer -> 0 < wr_wmax p ->
  exists w' s', remap_core p w s = Ok (w', s') /\ same_logical d x w s w' s' /\
    ((exists i j, (i < d)%nat /\ (j < x)%nat /\ ent w i j <> 0) -> is_absmax (concat w') (wr_wmax p)) /\
    ((forall i j, (i < d)%nat -> (j < x)%nat -> ent w i j = 0) -> w' = w /\ s' = s) /\
    (exists f, 0 < f /\ s' = map (fun a => a * f) s) /\
    remap_core p w' s' = Ok (w', s').
Proof.
  intros p d x w s S L D X T W. unfold remap_core. rewrite T. set (a := maxabs_mat w / wr_wmax p). cbv zeta. assert (M0 : 0 <= maxabs_mat w) by (rewrite maxabs_mat_concat; apply maxabs_nonneg).
  destruct (Rltb 0 a) eqn:Ha.
  - apply Rltb_true in Ha. assert (Hm : 0 < maxabs_mat w). { destruct (Rle_lt_dec (maxabs_mat w) 0) as [B | B]; auto. unfold a in Ha. assert (maxabs_mat w = 0) as Z by lra. rewrite Z in Ha. unfold Rdiv in Ha. rewrite Rmult_0_l in Ha. lra. }
    do 2 eexists. split; [reflexivity|]. assert (Mx : maxabs_mat (map (map (fun x => x / a)) w) = wr_wmax p). { rewrite maxabs_mat_scale by auto. unfold a. field. lra. }
    split; [|split; [|split; [|split]]].
    + split; [now apply shape_map|]. split; [now rewrite map_length|]. intros i j Hi Hj. rewrite (ent_map _ _ d x) by auto. rewrite nth_map_R by lia. field. lra.
    + intros _. apply is_absmax_maxabs. split; [apply (concat_nonempty d x); auto; now apply shape_map|]. now rewrite <- maxabs_mat_concat.
    + intros Z. exfalso. rewrite maxabs_mat_concat in Hm. destruct (maxabs_zero (concat w)) as [_ Hz]. rewrite Hz in Hm; [lra|]. intros v Hv. apply (in_ent d x) in Hv as (i & j & Hi & Hj & ->); auto.
    + exists a. auto.
    + rewrite Mx. assert (E1 : wr_wmax p / wr_wmax p = 1) by (field; lra). rewrite E1. rewrite (proj2 (Rltb_true 0 1)) by lra. f_equal. f_equal.
      * apply map_id_ext. intros r. apply map_id_ext. intros v. field.
      * apply map_id_ext. intros v. ring.
  - apply Rltb_false in Ha. assert (Z : maxabs_mat w = 0). { destruct (Rle_lt_dec (maxabs_mat w) 0) as [B | B]; [lra|]. assert (0 < a) by (apply Rmult_lt_0_compat; [lra | now apply Rinv_0_lt_compat]). lra. }
    exists w, s. split; [reflexivity|]. rewrite maxabs_mat_concat in Z. pose proof (proj1 (maxabs_zero _) Z) as Z'. split; [|split; [|split; [|split]]].
    + split; [auto|]. split; auto.
    + intros (i & j & Hi & Hj & N). exfalso. apply N, Z'. apply (in_ent d x); eauto.
    + auto.
    + exists 1. split; [lra|]. symmetry. apply map_id_ext. intros; ring.
    + fold a. now rewrite (proj2 (Rltb_false 0 a)).
Qed.

(** C86: channelwise remapping treats every output on its own *)
Definition ch_fac (p : rpar) (r : list R) : R := pos_or_one (if negb (Reqb (wr_wmax p) 1) then maxabs r / wr_wmax p else maxabs r).
Lemma ch_fac_eq p r : 0 < wr_wmax p -> ch_fac p r = (if Rltb 0 (maxabs r) then maxabs r / wr_wmax p else 1).
Proof.
  intros W. unfold ch_fac. assert (E : (if negb (Reqb (wr_wmax p) 1) then maxabs r / wr_wmax p else maxabs r) = maxabs r / wr_wmax p).
  { destruct (Reqb (wr_wmax p) 1) eqn:Q; cbn [negb]; auto. apply Reqb_true in Q. rewrite Q. field. } rewrite E. unfold pos_or_one. pose proof (maxabs_nonneg r). destruct (Rltb 0 (maxabs r)) eqn:H1.
  - apply Rltb_true in H1. rewrite (proj2 (Rltb_true _ _)); auto. apply Rmult_lt_0_compat; auto. now apply Rinv_0_lt_compat.
  - apply Rltb_false in H1. rewrite (proj2 (Rltb_false _ _)); auto. replace (maxabs r) with 0 by lra. unfold Rdiv. rewrite Rmult_0_l. lra.
Qed.
Lemma ch_fac_pos p r : 0 < wr_wmax p -> 0 < ch_fac p r.
Proof. intros W. rewrite ch_fac_eq by auto. destruct (Rltb 0 (maxabs r)) eqn:H; [|lra]. apply Rltb_true in H. apply Rmult_lt_0_compat; auto. now apply Rinv_0_lt_compat. Qed.
Lemma ch_core p w s : wr_type p = RmChannel -> wr_range p <= 0 -> length s = length w ->
  remap_core p w s = Ok (map (fun r => map (fun v => v / ch_fac p r) r) w, map2 (fun r a => a * ch_fac p r) w s).
Proof.
  intros T Rg L. unfold remap_core. rewrite T, (proj2 (Rleb_true _ _) Rg). cbv zeta. f_equal. f_equal.
  - clear L s. induction w as [|r w IH]; [reflexivity|]. cbn [map map2]. now rewrite IH.
  - revert s L. induction w as [|r w IH]; intros [|a s] L; try discriminate; [reflexivity|]. cbn [map map2]. rewrite IH by (cbn in L; lia). reflexivity.
Qed.
Theorem C86_channel : forall p d x w s, shape d x w -> length s = d -> (0 < x)%nat -> wr_type p = RmChannel -> wr_range p <= 0 -> 0 < wr_wmax p ->
  exists w' s', remap_core p w s = Ok (w', s') /\ same_logical d x w s w' s' /\
    (forall i, (i < d)%nat -> ~ zero_row w i -> is_absmax (row w' i) (wr_wmax p)) /\
    (forall i, (i < d)%nat -> zero_row w i -> row w' i = row w i /\ nth i s' 0 = nth i s 0) /\
    (forall i, (i < d)%nat -> 0 < nth i s 0 -> 0 < nth i s' 0) /\
    remap_core p w' s' = Ok (w', s').
Proof.
  intros p d x w s S L X T Rg W. assert (Lw : length w = d) by (now destruct S). rewrite ch_core by (auto; lia). do 2 eexists. split; [reflexivity|]. set (w' := map (fun r => map (fun v => v / ch_fac p r) r) w). set (s' := map2 (fun (r : list R) a => a * ch_fac p r) w s).
  assert (Rw : forall i, (i < d)%nat -> row w' i = map (fun v => v / ch_fac p (row w i)) (row w i)).
  { intros i Hi. unfold row, w'. rewrite (nth_indep _ [] ((fun r => map (fun v => v / ch_fac p r) r) [])) by (rewrite map_length; rewrite <- Lw in Hi; exact Hi). exact (map_nth (fun r => map (fun v => v / ch_fac p r) r) w [] i). }
  assert (Rs : forall i, (i < d)%nat -> nth i s' 0 = nth i s 0 * ch_fac p (row w i)) by (intros i Hi; unfold s', row; now rewrite (nth_map2 _ _ _ [] 0 0) by lia).
  assert (S' : shape d x w'). { split; [unfold w'; now rewrite map_length|]. apply Forall_forall. intros r Hr. apply in_map_iff in Hr as (r0 & <- & Hr). rewrite map_length. destruct S as [_ F]. rewrite Forall_forall in F. now apply F. }
  assert (Ls : length s' = d) by (unfold s'; rewrite map2_length; lia).
  assert (Mx : forall i, (i < d)%nat -> ~ zero_row w i -> maxabs (row w' i) = wr_wmax p).
  { intros i Hi N. rewrite Rw by auto. rewrite maxabs_scale by (now apply ch_fac_pos). rewrite ch_fac_eq by auto. assert (P : 0 < maxabs (row w i)). { pose proof (maxabs_nonneg (row w i)). destruct (Req_dec (maxabs (row w i)) 0) as [Z | Z]; [|lra]. exfalso. apply N. intros v Hv. now apply (proj1 (maxabs_zero _) Z). }
    rewrite (proj2 (Rltb_true _ _) P). field. lra. }
  assert (Zr : forall i, (i < d)%nat -> zero_row w i -> ch_fac p (row w i) = 1).
  { intros i Hi Z. rewrite ch_fac_eq by auto. rewrite (proj2 (maxabs_zero _) Z). now rewrite (proj2 (Rltb_false 0 0)) by lra. }
  split; [|split; [|split; [|split]]].
  - split; [exact S'|]. split; [exact Ls|]. intros i j Hi Hj. pose proof (ch_fac_pos p (row w i) W). rewrite Rs by auto. change (ent w' i j) with (nth j (row w' i) 0). rewrite Rw by auto. rewrite nth_map_R by (unfold row; rewrite (shape_row d x); auto). change (nth j (row w i) 0) with (ent w i j). field. lra.
  - intros i Hi N. apply is_absmax_maxabs. split; [|symmetry; now apply Mx]. intros E. apply (f_equal (@length R)) in E. unfold row in E. rewrite (shape_row d x) in E by auto. cbn in E. lia.
  - intros i Hi Z. rewrite Rw, Rs by auto. rewrite (Zr i Hi Z). split; [apply map_id_ext; intros; field | ring].
  - intros i Hi P. rewrite Rs by auto. apply Rmult_lt_0_compat; auto. now apply ch_fac_pos.
  - assert (One : forall i, (i < d)%nat -> ch_fac p (row w' i) = 1).
    { intros i Hi. rewrite ch_fac_eq by auto. destruct (Req_dec (maxabs (row w i)) 0) as [Z | Z].
      - assert (zero_row w i) as Zi by (intros v Hv; now apply (proj1 (maxabs_zero _) Z)). rewrite Rw by auto. rewrite maxabs_scale by (now apply ch_fac_pos). rewrite Z. unfold Rdiv. rewrite Rmult_0_l. now rewrite (proj2 (Rltb_false 0 0)) by lra.
      - rewrite Mx; auto; [|intros Zi; apply Z; now apply (proj2 (maxabs_zero _))]. rewrite (proj2 (Rltb_true _ _) W). field. lra. }
    rewrite ch_core by (auto; destruct S'; lia). f_equal. f_equal.
    + rewrite <- (map_id w') at 2. apply map_ext_in. intros r Hr. apply (In_nth _ _ []) in Hr as (i & Hi & <-). change (nth i w' []) with (row w' i). rewrite One by (destruct S'; lia). apply map_id_ext. intros; field.
    + apply (nth_ext _ _ 0 0); [rewrite map2_length; destruct S'; lia|]. intros i Hi. rewrite map2_length in Hi. rewrite (nth_map2 _ _ _ [] 0 0) by (destruct S'; lia). change (nth i w' []) with (row w' i). rewrite One by (destruct S'; lia). ring.
Qed.
Theorem C86_nontrivial : exists p w (s : vec), shape 2 2 w /\ length s = 2%nat /\ wr_type p = RmChannel /\ wr_range p <= 0 /\ 0 < wr_wmax p /\ ~ zero_row w 0 /\ zero_row w 1.
Proof.
  exists {| wr_type := RmChannel; wr_wmax := 1/2; wr_range := 0; wr_ref := 0 |}, [[3; -4]; [0; 0]], [2; 5]. cbn [wr_type wr_wmax wr_range]. split; [split; [reflexivity | repeat constructor]|]. repeat split; try lra.
  - intros H. assert (3 = 0) by (apply H; now left). lra.
  - intros v [<- | [<- | []]]; reflexivity.
Qed.

(** C87: with a bound on the range of the scales *)
Lemma min_list_spec s : s <> [] -> is_min s (min_list s).
Proof.
  destruct s as [|a s]; [congruence|]. intros _. cbn [min_list]. revert a. induction s as [|b s IH]; intros a; cbn [fold_left].
  - split; [now left|]. intros v [<- | []]. lra.
  - destruct (IH (Rmin a b)) as [H1 H2]. split.
    + destruct H1 as [E | H1]; [|now right; right]. rewrite <- E. destruct (Rmin_cases a b) as [[_ ->] | [_ ->]]; [now left | right; now left].
    + pose proof (H2 (Rmin a b) (or_introl eq_refl)) as Hm. intros v [<- | [<- | Hv]]; [| |apply H2; now right]; (eapply Rle_trans; [exact Hm|]); [apply Rmin_l | apply Rmin_r].
Qed.
Lemma is_min_unique l a b : is_min l a -> is_min l b -> a = b.
Proof. intros [A1 A2] [B1 B2]. apply Rle_antisym; auto. Qed.
(** the scale the range is measured from *)
Definition reference (p : rpar) (m : R) : R := if Req_EM_T (wr_ref p) 0 then m else Rmax m (wr_ref p).
Theorem C87_bounded : forall p d x w s m, shape d x w -> length s = d -> (0 < x)%nat -> wr_type p = RmChannel -> 0 < wr_range p -> wr_wmax p = 1 ->
  (forall a, In a s -> 0 < a) -> is_min s m ->
  exists w' s', remap_core p w s = Ok (w', s') /\ same_logical d x w s w' s' /\
    forall i, (i < d)%nat -> 0 < nth i s' 0 /\ nth i s' 0 <= wr_range p * reference p m /\
      ((zero_row w i /\ nth i s' 0 = nth i s 0) \/
       is_absmax (row w' i) 1 \/
       (nth i s' 0 = wr_range p * reference p m /\ (~ zero_row w i -> exists a, 1 < a /\ is_absmax (row w' i) a))).
Proof.
  intros p d x w s m S L X T Rg W P Hm. assert (Lw : length w = d) by (now destruct S). unfold remap_core. rewrite T, (proj2 (Rleb_false _ _) Rg), (proj2 (Reqb_true _ _) W). cbn [negb]. cbv zeta.
  assert (Em : remap_min_scale p s = reference p m).
  { unfold remap_min_scale, reference. assert (Ne : s <> []) by (intros ->; destruct Hm as [[] _]). assert (El : min_list s = m) by (apply (is_min_unique s); auto; now apply min_list_spec). rewrite El. cbv zeta. assert (0 < m) by (apply P; now destruct Hm). rewrite Rmax_left by lra. rewrite (proj2 (Rltb_true 0 m)) by auto. cbn [andb]. unfold Reqb. now destruct (Req_EM_T (wr_ref p) 0). }
  rewrite Em. set (M := reference p m) in *. assert (PM : 0 < M). { unfold M, reference. assert (0 < m) by (apply P; now destruct Hm). destruct (Req_EM_T (wr_ref p) 0); mm. }
  do 2 eexists. split; [reflexivity|]. set (s' := map2 (fun (r : list R) old => bounded_scale p M (maxabs r) old) w s). assert (Ls : length s' = d) by (unfold s'; rewrite map2_length; lia).
  assert (Rs : forall i, (i < d)%nat -> nth i s' 0 = bounded_scale p M (maxabs (row w i)) (nth i s 0)) by (intros i Hi; unfold s', row; now rewrite (nth_map2 _ _ _ [] 0 0) by lia).
  set (w' := map2 (fun (r : list R) os => map (fun x => x * fst os / snd os) r) w (combine s s')). assert (Lc : length (combine s s') = d) by (rewrite combine_length; lia).
  assert (Rw : forall i, (i < d)%nat -> row w' i = map (fun v => v * nth i s 0 / nth i s' 0) (row w i)).
  { intros i Hi. unfold row, w'. rewrite (nth_map2 _ _ _ [] (0, 0) []) by lia. rewrite combine_nth by lia. reflexivity. }
  assert (S' : shape d x w').
  { split; [unfold w'; rewrite map2_length; lia|]. apply Forall_forall. intros r Hr. apply (In_nth _ _ []) in Hr as (i & Hi & <-). assert (Hd : (i < d)%nat) by (unfold w' in Hi; rewrite map2_length in Hi; lia). change (nth i w' []) with (row w' i). rewrite Rw, map_length by auto. unfold row. now apply (shape_row d x). }
  assert (Pi : forall i, (i < d)%nat -> 0 < nth i s 0) by (intros i Hi; apply P, nth_In; lia).
  assert (Bs : forall i, (i < d)%nat -> 0 < nth i s' 0 /\ nth i s' 0 <= wr_range p * M /\ let n := if Rltb 0 (maxabs (row w i)) then maxabs (row w i) * nth i s 0 else nth i s 0 in (nth i s' 0 = n \/ (nth i s' 0 = wr_range p * M /\ wr_range p * M < n))).
  { intros i Hi. rewrite Rs by auto. unfold bounded_scale. cbv zeta. rewrite (proj2 (Rltb_true 0 M) PM). pose proof (Pi i Hi) as Po. set (n := if Rltb 0 (maxabs (row w i)) then maxabs (row w i) * nth i s 0 else nth i s 0). assert (Pn : 0 < n). { unfold n. destruct (Rltb 0 (maxabs (row w i))) eqn:Q; auto. apply Rltb_true in Q. now apply Rmult_lt_0_compat. }
    destruct (Rltb (wr_range p) (n / M)) eqn:Q.
    - apply Rltb_true in Q. pose proof (Rmult_lt_0_compat _ _ Rg PM). split; [lra|]. split; [lra|]. right. split; [ring|]. apply (Rmult_lt_compat_r M) in Q; auto. unfold Rdiv in Q. rewrite Rmult_assoc, Rinv_l, Rmult_1_r in Q by lra. exact Q.
    - apply Rltb_false in Q. apply (Rmult_le_compat_r M) in Q; [|lra]. unfold Rdiv in Q. rewrite Rmult_assoc, Rinv_l, Rmult_1_r in Q by lra. auto. }
  split.
  - split; [exact S'|]. split; [exact Ls|]. intros i j Hi Hj. destruct (Bs i Hi) as [Q _]. change (ent w' i j) with (nth j (row w' i) 0). rewrite Rw by auto. rewrite nth_map_R by (unfold row; rewrite (shape_row d x); auto). change (nth j (row w i) 0) with (ent w i j). field. lra.
  - intros i Hi. destruct (Bs i Hi) as (Q1 & Q2 & Q3). split; [exact Q1|]. split; [exact Q2|]. cbv zeta in Q3. pose proof (Pi i Hi) as Po.
    assert (Mr : maxabs (row w' i) = maxabs (row w i) * nth i s 0 / nth i s' 0).
    { rewrite Rw by auto. rewrite (map_ext _ (fun v => v / (nth i s' 0 / nth i s 0))) by (intros; field; lra). rewrite maxabs_scale by (apply Rmult_lt_0_compat; auto; now apply Rinv_0_lt_compat). field. lra. }
    assert (Ne : row w' i <> []) by (intros E; apply (f_equal (@length R)) in E; unfold row in E; rewrite (shape_row d x) in E by auto; cbn in E; lia).
    destruct (Rltb 0 (maxabs (row w i))) eqn:Q.
    + apply Rltb_true in Q. right. destruct Q3 as [E | [E Lt]].
      * left. apply is_absmax_maxabs. split; auto. rewrite Mr, E. field. lra.
      * right. split; [exact E|]. intros _. exists (maxabs (row w' i)). split; [|now apply is_absmax_maxabs]. rewrite Mr. apply (Rmult_lt_reg_r (nth i s' 0)); auto. unfold Rdiv. rewrite Rmult_assoc, Rinv_l by lra. rewrite E in *. lra.
    + apply Rltb_false in Q. assert (Z : zero_row w i) by (intros v Hv; apply (proj1 (maxabs_zero (row w i))); auto; pose proof (maxabs_nonneg (row w i)); lra). destruct Q3 as [E | [E Lt]]; [left; auto|]. right; right. split; [exact E|]. intros N; contradiction.
Qed.
(** The bound needs the full range: any other wanted maximum is refused. *)
Theorem C87_wmax_one : forall p w s, wr_type p = RmChannel -> 0 < wr_range p -> wr_wmax p <> 1 -> remap_core p w s = Raise RuntimeError.
Proof. intros p w s T Rg W. unfold remap_core. rewrite T, (proj2 (Rleb_false _ _) Rg), (proj2 (Reqb_false _ _) W). reflexivity. Qed.
Theorem C87_nontrivial : exists p w s m, shape 2 1 w /\ length s = 2%nat /\ wr_type p = RmChannel /\ 0 < wr_range p /\ wr_wmax p = 1 /\ (forall a, In a s -> 0 < a) /\ is_min s m /\ m = 1 /\
  exists w', remap_core p w s = Ok (w', [1/2; 2]) /\ is_absmax (row w' 1) 4.
Proof.
  exists {| wr_type := RmChannel; wr_wmax := 1; wr_range := 2; wr_ref := 0 |}, [[1/2]; [-4]], [1; 2], 1. cbn [wr_type wr_wmax wr_range].
  split; [split; [reflexivity | repeat constructor]|]. split; [reflexivity|]. split; [reflexivity|]. split; [lra|]. split; [reflexivity|]. split; [intros a [<- | [<- | []]]; lra|]. split; [split; [now left|]; intros v [<- | [<- | []]]; lra|]. split; [reflexivity|].
  unfold remap_core. cbn [wr_type wr_wmax wr_range]. rewrite (proj2 (Rleb_false 2 0)), (proj2 (Reqb_true 1 1)) by lra. cbn [negb]. cbv zeta.
  assert (Em : remap_min_scale {| wr_type := RmChannel; wr_wmax := 1; wr_range := 2; wr_ref := 0 |} [1; 2] = 1).
  { unfold remap_min_scale. cbn [wr_ref min_list fold_left]. cbv zeta. rewrite (proj2 (Reqb_true 0 0)) by lra. rewrite andb_comm. cbn [negb andb]. mm. }
  rewrite Em. cbn [map2 combine map maxabs fold_right fst snd]. unfold bounded_scale. cbn [wr_range]. cbv zeta. rewrite (Rabs_pos_eq (1/2)), (Rabs_left (-4)) by lra. rewrite !Rmax_left by lra.
  rewrite (proj2 (Rltb_true 0 (1/2))), (proj2 (Rltb_true 0 (- -4))), (proj2 (Rltb_true 0 1)) by lra. rewrite (proj2 (Rltb_false 2 (1/2 * 1 / 1))), (proj2 (Rltb_true 2 (- -4 * 2 / 1))) by lra.
  rewrite !Rmult_1_l, !Rmult_1_r. eexists. split; [reflexivity|]. unfold row. cbn [nth]. split; [intros v [<- | []]; mm | eexists; split; [now left|]; mm].
Qed.

Print Assumptions C86_layer.
Print Assumptions C86_channel.
Print Assumptions C86_nontrivial.
Print Assumptions C87_bounded.
Print Assumptions C87_wmax_one.
Print Assumptions C87_nontrivial.
