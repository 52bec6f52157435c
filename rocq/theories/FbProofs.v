(** * Facts about the analog forward and backward pass *)
From Verif Require Import Prelude Rand CompModel PulseModel PulseProofs FbModel FbSpec.

(** ** Lists *)
Lemma maxabs_le0 (x : list R) : maxabs x <= 0 -> zero_input x.
Proof. intros H v I. pose proof (maxabs_ub x v I). pose proof (Rabs_pos v). destruct (Req_dec v 0); auto. apply Rabs_pos_lt in H2. lra. Qed.
Lemma zero_maxabs (x : list R) : zero_input x -> maxabs x = 0.
Proof. induction x as [|a x IH]; intros H; [reflexivity|]. change (Rmax (Rabs a) (maxabs x) = 0). rewrite IH by (intros v I; apply H; now right). rewrite (H a) by now left. rewrite Rabs_R0. mm. Qed.
Lemma dot_zero_r (r x : list R) : zero_input x -> dot r x = 0.
Proof. revert r. induction x as [|a x IH]; intros [|b r] H; cbn; auto. rewrite IH by (intros v I; apply H; now right). rewrite (H a) by now left. ring. Qed.
Lemma psum_zero x : zero_input x -> psum x = 0.
Proof. unfold psum. induction x as [|a x IH]; intros H; cbn; auto. rewrite IH by (intros v I; apply H; now right). rewrite (H a) by now left. rcase; lra. Qed.
Lemma nsum_zero x : zero_input x -> nsum x = 0.
Proof. unfold nsum. induction x as [|a x IH]; intros H; cbn; auto. rewrite IH by (intros v I; apply H; now right). rewrite (H a) by now left. rcase; lra. Qed.
Lemma fold_max_ub (x : list R) : forall a, a <= fold_left Rmax x a /\ forall v, List.In v x -> v <= fold_left Rmax x a.
Proof.
  induction x as [|b x IH]; intros a; cbn; [split; [lra | tauto]|]. destruct (IH (Rmax a b)) as [H1 H2]. split; [mm|]. intros v [<- | I]; auto. mm.
Qed.
Lemma listmax_ub x v : List.In v x -> v <= listmax x.
Proof. destruct x as [|a x]; cbn; [tauto|]. destruct (fold_max_ub x a) as [H1 H2]. intros [<- | I]; auto. Qed.
Lemma fold_max_in (x : list R) : forall a, fold_left Rmax x a = a \/ List.In (fold_left Rmax x a) x.
Proof.
  induction x as [|b x IH]; intros a; cbn; auto. destruct (IH (Rmax a b)) as [E | E]; auto. rewrite E. destruct (Rmax_cases a b) as [[_ ->] | [_ ->]]; auto.
Qed.
Lemma listmax_in x : x <> [] -> List.In (listmax x) x.
Proof. destruct x as [|a x]; [tauto|]. intros _. cbn. destruct (fold_max_in x a) as [-> | H]; auto. Qed.
Lemma matvec_zero W x : zero_input x -> matvec W x = map (fun _ => 0) W.
Proof. intros H. unfold matvec. apply map_ext. intros r. now apply dot_zero_r. Qed.
Lemma exact_matvec k W x : exact_mv k W x = map (Rmult k) (matvec W x).
Proof. unfold exact_mv, matvec. now rewrite map_map. Qed.
Lemma exact_zero k W x : zero_input x -> exact_mv k W x = map (fun _ => 0) W.
Proof. intros H. unfold exact_mv. apply map_ext. intros r. rewrite dot_zero_r by auto. ring. Qed.

(** ** Noise management *)
Lemma thr_pos t a : 0 < a -> 0 < thr t a.
Proof. intros H. unfold thr. destruct (Rltb 0 t) eqn:E; auto. apply Rltb_true in E. mm. Qed.
Lemma thr_nonneg t a : 0 <= a -> 0 <= thr t a.
Proof. intros H. unfold thr. destruct (Rltb 0 t) eqn:E; auto. apply Rltb_true in E. mm. Qed.
Lemma npsum_ge p x : thr (f_nm_thres p) (maxabs x) <= npsum p x.
Proof. unfold npsum. cbv zeta. apply Rmax_l. Qed.
Lemma nm_positive p aux x : nm_works p aux x -> fst (noise_mgmt p aux x) <= 0 -> zero_input x.
Proof.
  unfold nm_works, noise_mgmt. intros H. assert (T : thr (f_nm_thres p) (maxabs x) <= 0 -> zero_input x).
  { intros L. apply maxabs_le0. destruct (Rle_dec (maxabs x) 0); auto. pose proof (thr_pos (f_nm_thres p) (maxabs x)). lra. }
  destruct (f_nm p); cbn [fst].
  - lra.
  - exact T.
  - intros L. apply T. pose proof (npsum_ge p x). lra.
  - destruct H as [(v & I & P) | H]; auto. intros L. pose proof (listmax_ub x v I). pose proof (thr_pos (f_nm_thres p) (listmax x)). lra.
  - destruct (Rltb 0 (f_nm_thres p)) eqn:E; [apply Rltb_true in E; lra | lra].
  - destruct H as [D H]. intros L. pose proof (maxabs_nonneg x). destruct (Rltb aux 0) eqn:E; [apply maxabs_le0; lra|]. apply Rltb_false in E.
    destruct H as [H | [H | H]]; auto.
    + assert (0 < aux) by lra. destruct (Req_dec (f_nm_decay p) 1) as [E1 | N1]; [rewrite E1 in L; apply maxabs_le0; lra|]. assert (0 < aux * (1 - f_nm_decay p)) by (apply Rmult_lt_0_compat; lra). assert (0 <= f_nm_decay p * maxabs x) by (apply Rmult_le_pos; lra). lra.
    + apply maxabs_le0. assert (0 <= aux * (1 - f_nm_decay p)) by (apply Rmult_le_pos; lra). destruct (Rle_dec (maxabs x) 0); auto. assert (0 < f_nm_decay p * maxabs x) by (apply Rmult_lt_0_compat; lra). lra.
Qed.

(** ** The loop *)
Lemma is_perf_false p : on_crossbar p -> is_perf p = false.
Proof. intros [A B]. unfold is_perf. rewrite A. destruct (f_mv p); auto. now destruct B. Qed.
Lemma is_perf_crossbar p : is_perf p = false -> on_crossbar p.
Proof. unfold is_perf, on_crossbar. destruct (f_perfect p); [discriminate|]. destruct (f_mv p); split; auto; discriminate. Qed.
Definition the_scale (p : fbio) (nmv : R) (red : Z) : R := (if nm_on p && Rltb 0 nmv then 1 / nmv else 1) / (if bm_on p then IZR red else 1).
Lemma the_scale_pos p nmv red : (1 <= red)%Z -> 0 < the_scale p nmv red.
Proof.
  intros H. unfold the_scale. apply IZR_le in H. assert (0 < (if bm_on p then IZR red else 1)) by (destruct (bm_on p); lra). apply Rdiv_lt_0_compat; auto.
  destruct (nm_on p); cbn [andb]; [|lra]. destruct (Rltb 0 nmv) eqn:E; [|lra]. apply Rltb_true in E. apply Rdiv_lt_0_compat; lra.
Qed.
Definition worst_case (p : fbio) : bool := match f_bm p with BmWorst => true | _ => false end && match f_nm p with NmNPSum => false | _ => true end.
Lemma bm_loop_inv fuel p v W Wn x : forall nmv red round r, (1 <= red)%Z -> yields (bm_loop fuel p v W Wn x nmv red round) (Some r) ->
  exists nmv' red' ok, (1 <= red')%Z /\ snd (fst r) = the_scale p nmv' red' /\ (nmv' = nmv \/ (worst_case p = true /\ nmv' = npsum p x)) /\
    yields (analog_mv p v W Wn (snd (fst r)) x) (ok, snd r) /\ (bm_on p = false \/ ok = true \/ bm_limit p red' = true).
Proof.
  induction fuel as [|fuel IH]; intros nmv red round r Hr Y; cbn [bm_loop] in Y; [apply yields_ret in Y; discriminate|].
  set (worst := Nat.eqb round 1 && _ && _) in Y. set (nmv' := if worst then npsum p x else nmv) in Y. set (red' := if worst then 1%Z else red) in Y.
  assert (R' : (1 <= red')%Z) by (unfold red'; destruct worst; lia).
  assert (N' : nmv' = nmv \/ (worst_case p = true /\ nmv' = npsum p x)).
  { unfold nmv'. destruct worst eqn:E; auto. right. split; auto. unfold worst in E. apply andb_prop in E as [E E2]. apply andb_prop in E as [_ E1]. unfold worst_case. now rewrite E1, E2. }
  apply yields_bind in Y as ((ok & y) & Y1 & Y). fold (the_scale p nmv' red') in Y1, Y. cbn [fst snd] in Y. destruct (negb (bm_on p) || (ok || bm_limit p red')) eqn:E.
  - apply yields_ret in Y. injection Y as ->. exists nmv', red', ok. cbn [fst snd]. repeat (split; [now auto|]). destruct (bm_on p); auto. right. destruct ok; auto.
  - apply (IH nmv' (2 * red')%Z (Datatypes.S round) r) in Y; [|lia]. destruct Y as (n2 & r2 & ok2 & A & B & C & D). exists n2, r2, ok2. repeat (split; [assumption|]). split; [|exact D]. destruct C as [-> | [C1 ->]]; auto.
Qed.
(** the whole forward pass: either the short cut, or one accepted round *)
Lemma forward_inv p v W aux alpha x r : on_crossbar p -> yields (forward_vector p v W aux alpha x) (Some r) ->
  (nm_on p = true /\ fst (noise_mgmt p aux x) <= 0 /\ f_inp_noise p <= 0 /\ r = (map (fun _ => 0) W, snd (noise_mgmt p aux x))) \/
  (exists nmv red ok z, (1 <= red)%Z /\ (nmv = fst (noise_mgmt p aux x) \/ (worst_case p = true /\ nmv = npsum p x)) /\
    yields (analog_mv p v W (neg_weights p v W) (the_scale p nmv red) x) (ok, z) /\ (bm_on p = false \/ ok = true \/ bm_limit p red = true) /\
    r = (map (Rmult (f_out_scale p * alpha / the_scale p nmv red)) z, snd (noise_mgmt p aux x))).
Proof.
  intros C Y. unfold forward_vector in Y. rewrite (is_perf_false p C) in Y. destruct (noise_mgmt p aux x) as [nmv aux'] eqn:E. cbn [fst snd]. destruct (nm_on p && Rleb nmv 0 && Rleb (f_inp_noise p) 0) eqn:Q.
  - left. apply andb_prop in Q as [Q Q3]. apply andb_prop in Q as [Q1 Q2]. apply Rleb_true in Q2, Q3. apply yields_ret in Y. injection Y as ->. auto.
  - right. apply yields_bind in Y as (b & Y1 & Y). apply yields_ret in Y. destruct b as [[[n s] y]|]; [|discriminate]. injection Y as ->. apply bm_loop_inv in Y1 as (nmv' & red' & ok & A & B & C' & D & F); [|lia]. cbn [fst snd] in *. subst s. exists nmv', red', ok, y. auto 8.
Qed.

(** ** The stages *)
Lemma has_voff_quiet p : quiet_product p -> has_voff p = false.
Proof. intros (A & B & C & D & _). unfold has_voff. rewrite D, (proj2 (Rltb_false _ _) B), (proj2 (Rltb_false _ _) C). reflexivity. Qed.
Lemma has_cal_quiet p : quiet_output p -> has_cal p = false.
Proof. intros (A & B & C & _). unfold has_cal, has_nl. rewrite B, (proj2 (Rltb_false _ _) A), (proj2 (Rltb_false _ _) C). reflexivity. Qed.
Lemma single_pass_quiet p v W x : quiet_product p -> single_pass p v W x = Ret (matvec W x).
Proof.
  intros H. unfold single_pass. rewrite has_voff_quiet by auto. destruct H as (A & B & C & D & N & _). rewrite (proj2 (Rltb_false _ _) A). unfold wnoise. destruct N as [-> | N]; auto. rewrite (proj2 (Rltb_false _ _) N). destruct (f_wn p); auto.
Qed.
Lemma neg_weights_quiet p v W : quiet_product p -> neg_weights p v W = W.
Proof. intros (A & B & C & D & N & E). unfold neg_weights. now rewrite (proj2 (Rltb_false _ _) E). Qed.
Lemma clip_unlimited b v : unlimited b -> clip_o (match b with Some b => if Rltb 0 b then Some b else None | None => None end) v = v.
Proof. destruct b as [b|]; cbn; auto. intros H. now rewrite (proj2 (Rltb_false _ _) H). Qed.
Lemma disc_none sto v rs r : rs <= 0 -> yields (disc_sr sto v rs) r -> r = v.
Proof. intros H Y. unfold disc_sr in Y. rewrite (proj2 (Rleb_true _ _) H) in Y. now apply yields_ret in Y. Qed.
Lemma prep_elem_quiet p s v r : quiet_input p -> f_inp_res p <= 0 -> unlimited (f_inp_bound p) -> yields (prep_elem p s v) r -> r = v * s.
Proof.
  intros [N A] R B Y. unfold prep_elem in Y. apply yields_bind in Y as (u & Y1 & Y). apply disc_none in Y1; auto. subst u. rewrite clip_unlimited in Y by auto. rewrite (proj2 (Rltb_false _ _) N) in Y. apply yields_bind in Y as (u & Y1 & Y). apply yields_ret in Y1. subst u. apply yields_ret in Y. rewrite (proj2 (Reqb_true _ _) A) in Y. exact Y.
Qed.
Lemma forall2_map {A B} (f : A -> B) (P : A -> B -> Prop) l r : (forall a b, P a b -> b = f a) -> Forall2 P l r -> r = map f l.
Proof. intros H F. induction F; cbn; auto. rewrite IHF, (H _ _ H0). reflexivity. Qed.
Lemma prepare_quiet p s x r : quiet_input p -> f_inp_res p <= 0 -> unlimited (f_inp_bound p) -> yields (prepare p s x) r -> r = map (Rmult s) x.
Proof.
  intros Q R B Y. unfold prepare in Y. apply yields_mapMM in Y. rewrite (forall2_map (fun v => v * s) _ _ _ (fun a b => prep_elem_quiet p s a b Q R B) Y). apply map_ext. intros; ring.
Qed.
Lemma out_limit_unlimited p : unlimited (f_out_bound p) -> out_limit p = None.
Proof. unfold out_limit, unlimited. destruct (f_out_bound p); auto. intros H. now rewrite (proj2 (Rltb_false _ _) H). Qed.
Lemma fin_elem_quiet p v i y r : quiet_output p -> yields (fin_elem p v i y) r -> yields (disc_sr (f_out_sto p) y (f_out_res p)) r.
Proof.
  intros Q Y. unfold fin_elem in Y. rewrite has_cal_quiet in Y by auto. destruct Q as (_ & _ & _ & A & N & S). rewrite (proj2 (Rltb_false _ _) A), (proj2 (Rltb_false _ _) S), N in Y. apply yields_gauss in Y as (g & Y). now replace (y + 0 * g) with y in Y by ring.
Qed.
Lemma combine_seq_map {A B} (f : A -> B) (l : list A) : forall k, map (fun iy => f (snd iy)) (combine (seq k (length l)) l) = map f l.
Proof. induction l as [|a l IH]; intros k; cbn; auto. now rewrite IH. Qed.
Lemma finalize_len p v y o : yields (finalize p v y) o -> length (snd o) = length y.
Proof.
  intros Y. unfold finalize in Y. apply yields_bind in Y as (raw & Y1 & Y). apply yields_ret in Y. subst o. cbn [snd]. rewrite map_length. apply mapMM_length in Y1. rewrite Y1, combine_length, seq_length. lia.
Qed.
(** the values of the outputs before the bound *)
Definition raw_of (p : fbio) (v : mvpar) (y raw : vec) : Prop := length raw = length y /\ forall i, (i < length y)%nat -> yields (fin_elem p v i (nth i y 0)) (nth i raw 0).
Lemma finalize_spec p v y o : yields (finalize p v y) o <-> exists raw, raw_of p v y raw /\ o = (bound_test p raw, map (clip_o (out_limit p)) raw).
Proof.
  unfold finalize. rewrite yields_bind. assert (E : forall raw, yields (mapMM (fun iy => fin_elem p v (fst iy) (snd iy)) (combine (seq 0 (length y)) y)) raw <-> raw_of p v y raw).
  { intros raw. rewrite yields_mapMM. unfold raw_of. enough (G : forall k, Forall2 (fun a b => yields (fin_elem p v (fst a) (snd a)) b) (combine (seq k (length y)) y) raw <-> length raw = length y /\ forall i, (i < length y)%nat -> yields (fin_elem p v (k + i) (nth i y 0)) (nth i raw 0)) by apply G.
    revert raw. induction y as [|a y IH]; intros raw k; cbn [length seq combine].
    - split; [intros F; inversion F; cbn; split; [auto | intros; lia] | intros [L _]; destruct raw; [constructor | discriminate]].
    - destruct raw as [|b raw]; [split; [intros F; inversion F | intros [L _]; discriminate]|]. split.
      + intros F. inversion F as [|? ? ? ? H F']; subst. apply IH in F' as [L H']. split; [cbn; lia|]. intros [|i] Hi; cbn [nth]; [rewrite Nat.add_0_r; exact H|]. rewrite <- Nat.add_succ_comm. apply H'. lia.
      + intros [L H]. constructor; [specialize (H 0%nat ltac:(lia)); rewrite Nat.add_0_r in H; exact H|]. apply IH. split; [cbn in L; lia|]. intros i Hi. specialize (H (Datatypes.S i) ltac:(lia)). rewrite <- Nat.add_succ_comm in H. exact H. }
  split; [intros (raw & A & B); exists raw; apply yields_ret in B; split; [now apply E | auto] | intros (raw & A & B); exists raw; split; [now apply E | now apply yields_ret]].
Qed.
Lemma bound_step_none p ok v : out_limit p = None -> bound_step p ok v = ok.
Proof. unfold bound_step. now intros ->. Qed.
Lemma bound_test_none p y : out_limit p = None -> bound_test p y = true.
Proof. intros H. unfold bound_test. destruct (f_bm p); auto; induction y; cbn; auto; now rewrite bound_step_none. Qed.
Lemma finalize_exact p v y o : quiet_output p -> f_out_res p <= 0 -> yields (finalize p v y) o -> o = (bound_test p y, map (clip_o (out_limit p)) y).
Proof.
  intros Q R Y. apply finalize_spec in Y as (raw & [L H] & ->). enough (raw = y) by now subst raw. apply (nth_ext _ _ 0 0); auto. intros i Hi. rewrite L in Hi. specialize (H i Hi). apply fin_elem_quiet in H; auto. now apply disc_none in H.
Qed.
Lemma finalize_ideal p v y o : quiet_output p -> f_out_res p <= 0 -> unlimited (f_out_bound p) -> yields (finalize p v y) o -> o = (true, y).
Proof.
  intros Q R U Y. rewrite (finalize_exact p v y o) by auto. pose proof (out_limit_unlimited p U) as E. rewrite E, bound_test_none by auto. rewrite <- (map_id y) at 2. f_equal.
Qed.
Lemma dot_parts (r x : list R) : dot r (pos_part x) + dot r (neg_part x) = dot r x.
Proof.
  revert x. induction r as [|a r IH]; intros [|b x]; try (cbn; lra).
  change (a * (if Rltb 0 b then b else 0) + dot r (pos_part x) + (a * (if Rltb b 0 then b else 0) + dot r (neg_part x)) = a * b + dot r x). rewrite <- (IH x).
  destruct (Rltb 0 b) eqn:E1; destruct (Rltb b 0) eqn:E2; try apply Rltb_true in E1; try apply Rltb_true in E2; try apply Rltb_false in E1; try apply Rltb_false in E2; try ring; try (exfalso; lra). assert (b = 0) as -> by lra. ring.
Qed.
Lemma vadd_matvec W x : vadd (matvec W (pos_part x)) (matvec W (neg_part x)) = matvec W x.
Proof. unfold vadd, matvec. induction W as [|r W IH]; cbn; auto. now rewrite IH, dot_parts. Qed.
Lemma matvec_scale W s x : matvec W (map (Rmult s) x) = map (Rmult s) (matvec W x).
Proof. unfold matvec. rewrite map_map. apply map_ext. intros r. apply dot_scale_r. Qed.
Lemma analog_mv_ideal p v W s x o : on_crossbar p -> quiet p -> no_converters p -> yields (analog_mv p v W W s x) o -> o = (true, map (Rmult s) (matvec W x)).
Proof.
  intros [_ C] (Q1 & Q2 & Q3) (R1 & R2 & B1 & B2) Y. unfold analog_mv in Y. apply yields_bind in Y as (x' & Y1 & Y). apply prepare_quiet in Y1; auto. subst x'. rewrite <- matvec_scale. set (x' := map (Rmult s) x) in *.
  destruct (f_mv p); [now destruct C | | |]; rewrite ?single_pass_quiet in Y by auto.
  - cbn [bindM] in Y. now apply finalize_ideal in Y.
  - cbn [bindM] in Y. rewrite ?single_pass_quiet in Y by auto. cbn [bindM] in Y. apply finalize_ideal in Y; auto. now rewrite vadd_matvec in Y.
  - cbn [bindM] in Y. apply yields_bind in Y as (b1 & Y1 & Y). rewrite ?single_pass_quiet in Y by auto. cbn [bindM] in Y. apply yields_bind in Y as (b2 & Y2 & Y). apply finalize_ideal in Y1, Y2; auto. subst b1 b2. apply yields_ret in Y. subst o. cbn [fst snd andb]. now rewrite vadd_matvec.
Qed.

(** ** Nothing is thrown *)
Lemma total_disc sto v rs : total (disc_sr sto v rs).
Proof. unfold disc_sr. destruct (Rleb rs 0); [apply total_ret|]. destruct sto; [apply total_unif; intros|]; apply total_ret. Qed.
Lemma total_prepare p s x : total (prepare p s x).
Proof.
  unfold prepare. apply total_mapMM. intros a _. unfold prep_elem. apply total_bind; [apply total_disc|]. intros b _. apply total_bind; [|intros; apply total_ret]. destruct (Rltb 0 (f_inp_noise p)); [apply total_gauss; intros|]; apply total_ret.
Qed.
Lemma total_finalize p v y : total (finalize p v y).
Proof. unfold finalize. apply total_bind; [|intros; apply total_ret]. apply total_mapMM. intros a _. unfold fin_elem. cbv zeta. apply total_gauss. intros. apply total_disc. Qed.
Lemma total_single p v W x : total (single_pass p v W x).
Proof. unfold single_pass, wnoise. cbv zeta. destruct (f_wn p); [apply total_ret | |]; (destruct (Rltb 0 (f_w_noise p)); [apply total_mapMM; intros; apply total_gauss; intros; apply total_ret | apply total_ret]). Qed.
Lemma total_analog p v W Wn s x : on_crossbar p -> total (analog_mv p v W Wn s x).
Proof.
  intros [_ C]. unfold analog_mv. apply total_bind; [apply total_prepare|]. intros x' _. destruct (f_mv p); [now destruct C | | |]; repeat (first [apply total_single | apply total_finalize | apply total_ret | apply total_bind; [| intros ? _]]).
Qed.
Lemma total_loop fuel p v W Wn x : on_crossbar p -> forall nmv red round, total (bm_loop fuel p v W Wn x nmv red round).
Proof.
  intros C. induction fuel as [|fuel IH]; intros nmv red round; cbn [bm_loop]; [apply total_ret|]. apply total_bind; [now apply total_analog|]. intros a _. match goal with |- total (if ?c then _ else _) => destruct c end; [apply total_ret | apply IH].
Qed.
Lemma total_forward p v W aux alpha x : total (forward_vector p v W aux alpha x).
Proof.
  unfold forward_vector. destruct (is_perf p) eqn:E; [apply total_ret|]. destruct (noise_mgmt p aux x). match goal with |- total (if ?c then _ else _) => destruct c end; [apply total_ret|]. apply total_bind; [now apply total_loop, is_perf_crossbar | intros; apply total_ret].
Qed.
Lemma total_backward p v W aux alpha d : total (backward_vector p v W aux alpha d).
Proof.
  unfold backward_vector. destruct (is_perf p) eqn:E; [apply total_ret|]. destruct (noise_mgmt p aux d). match goal with |- total (if ?c then _ else _) => destruct c end; [apply total_ret|]. apply total_bind; [now apply total_analog, is_perf_crossbar | intros; apply total_ret].
Qed.
(** ** The rounds *)
Lemma worst_off p round : worst_case p = false \/ (2 <= round)%nat ->
  Nat.eqb round 1 && match f_bm p with BmWorst => true | _ => false end && match f_nm p with NmNPSum => false | _ => true end = false.
Proof.
  intros [H | H].
  - rewrite <- andb_assoc. unfold worst_case in H. rewrite H. apply andb_false_r.
  - replace (Nat.eqb round 1) with false by (symmetry; apply Nat.eqb_neq; lia). reflexivity.
Qed.
Lemma bm_limit_factor p red : bm_limit p red = false -> (red <= f_bm_factor p)%Z.
Proof. unfold bm_limit. intros H. apply orb_false_iff in H as [H _]. apply Z.ltb_ge in H. exact H. Qed.
Lemma bm_rounds_tail fuel p v W Wn x : forall nmv round k r, worst_case p = false \/ (2 <= round)%nat -> (1 <= fuel)%nat ->
  (f_bm_factor p < 2 ^ Z.of_nat (k + fuel - 1))%Z -> yields (bm_loop fuel p v W Wn x nmv (2 ^ Z.of_nat k) round) r ->
  exists n s y, r = Some (n, s, y) /\ (round <= n)%nat /\ (n = round \/ (2 ^ Z.of_nat (k + (n - round) - 1) <= f_bm_factor p)%Z).
Proof.
  induction fuel as [|fuel IH]; intros nmv round k r Hw Hf Hb Y; [lia|]. cbn [bm_loop] in Y. rewrite (worst_off p round Hw) in Y. cbv zeta in Y. apply yields_bind in Y as ((ok & y) & _ & Y). cbn [fst snd] in Y.
  destruct (negb (bm_on p) || (ok || bm_limit p (2 ^ Z.of_nat k))) eqn:E.
  - apply yields_ret in Y. eexists _, _, _. split; [exact Y|]. split; [lia | auto].
  - apply orb_false_iff in E as [_ E]. apply orb_false_iff in E as [_ E]. apply bm_limit_factor in E.
    assert (Fz : (1 <= fuel)%nat). { destruct fuel; [|lia]. replace (k + 1 - 1)%nat with k in Hb by lia. lia. }
    replace (2 * 2 ^ Z.of_nat k)%Z with (2 ^ Z.of_nat (Datatypes.S k))%Z in Y by (rewrite Nat2Z.inj_succ, Z.pow_succ_r by lia; reflexivity).
    apply IH in Y; [| destruct Hw; [auto | right; lia] | auto | replace (Datatypes.S k + fuel - 1)%nat with (k + Datatypes.S fuel - 1)%nat by lia; exact Hb]. destruct Y as (n & s & y' & -> & L & H). exists n, s, y'. split; auto. split; [lia|]. right. destruct H as [-> | H].
    + replace (k + (Datatypes.S round - round) - 1)%nat with k by lia. exact E.
    + replace (k + (n - round) - 1)%nat with (Datatypes.S k + (n - Datatypes.S round) - 1)%nat by lia. exact H.
Qed.
Lemma pow2_gt_nat n : (Z.of_nat n < 2 ^ Z.of_nat n)%Z.
Proof. apply Z.pow_gt_lin_r; lia. Qed.
Lemma bm_fuel_enough p k : (Z.to_nat (f_bm_factor p) <= k)%nat -> (f_bm_factor p < 2 ^ Z.of_nat k)%Z.
Proof. intros H. pose proof (pow2_gt_nat k). lia. Qed.
Lemma bm_rounds p v W Wn x nmv r : yields (bm_loop (bm_fuel p) p v W Wn x nmv 1 0) r ->
  exists n s y, r = Some (n, s, y) /\ if worst_case p then (n <= 1)%nat \/ (2 ^ Z.of_nat (n - 2) <= f_bm_factor p)%Z else n = 0%nat \/ (2 ^ Z.of_nat (n - 1) <= f_bm_factor p)%Z.
Proof.
  intros Y. unfold bm_fuel in Y. destruct (worst_case p) eqn:Ew.
  - replace (Z.to_nat (f_bm_factor p) + 4)%nat with (Datatypes.S (Datatypes.S (Z.to_nat (f_bm_factor p) + 2))) in Y by lia. cbn [bm_loop Nat.eqb andb] in Y. cbv zeta in Y. apply yields_bind in Y as ((ok & y) & _ & Y). cbn [fst snd] in Y.
    destruct (negb (bm_on p) || (ok || bm_limit p 1)) eqn:E; [apply yields_ret in Y; eexists _, _, _; split; [exact Y | left; lia]|].
    unfold worst_case in Ew. rewrite Ew in Y. fold (worst_case p) in Ew. cbv zeta in Y. apply yields_bind in Y as ((ok2 & y2) & _ & Y). cbn [fst snd] in Y.
    destruct (negb (bm_on p) || (ok2 || bm_limit p 1)) eqn:E2; [apply yields_ret in Y; eexists _, _, _; split; [exact Y | left; lia]|].
    apply orb_false_iff in E2 as [_ E2]. apply orb_false_iff in E2 as [_ E2]. apply bm_limit_factor in E2. change (2 * 1)%Z with (2 ^ Z.of_nat 1)%Z in Y. apply bm_rounds_tail in Y; [| right; lia | lia | apply bm_fuel_enough; lia]. destruct Y as (n & s & y' & -> & L & H). exists n, s, y'. split; auto. right. destruct H as [-> | H].
    + exact E2.
    + replace (n - 2)%nat with (1 + (n - 2) - 1)%nat by lia. exact H.
  - change 1%Z with (2 ^ Z.of_nat 0)%Z in Y. apply bm_rounds_tail in Y; [| auto | lia | apply bm_fuel_enough; lia]. destruct Y as (n & s & y' & -> & L & H). exists n, s, y'. split; auto. destruct H as [-> | H]; auto. right. replace (n - 1)%nat with (0 + (n - 0) - 1)%nat by lia. exact H.
Qed.
