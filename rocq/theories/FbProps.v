(** * The analog forward and backward pass: exactness (C95) *)
From Verif Require Import Prelude Rand CompModel PulseModel PulseProofs FbModel FbSpec FbProofs.

(** a parameter set to start from: everything is off, [b] bounds both converters if given *)
Definition io0 (mv : mvtype) (nm : nmtype) (bm : bmtype) (ib ob : option R) : fbio :=
  {| f_perfect := false; f_mv := mv; f_wn := WnNone; f_irdrop := 0; f_irG := 1; f_voff_std := 0; f_voff_vec := []; f_wmin := -1; f_rs := 0; f_rsmax := None;
     f_inp_asym := 0; f_out_asym := 0; f_wasym := 0; f_inp_bound := ib; f_inp_res := 0; f_inp_sto := false; f_inp_noise := 0;
     f_out_noise := 0; f_out_noise_std := 0; f_w_noise := 0; f_out_bound := ob; f_out_res := 0; f_out_sto := false; f_out_scale := 1;
     f_nl := 0; f_nl_std := 0; f_nl_vec := []; f_slope := 0; f_nm := nm; f_nm_thres := 0; f_nm_wmax := 1; f_nm_decay := 1/1000;
     f_bm := bm; f_bm_neg := true; f_bm_factor := 1000; f_bm_res := 1/4 |}.
Definition mv0 : mvpar := {| v_off := []; v_asym := []; v_nl := []; v_nlf := 1; v_noise := [] |}.
Lemma io0_quiet mv nm bm ib ob : quiet (io0 mv nm bm ib ob).
Proof. unfold quiet, quiet_product, quiet_input, quiet_output. cbn. repeat split; auto; lra. Qed.

(** C95: a perfect pass is the exact product, draws nothing and never fails *)
Theorem C95_perfect : forall p v W aux alpha x d, f_perfect p = true \/ f_mv p = MvIdeal ->
  forward_vector p v W aux alpha x = Ret (Some (exact_mv (f_out_scale p * alpha) W x, aux)) /\
  backward_vector p v W aux alpha d = Ret (exact_mv (f_out_scale p * alpha) (transposed W) d, aux).
Proof.
  intros p v W aux alpha x d H. assert (E : is_perf p = true) by (unfold is_perf; destruct H as [-> | ->]; [reflexivity | apply orb_true_r]). unfold forward_vector, backward_vector. rewrite E, !exact_matvec. auto.
Qed.
(** C95: so is a pass on the crossbar when every non-ideality is off *)
Theorem C95_exact_forward : forall p v W aux alpha x r, on_crossbar p -> quiet p -> no_converters p -> nm_works p aux x ->
  yields (forward_vector p v W aux alpha x) (Some r) -> fst r = exact_mv (f_out_scale p * alpha) W x.
Proof.
  intros p v W aux alpha x r C Q N Wk Y. apply forward_inv in Y; auto. destruct Y as [(_ & L & _ & ->) | (nmv & red & ok & z & Hr & _ & Y & _ & ->)].
  - cbn [fst]. symmetry. apply exact_zero. now apply (nm_positive p aux).
  - rewrite neg_weights_quiet in Y by (now destruct Q). apply analog_mv_ideal in Y; auto. injection Y as _ ->. cbn [fst]. rewrite exact_matvec, map_map. apply map_ext. intros y. pose proof (the_scale_pos p nmv red Hr). field. lra.
Qed.
Theorem C95_exact_backward : forall p v W aux alpha d r, on_crossbar p -> quiet p -> no_converters p -> nm_works p aux d ->
  yields (backward_vector p v W aux alpha d) r -> fst r = exact_mv (f_out_scale p * alpha) (transposed W) d.
Proof.
  intros p v W aux alpha d r C Q N Wk Y. unfold backward_vector in Y. rewrite (is_perf_false p C) in Y. pose proof (nm_positive p aux d Wk) as Z. destruct (noise_mgmt p aux d) as [nmv aux'] eqn:E. cbn [fst] in Z. destruct (nm_on p && Rleb nmv 0) eqn:B.
  - apply andb_prop in B as [_ B]. apply Rleb_true in B. apply yields_ret in Y. subst r. cbn [fst]. symmetry. apply exact_zero. auto.
  - rewrite neg_weights_quiet in Y by (now destruct Q). apply yields_bind in Y as (o & Y1 & Y). apply yields_ret in Y. subst r. apply analog_mv_ideal in Y1; auto. subst o. cbn [fst snd]. rewrite exact_matvec, map_map. apply map_ext. intros y.
    assert (Pn : 0 < nmv). { apply andb_false_iff in B as [B | B]; [|now apply Rleb_false in B]. unfold nm_on in B. unfold noise_mgmt in E. destruct (f_nm p); try discriminate. injection E as <- _. lra. } field. lra.
Qed.
(** C95: the backward pass is the transpose of the forward pass *)
Lemma dot_map_plus (f g : nat -> R) l x : dot (map (fun j => f j + g j) l) x = dot (map f l) x + dot (map g l) x.
Proof. revert x. induction l as [|a l IH]; intros [|b x]; cbn; try lra. rewrite IH. ring. Qed.
Lemma map_nth_seq (r : list R) n : length r = n -> map (fun j => nth j r 0) (seq 0 n) = r.
Proof. intros <-. apply (nth_ext _ _ 0 0); [now rewrite map_length, seq_length|]. intros i Hi. rewrite map_length, seq_length in Hi. rewrite (nth_indep _ 0 (nth 0 r 0)) by now rewrite map_length, seq_length. rewrite (map_nth (fun j => nth j r 0)). now rewrite seq_nth. Qed.
Lemma transposed_adjoint d x W u z : shape d x W -> (0 < d)%nat -> length u = d -> dot (matvec (transposed W) u) z = dot u (matvec W z).
Proof.
  intros [L F] D Lu. assert (E : matvec (transposed W) u = map (fun j => dot (map (fun row => nth j row 0) W) u) (seq 0 x)).
  { unfold matvec, transposed. rewrite map_map. f_equal. f_equal. destruct W as [|r W]; [cbn in L; lia|]. cbn [nth]. now inversion F. }
  rewrite E. clear E D. revert d u L Lu. induction W as [|r W IH]; intros d [|a u] L Lu; cbn [length] in *; try lia.
  - cbn. clear. generalize (seq 0 x). intros l. revert z. induction l; intros [|b z]; cbn; auto. rewrite IHl. lra.
  - inversion F as [|? ? Lr F']; subst. cbn [map dot matvec]. rewrite (dot_map_plus (fun j => nth j r 0 * a) (fun j => dot (map (fun row => nth j row 0) W) u)). rewrite (IH F' (length W) u) by lia. f_equal. rewrite <- (map_map (fun j => nth j r 0) (fun y => y * a)).
    match goal with |- context [map (fun j => nth j r 0) (seq 0 ?m)] => rewrite (map_nth_seq r m) by auto end. rewrite (map_ext (fun y => y * a) (Rmult a)) by (intros; ring). rewrite dot_scale_l. reflexivity.
Qed.
Theorem C95_adjoint : forall p q v v' W aux alpha x u d n y g, shape d n W -> (0 < d)%nat -> length u = d ->
  (on_crossbar p /\ quiet p /\ no_converters p /\ nm_works p aux x) -> (on_crossbar q /\ quiet q /\ no_converters q /\ nm_works q aux u) -> f_out_scale p = f_out_scale q ->
  yields (forward_vector p v W aux alpha x) (Some y) -> yields (backward_vector q v' W aux alpha u) g -> dot u (fst y) = dot (fst g) x.
Proof.
  intros p q v v' W aux alpha x u d n y g S D Lu (P1 & P2 & P3 & P4) (Q1 & Q2 & Q3 & Q4) E Yf Yb. rewrite (C95_exact_forward p v W aux alpha x y) by auto. rewrite (C95_exact_backward q v' W aux alpha u g) by auto. rewrite !exact_matvec, E, dot_scale_l, dot_scale_r, (transposed_adjoint d n) by auto. reflexivity.
Qed.
Example C95_nontrivial : let p := io0 MvSepSum NmAbsMax BmIter None None in let W := [[1; 2]; [3; -4]] in
  on_crossbar p /\ quiet p /\ no_converters p /\ nm_works p (-1) [1; -3] /\
  exists r, yields (forward_vector p mv0 W (-1) 2 [1; -3]) (Some r) /\ fst r = [-10; 30].
Proof.
  cbv zeta. set (p := io0 _ _ _ _ _). assert (C : on_crossbar p) by (split; [reflexivity | discriminate]). assert (Q : quiet p) by apply io0_quiet. assert (N : no_converters p) by (unfold no_converters; cbn; repeat split; auto; lra). assert (K : nm_works p (-1) [1; -3]) by exact Logic.I.
  repeat (split; [assumption|]). destruct (total_yields _ (total_forward p mv0 [[1; 2]; [3; -4]] (-1) 2 [1; -3])) as (r & Y). destruct r as [r|].
  - exists r. split; auto. rewrite (C95_exact_forward p mv0 [[1; 2]; [3; -4]] (-1) 2 [1; -3] r C Q N K Y). cbn. repeat (f_equal; try lra).
  - exfalso. pose proof Y as Y'. unfold forward_vector in Y'. rewrite (is_perf_false p C) in Y'. destruct (noise_mgmt p (-1) [1; -3]) as [nmv aux']. destruct (nm_on p && _ && _); [apply yields_ret in Y'; discriminate|]. apply yields_bind in Y' as (b & Y1 & Y'). apply bm_rounds in Y1 as (n & s & z & -> & _). apply yields_ret in Y'. discriminate.
Qed.
(** refuted: noise management by the maximum returns zeros when no input is positive *)
Theorem C95_max_refuted : exists p v W x r, on_crossbar p /\ quiet p /\ no_converters p /\ f_nm p = NmMax /\
  yields (forward_vector p v W (-1) 1 x) (Some r) /\ fst r = [0] /\ exact_mv (f_out_scale p * 1) W x = [-1].
Proof.
  set (p := io0 MvOne NmMax BmNone None None). exists p, mv0, [[1]], [-1], ([0], -1). assert (C : on_crossbar p) by (split; [reflexivity | discriminate]).
  repeat (split; [first [exact C | apply io0_quiet | unfold no_converters; cbn; repeat split; auto; lra | reflexivity]|]). split; [|split; [reflexivity|]].
  - unfold forward_vector. rewrite (is_perf_false p C). cbn [noise_mgmt p io0 f_nm nm_on f_nm_thres listmax fold_left thr f_inp_noise andb]. unfold thr. rewrite (proj2 (Rltb_false 0 0)) by lra. rewrite (proj2 (Rleb_true (-1) 0)) by lra. rewrite (proj2 (Rleb_true 0 0)) by lra. apply yields_ret. reflexivity.
  - cbn. f_equal. lra.
Qed.
(** refuted: with decay 0 the average absolute maximum stays 0 after a first input of 0, and every later output is 0 *)
Theorem C95_average_refuted : exists p v W, on_crossbar p /\ quiet p /\ no_converters p /\ f_nm p = NmAverage /\ f_nm_decay p = 0 /\
  exists a, yields (forward_vector p v W (-1) 1 [0]) (Some ([0], a)) /\ forall x, yields (forward_vector p v W a 1 x) (Some ([0], a)).
Proof.
  set (p := {| f_perfect := false; f_mv := MvOne; f_wn := WnNone; f_irdrop := 0; f_irG := 1; f_voff_std := 0; f_voff_vec := []; f_wmin := -1; f_rs := 0; f_rsmax := None;
     f_inp_asym := 0; f_out_asym := 0; f_wasym := 0; f_inp_bound := None; f_inp_res := 0; f_inp_sto := false; f_inp_noise := 0;
     f_out_noise := 0; f_out_noise_std := 0; f_w_noise := 0; f_out_bound := None; f_out_res := 0; f_out_sto := false; f_out_scale := 1;
     f_nl := 0; f_nl_std := 0; f_nl_vec := []; f_slope := 0; f_nm := NmAverage; f_nm_thres := 0; f_nm_wmax := 1; f_nm_decay := 0;
     f_bm := BmNone; f_bm_neg := true; f_bm_factor := 1000; f_bm_res := 1/4 |}). exists p, mv0, [[1]]. assert (C : on_crossbar p) by (split; [reflexivity | discriminate]).
  split; [exact C|]. split; [unfold quiet, quiet_product, quiet_input, quiet_output; cbn; repeat split; auto; lra|]. split; [unfold no_converters; cbn; repeat split; auto; lra|]. split; [reflexivity|]. split; [reflexivity|]. exists 0.
  assert (M0 : maxabs [0] = 0) by (cbn; rewrite Rabs_R0; mm). split; [|intros x]; unfold forward_vector; rewrite (is_perf_false p C); cbn [noise_mgmt p f_nm nm_on f_inp_noise andb f_nm_decay].
  - rewrite (proj2 (Rltb_true (-1) 0)) by lra. rewrite M0. rewrite (proj2 (Rleb_true 0 0)) by lra. now apply yields_ret.
  - rewrite (proj2 (Rltb_false 0 0)) by lra. replace (0 * (1 - 0) + 0 * maxabs x) with 0 by ring. rewrite (proj2 (Rleb_true 0 0)) by lra. now apply yields_ret.
Qed.

Print Assumptions C95_perfect.
Print Assumptions C95_exact_forward.
Print Assumptions C95_exact_backward.
Print Assumptions C95_adjoint.
Print Assumptions C95_max_refuted.
Print Assumptions C95_average_refuted.
