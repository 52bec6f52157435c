(** * Quantized periphery (C203-C206) *)
From Verif Require Import Prelude ConvModel ConvProofs QuantModel QuantSpec QuantProofs QuantProps PeriModel QpModel QpSpec QpProps.

Lemma on_elem c g x y : on c g x = Ok y -> exists p b, length y = length x /\ forall i, (i < length x)%nat -> nth i y 0 = q_one c b p (nth i x 0).
Proof.
  unfold on, q_forward. destruct (qs_par g) as [ps|]; [|destruct (qc_meth c); [discriminate|destruct (qc_pc c); discriminate]].
  assert (H : forall b, (y0 <- q_apply c b ps [x] ;; Ok (hd [] y0)) = Ok y -> exists p b, length y = length x /\ forall i, (i < length x)%nat -> nth i y 0 = q_one c b p (nth i x 0)).
  { intros b. unfold q_apply. destruct ps as [|p [|p2 r]]; cbn; try discriminate. intros H. injection H as <-. exists p, b. rewrite map_length. split; [reflexivity|]. intros i Hi. rewrite (nth_indep _ 0 (q_one c b p 0)) by (rewrite map_length; exact Hi). now rewrite map_nth. }
  destruct (qc_meth c), (qs_signed g); try discriminate; apply H.
Qed.
(** the error of values on the grid of other values: within half a step if the grid covers them *)
Theorem C203_error c r g x y : (1 <= pq_bits c)%Z -> r <> [] -> grid_of (pq_cfg c) r = Ok g -> on (pq_cfg c) g x = Ok y -> length y = length x /\
  forall i, (i < length x)%nat -> minlist r <= nth i x 0 <= maxlist r -> Rabs (nth i y 0 - nth i x 0) <= step (pq_cfg c) (is_signed (pq_cfg c) [minlist r]) (minlist r) (maxlist r) / 2.
Proof.
  intros B Nr G O. pose proof O as O'. apply on_elem in O' as (_ & _ & L & _). split; [exact L|]. intros i Hi Hr. unfold on in O. match type of O with (bind ?q _) = _ => destruct q as [z|] eqn:F; [|discriminate] end. cbn [bind] in O. apply (f_equal (fun r => match r with Ok v => v | Raise _ => [] end)) in O. cbv beta iota in O.
  assert (San : q_sane (pq_cfg c)) by (split; [cbn; lra|cbn; lia]).
  assert (He : is_elem [x] 0 i) by (split; cbn; lia).
  assert (Cv : covers (pq_cfg c) (is_signed (pq_cfg c) [minlist r]) (lim [minlist r] 0) (lim [maxlist r] 0) (elem [x] 0 i)) by (apply (covers_in (pq_cfg c) [minlist r] 0 (maxlist r)); auto).
  assert (Nn : [minlist r] <> []) by discriminate. pose proof (C45_rounding_error _ _ _ _ _ _ _ 0 i San Nn G F He Cv) as E. unfold elem, lim in E. cbn [nth] in E. replace (nth 0 z []) with y in E by (subst y; destruct z; reflexivity). exact E.
Qed.
Lemma pow_Z n : IZR (2 ^ Z.of_nat n - 1) = 2 ^ n - 1.
Proof. rewrite minus_IZR, <- pow_IZR. reflexivity. Qed.
Lemma sym_grid c x g : pq_sym c = true -> 0 <= minlist x -> grid_of (pq_cfg c) x = Ok g -> g = {| qs_par := Some [q_par_sym (pq_cfg c) false (minlist x) (maxlist x)]; qs_signed := Some false |}.
Proof.
  intros Sy Mn G. assert (M : qc_meth (pq_cfg c) = Sym) by (unfold pq_cfg; cbn [qc_meth]; now rewrite Sy). unfold grid_of, q_set in G. rewrite M in G. cbn [length Nat.eqb negb Nat.ltb Nat.leb andb qs_par q_new q_copy map2 map minlist fold_left] in G.
  rewrite (proj2 (Rltb_false _ _)) in G by (unfold fix_min; mm). destruct (Z.eqb _ 0); [discriminate|]. cbn [bind] in G. injection G as <-. reflexivity.
Qed.
Lemma sym_on c p b x y : pq_sym c = true -> on (pq_cfg c) {| qs_par := Some [p]; qs_signed := Some b |} x = Ok y -> y = map (q_one (pq_cfg c) b p) x.
Proof.
  intros Sy O. assert (M : qc_meth (pq_cfg c) = Sym) by (unfold pq_cfg; cbn [qc_meth]; now rewrite Sy). unfold on, q_forward in O. cbn [qs_par qs_signed] in O. rewrite M in O. cbn [q_apply bind map hd] in O. injection O as <-. reflexivity.
Qed.
(** Refuted: that the scales stay positive: a scale smaller than half a step becomes 0, and with it the output *)
Theorem C203_dead_refuted c x g y i : (1 <= pq_bits c)%Z -> pq_sym c = true -> x <> [] -> (forall v, In v x -> 0 < v) -> / 100000000 <= maxlist x / (2 ^ Z.to_nat (pq_bits c) - 1) ->
  grid_of (pq_cfg c) x = Ok g -> on (pq_cfg c) g x = Ok y -> (i < length x)%nat -> nth i x 0 < maxlist x / (2 * (2 ^ Z.to_nat (pq_bits c) - 1)) -> 0 < nth i x 0 /\ nth i y 0 = 0.
Proof.
  intros B Sy Nx Pos Big G O Hi Sm. split; [apply Pos, nth_In; exact Hi|]. set (n := Z.to_nat (pq_bits c)) in *.
  assert (L1 : 1 <= 2 ^ n - 1). { assert (2 ^ 1 <= 2 ^ n) by (apply Rle_pow; [lra|unfold n; lia]). lra. }
  assert (Mn : 0 < minlist x) by (apply Pos, minlist_in; exact Nx).
  assert (Mx : 0 < maxlist x) by (apply Pos, maxlist_in; exact Nx).
  apply sym_grid in G; [|exact Sy|lra]. subst g. apply sym_on in O; [|exact Sy]. subst y.
  match goal with |- nth i (map ?f x) 0 = 0 => rewrite (nth_indep _ 0 (f 0)) by (rewrite map_length; exact Hi); rewrite map_nth end.
  set (v := nth i x 0) in *. unfold q_one.
  assert (Qs : q_scale (pq_cfg c) (q_par_sym (pq_cfg c) false (minlist x) (maxlist x)) = maxlist x / (2 ^ n - 1)).
  { unfold q_scale, q_par_sym, pq_cfg. cbn [qc_log qc_eps qp_delta]. unfold int_max. cbn [qc_meth qc_bits]. rewrite Sy. fold n. rewrite Z.sub_0_r, pow_Z. unfold fix_min, fix_max.
    assert (Big' : / 100000000 <= maxlist x). { apply Rle_trans with (1 := Big). apply (Rmult_le_reg_r (2 ^ n - 1)); [lra|]. replace (maxlist x / (2 ^ n - 1) * (2 ^ n - 1)) with (maxlist x) by (field; lra). nra. }
    replace (Rmin (minlist x) 0) with 0 by mm. rewrite Rabs_R0. replace (Rmax (maxlist x) (/ 100000000)) with (maxlist x) by mm. replace (Rmax 0 (maxlist x)) with (maxlist x) by mm. mm. }
  rewrite Qs. assert (T : to_int (pq_cfg c) false (q_par_sym (pq_cfg c) false (minlist x) (maxlist x)) v = 0%Z).
  { unfold to_int. rewrite Qs. assert (Vp : 0 < v) by (apply Pos, nth_In; exact Hi).
    assert (Q : 0 < v / (maxlist x / (2 ^ n - 1)) < 1 / 2).
    { assert (D : 0 < maxlist x / (2 ^ n - 1)) by (apply Rdiv_lt_0_compat; lra). split; [apply Rdiv_lt_0_compat; lra|]. apply (Rmult_lt_reg_r (maxlist x / (2 ^ n - 1))); [lra|]. replace (v / (maxlist x / (2 ^ n - 1)) * (maxlist x / (2 ^ n - 1))) with v by (field; lra). replace (1 / 2 * (maxlist x / (2 ^ n - 1))) with (maxlist x / (2 * (2 ^ n - 1))) by (field; lra). exact Sm. }
    assert (Rh : rhe (v / (maxlist x / (2 ^ n - 1))) = 0%Z).
    { set (u := v / (maxlist x / (2 ^ n - 1))) in *. assert (Fl : floorZ u = 0%Z) by (apply floorZ_unique; cbn; lra). unfold rhe. rewrite Fl. cbv zeta. destruct (Rlt_dec (u - 0) (1 / 2)) as [C|C]; [reflexivity|]. lra. }
    rewrite Rh. unfold q_zero, int_min, int_max, pq_cfg. cbn [qc_meth qc_bits]. rewrite Sy. fold n. rewrite Z.sub_0_r. assert (1 <= 2 ^ Z.of_nat n - 1)%Z by (apply le_IZR; rewrite pow_Z; exact L1). lia. }
  rewrite T. unfold q_zero, pq_cfg. cbn [qc_meth]. rewrite Sy. cbn. ring.
Qed.
(** without bits nothing is quantized *)
Theorem C203_off c q ir ms los b test y : (pq_bits c <= 0)%Z -> exists t, qt_new c ir ms los b = Ok t /\
  qt_forward c q test t y = Ok (q (let z := match merged ir ms los with Some a => bmul a y | None => y end in match b with Some b => map2 Rplus z b | None => z end), t).
Proof.
  intros B. unfold qt_new, slot_new. rewrite (proj2 (Z.leb_le _ _) B). cbn [bind]. eexists. split; [reflexivity|]. unfold qt_forward. cbn [qt_ir qt_ms qt_los qt_b qt_scale qt_bias].
  destruct (merged ir ms los), b; cbn; reflexivity.
Qed.
Print Assumptions C203_error.
Print Assumptions C203_dead_refuted.
Print Assumptions C203_off.
