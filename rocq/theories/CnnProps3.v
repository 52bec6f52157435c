(** * C107, C108: backward and update pass of a convolution layer *)
From Verif Require Import Prelude Rand CnnModel CnnSpec CnnProofs CnnProofs2 CnnProps CnnProps2 CnnProofs3.
Local Open Scope nat_scope.

Lemma calc_table g C b sh : 0 < C -> valid_input g C sh ->
  exists it, calc_indexes g C (is_analog b) sh = Ok it /\ it_in it = sh
    /\ table_for (it_tab it) (cols g C b) (prodn (it_out it)) (prodn sh).
Proof.
  intros HC V.
  destruct g as [k s p|k0 k1 s0 s1 p0 p1 d0 d1|k0 k1 k2 s0 s1 s2 p0 p1 p2]; cbn [valid_input] in V.
  - destruct sh as [|c [|h [|? ?]]]; try contradiction. destruct V as (-> & Hk & Hs & Hp).
    cbn [calc_indexes]. rewrite (proj2 (fits_kernel_iff h k s p 1)) by auto. eexists. split; [reflexivity|]. split; [reflexivity|].
    cbn [it_tab it_out prodn fold_right]. rewrite table1_grid by assumption. rewrite !Nat.mul_1_r.
    apply (with_bias_table_for (G1 k s p) C b (C * h) (image_size h k s p 1) (fun r l => ent1 h s p (r / k) (r mod k) l)); cbn; try assumption.
    intros r l Hr Hl. apply ent1_lt. apply Nat.div_lt_upper_bound; lia.
  - destruct sh as [|c [|h [|w [|? ?]]]]; try contradiction. destruct V as (-> & Hk0 & Hk1 & Hs0 & Hs1 & Hp0 & Hp1).
    cbn [calc_indexes]. rewrite (proj2 (fits_kernel_iff h k0 s0 p0 d0)), (proj2 (fits_kernel_iff w k1 s1 p1 d1)) by auto. cbn [andb].
    eexists. split; [reflexivity|]. split; [reflexivity|].
    cbn [it_tab it_out prodn fold_right]. rewrite table2_grid. rewrite !Nat.mul_1_r.
    set (LH := image_size h k0 s0 p0 d0). set (LW := image_size w k1 s1 p1 d1).
    apply (with_bias_table_for (G2 k0 k1 s0 s1 p0 p1 d0 d1) C b (C * (h * w)) (LH * LW)
      (fun r l => ent2 h w s0 s1 p0 p1 d0 d1 (r / (k0 * k1)) ((r / k1) mod k0) (r mod k1) (l / LW) (l mod LW))); cbn [kernel_elems]; try assumption; try nia.
    intros r l Hr Hl. apply ent2_lt. apply Nat.div_lt_upper_bound; lia.
  - destruct sh as [|c [|d [|h [|w [|? ?]]]]]; try contradiction. destruct V as (-> & Hk0 & Hk1 & Hk2 & Hs0 & Hs1 & Hs2 & Hp0 & Hp1 & Hp2).
    cbn [calc_indexes]. rewrite (proj2 (fits_kernel_iff d k0 s0 p0 1)), (proj2 (fits_kernel_iff h k1 s1 p1 1)), (proj2 (fits_kernel_iff w k2 s2 p2 1)) by auto.
    cbn [andb]. eexists. split; [reflexivity|]. split; [reflexivity|].
    cbn [it_tab it_out prodn fold_right]. rewrite table3_grid by assumption. rewrite !Nat.mul_1_r.
    set (LD := image_size d k0 s0 p0 1). set (LH := image_size h k1 s1 p1 1). set (LW := image_size w k2 s2 p2 1).
    assert (HK : 0 < k0 * k1 * k2) by (repeat apply Nat.mul_pos_pos; assumption).
    apply (with_bias_table_for (G3 k0 k1 k2 s0 s1 s2 p0 p1 p2) C b (C * (d * (h * w))) (LD * (LH * LW))
      (fun r l => ent3 d h w s0 s1 s2 p0 p1 p2 (r / (k0 * k1 * k2)) ((r mod (k0 * k1 * k2)) / (k1 * k2)) (((r mod (k0 * k1 * k2)) / k2) mod k1)
                   ((r mod (k0 * k1 * k2)) mod k2) (l / (LH * LW)) ((l / LW) mod LH) (l mod LW))); cbn [kernel_elems]; try assumption.
    intros r l Hr Hl. apply ent3_lt. apply Nat.div_lt_upper_bound; lia.
Qed.
(** a forward call of a layer without a table *)
Lemma fresh_forward_inv g C O b W n sh x osh y cv1 : 0 < C -> batch_of n sh x -> valid_input g C sh ->
  conv_forward (fresh_conv g C O b W) n sh x = Ok (osh, y, cv1) ->
  exists it y', let L := prodn (it_out it) in
    calc_indexes g C (is_analog b) sh = Ok it /\ it_in it = sh /\ table_for (it_tab it) (cols g C b) L (prodn sh)
    /\ cv1 = {| cv_g := g; cv_in := C; cv_out := O; cv_bias := b; cv_w := W; cv_it := Some it; cv_isize := prodn sh |}
    /\ length y' = n * O * L /\ length y = n * O * L
    /\ (forall i o l, i < n -> o < O -> l < L -> nth ((i * O + o) * L + l) y' 0%R
        = Sum (cols g C b) (fun r => (wat W o r * pick (nth (r * L + l)%nat (it_tab it) 0%nat) (fun q => nth (i * prodn sh + q)%nat x 0))%R))
    /\ (forall i o l, i < n -> o < O -> l < L -> nth ((i * O + o) * L + l) y 0%R
        = (nth ((i * O + o) * L + l) y' 0 + match b with DigitalBias bs => nth o bs 0 | _ => 0 end)%R).
Proof.
  intros HC (Hn & Hx & _) V E. destruct (calc_table g C b sh HC V) as (it & Ei & Hin & T).
  unfold conv_forward, fresh_conv in E. cbn [cv_it cv_g cv_in cv_out cv_bias cv_w cv_isize] in E. rewrite Ei in E. cbn [bind fst snd] in E.
  unfold tile_forward_indexed in E. cbv zeta in E.
  destruct (forward_indexed_spec 1 W (cols g C b) O (it_tab it) x (prodn (it_out it)) n (prodn sh) Hn Hx T) as (y' & Ey & Ly & At).
  rewrite Ey in E. cbn [bind] in E. injection E as <- <- <-.
  destruct (add_bias_spec b n O (prodn (it_out it)) y' Ly) as [L1 B].
  exists it, y'. cbv zeta. repeat split; try assumption; try apply T.
  intros i o l Hi Ho Hl. rewrite At by assumption. lra.
Qed.
Lemma inner3 (d y : list R) n O L : length d = n * O * L -> length y = n * O * L ->
  inner d y = Sum n (fun i => Sum O (fun o => Sum L (fun l => (nth ((i * O + o) * L + l) d 0 * nth ((i * O + o) * L + l) y 0)%R))).
Proof.
  intros Hd Hy. rewrite (inner_Sum d y (n * O * L)) by assumption. rewrite Sum_grid, Sum_grid. reflexivity.
Qed.
Lemma Sum_minus n f g : Sum n (fun i => (f i - g i)%R) = (Sum n f - Sum n g)%R.
Proof. induction n; [cbn; lra|]. rewrite !Sum_S, IHn. lra. Qed.

(** The gradient with respect to the input that the layer returns is the adjoint of its forward pass: the inner product of the
    gradient with any other input [x2] is the inner product of [d] with the part of the output that depends on [x2]. *)
Theorem C107_backward_adjoint g C O b W n sh x osh y cv1 : 0 < C -> 0 < O -> batch_of n sh x -> valid_input g C sh ->
  conv_forward (fresh_conv g C O b W) n sh x = Ok (osh, y, cv1) ->
  forall d, length d = length y ->
  exists gr, conv_backward cv1 n d = Ok (n :: sh, gr) /\ length gr = length x
    /\ forall x2 y2 y0 osh2 osh0 cv2 cv0, length x2 = length x ->
         conv_forward (fresh_conv g C O b W) n sh x2 = Ok (osh2, y2, cv2) ->
         conv_forward (fresh_conv g C O b W) n sh (repeat 0%R (length x)) = Ok (osh0, y0, cv0) ->
         inner gr x2 = (inner d y2 - inner d y0)%R.
Proof.
  intros HC HO B V E d Hd. pose proof B as (Hn & Hx & Hs).
  destruct (fresh_forward_inv g C O b W n sh x osh y cv1 HC B V E) as (it & y' & Ei & Hin & T & -> & Ly' & Ly & _).
  set (L := prodn (it_out it)) in *. unfold conv_backward. cbn [cv_it cv_out cv_w cv_g cv_in cv_bias]. rewrite Hin.
  assert (HL : length d / n / O = L).
  { rewrite Hd, Ly. replace (n * O * L) with (L * O * n) by lia. rewrite Nat.div_mul by lia. apply Nat.div_mul. lia. }
  rewrite HL. assert (Hd' : length d = n * O * L) by congruence.
  destruct (backward_indexed_adjoint W (cols g C b) O (it_tab it) d L n (prodn sh) x Hn Hd' T Hx) as (gr & Eg & Lg & _).
  rewrite Eg. cbn [bind]. exists gr. split; [reflexivity|]. split; [congruence|].
  intros x2 y2 y0 osh2 osh0 cv2 cv0 Hx2 E2 E0.
  assert (B2 : batch_of n sh x2) by (repeat split; try assumption; congruence).
  assert (B0 : batch_of n sh (repeat 0%R (length x))) by (repeat split; try assumption; rewrite repeat_length; assumption).
  destruct (fresh_forward_inv g C O b W n sh x2 osh2 y2 cv2 HC B2 V E2) as (it2 & y2' & Ei2 & _ & _ & _ & Ly2' & Ly2 & A2 & D2).
  destruct (fresh_forward_inv g C O b W n sh _ osh0 y0 cv0 HC B0 V E0) as (it0 & y0' & Ei0 & _ & _ & _ & Ly0' & Ly0 & A0 & D0).
  rewrite Ei in Ei2, Ei0. injection Ei2 as <-. injection Ei0 as <-. fold L in Ly2, Ly0, A2, A0, D2, D0.
  destruct (backward_indexed_adjoint W (cols g C b) O (it_tab it) d L n (prodn sh) x2 Hn Hd' T) as (gr' & Eg' & _ & Ig); [congruence|].
  rewrite Eg in Eg'. injection Eg' as <-. rewrite Ig, (inner3 d y2 n O L), (inner3 d y0 n O L) by assumption.
  rewrite <- Sum_minus. apply Sum_ext. intros i Hi. rewrite <- Sum_minus. apply Sum_ext. intros o Ho. rewrite <- Sum_minus. apply Sum_ext. intros l Hl.
  rewrite D2, D0, A2, A0 by assumption. rewrite <- Rmult_minus_distr_l. f_equal.
  match goal with |- _ = (?a + ?c - (?b + ?c))%R => transitivity (a - b)%R; [|lra] end.
  rewrite <- Sum_minus. apply Sum_ext. intros r Hr. rewrite (pick_pick0 _ (fun q => nth (i * prodn sh + q) x2 0%R)).
  rewrite (pick_pick0 _ (fun q => nth (i * prodn sh + q) (repeat 0%R (length x)) 0%R)).
  assert (Z : forall j, pick0 j (fun q => nth (i * prodn sh + q) (repeat 0%R (length x)) 0%R) = 0%R).
  { intros j. unfold pick0. destruct (j <=? 1); [reflexivity|]. apply nth_repeat. }
  rewrite Z. lra.
Qed.
(** a tile with an ideal update: the weights move by [- lr] times the gradient of [inner d (output)].  In words: for any weights
    [V], the inner product of [V] with the change is [- lr] times the inner product of [d] with what the layer would return with
    the weights [V] (and no digital bias). *)
Definition no_digital (b : cbias) : cbias := match b with DigitalBias _ => NoBias | _ => b end.
Theorem C108_update_gradient g C O b W n sh x osh y cv1 lr : 0 < C -> 0 < O -> batch_of n sh x -> valid_input g C sh ->
  shape O (cols g C b) W ->
  conv_forward (fresh_conv g C O b W) n sh x = Ok (osh, y, cv1) ->
  forall d, length d = length y ->
  exists cv2, conv_update cv1 lr n x d = Ok cv2 /\ shape O (cols g C b) (cv_w cv2)
    /\ (cv_g cv2 = g /\ cv_in cv2 = C /\ cv_out cv2 = O /\ cv_bias cv2 = b)
    /\ forall V yV oshV cvV, shape O (cols g C b) V ->
         conv_forward (fresh_conv g C O (no_digital b) V) n sh x = Ok (oshV, yV, cvV) ->
         Sum O (fun o => Sum (cols g C b) (fun r => (nth r (nth o V []) 0 * (nth r (nth o (cv_w cv2) []) 0 - nth r (nth o W []) 0))%R))
         = (- lr * inner d yV)%R.
Proof.
  intros HC HO B V HW E d Hd. pose proof B as (Hn & Hx & Hs).
  destruct (fresh_forward_inv g C O b W n sh x osh y cv1 HC B V E) as (it & y' & Ei & Hin & T & -> & Ly' & Ly & _).
  set (L := prodn (it_out it)) in *. unfold conv_update. cbn [cv_it cv_out cv_w cv_g cv_in cv_bias].
  assert (HL : length d / (n * O) = L).
  { rewrite Hd, Ly, Nat.mul_comm. apply Nat.div_mul. nia. }
  rewrite HL. assert (Hd' : length d = n * O * L) by congruence.
  destruct (update_indexed_spec lr W (cols g C b) O (it_tab it) x d L n (prodn sh) Hn Hx T) as (W' & EW & SW & AW).
  rewrite EW. cbn [bind]. eexists. split; [reflexivity|]. cbn [cv_w cv_g cv_in cv_out cv_bias]. split; [exact SW|]. split; [auto|].
  intros V0 yV oshV cvV HV EV.
  destruct (fresh_forward_inv g C O (no_digital b) V0 n sh x oshV yV cvV HC B V EV) as (itV & yV' & EiV & _ & _ & _ & _ & LyV & AV & DV).
  assert (En : is_analog (no_digital b) = is_analog b) by (destruct b; reflexivity).
  assert (Ec : cols g C (no_digital b) = cols g C b) by (unfold cols; rewrite En; reflexivity).
  rewrite En in EiV. rewrite Ei in EiV. injection EiV as <-. fold L in LyV, AV, DV. rewrite Ec in AV.
  rewrite (inner3 d yV n O L) by assumption.
  transitivity (Sum O (fun o => (- lr * Sum n (fun i => Sum L (fun l => nth ((i * O + o) * L + l)%nat d 0 * nth ((i * O + o) * L + l)%nat yV 0)))%R)).
  { apply Sum_ext. intros o Ho.
    transitivity (Sum (cols g C b) (fun r => (- lr * Sum n (fun i => Sum L (fun l =>
       (nth ((i * O + o) * L + l)%nat d 0 * (wat V0 o r * pick (nth (r * L + l)%nat (it_tab it) 0%nat) (fun q => nth (i * prodn sh + q)%nat x 0))))))%R)).
    { apply Sum_ext. intros r Hr. fold (wat W' o r) (wat W o r) (wat V0 o r). rewrite AW by assumption.
      match goal with |- (?v * (?w - lr * ?S - ?w))%R = _ => transitivity (- lr * (v * S))%R; [lra|] end. f_equal.
      rewrite <- Sum_scal. apply Sum_ext. intros i Hi. rewrite <- Sum_scal. apply Sum_ext. intros l Hl. lra. }
    rewrite Sum_scal. f_equal. rewrite Sum_swap. apply Sum_ext. intros i Hi. rewrite Sum_swap. apply Sum_ext. intros l Hl.
    rewrite Sum_scal. f_equal. rewrite DV, AV by assumption. destruct b; cbn [no_digital]; lra. }
  rewrite Sum_scal. f_equal. apply Sum_swap.
Qed.
Example C107_nontrivial :
  let W := [[1; 2; 3; 4; 5]%R] in let x := [1;2;3;4;5;6;7;8;9;10;11;12]%R in
  batch_of 2 [2; 3] x /\ valid_input (G1 2 1 1) 2 [2; 3] /\ shape 1 (cols (G1 2 1 1) 2 AnalogBias) W
  /\ exists osh y cv1, conv_forward (fresh_conv (G1 2 1 1) 2 1 AnalogBias W) 2 [2; 3] x = Ok (osh, y, cv1).
Proof.
  intros W x. assert (B : batch_of 2 [2; 3] x) by (repeat split; cbn; lia).
  assert (V : valid_input (G1 2 1 1) 2 [2; 3]) by (unfold valid_input, position; cbn; repeat split; lia).
  split; [exact B|]. split; [exact V|]. split; [repeat constructor|].
  destruct (C104_convolution (G1 2 1 1) 2 1 AnalogBias W 2 [2; 3] x ltac:(lia) B V) as (osh & y & cv' & E & _). eauto.
Qed.

Print Assumptions C107_backward_adjoint.
Print Assumptions C108_update_gradient.
