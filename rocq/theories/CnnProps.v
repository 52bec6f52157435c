(** * C104-C106: convolution layers compute convolutions *)
From Verif Require Import Prelude Rand CnnModel CnnSpec CnnProofs CnnProofs2.
Local Open Scope nat_scope.

Lemma image_size_position n k s p d l : 0 < s -> position n k s p d 0 -> l < image_size n k s p d <-> position n k s p d l.
Proof.
  unfold image_size, position. intros Hs H0. rewrite Nat.mul_0_l in H0. cbn [Nat.add] in H0.
  set (q := n + 2 * p - d * (k - 1) - 1). assert (E : n + 2 * p = q + d * (k - 1) + 1) by (unfold q; lia). rewrite E.
  assert (Dm : q = s * (q / s) + q mod s) by (apply Nat.div_mod; lia).
  assert (M : q mod s < s) by (apply Nat.mod_upper_bound; lia).
  split; intros H; [nia|]. assert (l <= q / s); [|lia]. apply Nat.div_le_lower_bound; nia.
Qed.
Lemma fits_kernel_iff n k s p d : fits_kernel n k s p d = true <-> 0 < k /\ 0 < s /\ position n k s p d 0.
Proof.
  unfold fits_kernel, position. rewrite !andb_true_iff, !Nat.leb_le. split; intros; repeat split; try lia.
Qed.
Lemma Sum_ext2 n m f g : (forall i j, i < n -> j < m -> f i j = g i j) ->
  Sum n (fun i => Sum m (f i)) = Sum n (fun i => Sum m (g i)).
Proof. intros H. apply Sum_ext. intros i Hi. apply Sum_ext. intros j Hj. apply H; assumption. Qed.

(** what [set_indexed] gets for a valid input makes the tile compute the convolution *)
Lemma calc_forward g C O b W n sh x : 0 < C -> batch_of n sh x -> valid_input g C sh ->
  exists it, calc_indexes g C (is_analog b) sh = Ok it /\ it_in it = sh
    /\ exists y, tile_forward_indexed g C O b W it n x = Ok y /\ is_convolution g C O b W n sh x (n :: O :: it_out it) y.
Proof.
  intros HC (Hn & Hx & _) V.
  destruct g as [k s p|k0 k1 s0 s1 p0 p1 d0 d1|k0 k1 k2 s0 s1 s2 p0 p1 p2]; cbn [valid_input] in V.
  - destruct sh as [|c [|h [|? ?]]]; try contradiction. destruct V as (-> & Hk & Hs & Hp).
    cbn [calc_indexes]. rewrite (proj2 (fits_kernel_iff h k s p 1)) by auto. eexists. split; [reflexivity|]. split; [reflexivity|].
    set (L := image_size h k s p 1).
    assert (Hx' : length x = n * (C * h)) by (rewrite Hx; cbn; lia).
    edestruct (tile_forward_spec (G1 k s p) C O b W
      {| it_tab := if is_analog b then repeat_channels (C * h) C (table1 h k s p) ++ repeat 1 (length (repeat_channels (C * h) C (table1 h k s p)) / k)
                   else repeat_channels (C * h) C (table1 h k s p); it_in := [C; h]; it_out := [L] |} n x (C * h) L
      (fun r l => ent1 h s p (r / k) (r mod k) l)) as (y & Ey & Ly & At); cbn [kernel_elems it_out it_tab prodn fold_right]; try assumption; try lia.
    + unfold with_bias. rewrite table1_grid by assumption. reflexivity.
    + intros r l Hr Hl. apply ent1_lt. apply Nat.div_lt_upper_bound; lia.
    + exists y. split; [exact Ey|]. cbn [is_convolution it_out]. exists L. split; [reflexivity|]. split; [exact Ly|].
      split; [intros l; apply image_size_position; assumption|].
      intros i o l Hi Ho Hl. unfold el3 at 1. cbn [kernel_elems] in At. rewrite At by assumption. f_equal. unfold conv1d. rewrite Sum_grid.
      apply Sum_ext2. intros c a Hc Ha. destruct (divmod_flat k c a Ha) as [-> ->]. rewrite ent1_pick. unfold w1, wat. f_equal.
      unfold zpad. destruct (_ && _); [|reflexivity]. unfold el3. f_equal. lia.
  - destruct sh as [|c [|h [|w [|? ?]]]]; try contradiction. destruct V as (-> & Hk0 & Hk1 & Hs0 & Hs1 & Hp0 & Hp1).
    cbn [calc_indexes]. rewrite (proj2 (fits_kernel_iff h k0 s0 p0 d0)), (proj2 (fits_kernel_iff w k1 s1 p1 d1)) by auto. cbn [andb].
    eexists. split; [reflexivity|]. split; [reflexivity|].
    set (LH := image_size h k0 s0 p0 d0). set (LW := image_size w k1 s1 p1 d1).
    assert (Hx' : length x = n * (C * (h * w))) by (rewrite Hx; cbn; lia).
    set (t := table2 C h w k0 k1 s0 s1 p0 p1 d0 d1).
    edestruct (tile_forward_spec (G2 k0 k1 s0 s1 p0 p1 d0 d1) C O b W
      {| it_tab := if is_analog b then t ++ repeat 1 (length t / (k0 * k1)) else t; it_in := [C; h; w]; it_out := [LH; LW] |} n x (C * (h * w)) (LH * LW)
      (fun r l => ent2 h w s0 s1 p0 p1 d0 d1 (r / (k0 * k1)) ((r / k1) mod k0) (r mod k1) (l / LW) (l mod LW)))
      as (y & Ey & Ly & At); cbn [kernel_elems it_out it_tab prodn fold_right]; try assumption; try lia; try nia.
    + unfold with_bias, t. rewrite table2_grid. reflexivity.
    + intros r l Hr Hl. apply ent2_lt. apply Nat.div_lt_upper_bound; lia.
    + exists y. split; [exact Ey|]. cbn [is_convolution it_out]. exists LH, LW. split; [reflexivity|]. split; [exact Ly|].
      split; [intros l; apply image_size_position; assumption|]. split; [intros l; apply image_size_position; assumption|].
      intros i o oy ox Hi Ho Hy Hx0. cbn [kernel_elems] in At. unfold el4 at 1.
      replace (((i * O + o) * LH + oy) * LW + ox) with ((i * O + o) * (LH * LW) + (oy * LW + ox)) by lia.
      rewrite At by (try assumption; apply flat_lt; assumption).
      f_equal. unfold conv2d. rewrite Sum_grid. apply Sum_ext. intros c Hc. rewrite Sum_grid. apply Sum_ext2. intros a e Ha He.
      assert (Hae : a * k1 + e < k0 * k1) by (apply flat_lt; assumption).
      destruct (divmod_flat (k0 * k1) c (a * k1 + e) Hae) as [-> _].
      replace (c * (k0 * k1) + (a * k1 + e)) with ((c * k0 + a) * k1 + e) by lia.
      destruct (divmod_flat k1 (c * k0 + a) e He) as [-> ->]. destruct (divmod_flat k0 c a Ha) as [_ ->].
      destruct (divmod_flat LW oy ox Hx0) as [-> ->]. rewrite ent2_pick. unfold w2, wat. f_equal.
      unfold zpad. destruct (_ && _); [|reflexivity]. destruct (_ && _); [|reflexivity]. unfold el4. f_equal. lia.
  - destruct sh as [|c [|d [|h [|w [|? ?]]]]]; try contradiction. destruct V as (-> & Hk0 & Hk1 & Hk2 & Hs0 & Hs1 & Hs2 & Hp0 & Hp1 & Hp2).
    cbn [calc_indexes]. rewrite (proj2 (fits_kernel_iff d k0 s0 p0 1)), (proj2 (fits_kernel_iff h k1 s1 p1 1)), (proj2 (fits_kernel_iff w k2 s2 p2 1)) by auto.
    cbn [andb]. eexists. split; [reflexivity|]. split; [reflexivity|].
    set (LD := image_size d k0 s0 p0 1). set (LH := image_size h k1 s1 p1 1). set (LW := image_size w k2 s2 p2 1).
    assert (Hx' : length x = n * (C * (d * (h * w)))) by (rewrite Hx; cbn; lia).
    set (t := repeat_channels (C * (d * (h * w))) C (table3 d h w k0 k1 k2 s0 s1 s2 p0 p1 p2)).
    edestruct (tile_forward_spec (G3 k0 k1 k2 s0 s1 s2 p0 p1 p2) C O b W
      {| it_tab := if is_analog b then t ++ repeat 1 (length t / (k0 * k1 * k2)) else t; it_in := [C; d; h; w]; it_out := [LD; LH; LW] |}
      n x (C * (d * (h * w))) (LD * (LH * LW))
      (fun r l => ent3 d h w s0 s1 s2 p0 p1 p2 (r / (k0 * k1 * k2)) ((r mod (k0 * k1 * k2)) / (k1 * k2)) (((r mod (k0 * k1 * k2)) / k2) mod k1)
                   ((r mod (k0 * k1 * k2)) mod k2) (l / (LH * LW)) ((l / LW) mod LH) (l mod LW)))
      as (y & Ey & Ly & At); cbn [kernel_elems it_out it_tab prodn fold_right]; try assumption; try lia.
    + unfold with_bias, t. rewrite table3_grid by assumption. reflexivity.
    + intros r l Hr Hl. apply ent3_lt. apply Nat.div_lt_upper_bound; [|lia]. assert (0 < k0 * k1 * k2) by (repeat apply Nat.mul_pos_pos; assumption). lia.
    + exists y. split; [exact Ey|]. cbn [is_convolution it_out]. exists LD, LH, LW. split; [reflexivity|]. split; [exact Ly|].
      split; [intros l; apply image_size_position; assumption|]. split; [intros l; apply image_size_position; assumption|].
      split; [intros l; apply image_size_position; assumption|].
      intros i o oz oy ox Hi Ho Hz Hy Hx0. cbn [kernel_elems] in At. unfold el5 at 1.
      replace ((((i * O + o) * LD + oz) * LH + oy) * LW + ox) with ((i * O + o) * (LD * (LH * LW)) + ((oz * LH + oy) * LW + ox)) by lia.
      assert (Hyx : oy * LW + ox < LH * LW) by (apply flat_lt; assumption).
      assert (Hl : (oz * LH + oy) * LW + ox < LD * (LH * LW)) by nia.
      rewrite At by assumption.
      f_equal. unfold conv3d. rewrite Sum_grid. apply Sum_ext. intros c Hc. rewrite <- Nat.mul_assoc, Sum_grid. apply Sum_ext. intros a Ha.
      rewrite Sum_grid. apply Sum_ext2. intros e f He Hf.
      assert (Hef : e * k2 + f < k1 * k2) by (apply flat_lt; assumption).
      assert (Haef : a * (k1 * k2) + (e * k2 + f) < k0 * (k1 * k2)) by (apply flat_lt; assumption).
      destruct (divmod_flat (k0 * (k1 * k2)) c (a * (k1 * k2) + (e * k2 + f)) Haef) as [-> ->].
      destruct (divmod_flat (k1 * k2) a (e * k2 + f) Hef) as [-> _].
      replace (a * (k1 * k2) + (e * k2 + f)) with ((a * k1 + e) * k2 + f) by lia.
      destruct (divmod_flat k2 (a * k1 + e) f Hf) as [-> ->]. destruct (divmod_flat k1 a e He) as [_ ->].
      destruct (divmod_flat LW (oz * LH + oy) ox Hx0) as [-> ->]. destruct (divmod_flat LH oz oy Hy) as [_ ->].
      replace ((oz * LH + oy) * LW + ox) with (oz * (LH * LW) + (oy * LW + ox)) by lia.
      destruct (divmod_flat (LH * LW) oz (oy * LW + ox) Hyx) as [-> _].
      rewrite ent3_pick. unfold w3, wat. f_equal; [f_equal; lia|].
      unfold zpad. destruct (_ && _); [|reflexivity]. destruct (_ && _); [|reflexivity]. destruct (_ && _); [|reflexivity].
      unfold el5. f_equal. lia.
Qed.

(** a valid input of a layer that has no table yet: the output is the convolution *)
Theorem C104_convolution g C O b W n sh x : 0 < C -> batch_of n sh x -> valid_input g C sh ->
  exists osh y cv', conv_forward (fresh_conv g C O b W) n sh x = Ok (osh, y, cv')
    /\ is_convolution g C O b W n sh x osh y.
Proof.
  intros HC HB V. destruct (calc_forward g C O b W n sh x HC HB V) as (it & Ei & _ & y & Ey & K).
  unfold conv_forward, fresh_conv. cbn [cv_it cv_g cv_in cv_out cv_bias cv_w cv_isize]. rewrite Ei. cbn [bind fst snd]. rewrite Ey. cbn [bind].
  do 3 eexists. split; [reflexivity|exact K].
Qed.
(** a kernel that does not fit the padded input is an error *)
Theorem C104_too_large_rejected g C O b W n sh x : match g, sh with
  | G1 k s p, [c; h] => ~ position h k s p 1 0
  | G2 k0 k1 s0 s1 p0 p1 d0 d1, [c; h; w] => ~ (position h k0 s0 p0 d0 0 /\ position w k1 s1 p1 d1 0)
  | G3 k0 k1 k2 s0 s1 s2 p0 p1 p2, [c; d; h; w] => ~ (position d k0 s0 p0 1 0 /\ position h k1 s1 p1 1 0 /\ position w k2 s2 p2 1 0)
  | _, _ => False end ->
  conv_forward (fresh_conv g C O b W) n sh x = Raise RuntimeError.
Proof.
  intros H. unfold conv_forward, fresh_conv. cbn [cv_it cv_g cv_in cv_out cv_bias cv_w cv_isize].
  destruct g as [k s p|k0 k1 s0 s1 p0 p1 d0 d1|k0 k1 k2 s0 s1 s2 p0 p1 p2].
  - destruct sh as [|c [|h [|? ?]]]; try contradiction. cbn [calc_indexes].
    destruct (fits_kernel h k s p 1) eqn:E; [|reflexivity]. apply fits_kernel_iff in E. tauto.
  - destruct sh as [|c [|h [|w [|? ?]]]]; try contradiction. cbn [calc_indexes].
    destruct (fits_kernel h k0 s0 p0 d0) eqn:E; [|reflexivity]. destruct (fits_kernel w k1 s1 p1 d1) eqn:E2; [|reflexivity].
    apply fits_kernel_iff in E, E2. tauto.
  - destruct sh as [|c [|d [|h [|w [|? ?]]]]]; try contradiction. cbn [calc_indexes].
    destruct (fits_kernel d k0 s0 p0 1) eqn:E; [|reflexivity]. destruct (fits_kernel h k1 s1 p1 1) eqn:E2; [|reflexivity].
    destruct (fits_kernel w k2 s2 p2 1) eqn:E3; [|reflexivity]. apply fits_kernel_iff in E, E2, E3. tauto.
Qed.
Example C104_nontrivial :
  (* a 1d layer, kernel 2, stride 1, padding 1, analog bias, two samples with 2 channels of 3 elements *)
  batch_of 2 [2; 3] [1;2;3;4;5;6;7;8;9;10;11;12]%R /\ valid_input (G1 2 1 1) 2 [2; 3]
  /\ valid_input (G2 3 3 2 2 1 1 1 2) 3 [3; 8; 9] /\ valid_input (G3 2 2 2 1 1 1 0 0 1) 1 [1; 3; 3; 1]
  /\ exists osh y cv', conv_forward (fresh_conv (G1 2 1 1) 2 1 AnalogBias [[1; 2; 3; 4; 5]%R]) 2 [2; 3] [1;2;3;4;5;6;7;8;9;10;11;12]%R
       = Ok (osh, y, cv') /\ osh = [2; 1; 4] /\ (el3 1 4 y 0 0 0 = 23 /\ el3 1 4 y 1 0 2 = 112 /\ el3 1 4 y 1 0 3 = 50)%R.
Proof.
  assert (B : batch_of 2 [2; 3] [1;2;3;4;5;6;7;8;9;10;11;12]%R) by (repeat split; cbn; lia).
  assert (V : valid_input (G1 2 1 1) 2 [2; 3]) by (unfold valid_input, position; cbn; repeat split; lia).
  split; [exact B|]. split; [exact V|].
  split; [unfold valid_input, position; cbn; repeat split; lia|]. split; [unfold valid_input, position; cbn; repeat split; lia|].
  destruct (C104_convolution (G1 2 1 1) 2 1 AnalogBias [[1; 2; 3; 4; 5]%R] 2 [2; 3] [1;2;3;4;5;6;7;8;9;10;11;12]%R ltac:(lia) B V)
    as (osh & y & cv' & E & L & -> & _ & P & At).
  assert (L = 4) as ->. { pose proof (proj2 (P 3)) as A1. pose proof (proj1 (P 4)) as A2. unfold position in *. cbn in *. lia. }
  exists [2; 1; 4], y, cv'. split; [exact E|]. split; [reflexivity|].
  repeat split; rewrite At by lia; unfold conv1d, Sum, zpad, el3, w1, bias_of; cbn; lra.
Qed.

Print Assumptions C104_convolution.
Print Assumptions C104_too_large_rejected.
