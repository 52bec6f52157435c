(** * C112-C113: convolution on noisy tiles; the number of channels is not checked *)
From Verif Require Import Prelude Rand CnnModel CnnSpec CnnProofs CnnProofs2 CnnProps CnnProps2 CnnProofs3 CnnProps3 CnnProofs4 CnnProofs5.
From Coq Require Import FunctionalExtensionality.
Local Open Scope nat_scope.

Lemma bindM_bindM {A B C} (m : M A) (f : A -> M B) (h : B -> M C) : bindM (bindM m f) h = bindM m (fun a => bindM (f a) h).
Proof. induction m as [a|k IH|k IH|k IH|e]; cbn; try reflexivity; f_equal; apply functional_extensionality; intros u; apply IH. Qed.
Lemma mapMM_map {A B C} (f : B -> M C) (h : A -> B) l : mapMM (fun a => f (h a)) l = mapMM f (map h l).
Proof. induction l; cbn; [|rewrite IHl]; reflexivity. Qed.
Lemma grid_as_seq {A} n L (f : nat -> nat -> A) : map (fun q => f (q / L) (q mod L)) (seq 0 (L * n)) = flat_map (fun i => tab L (f i)) (seq 0 n).
Proof. rewrite grid_tab. rewrite (Nat.mul_comm n). reflexivity. Qed.

(** the extra input of the bias column *)
Definition bias_input (b : cbias) : list R := match b with AnalogBias => [1%R] | _ => [] end.
Definition digital (b : cbias) (o : nat) : R := match b with DigitalBias bs => nth o bs 0%R | _ => 0%R end.

(** The layer on a tile whose matrix-vector product [fv] is an arbitrary (noisy, stateless between vectors up to its random
    draws) program: the tile is given exactly the patches of the input, sample by sample and position by position, and
    element [o] of each result is the output of channel [o] there. *)
Theorem C112_noisy_tile g C O b fv n sh x : 0 < C -> batch_of n sh x -> valid_input g C sh ->
  exists it, calc_indexes g C (is_analog b) sh = Ok it
    /\ let L := prodn (it_out it) in
       tile_forward_loop fv g C O b it n x
       = (ys <~ mapMM fv (flat_map (fun i => tab L (fun l => patch g C sh x i l ++ bias_input b)) (seq 0 n)) ;;
          Ret (flat_map (fun i => flat_map (fun o => tab L (fun l => (nth o (nth (i * L + l) ys []) 0 + digital b o)%R)) (seq 0 O)) (seq 0 n))).
Proof.
  intros HC HB V. pose proof HB as (Hn & Hx & _). destruct (patch_form g C b n sh x HC HB V) as (it & E & Ei & _ & Et & Eb & Ep).
  exists it. split; [exact Ei|]. cbv zeta. set (L := prodn (it_out it)) in *. pose proof (kernel_pos _ _ _ V) as HK. set (K := kernel_elems g) in *.
  assert (T : table_for (it_tab it) (cols g C b) L (prodn sh)) by (rewrite Et; apply with_bias_table_for; assumption).
  unfold tile_forward_loop. cbv zeta. fold L. unfold forward_indexed_loop, forward_matrix_loop.
  destruct (copy_indexed_input_ok _ _ _ _ _ _ Hn Hx T) as [xt Ec]. rewrite Ec.
  destruct (copy_indexed_input_at _ _ _ _ _ _ _ Hn Hx T Ec) as [Lx At].
  rewrite !bindM_bindM. rewrite mapMM_map. f_equal.
  - f_equal. rewrite <- (grid_as_seq n L (fun i l => patch g C sh x i l ++ bias_input b)). apply map_ext_in. intros q Hq. apply in_seq in Hq.
    destruct (Nat.eq_dec L 0) as [L0|L0]; [rewrite L0 in Hq; lia|].
    assert (Eq : q = q / L * L + q mod L) by (rewrite (Nat.mul_comm (q / L)); apply Nat.div_mod; exact L0).
    assert (Bl : q mod L < L) by (apply Nat.mod_upper_bound; exact L0).
    assert (Bi : q / L < n) by (apply Nat.div_lt_upper_bound; [exact L0|lia]).
    unfold column. rewrite Ep. set (i := q / L) in *. set (l := q mod L) in *.
    assert (G : forall r, r < cols g C b -> nth (r * (L * n) + q) xt 0%R = pick (nth (r * L + l) (it_tab it) 0) (fun p => nth (i * prodn sh + p) x 0%R)).
    { intros r Hr. rewrite Eq. apply At; assumption. }
    rewrite (tab_ext _ _ _ G). rewrite Et. unfold cols, with_bias. fold K.
    assert (Hlen : length (flat_map (fun r => tab L (E r)) (seq 0 (C * K))) = C * K * L) by apply grid_length.
    destruct b; cbn [is_analog bias_input].
    + rewrite Nat.add_0_r, app_nil_r. apply tab_ext. intros r Hr. rewrite grid_nth by assumption. reflexivity.
    + rewrite tab_app. f_equal.
      * apply tab_ext. intros r Hr. rewrite app_nth1 by (rewrite Hlen; apply flat_lt; assumption). rewrite grid_nth by assumption. reflexivity.
      * cbn [tab seq map]. rewrite Nat.add_0_r. rewrite app_nth2 by (rewrite Hlen; lia). rewrite Hlen.
        replace (C * K * L + l - C * K * L) with l by lia.
        rewrite nth_repeat_lt; [reflexivity|]. replace (C * K * L) with (C * L * K) by lia. rewrite Nat.div_mul by lia. nia.
    + rewrite Nat.add_0_r, app_nil_r. apply tab_ext. intros r Hr. rewrite grid_nth by assumption. reflexivity.
  - apply functional_extensionality. intros ys. cbn [bindM]. f_equal.
    set (d := flat_map (fun o => tab (L * n) (fun q => nth o (nth q ys []) 0%R)) (seq 0 O)).
    set (y := if 1 <? n then permute132 d L n O else d).
    assert (Y : length y = n * O * L /\ forall i o l, i < n -> o < O -> l < L -> nth ((i * O + o) * L + l) y 0%R = nth o (nth (i * L + l) ys []) 0%R).
    { unfold y. destruct (Nat.ltb_spec 1 n) as [H1|H1].
      - split; [rewrite permute132_length; reflexivity|]. intros i o l Hi Ho Hl. rewrite permute132_at by assumption.
        replace ((o * n + i) * L + l) with (o * (L * n) + (i * L + l)) by ring. unfold d. rewrite grid_nth by (try assumption; rewrite (Nat.mul_comm L); apply flat_lt; assumption). reflexivity.
      - assert (n = 1) as -> by lia. unfold d. split; [rewrite grid_length; lia|]. intros i o l Hi Ho Hl. assert (i = 0) as -> by lia.
        replace ((0 * O + o) * L + l) with (o * (L * 1) + l) by lia. rewrite grid_nth by lia. f_equal. }
    destruct Y as [Ly Ay]. destruct (add_bias_spec b n O L y Ly) as [L1 B1]. apply grid3_canon; [exact L1|].
    intros i o l Hi Ho Hl. rewrite B1, Ay by assumption. reflexivity.
Qed.
Example C112_nontrivial :
  (* a tile that adds noise to each product: the draws of the positions are independent *)
  exists it, calc_indexes (G1 2 1 0) 1 true [1; 3] = Ok it
  /\ tile_forward_loop (fun v => Gauss (fun z => Ret [(sumR v + z)%R])) (G1 2 1 0) 1 1 AnalogBias it 1 [1; 2; 3]%R
     = Gauss (fun z1 => Gauss (fun z2 => Ret [sumR [1; 2; 1]%R + z1 + 0; sumR [2; 3; 1]%R + z2 + 0]%R)).
Proof.
  destruct (C112_noisy_tile (G1 2 1 0) 1 1 AnalogBias (fun v => Gauss (fun z => Ret [(sumR v + z)%R])) 1 [1; 3] [1; 2; 3]%R) as (it & E & H);
    [lia|repeat split; cbn; lia|repeat split; cbn; unfold position; lia|]. exists it. split; [exact E|]. rewrite H. cbn in E. injection E as <-. reflexivity.
Qed.

(** ** C113: the number of channels *)
(** Conv2d, more channels than the layer has: accepted, only the first [C] channels of each sample count *)
Theorem C113_more_channels_2d k0 k1 s0 s1 p0 p1 d0 d1 C O b W n c h w x :
  b <> AnalogBias -> 0 < C <= c -> batch_of n [c; h; w] x -> valid_input (G2 k0 k1 s0 s1 p0 p1 d0 d1) c [c; h; w] ->
  exists LH LW y cv', conv_forward (fresh_conv (G2 k0 k1 s0 s1 p0 p1 d0 d1) C O b W) n [c; h; w] x = Ok ([n; O; LH; LW], y, cv')
    /\ forall i o oy ox, i < n -> o < O -> oy < LH -> ox < LW ->
         el4 O LH LW y i o oy ox
         = (conv2d C h w k0 k1 s0 s1 p0 p1 d0 d1 (w2 W k0 k1) (el4 c h w x i) o oy ox + bias_of b W (C * (k0 * k1)) o)%R.
Proof.
  intros Hb HC (Hn & Hx & _) V. cbn [valid_input] in V. destruct V as (_ & Hk0 & Hk1 & Hs0 & Hs1 & Hp0 & Hp1).
  set (LH := image_size h k0 s0 p0 d0). set (LW := image_size w k1 s1 p1 d1).
  assert (Hx' : length x = n * (c * (h * w))) by (rewrite Hx; cbn; lia).
  set (t := table2 c h w k0 k1 s0 s1 p0 p1 d0 d1).
  assert (Et : t = flat_map (fun r => tab (LH * LW) (fun l => ent2 h w s0 s1 p0 p1 d0 d1 (r / (k0 * k1)) ((r / k1) mod k0) (r mod k1) (l / LW) (l mod LW))) (seq 0 (c * (k0 * k1)))) by apply table2_grid.
  assert (Lt : length t = c * (k0 * k1) * (LH * LW)) by (rewrite Et; apply grid_length).
  assert (Kp : 0 < k0 * k1) by (apply Nat.mul_pos_pos; assumption).
  assert (T : table_for t (C * (k0 * k1)) (LH * LW) (c * (h * w))).
  { split; [rewrite Lt; repeat apply Nat.mul_le_mono_r; lia|]. intros q Hq. assert (NZ : LH * LW <> 0) by (intros Z; rewrite Z in Hq; lia).
    assert (Eq : q = q / (LH * LW) * (LH * LW) + q mod (LH * LW)) by (rewrite (Nat.mul_comm (q / (LH * LW))); apply Nat.div_mod; exact NZ).
    assert (B1 : q mod (LH * LW) < LH * LW) by (apply Nat.mod_upper_bound; exact NZ).
    assert (B2 : q / (LH * LW) < C * (k0 * k1)) by (apply Nat.div_lt_upper_bound; [exact NZ|lia]).
    assert (B3 : C * (k0 * k1) <= c * (k0 * k1)) by (apply Nat.mul_le_mono_r; lia).
    rewrite Eq, Et, grid_nth by lia. apply ent2_lt. apply Nat.div_lt_upper_bound; lia. }
  destruct (forward_indexed_spec 1 W (C * (k0 * k1)) O t x (LH * LW) n (c * (h * w)) Hn Hx' T) as (y & Ey & Ly & At).
  exists LH, LW. unfold conv_forward, fresh_conv. cbn [cv_it cv_g cv_in cv_out cv_bias cv_w cv_isize calc_indexes].
  rewrite (proj2 (fits_kernel_iff h k0 s0 p0 d0)), (proj2 (fits_kernel_iff w k1 s1 p1 d1)) by auto. cbn [andb bind fst snd]. fold LH LW t.
  unfold tile_forward_indexed. cbv zeta. cbn [it_out it_tab prodn fold_right]. rewrite Nat.mul_1_r.
  assert (Ec : cols (G2 k0 k1 s0 s1 p0 p1 d0 d1) C b = C * (k0 * k1)) by (unfold cols; destruct b; cbn [is_analog kernel_elems]; try lia; congruence).
  assert (Ea : is_analog b = false) by (destruct b; try reflexivity; congruence). rewrite Ec, Ea, Ey. cbn [bind].
  do 2 eexists. split; [reflexivity|]. intros i o oy ox Hi Ho Hy Hx0.
  destruct (add_bias_spec b n O (LH * LW) y Ly) as [_ B]. unfold el4 at 1.
  replace (((i * O + o) * LH + oy) * LW + ox) with ((i * O + o) * (LH * LW) + (oy * LW + ox)) by ring.
  rewrite B, At by (try assumption; apply flat_lt; assumption). rewrite Rmult_1_l. f_equal.
  - unfold conv2d. rewrite Sum_grid. apply Sum_ext. intros c' Hc. rewrite Sum_grid. apply Sum_ext2. intros a e Ha He.
    assert (Hae : a * k1 + e < k0 * k1) by (apply flat_lt; assumption).
    assert (Hrow : c' * (k0 * k1) + (a * k1 + e) < c * (k0 * k1)) by (apply flat_lt; lia).
    rewrite Et, grid_nth by (try assumption; apply flat_lt; assumption).
    destruct (divmod_flat (k0 * k1) c' (a * k1 + e) Hae) as [-> _].
    replace (c' * (k0 * k1) + (a * k1 + e)) with ((c' * k0 + a) * k1 + e) by lia.
    destruct (divmod_flat k1 (c' * k0 + a) e He) as [-> ->]. destruct (divmod_flat k0 c' a Ha) as [_ ->].
    destruct (divmod_flat LW oy ox Hx0) as [-> ->]. rewrite ent2_pick. unfold w2, wat. f_equal.
    unfold zpad. destruct (_ && _); [|reflexivity]. destruct (_ && _); [|reflexivity]. unfold el4. f_equal. lia.
  - unfold bias_of. destruct b; try reflexivity. congruence.
Qed.
(** Conv1d fed with [q] times as many channels: accepted, channel [j] of the layer reads channel [q * j] of the input *)
Theorem C113_more_channels_1d k s p C O b W n q h x :
  0 < C -> 0 < q -> batch_of n [q * C; h] x -> valid_input (G1 k s p) (q * C) [q * C; h] ->
  exists L y cv', conv_forward (fresh_conv (G1 k s p) C O b W) n [q * C; h] x = Ok ([n; O; L], y, cv')
    /\ forall i o l, i < n -> o < O -> l < L ->
         el3 O L y i o l = (conv1d C h k s p (w1 W k) (fun c => el3 (q * C) h x i (q * c)) o l + bias_of b W (C * k) o)%R.
Proof.
  intros HC Hq (Hn & Hx & _) V. cbn [valid_input] in V. destruct V as (_ & Hk & Hs & Hp).
  set (L := image_size h k s p 1). assert (Hx' : length x = n * (q * C * h)) by (rewrite Hx; cbn; lia).
  set (t := repeat_channels (q * C * h) C (table1 h k s p)).
  assert (Et : t = flat_map (fun r => tab L (fun l => ent1 h s p (q * (r / k)) (r mod k) l)) (seq 0 (C * k))).
  { unfold t, table1. fold L. cbv zeta. rewrite grid_tab. replace (q * C * h) with (C * (q * h)) by ring. rewrite repeat_channels_grid by assumption.
    rewrite !grid_tab. rewrite !Nat.mul_assoc. apply tab_ext. intros z Hz.
    destruct (Nat.eq_dec L 0) as [L0|L0]; [rewrite L0 in Hz; lia|].
    assert (D1 : (z mod (k * L)) / L = (z / L) mod k).
    { rewrite (Nat.mul_comm k L), Nat.mod_mul_r by lia. rewrite (Nat.mul_comm L ((z / L) mod k)), Nat.add_comm.
      destruct (divmod_flat L ((z / L) mod k) (z mod L)) as [-> _]; [apply Nat.mod_upper_bound; lia|reflexivity]. }
    assert (D2 : (z mod (k * L)) mod L = z mod L).
    { rewrite (Nat.mul_comm k L), Nat.mod_mul_r by lia. rewrite (Nat.mul_comm L ((z / L) mod k)), Nat.mod_add by lia. apply Nat.mod_mod. lia. }
    assert (D3 : z / (k * L) = z / L / k) by (rewrite (Nat.mul_comm k L); rewrite Nat.div_div by lia; reflexivity).
    rewrite D1, D2, D3. unfold ent1. cbv zeta. destruct (inside h p _); [|reflexivity]. cbn [Nat.add Nat.eqb]. lia. }
  assert (Hlt : forall r l, r < C * k -> l < L -> ent1 h s p (q * (r / k)) (r mod k) l < q * C * h + 2).
  { intros r l Hr Hl. apply ent1_lt. apply Nat.mul_lt_mono_pos_l; [exact Hq|]. apply Nat.div_lt_upper_bound; lia. }
  destruct (tile_forward_spec (G1 k s p) C O b W {| it_tab := if is_analog b then t ++ repeat 1 (length t / k) else t; it_in := [C; h]; it_out := [L] |}
    n x (q * C * h) L (fun r l => ent1 h s p (q * (r / k)) (r mod k) l)) as (y & Ey & Ly & At); cbn [kernel_elems it_out it_tab prodn fold_right]; try assumption; try lia.
  - unfold with_bias. rewrite Et. reflexivity.
  - exists L, y. unfold conv_forward, fresh_conv. cbn [cv_it cv_g cv_in cv_out cv_bias cv_w cv_isize calc_indexes].
    rewrite (proj2 (fits_kernel_iff h k s p 1)) by auto. cbn [bind fst snd]. fold L t. rewrite Ey. cbn [bind]. eexists. split; [reflexivity|].
    intros i o l Hi Ho Hl. unfold el3 at 1. cbn [kernel_elems] in At. rewrite At by assumption. f_equal. unfold conv1d. rewrite Sum_grid.
    apply Sum_ext2. intros c a Hc Ha. destruct (divmod_flat k c a Ha) as [-> ->]. rewrite ent1_pick. unfold w1, wat. f_equal.
    unfold zpad. destruct (_ && _); [|reflexivity]. unfold el3. f_equal. lia.
Qed.
(** Conv2d, fewer channels than the layer has: entries behind the end of the table are read *)
Lemma mapM_raise {A B} (f : A -> res B) e l a : List.In a l -> f a = Raise e -> (forall a', List.In a' l -> forall e', f a' = Raise e' -> e' = e) -> mapM f l = Raise e.
Proof.
  induction l as [|a' l IH]; intros Hin Hf Ha; [destruct Hin|]. cbn. destruct (f a') as [v|e'] eqn:E.
  - cbn [bind]. destruct Hin as [->|Hin]; [congruence|]. rewrite IH; auto. intros; eapply Ha; [right; eassumption|eassumption].
  - cbn [bind]. f_equal. apply (Ha a'); [left; reflexivity|exact E].
Qed.
Lemma rd_raise {A} (l : list A) i e : rd l i = Raise e -> e = IndexError.
Proof. unfold rd. destruct (nth_error l i); congruence. Qed.
Theorem C113_fewer_channels_2d k0 k1 s0 s1 p0 p1 d0 d1 C O b W n c h w x :
  b <> AnalogBias -> c < C -> batch_of n [c; h; w] x -> valid_input (G2 k0 k1 s0 s1 p0 p1 d0 d1) c [c; h; w] ->
  conv_forward (fresh_conv (G2 k0 k1 s0 s1 p0 p1 d0 d1) C O b W) n [c; h; w] x = Raise IndexError.
Proof.
  intros Hb HC (Hn & Hx & _) V. cbn [valid_input] in V. destruct V as (_ & Hk0 & Hk1 & Hs0 & Hs1 & Hp0 & Hp1).
  set (LH := image_size h k0 s0 p0 d0). set (LW := image_size w k1 s1 p1 d1). set (t := table2 c h w k0 k1 s0 s1 p0 p1 d0 d1).
  assert (Lt : length t = c * (k0 * k1) * (LH * LW)) by (unfold t; rewrite table2_grid; apply grid_length).
  assert (Kp : 0 < k0 * k1) by (apply Nat.mul_pos_pos; assumption).
  assert (H1 : 0 < LH) by (apply image_size_position; assumption). assert (H2 : 0 < LW) by (apply image_size_position; assumption).
  assert (Lp : 0 < LH * LW) by (apply Nat.mul_pos_pos; assumption).
  unfold conv_forward, fresh_conv. cbn [cv_it cv_g cv_in cv_out cv_bias cv_w cv_isize calc_indexes].
  rewrite (proj2 (fits_kernel_iff h k0 s0 p0 d0)), (proj2 (fits_kernel_iff w k1 s1 p1 d1)) by auto. cbn [andb bind fst snd]. fold LH LW t.
  unfold tile_forward_indexed. cbv zeta. cbn [it_out it_tab prodn fold_right]. rewrite Nat.mul_1_r.
  assert (Ec : cols (G2 k0 k1 s0 s1 p0 p1 d0 d1) C b = C * (k0 * k1)) by (unfold cols; destruct b; cbn [is_analog kernel_elems]; try lia; congruence).
  assert (Ea : is_analog b = false) by (destruct b; try reflexivity; congruence). rewrite Ec, Ea. unfold forward_indexed.
  set (L := LH * LW) in *. set (K := k0 * k1) in *.
  assert (G : copy_indexed_input t x (C * K) L n = Raise IndexError); [|rewrite G; reflexivity].
  unfold copy_indexed_input. cbv zeta. apply (mapM_raise _ _ _ (c * K * (L * n))).
  - apply in_seq. split; [lia|]. rewrite Nat.add_0_l. replace (C * K * L * n) with (C * K * (L * n)) by ring. apply Nat.mul_lt_mono_pos_r; [apply Nat.mul_pos_pos; assumption|]. apply Nat.mul_lt_mono_pos_r; assumption.
  - assert (NZ : L * n <> 0) by nia. rewrite Nat.mod_mul, Nat.div_mul by exact NZ. rewrite Nat.div_0_l by lia.
    replace (c * K * (L * n)) with (c * K * n * L) by ring. rewrite Nat.mod_mul by lia. cbn [Nat.mul Nat.add].
    rewrite Nat.mod_small.
    2:{ rewrite (Nat.mul_comm L). apply Nat.mul_lt_mono_pos_r; [exact Lp|]. apply Nat.mul_lt_mono_pos_r; assumption. }
    unfold rd at 1. rewrite (proj2 (nth_error_None t (c * K * L))) by (rewrite Lt; lia). reflexivity.
  - intros z _ e'. destruct (rd t _) as [j|e1] eqn:E1; cbn [bind].
    + destruct (j <=? 1); [discriminate|]. apply rd_raise.
    + intros [= <-]. eapply rd_raise. exact E1.
Qed.
Example C113_nontrivial :
  (exists y cv', conv_forward (fresh_conv (G1 1 1 0) 1 1 NoBias [[1%R]]) 1 [2; 2] [1; 2; 3; 4]%R = Ok ([1; 1; 2], y, cv') /\ el3 1 2 y 0 0 1 = 2%R)
  /\ valid_input (G2 1 1 1 1 0 0 1 1) 1 [1; 1; 1] /\ batch_of 1 [1; 1; 1] [1%R].
Proof. split; [|repeat split; cbn; unfold position; lia]. cbn. do 2 eexists. split; [reflexivity|]. unfold el3. cbn. lra. Qed.

Print Assumptions C112_noisy_tile.
Print Assumptions C113_more_channels_2d.
Print Assumptions C113_more_channels_1d.
Print Assumptions C113_fewer_channels_2d.
