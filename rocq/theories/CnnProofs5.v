(** * Convolution: the vectors a tile sees *)
From Verif Require Import Prelude Rand CnnModel CnnSpec CnnProofs CnnProofs2 CnnProps CnnProps2 CnnProofs3 CnnProps3 CnnProofs4.
From Coq Require Import FunctionalExtensionality.
Local Open Scope nat_scope.

Lemma patch_form g C b n sh x : 0 < C -> batch_of n sh x -> valid_input g C sh ->
  exists it E, calc_indexes g C (is_analog b) sh = Ok it /\ it_in it = sh
    /\ it_tab it = with_bias b (kernel_elems g) (flat_map (fun r => tab (prodn (it_out it)) (E r)) (seq 0 (C * kernel_elems g)))
    /\ (forall r l, r < C * kernel_elems g -> l < prodn (it_out it) -> E r l < prodn sh + 2)
    /\ forall i l, patch g C sh x i l = tab (C * kernel_elems g) (fun r => pick (E r l) (fun q => nth (i * prodn sh + q) x 0%R)).
Proof.
  intros HC (Hn & Hx & _) V.
  destruct g as [k s p|k0 k1 s0 s1 p0 p1 d0 d1|k0 k1 k2 s0 s1 s2 p0 p1 p2]; cbn [valid_input] in V.
  - destruct sh as [|c [|h [|? ?]]]; try contradiction. destruct V as (-> & Hk & Hs & Hp).
    cbn [calc_indexes]. rewrite (proj2 (fits_kernel_iff h k s p 1)) by auto.
    eexists. exists (fun r l => ent1 h s p (r / k) (r mod k) l). split; [reflexivity|]. split; [reflexivity|].
    cbn [it_tab it_out kernel_elems prodn fold_right]. rewrite !Nat.mul_1_r. split; [|split].
    + unfold with_bias. rewrite table1_grid by assumption. reflexivity.
    + intros r l Hr Hl. apply ent1_lt. apply Nat.div_lt_upper_bound; lia.
    + intros i l. cbn [patch]. rewrite grid_tab. apply tab_ext. intros r _. rewrite ent1_pick.
      unfold zpad. destruct (_ && _); [|reflexivity]. unfold el3. f_equal. lia.
  - destruct sh as [|c [|h [|w [|? ?]]]]; try contradiction. destruct V as (-> & Hk0 & Hk1 & Hs0 & Hs1 & Hp0 & Hp1).
    cbn [calc_indexes]. rewrite (proj2 (fits_kernel_iff h k0 s0 p0 d0)), (proj2 (fits_kernel_iff w k1 s1 p1 d1)) by auto. cbn [andb].
    set (LH := image_size h k0 s0 p0 d0). set (LW := image_size w k1 s1 p1 d1).
    eexists. exists (fun r l => ent2 h w s0 s1 p0 p1 d0 d1 (r / (k0 * k1)) ((r / k1) mod k0) (r mod k1) (l / LW) (l mod LW)).
    split; [reflexivity|]. split; [reflexivity|]. cbn [it_tab it_out kernel_elems prodn fold_right]. rewrite !Nat.mul_1_r. split; [|split].
    + unfold with_bias. rewrite table2_grid. reflexivity.
    + intros r l Hr Hl. apply ent2_lt. apply Nat.div_lt_upper_bound; nia.
    + intros i l. cbn [patch]. cbv zeta. fold LW.
      rewrite (flat_map_ext_seq _ _ (fun c => tab (k0 * k1) (fun q => zpad h p0 (fun y => zpad w p1 (el4 C h w x i c y) (l mod LW * s1 + (q mod k1) * d1)) (l / LW * s0 + (q / k1) * d0)))).
      2:{ intros c Hc. apply grid_tab. }
      rewrite grid_tab. apply tab_ext. intros r Hr.
      assert (X1 : (r / k1) mod k0 = r mod (k0 * k1) / k1).
      { rewrite (Nat.mul_comm k0 k1), Nat.mod_mul_r by lia. rewrite (Nat.mul_comm k1 ((r / k1) mod k0)), Nat.add_comm.
        destruct (divmod_flat k1 ((r / k1) mod k0) (r mod k1)) as [-> _]; [apply Nat.mod_upper_bound; lia|reflexivity]. }
      assert (X2 : r mod k1 = (r mod (k0 * k1)) mod k1).
      { rewrite (Nat.mul_comm k0 k1), Nat.mod_mul_r by lia. rewrite (Nat.mul_comm k1 ((r / k1) mod k0)), Nat.mod_add by lia. symmetry. apply Nat.mod_mod. lia. }
      rewrite X1, X2, ent2_pick.
      unfold zpad. destruct (_ && _); [|reflexivity]. destruct (_ && _); [|reflexivity]. unfold el4. f_equal. lia.
  - destruct sh as [|c [|d [|h [|w [|? ?]]]]]; try contradiction. destruct V as (-> & Hk0 & Hk1 & Hk2 & Hs0 & Hs1 & Hs2 & Hp0 & Hp1 & Hp2).
    cbn [calc_indexes]. rewrite (proj2 (fits_kernel_iff d k0 s0 p0 1)), (proj2 (fits_kernel_iff h k1 s1 p1 1)), (proj2 (fits_kernel_iff w k2 s2 p2 1)) by auto.
    cbn [andb]. set (LD := image_size d k0 s0 p0 1). set (LH := image_size h k1 s1 p1 1). set (LW := image_size w k2 s2 p2 1).
    eexists. exists (fun r l => ent3 d h w s0 s1 s2 p0 p1 p2 (r / (k0 * k1 * k2)) ((r mod (k0 * k1 * k2)) / (k1 * k2)) (((r mod (k0 * k1 * k2)) / k2) mod k1)
                   ((r mod (k0 * k1 * k2)) mod k2) (l / (LH * LW)) ((l / LW) mod LH) (l mod LW)).
    split; [reflexivity|]. split; [reflexivity|]. cbn [it_tab it_out kernel_elems prodn fold_right]. rewrite !Nat.mul_1_r. split; [|split].
    + unfold with_bias. rewrite table3_grid by assumption. reflexivity.
    + intros r l Hr Hl. apply ent3_lt. apply Nat.div_lt_upper_bound; [|lia]. assert (0 < k0 * k1 * k2) by (repeat apply Nat.mul_pos_pos; assumption). lia.
    + intros i l. cbn [patch]. cbv zeta. fold LH LW.
      rewrite (flat_map_ext_seq _ _ (fun c => tab (k0 * k1 * k2) (fun q => zpad d p0 (fun z => zpad h p1 (fun y => zpad w p2 (el5 C d h w x i c z y) (l mod LW * s2 + q mod k2))
          ((l / LW) mod LH * s1 + (q / k2) mod k1)) (l / (LH * LW) * s0 + q / (k1 * k2))))).
      2:{ intros c Hc. rewrite (flat_map_ext_seq _ _ (fun a => tab (k1 * k2) (fun q => zpad d p0 (fun z => zpad h p1 (fun y => zpad w p2 (el5 C d h w x i c z y) (l mod LW * s2 + q mod k2))
          ((l / LW) mod LH * s1 + q / k2)) (l / (LH * LW) * s0 + a)))) by (intros a Ha; apply grid_tab).
        rewrite grid_tab, Nat.mul_assoc. apply tab_ext. intros q Hq.
        assert (X1 : (q / k2) mod k1 = q mod (k1 * k2) / k2).
        { rewrite (Nat.mul_comm k1 k2), Nat.mod_mul_r by lia. rewrite (Nat.mul_comm k2 ((q / k2) mod k1)), Nat.add_comm.
          destruct (divmod_flat k2 ((q / k2) mod k1) (q mod k2)) as [-> _]; [apply Nat.mod_upper_bound; lia|reflexivity]. }
        assert (X2 : q mod k2 = (q mod (k1 * k2)) mod k2).
        { rewrite (Nat.mul_comm k1 k2), Nat.mod_mul_r by lia. rewrite (Nat.mul_comm k2 ((q / k2) mod k1)), Nat.mod_add by lia. symmetry. apply Nat.mod_mod. lia. }
        rewrite X1, <- X2. reflexivity. }
      rewrite grid_tab. apply tab_ext. intros r Hr. rewrite ent3_pick.
      unfold zpad. destruct (_ && _); [|reflexivity]. destruct (_ && _); [|reflexivity]. destruct (_ && _); [|reflexivity].
      unfold el5. f_equal. lia.
Qed.
