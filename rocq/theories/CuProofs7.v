From Verif Require Import Prelude CuModel.
From Coq Require Import Lia.

Lemma grid_unique total n idx : (0 < total)%nat -> (idx < n)%nat ->
  exists! tr : nat * nat, (fst tr < total)%nat /\ grid_index total n (fst tr) (snd tr) = Some idx.
Proof.
  intros Ht Hn. pose proof (Nat.div_mod idx total ltac:(lia)) as D. pose proof (Nat.mod_upper_bound idx total ltac:(lia)) as M.
  exists (idx mod total, idx / total)%nat. split.
  - cbn [fst snd]. split; [exact M |]. unfold grid_index. cbv zeta.
    destruct (Nat.ltb_spec (idx / total * total) n); [| nia].
    replace (idx mod total + idx / total * total)%nat with idx by lia. destruct (Nat.ltb_spec idx n); [reflexivity | lia].
  - intros [tid r] [H1 H2]. cbn [fst snd] in *. unfold grid_index in H2. cbv zeta in H2.
    destruct (_ <? n)%nat; [| discriminate]. destruct (Nat.ltb_spec (tid + r * total) n); [| discriminate]. inversion H2.
    f_equal; [symmetry; apply (Nat.mod_unique _ _ r tid); lia | symmetry; apply (Nat.div_unique _ _ r tid); lia].
Qed.
Lemma shared_unique grid xb xsz dsz idx : (0 < grid)%nat -> (0 < xb)%nat -> (0 < dsz)%nat -> (idx < xsz * dsz)%nat ->
  exists! brt : nat * nat * nat, (fst (fst brt) < grid)%nat /\ (snd brt < xb * 32)%nat /\
    shared_index grid xb xsz dsz (fst (fst brt)) (snd (fst brt)) (snd brt) = Some idx.
Proof.
  intros Hg Hxb Hd Hi. set (ndb := ((dsz + 31) / 32)%nat). set (nxb := ((xsz + xb - 1) / xb)%nat).
  set (x := (idx / dsz)%nat). set (d := (idx mod dsz)%nat).
  pose proof (Nat.div_mod idx dsz ltac:(lia)) as D. pose proof (Nat.mod_upper_bound idx dsz ltac:(lia)) as M. fold x d in D, M.
  assert (Lx : (x < xsz)%nat) by (apply Nat.div_lt_upper_bound; lia).
  assert (Nd : (0 < ndb)%nat) by (apply Nat.div_str_pos; lia).
  pose proof (Nat.div_mod (dsz + 31) 32 ltac:(lia)) as DB. pose proof (Nat.mod_upper_bound (dsz + 31) 32 ltac:(lia)) as MB. fold ndb in DB.
  pose proof (Nat.div_mod (xsz + xb - 1) xb ltac:(lia)) as DX. pose proof (Nat.mod_upper_bound (xsz + xb - 1) xb ltac:(lia)) as MX. fold nxb in DX.
  pose proof (Nat.div_mod d 32 ltac:(lia)) as Dd. pose proof (Nat.mod_upper_bound d 32 ltac:(lia)) as Md.
  pose proof (Nat.div_mod x xb ltac:(lia)) as Dx. pose proof (Nat.mod_upper_bound x xb ltac:(lia)) as Mx.
  assert (Ldb : (d / 32 < ndb)%nat) by lia.
  assert (Lxb : (x / xb < nxb)%nat) by nia.
  set (bid := (x / xb * ndb + d / 32)%nat).
  assert (Lbid : (bid < ndb * nxb)%nat) by (unfold bid; nia).
  pose proof (Nat.div_mod bid grid ltac:(lia)) as Db. pose proof (Nat.mod_upper_bound bid grid ltac:(lia)) as Mb.
  assert (E1 : (bid / ndb = x / xb)%nat) by (symmetry; apply (Nat.div_unique _ _ _ (d / 32)); unfold bid; lia).
  assert (E2 : (bid mod ndb = d / 32)%nat) by (symmetry; apply (Nat.mod_unique _ _ (x / xb) (d / 32)); unfold bid; lia).
  exists (bid mod grid, bid / grid, 32 * (x mod xb) + d mod 32)%nat. split.
  - cbn [fst snd]. split; [exact Mb |]. split; [nia |]. unfold shared_index. cbv zeta. fold ndb nxb.
    replace (bid mod grid + bid / grid * grid)%nat with bid by lia.
    assert (LT : (bid / grid * (xb * 32 * grid) < ndb * nxb * (xb * 32))%nat).
    { replace (bid / grid * (xb * 32 * grid))%nat with (bid / grid * grid * (xb * 32))%nat by lia. apply Nat.mul_lt_mono_pos_r; lia. }
    rewrite (proj2 (Nat.ltb_lt _ _) LT).
    assert (SR : still_running grid xb xsz dsz (bid mod grid) (bid / grid) = true).
    { unfold still_running. apply forallb_forall. intros r' Hr. apply in_seq in Hr. apply Nat.ltb_lt. unfold x_start. fold ndb.
      assert (L : (bid mod grid + r' * grid <= bid)%nat) by nia.
      pose proof (Nat.div_le_mono _ _ ndb ltac:(lia) L) as L2. rewrite E1 in L2. nia. }
    rewrite SR. unfold x_start. fold ndb. replace (bid mod grid + bid / grid * grid)%nat with bid by lia. rewrite E1, E2.
    assert (T1 : ((32 * (x mod xb) + d mod 32) / 32 = x mod xb)%nat) by (symmetry; apply (Nat.div_unique _ _ _ (d mod 32)); lia).
    assert (T2 : ((32 * (x mod xb) + d mod 32) mod 32 = d mod 32)%nat) by (symmetry; apply (Nat.mod_unique _ _ (x mod xb) (d mod 32)); lia).
    rewrite T1, T2. replace (xb * (x / xb) + x mod xb)%nat with x by lia. replace (32 * (d / 32) + d mod 32)%nat with d by lia.
    destruct (Nat.ltb_spec x xsz); [| lia]. destruct (Nat.ltb_spec d dsz); [| lia]. cbn [andb]. f_equal. lia.
  - intros [[blk r] t] (H1 & H2 & H3). cbn [fst snd] in *. unfold shared_index in H3. cbv zeta in H3. fold ndb nxb in H3.
    destruct (_ <? ndb * nxb * (xb * 32))%nat; [| discriminate]. destruct (still_running _ _ _ _ _ _); [| discriminate].
    unfold x_start in H3. fold ndb in H3. set (b' := (blk + r * grid)%nat) in *.
    destruct (Nat.ltb_spec (xb * (b' / ndb) + t / 32) xsz); [| discriminate].
    destruct (Nat.ltb_spec (32 * (b' mod ndb) + t mod 32) dsz); [| discriminate]. cbn [andb] in H3. injection H3 as H4.
    set (x' := (xb * (b' / ndb) + t / 32)%nat) in *. set (d' := (32 * (b' mod ndb) + t mod 32)%nat) in *.
    assert (XY : x' = x /\ d' = d).
    { apply (Nat.div_mod_unique dsz x' x d' d); [assumption | assumption |]. rewrite <- D, <- H4. rewrite (Nat.mul_comm dsz). reflexivity. }
    destruct XY as [X Y]. unfold x' in X. unfold d' in Y.
    pose proof (Nat.div_mod t 32 ltac:(lia)) as Dt. pose proof (Nat.mod_upper_bound t 32 ltac:(lia)) as Mt.
    assert (Lt : (t / 32 < xb)%nat) by (apply Nat.div_lt_upper_bound; lia).
    assert (B1 : (b' / ndb = x / xb /\ t / 32 = x mod xb)%nat) by (split; [apply (Nat.div_unique _ _ _ (t / 32)) | apply (Nat.mod_unique _ _ (b' / ndb))]; lia).
    assert (B2 : (b' mod ndb = d / 32 /\ t mod 32 = d mod 32)%nat) by (split; [apply (Nat.div_unique _ _ _ (t mod 32)) | apply (Nat.mod_unique _ _ (b' mod ndb))]; lia).
    pose proof (Nat.div_mod b' ndb ltac:(lia)) as Db'.
    assert (EB : b' = bid) by (unfold bid; destruct B1 as [B1 _]; destruct B2 as [B2 _]; rewrite Db', B1, B2; lia).
    f_equal; [f_equal |].
    + symmetry. apply (Nat.mod_unique _ _ r blk); unfold b' in EB; lia.
    + symmetry. apply (Nat.div_unique _ _ r blk); unfold b' in EB; lia.
    + destruct B1 as [_ B1]. destruct B2 as [_ B2]. lia.
Qed.
Lemma split_ok grid xs ds : (2 <= grid)%nat -> (0 < xs)%nat -> (0 < ds)%nat ->
  (0 < fst (split_blocks grid xs ds) /\ 0 < snd (split_blocks grid xs ds) /\ fst (split_blocks grid xs ds) + snd (split_blocks grid xs ds) = grid)%nat.
Proof.
  intros Hg Hx Hd. unfold split_blocks. cbv zeta. set (nx := (_ / (xs + ds))%nat).
  pose proof (Nat.div_mod (grid * xs + (xs + ds) - 1) (xs + ds) ltac:(lia)) as D. fold nx in D.
  pose proof (Nat.mod_upper_bound (grid * xs + (xs + ds) - 1) (xs + ds) ltac:(lia)) as M.
  assert (A : (0 < nx)%nat) by (apply Nat.div_str_pos; nia).
  assert (B : (nx <= grid)%nat).
  { destruct (Nat.le_gt_cases nx grid); [assumption |]. exfalso.
    assert ((xs + ds) * nx >= (xs + ds) * (grid + 1))%nat by (apply Nat.mul_le_mono_l; lia). nia. }
  destruct (Nat.eqb_spec (grid - nx) 0); destruct (Nat.ltb_spec 0 ds); cbn [andb fst snd]; lia.
Qed.
