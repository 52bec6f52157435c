(** * Convolution: channels, canonical tensors *)
From Verif Require Import Prelude Rand CnnModel CnnSpec CnnProofs CnnProofs2 CnnProps CnnProps2 CnnProofs3 CnnProps3.
Local Open Scope nat_scope.

Lemma grid3_canon (y : list R) n m l f : length y = n * m * l ->
  (forall i j k, i < n -> j < m -> k < l -> nth ((i * m + j) * l + k) y 0%R = f i j k) ->
  y = flat_map (fun i => flat_map (fun j => tab l (f i j)) (seq 0 m)) (seq 0 n).
Proof.
  intros Hl H. apply (nth_ext _ _ 0%R 0%R); [rewrite grid3_length; exact Hl|]. intros q Hq. rewrite Hl in Hq.
  assert (NZ : m <> 0 /\ l <> 0) by (split; intros ->; lia). destruct NZ as (N1 & N3).
  assert (E1 : q = q / l * l + q mod l) by (rewrite (Nat.mul_comm (q / l)); apply Nat.div_mod; exact N3).
  set (no := q / l) in *.
  assert (B4 : q mod l < l) by (apply Nat.mod_upper_bound; exact N3).
  assert (Hno : no < n * m) by (unfold no; apply Nat.div_lt_upper_bound; [exact N3|lia]).
  assert (E2 : no = no / m * m + no mod m) by (rewrite (Nat.mul_comm (no / m)); apply Nat.div_mod; exact N1).
  assert (B1 : no / m < n) by (apply Nat.div_lt_upper_bound; [exact N1|lia]).
  assert (B2 : no mod m < m) by (apply Nat.mod_upper_bound; exact N1).
  rewrite E1, E2. rewrite H by assumption. rewrite grid3_nth by assumption. reflexivity.
Qed.

(** moving an index by [c] channels of [S] elements *)
Definition shift (S c j : nat) : nat := if j =? 0 then 0 else j + c * S.
Lemma pick_shift S c j x : j <> 1 -> pick (shift S c j) x = pick j (fun q => x (c * S + q)).
Proof.
  intros H. unfold shift. destruct (Nat.eqb_spec j 0) as [->|Hj]; [reflexivity|]. unfold pick.
  destruct (Nat.leb_spec j 1); [lia|]. destruct (Nat.leb_spec (j + c * S) 1); [lia|]. f_equal. lia.
Qed.
Lemma calc_channel_form g sp C0 : valid_input g C0 (C0 :: sp) ->
  exists E0 osp, (forall a l, E0 a l < prodn sp + 2 /\ E0 a l <> 1)
    /\ forall C b, 0 < C -> exists it, calc_indexes g C (is_analog b) (C :: sp) = Ok it /\ it_out it = osp
       /\ it_tab it = with_bias b (kernel_elems g)
            (flat_map (fun r => tab (prodn osp) (fun l => shift (prodn sp) (r / kernel_elems g) (E0 (r mod kernel_elems g) l))) (seq 0 (C * kernel_elems g))).
Proof.
  intros V.
  destruct g as [k s p|k0 k1 s0 s1 p0 p1 d0 d1|k0 k1 k2 s0 s1 s2 p0 p1 p2]; cbn [valid_input] in V.
  - destruct sp as [|h [|? ?]]; try contradiction. destruct V as (_ & Hk & Hs & Hp).
    exists (fun a l => ent1 h s p 0 a l), [image_size h k s p 1]. split.
    + intros a l. split; [|unfold ent1; cbv zeta; destruct (inside _ _ _); discriminate]. pose proof (ent1_lt h s p 0 a l 1 ltac:(lia)). cbn. lia.
    + intros C b HC. cbn [calc_indexes]. rewrite (proj2 (fits_kernel_iff h k s p 1)) by auto. eexists. split; [reflexivity|]. split; [reflexivity|].
      cbn [it_tab kernel_elems prodn fold_right]. rewrite table1_grid by assumption. unfold with_bias. rewrite !Nat.mul_1_r.
      match goal with |- (if _ then ?A ++ _ else _) = (if _ then ?B ++ _ else _) => assert (AB : A = B); [|rewrite AB; reflexivity] end.
      apply flat_map_ext_seq. intros r _. apply tab_ext. intros l _. unfold ent1, shift. cbv zeta. destruct (inside _ _ _); [cbn [Nat.add Nat.eqb]; lia|reflexivity].
  - destruct sp as [|h [|w [|? ?]]]; try contradiction. destruct V as (_ & Hk0 & Hk1 & Hs0 & Hs1 & Hp0 & Hp1).
    exists (fun a l => ent2 h w s0 s1 p0 p1 d0 d1 0 (a / k1) (a mod k1) (l / image_size w k1 s1 p1 d1) (l mod image_size w k1 s1 p1 d1)),
      [image_size h k0 s0 p0 d0; image_size w k1 s1 p1 d1]. split.
    + intros a l. split; [|unfold ent2; cbv zeta; destruct (_ && _); discriminate].
      pose proof (ent2_lt h w s0 s1 p0 p1 d0 d1 0 (a / k1) (a mod k1) (l / image_size w k1 s1 p1 d1) (l mod image_size w k1 s1 p1 d1) 1 ltac:(lia)).
      cbn [prodn fold_right]. lia.
    + intros C b HC. cbn [calc_indexes]. rewrite (proj2 (fits_kernel_iff h k0 s0 p0 d0)), (proj2 (fits_kernel_iff w k1 s1 p1 d1)) by auto. cbn [andb].
      eexists. split; [reflexivity|]. split; [reflexivity|]. cbn [it_tab kernel_elems prodn fold_right]. rewrite table2_grid. unfold with_bias. rewrite !Nat.mul_1_r.
      match goal with |- (if _ then ?A ++ _ else _) = (if _ then ?B ++ _ else _) => assert (AB : A = B); [|rewrite AB; reflexivity] end.
      apply flat_map_ext_seq. intros r _. apply tab_ext. intros l _.
      assert (X1 : (r / k1) mod k0 = r mod (k0 * k1) / k1).
      { rewrite (Nat.mul_comm k0 k1), Nat.mod_mul_r by lia. rewrite (Nat.mul_comm k1 ((r / k1) mod k0)), Nat.add_comm.
        destruct (divmod_flat k1 ((r / k1) mod k0) (r mod k1)) as [-> _]; [apply Nat.mod_upper_bound; lia|reflexivity]. }
      assert (X2 : r mod k1 = (r mod (k0 * k1)) mod k1).
      { rewrite (Nat.mul_comm k0 k1), Nat.mod_mul_r by lia. rewrite (Nat.mul_comm k1 ((r / k1) mod k0)), Nat.mod_add by lia. symmetry. apply Nat.mod_mod. lia. }
      rewrite X1, <- X2. unfold ent2, shift. cbv zeta. destruct (_ && _); [|reflexivity]. cbn [Nat.add Nat.eqb]. lia.
  - destruct sp as [|d [|h [|w [|? ?]]]]; try contradiction. destruct V as (_ & Hk0 & Hk1 & Hk2 & Hs0 & Hs1 & Hs2 & Hp0 & Hp1 & Hp2).
    set (LD := image_size d k0 s0 p0 1). set (LH := image_size h k1 s1 p1 1). set (LW := image_size w k2 s2 p2 1).
    exists (fun a l => ent3 d h w s0 s1 s2 p0 p1 p2 0 (a / (k1 * k2)) ((a / k2) mod k1) (a mod k2) (l / (LH * LW)) ((l / LW) mod LH) (l mod LW)), [LD; LH; LW].
    split.
    + intros a l. split; [|unfold ent3; cbv zeta; destruct (_ && _); discriminate].
      pose proof (ent3_lt d h w s0 s1 s2 p0 p1 p2 0 (a / (k1 * k2)) ((a / k2) mod k1) (a mod k2) (l / (LH * LW)) ((l / LW) mod LH) (l mod LW) 1 ltac:(lia)).
      cbn [prodn fold_right]. lia.
    + intros C b HC. cbn [calc_indexes].
      rewrite (proj2 (fits_kernel_iff d k0 s0 p0 1)), (proj2 (fits_kernel_iff h k1 s1 p1 1)), (proj2 (fits_kernel_iff w k2 s2 p2 1)) by auto.
      cbn [andb]. eexists. split; [reflexivity|]. split; [reflexivity|]. cbn [it_tab kernel_elems prodn fold_right].
      rewrite table3_grid by assumption. unfold with_bias. rewrite !Nat.mul_1_r. fold LD LH LW.
      match goal with |- (if _ then ?A ++ _ else _) = (if _ then ?B ++ _ else _) => assert (AB : A = B); [|rewrite AB; reflexivity] end.
      apply flat_map_ext_seq. intros r _. apply tab_ext. intros l _. unfold ent3, shift. cbv zeta. destruct (_ && _); [|reflexivity]. cbn [Nat.add Nat.eqb]. lia.
Qed.
Lemma kernel_pos g C sh : valid_input g C sh -> 0 < kernel_elems g.
Proof.
  destruct g; cbn [valid_input kernel_elems]; [destruct sh as [|? [|? [|? ?]]]|destruct sh as [|? [|? [|? [|? ?]]]]|destruct sh as [|? [|? [|? [|? [|? ?]]]]]];
    try contradiction; intros V; decompose [and] V; repeat apply Nat.mul_pos_pos; assumption.
Qed.
(** the output of a tile, channel by channel *)
Definition chan_out (E0 : nat -> nat -> nat) (K S : nat) (W : mat) (C o0 c0 cn : nat) (x : list R) (i o l : nat) : R :=
  Sum cn (fun c => Sum K (fun a => (wat W (o0 + o) ((c0 + c) * K + a) * pick (E0 a l) (fun q => nth ((i * C + (c0 + c)) * S + q)%nat x 0))%R)).
Lemma tile_channel_form g sp C0 : valid_input g C0 (C0 :: sp) ->
  exists E0 osp, (forall a l, E0 a l < prodn sp + 2 /\ E0 a l <> 1) /\
    forall C, 0 < C -> exists it, (forall b, b <> AnalogBias -> calc_indexes g C (is_analog b) (C :: sp) = Ok it) /\ it_out it = osp
    /\ forall O W n x, 0 < n -> length x = n * (C * prodn sp) ->
       tile_forward_indexed g C O NoBias W it n x
       = Ok (flat_map (fun i => flat_map (fun o => tab (prodn osp) (fun l =>
            Sum C (fun c => Sum (kernel_elems g) (fun a => (wat W o (c * kernel_elems g + a) * pick (E0 a l) (fun q => nth ((i * C + c) * prodn sp + q)%nat x 0))%R))))
            (seq 0 O)) (seq 0 n)).
Proof.
  intros V. destruct (calc_channel_form g sp C0 V) as (E0 & osp & HE & H). pose proof (kernel_pos _ _ _ V) as HK.
  exists E0, osp. split; [exact HE|]. intros C HC. destruct (H C NoBias HC) as (it & Ei & Eo & Et). exists it.
  split; [intros b Hb; destruct b; try exact Ei; congruence|]. split; [exact Eo|]. intros O W n x Hn Hx. set (K := kernel_elems g) in *.
  destruct (tile_forward_spec g C O NoBias W it n x (C * prodn sp) (prodn osp)
    (fun r l => shift (prodn sp) (r / K) (E0 (r mod K) l)) Hn HC HK Hx) as (y & Ey & Ly & At).
  - rewrite Eo. reflexivity.
  - exact Et.
  - intros r l Hr _. unfold shift. destruct (_ =? 0); [lia|]. fold K in Hr. pose proof (HE (r mod K) l) as [A _].
    assert (r / K < C) by (apply Nat.div_lt_upper_bound; lia). nia.
  - fold K in At. rewrite Ey. f_equal. apply grid3_canon; [exact Ly|]. intros i o l Hi Ho Hl. rewrite At by assumption.
    cbn [bias_of]. rewrite Rplus_0_r, Sum_grid. apply Sum_ext2. intros c a Hc Ha. destruct (divmod_flat K c a Ha) as [-> ->]. f_equal.
    rewrite pick_shift by apply HE. unfold pick. destruct (_ <=? 1); [reflexivity|]. f_equal. lia.
Qed.

(** ** Splitting and joining *)
Lemma starts_length from l : length (starts from l) = length l.
Proof. revert from; induction l; intros; cbn; [|rewrite IHl]; reflexivity. Qed.
Lemma combine_starts_map {A} (f : nat * nat -> A) from l :
  combine (starts from l) (map f (starts from l)) = map (fun c => (c, f c)) (starts from l).
Proof. revert from; induction l; intros; cbn; [|rewrite IHl]; reflexivity. Qed.
Lemma combine_sizes_map {A} (f : nat * nat -> A) from l :
  combine l (map f (starts from l)) = map (fun c => (snd c, f c)) (starts from l).
Proof. revert from; induction l; intros; cbn; [|rewrite IHl]; reflexivity. Qed.
Lemma map2_sizes_map {A B} (h : nat -> A -> B) (f : nat * nat -> A) from l :
  map2 h l (map f (starts from l)) = map (fun c => h (snd c) (f c)) (starts from l).
Proof. revert from; induction l; intros; cbn; [|rewrite IHl]; reflexivity. Qed.
Lemma in_starts from l c : List.In c (starts from l) -> from <= fst c /\ fst c + snd c <= from + total l /\ List.In (snd c) l.
Proof.
  revert from; induction l as [|s l IH]; intros from H; cbn in H; [contradiction|]. destruct H as [<-|H]; cbn; [lia|].
  apply IH in H. unfold total in *. cbn. intuition lia.
Qed.
Lemma concat_starts {A} k (F : nat -> A) from l :
  concat (map (fun c => tab (snd c * k) (fun q => F (fst c * k + q))) (starts from l)) = tab (total l * k) (fun q => F (from * k + q)).
Proof.
  revert from; induction l as [|s l IH]; intros from; cbn [starts map concat total fold_right]; [reflexivity|].
  rewrite IH. cbn [fst snd]. fold (total l). rewrite (Nat.mul_add_distr_r s (total l) k), tab_app. f_equal. apply tab_ext. intros i _. f_equal. lia.
Qed.
Lemma Sum_starts (h : nat -> R) from l :
  sumR (map (fun c => Sum (snd c) (fun i => h (fst c + i))) (starts from l)) = Sum (total l) (fun i => h (from + i)).
Proof.
  revert from; induction l as [|s l IH]; intros from; cbn [starts map sumR total fold_right]; [reflexivity|].
  rewrite IH. cbn [fst snd]. fold (total l). rewrite Sum_app. f_equal. apply Sum_ext. intros i _. f_equal. lia.
Qed.
Lemma vadd_tab M f g : vadd (tab M f) (tab M g) = tab M (fun q => (f q + g q)%R).
Proof.
  unfold vadd, tab. generalize (seq 0 M). induction l; cbn; [|rewrite IHl]; reflexivity.
Qed.
Lemma fold_vadd_tab {A} M (f : A -> nat -> R) l g :
  fold_left vadd (map (fun c => tab M (f c)) l) (tab M g) = tab M (fun q => (g q + sumR (map (fun c => f c q) l))%R).
Proof.
  revert g; induction l as [|c l IH]; intros g; cbn [map fold_left].
  - apply tab_ext. intros. cbn. lra.
  - rewrite vadd_tab, IH. apply tab_ext. intros. cbn [map sumR]. lra.
Qed.
Lemma mapM_map {A B C} (f : B -> res C) (h : A -> B) l : mapM f (map h l) = mapM (fun a => f (h a)) l.
Proof. induction l; cbn; [|rewrite IHl]; reflexivity. Qed.
