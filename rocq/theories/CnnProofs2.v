(** * Convolution: the index tables, a tile with a table computes the convolution *)
From Verif Require Import Prelude Rand CnnModel CnnSpec CnnProofs.
Local Open Scope nat_scope.

Lemma map_tab {A B} (g : A -> B) n f : map g (tab n f) = tab n (fun i => g (f i)).
Proof. unfold tab. apply map_map. Qed.
Lemma flat_map_seq_shift {A} (f : nat -> list A) n : flat_map f (seq 1 n) = flat_map (fun i => f (i + 1)) (seq 0 n).
Proof. rewrite <- seq_shift, !flat_map_concat_map, map_map. f_equal. apply map_ext. intros. f_equal. lia. Qed.
Lemma repeat_channels_grid S C T f : 0 < C ->
  repeat_channels (C * S) C (tab T f) = flat_map (fun c => tab T (fun q => if f q =? 0 then 0 else f q + c * S)) (seq 0 C).
Proof.
  intros HC. unfold repeat_channels. destruct C as [|C]; [lia|]. cbn [seq flat_map].
  replace (Datatypes.S C - 1) with C by lia. f_equal.
  - apply tab_ext. intros i _. destruct (Nat.eqb_spec (f i) 0); lia.
  - rewrite flat_map_seq_shift. apply flat_map_ext_seq. intros i _. rewrite map_tab. apply tab_ext. intros q _.
    destruct (f q =? 0); [reflexivity|]. f_equal.
    replace (Datatypes.S C * S * (i + 1)) with (((i + 1) * S) * Datatypes.S C) by lia. apply Nat.div_mul. lia.
Qed.

Lemma inside_true n p i : inside n p i = true <-> p <= i < p + n.
Proof. unfold inside. rewrite andb_true_iff, Nat.leb_le, Nat.ltb_lt. reflexivity. Qed.
Lemma pick_0 x : pick 0 x = 0%R.
Proof. reflexivity. Qed.
Lemma pick_SS j x : pick (2 + j) x = x j.
Proof. unfold pick. destruct (Nat.leb_spec (2 + j) 1); [lia|]. f_equal. lia. Qed.

(** entry of the table for channel [c], kernel position [a], output position [l] *)
Definition ent1 (h s p c a l : nat) : nat := let i := l * s + a in if inside h p i then 2 + (c * h + (i - p)) else 0.
Definition ent2 (h w s0 s1 p0 p1 d0 d1 c a b oy ox : nat) : nat :=
  let i := oy * s0 + a * d0 in let j := ox * s1 + b * d1 in
  if inside h p0 i && inside w p1 j then 2 + ((c * h + (i - p0)) * w + (j - p1)) else 0.
Definition ent3 (d h w s0 s1 s2 p0 p1 p2 c a b e oz oy ox : nat) : nat :=
  let i := oz * s0 + a in let j := oy * s1 + b in let f := ox * s2 + e in
  if inside d p0 i && inside h p1 j && inside w p2 f
  then 2 + (c * (d * (h * w)) + (((i - p0) * h + (j - p1)) * w + (f - p2))) else 0.

Lemma ent1_pick h s p c a l x : pick (ent1 h s p c a l) x = zpad h p (fun i => x (c * h + i)) (l * s + a).
Proof.
  unfold ent1, zpad. fold (inside h p (l * s + a)). cbv zeta. destruct (inside h p (l * s + a)); [apply pick_SS|apply pick_0].
Qed.
Lemma ent2_pick h w s0 s1 p0 p1 d0 d1 c a b oy ox x : pick (ent2 h w s0 s1 p0 p1 d0 d1 c a b oy ox) x
  = zpad h p0 (fun i => zpad w p1 (fun j => x ((c * h + i) * w + j)) (ox * s1 + b * d1)) (oy * s0 + a * d0).
Proof.
  unfold ent2, zpad. fold (inside h p0 (oy * s0 + a * d0)) (inside w p1 (ox * s1 + b * d1)). cbv zeta.
  destruct (inside h p0 (oy * s0 + a * d0)), (inside w p1 (ox * s1 + b * d1)); cbn [andb]; first [apply pick_SS|apply pick_0].
Qed.
Lemma ent3_pick d h w s0 s1 s2 p0 p1 p2 c a b e oz oy ox x : pick (ent3 d h w s0 s1 s2 p0 p1 p2 c a b e oz oy ox) x
  = zpad d p0 (fun z => zpad h p1 (fun i => zpad w p2 (fun j => x (((c * d + z) * h + i) * w + j)) (ox * s2 + e)) (oy * s1 + b)) (oz * s0 + a).
Proof.
  unfold ent3, zpad. fold (inside d p0 (oz * s0 + a)) (inside h p1 (oy * s1 + b)) (inside w p2 (ox * s2 + e)). cbv zeta.
  destruct (inside d p0 (oz * s0 + a)), (inside h p1 (oy * s1 + b)), (inside w p2 (ox * s2 + e)); cbn [andb]; try apply pick_0.
  rewrite pick_SS. f_equal. lia.
Qed.
Lemma ent1_lt h s p c a l C : c < C -> ent1 h s p c a l < C * h + 2.
Proof.
  intros. unfold ent1. cbv zeta. destruct (inside h p (l * s + a)) eqn:E; [|lia]. apply inside_true in E. nia.
Qed.
Lemma flat2_lt i j n m : i < n -> j < m -> i * m + j < n * m.
Proof. nia. Qed.
Lemma ent2_lt h w s0 s1 p0 p1 d0 d1 c a b oy ox C : c < C -> ent2 h w s0 s1 p0 p1 d0 d1 c a b oy ox < C * (h * w) + 2.
Proof.
  intros Hc. unfold ent2. cbv zeta. destruct (inside h p0 (oy * s0 + a * d0)) eqn:E1; cbn [andb]; [|lia].
  destruct (inside w p1 (ox * s1 + b * d1)) eqn:E2; [|lia]. apply inside_true in E1, E2.
  assert (K1 : c * h + (oy * s0 + a * d0 - p0) < C * h) by (apply flat2_lt; lia).
  assert (K2 : (c * h + (oy * s0 + a * d0 - p0)) * w + (ox * s1 + b * d1 - p1) < C * h * w) by (apply flat2_lt; lia). lia.
Qed.
Lemma ent3_lt d h w s0 s1 s2 p0 p1 p2 c a b e oz oy ox C : c < C ->
  ent3 d h w s0 s1 s2 p0 p1 p2 c a b e oz oy ox < C * (d * (h * w)) + 2.
Proof.
  intros Hc. unfold ent3. cbv zeta. destruct (inside d p0 (oz * s0 + a)) eqn:E1; cbn [andb]; [|lia].
  destruct (inside h p1 (oy * s1 + b)) eqn:E2; cbn [andb]; [|lia]. destruct (inside w p2 (ox * s2 + e)) eqn:E3; [|lia].
  apply inside_true in E1, E2, E3.
  assert (K1 : (oz * s0 + a - p0) * h + (oy * s1 + b - p1) < d * h) by (apply flat2_lt; lia).
  assert (K2 : ((oz * s0 + a - p0) * h + (oy * s1 + b - p1)) * w + (ox * s2 + e - p2) < d * h * w) by (apply flat2_lt; lia).
  assert (K3 : c * (d * (h * w)) + (((oz * s0 + a - p0) * h + (oy * s1 + b - p1)) * w + (ox * s2 + e - p2)) < C * (d * (h * w))).
  { apply flat2_lt; lia. } lia.
Qed.

(** the tables as grids [C*K] x [L] *)
Lemma table1_grid C h k s p : 0 < C ->
  repeat_channels (C * h) C (table1 h k s p)
  = flat_map (fun r => tab (image_size h k s p 1) (fun l => ent1 h s p (r / k) (r mod k) l)) (seq 0 (C * k)).
Proof.
  intros HC. set (L := image_size h k s p 1). unfold table1. fold L. cbv zeta. rewrite grid_tab, repeat_channels_grid by assumption.
  rewrite !grid_tab. replace (C * (k * L)) with (C * k * L) by lia. apply tab_ext. intros q Hq.
  destruct (Nat.eq_dec L 0) as [E0|E0]; [rewrite E0 in Hq; lia|]. destruct (Nat.eq_dec k 0) as [E1|E1]; [rewrite E1 in Hq; lia|].
  assert (D : q / (k * L) = q / L / k) by (rewrite (Nat.mul_comm k L), Nat.div_div by assumption; reflexivity).
  assert (D2 : q mod (k * L) = L * ((q / L) mod k) + q mod L).
  { rewrite (Nat.mul_comm k L), Nat.mod_mul_r by assumption. lia. }
  assert (Hm : q mod L < L) by (apply Nat.mod_upper_bound; assumption).
  assert (D3 : (q mod (k * L)) / L = (q / L) mod k).
  { rewrite D2, (Nat.mul_comm L). destruct (divmod_flat L ((q / L) mod k) (q mod L) Hm) as [-> _]. reflexivity. }
  assert (D4 : (q mod (k * L)) mod L = q mod L).
  { rewrite D2, (Nat.mul_comm L). destruct (divmod_flat L ((q / L) mod k) (q mod L) Hm) as [_ ->]. reflexivity. }
  rewrite D3, D4, D. unfold ent1. cbv zeta. destruct (inside h p (q mod L * s + (q / L) mod k)); [|reflexivity].
  cbn [Nat.add Nat.eqb]. lia.
Qed.
Lemma table2_grid C h w k0 k1 s0 s1 p0 p1 d0 d1 :
  table2 C h w k0 k1 s0 s1 p0 p1 d0 d1
  = flat_map (fun r => tab (image_size h k0 s0 p0 d0 * image_size w k1 s1 p1 d1)
       (fun l => ent2 h w s0 s1 p0 p1 d0 d1 (r / (k0 * k1)) ((r / k1) mod k0) (r mod k1)
                   (l / image_size w k1 s1 p1 d1) (l mod image_size w k1 s1 p1 d1))) (seq 0 (C * (k0 * k1))).
Proof.
  unfold table2. cbv zeta. apply flat_map_ext_seq. intros r _. apply tab_ext. intros l _. unfold ent2. cbv zeta.
  destruct (_ && _); [lia|reflexivity].
Qed.
Lemma table3_grid C d h w k0 k1 k2 s0 s1 s2 p0 p1 p2 : 0 < C ->
  let od := image_size d k0 s0 p0 1 in let oh := image_size h k1 s1 p1 1 in let ow := image_size w k2 s2 p2 1 in
  repeat_channels (C * (d * (h * w))) C (table3 d h w k0 k1 k2 s0 s1 s2 p0 p1 p2)
  = flat_map (fun r => tab (od * (oh * ow))
       (fun l => ent3 d h w s0 s1 s2 p0 p1 p2 (r / (k0 * k1 * k2)) ((r mod (k0 * k1 * k2)) / (k1 * k2)) (((r mod (k0 * k1 * k2)) / k2) mod k1)
                   ((r mod (k0 * k1 * k2)) mod k2) (l / (oh * ow)) ((l / ow) mod oh) (l mod ow))) (seq 0 (C * (k0 * k1 * k2))).
Proof.
  intros HC od oh ow. unfold table3. fold od oh ow. cbv zeta. set (K := k0 * k1 * k2). set (L := od * (oh * ow)).
  rewrite grid_tab, repeat_channels_grid by assumption.
  rewrite !grid_tab. replace (C * (K * L)) with (C * K * L) by lia. apply tab_ext. intros q Hq.
  destruct (Nat.eq_dec L 0) as [E0|E0]; [rewrite E0 in Hq; lia|]. destruct (Nat.eq_dec K 0) as [E1|E1]; [rewrite E1 in Hq; lia|].
  assert (D : q / (K * L) = q / L / K) by (rewrite (Nat.mul_comm K L), Nat.div_div by assumption; reflexivity).
  assert (D2 : q mod (K * L) = L * ((q / L) mod K) + q mod L).
  { rewrite (Nat.mul_comm K L), Nat.mod_mul_r by assumption. lia. }
  assert (Hm : q mod L < L) by (apply Nat.mod_upper_bound; assumption).
  assert (D3 : (q mod (K * L)) / L = (q / L) mod K).
  { rewrite D2, (Nat.mul_comm L). destruct (divmod_flat L ((q / L) mod K) (q mod L) Hm) as [-> _]. reflexivity. }
  assert (D4 : (q mod (K * L)) mod L = q mod L).
  { rewrite D2, (Nat.mul_comm L). destruct (divmod_flat L ((q / L) mod K) (q mod L) Hm) as [_ ->]. reflexivity. }
  rewrite D3, D4, D. unfold ent3. cbv zeta. destruct (_ && _); [|reflexivity]. cbn [Nat.add Nat.eqb]. lia.
Qed.

(** ** A tile with such a table *)
Lemma nth_repeat_lt {A} (x d : A) n i : i < n -> nth i (repeat x n) d = x.
Proof. revert i; induction n; intros [|i] H; cbn; try lia; [reflexivity|apply IHn; lia]. Qed.
Definition with_bias (b : cbias) (K : nat) (t : list nat) : list nat := if is_analog b then t ++ repeat 1 (length t / K) else t.
Lemma add_bias_spec b N O L y : length y = N * O * L ->
  length (add_bias b N O L y) = N * O * L
  /\ forall n o l, n < N -> o < O -> l < L ->
     nth ((n * O + o) * L + l) (add_bias b N O L y) 0%R
     = (nth ((n * O + o) * L + l) y 0 + match b with DigitalBias bs => nth o bs 0 | _ => 0 end)%R.
Proof.
  intros Hy. destruct b as [| |bs]; cbn [add_bias]; [split; [exact Hy|intros; lra]..|].
  split; [apply grid3_length|]. intros. rewrite grid3_nth by assumption. reflexivity.
Qed.
Lemma with_bias_table_for g C b ims L (E : nat -> nat -> nat) : 0 < C -> 0 < kernel_elems g ->
  (forall r l, r < C * kernel_elems g -> l < L -> E r l < ims + 2) ->
  table_for (with_bias b (kernel_elems g) (flat_map (fun r => tab L (E r)) (seq 0 (C * kernel_elems g)))) (cols g C b) L ims.
Proof.
  intros HC HK HE. set (K := kernel_elems g) in *.
  assert (Tlen : length (flat_map (fun r => tab L (E r)) (seq 0 (C * K))) = C * K * L) by apply grid_length.
  unfold with_bias, table_for, cols. fold K. destruct (is_analog b).
    - rewrite app_length, repeat_length, Tlen.
      assert (C * K * L / K = C * L) as -> by (replace (C * K * L) with (C * L * K) by lia; apply Nat.div_mul; lia).
      split; [nia|]. intros i Hi. destruct (Nat.lt_ge_cases i (C * K * L)) as [H|H].
      + rewrite app_nth1 by lia. assert (L <> 0) by (intros ->; lia).
        assert (Hd : i / L < C * K) by (apply Nat.div_lt_upper_bound; lia).
        assert (Hm : i mod L < L) by (apply Nat.mod_upper_bound; assumption).
        rewrite (Nat.div_mod i L) at 1 by assumption. rewrite (Nat.mul_comm L), grid_nth by assumption. apply HE; assumption.
      + rewrite app_nth2 by lia. rewrite nth_repeat_lt by nia. lia.
    - rewrite Nat.add_0_r, Tlen. split; [lia|]. intros i Hi. assert (L <> 0) by (intros ->; lia).
      assert (Hd : i / L < C * K) by (apply Nat.div_lt_upper_bound; lia).
      assert (Hm : i mod L < L) by (apply Nat.mod_upper_bound; assumption).
      rewrite (Nat.div_mod i L) at 1 by assumption. rewrite (Nat.mul_comm L), grid_nth by assumption. apply HE; assumption. 
Qed.
Lemma tile_forward_spec g C O b W it N x ims L (E : nat -> nat -> nat) :
  0 < N -> 0 < C -> 0 < kernel_elems g -> length x = N * ims -> prodn (it_out it) = L ->
  it_tab it = with_bias b (kernel_elems g) (flat_map (fun r => tab L (E r)) (seq 0 (C * kernel_elems g))) ->
  (forall r l, r < C * kernel_elems g -> l < L -> E r l < ims + 2) ->
  exists y, tile_forward_indexed g C O b W it N x = Ok y /\ length y = N * O * L
    /\ forall n o l, n < N -> o < O -> l < L ->
      nth ((n * O + o) * L + l) y 0%R
      = (Sum (C * kernel_elems g) (fun r => wat W o r * pick (E r l) (fun q => nth (n * ims + q)%nat x 0)) + bias_of b W (C * kernel_elems g) o)%R.
Proof.
  intros HN HC HK Hx HL Ht HE. unfold tile_forward_indexed. cbv zeta. rewrite HL. set (K := kernel_elems g) in *.
  assert (Tlen : length (flat_map (fun r => tab L (E r)) (seq 0 (C * K))) = C * K * L) by apply grid_length.
  assert (T : table_for (it_tab it) (cols g C b) L ims).
  { rewrite Ht. apply with_bias_table_for; assumption. }
  destruct (forward_indexed_spec 1 W (cols g C b) O (it_tab it) x L N ims HN Hx T) as (y & Ey & Ly & At).
  rewrite Ey. cbn [bind]. eexists. split; [reflexivity|]. destruct (add_bias_spec b N O L y Ly) as [L1 B]. split; [exact L1|].
  intros n o l Hn Ho Hl. rewrite B, At by assumption. rewrite Rmult_1_l. unfold cols. fold K.
  rewrite Ht. unfold with_bias.
  assert (Core : forall r, r < C * K -> nth (r * L + l) (flat_map (fun r => tab L (E r)) (seq 0 (C * K))) 0 = E r l)
    by (intros; apply grid_nth; assumption).
  destruct b as [| |bs]; cbn [is_analog bias_of].
  - rewrite Nat.add_0_r. f_equal. apply Sum_ext. intros r Hr. rewrite Core by assumption. reflexivity.
  - rewrite Nat.add_1_r, Sum_S. rewrite Rplus_0_r. f_equal.
    + apply Sum_ext. intros r Hr. rewrite app_nth1 by (rewrite Tlen; apply flat_lt; assumption). rewrite Core by assumption. reflexivity.
    + rewrite app_nth2 by (rewrite Tlen; lia). rewrite Tlen.
      assert (C * K * L / K = C * L) as -> by (replace (C * K * L) with (C * L * K) by lia; apply Nat.div_mul; lia).
      rewrite nth_repeat_lt by nia. unfold pick. cbn [Nat.leb INR]. unfold wat. rewrite Rmult_1_r. reflexivity.
  - rewrite Nat.add_0_r. f_equal. apply Sum_ext. intros r Hr. rewrite Core by assumption. reflexivity.
Qed.
