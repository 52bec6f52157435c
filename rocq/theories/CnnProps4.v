(** * C109-C111: layers mapped to several tiles *)
From Verif Require Import Prelude Rand CnnModel CnnSpec CnnProofs CnnProofs2 CnnProps CnnProps2 CnnProofs3 CnnProps3 CnnProofs4.
Local Open Scope nat_scope.

(** ** C109: split sizes *)
Lemma sum_balanced n per : 0 < n -> total (tab n (fun i => per / n + (if i <? per mod n then 1 else 0))) = per.
Proof.
  intros Hn.
  assert (G : forall m q r, total (tab m (fun i => q + (if i <? r then 1 else 0))) = m * q + Nat.min m r).
  { induction m; intros q r; [reflexivity|]. replace (S m) with (m + 1) by lia. rewrite tab_app.
    assert (TA : forall a b, total (a ++ b) = total a + total b).
    { clear. induction a; intros; cbn; [reflexivity|]. unfold total in *. rewrite IHa. lia. }
    rewrite TA, IHm. assert (E : total (tab 1 (fun i => q + (if m + i <? r then 1 else 0))) = q + (if m <? r then 1 else 0)).
    { cbn. rewrite !Nat.add_0_r. reflexivity. }
    rewrite E. rewrite Nat.mul_add_distr_r, Nat.mul_1_l. destruct (Nat.ltb_spec m r); lia. }
  rewrite G. pose proof (Nat.div_mod per n ltac:(lia)) as D. pose proof (Nat.mod_upper_bound per n ltac:(lia)). rewrite Nat.min_r by lia. lia.
Qed.
(** [group] is the number of kernel elements (1 for outputs), [per] the number of channels (outputs) *)
Theorem C109_split_sizes per max group : 0 < per -> 0 < group -> 0 < max -> group <= max ->
  exists sizes, get_split_sizes (per * group) max group = Ok sizes
    /\ total sizes = per                                                   (* every channel is on one tile *)
    /\ (forall s, List.In s sizes -> 0 < s /\ s * group <= max)            (* no tile is empty or larger than allowed *)
    /\ (forall s s', List.In s sizes -> List.In s' sizes -> s <= s' + 1)   (* tiles are balanced *)
    /\ (forall sizes', total sizes' = per -> (forall s, List.In s sizes' -> s * group <= max) -> length sizes <= length sizes'). (* no fewer tiles would do *)
Proof.
  intros Hp Hg Hm Hgm. unfold get_split_sizes. destruct (Nat.eqb_spec max 0) as [|_]; [lia|]. destruct (Nat.ltb_spec max group) as [|_]; [lia|]. cbv zeta.
  rewrite Nat.div_mul by lia. set (mx := max / group). assert (Hmx : 0 < mx) by (unfold mx; apply Nat.div_str_pos; lia).
  assert (Hmx2 : mx * group <= max) by (unfold mx; rewrite Nat.mul_comm; apply Nat.mul_div_le; lia).
  assert (Hmx3 : forall s, s * group <= max -> s <= mx) by (intros s Hs; unfold mx; apply Nat.div_le_lower_bound; lia).
  set (n := (per + mx - 1) / mx).
  assert (Dn : per + mx - 1 = mx * n + (per + mx - 1) mod mx) by (apply Nat.div_mod; lia).
  assert (Mn : (per + mx - 1) mod mx < mx) by (apply Nat.mod_upper_bound; lia).
  assert (Hn : 0 < n) by nia. assert (Hn2 : per <= n * mx) by nia. assert (Hn3 : (n - 1) * mx < per) by nia.
  assert (Hn4 : n <= per) by nia.
  assert (Dp : per = n * (per / n) + per mod n) by (apply Nat.div_mod; lia).
  assert (Mp : per mod n < n) by (apply Nat.mod_upper_bound; lia).
  assert (Hq : 0 < per / n) by (apply Nat.div_str_pos; lia).
  eexists. split; [reflexivity|]. split; [apply sum_balanced; assumption|].
  assert (Hin : forall s, List.In s (tab n (fun i => per / n + (if i <? per mod n then 1 else 0))) ->
     s = per / n \/ (s = per / n + 1 /\ 0 < per mod n)).
  { intros s Hs. unfold tab in Hs. apply in_map_iff in Hs. destruct Hs as (i & <- & Hi).
    destruct (Nat.ltb_spec i (per mod n)); [right; lia|left; lia]. }
  split; [|split].
  - intros s Hs. apply Hin in Hs. assert (s <= mx).
    { destruct Hs as [->|[-> Hr]]; [nia|]. nia. }
    split; [lia|]. nia.
  - intros s s' Hs Hs'. apply Hin in Hs, Hs'. lia.
  - intros sizes' Ht Hs'. rewrite tab_length. assert (K : total sizes' <= length sizes' * mx).
    { clear - Hs' Hmx3. induction sizes' as [|a r IH]; cbn; [lia|]. assert (a <= mx) by (apply Hmx3, Hs'; left; reflexivity).
      assert (total r <= length r * mx) by (apply IH; intros; apply Hs'; right; assumption). unfold total in *. lia. }
    rewrite Ht in K. nia.
Qed.
Theorem C109_too_large_rejected size max group : 0 < max -> max < group -> get_split_sizes size max group = Raise ModuleError.
Proof.
  intros H H'. unfold get_split_sizes. destruct (Nat.eqb_spec max 0); [lia|]. destruct (Nat.ltb_spec max group); [reflexivity|lia].
Qed.
Theorem C109_no_limit per group : 0 < group -> get_split_sizes (per * group) 0 group = Ok [per].
Proof. intros H. unfold get_split_sizes. cbn [Nat.eqb]. rewrite Nat.div_mul by lia. reflexivity. Qed.
Example C109_nontrivial : get_split_sizes (7 * 9) 30 9 = Ok [3; 2; 2].
Proof. reflexivity. Qed.

(** ** C110: set_weights / get_weights *)
Lemma map_row_id (row : list R) : tab (length row) (fun x => nth x row 0%R) = row.
Proof.
  apply (nth_ext _ _ 0%R 0%R); [apply tab_length|]. intros i Hi. rewrite tab_length in Hi. exact (nth_tab (length row) (fun x => nth x row 0%R) i 0%R Hi).
Qed.
Lemma mat_tab O K (W : mat) : shape O K W -> tab O (fun o => tab K (fun x => wat W o x)) = W.
Proof.
  intros HS. apply (nth_ext _ _ [] []); [rewrite tab_length; destruct HS as [HS _]; symmetry; exact HS|].
  intros o Ho. rewrite tab_length in Ho. rewrite nth_tab by assumption. rewrite <- (shape_row O K W o HS Ho). apply map_row_id.
Qed.
Lemma concat_starts1 {A} (F : nat -> A) from l :
  concat (map (fun c => tab (snd c) (fun q => F (fst c + q))) (starts from l)) = tab (total l) (fun q => F (from + q)).
Proof.
  revert from; induction l as [|s l IH]; intros from; cbn [starts map concat total fold_right]; [reflexivity|].
  rewrite IH. cbn [fst snd]. fold (total l). rewrite tab_app. f_equal. apply tab_ext. intros i _. f_equal. lia.
Qed.
Lemma hcat_tab O (f g : nat -> list R) : hcat (tab O f) (tab O g) = tab O (fun o => f o ++ g o).
Proof. unfold hcat, tab. generalize (seq 0 O). induction l; cbn; [|rewrite IHl]; reflexivity. Qed.
Lemma fold_hcat {A} O (f : A -> nat -> list R) l g :
  fold_left hcat (map (fun c => tab O (f c)) l) (tab O g) = tab O (fun o => g o ++ concat (map (fun c => f c o) l)).
Proof.
  revert g; induction l as [|c l IH]; intros g; cbn [map fold_left].
  - apply tab_ext. intros. cbn. rewrite app_nil_r. reflexivity.
  - rewrite hcat_tab, IH. apply tab_ext. intros. cbn [map concat]. rewrite app_assoc. reflexivity.
Qed.
Theorem C110_weights_roundtrip K ins outs (W : mat) : ins <> [] -> shape (total outs) (total ins * K) W ->
  unmap_weights (map_weights K ins outs W) = W.
Proof.
  intros Hi HS. unfold unmap_weights, map_weights. rewrite map_map.
  rewrite (map_ext _ (fun ci => tab (total outs) (fun o => tab (snd ci * K) (fun x => wat W o (fst ci * K + x))))).
  2:{ intros ci. apply (concat_starts1 (fun o => tab (snd ci * K) (fun x => wat W o (fst ci * K + x))) 0 outs). }
  destruct ins as [|c ins]; [congruence|]. cbn [starts map cat1]. rewrite fold_hcat.
  etransitivity; [|exact (mat_tab (total outs) (total (c :: ins) * K) W HS)]. apply tab_ext. intros o Ho. cbn [fst snd].
  exact (concat_starts K (fun x => wat W o x) 0 (c :: ins)).
Qed.
(** each tile has the size it was made with *)
Theorem C110_tile_shapes K ins outs (W : mat) : Forall2 (fun cn tiles => Forall2 (fun on t => shape on (cn * K) t) outs tiles) ins (map_weights K ins outs W).
Proof.
  unfold map_weights. assert (G : forall from, Forall2 (fun cn tiles => Forall2 (fun on t => shape on (cn * K) t) outs tiles) ins
    (map (fun ci => map (fun oi => tab (snd oi) (fun o => tab (snd ci * K) (fun x => wat W (fst oi + o) (fst ci * K + x)))) (starts 0 outs)) (starts from ins))).
  { induction ins as [|c l IH]; intros from; cbn; [constructor|]. constructor; [|apply IH]. clear IH.
    assert (Q : forall f, Forall2 (fun on t => shape on (c * K) t) outs
       (map (fun oi => tab (snd oi) (fun o => tab (c * K) (fun x => wat W (fst oi + o) (from * K + x)))) (starts f outs))).
    { induction outs as [|o r IHr]; intros f; cbn [starts map]; [constructor|]. constructor; [|apply IHr].
      split; [apply tab_length|]. apply Forall_forall. intros row Hr. unfold tab in Hr. apply in_map_iff in Hr. destruct Hr as (? & <- & _). apply tab_length. }
    apply Q. }
  apply G.
Qed.
Example C110_nontrivial : map_weights 2 [1; 1] [2; 1] [[1; 2; 3; 4]; [5; 6; 7; 8]; [9; 10; 11; 12]]%R
  = [[ [[1; 2]; [5; 6]]; [[9; 10]] ]; [ [[3; 4]; [7; 8]]; [[11; 12]] ]]%R.
Proof. reflexivity. Qed.

(** ** C111: the mapped layer computes the convolution of the layer that is not split *)
Lemma channel_slice_spec n C S ci x : fst ci + snd ci <= C -> length x = n * (C * S) ->
  length (channel_slice n C S ci x) = n * (snd ci * S)
  /\ forall i c q, i < n -> c < snd ci -> q < S ->
     nth ((i * snd ci + c) * S + q) (channel_slice n C S ci x) 0%R = nth ((i * C + (fst ci + c)) * S + q) x 0%R.
Proof.
  intros Hc Hx. unfold channel_slice. split; [apply grid_length|]. intros i c q Hi Hcn Hq.
  replace ((i * snd ci + c) * S + q) with (i * (snd ci * S) + (c * S + q)) by lia.
  rewrite grid_nth by (try assumption; apply flat_lt; assumption). f_equal. lia.
Qed.
Lemma pick_ext j f g B : j < B + 2 -> (forall q, q < B -> f q = g q) -> pick j f = pick j g.
Proof. intros Hj H. unfold pick. destruct (Nat.leb_spec j 1); [reflexivity|]. apply H. lia. Qed.

Theorem C111_mapped_equals_unsplit g sp ins outs b W n x :
  let C := total ins in let O := total outs in
  0 < C -> (forall s, List.In s ins -> 0 < s) -> b <> AnalogBias -> batch_of n (C :: sp) x -> valid_input g C (C :: sp) ->
  exists osh y cv', mapped_forward g C ins outs b (map_weights (kernel_elems g) ins outs W) n sp x = Ok y
    /\ conv_forward (fresh_conv g C O b W) n (C :: sp) x = Ok (osh, y, cv')
    /\ is_convolution g C O b W n (C :: sp) x osh y.
Proof.
  intros C O HC Hpos Hb B V. pose proof B as (Hn & Hx & _). cbn [prodn fold_right] in Hx. fold (prodn sp) in Hx.
  destruct (C104_convolution g C O b W n (C :: sp) x HC B V) as (osh & y & cv' & E & K). exists osh, y, cv'. split; [|split; assumption].
  destruct (tile_channel_form g sp C V) as (E0 & osp & HE & H).
  set (Kn := kernel_elems g) in *. set (S := prodn sp) in *. set (L := prodn osp) in *.
  (* the whole layer *)
  destruct (H C HC) as (it & Ei & Eo & Ht).
  assert (Ey : y = add_bias b n O L (flat_map (fun i => flat_map (fun o => tab L (fun l =>
      Sum C (fun c => Sum Kn (fun a => (wat W o (c * Kn + a) * pick (E0 a l) (fun q => nth ((i * C + c) * S + q)%nat x 0))%R)))) (seq 0 O)) (seq 0 n))).
  { revert E. unfold conv_forward, fresh_conv. cbn [cv_it cv_g cv_in cv_out cv_bias cv_w cv_isize]. rewrite (Ei b Hb). cbn [bind fst snd].
    pose proof (Ht O W n x Hn Hx) as Q. unfold tile_forward_indexed in Q |- *. cbv zeta in Q |- *. rewrite Eo in Q |- *. fold L in Q |- *. 
    assert (Ec : cols g C b = cols g C NoBias) by (unfold cols; destruct b; try reflexivity; congruence). rewrite Ec.
    destruct (forward_indexed 1 W (cols g C NoBias) O (it_tab it) x L n) as [y1|] eqn:F; cbn [bind add_bias] in Q |- *; [|discriminate].
    injection Q as <-. intros [= _ <- _]. reflexivity. }
  (* the tiles *)
  set (cell := fun (ci : nat * nat) (i o l : nat) =>
    Sum (snd ci) (fun c => Sum Kn (fun a => (wat W o ((fst ci + c) * Kn + a) * pick (E0 a l) (fun q => nth ((i * C + (fst ci + c)) * S + q)%nat x 0))%R))).
  unfold mapped_forward. fold S. unfold map_weights. rewrite combine_starts_map, mapM_map.
  rewrite (mapM_ok _ (fun ci => (L, flat_map (fun i => tab (O * L) (fun q => cell ci i (q / L) (q mod L))) (seq 0 n)))).
  - cbn [bind]. assert (Eins : exists c1 ins', ins = c1 :: ins') by (destruct ins as [|c1 ins']; [cbn in C; subst C; lia|eauto]).
    destruct Eins as (c1 & ins' & Eins).
    assert (Est : starts 0 ins = (0, c1) :: starts c1 ins') by (rewrite Eins; reflexivity). rewrite Est. cbn [map].
    f_equal. rewrite Ey. fold (total outs). fold O. f_equal.
    rewrite grid_tab, map_map. cbn [snd].
    rewrite (map_ext _ (fun ci => tab (n * (O * L)) (fun q => cell ci (q / (O * L)) (q mod (O * L) / L) ((q mod (O * L)) mod L)))).
    2:{ intros ci. apply grid_tab. }
    rewrite fold_vadd_tab. rewrite grid3_as2, grid_tab. apply tab_ext. intros q Hq.
    pose proof (Sum_starts (fun c => Sum Kn (fun a => (wat W (q mod (O * L) / L) (c * Kn + a) * pick (E0 a ((q mod (O * L)) mod L))
       (fun p => nth ((q / (O * L) * C + c) * S + p)%nat x 0))%R)) 0 ins) as SS.
    rewrite Est in SS. cbn [map sumR] in SS. exact SS.
  - intros ci Hci. cbn [fst snd]. apply in_starts in Hci. destruct Hci as (_ & Hle & Hin). apply Hpos in Hin. cbn [Nat.add] in Hle. fold C in Hle.
    destruct (H (snd ci) Hin) as (it1 & Ei1 & Eo1 & Ht1). pose proof (Ei1 NoBias ltac:(discriminate)) as Ei2; cbn [is_analog] in Ei2; rewrite Ei2. cbn [bind]. rewrite Eo1. fold L.
    destruct (channel_slice_spec n C S ci x Hle Hx) as [Ls As]. set (xs := channel_slice n C S ci x) in *.
    rewrite combine_sizes_map, mapM_map.
    rewrite (mapM_ok _ (fun oi => flat_map (fun i => flat_map (fun o => tab L (fun l => cell ci i (fst oi + o) l)) (seq 0 (snd oi))) (seq 0 n))).
    + cbn [bind]. f_equal. f_equal. unfold cat_channels. apply flat_map_ext_seq. intros i Hi. rewrite map2_sizes_map.
      rewrite (map_ext _ (fun c => tab (snd c * L) (fun q => (fun z => cell ci i (z / L) (z mod L)) (fst c * L + q)))).
      * rewrite (concat_starts L (fun z => cell ci i (z / L) (z mod L)) 0 outs). fold O. apply tab_ext. intros q _. reflexivity.
      * intros c. apply tab_ext. intros q Hq. destruct (Nat.eq_dec L 0) as [L0|L0]; [rewrite L0 in Hq; lia|].
        assert (E1 : q = q / L * L + q mod L) by (rewrite (Nat.mul_comm (q / L)); apply Nat.div_mod; exact L0).
        assert (B4 : q mod L < L) by (apply Nat.mod_upper_bound; exact L0).
        assert (B1 : q / L < snd c) by (apply Nat.div_lt_upper_bound; [exact L0|lia]).
        replace (i * (snd c * L) + q) with ((i * snd c + q / L) * L + q mod L) by lia.
        rewrite grid3_nth by assumption. replace (fst c * L + q) with ((fst c + q / L) * L + q mod L) by lia.
        destruct (divmod_flat L (fst c + q / L) (q mod L) B4) as [-> ->]. reflexivity.
    + intros oi Hoi. cbn [fst snd].
      rewrite (Ht1 (snd oi) _ n xs Hn Ls). f_equal. apply flat_map_ext_seq. intros i Hi. apply flat_map_ext_seq. intros o Ho. apply tab_ext. intros l Hl.
      unfold cell. apply Sum_ext2. intros c a Hc Ha. f_equal.
      * unfold wat at 1. rewrite nth_tab by assumption. rewrite nth_tab by (apply flat_lt; assumption). f_equal. lia.
      * apply (pick_ext _ _ _ S); [apply HE|]. intros q Hq. apply As; assumption.
Qed.
Example C111_nontrivial : total [2; 1; 1] = 4 /\ batch_of 1 (total [2; 1; 1] :: [3]) (repeat 1%R 12) /\ valid_input (G1 2 1 1) (total [2; 1; 1]) (total [2; 1; 1] :: [3]).
Proof. repeat split; cbn; unfold position; lia. Qed.

Print Assumptions C109_split_sizes.
Print Assumptions C109_too_large_rejected.
Print Assumptions C109_no_limit.
Print Assumptions C110_weights_roundtrip.
Print Assumptions C110_tile_shapes.
Print Assumptions C111_mapped_equals_unsplit.
