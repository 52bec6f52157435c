(** * Compound devices: C65 setting weights, C66 saving and loading *)
From Verif Require Import Prelude Rand DevModel DevSpec DevProofs PulseModel PulseSpec PulseProofs CompModel CompSpec CompProofs CompProofs2 CompProps.

(** ** C65: weights that are set are the weights of the tile *)
Lemma sum_two (f : nat -> R) : sumR (map f (seq 0 2)) = f 0%nat + f 1%nat.
Proof. simpl. lra. Qed.
(** Vector cells: every crossbar gets the weights; the tile has them if the factors add up
    to 1. *)
Theorem C65_vector : forall p f s w s' i j, p <> SingleFixed -> well_formed (KVector p f) s -> all_quiet s -> dims w = dims (k_w s) ->
  (forall k, (k < length (k_parts s))%nat -> admits s k i j (at_ w i j)) -> yields (cdo (KVector p f) s (CSet w)) s' ->
  tile_weight s' i j = sumR (k_gam s) * at_ w i j /\ (sumR (k_gam s) = 1 -> tile_weight s' i j = at_ w i j).
Proof.
  intros p f s w s' i j NP W Q D A Y. cbn [cdo] in Y. destruct (weighted_of_set _ _ _ _ W eq_refl D Y) as (Sh & G & L & Dk).
  assert (E : tile_weight s' i j = sumR (k_gam s) * at_ w i j).
  { rewrite Sh. unfold weighted_sum. rewrite G, L. pose proof W as (_ & Lg & _). rewrite <- Lg. apply (sum_const_weights (k_gam s) (at_ w i j) (fun k => part_weight s' k i j)).
    intros k Lk. rewrite Lg in Lk. eapply (vector_set_parts p f); eauto. }
  split; auto. intros S1. rewrite E, S1. lra.
Qed.
(** Policy [SingleFixed]: only the selected crossbar gets the weights. *)
Lemma sum_replace (g : vec) (f f' : nat -> R) k : (k < length g)%nat -> (forall m, m <> k -> f' m = f m) ->
  sumR (map (fun m => nth m g 0 * f' m) (seq 0 (length g))) = sumR (map (fun m => nth m g 0 * f m) (seq 0 (length g))) + nth k g 0 * (f' k - f k).
Proof.
  revert f f' k. induction g as [|a g IH]; intros f f' k L H; simpl in L; [lia|]. cbn [length seq map sumR]. rewrite <- !seq_shift, !map_map. destruct k as [|k].
  - cbn [nth]. rewrite (map_ext (fun x => nth x g 0 * f' (S x)) (fun x => nth x g 0 * f (S x))) by (intros; now rewrite H). lra.
  - rewrite (H 0%nat) by lia. cbn [nth]. rewrite (IH (fun m => f (S m)) (fun m => f' (S m)) k) by (try lia; intros; apply H; lia). lra.
Qed.
Theorem C65_single_fixed : forall f s w s' i j, well_formed (KVector SingleFixed f) s -> all_quiet s -> dims w = dims (k_w s) -> (k_idx s < length (k_parts s))%nat ->
  (forall k, (k < length (k_parts s))%nat -> admits s k i j (if (k =? k_idx s)%nat then at_ w i j else part_weight s k i j)) -> yields (cdo (KVector SingleFixed f) s (CSet w)) s' ->
  (forall k, (k < length (k_parts s))%nat -> part_weight s' k i j = if (k =? k_idx s)%nat then at_ w i j else part_weight s k i j) /\
  tile_weight s' i j = weighted_sum s i j + nth (k_idx s) (k_gam s) 0 * (at_ w i j - part_weight s (k_idx s) i j).
Proof.
  intros f s w s' i j W Q D Li A Y. cbn [cdo] in Y. destruct (weighted_of_set _ _ _ _ W eq_refl D Y) as (Sh & G & L & Dk).
  assert (P : forall k, (k < length (k_parts s))%nat -> part_weight s' k i j = if (k =? k_idx s)%nat then at_ w i j else part_weight s k i j) by (intros k Lk; eapply fixed_set_parts; eauto).
  split; auto. rewrite Sh. unfold weighted_sum. rewrite G, L. pose proof W as (_ & Lg & _). rewrite <- Lg in *.
  pose proof (sum_replace (k_gam s) (fun k => part_weight s k i j) (fun k => if (k =? k_idx s)%nat then at_ w i j else part_weight s k i j) (k_idx s) Li) as E.
  cbv beta in E. rewrite Nat.eqb_refl in E. rewrite <- E.
  - f_equal. apply map_ext_in. intros k Ik. apply in_seq in Ik. now rewrite P by lia.
  - intros m Nm. apply Nat.eqb_neq in Nm. now rewrite Nm.
Qed.
(** A cell with a reference crossbar: the tile has the weights minus the reference. *)
Theorem C65_reference_refuted : forall f s w s' i j, well_formed (KVector SingleFixed f) s -> all_quiet s -> dims w = dims (k_w s) -> k_gam s = [1; -1] -> k_idx s = 0%nat ->
  admits s 0 i j (at_ w i j) -> admits s 1 i j (part_weight s 1 i j) -> yields (cdo (KVector SingleFixed f) s (CSet w)) s' ->
  tile_weight s' i j = at_ w i j - part_weight s 1 i j.
Proof.
  intros f s w s' i j W Q D G I A0 A1 Y. pose proof W as (_ & Lg & _). rewrite G in Lg. simpl in Lg.
  destruct (C65_single_fixed f s w s' i j W Q D) as [_ E]; auto; [lia | | ].
  - intros k Lk. rewrite I. destruct k as [|[|k]]; simpl; auto. lia.
  - rewrite E, G, I. unfold weighted_sum. rewrite G, <- Lg, sum_two. simpl. lra.
Qed.
(** A pair of one sided conductances *)
Theorem C65_onesided : forall r s w s' i j, well_formed (KOneSided r) s -> all_quiet s -> dims w = dims (k_w s) ->
  admits s 0 i j (Rmax (- at_ w i j) 0) -> admits s 1 i j (Rmax (at_ w i j) 0) -> yields (cdo (KOneSided r) s (CSet w)) s' ->
  tile_weight s' i j = at_ w i j /\ part_weight s' 0 i j = Rmax (- at_ w i j) 0 /\ part_weight s' 1 i j = Rmax (at_ w i j) 0.
Proof.
  intros r s w s' i j W Q D A0 A1 Y. cbn [cdo] in Y. destruct (weighted_of_set _ _ _ _ W eq_refl D Y) as (Sh & G & L & Dk).
  assert (P0 : part_weight s' 0 i j = Rmax (- at_ w i j) 0) by (exact (onesided_set_parts r w s s' 0 i j W Q D Y ltac:(lia) A0)).
  assert (P1 : part_weight s' 1 i j = Rmax (at_ w i j) 0) by (exact (onesided_set_parts r w s s' 1 i j W Q D Y ltac:(lia) A1)).
  split; auto. pose proof W as (_ & Lg & _ & K). rewrite Sh. unfold weighted_sum. rewrite G, L, K. rewrite K in Lg. simpl in Lg. rewrite <- Lg, sum_two, P0, P1. cbn [nth]. mm.
Qed.
(** Transfer devices: the last crossbar carries the weight, the others are cleared *)
Lemma sum_last (g : vec) (f : nat -> R) n : length g = S n -> (forall k, (k < n)%nat -> f k = 0) -> sumR (map (fun k => nth k g 0 * f k) (seq 0 (length g))) = nth n g 0 * f n.
Proof.
  intros L H. rewrite L, seq_S, map_app, sumR_app. cbn [map sumR plus].
  assert (Z : sumR (map (fun k => nth k g 0 * f k) (seq 0 n)) = 0).
  { clear L. assert (X : forall m, (m <= n)%nat -> sumR (map (fun k => nth k g 0 * f k) (seq 0 m)) = 0).
    { induction m as [|m IH]; intros Lm; [reflexivity|]. rewrite seq_S, map_app, sumR_app, IH by lia. cbn [map sumR plus]. rewrite H by lia. lra. }
    apply X. lia. }
  rewrite Z. lra.
Qed.
Theorem C65_transfer : forall t s w s' i j, tp_hidden t = false -> well_formed (KTransfer t) s -> all_quiet s -> dims w = dims (k_w s) ->
  let n := length (k_parts s) in
  admits s (n - 1) i j (at_ w i j / nth (n - 1) (k_gam s) 0) -> (forall k, (k < n - 1)%nat -> admits s k i j 0) -> yields (cdo (KTransfer t) s (CSet w)) s' ->
  tile_weight s' i j = at_ w i j /\ forall k, (k < n - 1)%nat -> part_weight s' k i j = 0.
Proof.
  intros t s w s' i j Hh W Q D n A A0 Y. cbn [cdo] in Y. destruct (weighted_of_set _ _ _ _ W Hh D Y) as (Sh & G & L & Dk).
  assert (Np : (0 < n)%nat) by (destruct W as (NE & _); subst n; destruct (k_parts s); [congruence | simpl; lia]).
  assert (P0 : forall k, (k < n - 1)%nat -> part_weight s' k i j = 0).
  { intros k Lk. destruct (transfer_set_parts t w s s' k i j Hh W Q D Y) as [E _]; [fold n; lia | | ].
    - fold n. destruct (Nat.eqb_spec k (n - 1)); [lia | now apply A0].
    - fold n in E. destruct (Nat.eqb_spec k (n - 1)); [lia | exact E]. }
  assert (P1 : part_weight s' (n - 1) i j = at_ w i j / nth (n - 1) (k_gam s) 0 /\ nth (n - 1) (k_gam s) 0 <> 0).
  { destruct (transfer_set_parts t w s s' (n - 1) i j Hh W Q D Y) as [E Z]; [fold n; lia | fold n; now rewrite Nat.eqb_refl|]. fold n in E, Z. now rewrite Nat.eqb_refl in E. }
  split; auto. destruct P1 as [P1 NZ]. pose proof W as (_ & Lg & _). fold n in Lg. rewrite Sh. unfold weighted_sum. rewrite G, L. fold n. rewrite <- Lg.
  rewrite (sum_last (k_gam s) (fun k => part_weight s' k i j) (n - 1)); [rewrite P1; field; auto | lia | exact P0].
Qed.
Theorem C65_fully_hidden : forall t s w s' i j, tp_hidden t = true -> well_formed (KTransfer t) s -> all_quiet s -> dims w = dims (k_w s) ->
  let n := length (k_parts s) in
  admits s (n - 1) i j (at_ w i j) -> yields (cdo (KTransfer t) s (CSet w)) s' ->
  tile_weight s' i j = at_ w i j /\ forall k, (k < n - 1)%nat -> part_weight s' k i j = 0.
Proof.
  intros t s w s' i j Hh W Q D n A Y. cbn [cdo] in Y. destruct (hidden_tile _ _ _ _ i j Hh W D Y) as (T & _ & _). fold n in T.
  assert (Np : (0 < n)%nat) by (destruct W as (NE & _); subst n; destruct (k_parts s); [congruence | simpl; lia]).
  split.
  - rewrite T. pose proof (hidden_set_parts t w s s' (n - 1) i j Hh W Q D Y) as E. cbv zeta in E. fold n in E. rewrite Nat.eqb_refl in E. apply E; auto; lia.
  - intros k Lk. pose proof (hidden_set_parts t w s s' k i j Hh W Q D Y) as E. cbv zeta in E. fold n in E. destruct (Nat.eqb_spec k (n - 1)); [lia|]. apply E; lia.
Qed.
(** If the last factor is zero, setting weights of a transfer device always fails *)
Theorem C65_transfer_needs_factor : forall t s w, tp_hidden t = false -> nth (length (k_parts s) - 1) (k_gam s) 0 = 0 -> set_weights (KTransfer t) w s = Throw RuntimeError.
Proof. intros t s w Hh G. cbn [set_weights]. cbv zeta. rewrite Hh, G. assert (E : Reqb 0 0 = true) by now apply Reqb_true. now rewrite E. Qed.
(** A fully hidden transfer device clears only the visible weights of the fast crossbars: with
    write noise the stored weights keep their old values. *)
Theorem C65_hidden_stored_refuted : forall t s w s' k i j c, tp_hidden t = true -> (k < length (k_parts s) - 1)%nat -> yields (cdo (KTransfer t) s (CSet w)) s' ->
  cell_at (d_cells (snd (nth k (k_parts s) no_part))) i j = Some c ->
  exists c', cell_at (d_cells (snd (nth k (k_parts s') no_part))) i j = Some c' /\ c_w c' = 0 /\ c_p c' = c_p c /\
    (0 < m_wn (fst (nth k (k_parts s) no_part)) -> stored (fst (nth k (k_parts s') no_part)) c' = stored (fst (nth k (k_parts s) no_part)) c).
Proof.
  intros t s w s' k i j c Hh L Y E. cbn [cdo set_weights] in Y. cbv zeta in Y. rewrite Hh in Y. apply yields_bind in Y as (ps & Y0 & Y). apply yields_ret in Y. subst s'.
  unfold show. cbn [hidden]. rewrite Hh. cbn [k_parts with_w with_parts with_idx with_slices]. pose proof (mapMM_zipi_nth _ _ _ k Y0 ltac:(lia)) as Yk. cbn [fst snd] in Yk.
  destruct (Nat.eqb_spec k (length (k_parts s) - 1)); [lia|]. apply yields_ret in Yk. rewrite Yk. cbn [fst snd]. exists (set_wp c 0 (c_p c)). split; [|split; [reflexivity | split; [reflexivity|]]].
  - unfold zero_vis. cbn [d_cells with_cells]. unfold cell_at in *. rewrite nth_error_map. destruct (nth_error (d_cells _) i) as [row|]; [|discriminate]. simpl. rewrite nth_error_map, E. reflexivity.
  - intros Wn. unfold stored. apply Rltb_true in Wn. now rewrite Wn.
Qed.
Example C65_example : let s := comp1 [1; -1] [1/2; 1/4] (1/4) 0 in
  well_formed (KVector SingleFixed 0) s /\ all_quiet s /\ admits s 0 0 0 (3/4) /\ admits s 1 0 0 (part_weight s 1 0 0) /\
  exists s', yields (cdo (KVector SingleFixed 0) s (CSet [[3/4]])) s' /\ tile_weight s' 0 0 = 1/2.
Proof.
  cbv zeta. split; [|split; [|split; [|split]]].
  - repeat split; try discriminate. repeat constructor.
  - repeat constructor; left; simpl; lra.
  - intros c E. cbn in E. injection E as <-. unfold within. simpl. lra.
  - intros c E. cbn in E. injection E as <-. unfold within, part_weight, at_. simpl. lra.
  - eexists. split.
    + cbn [cdo set_weights comp1 map k_parts with_idx k_idx zipi length seq combine mapMM fst snd Nat.eqb bindM]. rewrite set_part1 by lra. cbn [bindM].
      change (vis (snd (part1 (1/4)))) with [[1/4]]. rewrite set_part1 by lra. cbn [bindM]. apply yields_ret. reflexivity.
    + unfold tile_weight, at_. cbn. lra.
Qed.

(** ** C66: saving and loading a tile *)
(** a part after [set_hidden_parameters]: same weight if it is between the bounds *)
Lemma load_part_vis p p' i j : quiet (fst p) -> yields (load_part p) p' ->
  (forall c, cell_at (d_cells (snd p)) i j = Some c -> within (c_x c) (c_w c)) -> at_ (vis (snd p')) i j = at_ (vis (snd p)) i j.
Proof. unfold load_part. intros Q Y W. eapply set_part_vis; eauto; [apply dims_vis|]. intros c E. rewrite vis_at, E. auto. Qed.
Lemma load_part_bounds p p' i j c' : quiet (fst p) -> yields (load_part p) p' -> cell_at (d_cells (snd p')) i j = Some c' -> exists c, cell_at (d_cells (snd p)) i j = Some c /\ c_x c' = c_x c.
Proof. unfold load_part. intros Q Y. eapply set_part_bounds; eauto. apply dims_vis. Qed.
(** all weights of the crossbars are between the bounds *)
Definition in_bounds (s : comp) (i j : nat) : Prop := forall k, (k < length (k_parts s))%nat -> admits s k i j (part_weight s k i j).
(** the state of the new tile before [set_weights] *)
Definition loaded (kd : kind) (saved : comp) (ps : list part) : comp :=
  show kd {| k_parts := ps; k_gam := k_gam saved; k_w := k_w saved; k_idx := first_idx kd; k_cnt := 0; k_slices := repeat 0%nat (length ps) |}.
Lemma loaded_spec kd s ps i j : well_formed kd s -> all_quiet s -> yields (mapMM load_part (k_parts s)) ps -> in_bounds s i j ->
  well_formed kd (loaded kd s ps) /\ all_quiet (loaded kd s ps) /\ dims (k_w (loaded kd s ps)) = dims (k_w s) /\ length ps = length (k_parts s) /\
  k_parts (loaded kd s ps) = ps /\ k_gam (loaded kd s ps) = k_gam s /\ k_idx (loaded kd s ps) = first_idx kd /\
  (forall k, (k < length (k_parts s))%nat -> part_weight (loaded kd s ps) k i j = part_weight s k i j) /\
  (forall k v, (k < length (k_parts s))%nat -> admits s k i j v -> admits (loaded kd s ps) k i j v).
Proof.
  intros W Q Y B. assert (KP : k_parts (loaded kd s ps) = ps) by (unfold loaded, show; destruct (hidden kd); reflexivity).
  assert (KG : k_gam (loaded kd s ps) = k_gam s) by (unfold loaded, show; destruct (hidden kd); reflexivity).
  assert (KI : k_idx (loaded kd s ps) = first_idx kd) by (unfold loaded, show; destruct (hidden kd); reflexivity).
  pose proof (mapMM_length _ _ _ Y) as L. pose proof (wf_sized _ _ W) as (_ & _ & Lg & P & F & _).
  assert (H : Forall (pdims (dims (k_w s))) ps /\ length ps = length (k_parts s)).
  { eapply mapMM_plain_dims; [exact F | | exact Y]. intros p p' Dp Yp. unfold load_part in Yp. refine (proj1 (part_op_dims _ (OSet (vis (snd p))) p p' _ Dp Yp)). rewrite dims_vis. exact Dp. }
  destruct H as [F' _].
  assert (S : sized (dims (k_w s)) (k_gam s) (length (k_parts s)) (loaded kd s ps)).
  { unfold loaded. apply sized_show. repeat split; auto. }
  assert (Qp : Forall (fun p => quiet (fst p)) ps).
  { apply yields_mapMM in Y. refine (F2_Forall _ _ _ _ _ Q Y _). intros p p' Qq Yp. unfold load_part in Yp. now rewrite (part_op_meta _ _ _ Yp). }
  split; [|split; [|split; [|split; [|split; [|split; [|split; [|split]]]]]]]; auto.
  - eapply sized_wf; [exact S|]. destruct W as (_ & _ & _ & K). exact K.
  - unfold all_quiet. now rewrite KP.
  - destruct S as (_ & _ & _ & _ & _ & D). exact D.
  - intros k Lk. unfold part_weight. rewrite KP. pose proof (mapMM_plain_nth _ _ _ k Y Lk) as Yk. eapply load_part_vis; eauto; [now apply quiet_part|].
    intros c E. specialize (B k Lk c E). unfold part_weight in B. rewrite vis_at, E in B. exact B.
  - intros k v Lk A c' E. rewrite KP in E. pose proof (mapMM_plain_nth _ _ _ k Y Lk) as Yk. destruct (load_part_bounds _ _ i j c' (quiet_part _ _ Q Lk) Yk E) as (c & Ec & ->). now apply A.
Qed.
Lemma reload_inv kd s s' : yields (reload kd s) s' -> exists ps s2, yields (mapMM load_part (k_parts s)) ps /\ yields (set_weights kd (k_w s) (loaded kd s ps)) s2 /\
  s' = with_slices (with_idx (overwrite kd (k_w s) s2) (k_idx s) (k_cnt s)) (k_slices s).
Proof.
  unfold reload. intros Y. apply yields_bind in Y as (ps & Y1 & Y). cbv zeta in Y. apply yields_bind in Y as (s2 & Y2 & Y). apply yields_ret in Y. exists ps, s2. auto.
Qed.
(** The weights of the tile and the counters are restored. *)
Theorem C66_tile_restored : forall kd s s', yields (reload kd s) s' ->
  (forall i j, tile_weight s' i j = tile_weight s i j) /\ k_idx s' = k_idx s /\ k_cnt s' = k_cnt s /\ k_slices s' = k_slices s.
Proof. intros kd s s' Y. apply reload_inv in Y as (ps & s2 & _ & _ & ->). repeat split. Qed.
Lemma reload_part kd s s' (ps : list part) s2 k i j : hidden kd = false -> s' = with_slices (with_idx (overwrite kd (k_w s) s2) (k_idx s) (k_cnt s)) (k_slices s) -> part_weight s' k i j = part_weight s2 k i j.
Proof. intros Hh ->. unfold overwrite, part_weight. rewrite Hh. reflexivity. Qed.
(** ... but not the crossbars of a vector cell: all become the weight of the tile *)
Theorem C66_vector_refuted : forall p f s s' k i j, p <> SingleFixed -> well_formed (KVector p f) s -> all_quiet s -> in_bounds s i j -> (k < length (k_parts s))%nat ->
  admits s k i j (tile_weight s i j) -> yields (reload (KVector p f) s) s' -> part_weight s' k i j = tile_weight s i j.
Proof.
  intros p f s s' k i j NP W Q B Lk A Y. apply reload_inv in Y as (ps & s2 & Y1 & Y2 & E). rewrite (reload_part _ _ _ ps _ k i j (eq_refl : hidden (KVector p f) = false) E).
  destruct (loaded_spec _ _ _ i j W Q Y1 B) as (W1 & Q1 & D1 & L1 & KP & KG & KI & PW & AD).
  eapply (vector_set_parts p f); [exact NP | exact W1 | exact Q1 | now rewrite D1 | exact Y2 | rewrite KP; lia | apply AD; auto].
Qed.
(** ... nor the pair of conductances of a one sided device: only the difference survives *)
Theorem C66_onesided_refuted : forall r s s' i j, well_formed (KOneSided r) s -> all_quiet s -> in_bounds s i j ->
  admits s 0 i j (Rmax (- tile_weight s i j) 0) -> admits s 1 i j (Rmax (tile_weight s i j) 0) -> yields (reload (KOneSided r) s) s' ->
  part_weight s' 0 i j = Rmax (- tile_weight s i j) 0 /\ part_weight s' 1 i j = Rmax (tile_weight s i j) 0.
Proof.
  intros r s s' i j W Q B A0 A1 Y. apply reload_inv in Y as (ps & s2 & Y1 & Y2 & E). rewrite !(reload_part _ _ _ ps _ _ i j (eq_refl : hidden (KOneSided r) = false) E).
  destruct (loaded_spec _ _ _ i j W Q Y1 B) as (W1 & Q1 & D1 & L1 & KP & KG & KI & PW & AD).
  assert (L2 : length (k_parts s) = 2%nat) by (destruct W as (_ & Lg & _ & K); rewrite K in Lg; simpl in Lg; lia).
  split.
  - refine (onesided_set_parts r (k_w s) _ s2 0 i j W1 Q1 _ Y2 _ _); [now rewrite D1 | lia | apply AD; [lia | exact A0]].
  - refine (onesided_set_parts r (k_w s) _ s2 1 i j W1 Q1 _ Y2 _ _); [now rewrite D1 | lia | apply AD; [lia | exact A1]].
Qed.
(** ... nor the gradient that a transfer device has accumulated in its fast crossbars *)
Theorem C66_transfer_refuted : forall t s s' k i j, tp_hidden t = false -> well_formed (KTransfer t) s -> all_quiet s -> in_bounds s i j -> (k < length (k_parts s) - 1)%nat ->
  admits s k i j 0 -> yields (reload (KTransfer t) s) s' -> part_weight s' k i j = 0.
Proof.
  intros t s s' k i j Hh W Q B Lk A Y. apply reload_inv in Y as (ps & s2 & Y1 & Y2 & E). rewrite (reload_part _ _ _ ps _ k i j (Hh : hidden (KTransfer t) = false) E).
  destruct (loaded_spec _ _ _ i j W Q Y1 B) as (W1 & Q1 & D1 & L1 & KP & KG & KI & PW & AD).
  destruct (transfer_set_parts t (k_w s) _ s2 k i j Hh W1 Q1 (eq_sym D1) Y2) as [P _].
  - rewrite KP. lia.
  - rewrite KP, L1. destruct (Nat.eqb_spec k (length (k_parts s) - 1)); [lia|]. apply AD; [lia | exact A].
  - rewrite KP, L1 in P. destruct (Nat.eqb_spec k (length (k_parts s) - 1)); [lia | exact P].
Qed.
Theorem C66_fully_hidden_refuted : forall t s s' k i j, tp_hidden t = true -> well_formed (KTransfer t) s -> all_quiet s -> in_bounds s i j -> (k < length (k_parts s) - 1)%nat ->
  yields (reload (KTransfer t) s) s' -> part_weight s' k i j = 0.
Proof.
  intros t s s' k i j Hh W Q B Lk Y. apply reload_inv in Y as (ps & s2 & Y1 & Y2 & E).
  destruct (loaded_spec _ _ _ i j W Q Y1 B) as (W1 & Q1 & D1 & L1 & KP & KG & KI & PW & AD).
  destruct (hidden_tile t (k_w s) _ s2 i j Hh W1 (eq_sym D1) Y2) as (_ & Lp & _). rewrite KP, L1 in Lp.
  assert (P : part_weight s2 k i j = 0).
  { pose proof (hidden_set_parts t (k_w s) _ s2 k i j Hh W1 Q1 (eq_sym D1) Y2) as P. cbv zeta in P. rewrite KP, L1 in P. destruct (Nat.eqb_spec k (length (k_parts s) - 1)); [lia|]. apply P; lia. }
  rewrite <- P. rewrite E. unfold overwrite, part_weight. cbn [hidden]. rewrite Hh. cbn [k_parts with_slices with_idx with_w with_parts]. f_equal. f_equal. f_equal.
  assert (Nk : nth_error (map (fun kp => if (fst kp =? length (k_parts s2) - 1)%nat then (fst (snd kp), put_vis (snd (snd kp)) (k_w s)) else snd kp) (zipi (k_parts s2))) k = nth_error (k_parts s2) k).
  { rewrite nth_error_map, nth_error_zipi. change (@nth_error (meta * dev)) with (@nth_error part). destruct (nth_error (k_parts s2) k); [|reflexivity]. cbn [option_map fst snd]. rewrite Lp. destruct (Nat.eqb_spec k (length (k_parts s) - 1)); [lia | reflexivity]. }
  destruct (nth_error (k_parts s2) k) as [q|] eqn:Ek; [|apply nth_error_None in Ek; lia]. now rewrite (nth_error_nth _ _ _ Nk), (nth_error_nth _ _ _ Ek).
Qed.
(** A cell with a reference crossbar: the crossbars do not fit to the weights of the tile any
    more; the next time the weights are computed they change by the reference. *)
Theorem C66_reference_refuted : forall s s' i j, well_formed (KVector SingleFixed 0) s -> all_quiet s -> in_bounds s i j -> k_gam s = [1; -1] ->
  admits s 0 i j (tile_weight s i j) -> yields (reload (KVector SingleFixed 0) s) s' ->
  weighted_sum s' i j = tile_weight s' i j - part_weight s 1 i j /\ part_weight s' 1 i j = part_weight s 1 i j.
Proof.
  intros s s' i j W Q B G A Y. destruct (C66_tile_restored _ _ _ Y) as (T & _). rewrite T. apply reload_inv in Y as (ps & s2 & Y1 & Y2 & E).
  destruct (loaded_spec _ _ _ i j W Q Y1 B) as (W1 & Q1 & D1 & L1 & KP & KG & KI & PW & AD). pose proof W as (_ & Lg & _). rewrite G in Lg. simpl in Lg.
  cbn [first_idx] in KI.
  destruct (C65_single_fixed 0 _ (k_w s) s2 i j W1 Q1 (eq_sym D1)) as [P _]; auto; [rewrite KI, KP; lia | |].
  - intros k Lk. rewrite KI, KP in *. rewrite L1 in Lk. destruct (Nat.eqb_spec k 0) as [-> | Nk]; [apply AD; auto; lia|]. rewrite PW by lia. apply AD; [lia|]. apply B; lia.
  - rewrite KP, L1, KI in P. assert (P0 : part_weight s' 0 i j = tile_weight s i j) by (rewrite (reload_part _ _ _ ps _ 0 i j (eq_refl : hidden (KVector SingleFixed 0) = false) E), P by lia; reflexivity).
    assert (P1 : part_weight s' 1 i j = part_weight s 1 i j) by (rewrite (reload_part _ _ _ ps _ 1 i j (eq_refl : hidden (KVector SingleFixed 0) = false) E), P by lia; cbn [Nat.eqb]; apply PW; lia).
    split; auto. unfold weighted_sum. assert (Gs : k_gam s' = [1; -1]).
    { rewrite E. unfold overwrite. cbn [hidden]. cbn [k_gam with_slices with_idx with_w]. destruct (set_weights_good _ _ _ _ _ _ _ (eq_sym D1) (wf_sized _ _ W1) Y2) as [(Gm & _) _]. congruence. }
    assert (Ls : length (k_parts s') = 2%nat).
    { rewrite E. unfold overwrite. cbn [hidden]. cbn [k_parts with_slices with_idx with_w]. destruct (set_weights_good _ _ _ _ _ _ _ (eq_sym D1) (wf_sized _ _ W1) Y2) as [(_ & Np & _) _]. rewrite Np, KP. lia. }
    rewrite Gs, Ls, sum_two, P0, P1. simpl. lra.
Qed.
(** With a reference of zero everything is restored *)
Theorem C66_zero_reference : forall s s' i j, well_formed (KVector SingleFixed 0) s -> all_quiet s -> in_bounds s i j -> k_gam s = [1; -1] -> shows_sum s ->
  part_weight s 1 i j = 0 -> yields (reload (KVector SingleFixed 0) s) s' -> weighted_sum s' i j = tile_weight s i j /\ part_weight s' 1 i j = part_weight s 1 i j.
Proof.
  intros s s' i j W Q B G Sh Z Y. pose proof W as (_ & Lg & _). rewrite G in Lg. simpl in Lg.
  assert (T0 : tile_weight s i j = part_weight s 0 i j). { rewrite Sh. unfold weighted_sum. rewrite <- Lg, sum_two, G, Z. simpl. lra. }
  destruct (C66_tile_restored _ _ _ Y) as (T & _). destruct (C66_reference_refuted s s' i j W Q B G) as [E1 E2]; auto.
  - rewrite T0. apply B. lia.
  - split; auto. rewrite E1, T, Z. lra.
Qed.
Example C66_example : let s := comp1 [1/2; 1/2] [0; 1/2] (1/4) 0 in
  well_formed (KVector All 0) s /\ shows_sum s /\ all_quiet s /\ in_bounds s 0 0 /\
  exists s', yields (reload (KVector All 0) s) s' /\ part_weight s 0 0 0 = 0 /\ part_weight s' 0 0 0 = 1/4.
Proof.
  cbv zeta. split; [|split; [|split; [|split]]].
  - repeat split; try discriminate. repeat constructor.
  - intros [|[|i]] [|[|j]]; unfold tile_weight, weighted_sum, part_weight, at_; cbn; lra.
  - repeat constructor; left; simpl; lra.
  - intros k Lk c E. destruct k as [|[|k]]; [| |simpl in Lk; lia]; cbn in E; injection E as <-; unfold within, part_weight, at_; simpl; lra.
  - eexists. split.
    + unfold reload, load_part, comp1. cbn [map k_parts mapMM]. change (vis (snd (part1 0))) with [[0]]. change (vis (snd (part1 (1/2)))) with [[1/2]]. rewrite !set_part1 by lra. cbn [bindM].
      cbn [set_weights show hidden with_w with_parts with_idx k_parts k_idx k_cnt k_gam k_w k_slices zipi length seq combine mapMM fst snd bindM first_idx]. rewrite !set_part1 by lra. cbn [bindM]. apply yields_ret. reflexivity.
    + unfold part_weight, at_. simpl. lra.
Qed.

Print Assumptions C65_vector.
Print Assumptions C65_single_fixed.
Print Assumptions C65_reference_refuted.
Print Assumptions C65_onesided.
Print Assumptions C65_transfer.
Print Assumptions C65_fully_hidden.
Print Assumptions C65_transfer_needs_factor.
Print Assumptions C65_hidden_stored_refuted.
Print Assumptions C66_tile_restored.
Print Assumptions C66_vector_refuted.
Print Assumptions C66_onesided_refuted.
Print Assumptions C66_transfer_refuted.
Print Assumptions C66_fully_hidden_refuted.
Print Assumptions C66_reference_refuted.
Print Assumptions C66_zero_reference.
