(** * Compound devices: C64 weight of the tile, C65 setting weights, C66 saving and loading *)
From Verif Require Import Prelude Rand DevModel DevSpec DevProofs PulseModel PulseSpec PulseProofs CompModel CompSpec CompProofs CompProofs2.

(** ** Small devices for the examples: one cross point, no noise *)
Definition mt0 : meta := {| m_dwmin := 1/10; m_std := 0; m_wn := 0; m_wn_on_set := false; m_rstd := 0 |}.
Definition xp0 : xp := {| x_max := 1; x_min := -1; x_up := 1/10; x_dn := 1/10; x_decay := 1; x_diff := 0; x_rbias := 0 |}.
Definition cell0 (w : R) : cell := {| c_x := xp0; c_rule := RConst; c_w := w; c_p := 0; c_h := 0; c_prev := 0; c_w0 := 0; c_t := 0; c_nu := 0 |}.
Definition part1 (w : R) : part := (mt0, {| d_cells := [[cell0 w]]; d_now := 0; d_fresh := true |}).
Definition comp1 (g : vec) (ws : vec) (w : R) (idx : nat) : comp :=
  {| k_parts := map part1 ws; k_gam := g; k_w := [[w]]; k_idx := idx; k_cnt := 0; k_slices := repeat 0%nat (length ws) |}.
Lemma not_persist : persist mt0 = false.
Proof. unfold persist. simpl. apply Rltb_false. lra. Qed.
Lemma set_part1 v w : -1 <= v <= 1 -> part_op (OSet [[v]]) (part1 w) = Ret (part1 v).
Proof.
  intros H. unfold part_op, part1. cbn [fst snd do_op d_cells combine mapMM bindM]. unfold set_cell. rewrite not_persist. cbn [bindM mapMM].
  replace (bnd (c_x (cell0 w)) v) with v by (unfold bnd; simpl; mm). reflexivity.
Qed.
Lemma up_part1 w : -1 <= w <= 9/10 -> part_op (OPulses [(0%nat, 0%nat, false)]) (part1 w) = Ret (part1 (w + 1/10)).
Proof.
  intros H. unfold part_op, part1. cbn [fst snd do_op d_cells foldMM bindM pulse_at upd_nth]. unfold pulse_at. cbn [fst snd upd_nth]. unfold pulse. cbn [c_rule cell0 skips impl_wn pulse_w].
  assert (E : Rltb 0 (m_std mt0) = false) by (apply Rltb_false; simpl; lra). rewrite E. cbn [bindM fst snd c_w c_x]. unfold raw_step. rewrite E.
  replace (bnd (c_x (cell0 w)) (c_w (cell0 w) + x_up (c_x (cell0 w)))) with (w + 1/10) by (unfold bnd; simpl; mm). reflexivity.
Qed.
Lemma clip_part1 w : -1 <= w <= 1 -> part_op (OClip (-1)) (part1 w) = Ret (part1 w).
Proof.
  intros H. unfold part_op, part1. cbn [fst snd do_op d_cells]. unfold each. cbn [mapMM bindM zipi length seq combine fst snd]. unfold clip_cell, renoise, cur, set_cur. rewrite not_persist.
  cbn [c_rule cell0 impl_wn andb bindM]. assert (E : Rltb (-1) 0 = true) by (apply Rltb_true; lra). rewrite E. cbn [bindM].
  replace (bnd (c_x (cell0 w)) (c_w (cell0 w))) with w by (unfold bnd; simpl; mm). reflexivity.
Qed.

Lemma sumR_app a b : sumR (a ++ b) = sumR a + sumR b.
Proof. induction a; simpl; lra. Qed.
(** ** C64: the tile works with the weighted sum *)
(** From any consistent state, after any calls, the tile shows the sum of the weights of the
    crossbars with their factors. *)
Theorem C64_effective_weight : forall kd s os s', hidden kd = false -> well_formed kd s -> shows_sum s ->
  Forall (cop_fits (dims (k_w s))) os -> chistory kd s os s' -> shows_sum s' /\ well_formed kd s' /\ k_gam s' = k_gam s.
Proof.
  intros kd s os s' Hh W Sh Fo H. pose proof W as W0.
  assert (G : good kd (dims (k_w s)) (k_gam s) (length (k_parts s)) s).
  { split; [now apply (wf_sized kd)|]. unfold shown. rewrite Hh. intros i j. specialize (Sh i j). unfold tile_weight in Sh. rewrite Sh. symmetry. apply entry_sum. apply W. }
  destruct (chistory_good _ _ _ _ _ _ _ Fo G H) as [S C]. pose proof S as (Gm & N & L & P & F & D). repeat split.
  - intros i j. unfold shown in C. rewrite Hh in C. unfold tile_weight. rewrite C. apply entry_sum. congruence.
  - intros E. rewrite E in N. simpl in N. lia.
  - congruence.
  - rewrite D. exact F.
  - destruct W0 as (_ & _ & _ & K). destruct kd; auto. congruence.
  - exact Gm.
Qed.
(** Setting the weights makes any state consistent *)
Theorem C64_after_set : forall kd s w os s', hidden kd = false -> well_formed kd s -> dims w = dims (k_w s) ->
  Forall (cop_fits (dims (k_w s))) os -> chistory kd s (CSet w :: os) s' -> shows_sum s'.
Proof.
  intros kd s w os s' Hh W D Fo H. unfold chistory in H. cbn [foldMM] in H. apply yields_bind in H as (s1 & Y & H). cbn [cdo] in Y.
  destruct (weighted_of_set _ _ _ _ W Hh D Y) as (Sh & G & L & Dk). pose proof (set_weights_good _ _ _ _ _ _ _ D (wf_sized _ _ W) Y) as [S _].
  assert (W1 : well_formed kd s1). { eapply sized_wf; [exact S|]. destruct W as (_ & _ & _ & K). exact K. }
  eapply (C64_effective_weight kd s1 os s'); auto. now rewrite Dk.
Qed.
(** A fully hidden transfer device shows the last crossbar *)
Theorem C64_fully_hidden : forall kd s w os s' i j, hidden kd = true -> well_formed kd s -> dims w = dims (k_w s) ->
  Forall (cop_fits (dims (k_w s))) os -> chistory kd s (CSet w :: os) s' -> tile_weight s' i j = part_weight s' (length (k_parts s') - 1) i j.
Proof.
  intros kd s w os s' i j Hh W D Fo H. unfold chistory in H. cbn [foldMM] in H. apply yields_bind in H as (s1 & Y & H). cbn [cdo] in Y.
  pose proof (set_weights_good _ _ _ _ _ _ _ D (wf_sized _ _ W) Y) as G. destruct (chistory_good _ _ _ _ _ _ _ Fo G H) as [S C].
  unfold shown in C. rewrite Hh in C. unfold tile_weight, part_weight. now rewrite C, last_nth.
Qed.
(** ... which is the weighted sum if the factors are computed from [gamma] *)
Theorem C64_default_gamma : forall u n xs dsz gv hid ev lrs rd s, tu_gamma_vec u = [] -> init_transfer u n xs dsz = Ok (gv, hid, ev, lrs, rd) ->
  hid = true -> k_gam s = gv -> length (k_parts s) = n -> (forall i j, tile_weight s i j = part_weight s (n - 1) i j) -> shows_sum s.
Proof.
  intros u n xs dsz gv hid ev lrs rd s Ev I Hd G N T i j. unfold init_transfer in I. rewrite Ev in I. destruct (n <? 2)%nat eqn:E2; [discriminate|]. apply Nat.ltb_ge in E2. cbn [bind] in I.
  destruct (negb _); [discriminate|]. destruct (negb _); [discriminate|]. destruct (_ && _)%bool eqn:Ec in I; [discriminate|]. injection I as Eg Eh _ _ _. clear Ec.
  rewrite Hd in Eh. apply Bool.andb_true_iff in Eh as [Eh _]. apply Reqb_true in Eh. rewrite Eh in Eg.
  rewrite T. unfold weighted_sum. rewrite G, N, <- Eg.
  assert (H : forall m, (m <= n - 1)%nat -> sumR (map (fun k => nth k (gamma_default 0 n) 0 * part_weight s k i j) (seq 0 m)) = 0).
  { induction m as [|m IH]; intros L; [reflexivity|]. rewrite seq_S, map_app, sumR_app, IH by lia. cbn [map sumR plus].
    assert (Z : nth m (gamma_default 0 n) 0 = 0).
    { unfold gamma_default. rewrite (nth_indep _ 0 (0 ^ (n - 1 - 0))) by (rewrite map_length, seq_length; lia). rewrite (map_nth (fun k => 0 ^ (n - 1 - k))), seq_nth by lia. apply pow_i. lia. }
    rewrite Z. lra. }
  assert (Sq : seq 0 n = seq 0 (n - 1) ++ [(n - 1)%nat]). { replace n with (S (n - 1)) at 1 by lia. apply seq_S. }
  rewrite Sq, map_app, sumR_app, H by lia. cbn [map sumR].
  assert (Z : nth (n - 1) (gamma_default 0 n) 0 = 1).
  { unfold gamma_default. rewrite (nth_indep _ 0 (0 ^ (n - 1 - 0))) by (rewrite map_length, seq_length; lia). rewrite (map_nth (fun k => 0 ^ (n - 1 - k))), seq_nth by lia. replace (n - 1 - (0 + (n - 1)))%nat with 0%nat by lia. reflexivity. }
  rewrite Z. lra.
Qed.
(** A floating point update (pulse type [NoneWithDevice]) of a compound device is lost: the
    result is the one without the update. *)
Lemma zipi_map {A B} (f : A -> B) (l : list A) : zipi (map f l) = map (fun ia => (fst ia, f (snd ia))) (zipi l).
Proof. unfold zipi. rewrite map_length. generalize 0%nat as k. induction l as [|a l IH]; intros k; simpl; auto. f_equal. apply IH. Qed.
Lemma zipi_index {A B} (f : nat -> B) (l : list A) : map (fun jc => f (fst jc)) (zipi l) = map f (seq 0 (length l)).
Proof. rewrite <- (map_map fst f). f_equal. unfold zipi. generalize 0%nat as k. induction l as [|a l IH]; intros k; simpl; auto. f_equal. apply IH. Qed.
Lemma reduce_dims_only gam ps w w' : dims w = dims w' -> reduce gam ps w = reduce gam ps w'.
Proof.
  intros E. assert (H : forall w, reduce gam ps w = map (fun ik => map (entry gam ps (fst ik)) (seq 0 (snd ik))) (zipi (dims w))).
  { intros v. unfold reduce, dims. rewrite zipi_map, map_map. apply map_ext. intros [i r]. cbn [fst snd]. apply zipi_index. }
  now rewrite (H w), (H w'), E.
Qed.
Theorem C64_float_update_lost_refuted : forall kd s delta s', hidden kd = false -> dims delta = dims (k_w s) ->
  yields (cdo kd s (CFloat delta)) s' -> yields (cdo kd s (CClip (-1))) s'.
Proof.
  intros kd s delta s' Hh D Y. cbn [cdo] in *. cbv zeta in Y. rewrite Hh in Y. apply yields_bind in Y as (s1 & Y & E). apply yields_ret in E. unfold all_parts in Y. apply yields_bind in Y as (ps & Y & E1). apply yields_ret in E1.
  apply yields_bind. exists (with_parts s ps). split. { unfold all_parts. apply yields_bind. exists ps. split; [exact Y | constructor]. }
  apply yields_ret. rewrite E, E1. unfold show. rewrite Hh. unfold with_w, with_parts. cbn [k_parts k_gam k_w k_idx k_cnt k_slices]. f_equal. apply reduce_dims_only. apply map2_dims; now rewrite D.
Qed.

(** Factors given by the user can make a device count as fully hidden although the fast crossbars
    contribute to the sum: 1, -1, 1 *)
Definition user_gamma : tuser :=
  {| tu_gamma := 0; tu_gamma_vec := [1; -1; 1]; tu_every := 0; tu_every_vec := [0; 0; 0]; tu_reads := 1; tu_columns := true; tu_no_self := false;
     tu_lr := 1; tu_lr_vec := []; tu_reset := 0 |}.
Definition up_ex : upar :=
  {| up_type := StochasticCompressed; up_BL := 1; up_fixed := true; up_ublm := false; up_um := false; up_gs := 1; up_res := 0; up_xres := 0; up_dres := 0; up_sto := false |}.
Definition tpar_ex (g : vec) (hid : bool) (every : vec) : tpar :=
  {| tp_columns := true; tp_reads := 1; tp_every := every; tp_mb := false; tp_lrs := g; tp_scale := false; tp_reset := 0; tp_random := false; tp_hidden := hid; tp_up := up_ex;
     tp_read := fun w x => Ret (map (fun row => sumR (map2 Rmult row x)) w) |}.
Lemma roundf_0 : roundf 0 = 0%Z.
Proof.
  unfold roundf. assert (E : Rleb 0 0 = true) by (apply Rleb_true; lra). rewrite E. pose proof (floorZ_spec (0 + 1/2)) as [A B].
  assert (IZR (floorZ (0 + 1/2)) < 1) by lra. assert (-1 < IZR (floorZ (0 + 1/2))) by lra. apply lt_IZR in H. apply lt_IZR in H0. lia.
Qed.
Lemma no_transfer t lr mb : forall n (s : comp), tp_mb t = false -> tp_every t = repeat 0 n -> length (k_parts s) = n ->
  transfer_finish t lr mb s = Ret (show (KTransfer t) (with_idx s 0 (S (k_cnt s)))).
Proof.
  intros n s Mb Ev N. unfold transfer_finish. cbv zeta. generalize (with_idx s 0 (S (k_cnt s))) as s1. intros s1.
  assert (Z : forall j, transfer_every t j mb = 0%nat).
  { intros j. unfold transfer_every. rewrite Mb, Ev. replace (nth j (repeat 0 n) 0) with 0; [now rewrite roundf_0 | symmetry; apply nth_repeat]. }
  rewrite N. match goal with |- bindM (foldMM ?f _ _) _ = _ => assert (E : forall ll s2, foldMM f ll s2 = Ret s2) end.
  { induction ll as [|j l IH]; intros s2; cbn [foldMM]; [reflexivity|]. rewrite Z. cbn [Nat.ltb Nat.leb andb bindM]. apply IH. }
  rewrite E. reflexivity.
Qed.
Theorem C64_user_gamma_refuted :
  (exists ev lrs rd, init_transfer user_gamma 3 1 1 = Ok ([1; -1; 1], true, ev, lrs, rd)) /\
  let kd := KTransfer (tpar_ex [1; 1; 1] true [0; 0; 0]) in let s := comp1 [1; -1; 1] [0; 0; 0] 0 0 in
  well_formed kd s /\ shows_sum s /\ exists s', chistory kd s [CUpdate [CSparse 0 [(0%nat, false)]] 1 1] s' /\ ~ shows_sum s'.
Proof.
  split; [|split; [|split]].
  - unfold init_transfer. cbn. assert (E0 : Reqb 1 0 = false) by (apply Reqb_false; lra). rewrite E0. cbn.
    assert (E1 : Rltb 0 0 = false) by (apply Rltb_false; lra). rewrite E1. cbn. assert (E2 : Reqb (1 + (-1 + 0)) 0 = true) by (apply Reqb_true; lra). rewrite E2.
    assert (E3 : Reqb 1 1 = true) by (apply Reqb_true; lra). rewrite E3. cbn. do 3 eexists. reflexivity.
  - repeat split; try discriminate. simpl. repeat constructor.
  - intros [|[|i]] [|[|j]]; unfold tile_weight, weighted_sum, part_weight, at_; cbn; lra.
  - eexists. split.
    + unfold chistory. cbn [foldMM cdo update]. apply yields_bind. eexists. split; [|apply yields_ret; reflexivity]. cbn [foldMM transfer_call]. apply yields_bind.
      exists (comp1 [1; -1; 1] [1/10; 0; 0] 0 0). split.
      * unfold send. cbn [comp1 map with_idx k_parts k_idx k_cnt k_slices k_gam k_w zipi length seq combine mapMM fst snd active single negb orb Nat.eqb bindM].
        change (row_pulses 0 [(0%nat, false)]) with [(0%nat, 0%nat, false)]. rewrite up_part1 by lra. cbn [bindM]. unfold comp1, with_parts. cbn [k_parts k_idx k_cnt k_slices k_gam k_w with_idx map length repeat].
        apply yields_ret. replace (0 + 1/10) with (1/10) by lra. reflexivity.
      * rewrite (no_transfer _ 1 1 3); [apply yields_ret; reflexivity | reflexivity | reflexivity | reflexivity].
    + intros H. specialize (H 0%nat 0%nat). unfold tile_weight, weighted_sum, part_weight, at_ in H. cbn in H. lra.
Qed.
Example C64_example : well_formed (KOneSided {| rf_every := 0; rf_mb := false; rf_upper := 1; rf_lower := 0; rf_wmaxp := 1; rf_wmaxm := 1; rf_up := up_ex; rf_read := fun _ _ => Ret [] |})
    (comp1 [-1; 1] [1/4; 1/2] (1/4) 0) /\ shows_sum (comp1 [-1; 1] [1/4; 1/2] (1/4) 0) /\
  exists s', chistory (KVector All 0) (comp1 [1/2; 1/2] [0; 1/2] (1/4) 0) [CClip (-1); CSet [[1/3]]] s' /\ tile_weight s' 0 0 = 1/3.
Proof.
  split; [|split].
  - repeat split; try discriminate. repeat constructor.
  - intros [|[|i]] [|[|j]]; unfold tile_weight, weighted_sum, part_weight, at_; cbn; lra.
  - eexists. split.
    + unfold chistory. cbn [foldMM cdo set_weights]. unfold all_parts. cbn [comp1 map k_parts mapMM]. rewrite !clip_part1 by lra. cbn [bindM].
      cbn [show hidden with_w with_parts with_idx k_parts k_idx k_cnt k_gam k_w k_slices zipi length seq combine mapMM fst snd bindM]. rewrite !set_part1 by lra. cbn [bindM]. apply yields_ret. reflexivity.
    + unfold tile_weight, at_. cbn. lra.
Qed.

Print Assumptions C64_effective_weight.
Print Assumptions C64_after_set.
Print Assumptions C64_fully_hidden.
Print Assumptions C64_default_gamma.
Print Assumptions C64_float_update_lost_refuted.
Print Assumptions C64_user_gamma_refuted.
