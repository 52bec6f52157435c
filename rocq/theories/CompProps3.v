(** * Compound devices: C67 update policies, C68 one sided updates *)
From Verif Require Import Prelude Rand DevModel DevSpec DevProofs DevProps PulseModel PulseSpec PulseProofs CompModel CompSpec CompProofs CompProofs2 CompProps CompProps2.

(** ** C67: which crossbars get the pulses *)
Lemma send_parts p s l s' k : yields (send p s l) s' -> (k < length (k_parts s))%nat ->
  (if active p (k_idx s) k then yields (part_op (OPulses l) (part_at s k)) (part_at s' k) else part_at s' k = part_at s k).
Proof.
  intros Y L. unfold send in Y. apply yields_bind in Y as (ps & Y & E). apply yields_ret in E. subst s'. pose proof (mapMM_zipi_nth _ _ _ k Y L) as Yk. cbn [fst snd] in Yk.
  unfold part_at at 2. cbn [k_parts with_parts]. destruct (active p (k_idx s) k); [exact Yk | now apply yields_ret in Yk].
Qed.
Lemma send_other p s l s' : yields (send p s l) s' -> k_idx s' = k_idx s /\ length (k_parts s') = length (k_parts s) /\ k_cnt s' = k_cnt s /\ k_gam s' = k_gam s.
Proof.
  intros Y. unfold send in Y. apply yields_bind in Y as (ps & Y & E). apply yields_ret in E. subst s'. cbn [k_idx k_parts with_parts k_cnt k_gam]. repeat split; auto. now rewrite (mapMM_length _ _ _ Y), zipi_length.
Qed.
Lemma vector_call_inv p s c s' : yields (vector_call p s c) s' -> exists s1, yields (send p s (call_pulses c)) s1 /\ k_parts s' = k_parts s1 /\ k_idx s' = k_idx s1 /\ k_cnt s' = k_cnt s1.
Proof.
  destruct c as [i js | cs]; cbn [vector_call call_pulses]; intros Y; apply yields_bind in Y as (s1 & Y & E); apply yields_ret in E; subst s'; exists s1; repeat split; auto.
Qed.
Lemma vector_calls p : forall cs s s' k, yields (foldMM (vector_call p) cs s) s' -> (k < length (k_parts s))%nat ->
  k_idx s' = k_idx s /\ length (k_parts s') = length (k_parts s) /\ k_cnt s' = k_cnt s /\
  if active p (k_idx s) k then gets cs (part_at s k) (part_at s' k) else part_at s' k = part_at s k.
Proof.
  induction cs as [|c cs IH]; intros s s' k Y L; cbn [foldMM] in Y.
  - apply yields_ret in Y. subst s'. repeat split; auto. destruct (active p (k_idx s) k); [constructor | reflexivity].
  - apply yields_bind in Y as (s1 & Y1 & Y). apply vector_call_inv in Y1 as (s0 & Y0 & E1 & E2 & E3). pose proof (send_parts _ _ _ _ k Y0 L) as P. destruct (send_other _ _ _ _ Y0) as (F1 & F2 & F3 & _).
    assert (L1 : (k < length (k_parts s1))%nat) by (rewrite E1, F2; exact L). destruct (IH s1 s' k Y L1) as (I1 & I2 & I3 & I4).
    assert (Pa : part_at s1 k = part_at s0 k) by (unfold part_at; now rewrite E1). rewrite Pa, E2, F1 in I4. repeat split; [congruence | congruence | congruence|].
    destruct (active p (k_idx s) k); [|congruence]. unfold gets. cbn [foldMM]. apply yields_bind. eauto.
Qed.
(** The crossbars that get pulses get all of them, the others do not change. *)
Theorem C67_policy : forall p f cs lr mb s s' k, yields (update (KVector p f) cs lr mb s) s' -> (k < length (k_parts s))%nat ->
  match p with
  | All => gets cs (part_at s k) (part_at s' k)
  | _ => if (k =? k_idx s')%nat then gets cs (part_at s k) (part_at s' k) else part_at s' k = part_at s k
  end /\
  match p with
  | All | SingleFixed => k_idx s' = k_idx s
  | SingleSequential => k_idx s' = (S (k_idx s) mod length (k_parts s))%nat
  | SingleRandom => (k_idx s' < length (k_parts s))%nat
  end.
Proof.
  intros p f cs lr mb s s' k Y L. cbn [update] in Y. apply yields_bind in Y as (s1 & Y1 & Y). apply yields_bind in Y as (s2 & Y2 & Y). apply yields_ret in Y. subst s'.
  cbn [k_idx with_idx]. unfold part_at. cbn [k_parts with_idx]. fold (part_at s2 k). fold (part_at s k).
  assert (E : k_parts s1 = k_parts s /\ match p with All | SingleFixed => k_idx s1 = k_idx s | SingleSequential => k_idx s1 = (S (k_idx s) mod length (k_parts s))%nat | SingleRandom => (k_idx s1 < length (k_parts s))%nat end).
  { destruct p; cbn [choose] in Y1; try (apply yields_ret in Y1; subst s1; auto; fail). apply yields_bind in Y1 as (u & _ & Y1). cbv zeta in Y1.
    destruct (Nat.ltb_spec (Z.to_nat (floorZ (u * INR (length (k_parts s))))) (length (k_parts s))); [|now apply yields_throw in Y1]. apply yields_ret in Y1. subst s1. auto. }
  destruct E as [E1 E2]. rewrite <- E1 in L. destruct (vector_calls p cs s1 s2 k Y2 L) as (F1 & F2 & F3 & F4). assert (P : part_at s1 k = part_at s k) by (unfold part_at; now rewrite E1). rewrite P in F4. rewrite F1. rewrite E1 in *.
  split; [|exact E2]. unfold active in F4. destruct p; cbn [single negb orb] in F4; exact F4.
Qed.
Lemma update_length p f cs lr mb s s' : yields (update (KVector p f) cs lr mb s) s' -> k_parts s <> [] -> length (k_parts s') = length (k_parts s) /\ k_cnt s' = S (k_cnt s).
Proof.
  intros Y NE. cbn [update] in Y. apply yields_bind in Y as (s1 & Y1 & Y). apply yields_bind in Y as (s2 & Y2 & Y). apply yields_ret in Y. subst s'.
  assert (E : k_parts s1 = k_parts s /\ k_cnt s1 = k_cnt s).
  { destruct p; cbn [choose] in Y1; try (apply yields_ret in Y1; subst s1; auto; fail). apply yields_bind in Y1 as (u & _ & Y1). cbv zeta in Y1. destruct (_ <? _)%nat; [|now apply yields_throw in Y1]. apply yields_ret in Y1. subst s1. auto. }
  destruct E as [E1 E2]. cbn [k_parts k_cnt with_idx]. assert (L0 : (0 < length (k_parts s1))%nat) by (rewrite E1; destruct (k_parts s); [congruence | simpl; lia]).
  destruct (vector_calls p cs s1 s2 0 Y2 L0) as (_ & F2 & F3 & _). rewrite F2, F3, E1, E2. auto.
Qed.
(** Sequential policy: one crossbar after the other, cyclically *)
Theorem C67_round_robin : forall f os s s', Forall is_update os -> k_parts s <> [] -> (k_idx s < length (k_parts s))%nat -> chistory (KVector SingleSequential f) s os s' ->
  k_idx s' = ((k_idx s + length os) mod length (k_parts s))%nat /\ length (k_parts s') = length (k_parts s).
Proof.
  intros f os. induction os as [|o os IH]; intros s s' Fo NE Li H; unfold chistory in H; cbn [foldMM] in H.
  - apply yields_ret in H. subst s'. simpl. rewrite Nat.add_0_r, Nat.mod_small; auto.
  - apply yields_bind in H as (s1 & Y & H). inversion Fo as [|? ? Ho Fo']; subst. destruct o; try contradiction. cbn [cdo] in Y. destruct (update_length _ _ _ _ _ _ _ Y NE) as [L1 _].
    assert (L0 : (0 < length (k_parts s))%nat) by (destruct (k_parts s); [congruence | simpl; lia]).
    destruct (C67_policy _ _ _ _ _ _ _ 0 Y L0) as [_ I1]. cbn iota in I1. assert (NE1 : k_parts s1 <> []) by (intros E; rewrite E in L1; simpl in L1; lia).
    destruct (IH s1 s' Fo' NE1) as [J1 J2]; auto.
    + rewrite I1, L1. apply Nat.mod_upper_bound. lia.
    + rewrite J1, J2, L1, I1. split; auto. cbn [length]. rewrite Nat.add_mod_idemp_l by lia. f_equal. lia.
Qed.
(** Fixed policy: the other crossbars never change during training, whatever the updates *)
Theorem C67_fixed : forall f os s s' k, Forall is_update os -> chistory (KVector SingleFixed f) s os s' -> (k < length (k_parts s))%nat -> k <> k_idx s ->
  part_at s' k = part_at s k /\ k_idx s' = k_idx s.
Proof.
  intros f os. induction os as [|o os IH]; intros s s' k Fo H L N; unfold chistory in H; cbn [foldMM] in H.
  - apply yields_ret in H. now subst s'.
  - apply yields_bind in H as (s1 & Y & H). inversion Fo as [|? ? Ho Fo']; subst. destruct o; try contradiction. cbn [cdo] in Y. assert (NE : k_parts s <> []) by (intros E; rewrite E in L; simpl in L; lia).
    destruct (update_length _ _ _ _ _ _ _ Y NE) as [L1 _]. destruct (C67_policy _ _ _ _ _ _ _ k Y L) as [P I1]. cbn iota in P, I1. rewrite I1 in P. apply Nat.eqb_neq in N. rewrite N in P. apply Nat.eqb_neq in N.
    destruct (IH s1 s' k Fo' H) as [J1 J2]; [lia | congruence | split; congruence].
Qed.
(** Random policy: the generator can return exactly 1; the index is then out of range (in C++
    undefined behaviour, here an exception) *)
Theorem C67_random_refuted : forall f cs lr mb s, throws (update (KVector SingleRandom f) cs lr mb s) IndexError.
Proof.
  intros f cs lr mb s. cbn [update choose]. apply throws_bind. left. apply throws_bind. right. exists 1. split.
  - unfold unif. apply yields_unif. exists 1. split; [lra | constructor].
  - cbv zeta. rewrite Rmult_1_l. assert (E : floorZ (INR (length (k_parts s))) = Z.of_nat (length (k_parts s))).
    { rewrite INR_IZR_INZ. pose proof (floorZ_spec (IZR (Z.of_nat (length (k_parts s))))) as [A B]. set (z := floorZ _) in *. apply le_IZR in A. rewrite <- (plus_IZR z 1) in B. apply lt_IZR in B. lia. }
    rewrite E, Nat2Z.id, Nat.ltb_irrefl. constructor.
Qed.
Example C67_example : let s := comp1 [1/2; 1/2] [0; 0] 0 0 in exists s',
  chistory (KVector SingleSequential 0) s [CUpdate [CSparse 0 [(0%nat, false)]] 1 1] s' /\ part_at s' 0 = part1 0 /\ part_at s' 1 = part1 (0 + 1/10) /\ tile_weight s' 0 0 = 1/20 /\ k_idx s' = 1%nat.
Proof.
  cbv zeta. eexists. split; [|split; [|split; [|split]]].
  - unfold chistory. cbn [foldMM cdo update choose bindM]. cbn [vector_call]. unfold send. cbn [comp1 map with_idx k_parts k_idx k_cnt k_slices k_gam k_w zipi length seq combine mapMM fst snd].
    change (S 0 mod 2)%nat with 1%nat. cbn [active single negb orb Nat.eqb bindM]. change (row_pulses 0 [(0%nat, false)]) with [(0%nat, 0%nat, false)]. rewrite up_part1 by lra. cbn [bindM]. apply yields_ret. reflexivity.
  - reflexivity.
  - reflexivity.
  - unfold tile_weight, at_. cbn. lra.
  - reflexivity.
Qed.

(** ** C68: a one sided device only increases its conductances *)
Lemma row_pulses_filter i js i' j' : pulses_at (row_pulses i (as_up (filter snd js))) i' j' = repeat false (downs (pulses_at (row_pulses i js) i' j')) /\
  pulses_at (row_pulses i (as_up (filter (fun p => negb (snd p)) js))) i' j' = repeat false (ups (pulses_at (row_pulses i js) i' j')).
Proof.
  induction js as [|[j b] js [IH1 IH2]]; [split; reflexivity|].
  change (row_pulses i ((j, b) :: js)) with ((i, j, b) :: row_pulses i js). rewrite pulses_at_cons. unfold ups, downs in *.
  assert (A1 : row_pulses i (as_up (filter snd ((j, b) :: js))) = if b then (i, j, false) :: row_pulses i (as_up (filter snd js)) else row_pulses i (as_up (filter snd js))) by (destruct b; reflexivity).
  assert (A2 : row_pulses i (as_up (filter (fun p => negb (snd p)) ((j, b) :: js))) = if b then row_pulses i (as_up (filter (fun p => negb (snd p)) js)) else (i, j, false) :: row_pulses i (as_up (filter (fun p => negb (snd p)) js))) by (destruct b; reflexivity).
  rewrite A1, A2. rewrite filter_app, filter_app. destruct b; rewrite pulses_at_cons, IH1, IH2; destruct ((i =? i') && (j =? j'))%nat%bool; split; reflexivity.
Qed.
Lemma at_mapZ (f : Z -> Z) (cs : list (list Z)) i j : f 0%Z = 0%Z -> nth j (nth i (map (map f) cs) []) 0%Z = f (nth j (nth i cs []) 0%Z).
Proof.
  intros F0. destruct (nth_error cs i) as [r|] eqn:E.
  - rewrite (nth_error_nth (map (map f) cs) i [] (x := map f r)) by now rewrite nth_error_map, E. rewrite (nth_error_nth _ _ _ E). rewrite <- F0 at 1. apply map_nth.
  - rewrite (nth_overflow (map (map f) cs)) by (rewrite map_length; now apply nth_error_None). rewrite (nth_overflow cs) by now apply nth_error_None. destruct j; simpl; auto.
Qed.
Lemma ups_repeat b n : ups (repeat b n) = (if b then 0 else n)%nat /\ downs (repeat b n) = (if b then n else 0)%nat.
Proof. unfold ups, downs. induction n as [|n [I1 I2]]; [destruct b; auto|]. destruct b; simpl in *; split; auto; lia. Qed.
Lemma dense_split cs i j :
  pulses_at (dense_pulses (map (map (fun c => if (0 <? c)%Z then (- c)%Z else 0%Z)) cs)) i j = repeat false (downs (pulses_at (dense_pulses cs) i j)) /\
  pulses_at (dense_pulses (map (map (fun c => if (c <? 0)%Z then c else 0%Z)) cs)) i j = repeat false (ups (pulses_at (dense_pulses cs) i j)).
Proof.
  rewrite !dense_at. rewrite (at_mapZ (fun c => if (0 <? c)%Z then (- c)%Z else 0%Z)) by reflexivity. rewrite (at_mapZ (fun c => if (c <? 0)%Z then c else 0%Z)) by reflexivity.
  set (c := nth j (nth i cs []) 0%Z). destruct (ups_repeat (0 <? c)%Z (Z.abs_nat c)) as [-> ->].
  destruct (Z.ltb_spec 0 c), (Z.ltb_spec c 0); try lia.
  - split; [|reflexivity]. replace (0 <? - c)%Z with false by (symmetry; apply Z.ltb_ge; lia). f_equal. lia.
  - split; [reflexivity|]. replace (0 <? c)%Z with false by (symmetry; apply Z.ltb_ge; lia). reflexivity.
  - assert (c = 0)%Z as -> by lia. split; reflexivity.
Qed.
Lemma onesided_call_inv s c s' : yields (onesided_call s c) s' -> length (k_parts s) = 2%nat -> exists lm lp,
  yields (part_op (OPulses lm) (part_at s 0)) (part_at s' 0) /\ yields (part_op (OPulses lp) (part_at s 1)) (part_at s' 1) /\ length (k_parts s') = 2%nat /\ k_cnt s' = k_cnt s /\
  forall i j, pulses_at lm i j = repeat false (downs (pulses_at (call_pulses c) i j)) /\ pulses_at lp i j = repeat false (ups (pulses_at (call_pulses c) i j)).
Proof.
  intros Y L. assert (H : forall lm lp s1, yields (onesided_send s lm lp) s1 -> yields (part_op (OPulses lm) (part_at s 0)) (part_at s1 0) /\ yields (part_op (OPulses lp) (part_at s 1)) (part_at s1 1) /\ length (k_parts s1) = 2%nat /\ k_cnt s1 = k_cnt s).
  { intros lm lp s1 Ys. unfold onesided_send in Ys. apply yields_bind in Ys as (ps & Ys & E). apply yields_ret in E. subst s1.
    pose proof (mapMM_zipi_nth _ _ _ 0 Ys ltac:(lia)) as Y0. pose proof (mapMM_zipi_nth _ _ _ 1 Ys ltac:(lia)) as Y1. cbn [fst snd Nat.eqb] in Y0, Y1. unfold part_at. cbn [k_parts with_parts k_cnt].
    repeat split; auto. now rewrite (mapMM_length _ _ _ Ys), zipi_length. }
  destruct c as [i js | cs]; cbn [onesided_call call_pulses] in *; apply yields_bind in Y as (s1 & Y & E); apply yields_ret in E; subst s'; destruct (H _ _ _ Y) as (H0 & H1 & H2 & H3); do 2 eexists; (split; [exact H0 | split; [exact H1 | split; [exact H2 | split; [exact H3|]]]]); intros a b.
  - apply row_pulses_filter.
  - apply dense_split.
Qed.
Lemma part_pulses_cell l p p' i j c n : yields (part_op (OPulses l) p) p' -> pulses_at l i j = repeat false n -> cell_at (d_cells (snd p)) i j = Some c ->
  exists c', cell_at (d_cells (snd p')) i j = Some c' /\ yields (pulses (fst p) n false c) c' /\ fst p' = fst p.
Proof.
  intros Y E Ec. pose proof (part_op_meta _ _ _ Y) as Em. unfold part_op in Y. cbn [do_op] in Y. apply yields_bind in Y as (d & Y & Ed). apply yields_ret in Ed. subst p'. apply yields_bind in Y as (cs & Y & Ed). apply yields_ret in Ed. subst d.
  destruct (fold_pulses_at _ _ _ _ i j c Y Ec) as (c' & E' & Yc). rewrite E in Yc. exists c'. split; auto.
Qed.
Lemma pulses_add mt n m c c1 c2 : yields (pulses mt n false c) c1 -> yields (pulses mt m false c1) c2 -> yields (pulses mt (n + m) false c) c2.
Proof.
  revert c. induction n as [|n IH]; intros c Y1 Y2.
  - unfold pulses in Y1. simpl in Y1. apply yields_ret in Y1. now subst.
  - cbn [plus]. rewrite pulses_S in *. apply yields_bind in Y1 as (c0 & Y0 & Y1). apply yields_bind. exists c0. split; auto.
Qed.
Lemma ups_app a b : ups (a ++ b) = (ups a + ups b)%nat /\ downs (a ++ b) = (downs a + downs b)%nat.
Proof. unfold ups, downs. rewrite !filter_app, !app_length. auto. Qed.
Lemma onesided_calls : forall cs s s' i j cm cp, yields (foldMM onesided_call cs s) s' -> length (k_parts s) = 2%nat ->
  cell_at (d_cells (snd (part_at s 0))) i j = Some cm -> cell_at (d_cells (snd (part_at s 1))) i j = Some cp ->
  length (k_parts s') = 2%nat /\ exists cm' cp', cell_at (d_cells (snd (part_at s' 0))) i j = Some cm' /\ cell_at (d_cells (snd (part_at s' 1))) i j = Some cp' /\
  fst (part_at s' 0) = fst (part_at s 0) /\ fst (part_at s' 1) = fst (part_at s 1) /\
  yields (pulses (fst (part_at s 0)) (downs (sent cs i j)) false cm) cm' /\ yields (pulses (fst (part_at s 1)) (ups (sent cs i j)) false cp) cp'.
Proof.
  induction cs as [|c cs IH]; intros s s' i j cm cp Y L Em Ep; cbn [foldMM] in Y.
  - apply yields_ret in Y. subst s'. split; auto. exists cm, cp. repeat split; auto; constructor.
  - apply yields_bind in Y as (s1 & Y1 & Y). destruct (onesided_call_inv _ _ _ Y1 L) as (lm & lp & P0 & P1 & L1 & _ & Q). destruct (Q i j) as [Q0 Q1].
    destruct (part_pulses_cell _ _ _ _ _ _ _ P0 Q0 Em) as (cm1 & Em1 & Ym & Mm). destruct (part_pulses_cell _ _ _ _ _ _ _ P1 Q1 Ep) as (cp1 & Ep1 & Yp & Mp).
    destruct (IH _ _ _ _ _ _ Y L1 Em1 Ep1) as (L2 & cm' & cp' & E1 & E2 & F1 & F2 & G1 & G2). split; auto. exists cm', cp'. cbn [sent flat_map]. destruct (ups_app (pulses_at (call_pulses c) i j) (sent cs i j)) as [U D].
    unfold sent in U, D. rewrite U, D. rewrite Mm in *. rewrite Mp in *. repeat split; auto; eapply pulses_add; eauto.
Qed.
(** Without refresh: the second crossbar gets one up pulse for every pulse that increases the
    weight, the first one an up pulse for every pulse that decreases it; no down pulse is
    sent to either. *)
Theorem C68_only_up : forall r cs lr mb s s' i j cm cp, well_formed (KOneSided r) s -> rf_every r = 0%nat -> yields (update (KOneSided r) cs lr mb s) s' ->
  cell_at (d_cells (snd (part_at s 0))) i j = Some cm -> cell_at (d_cells (snd (part_at s 1))) i j = Some cp ->
  exists cm' cp', cell_at (d_cells (snd (part_at s' 0))) i j = Some cm' /\ cell_at (d_cells (snd (part_at s' 1))) i j = Some cp' /\
    yields (pulses (fst (part_at s 0)) (downs (sent cs i j)) false cm) cm' /\ yields (pulses (fst (part_at s 1)) (ups (sent cs i j)) false cp) cp'.
Proof.
  intros r cs lr mb s s' i j cm cp W R0 Y Em Ep. cbn [update] in Y. apply yields_bind in Y as (s1 & Y1 & Y). assert (L : length (k_parts s) = 2%nat) by (destruct W as (_ & Lg & _ & K); rewrite K in Lg; simpl in Lg; lia).
  destruct (onesided_calls _ _ _ _ _ _ _ Y1 L Em Ep) as (_ & cm' & cp' & E1 & E2 & _ & _ & G1 & G2).
  unfold onesided_finish in Y. cbv zeta in Y. rewrite R0 in Y. cbn [Nat.ltb Nat.leb andb] in Y. apply yields_ret in Y. subst s'. exists cm', cp'. auto.
Qed.
(** For constant step devices without noise: the weight of the tile moves by the step sizes as
    long as no conductance saturates *)
Theorem C68_constant_step : forall r cs lr mb s s' i j cm cp, well_formed (KOneSided r) s -> shows_sum s -> rf_every r = 0%nat -> yields (update (KOneSided r) cs lr mb s) s' ->
  cell_at (d_cells (snd (part_at s 0))) i j = Some cm -> cell_at (d_cells (snd (part_at s 1))) i j = Some cp ->
  Forall (fun p => m_std (fst p) = 0 /\ m_wn (fst p) <= 0 /\ 0 <= m_dwmin (fst p)) (k_parts s) -> c_rule cm = RConst -> c_rule cp = RConst ->
  within (c_x cm) (c_w cm) -> within (c_x cp) (c_w cp) -> 0 <= x_up (c_x cm) -> 0 <= x_up (c_x cp) -> 0 <= x_dn (c_x cm) -> 0 <= x_dn (c_x cp) ->
  let nu := INR (ups (sent cs i j)) in let nd := INR (downs (sent cs i j)) in
  tile_weight s' i j = Rmin (c_w cp + nu * x_up (c_x cp)) (x_max (c_x cp)) - Rmin (c_w cm + nd * x_up (c_x cm)) (x_max (c_x cm)) /\
  (c_w cp + nu * x_up (c_x cp) <= x_max (c_x cp) -> c_w cm + nd * x_up (c_x cm) <= x_max (c_x cm) ->
   tile_weight s' i j = tile_weight s i j + nu * x_up (c_x cp) - nd * x_up (c_x cm)).
Proof.
  intros r cs lr mb s s' i j cm cp W Sh R0 Y Em Ep F Rm Rp Wm Wp U0 U1 D0 D1 nu nd.
  destruct (C68_only_up _ _ _ _ _ _ _ _ _ _ W R0 Y Em Ep) as (cm' & cp' & E0 & E1 & Y0 & Y1).
  assert (L : length (k_parts s) = 2%nat) by (destruct W as (_ & Lg & _ & K); rewrite K in Lg; simpl in Lg; lia).
  rewrite Forall_forall in F. assert (F0 : List.In (part_at s 0) (k_parts s)) by (apply nth_In; lia). assert (F1 : List.In (part_at s 1) (k_parts s)) by (apply nth_In; lia).
  destruct (F _ F0) as (S0 & N0 & M0). destruct (F _ F1) as (S1 & N1 & M1).
  assert (ST : forall mt c, m_wn mt <= 0 -> stored mt c = c_w c). { intros mt c H. unfold stored. destruct (Rltb 0 (m_wn mt)) eqn:E; auto. apply Rltb_true in E. lra. }
  destruct (C53_constant_step (fst (part_at s 0)) (downs (sent cs i j)) cm cm' S0) as [Z0 _]; auto; [split; [exact M0 | intros; lra] | rewrite ST by auto; exact Wm|].
  destruct (C53_constant_step (fst (part_at s 1)) (ups (sent cs i j)) cp cp' S1) as [Z1 _]; auto; [split; [exact M1 | intros; lra] | rewrite ST by auto; exact Wp|].
  specialize (Z0 Y0). specialize (Z1 Y1). rewrite !ST in Z0, Z1 by auto.
  assert (T : tile_weight s' i j = c_w cp' - c_w cm').
  { assert (Sh' : shows_sum s' /\ well_formed (KOneSided r) s' /\ k_gam s' = k_gam s) by (apply (C64_effective_weight (KOneSided r) s [CUpdate cs lr mb]); auto; [repeat constructor | unfold chistory; cbn [foldMM cdo]; apply yields_bind; exists s'; split; [exact Y | constructor]]).
    destruct Sh' as (Sh' & W' & G'). rewrite Sh'. unfold weighted_sum. destruct W' as (_ & Lg' & _ & K'). rewrite K' in *. simpl in Lg'. rewrite <- Lg', sum_two. unfold part_weight. fold (part_at s' 0). fold (part_at s' 1). rewrite !vis_at, E0, E1. simpl. lra. }
  assert (T0 : tile_weight s i j = c_w cp - c_w cm).
  { rewrite Sh. unfold weighted_sum. destruct W as (_ & Lg & _ & K). rewrite K in *. rewrite L, sum_two. unfold part_weight. fold (part_at s 0). fold (part_at s 1). rewrite !vis_at, Em, Ep. simpl. lra. }
  split; [rewrite T, Z0, Z1; reflexivity|]. intros A0 A1. rewrite T, T0, Z0, Z1. fold nu nd. rewrite (Rmin_left _ _ A0), (Rmin_left _ _ A1). lra.
Qed.
Definition refr_ex (every : nat) (lo up : R) : refr :=
  {| rf_every := every; rf_mb := false; rf_upper := up; rf_lower := lo; rf_wmaxp := 1; rf_wmaxm := 1; rf_up := up_ex; rf_read := fun w x => Ret (map (fun row => sumR (map2 Rmult row x)) w) |}.
Example C68_example : let s := comp1 [-1; 1] [1/2; 1/2] 0 0 in well_formed (KOneSided (refr_ex 0 0 1)) s /\
  sent [CSparse 0 [(0%nat, false)]] 0 0 = [false] /\ exists s', yields (update (KOneSided (refr_ex 0 0 1)) [CSparse 0 [(0%nat, false)]] 1 1 s) s' /\ tile_weight s' 0 0 = 1/10.
Proof.
  cbv zeta. split; [|split].
  - repeat split; try discriminate. repeat constructor.
  - reflexivity.
  - eexists. split.
    + cbn [update foldMM onesided_call as_up filter snd negb map]. unfold onesided_send. cbn [comp1 map k_parts zipi length seq combine mapMM fst snd Nat.eqb bindM].
      change (row_pulses 0 [(fst (0%nat, false), false)]) with [(0%nat, 0%nat, false)]. rewrite up_part1 by lra. cbn [bindM]. change (row_pulses 0 []) with (@nil (nat * nat * bool)).
      change (part_op (OPulses []) (part1 (1/2))) with (Ret (part1 (1/2))). cbn [bindM]. apply yields_ret. reflexivity.
    + unfold tile_weight, at_. cbn. lra.
Qed.

Print Assumptions C67_policy.
Print Assumptions C67_round_robin.
Print Assumptions C67_fixed.
Print Assumptions C67_random_refuted.
Print Assumptions C68_only_up.
Print Assumptions C68_constant_step.
