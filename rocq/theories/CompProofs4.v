(** * Compound devices: transfer *)
From Coq Require Import FunctionalExtensionality.
From Verif Require Import Prelude Rand DevModel DevSpec DevProofs PulseModel PulseSpec PulseProofs PulseProps CompModel CompSpec CompProofs CompProofs2 CompProofs3.

(** everything but the crossbars is the same *)
Definition same_rest (s s' : comp) : Prop :=
  k_gam s' = k_gam s /\ k_w s' = k_w s /\ k_idx s' = k_idx s /\ k_cnt s' = k_cnt s /\ k_slices s' = k_slices s /\ length (k_parts s') = length (k_parts s).
Lemma same_refl s : same_rest s s.
Proof. repeat split. Qed.
Lemma same_trans a b c : same_rest a b -> same_rest b c -> same_rest a c.
Proof. intros (A1 & A2 & A3 & A4 & A5 & A6) (B1 & B2 & B3 & B4 & B5 & B6). repeat split; congruence. Qed.
Lemma upd_part_at k f s s' : yields (upd_part k f s) s' -> same_rest s s' /\ (forall k', k' <> k -> part_at s' k' = part_at s k') /\ ((k < length (k_parts s))%nat -> yields (f (part_at s k)) (part_at s' k)).
Proof.
  unfold upd_part. intros Y. apply yields_bind in Y as (ps & Y & E). apply yields_ret in E. subst s'. pose proof (upd_nth_length _ _ _ _ Y) as L. pose proof (upd_nth_at _ _ _ _ Y) as N. split; [|split].
  - repeat split; auto.
  - intros k' Nk. unfold part_at. cbn [k_parts with_parts]. specialize (N k'). apply Nat.eqb_neq in Nk. rewrite Nk in N. destruct (nth_error (k_parts s) k') as [a|] eqn:E1, (nth_error ps k') as [b|] eqn:E2; try contradiction.
    + rewrite (nth_error_nth _ _ _ E1), (nth_error_nth _ _ _ E2). auto.
    + apply nth_error_None in E1. apply nth_error_None in E2. now rewrite !nth_overflow.
  - intros Lk. unfold part_at. cbn [k_parts with_parts]. specialize (N k). rewrite Nat.eqb_refl in N. destruct (nth_error (k_parts s) k) as [a|] eqn:E1, (nth_error ps k) as [b|] eqn:E2; try contradiction.
    + now rewrite (nth_error_nth _ _ _ E1), (nth_error_nth _ _ _ E2).
    + apply nth_error_None in E1. lia.
Qed.
(** one read and write *)
Definition move (t : tpar) (to from : nat) (lr : R) (i0 n : nat) (s : comp) (i : nat) : M comp :=
  let v := unit_vec (in_size t s) i in
  out <~ read_slice t from v s ;;
  u <~ unif ;;
  s1 <~ (if (Rltb u (tp_reset t) && tp_columns t)%bool then upd_part from (part_op (OReset (Z.of_nat i0) (Z.of_nat n) 1)) s else Ret s) ;;
  write_slice t to lr v out s1.
Lemma foldMM_map {A B C} (f : B -> C -> M B) (g : A -> C) : forall l b, foldMM f (map g l) b = foldMM (fun b a => f b (g a)) l b.
Proof. induction l as [|a l IH]; intros b; cbn [map foldMM]; auto. f_equal. now apply functional_extensionality. Qed.
Lemma seq_map_add i0 : forall n a, seq (i0 + a) n = map (fun i => (i0 + i)%nat) (seq a n).
Proof. induction n as [|n IH]; intros a; cbn [seq map]; auto. f_equal. rewrite <- IH. f_equal. lia. Qed.
Lemma read_update_moves t to from lr i0 n s : lr <> 0 -> to <> from -> read_update t to from lr i0 n s = foldMM (move t to from lr i0 n) (seq i0 n) s.
Proof.
  intros L Ne. unfold read_update. rewrite (proj2 (Reqb_false lr 0) L), (proj2 (Nat.eqb_neq to from) Ne). cbn [orb].
  replace (seq i0 n) with (map (fun i => (i0 + i)%nat) (seq 0 n)) by (rewrite <- seq_map_add; f_equal; lia). rewrite foldMM_map. reflexivity.
Qed.
Lemma move_rest t to from lr i0 n s i s' : yields (move t to from lr i0 n s i) s' -> same_rest s s' /\ (forall k, k <> to -> (tp_reset t <= 0 \/ tp_columns t = false \/ k <> from) -> part_at s' k = part_at s k).
Proof.
  unfold move. cbv zeta. intros Y. apply yields_bind in Y as (out & _ & Y). apply yields_bind in Y as (u & Yu & Y). apply yields_bind in Y as (s1 & Y1 & Y).
  unfold write_slice in Y. destruct (upd_part_at _ _ _ _ Y) as (S2 & O2 & _). unfold unif in Yu. apply yields_unif in Yu as (v & Hv & Yu). apply yields_ret in Yu. subst v.
  destruct (_ && _)%bool eqn:E.
  - apply Bool.andb_true_iff in E as [E1 E2]. apply Rltb_true in E1. destruct (upd_part_at _ _ _ _ Y1) as (S1 & O1 & _). split; [eapply same_trans; eauto|]. intros k Nk H. rewrite O2 by auto. apply O1. destruct H as [H | [H | H]]; [lra | congruence | auto].
  - apply yields_ret in Y1. subst s1. split; auto.
Qed.
Lemma moves_rest t to from lr i0 n : forall js s s', yields (foldMM (move t to from lr i0 n) js s) s' -> same_rest s s' /\ (forall k, k <> to -> (tp_reset t <= 0 \/ tp_columns t = false \/ k <> from) -> part_at s' k = part_at s k).
Proof.
  induction js as [|j js IH]; intros s s' Y; cbn [foldMM] in Y; [apply yields_ret in Y; subst; split; [apply same_refl | auto]|].
  apply yields_bind in Y as (s1 & Y1 & Y). destruct (move_rest _ _ _ _ _ _ _ _ _ Y1) as [S1 O1]. destruct (IH _ _ Y) as [S2 O2]. split; [eapply same_trans; eauto|]. intros k Nk H. rewrite O2, O1; auto.
Qed.
Lemma read_update_rest t to from lr i0 n s s' : yields (read_update t to from lr i0 n s) s' -> same_rest s s' /\ (forall k, k <> to -> (tp_reset t <= 0 \/ tp_columns t = false \/ k <> from) -> part_at s' k = part_at s k).
Proof.
  destruct (Req_EM_T lr 0) as [-> | L].
  - unfold read_update. rewrite (proj2 (Reqb_true 0 0) eq_refl). cbn [orb]. intros Y. apply yields_ret in Y. subst. split; [apply same_refl | auto].
  - destruct (Nat.eq_dec to from) as [-> | Ne].
    + unfold read_update. rewrite Nat.eqb_refl, Bool.orb_true_r. intros Y. apply yields_ret in Y. subst. split; [apply same_refl | auto].
    + rewrite read_update_moves by auto. apply moves_rest.
Qed.
(** ** the slices *)
Lemma transfer_slices t to from lr s s' : yields (transfer t to from lr s) s' ->
  exists i0, (tp_random t = false -> i0 = nth from (k_slices s) 0%nat) /\ k_slices s' = set_nth from ((i0 + Nat.min (tp_reads t) (in_size t s)) mod in_size t s)%nat (k_slices s) /\
  k_gam s' = k_gam s /\ k_w s' = k_w s /\ k_idx s' = k_idx s /\ k_cnt s' = k_cnt s /\ length (k_parts s') = length (k_parts s) /\
  (forall k, k <> to -> (tp_reset t <= 0 \/ tp_columns t = false \/ k <> from) -> part_at s' k = part_at s k).
Proof.
  unfold transfer. cbv zeta. intros Y. apply yields_bind in Y as (i0 & Yi & Y). apply yields_bind in Y as (s1 & Y & E). apply yields_ret in E. exists i0. split.
  { intros Rn. rewrite Rn in Yi. now apply yields_ret in Yi. }
  assert (H : same_rest s s1 /\ (forall k, k <> to -> (tp_reset t <= 0 \/ tp_columns t = false \/ k <> from) -> part_at s1 k = part_at s k)).
  { destruct (_ <? _)%nat.
    - apply yields_bind in Y as (a & Y1 & Y). apply read_update_rest in Y1 as [S1 O1]. apply read_update_rest in Y as [S2 O2]. split; [eapply same_trans; eauto|]. intros. rewrite O2, O1; auto.
    - now apply read_update_rest in Y. }
  destruct H as [(G & W & I & C & Sl & L) O]. subst s'. cbn [k_slices k_gam k_w k_idx k_cnt k_parts with_slices]. rewrite Sl. repeat split; auto.
Qed.
Lemma in_size_w t s s' : dims (k_w s') = dims (k_w s) -> in_size t s' = in_size t s.
Proof.
  intros E. unfold in_size. destruct (tp_columns t).
  - rewrite <- !dims_nth. now rewrite E.
  - apply (f_equal (@length nat)) in E. unfold dims in E. now rewrite !map_length in E.
Qed.
Definition due (t : tpar) (mb cnt j : nat) : bool := (Nat.ltb 0 (transfer_every t j mb) && (cnt mod transfer_every t j mb =? 0)%nat)%bool.
Lemma finish_fold t lr mb n : tp_random t = false -> forall js s s', NoDup js -> (forall a, List.In a js -> (a < length (k_slices s))%nat) ->
  yields (foldMM (fun s j => let every := transfer_every t j mb in if (Nat.ltb 0 every && (k_cnt s mod every =? 0)%nat)%bool then transfer t (Nat.min (S j) (n - 1)) j lr s else Ret s) js s) s' ->
  k_cnt s' = k_cnt s /\ k_w s' = k_w s /\ length (k_slices s') = length (k_slices s) /\ length (k_parts s') = length (k_parts s) /\
  forall j, nth j (k_slices s') 0%nat = if (existsb (Nat.eqb j) js && due t mb (k_cnt s) j)%bool then ((nth j (k_slices s) 0%nat + Nat.min (tp_reads t) (in_size t s)) mod in_size t s)%nat else nth j (k_slices s) 0%nat.
Proof.
  intros Rn. induction js as [|a js IH]; intros s s' ND Lj Y; cbn [foldMM] in Y; [apply yields_ret in Y; subst; repeat split; auto|].
  apply yields_bind in Y as (s1 & Y1 & Y). inversion ND as [|? ? Na ND']; subst. cbv zeta in Y1. change (_ && _)%bool with (due t mb (k_cnt s) a) in Y1.
  assert (S1 : k_cnt s1 = k_cnt s /\ k_w s1 = k_w s /\ length (k_parts s1) = length (k_parts s) /\
     k_slices s1 = if due t mb (k_cnt s) a then set_nth a ((nth a (k_slices s) 0 + Nat.min (tp_reads t) (in_size t s)) mod in_size t s)%nat (k_slices s) else k_slices s).
  { destruct (due t mb (k_cnt s) a).
    - apply transfer_slices in Y1 as (i0 & I0 & Sl & _ & W & _ & C & L & _). rewrite Sl, I0 by auto. auto.
    - apply yields_ret in Y1. now subst. }
  destruct S1 as (C1 & W1 & P1 & Sl1). assert (L1 : length (k_slices s1) = length (k_slices s)) by (rewrite Sl1; destruct (due _ _ _ _); [apply set_nth_length | auto]).
  destruct (IH s1 s' ND') as (C2 & W2 & L2 & P2 & N2); [intros b Ib; rewrite L1; apply Lj; simpl; auto | exact Y |].
  repeat split; try congruence. intros j. rewrite N2, C1. assert (Is : in_size t s1 = in_size t s) by (apply in_size_w; now rewrite W1). rewrite Is. cbn [existsb].
  assert (Nth : nth j (k_slices s1) 0%nat = if ((j =? a)%nat && due t mb (k_cnt s) a)%bool then ((nth a (k_slices s) 0 + Nat.min (tp_reads t) (in_size t s)) mod in_size t s)%nat else nth j (k_slices s) 0%nat).
  { rewrite Sl1. destruct (due t mb (k_cnt s) a); [|now rewrite Bool.andb_false_r]. rewrite set_nth_nth, Bool.andb_true_r. rewrite (proj2 (Nat.ltb_lt _ _) (Lj a (or_introl eq_refl))), Bool.andb_true_r. reflexivity. }
  rewrite Nth. destruct (Nat.eqb_spec j a) as [-> | Nj]; cbn [orb andb]; auto.
  assert (Ex : existsb (Nat.eqb a) js = false). { apply Bool.not_true_is_false. intros Ex. apply existsb_exists in Ex as (z & Iz & Ez). apply Nat.eqb_eq in Ez. now subst. }
  rewrite Ex. cbn [andb]. reflexivity.
Qed.
Lemma transfer_calls_rest : forall cs s s', yields (foldMM transfer_call cs s) s' -> k_cnt s' = k_cnt s /\ k_w s' = k_w s /\ k_slices s' = k_slices s /\ length (k_parts s') = length (k_parts s) /\ (forall k, k <> 0%nat -> part_at s' k = part_at s k).
Proof.
  induction cs as [|c cs IH]; intros s s' Y; cbn [foldMM] in Y; [apply yields_ret in Y; subst; repeat split; auto|]. apply yields_bind in Y as (s1 & Y1 & Y). destruct (IH _ _ Y) as (C & W & Sl & L & P).
  assert (H : k_cnt s1 = k_cnt s /\ k_w s1 = k_w s /\ k_slices s1 = k_slices s /\ length (k_parts s1) = length (k_parts s) /\ (forall k, k <> 0%nat -> part_at s1 k = part_at s k)).
  { assert (G : forall l, yields (send SingleFixed (with_idx s 0 (k_cnt s)) l) s1 -> k_cnt s1 = k_cnt s /\ k_w s1 = k_w s /\ k_slices s1 = k_slices s /\ length (k_parts s1) = length (k_parts s) /\ (forall k, k <> 0%nat -> part_at s1 k = part_at s k)).
    { intros l Y2. unfold send in Y2. apply yields_bind in Y2 as (ps & Y2 & E). apply yields_ret in E. subst s1. cbn [k_cnt k_w k_slices k_parts with_parts with_idx] in *. repeat split; auto.
      - apply mapMM_length in Y2. unfold zipi in Y2. rewrite combine_length, seq_length in Y2. lia.
      - intros k Nk. unfold part_at. cbn [k_parts with_parts]. destruct (Nat.ltb_spec k (length (k_parts s))) as [Lk | Lk].
        + pose proof (mapMM_zipi_nth _ _ _ k Y2 Lk) as Yk. cbn [fst snd k_idx with_idx active single negb orb] in Yk. apply Nat.eqb_neq in Nk. rewrite Nk in Yk. now apply yields_ret in Yk.
        + assert (length ps = length (k_parts s)). { apply mapMM_length in Y2. unfold zipi in Y2. rewrite combine_length, seq_length in Y2. lia. } rewrite !nth_overflow by lia. reflexivity. }
    destruct c; cbn [transfer_call] in Y1; eapply G; eauto. }
  destruct H as (C1 & W1 & S1 & L1 & P1). repeat split; try congruence. intros k Nk. rewrite P, P1; auto.
Qed.
(** ** What is transferred *)
Lemma at_transposed w n i b : Forall (fun row : vec => length row = n) w -> (0 < length w)%nat -> at_ (transposed w) b i = at_ w i b.
Proof.
  intros F L. unfold transposed. assert (N0 : length (nth 0 w []) = n). { rewrite Forall_forall in F. apply F. now apply nth_In. } match goal with |- context[seq 0 ?L] => replace L with n by (symmetry; exact N0) end. unfold at_.
  destruct (Nat.ltb_spec b n) as [Lb | Lb].
  - rewrite (nth_indep _ [] ((fun j => map (fun row => nth j row 0) w) 0%nat)) by (rewrite map_length, seq_length; lia). rewrite (map_nth (fun j => map (fun row => nth j row 0) w)), seq_nth by lia. cbn [plus].
    assert (Z : nth b (@nil R) 0 = 0) by (destruct b; reflexivity). rewrite <- Z at 1. apply (map_nth (fun row => nth b row 0)).
  - rewrite (nth_overflow (map _ _)) by (rewrite map_length, seq_length; lia). destruct (Nat.ltb_spec i (length w)) as [Li | Li].
    + rewrite (nth_overflow (nth i w [])); [destruct i; reflexivity|]. rewrite Forall_forall in F. rewrite (F (nth i w [])); [lia | now apply nth_In].
    + rewrite (nth_overflow w) by lia. destruct i, b; reflexivity.
Qed.
Lemma transposed_rows w : Forall (fun row : vec => length row = length w) (transposed w).
Proof. unfold transposed. apply Forall_forall. intros row I. apply in_map_iff in I as (j & <- & _). apply map_length. Qed.
Lemma nth_map_Ropp k l : nth k (map Ropp l) 0 = - nth k l 0.
Proof. rewrite <- (map_nth Ropp). f_equal. lra. Qed.
Definition slice_of (t : tpar) (i j : nat) : nat := if tp_columns t then j else i.
Definition no_reset (t : tpar) : Prop := tp_reset t <= 0 \/ tp_columns t = false.
(** the cross point gets pulses that move it towards [lr * w] *)
Definition pulsed_towards (u : upar) (mt : meta) (lr w : R) (c c' : cell) : Prop :=
  exists k, yields (pulses mt k (Rltb (lr * w) 0) c) c' /\ (Z.of_nat k <= slots u lr (m_dwmin mt))%Z /\ (w = 0 -> c' = c).
Definition rect (n m : nat) (s : comp) : Prop := (0 < m)%nat /\ dims (k_w s) = repeat n m /\ Forall (pdims (repeat n m)) (k_parts s).
Lemma rect_vis n m s k : rect n m s -> (k < length (k_parts s))%nat -> Forall (fun row : vec => length row = n) (vis (snd (part_at s k))) /\ length (vis (snd (part_at s k))) = m.
Proof.
  intros (_ & _ & F) L. apply repeat_dims. rewrite dims_vis. rewrite Forall_forall in F. apply (F (part_at s k)). unfold part_at. now apply nth_In.
Qed.
Lemma rect_in n m t s : rect n m s -> in_size t s = if tp_columns t then n else m.
Proof.
  intros (M & D & _). unfold in_size. destruct (tp_columns t).
  - rewrite <- dims_nth, D. destruct m; [lia | reflexivity].
  - apply (f_equal (@length nat)) in D. unfold dims in D. now rewrite map_length, repeat_length in D.
Qed.
Lemma move_cell t u to from lr i0 k0 n m s i s' a b c : ideal_read (tp_read t) -> tp_up t = init_upar u -> sensible u -> stochastic u \/ 0 < lr -> lr <> 0 -> to <> from ->
  rect n m s -> (to < length (k_parts s))%nat -> (from < length (k_parts s))%nat -> 0 < m_dwmin (fst (part_at s to)) -> (i < in_size t s)%nat ->
  yields (move t to from lr i0 k0 s i) s' -> cell_at (d_cells (snd (part_at s to))) a b = Some c ->
  exists c', cell_at (d_cells (snd (part_at s' to))) a b = Some c' /\ fst (part_at s' to) = fst (part_at s to) /\
    if (slice_of t a b =? i)%nat then pulsed_towards u (fst (part_at s to)) lr (part_weight s from a b) c c' else c' = c.
Proof.
  intros IR U Hs Ht L Ne Rc Lt Lf Hg Li Y E. unfold move in Y. cbv zeta in Y. apply yields_bind in Y as (out & Yo & Y). apply yields_bind in Y as (v & Yv & Y). apply yields_bind in Y as (s1 & Y1 & Y).
  unfold unif in Yv. apply yields_unif in Yv as (v' & Hv & Yv). apply yields_ret in Yv. subst v'.
  assert (Es : part_at s1 to = part_at s to /\ length (k_parts s1) = length (k_parts s)). { destruct (_ && _)%bool eqn:Eb in Y1; [|apply yields_ret in Y1; now subst]. destruct (upd_part_at _ _ _ _ Y1) as (S1 & O1 & _). split; [now apply O1 | apply S1]. } destruct Es as [Es Ls].
  unfold write_slice in Y. destruct (upd_part_at _ _ _ _ Y) as (_ & _ & Yt). rewrite Ls in Yt. specialize (Yt Lt). rewrite Es in Yt. apply yields_bind in Yt as (dv & Yd & Ye). apply yields_ret in Ye. rewrite Ye. cbn [fst snd].
  unfold read_slice in Yo. cbv zeta in Yo. rewrite IR in Yo. cbn [bindM] in Yo. apply yields_ret in Yo. change (nth from (k_parts s) no_part) with (part_at s from) in Yo.
  destruct (rect_vis n m s from Rc Lf) as [Rv Lv]. pose proof Rc as (Pm & _ & _). rewrite (rect_in n m t s Rc) in *. unfold slice_of, part_weight. change (nth from (k_parts s) no_part) with (part_at s from). rewrite U in Yd.
  destruct (tp_columns t).
  - destruct (uv_cell u _ lr _ _ _ _ a b c Hs Hg L Ht Yd E) as (k & c' & E' & Yp & Z & Nk). exists c'. split; [exact E'|]. split; [reflexivity|].
    assert (Na : nth a out 0 = - at_ (vis (snd (part_at s from))) a i) by (rewrite Yo, nth_map_Ropp, read_unit by exact Rv; reflexivity).
    rewrite unit_nth, Na, (proj2 (Nat.ltb_lt i n) Li), Bool.andb_true_r in Yp, Z. destruct (Nat.eqb_spec b i) as [-> | Nb].
    + exists k. set (w := at_ _ a i) in *. split; [|split; [exact Nk | intros W0; apply Z; rewrite W0; lra]]. replace (Rltb (lr * w) 0) with (Rltb 0 (lr * 1 * - w)); [exact Yp|].
      destruct (Rltb (lr * w) 0) eqn:F; [apply Rltb_true in F; apply Rltb_true; lra | apply Rltb_false in F; apply Rltb_false; lra].
    + apply Z. lra.
  - destruct (uv_cell u _ lr _ _ _ _ a b c Hs Hg L Ht Yd E) as (k & c' & E' & Yp & Z & Nk). exists c'. split; [exact E'|]. split; [reflexivity|].
    assert (Nb : nth b out 0 = - at_ (vis (snd (part_at s from))) i b). { rewrite Yo, nth_map_Ropp. pose proof (transposed_rows (vis (snd (part_at s from)))) as Tr. rewrite Lv in Tr. rewrite (read_unit _ m) by exact Tr. rewrite (at_transposed _ n _ _ Rv) by (eapply Nat.lt_le_trans; [exact Pm | apply Nat.eq_le_incl; symmetry; exact Lv]). reflexivity. }
    rewrite unit_nth, Nb, (proj2 (Nat.ltb_lt i m) Li), Bool.andb_true_r in Yp, Z. destruct (Nat.eqb_spec a i) as [-> | Na].
    + exists k. set (w := at_ _ i b) in *. split; [|split; [exact Nk | intros W0; apply Z; rewrite W0; lra]]. replace (Rltb (lr * w) 0) with (Rltb 0 (lr * - w * 1)); [exact Yp|].
      destruct (Rltb (lr * w) 0) eqn:F; [apply Rltb_true in F; apply Rltb_true; lra | apply Rltb_false in F; apply Rltb_false; lra].
    + apply Z. lra.
Qed.
Lemma move_rect t to from lr i0 k0 n m s i s' : rect n m s -> yields (move t to from lr i0 k0 s i) s' -> rect n m s'.
Proof.
  intros (P & D & F) Y. destruct (move_rest _ _ _ _ _ _ _ _ _ Y) as [(G & W & _ & _ & _ & L) _]. split; [exact P|]. split; [now rewrite W|].
  unfold move in Y. cbv zeta in Y. apply yields_bind in Y as (out & Yo & Y). apply yields_bind in Y as (v & Yv & Y). apply yields_bind in Y as (s1 & Y1 & Y).
  assert (F1 : Forall (pdims (repeat n m)) (k_parts s1)).
  { match type of Y1 with yields (if ?b then _ else _) _ => destruct b end; [|apply yields_ret in Y1; now subst]. unfold upd_part in Y1. apply yields_bind in Y1 as (ps & Y1 & E). apply yields_ret in E. subst s1. cbn [k_parts with_parts].
    refine (proj1 (upd_parts_dims _ _ _ _ _ F _ Y1)). intros p p' Pp Yp. refine (proj1 (part_op_dims _ (OReset (Z.of_nat i0) (Z.of_nat k0) 1) _ _ _ Pp Yp)); exact Logic.I. }
  unfold write_slice, upd_part in Y. apply yields_bind in Y as (ps & Y & E). apply yields_ret in E. subst s'. cbn [k_parts with_parts].
  refine (proj1 (upd_parts_dims _ _ _ _ _ F1 _ Y)). intros p p' Pp Yp. apply yields_bind in Yp as (dv & Yd & Ye). apply yields_ret in Ye. subst p'. unfold pdims in *. cbn [snd]. rewrite <- Pp. destruct (tp_columns t); eapply update_vector_dims; eauto.
Qed.
Lemma moves_cell t u to from lr i0 k0 n m : ideal_read (tp_read t) -> tp_up t = init_upar u -> sensible u -> stochastic u \/ 0 < lr -> lr <> 0 -> to <> from -> no_reset t ->
  forall js s s' a b c, NoDup js -> (forall i, List.In i js -> (i < in_size t s)%nat) -> rect n m s -> (to < length (k_parts s))%nat -> (from < length (k_parts s))%nat -> 0 < m_dwmin (fst (part_at s to)) ->
  yields (foldMM (move t to from lr i0 k0) js s) s' -> cell_at (d_cells (snd (part_at s to))) a b = Some c ->
  exists c', cell_at (d_cells (snd (part_at s' to))) a b = Some c' /\ fst (part_at s' to) = fst (part_at s to) /\ rect n m s' /\
    if existsb (Nat.eqb (slice_of t a b)) js then pulsed_towards u (fst (part_at s to)) lr (part_weight s from a b) c c' else c' = c.
Proof.
  intros IR U Hs Ht L Ne NR. induction js as [|j js IH]; intros s s' a b c ND Lj Rc Lt Lf Hg Y E; cbn [foldMM] in Y.
  - apply yields_ret in Y. subst s'. exists c. cbn [existsb]. auto.
  - apply yields_bind in Y as (s1 & Y1 & Y). inversion ND as [|? ? Nj ND']; subst. destruct (move_cell t u to from lr i0 k0 n m s j s1 a b c IR U Hs Ht L Ne Rc Lt Lf Hg (Lj j (or_introl eq_refl)) Y1 E) as (c1 & E1 & M1 & H1).
    pose proof (move_rect _ _ _ _ _ _ _ _ _ _ _ Rc Y1) as Rc1. destruct (move_rest _ _ _ _ _ _ _ _ _ Y1) as [(G & W & _ & _ & _ & Lp) O].
    assert (Pf : part_at s1 from = part_at s from) by (apply O; [congruence | destruct NR; auto]).
    assert (Is : in_size t s1 = in_size t s) by (apply in_size_w; now rewrite W).
    destruct (IH s1 s' a b c1 ND') as (c' & E' & M' & R' & H'); auto; try lia.
    + intros i Ii. rewrite Is. apply Lj. simpl. auto.
    + now rewrite M1.
    + exists c'. split; [exact E'|]. split; [congruence|]. split; [exact R'|]. cbn [existsb].
      assert (Pw : part_weight s1 from a b = part_weight s from a b) by (unfold part_weight; change (nth from (k_parts s1) no_part) with (part_at s1 from); now rewrite Pf). rewrite Pw, M1 in H'.
      destruct (Nat.eqb_spec (slice_of t a b) j) as [Ej | Nej]; cbn [orb].
      * assert (Ex : existsb (Nat.eqb (slice_of t a b)) js = false). { apply Bool.not_true_is_false. intros Ex. apply existsb_exists in Ex as (z & Iz & Ez). apply Nat.eqb_eq in Ez. congruence. }
        rewrite Ex in H'. now subst c1.
      * now subst c1.
Qed.

Lemma existsb_seq i a n : existsb (Nat.eqb i) (seq a n) = ((a <=? i) && (i <? a + n))%nat%bool.
Proof.
  destruct ((a <=? i) && (i <? a + n))%nat%bool eqn:E.
  - apply Bool.andb_true_iff in E as [E1 E2]. apply Nat.leb_le in E1. apply Nat.ltb_lt in E2. apply existsb_exists. exists i. split; [apply in_seq; lia | apply Nat.eqb_refl].
  - apply Bool.not_true_is_false. intros Ex. apply existsb_exists in Ex as (z & Iz & Ez). apply Nat.eqb_eq in Ez. subst z. apply in_seq in Iz. apply Bool.andb_false_iff in E as [E | E]; [apply Nat.leb_gt in E | apply Nat.ltb_ge in E]; lia.
Qed.
Lemma repeat_dims_cells n m cs i j c : dims cs = repeat n m -> cell_at cs i j = Some c -> (i < m)%nat /\ (j < n)%nat.
Proof.
  intros D E. assert (Li : (i < m)%nat). { pose proof (cell_row_len _ _ _ _ E). apply (f_equal (@length nat)) in D. unfold dims in D. rewrite map_length, repeat_length in D. lia. }
  split; auto. destruct (Nat.ltb_spec j n); auto. exfalso. assert (N : cell_at cs i j = None). { apply cell_at_dims. rewrite D. rewrite (nth_error_nth (repeat n m) i 0%nat (x := n)); [auto | now apply nth_error_repeat]. } congruence.
Qed.
